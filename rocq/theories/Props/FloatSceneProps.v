(** Scenes with rounded arithmetic: C136. *)
From Coq Require Import Reals List ZArith Bool Lra Lia Psatz Classical Permutation.
From Verif.Model Require Import Base Vec Algebraic Transform Voxel Post Generator Volume Priority Float FloatScene.
From Verif.Spec Require Import Geometry AlgSpec CrystalSpec FloatSpec PrioritySpec FloatSceneSpec.
From Verif.Proofs Require Import VecFacts PriorityFacts VolumeFacts GenFacts FloatFacts.
From Verif.Props Require Import BoxProps GeneratorProps FloatProps FloatSupplyProps PartsProps.
Import ListNotations.
Open Scope R_scope.

Lemma each_split {A} : forall (l pre post : list A) o, l = pre ++ o :: post -> In (o, pre ++ post) (each_with_others l).
Proof.
  intros l pre. revert l. induction pre as [|x pre IH]; intros l post o ->; cbn [app each_with_others]; [left; reflexivity|].
  right. apply in_map_iff. exists (o, pre ++ post). split; [reflexivity|]. apply IH. reflexivity.
Qed.
Lemma each_split_inv {A} : forall (l : list A) o os, In (o, os) (each_with_others l) -> exists pre post, l = pre ++ o :: post /\ os = pre ++ post.
Proof.
  induction l as [|x l IH]; intros o os H; [destruct H|]. cbn [each_with_others] in H. destruct H as [E|H].
  - inversion E; subst. exists [], os. auto.
  - apply in_map_iff in H as ((o', os') & E & H). inversion E; subst. destruct (IH _ _ H) as (pre & post & -> & ->). exists (x :: pre), post. auto.
Qed.
Lemma combine_fst_snd {A B} : forall l : list (A * B), combine (map fst l) (map snd l) = l.
Proof. induction l as [|[a b] l IH]; cbn; congruence. Qed.

(** the objects of the scene after populating, and what is read from it *)
Lemma f_scene_inv : forall w dotm dot1 dot2 objs ats, f_scene w dotm dot1 dot2 objs = Ok ats ->
  exists os, mapM (fo_populate w dotm dot1 dot2) objs = Ok os /\
    Permutation ats (contents fo_prio (fun o => map fst (fo_ats o)) (fun o => map snd (fo_ats o)) (fun o => f_leaf_inside w dot1 dot2 (fo_leaf o)) os).
Proof.
  intros w dotm dot1 dot2 objs ats H. unfold f_scene in H. destruct (mapM _ objs) as [os|] eqn:E; [|discriminate]. cbn [bind] in H.
  exists os. split; [reflexivity|]. injection H as <-.
  apply (resolve_correct fo_prio (fun o => map fst (fo_ats o)) (fun o => map snd (fo_ats o)) (fun o => f_leaf_inside w dot1 dot2 (fo_leaf o))).
  intros o _. rewrite !map_length. reflexivity.
Qed.
Lemma populated : forall w dotm dot1 dot2 objs os, mapM (fo_populate w dotm dot1 dot2) objs = Ok os ->
  Forall2 (fun o o' => fo_leaf o' = fo_leaf o /\ fo_gen o' = fo_gen o /\ f_populate w dotm dot1 dot2 (fo_frac o) (fo_leaf o) (fo_gen o) = Ok (fo_ats o')) objs os.
Proof.
  intros w dotm dot1 dot2. induction objs as [|o objs IH]; intros os H; cbn [mapM] in H; [injection H as <-; constructor|].
  unfold fo_populate at 1 in H. destruct (f_populate _ _ _ _ _ _ _) as [a|] eqn:E; [|discriminate]. cbn [bind] in H.
  destruct (mapM _ objs) as [t|]; [|discriminate]. cbn [bind] in H. injection H as <-. constructor; auto.
Qed.

Lemma inside_true : forall w dot1 dot2 o p q, accurate dot1 -> accurate dot2 -> fair o -> inner p -> dist q p <= slip ->
  Forall (fun a => within 0 a p) (surfaces o) -> f_leaf_inside w dot1 dot2 (fo_leaf o) q = true.
Proof.
  intros w dot1 dot2 o p q H1 H2 (_ & HT & _ & HM & _) IP DP WP. pose proof (inner_move _ _ IP DP) as VM.
  destruct (C106_volume w dot1 dot2 (fo_leaf o) q H1 H2 HM VM) as [K _]. rewrite K, HT; [reflexivity|].
  unfold surfaces in *. rewrite Forall_forall in *. intros a Ha. specialize (HM a Ha). pose proof HM as [MT _]. rewrite big_val in MT.
  apply within_mono with (0 + 2 * slip); [rewrite slip_val; unfold e28; lra|]. eapply within_move; eauto.
Qed.
Lemma inside_false : forall w dot1 dot2 o p q, accurate dot1 -> accurate dot2 -> fair o -> inner p -> dist q p <= slip ->
  Exists (fun a => ~ within (3 * pad_of a) a p) (surfaces o) -> f_leaf_inside w dot1 dot2 (fo_leaf o) q = false.
Proof.
  intros w dot1 dot2 o p q H1 H2 (_ & HT & _ & HM & _) IP DP WP. pose proof (inner_move _ _ IP DP) as VM.
  destruct (C106_volume w dot1 dot2 (fo_leaf o) q H1 H2 HM VM) as [_ K]. apply K.
  unfold surfaces in *. rewrite Exists_exists in *. destruct WP as (a & Ha & N). exists a. split; [exact Ha|]. intros W. apply N.
  rewrite Forall_forall in HM. specialize (HM a Ha). pose proof HM as [MT _]. rewrite big_val in MT.
  apply within_mono with (2 * pad_of a + 2 * slip); [rewrite slip_val; unfold e28; lra|]. eapply within_move; eauto. rewrite dist_sym. exact DP.
Qed.
Lemma Forall2_split : forall {A B} (P : A -> B -> Prop) pre o post os, Forall2 P (pre ++ o :: post) os ->
  exists pre' o' post', os = pre' ++ o' :: post' /\ Forall2 P pre pre' /\ P o o' /\ Forall2 P post post'.
Proof.
  intros A B P pre o post os H. apply Forall2_app_inv_l in H as (l1 & l2 & F1 & F2 & ->). inversion F2; subst. eauto 8.
Qed.
Lemma Forall2_split_r : forall {A B} (P : A -> B -> Prop) os pre o post, Forall2 P os (pre ++ o :: post) ->
  exists pre' o' post', os = pre' ++ o' :: post' /\ Forall2 P pre' pre /\ P o' o /\ Forall2 P post' post.
Proof.
  intros A B P os pre o post H. apply Forall2_app_inv_r in H as (l1 & l2 & F1 & F2 & ->). inversion F2; subst. eauto 8.
Qed.

(** Populating always succeeds, and no site is lost but to another object: a site of an object
    that lies in all bodies of that object, and farther than three tolerances from one of the
    bodies of every other object of smaller or equal priority number, is there. *)
Theorem C136_complete : forall w dotm dot1 dot2 delta objs,
  accurate dotm -> accurate dot1 -> accurate dot2 -> Forall fair objs ->
  (forall o box, In o objs -> get_bounding_box w (fo_leaf o) = BArr box -> corners_within delta (basis_of (fo_gen o)) (origin_of (fo_gen o)) (fo_frac o) box) ->
  exists ats, f_scene w dotm dot1 dot2 objs = Ok ats /\
  forall pre o post n f z, objs = pre ++ o :: post -> In (f, z) (cell_sites (fo_gen o)) -> clear_of delta f -> light (basis_of (fo_gen o)) n f ->
    inner (site o n f) -> Forall (fun a => within 0 a (site o n f)) (surfaces o) ->
    (forall o', In o' (pre ++ post) -> (fo_prio o' <= fo_prio o)%Z -> Exists (fun a => ~ within (3 * pad_of a) a (site o n f)) (surfaces o')) ->
    exists q, In (q, z) ats /\ dist q (site o n f) <= slip.
Proof.
  intros w dotm dot1 dot2 delta objs HA H1 H2 HF HC.
  assert (PO : exists os, mapM (fo_populate w dotm dot1 dot2) objs = Ok os).
  { clear - HA H1 H2 HF HC. induction objs as [|o objs IH]; [exists []; reflexivity|]. inversion HF as [|? ? (P1 & P2 & P3 & P4 & P5 & P6 & P7) HF']; subst.
    destruct IH as [os E]; [exact HF'|intros o' box I; apply HC; right; exact I|].
    destruct (C115_complete w dotm dot1 dot2 (fo_frac o) (fo_leaf o) (fo_gen o) delta HA H1 H2 P1 P2 P4 P5 P6 P7 (fun box => HC o box (or_introl eq_refl))) as (a & EA & _).
    eexists. cbn [mapM]. unfold fo_populate at 1. rewrite EA. cbn [bind]. rewrite E. reflexivity. }
  destruct PO as [os PO].
  assert (SC : exists ats, f_scene w dotm dot1 dot2 objs = Ok ats) by (unfold f_scene; rewrite PO; eexists; reflexivity).
  destruct SC as [ats SC]. exists ats. split; [exact SC|]. destruct (f_scene_inv _ _ _ _ _ _ SC) as (os' & PO' & PE). rewrite PO in PO'. injection PO' as <-.
  pose proof (populated _ _ _ _ _ _ PO) as PP. clear SC PO.
  intros pre o post n f z EO Hf CF LT IP WP HO. subst objs. destruct (Forall2_split _ _ _ _ _ PP) as (pre' & o1 & post' & -> & F1 & (L1 & G1 & E1) & F2).
  pose proof HF as HF0. apply Forall_app in HF as [HF1 HF2]. inversion HF2 as [|? ? FO HF3]; subst. destruct FO as (P1 & P2 & P3 & P4 & P5 & P6 & P7).
  destruct (C115_complete w dotm dot1 dot2 (fo_frac o) (fo_leaf o) (fo_gen o) delta HA H1 H2 P1 P2 P4 P5 P6 P7) as (a & EA & K).
  { intros box. apply HC. apply in_or_app. right. left. reflexivity. }
  rewrite E1 in EA. injection EA as <-. destruct (K n f z Hf CF LT IP WP) as (q & I & D). exists q. split; [|exact D].
  apply (Permutation_in _ (Permutation_sym PE)). unfold contents. apply in_flat_map. exists (o1, pre' ++ post'). split; [apply each_split; reflexivity|].
  unfold contribution. cbn [fst snd]. apply filter_In. rewrite combine_fst_snd. split; [exact I|]. cbn [fst]. apply negb_true_iff. unfold loses.
  destruct (existsb _ _) eqn:EX; [|reflexivity]. exfalso. apply existsb_exists in EX as (o2 & I2 & B). apply andb_true_iff in B as [B1 B2]. apply Z.leb_le in B1.
  assert (X : exists o', In o' (pre ++ post) /\ fo_leaf o2 = fo_leaf o').
  { apply in_app_or in I2 as [I2|I2]; apply in_split in I2 as (u & v & ->).
    - destruct (Forall2_split_r _ _ _ _ _ F1) as (u' & o' & v' & -> & _ & (L & _) & _). exists o'. split; [|exact L]. apply in_or_app; left. apply in_or_app; right; left; reflexivity.
    - destruct (Forall2_split_r _ _ _ _ _ F2) as (u' & o' & v' & -> & _ & (L & _) & _). exists o'. split; [|exact L]. apply in_or_app; right. apply in_or_app; right; left; reflexivity. }
  destruct X as (o' & I' & L). rewrite L in B2.
  assert (PR : (fo_prio o' <= fo_prio o)%Z) by (unfold fo_prio in *; rewrite L, L1 in B1; exact B1).
  specialize (HO o' I' PR). rewrite (inside_false w dot1 dot2 o' (site o n f) q H1 H2) in B2; auto; try discriminate.
  rewrite Forall_forall in HF0. apply HF0. apply in_app_or in I' as [J|J]; apply in_or_app; [left; exact J|right; right; exact J].
Qed.

(** Nothing is added: every atom is a rounded site of one of the objects, of the right species,
    inside or within three tolerances of every body of that object, and not in all bodies of
    another object of smaller or equal priority number. *)
Theorem C136_sound : forall w dotm dot1 dot2 objs ats q z,
  accurate dotm -> accurate dot1 -> accurate dot2 -> Forall fair objs ->
  f_scene w dotm dot1 dot2 objs = Ok ats -> In (q, z) ats ->
  exists pre o post n f, objs = pre ++ o :: post /\ In (f, z) (cell_sites (fo_gen o)) /\
    (light (basis_of (fo_gen o)) n f -> dist q (site o n f) <= slip /\
      (inner (site o n f) -> Forall (fun a => within (3 * pad_of a) a (site o n f)) (surfaces o) /\
        forall o', In o' (pre ++ post) -> (fo_prio o' <= fo_prio o)%Z -> ~ Forall (fun a => within 0 a (site o n f)) (surfaces o'))).
Proof.
  intros w dotm dot1 dot2 objs ats q z HA H1 H2 HF SC HI. destruct (f_scene_inv _ _ _ _ _ _ SC) as (os & PO & PE).
  pose proof (populated _ _ _ _ _ _ PO) as PP. apply (Permutation_in _ PE) in HI. unfold contents in HI. apply in_flat_map in HI as ((o1 & os1) & IE & HI).
  apply each_split_inv in IE as (pre' & post' & -> & ->). unfold contribution in HI. cbn [fst snd] in HI. apply filter_In in HI as [I NL]. rewrite combine_fst_snd in I. cbn [fst] in NL.
  destruct (Forall2_split_r _ _ _ _ _ PP) as (pre & o & post & -> & F1 & (L1 & G1 & E1) & F2).
  pose proof HF as HF0. apply Forall_app in HF as [HF1 HF2]. inversion HF2 as [|? ? FO HF3]; subst. destruct FO as (P1 & P2 & P3 & P4 & P5 & P6 & P7).
  destruct (C115_sound w dotm dot1 dot2 _ _ _ _ q z HA H1 H2 P4 P7 E1 I) as (n & f & Hf & K). exists pre, o, post, n, f. split; [reflexivity|]. split; [exact Hf|].
  intros LT. destruct (K LT) as [D W]. split; [exact D|]. intros IP. split; [exact (W IP)|].
  intros o' I' PR WA. apply negb_true_iff in NL. unfold loses in NL.
  assert (X : exists o2, In o2 (pre' ++ post') /\ fo_leaf o2 = fo_leaf o').
  { apply in_app_or in I' as [I2|I2]; apply in_split in I2 as (u & v & ->).
    - destruct (Forall2_split _ _ _ _ _ F1) as (u' & o2 & v' & -> & _ & (L & _) & _). exists o2. split; [|exact L]. apply in_or_app; left. apply in_or_app; right; left; reflexivity.
    - destruct (Forall2_split _ _ _ _ _ F2) as (u' & o2 & v' & -> & _ & (L & _) & _). exists o2. split; [|exact L]. apply in_or_app; right. apply in_or_app; right; left; reflexivity. }
  destruct X as (o2 & I2 & L). enough (existsb (fun o' => (fo_prio o' <=? fo_prio o1)%Z && f_leaf_inside w dot1 dot2 (fo_leaf o') q) (pre' ++ post') = true) by congruence.
  apply existsb_exists. exists o2. split; [exact I2|]. apply andb_true_iff. split; [apply Z.leb_le; unfold fo_prio in *; rewrite L, L1; exact PR|].
  rewrite L. apply (inside_true w dot1 dot2 o' (site o n f) q H1 H2); auto.
  rewrite Forall_forall in HF0. apply HF0. apply in_app_or in I' as [J|J]; apply in_or_app; [left; exact J|right; right; exact J].
Qed.

Lemma filter_used {A B} (P : A -> B -> Prop) (k : B -> bool) : forall us al, Forall2 P us al -> NoDup us ->
  exists us', NoDup us' /\ incl us' us /\ Forall2 P us' (filter k al).
Proof.
  intros us al F. induction F as [|u a us al Hu F IH]; intros ND; cbn [filter].
  - exists []. split; [constructor|]. split; [intros ? []|constructor].
  - inversion ND; subst. destruct (IH H2) as (us' & N & I & F'). destruct (k a).
    + exists (u :: us'). split; [constructor; auto|]. split; [|constructor; auto]. intros x [->|Hx]; [left; auto|right; auto].
    + exists us'. split; [auto|]. split; [|auto]. intros x Hx. right. auto.
Qed.
Lemma each_fst {A} : forall l : list A, map fst (each_with_others l) = l.
Proof. induction l as [|x l IH]; cbn [each_with_others map fst]; [reflexivity|]. f_equal. rewrite map_map. rewrite <- IH at 2. apply map_ext. reflexivity. Qed.

(** and no site of an object is used twice. *)
Theorem C136_once : forall w dotm dot1 dot2 objs ats, f_scene w dotm dot1 dot2 objs = Ok ats ->
  exists (used : list (nat * ((Z * Z * Z) * nat))) ats', NoDup used /\ Permutation ats' ats /\
    Forall2 (fun u a => exists o f, nth_error objs (fst u) = Some o /\ nth_error (cell_sites (fo_gen o)) (snd (snd u)) = Some (f, snd a) /\
                                    fst a = f_site_pos dotm (g_voxel (fo_gen o)) (fst (snd u)) f) used ats'.
Proof.
  intros w dotm dot1 dot2 objs ats SC. destruct (f_scene_inv _ _ _ _ _ _ SC) as (os & PO & PE). pose proof (populated _ _ _ _ _ _ PO) as PP. clear SC PO.
  unfold contents in PE. set (ctr := contribution _ _ _ _) in PE.
  assert (G : forall oos pre objs', objs = pre ++ objs' -> Forall2 (fun o (oo : fobj * list fobj) => fo_leaf (fst oo) = fo_leaf o /\ fo_gen (fst oo) = fo_gen o /\ f_populate w dotm dot1 dot2 (fo_frac o) (fo_leaf o) (fo_gen o) = Ok (fo_ats (fst oo))) objs' oos ->
    exists used : list (nat * ((Z * Z * Z) * nat)), NoDup used /\ (forall u, In u used -> (length pre <= fst u)%nat) /\
    Forall2 (fun u a => exists o f, nth_error objs (fst u) = Some o /\ nth_error (cell_sites (fo_gen o)) (snd (snd u)) = Some (f, snd a) /\
                                    fst a = f_site_pos dotm (g_voxel (fo_gen o)) (fst (snd u)) f) used (flat_map ctr oos)).
  { induction oos as [|oo oos IH]; intros pre objs' EO F; cbn [flat_map].
    - exists []. split; [constructor|]. split; [intros u []|constructor].
    - inversion F as [|o ? rest ? (_ & _ & E) F']; subst objs'; subst.
      destruct (IH (pre ++ [o]) rest) as (us2 & N2 & B2 & FF2); [rewrite <- app_assoc; reflexivity|exact F'|].
      destruct (C115_once _ _ _ _ _ _ _ _ E) as (us1 & N1 & FF1).
      destruct (filter_used _ (fun ps => negb (loses fo_prio (fun o => f_leaf_inside w dot1 dot2 (fo_leaf o)) (fst oo) (snd oo) (fst ps))) _ _ FF1 N1) as (us1' & N1' & _ & FF1').
      exists (map (pair (length pre)) us1' ++ us2). split; [|split].
      + apply NoDup_app_intro;
        [apply FinFun.Injective_map_NoDup; [intros x y Q; congruence|exact N1']|exact N2|].
        intros x X1 X2. apply in_map_iff in X1 as (y & <- & _). specialize (B2 _ X2). rewrite app_length in B2. cbn in B2. lia.
      + intros u U. apply in_app_or in U as [U|U]; [apply in_map_iff in U as (y & <- & _); cbn; lia|]. specialize (B2 _ U). rewrite app_length in B2. lia.
      + apply Forall2_app; [|exact FF2]. unfold ctr, contribution. rewrite combine_fst_snd.
        clear - FF1'. induction FF1' as [|u a us al (f & Q1 & Q2) FF IH]; cbn [map]; constructor; [|exact IH].
        exists o, f. cbn [fst snd]. split; [|auto]. rewrite nth_error_app2, Nat.sub_diag by lia. reflexivity. }
  destruct (G (each_with_others os) [] objs eq_refl) as (used & N & _ & F).
  { rewrite <- (each_fst os) in PP. revert PP. generalize (each_with_others os). clear. intros oos. revert objs. induction oos as [|oo oos IH]; intros objs F; inversion F; subst; constructor; auto. }
  exists used, (flat_map ctr (each_with_others os)). split; [exact N|]. split; [apply Permutation_sym, PE|exact F].
Qed.

(** Rock salt in a ball, and in a second ball of larger priority number next to it; the site
    (1,1,1) of the second lies only in its own ball. *)
Example C136_nonvacuous : forall w,
  let l1 := mkLeaf PNone None None [ASphere (mkSphere 1 (mkV (-3) 0 0) default_tol)] None 0 default_vtol None in
  let l2 := mkLeaf PNone None None [ASphere (mkSphere 3 (mkV 0 0 0) default_tol)] None 1 default_vtol None in
  let fr := fcoord (g_voxel ex_crystal) in
  let o1 := mkFobj l1 ex_crystal fr [] in let o2 := mkFobj l2 ex_crystal fr [] in
  let f := mkV (1/2) (1/2) (1/2) in let n := (0, 0, 0)%Z in
  Forall fair [o1; o2] /\
  (forall o box, In o [o1; o2] -> get_bounding_box w (fo_leaf o) = BArr box -> corners_within (/ 4) (basis_of (fo_gen o)) (origin_of (fo_gen o)) (fo_frac o) box) /\
  [o1; o2] = [o1] ++ o2 :: [] /\ In (f, 17%Z) (cell_sites (fo_gen o2)) /\ clear_of (/ 4) f /\ light (basis_of (fo_gen o2)) n f /\ inner (site o2 n f) /\
  Forall (fun a => within 0 a (site o2 n f)) (surfaces o2) /\
  (fo_prio o1 <= fo_prio o2)%Z /\ Exists (fun a => ~ within (3 * pad_of a) a (site o2 n f)) (surfaces o1).
Proof.
  intros w l1 l2 fr o1 o2 f n.
  assert (D : / big <= default_tol <= 1) by (rewrite big_val; unfold default_tol; lra).
  assert (EB : basis_of ex_crystal = mkM (mkV 2 0 0) (mkV 0 2 0) (mkV 0 0 2)) by (unfold ex_crystal, sbases; cbn [g_voxel vo_scale vo_bases]; apply mscale_1).
  assert (EP : site o2 n f = mkV 1 1 1).
  { unfold site. cbn [o2 fo_gen]. rewrite EB. unfold n, f, lattice_site, zvec. cbn. apply vec_eq; vunfold; cbn; lra. }
  assert (FA : forall r x pr, 0 < r <= 10 -> -10 <= x <= 10 -> fair (mkFobj (mkLeaf PNone None None [ASphere (mkSphere r (mkV x 0 0) default_tol)] None pr default_vtol None) ex_crystal fr [])).
  { intros r x pr Hr Hx. unfold fair, surfaces. cbn [fo_leaf fo_gen l_points l_tri l_alg]. split; [reflexivity|]. split; [reflexivity|].
    split; [constructor; [split; cbn; unfold default_tol; lra|constructor]|].
    split. { constructor; [|constructor]. split; [exact D|]. cbn. unfold vmid, mid. rewrite big_val. cbn. rewrite Rabs_R0. assert (Rabs x <= 10) by (apply Rabs_le; lra). lra. }
    split; [eexists; left; reflexivity|]. split; [exact ex_wf|]. unfold vmid, mid. rewrite big_val. cbn. rewrite Rabs_R0. lra. }
  split; [constructor; [apply FA; lra|constructor; [apply FA; lra|constructor]]|].
  split.
  { intros o box HI _. assert (EG : fo_gen o = ex_crystal /\ fo_frac o = fr) by (destruct HI as [<-|[<-|[]]]; auto). destruct EG as [-> ->].
    intros p _. exists (fcoord (g_voxel ex_crystal) p). split.
    - unfold fcoord. apply mv_minv_r. apply ex_wf.
    - unfold fr. rewrite !Rminus_diag_eq, Rabs_R0 by reflexivity. lra. }
  split; [reflexivity|]. split; [right; left; reflexivity|].
  split; [unfold clear_of, f; cbn; rewrite Rabs_pos_eq by lra; lra|].
  split. { cbn [o2 fo_gen]. rewrite EB. unfold light, n, f. rewrite big_val. cbn. rewrite !Rabs_R0, !(Rabs_pos_eq 2), !(Rabs_pos_eq (1/2)) by lra. lra. }
  split; [rewrite EP; unfold inner, vmid, mid; rewrite big_val; cbn; rewrite Rabs_pos_eq by lra; lra|].
  split. { rewrite EP. constructor; [|constructor]. cbn [within]. cbn. apply Rsqr_incr_0; [|apply norm_pos|lra]. unfold Rsqr, dist. rewrite norm_sq. unfold dot; cbn. lra. }
  split; [cbn; lia|]. rewrite EP. left. cbn [within pad_of s_radius s_center s_tol]. intros C.
  assert (Q : 0 <= dist (mkV 1 1 1) (mkV (-3) 0 0)) by apply norm_pos.
  assert (SQ : dist (mkV 1 1 1) (mkV (-3) 0 0) * dist (mkV 1 1 1) (mkV (-3) 0 0) = 18) by (unfold dist; rewrite norm_sq; unfold dot; cbn; lra).
  unfold default_tol in C. nra.
Qed.
