(** Properties of whole scenes and of objects put together: C118-C121. *)
From Coq Require Import Reals List ZArith Bool Permutation Lia Lra.
From Verif.Model Require Import Base Vec Algebraic Transform Voxel Post Generator Volume Molecule Scene Priority.
From Verif.Spec Require Import Geometry PrioritySpec SceneSpec CrystalSpec.
From Verif.Proofs Require Import PriorityFacts VolumeFacts SceneFacts VecFacts.
From Verif.Props Require Import SceneProps.
Import ListNotations.
Open Scope R_scope.

(* ---------------- C118 ---------------- *)
Lemma each_app {Ob} (x : Ob) : forall l, Permutation (each_with_others (l ++ [x]))
   (map (fun oo => (fst oo, snd oo ++ [x])) (each_with_others l) ++ [(x, l)]).
Proof.
  induction l as [|y l IH]; cbn [app each_with_others map fst snd]; [apply Permutation_refl|].
  apply perm_skip. rewrite (Permutation_map _ IH), map_app, !map_map. cbn [map fst snd]. apply Permutation_refl.
Qed.
Lemma filter_split {A} (f : A -> bool) l : Permutation l (filter f l ++ filter (fun x => negb (f x)) l).
Proof.
  induction l as [|x l IH]; cbn [filter]; [constructor|]. destruct (f x); cbn [negb app].
  - apply perm_skip. exact IH.
  - rewrite <- Permutation_middle. apply perm_skip. exact IH.
Qed.
Lemma flat_map_split {A B} (f g h : A -> list B) l : (forall x, Permutation (f x) (g x ++ h x)) ->
  Permutation (flat_map f l) (flat_map g l ++ flat_map h l).
Proof.
  intros H. induction l as [|x l IH]; cbn [flat_map]; [constructor|]. rewrite IH, (H x), <- !app_assoc. apply Permutation_app_head.
  rewrite !app_assoc. apply Permutation_app_tail. apply Permutation_app_comm.
Qed.
Lemma flat_map_nil {A B} (f : A -> list B) l : (forall x, In x l -> f x = []) -> flat_map f l = [].
Proof. induction l as [|x l IH]; intros H; cbn; [reflexivity|]. rewrite H, IH; auto; [intros; apply H; right; auto|left; auto]. Qed.
Lemma filter_filter {A} (f g : A -> bool) l : filter f (filter g l) = filter (fun x => g x && f x) l.
Proof. induction l as [|x l IH]; cbn; [reflexivity|]. destruct (g x); cbn; rewrite IH; reflexivity. Qed.
Lemma contents_app {Ob Pt Sp} (prio : Ob -> Z) (atoms : Ob -> list Pt) (species : Ob -> list Sp) inside l x :
  exists kept dropped,
    Permutation (contents prio atoms species inside l) (kept ++ dropped) /\
    Permutation (contents prio atoms species inside (l ++ [x])) (kept ++ contribution prio atoms species inside (x, l)) /\
    (forall q, In q dropped -> inside x (fst q) = true) /\
    ((forall y, In y l -> (prio y < prio x)%Z) -> dropped = []).
Proof.
  set (wins := fun (o : Ob) (q : Pt * Sp) => negb ((prio x <=? prio o)%Z && inside x (fst q))).
  exists (flat_map (fun oo => filter (wins (fst oo)) (contribution prio atoms species inside oo)) (each_with_others l)).
  exists (flat_map (fun oo => filter (fun q => negb (wins (fst oo) q)) (contribution prio atoms species inside oo)) (each_with_others l)).
  split; [|split; [|split]].
  - unfold contents. apply flat_map_split. intros oo. apply filter_split.
  - unfold contents. rewrite (Permutation_flat_map _ (each_app x l)), flat_map_app. cbn [flat_map]. rewrite app_nil_r. apply Permutation_app_tail.
    rewrite flat_map_concat_map, map_map, <- flat_map_concat_map. apply Permutation_refl'. apply flat_map_ext. intros [o r]. unfold contribution. cbn [fst snd].
    rewrite filter_filter. apply filter_ext. intros q. unfold loses, wins. rewrite existsb_app. cbn [existsb]. rewrite orb_false_r, negb_orb. reflexivity.
  - intros q Hq. apply in_flat_map in Hq as (oo & _ & Hq). apply filter_In in Hq as [_ Hq]. unfold wins in Hq. rewrite negb_involutive in Hq. apply andb_prop in Hq. tauto.
  - intros HP. apply flat_map_nil. intros [o r] Ho. cbn [fst snd]. unfold wins.
    assert (X : In o l). { clear - Ho. revert o r Ho. induction l as [|y l IH]; cbn; [easy|]. intros o r [E|E]; [injection E as <- _; auto|]. apply in_map_iff in E as ([o2 r2] & E & H). injection E as <- _. right. eapply IH; eauto. }
    apply HP in X. assert (L : (prio x <=? prio o)%Z = false) by lia. rewrite L. cbn. induction (contribution _ _ _ _ _); cbn; auto.
Qed.

(** Adding an object to a populated scene and populating again: the atoms that were there
    stay, except some that are inside the new object; the atoms that are new are exactly
    those the new object supplies at places no object of smaller or equal priority number
    contains.  If its number is larger than all others, no atom is removed. *)
Theorem C118_adding_is_local : forall w c s objs c1 s1 objs1 o c2 c3 s2,
  sc_objects s = Some objs -> objs <> [] -> Forall obj_aligned objs -> Forall obj_rng_free objs -> obj_aligned o ->
  populate w c s = Ok (c1, s1) -> sc_objects s1 = Some objs1 -> populate w c2 (add_object s1 o) = Ok (c3, s2) ->
  exists a1 z1 a2 z2 o' kept dropped own,
    all_atoms s1 = Ok a1 /\ all_species s1 = Ok z1 /\ all_atoms s2 = Ok a2 /\ all_species s2 = Ok z2 /\
    ob_populate w c2 o = Ok (c3, o') /\
    Permutation (combine a1 z1) (kept ++ dropped) /\ Permutation (combine a2 z2) (kept ++ own) /\
    (forall p z, In (p, z) dropped -> ob_inside w o p = true) /\
    (forall p z, In (p, z) own <-> In (p, z) (combine (ob_atoms o') (ob_species o')) /\
       forall x, In x objs -> (ob_prio x <= ob_prio o)%Z -> ob_inside w x p = false) /\
    ((forall x, In x objs -> (ob_prio x < ob_prio o)%Z) -> dropped = []).
Proof.
  intros w c s objs c1 s1 objs1 o c2 c3 s2 E NE AL RF AO H E1 H2.
  destruct (read_populated _ _ _ _ _ H) as (objs' & po & E' & HM & HO & HC & HL & RA & RS).
  { intros x Hx. rewrite E in Hx. injection Hx as <-. auto. }
  rewrite E in E'. injection E' as <-. rewrite HO in E1. injection E1 as <-.
  pose proof (mapMS_Forall2 _ _ _ _ _ HM) as F2.
  set (srt := sort_by ob_prio po) in *.
  assert (PS : forall x y, (exists cc cc', ob_populate w cc x = Ok (cc', y)) -> ob_prio y = ob_prio x /\ forall p, ob_inside w y p = ob_inside w x p).
  { intros [v|m] y (cc & cc' & Hp); cbn in Hp; [|injection Hp as _ <-; auto]. inv_bind Hp. injection Hp as _ <-. destruct a as [? v']. exact (vol_populate_static _ _ _ _ _ Ha). }
  assert (IN1 : forall x, In x objs -> exists y, In y po /\ ob_prio y = ob_prio x /\ forall p, ob_inside w y p = ob_inside w x p).
  { clear - F2 PS. induction F2 as [|x y l l' Hxy F IH]; intros z Hz; [destruct Hz|]; destruct Hz as [<-|Hz]; [exists y; split; [left; auto|apply PS; auto]|]. destruct (IH _ Hz) as (u & Hu & K). exists u. split; [right; auto|auto]. }
  assert (IN2 : forall y, In y po -> exists x, In x objs /\ ob_prio y = ob_prio x /\ forall p, ob_inside w y p = ob_inside w x p).
  { clear - F2 PS. induction F2 as [|x y l l' Hxy F IH]; intros z Hz; [destruct Hz|]; destruct Hz as [<-|Hz]; [exists x; split; [left; auto|apply PS; auto]|]. destruct (IH _ Hz) as (u & Hu & K). exists u. split; [right; auto|auto]. }
  assert (FX : Forall (fun b => forall cc, ob_populate w cc b = Ok (cc, b)) srt).
  { apply (Permutation_Forall (Permutation_sym (sort_perm ob_prio po))). clear - F2 RF. induction F2 as [|a b la lb (x1 & x2 & Hab) _ IHl]; [constructor|].
    inversion RF; subst. constructor; auto. intros cc. destruct (ob_populate_rng_free _ _ _ _ _ H1 Hab) as (_ & _ & E2). apply E2. }
  assert (AS : Forall obj_aligned srt).
  { apply (Permutation_Forall (Permutation_sym (sort_perm ob_prio po))). clear - F2 AL. induction F2 as [|a b la lb (x1 & x2 & Hab) _ IHl]; [constructor|].
    inversion AL; subst. constructor; auto. destruct a as [v|m]; cbn in Hab; [inv_bind Hab; injection Hab as _ <-; exact I|injection Hab as _ <-; exact H1]. }
  destruct (read_populated _ _ _ _ _ H2) as (objs2 & po2 & E2 & HM2 & HO2 & HC2 & HL2 & RA2 & RS2).
  { intros x Hx. unfold add_object in Hx. rewrite HO in Hx. cbn in Hx. injection Hx as <-. split; [apply Forall_app; auto|]. intros Q. apply app_eq_nil in Q. destruct Q; discriminate. }
  unfold add_object in E2. rewrite HO in E2. cbn in E2. injection E2 as <-.
  assert (P2 : exists o', ob_populate w c2 o = Ok (c3, o') /\ po2 = srt ++ [o']).
  { clear - HM2 FX. revert c2 po2 HM2. induction srt as [|b l IH]; intros cc po2 HM; cbn in HM.
    - inv_bind HM. destruct a as [c' o']. cbn in HM. injection HM as <- <-. exists o'. auto.
    - inversion FX; subst. rewrite H1 in HM. cbn in HM. inv_bind HM. destruct a as [c' l']. cbn in HM. injection HM as <- <-.
      destruct (IH H2 _ _ Ha) as (o' & X & ->). exists o'. auto. }
  destruct P2 as (o' & PO & ->).
  destruct (resolve_correct ob_prio ob_atoms ob_species (ob_inside w) po) as [R1 _]; [intros x Hx; apply HL; auto|].
  destruct (resolve_correct ob_prio ob_atoms ob_species (ob_inside w) (srt ++ [o'])) as [R2 _]; [intros x Hx; apply HL2; auto|].
  destruct (contents_app ob_prio ob_atoms ob_species (ob_inside w) srt o') as (kept & dropped & K1 & K2 & K3 & K4).
  destruct (PS o o') as [PR PI]; [eauto|].
  do 4 eexists. exists o', kept, dropped, (contribution ob_prio ob_atoms ob_species (ob_inside w) (o', srt)).
  split; [exact RA|]. split; [exact RS|]. split; [exact RA2|]. split; [exact RS2|]. split; [exact PO|]. split.
  { etransitivity; [exact R1|]. rewrite <- K1. apply contents_perm. symmetry. apply sort_perm. }
  split; [etransitivity; [exact R2|exact K2]|]. split; [|split].
  - intros p z Hp. rewrite <- PI. exact (K3 _ Hp).
  - intros p z. unfold contribution. cbn [fst snd]. rewrite filter_In. cbn [fst]. rewrite negb_true_iff. unfold loses.
    assert (Q : existsb (fun x => (ob_prio x <=? ob_prio o')%Z && ob_inside w x p) srt = false <-> (forall x, In x objs -> (ob_prio x <= ob_prio o)%Z -> ob_inside w x p = false)).
    { rewrite <- not_true_iff_false, existsb_exists. split.
      - intros N x Hx L. destruct (ob_inside w x p) eqn:IX; auto. exfalso. apply N. destruct (IN1 _ Hx) as (y & Hy & A & B). exists y.
        split; [apply (Permutation_in _ (Permutation_sym (sort_perm ob_prio po)) Hy)|]. rewrite A, B, IX, PR. assert (Z.leb (ob_prio x) (ob_prio o) = true) as -> by lia. reflexivity.
      - intros N (y & Hy & L). apply (Permutation_in _ (sort_perm ob_prio po)) in Hy. destruct (IN2 _ Hy) as (x & Hx & A & B). apply andb_prop in L as [L1 L2]. rewrite B in L2. rewrite (N x Hx) in L2; [discriminate|lia]. }
    rewrite Q. reflexivity.
  - intros HP. apply K4. intros y Hy. apply (Permutation_in _ (sort_perm ob_prio po)) in Hy. destruct (IN2 _ Hy) as (x & Hx & A & _). rewrite A, PR. apply HP; auto.
Qed.
(** A void put around the remaining atom of the demo scene removes it. *)
Definition second_void : sobj := SVol (VLeaf (mkLeaf PNone None None [ASphere (mkSphere 1 (mkV 5 0 0) (/ 100000))] (Some GNull) 1 default_vtol None)).
Example C118_nonvacuous : exists s1 s2, populate demo_world 0 demo_scene = Ok (0%nat, s1) /\ all_atoms s1 = Ok [mkV 5 0 0] /\
  populate demo_world 0 (add_object s1 second_void) = Ok (0%nat, s2) /\ all_atoms s2 = Ok [] /\
  (forall objs, sc_objects demo_scene = Some objs -> objs <> [] /\ Forall obj_aligned objs /\ Forall obj_rng_free objs) /\ obj_aligned second_void.
Proof.
  destruct demo_populates as (s1 & H & HO & HA & _). exists s1. eexists. split; [exact H|]. split; [exact HA|].
  split; [|split; [|split]].
  - unfold add_object. rewrite HO. reflexivity.
  - unfold all_atoms. cbn -[sphere_interior]. change {| s_radius := 1; s_center := v0; s_tol := / 100000 |} with demo_sphere.
    change {| vx := 0; vy := 0; vz := 0 |} with (mkV 0 0 0). rewrite demo_in, demo_out. cbn -[sphere_interior].
    assert (X : sphere_interior (mkSphere 1 (mkV 5 0 0) (/ 100000)) (mkV 5 0 0) = true) by (unfold sphere_interior; cbn; apply Rltb_iff; lra).
    rewrite X. cbn -[sphere_interior]. rewrite ?andb_false_r, ?andb_true_r, ?andb_false_l. reflexivity.
  - intros objs Ho. destruct (demo_ok objs Ho) as [A B]. injection Ho as <-. split; [auto|]. split; [auto|repeat constructor].
  - exact I.
Qed.
