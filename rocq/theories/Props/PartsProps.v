(** Volumes put together from parts, and crystals described in different ways: C119, C120. *)
From Coq Require Import Reals List ZArith Bool Permutation Lia Lra.
From Verif.Model Require Import Base Vec Algebraic Transform Voxel Post Generator Volume Priority.
From Verif.Spec Require Import Geometry PrioritySpec CrystalSpec AlgSpec.
From Verif.Proofs Require Import PriorityFacts VolumeFacts VecFacts AlgFacts GenFacts VolTransFacts.
From Verif.Props Require Import AlgebraicProps VolumeProps BoxProps GeneratorProps.
Import ListNotations.
Open Scope R_scope.

(** A crystal generator with neither strain nor post-processing, sites given in the cell. *)
Definition plain (g : crystal) : Prop :=
  well_formed g /\ g_strain g = None /\ g_post g = None /\ Forall in_cell (st_frac (g_structure g)).
(** A volume that has this crystal as its generator, and a bounding box. *)
Definition holds (w : world) (g : crystal) (l : leaf) : Prop :=
  l_gen l = Some (GCrystal g) /\ exists box, get_bounding_box w l = BArr box /\ box <> [].
(** p is not in the margin between the volume's bounding box and its surface, which the
    tolerance adds to the interior. *)
Definition boxed (w : world) (l : leaf) (p : vec) : Prop :=
  forall box, get_bounding_box w l = BArr box -> leaf_inside w l p = true -> in_hull box p.

Lemma plain_filled w c l g : plain g -> holds w g l ->
  exists l' ats sps, leaf_populate w c l = Ok (c, l') /\ l_atoms l' = Some (ats, sps) /\ length ats = length sps /\
    (forall p z, In (p, z) (combine ats sps) -> leaf_inside w l p = true /\ crystal_atom (basis_of g) (origin_of g) (cell_sites g) p z) /\
    (forall p z, boxed w l p -> leaf_inside w l p = true -> crystal_atom (basis_of g) (origin_of g) (cell_sites g) p z -> In (p, z) (combine ats sps)) /\
    (distinct_mod_lattice (st_frac (g_structure g)) -> NoDup ats).
Proof.
  intros (WF & HS & HP & HF) (HG & box & HB & HN).
  destruct (C10_crystal_volume_filled w c l g box HG WF HS HP HF HB HN) as (l' & ats & sps & E & A & L & O1 & O2 & ND).
  exists l', ats, sps. split; [exact E|]. split; [exact A|]. split; [exact L|]. split; [intros p z H; destruct (O1 p z H); auto|]. split; [|exact ND].
  intros p z B I C. apply O2; auto.
Qed.

Lemma NoDup_app_intro {A} (a b : list A) : NoDup a -> NoDup b -> (forall x, In x a -> In x b -> False) -> NoDup (a ++ b).
Proof.
  induction a as [|x a IH]; cbn; intros H1 H2 H3; auto. inversion H1; subst. constructor; [|apply IH; auto; intros y Hy; apply H3; right; auto].
  rewrite in_app_iff. intros [H|H]; [auto|]. apply (H3 x); auto.
Qed.
Lemma map_fst_combine {A B} : forall (a : list A) (b : list B), length a = length b -> map fst (combine a b) = a.
Proof. induction a as [|x a IH]; intros [|y b] L; cbn in *; try discriminate; [reflexivity|]. rewrite IH; auto. Qed.
(* ---------------- C119 ---------------- *)
Lemma each_nth {Ob} (l : list Ob) i x : nth_error l i = Some x ->
  exists r, In (x, r) (each_with_others l) /\ (forall y, In y r <-> exists j, j <> i /\ nth_error l j = Some y).
Proof.
  revert i. induction l as [|a l IH]; intros [|i] H; cbn in H; try discriminate.
  - injection H as <-. exists l. split; [left; reflexivity|]. intros y. split.
    + intros Hy. apply In_nth_error in Hy as [j Hj]. exists (S j). auto.
    + intros (j & N & Hj). destruct j; [congruence|]. eapply nth_error_In; eauto.
  - destruct (IH i H) as (r & R1 & R2). exists (a :: r). split.
    + cbn. right. apply in_map_iff. exists (x, r). auto.
    + intros y. split.
      * intros [<-|Hy]; [exists 0%nat; auto|]. apply R2 in Hy as (j & N & Hj). exists (S j). auto.
      * intros (j & N & Hj). destruct j; [left; cbn in Hj; congruence|]. right. apply R2. exists j. auto.
Qed.
Lemma nth_each {Ob} (l : list Ob) x r : In (x, r) (each_with_others l) ->
  exists i, nth_error l i = Some x /\ (forall j y, j <> i -> nth_error l j = Some y -> In y r).
Proof.
  revert x r. induction l as [|a l IH]; cbn; [easy|]. intros x r [E|E].
  - injection E as <- <-. exists 0%nat. split; auto. intros [|j] y N Hj; [congruence|]. eapply nth_error_In; eauto.
  - apply in_map_iff in E as ([x' r'] & E & H). cbn in E. injection E as <- <-. destruct (IH _ _ H) as (i & A & B). exists (S i). split; auto.
    intros [|j] y N Hj; [left; cbn in Hj; congruence|]. right. apply (B j); auto.
Qed.

(** Parts with pairwise different priorities, all holding the same crystal, whose interiors
    together are the interior of the whole: the MultiVolume of the parts holds the atoms of
    the whole, none lost and none twice. *)
Theorem C119_parts_make_whole : forall w c g whole parts prio,
  plain g -> holds w g whole -> Forall (holds w g) parts -> parts <> [] -> NoDup (map l_prio parts) ->
  (forall p, leaf_inside w whole p = true <-> exists l, In l parts /\ leaf_inside w l p = true) ->
  exists whole' ats sps joined' ats' sps',
    leaf_populate w c whole = Ok (c, whole') /\ l_atoms whole' = Some (ats, sps) /\
    vol_populate w c (VMulti prio (map VLeaf parts) None) = Ok (c, joined') /\ vol_result joined' = Some (ats', sps') /\
    (forall p z, boxed w whole p -> (forall l, In l parts -> boxed w l p) ->
       (In (p, z) (combine ats sps) <-> In (p, z) (combine ats' sps'))) /\
    (distinct_mod_lattice (st_frac (g_structure g)) -> NoDup ats /\ NoDup ats').
Proof.
  intros w c g whole parts prio PL HW HPs NE ND UN.
  destruct (plain_filled w c whole g PL HW) as (whole' & ats & sps & EW & AW & LW & IW & CW & DW).
  assert (PJ : exists joined', vol_populate w c (VMulti prio (map VLeaf parts) None) = Ok (c, joined')).
  { assert (MS : exists pv, mapMS (vol_populate w) c (map VLeaf parts) = Ok (c, pv) /\ length pv = length parts).
    { clear - PL HPs. induction HPs as [|l ls HL _ IH]; [exists []; split; reflexivity|].
      destruct IH as (pv & E & F). destruct (plain_filled w c l g PL HL) as (l' & a & s & E1 & _).
      exists (VLeaf l' :: pv). split; [|cbn; auto]. cbn [map mapMS vol_populate]. rewrite E1. cbn [bind fst snd]. rewrite E. reflexivity. }
    destruct MS as (pv & EM & LEN). cbn [vol_populate]. rewrite EM. cbn [bind fst snd]. pose proof (sort_perm vol_prio pv) as SP.
    destruct (sort_by vol_prio pv) as [|x xs]; [|eexists; reflexivity]. apply Permutation_nil in SP. subst. destruct parts; [congruence|discriminate]. }
  destruct PJ as [joined' EJ].
  destruct (C05_multivolume_precedence _ _ _ _ _ _ _ EJ) as (pv & ats' & sps' & FP & RJ & LJ & PC & _).
  set (part_of := fun l v => exists l' a s, v = VLeaf l' /\ l_prio l' = l_prio l /\ (forall p, leaf_inside w l' p = leaf_inside w l p) /\ l_atoms l' = Some (a, s) /\ length a = length s /\
       (forall p z, In (p, z) (combine a s) -> leaf_inside w l p = true /\ crystal_atom (basis_of g) (origin_of g) (cell_sites g) p z) /\
       (forall p z, boxed w l p -> leaf_inside w l p = true -> crystal_atom (basis_of g) (origin_of g) (cell_sites g) p z -> In (p, z) (combine a s)) /\
       (distinct_mod_lattice (st_frac (g_structure g)) -> NoDup a)).
  assert (F2 : Forall2 part_of parts pv).
  { clear - PL HPs FP. revert pv FP. induction HPs as [|l ls HL _ IH]; intros pv FP; cbn [map] in FP; inversion FP as [|? v ? vs (c1 & c2 & H1) FP']; subst; constructor; [|apply IH; auto].
    destruct (vol_populate_static w (VLeaf l) c1 c2 v H1) as [P Q].
    destruct (plain_filled w c1 l g PL HL) as (l' & a & s & E1 & R). cbn [vol_populate] in H1. rewrite E1 in H1. cbn in H1. injection H1 as _ <-.
    exists l', a, s. split; [reflexivity|]. split; [exact P|]. split; [exact Q|]. exact R. }
  clear FP.
  assert (NTH1 : forall i l, nth_error parts i = Some l -> exists v, nth_error pv i = Some v /\ part_of l v).
  { clear - F2. induction F2 as [|l v ls vs H _ IH]; intros [|i] x Hx; cbn in Hx; try discriminate; [injection Hx as <-; exists v; auto|apply IH; auto]. }
  assert (NTH2 : forall i v, nth_error pv i = Some v -> exists l, nth_error parts i = Some l /\ part_of l v).
  { clear - F2. induction F2 as [|l v ls vs H _ IH]; intros [|i] x Hx; cbn in Hx; try discriminate; [injection Hx as <-; exists l; auto|apply IH; auto]. }
  assert (DIF : forall i j li lj, nth_error parts i = Some li -> nth_error parts j = Some lj -> l_prio li = l_prio lj -> i = j).
  { intros i j li lj Hi Hj E. apply (proj1 (NoDup_nth_error (map l_prio parts)) ND).
    - rewrite map_length. apply nth_error_Some. congruence.
    - rewrite (map_nth_error _ _ _ Hi), (map_nth_error _ _ _ Hj). congruence. }
  (* the part that serves p *)
  assert (SRV : forall p, (exists i l, nth_error parts i = Some l /\ leaf_inside w l p = true) ->
     exists i l, nth_error parts i = Some l /\ leaf_inside w l p = true /\ forall j lj, nth_error parts j = Some lj -> leaf_inside w lj p = true -> (l_prio l <= l_prio lj)%Z).
  { clear. intros p. induction parts as [|a l IH]; [intros ([|i] & x & H & _); discriminate|]. intros (i & x & Hx & Ix).
    assert (C : (exists i x, nth_error l i = Some x /\ leaf_inside w x p = true) \/ ~ (exists i x, nth_error l i = Some x /\ leaf_inside w x p = true)).
    { destruct (existsb (fun x => leaf_inside w x p) l) eqn:E; [left|right].
      - apply existsb_exists in E as (y & Hy & Iy). apply In_nth_error in Hy as [k Hk]. eauto.
      - intros (k & y & Hk & Iy). apply not_true_iff_false in E. apply E, existsb_exists. exists y. split; [eapply nth_error_In; eauto|auto]. }
    destruct C as [C|C].
    - destruct (IH C) as (k & y & Hk & Iy & M). destruct (leaf_inside w a p) eqn:Ia; [destruct (Z_le_gt_dec (l_prio a) (l_prio y))|].
      + exists 0%nat, a. split; [reflexivity|]. split; [auto|]. intros [|j] lj Hj Ij; cbn in Hj; [injection Hj as <-; lia|]. specialize (M j lj Hj Ij). lia.
      + exists (S k), y. split; [auto|]. split; [auto|]. intros [|j] lj Hj Ij; cbn in Hj; [injection Hj as <-; lia|]. apply (M j); auto.
      + exists (S k), y. split; [auto|]. split; [auto|]. intros [|j] lj Hj Ij; cbn in Hj; [injection Hj as <-; congruence|]. apply (M j); auto.
    - destruct i as [|i]; cbn in Hx; [injection Hx as <-|exfalso; eauto]. exists 0%nat, a. split; [reflexivity|]. split; [auto|].
      intros [|j] lj Hj Ij; cbn in Hj; [injection Hj as <-; lia|exfalso; eauto]. }
  exists whole', ats, sps, joined', ats', sps'. split; [exact EW|]. split; [exact AW|]. split; [exact EJ|]. split; [exact RJ|]. split.
  - intros p z BW BP. split; intros H.
    + destruct (IW p z H) as [I C]. apply UN in I as (l0 & Hl0 & Il0). apply In_nth_error in Hl0 as [i0 Hi0].
      destruct (SRV p) as (i & l & Hi & Ii & M); [eauto|]. destruct (NTH1 _ _ Hi) as (v & Hv & l' & a & s & -> & PR & IN & A & L & O1 & O2 & _).
      apply (Permutation_in _ (Permutation_sym PC)). unfold contents. apply in_flat_map.
      destruct (each_nth pv i (VLeaf l') Hv) as (r & R1 & R2). exists (VLeaf l', r). split; [exact R1|]. unfold contribution. cbn [fst snd]. apply filter_In. split.
      * unfold vol_atoms, vol_species. cbn [vol_result]. rewrite A. cbn [fst snd]. apply O2; auto. apply BP. eapply nth_error_In; eauto.
      * cbn [fst]. rewrite negb_true_iff. unfold loses. apply not_true_iff_false. rewrite existsb_exists. intros (y & Hy & Q). apply R2 in Hy as (j & N & Hj).
        apply andb_prop in Q as [Q1 Q2]. destruct (NTH2 _ _ Hj) as (lj & Hlj & l2 & a2 & s2 & -> & PR2 & IN2 & _). cbn [vol_prio vol_inside] in *. rewrite PR, PR2 in Q1. rewrite IN2 in Q2.
        specialize (M j lj Hlj Q2). apply N. apply (DIF j i lj l); auto. lia.
    + apply (Permutation_in _ PC) in H. unfold contents in H. apply in_flat_map in H as ([o r] & Ho & H). unfold contribution in H. apply filter_In in H as [H _]. cbn [fst snd] in H.
      destruct (nth_each _ _ _ Ho) as (i & Hi & _). destruct (NTH2 _ _ Hi) as (l & Hl & l' & a & s & -> & PR & IN & A & L & O1 & _).
      unfold vol_atoms, vol_species in H. cbn [vol_result] in H. rewrite A in H. cbn [fst snd] in H. destruct (O1 _ _ H) as [I C]. apply CW; auto. apply UN. exists l. split; [eapply nth_error_In; eauto|auto].
  - intros HD. split; [auto|].
    assert (NF : NoDup (map fst (contents vol_prio vol_atoms vol_species (vol_inside w) pv))).
    { unfold contents.
      assert (G : forall (L : list (volume * list volume)),
        (forall o r, In (o, r) L -> NoDup (map fst (contribution vol_prio vol_atoms vol_species (vol_inside w) (o, r)))) ->
        (forall i j x y p, nth_error L i = Some x -> nth_error L j = Some y -> In p (map fst (contribution vol_prio vol_atoms vol_species (vol_inside w) x)) -> In p (map fst (contribution vol_prio vol_atoms vol_species (vol_inside w) y)) -> i = j) ->
        NoDup (map fst (flat_map (contribution vol_prio vol_atoms vol_species (vol_inside w)) L))).
      { clear. induction L as [|x L IH]; intros H1 H2; cbn [flat_map map]; [constructor|]. rewrite map_app. apply NoDup_app_intro.
        - destruct x. apply H1. left; auto.
        - apply IH; [intros; apply H1; right; auto|]. intros i j a b p A B C D. pose proof (H2 (S i) (S j) a b p A B C D). congruence.
        - intros p P1 P2. apply in_map_iff in P2 as (q & <- & Hq). apply in_flat_map in Hq as (y & Hy & Hq). apply In_nth_error in Hy as [j Hj].
          pose proof (H2 0%nat (S j) x y (fst q) eq_refl Hj P1 (in_map fst _ _ Hq)). discriminate. }
      assert (SRC : forall o r p, In (o, r) (each_with_others pv) -> In p (map fst (contribution vol_prio vol_atoms vol_species (vol_inside w) (o, r))) ->
         vol_inside w o p = true /\ forall y, In y r -> vol_inside w y p = true -> (vol_prio o < vol_prio y)%Z).
      { intros o r p Ho H. apply in_map_iff in H as ([p0 z] & <- & H). cbn [fst]. unfold contribution in H. cbn [fst snd] in H. apply filter_In in H as [H K]. cbn [fst] in K.
        destruct (nth_each _ _ _ Ho) as (i & Hi & _). destruct (NTH2 _ _ Hi) as (l & Hl & l' & a & s & -> & PR & IN & A & L & O1 & _).
        unfold vol_atoms, vol_species in H. cbn [vol_result] in H. rewrite A in H. cbn [fst snd] in H. destruct (O1 _ _ H) as [I _]. split; [cbn; rewrite IN; exact I|].
        intros y Hy Iy. destruct (Z_lt_le_dec (vol_prio (VLeaf l')) (vol_prio y)) as [|Q]; [auto|]. exfalso. rewrite negb_true_iff in K. unfold loses in K.
        apply not_true_iff_false in K. apply K, existsb_exists. exists y. split; [auto|]. rewrite Iy. assert ((vol_prio y <=? vol_prio (VLeaf l'))%Z = true) as -> by lia. reflexivity. }
      apply G.
      - intros o r Ho. destruct (nth_each _ _ _ Ho) as (i & Hi & _). destruct (NTH2 _ _ Hi) as (l & Hl & l' & a & s & -> & PR & IN & A & L & O1 & O2 & D).
        specialize (D HD). unfold contribution, vol_atoms, vol_species. cbn [fst snd vol_result]. rewrite A. cbn [fst snd]. clear - D L. revert s L. induction a as [|x a IH]; intros [|y s] L; cbn in *; try constructor; try discriminate.
        inversion D; subst. injection L as L. destruct (negb _); cbn; auto. constructor; auto. intros Q. apply in_map_iff in Q as ([u v] & <- & Q). apply filter_In in Q as [Q _]. apply in_combine_l in Q. auto.
      - intros i j x y p Hi Hj Px Py.
        assert (POS : forall i x, nth_error (each_with_others pv) i = Some x -> nth_error pv i = Some (fst x) /\ forall j y, j <> i -> nth_error pv j = Some y -> In y (snd x)).
        { clear. induction pv as [|a l IH]; intros [|i] x H; cbn in H; try discriminate.
          - injection H as <-. split; [reflexivity|]. intros [|j] y N Hj; [congruence|]. cbn in *. eapply nth_error_In; eauto.
          - destruct (nth_error (each_with_others l) i) as [[o r]|] eqn:E; [|rewrite nth_error_map, E in H; discriminate]. rewrite (map_nth_error _ _ _ E) in H. injection H as <-. cbn [fst snd].
            destruct (IH _ _ E) as [A B]. split; [exact A|]. intros [|j] y N Hj; [left; cbn in Hj; congruence|]. right. apply (B j); auto. }
        destruct x as [ox rx], y as [oy ry]. destruct (POS _ _ Hi) as [Ai Bi]. destruct (POS _ _ Hj) as [Aj Bj]. cbn [fst snd] in *.
        destruct (SRC _ _ _ (nth_error_In _ _ Hi) Px) as [Ix Lx]. destruct (SRC _ _ _ (nth_error_In _ _ Hj) Py) as [Iy Ly].
        destruct (Nat.eq_dec i j) as [|N]; [auto|]. exfalso. specialize (Lx oy (Bi j oy (not_eq_sym N) Aj) Iy). specialize (Ly ox (Bj i ox N Ai) Ix). lia. }
    apply (Permutation_NoDup (l := map fst (contents vol_prio vol_atoms vol_species (vol_inside w) pv))); [|exact NF].
    rewrite <- (map_fst_combine ats' sps') at 1 by exact LJ. apply Permutation_map. symmetry. exact PC.
Qed.

(** A volume cut in two by a plane: one part below it, one above it. *)
Definition lower_part (l : leaf) (pl : plane) : leaf := with_alg l (l_alg l ++ [APlane pl]).
Definition upper_part (l : leaf) (pl' : plane) (prio : Z) : leaf := with_prio (with_alg l (l_alg l ++ [APlane pl'])) prio.
(** a volume with at least one sphere among its surfaces and no points *)
Definition ball_bounded (l : leaf) : Prop :=
  l_points l = PNone /\ Forall valid_alg (l_alg l) /\ exists s, In (ASphere s) (l_alg l).
(** within the nominal radius of every sphere *)
Definition in_balls (l : leaf) (p : vec) : Prop := forall s, In (ASphere s) (l_alg l) -> dist p (s_center s) <= s_radius s.
Lemma ball_holds w l g : ball_bounded l -> l_gen l = Some (GCrystal g) -> holds w g l /\ forall p, in_balls l p -> boxed w l p.
Proof.
  intros (HP & HV & HS) HG. destruct (C13_sphere_box w l HP HV HS) as (b & box & Hb & _ & HB & L8 & _ & HIn & _).
  split; [split; [exact HG|exists box; split; [exact HB|intros ->; discriminate]]|]. intros p IB box' HB' _. rewrite HB in HB'. injection HB' as <-. apply HIn. apply IB. exact Hb.
Qed.
Lemma cut_ball l l' pl : ball_bounded l -> valid_plane pl -> l_points l' = l_points l -> l_alg l' = l_alg l ++ [APlane pl] ->
  ball_bounded l' /\ forall p, in_balls l p -> in_balls l' p.
Proof.
  intros (HP & HV & s & HS) VP E1 E2. split; [split; [congruence|]; rewrite E2; split|].
  - apply Forall_app. split; [exact HV|]. constructor; [exact VP|constructor].
  - exists s. apply in_or_app. auto.
  - intros p H s' Hs'. rewrite E2 in Hs'. apply in_app_or in Hs' as [Q|[Q|[]]]; [auto|discriminate].
Qed.
Lemma cut_inside w l l' pl p : l_tri l' = l_tri l -> l_tol l' = l_tol l -> l_alg l' = l_alg l ++ [APlane pl] -> leaf_inside w l' p = leaf_inside w l p && plane_interior pl p.
Proof. intros E1 E2 E3. rewrite !leaf_inside_eq, E1, E2, E3, forallb_app. cbn [forallb alg_interior]. rewrite andb_true_r, andb_assoc. reflexivity. Qed.

Theorem C119_cut_and_joined : forall w c g l pl prio k,
  plain g -> l_gen l = Some (GCrystal g) -> ball_bounded l -> valid_plane pl -> k <> l_prio l ->
  exists pl' l' ats sps joined' ats' sps',
    flip_orientation pl = Ok pl' /\
    leaf_populate w c l = Ok (c, l') /\ l_atoms l' = Some (ats, sps) /\
    vol_populate w c (VMulti prio [VLeaf (lower_part l pl); VLeaf (upper_part l pl' k)] None) = Ok (c, joined') /\ vol_result joined' = Some (ats', sps') /\
    (forall p z, in_balls l p -> (In (p, z) (combine ats sps) <-> In (p, z) (combine ats' sps'))) /\
    (distinct_mod_lattice (st_frac (g_structure g)) -> NoDup ats /\ NoDup ats').
Proof.
  intros w c g l pl prio k PL HG BB VP NK. destruct (C21_flip pl VP) as (pl' & EF & VP' & TT & FL).
  destruct (ball_holds w l g BB HG) as [HW BW].
  destruct (cut_ball l (lower_part l pl) pl BB VP eq_refl eq_refl) as [B1 I1]. destruct (cut_ball l (upper_part l pl' k) pl' BB VP' eq_refl eq_refl) as [B2 I2].
  destruct (ball_holds w (lower_part l pl) g B1 HG) as [H1 X1]. destruct (ball_holds w (upper_part l pl' k) g B2 HG) as [H2 X2].
  destruct (C119_parts_make_whole w c g l [lower_part l pl; upper_part l pl' k] prio PL HW) as (l' & ats & sps & j & ats' & sps' & A & B & C & D & E & F).
  - constructor; [exact H1|constructor; [exact H2|constructor]].
  - discriminate.
  - cbn. constructor; [intros [Q|[]]; congruence|constructor; [intros []|constructor]].
  - intros p. rewrite <- existsb_exists. cbn [existsb]. rewrite orb_false_r, (cut_inside w l (lower_part l pl) pl p), (cut_inside w l (upper_part l pl' k) pl' p) by reflexivity.
    assert (PP : plane_interior pl p || plane_interior pl' p = true).
    { unfold plane_interior. destruct (FL p) as [S _]. rewrite S, TT. destruct VP as [_ T]. apply orb_true_iff. rewrite !Rltb_iff. destruct (Rlt_dec (sdist_from_plane pl p) (p_tol pl)); [left; auto|right; lra]. }
    rewrite <- andb_orb_distrib_r, PP, andb_true_r. reflexivity.
  - exists pl', l', ats, sps, j, ats', sps'. split; [exact EF|]. split; [exact A|]. split; [exact B|]. split; [exact C|]. split; [exact D|]. split; [|exact F].
    intros p z IB. apply E; [apply BW; auto|]. intros x [<-|[<-|[]]]; [apply X1, I1, IB|apply X2, I2, IB].
Qed.
(** With the same priority for both parts (the default), every atom closer to the plane
    than its tolerance is lost. *)
Theorem C119_equal_priorities_refuted : forall w c g l pl prio,
  plain g -> l_gen l = Some (GCrystal g) -> ball_bounded l -> valid_plane pl ->
  exists pl' l' ats sps joined' ats' sps',
    flip_orientation pl = Ok pl' /\
    leaf_populate w c l = Ok (c, l') /\ l_atoms l' = Some (ats, sps) /\
    vol_populate w c (VMulti prio [VLeaf (lower_part l pl); VLeaf (upper_part l pl' (l_prio l))] None) = Ok (c, joined') /\ vol_result joined' = Some (ats', sps') /\
    forall p z, in_balls l p -> leaf_inside w l p = true -> crystal_atom (basis_of g) (origin_of g) (cell_sites g) p z -> dist_from_plane pl p < p_tol pl ->
      In (p, z) (combine ats sps) /\ ~ In p ats'.
Proof.
  intros w c g l pl prio PL HG BB VP. destruct (C21_flip pl VP) as (pl' & EF & VP' & TT & FL).
  destruct (ball_holds w l g BB HG) as [HW BW].
  destruct (cut_ball l (lower_part l pl) pl BB VP eq_refl eq_refl) as [B1 I1]. destruct (cut_ball l (upper_part l pl' (l_prio l)) pl' BB VP' eq_refl eq_refl) as [B2 I2].
  destruct (ball_holds w (lower_part l pl) g B1 HG) as [H1 X1]. destruct (ball_holds w (upper_part l pl' (l_prio l)) g B2 HG) as [H2 X2].
  destruct (plain_filled w c l g PL HW) as (l' & ats & sps & EW & AW & LW & IW & CW & _).
  destruct (plain_filled w c _ g PL H1) as (l1 & a1 & s1 & E1 & _). destruct (plain_filled w c _ g PL H2) as (l2 & a2 & s2 & E2 & _).
  assert (PJ : exists j, vol_populate w c (VMulti prio [VLeaf (lower_part l pl); VLeaf (upper_part l pl' (l_prio l))] None) = Ok (c, j)).
  { cbn [vol_populate mapMS]. rewrite E1. cbn [bind fst snd]. rewrite E2. cbn [bind fst snd]. pose proof (sort_perm vol_prio [VLeaf l1; VLeaf l2]) as SP.
    destruct (sort_by vol_prio [VLeaf l1; VLeaf l2]) as [|x xs]; [apply Permutation_nil in SP; discriminate|eexists; reflexivity]. }
  destruct PJ as [j EJ]. destruct (C05_multivolume_precedence _ _ _ _ _ _ _ EJ) as (pv & ats' & sps' & FP & RJ & LJ & PC & _).
  exists pl', l', ats, sps, j, ats', sps'. split; [exact EF|]. split; [exact EW|]. split; [exact AW|]. split; [exact EJ|]. split; [exact RJ|].
  intros p z IB IN CA DP. split; [apply CW; auto|]. intros HI. destruct (combine_fst_in ats' sps' p LJ HI) as [z' Hz].
  apply (Permutation_in _ PC) in Hz. inversion FP as [|? v1 ? r1 (c1 & c2 & Q1) FP1]; subst. inversion FP1 as [|? v2 ? r2 (c3 & c4 & Q2) FP2]; subst. inversion FP2; subst.
  destruct (vol_populate_static _ _ _ _ _ Q1) as [P1 N1]. destruct (vol_populate_static _ _ _ _ _ Q2) as [P2 N2].
  assert (IN1 : vol_inside w v1 p = true).
  { rewrite N1. cbn [vol_inside]. rewrite (cut_inside w l (lower_part l pl) pl p) by reflexivity. rewrite IN. unfold plane_interior. apply Rltb_iff. unfold dist_from_plane in DP. apply Rabs_def2 in DP. lra. }
  assert (IN2 : vol_inside w v2 p = true).
  { rewrite N2. cbn [vol_inside]. rewrite (cut_inside w l (upper_part l pl' (l_prio l)) pl' p) by reflexivity. rewrite IN. unfold plane_interior. apply Rltb_iff. destruct (FL p) as [S _]. rewrite S, TT. unfold dist_from_plane in DP. apply Rabs_def2 in DP. lra. }
  cbn [vol_prio lower_part upper_part with_alg with_prio l_prio] in P1, P2.
  unfold contents in Hz. cbn [each_with_others map fst snd flat_map] in Hz. rewrite app_nil_r in Hz. apply in_app_or in Hz. unfold contribution, loses in Hz. cbn [fst snd existsb] in Hz.
  rewrite P1, P2, Z.leb_refl in Hz. destruct Hz as [Hz|Hz]; apply filter_In in Hz as [_ Hz]; cbn [fst] in Hz; [rewrite IN2 in Hz|rewrite IN1 in Hz]; discriminate.
Qed.
Definition mid_plane : plane := mkPlane (mkV 0 0 1) v0 (/ 100000).
Example C119_nonvacuous : forall w, plain ex_crystal /\ l_gen ex_ball = Some (GCrystal ex_crystal) /\ ball_bounded ex_ball /\ valid_plane mid_plane /\
  distinct_mod_lattice (st_frac (g_structure ex_crystal)) /\
  in_balls ex_ball (mkV 2 0 0) /\ leaf_inside w ex_ball (mkV 2 0 0) = true /\ crystal_atom (basis_of ex_crystal) (origin_of ex_crystal) (cell_sites ex_crystal) (mkV 2 0 0) 11 /\
  dist_from_plane mid_plane (mkV 2 0 0) < p_tol mid_plane.
Proof.
  intros w. split; [split; [exact ex_wf|]; split; [reflexivity|]; split; [reflexivity|exact ex_cells]|]. split; [reflexivity|].
  split; [split; [reflexivity|]; split; [repeat constructor; cbn; lra|eexists; left; reflexivity]|].
  split; [split; [unfold norm; replace (dot _ _) with 1 by (cbn; unfold dot; cbn; ring); apply sqrt_1|cbn; lra]|]. split; [exact ex_distinct|].
  split; [|split; [|split]].
  - intros s [E|[]]. injection E as <-. cbn [s_center s_radius]. unfold dist, norm. rewrite <- (sqrt_square 3) by lra. apply sqrt_le_1; vunfold; lra.
  - rewrite leaf_inside_eq. cbn [ex_ball l_tri l_alg forallb alg_interior andb]. unfold sphere_interior. rewrite andb_true_r. cbn. apply Rltb_iff. lra.
  - exists (1%Z, 0%Z, 0%Z), (mkV 0 0 0). split; [cbn; auto|]. apply vec_eq; cbn; unfold dot; cbn; lra.
  - unfold dist_from_plane, sdist_from_plane. cbn. unfold dot. cbn. match goal with |- Rabs ?e < _ => replace e with 0 by ring end. rewrite Rabs_R0. lra.
Qed.

(* ---------------- C120 ---------------- *)
(** Two generators that describe the same infinite crystal fill every volume with the same
    atoms. *)
Definition same_crystal (g1 g2 : crystal) : Prop :=
  forall p z, crystal_atom (basis_of g1) (origin_of g1) (cell_sites g1) p z <-> crystal_atom (basis_of g2) (origin_of g2) (cell_sites g2) p z.
Theorem C120_same_crystal_same_atoms : forall w c l g1 g2,
  plain g1 -> plain g2 -> same_crystal g1 g2 -> holds w g1 l ->
  exists l1 l2 a1 s1 a2 s2,
    leaf_populate w c l = Ok (c, l1) /\ l_atoms l1 = Some (a1, s1) /\
    leaf_populate w c (with_gen l (Some (GCrystal g2))) = Ok (c, l2) /\ l_atoms l2 = Some (a2, s2) /\
    (forall p z, boxed w l p -> (In (p, z) (combine a1 s1) <-> In (p, z) (combine a2 s2))) /\
    (distinct_mod_lattice (st_frac (g_structure g1)) -> distinct_mod_lattice (st_frac (g_structure g2)) ->
     (forall p, boxed w l p) -> Permutation (combine a1 s1) (combine a2 s2)).
Proof.
  intros w c l g1 g2 P1 P2 SC H1. assert (H2 : holds w g2 (with_gen l (Some (GCrystal g2)))) by (split; [reflexivity|apply H1]).
  destruct (plain_filled w c l g1 P1 H1) as (l1 & a1 & s1 & E1 & A1 & L1 & I1 & C1 & D1).
  destruct (plain_filled w c _ g2 P2 H2) as (l2 & a2 & s2 & E2 & A2 & L2 & I2 & C2 & D2).
  exists l1, l2, a1, s1, a2, s2. split; [exact E1|]. split; [exact A1|]. split; [exact E2|]. split; [exact A2|].
  assert (EQ : forall p z, boxed w l p -> (In (p, z) (combine a1 s1) <-> In (p, z) (combine a2 s2))).
  { intros p z B. split; intros H.
    - destruct (I1 _ _ H) as [I C]. apply C2; auto. apply SC, C.
    - destruct (I2 _ _ H) as [I C]. apply C1; auto. apply SC, C. }
  split; [exact EQ|]. intros HD1 HD2 B.
  assert (ND : forall (a : list vec) (s : list Z), NoDup a -> NoDup (combine a s)).
  { induction a as [|x a IH]; intros [|y s] N; cbn; try constructor; inversion N; subst; auto. intros Q. apply in_combine_l in Q. auto. }
  apply NoDup_Permutation; auto. intros [p z]. apply EQ, B.
Qed.
(** moving the origin by a lattice vector, and listing the sites in another order, do not
    change the crystal *)
Definition moved_origin (g : crystal) (n : Z * Z * Z) : crystal :=
  let '(a, b, c) := n in
  mkCrystal (g_structure g) (mkVoxel (vo_bases (g_voxel g)) (vo_scale (g_voxel g)) (vadd (vo_origin (g_voxel g)) (mv (sbases (g_voxel g)) (zvec a b c)))) (g_strain g) (g_post g).
Lemma shifted_atoms B o sites a b d p z : crystal_atom B o sites p z <-> crystal_atom B (vadd o (mv B (zvec a b d))) sites p z.
Proof.
  split; intros ([[x y] t] & f & I & ->).
  + exists ((x - a)%Z, (y - b)%Z, (t - d)%Z), f. split; [exact I|]. unfold lattice_site, zvec. rewrite !minus_IZR. generalize (IZR x) (IZR y) (IZR t) (IZR a) (IZR b) (IZR d). vring.
  + exists ((x + a)%Z, (y + b)%Z, (t + d)%Z), f. split; [exact I|]. unfold lattice_site, zvec. rewrite !plus_IZR. generalize (IZR x) (IZR y) (IZR t) (IZR a) (IZR b) (IZR d). vring.
Qed.
Theorem C120_lattice_shift : forall w c l g n, plain g -> holds w g l ->
  exists l1 l2 a1 s1 a2 s2,
    leaf_populate w c l = Ok (c, l1) /\ l_atoms l1 = Some (a1, s1) /\
    leaf_populate w c (with_gen l (Some (GCrystal (moved_origin g n)))) = Ok (c, l2) /\ l_atoms l2 = Some (a2, s2) /\
    forall p z, boxed w l p -> (In (p, z) (combine a1 s1) <-> In (p, z) (combine a2 s2)).
Proof.
  intros w c l g n P H. destruct n as [[a b] d].
  destruct (C120_same_crystal_same_atoms w c l g (moved_origin g (a, b, d)) P) as (l1 & l2 & a1 & s1 & a2 & s2 & R); auto.
  - intros p z. exact (shifted_atoms (sbases (g_voxel g)) (vo_origin (g_voxel g)) (cell_sites g) a b d p z).
  - exists l1, l2, a1, s1, a2, s2. intuition auto; apply H6; auto.
Qed.
Theorem C120_site_order : forall w c l g g', plain g -> holds w g l ->
  g_voxel g' = g_voxel g -> g_strain g' = None -> g_post g' = None ->
  length (st_frac (g_structure g')) = length (st_numbers (g_structure g')) -> Permutation (cell_sites g') (cell_sites g) ->
  exists l1 l2 a1 s1 a2 s2,
    leaf_populate w c l = Ok (c, l1) /\ l_atoms l1 = Some (a1, s1) /\
    leaf_populate w c (with_gen l (Some (GCrystal g'))) = Ok (c, l2) /\ l_atoms l2 = Some (a2, s2) /\
    forall p z, boxed w l p -> (In (p, z) (combine a1 s1) <-> In (p, z) (combine a2 s2)).
Proof.
  intros w c l g g' P H EV ES EP EL PM.
  destruct (C120_same_crystal_same_atoms w c l g g' P) as (l1 & l2 & a1 & s1 & a2 & s2 & R); auto.
  - destruct P as ((L & D) & _ & _ & F). split; [split; [exact EL|rewrite EV; exact D]|]. split; [auto|]. split; [auto|].
    rewrite <- (map_fst_combine _ _ EL). change (Forall in_cell (map fst (cell_sites g'))). eapply Permutation_Forall; [apply Permutation_map; symmetry; exact PM|]. unfold cell_sites. rewrite map_fst_combine; auto.
  - intros p z. unfold crystal_atom, basis_of, origin_of. rewrite EV. split; intros (n & f & I & E); exists n, f; split; auto; [apply (Permutation_in _ (Permutation_sym PM))|apply (Permutation_in _ PM)]; exact I.
  - exists l1, l2, a1, s1, a2, s2. intuition auto; apply H6; auto.
Qed.
(** The crystal moved by (1, 2, 3) cells and with its sites in reverse order. *)
Example C120_nonvacuous : forall w, plain ex_crystal /\ holds w ex_crystal ex_ball /\ boxed w ex_ball (mkV 2 0 0) /\
  origin_of (moved_origin ex_crystal (1, 2, 3)%Z) = mkV 2 4 6 /\
  Permutation (cell_sites (mkCrystal (mkStruct (st_matrix ex_struct) (rev (st_frac ex_struct)) (rev (st_numbers ex_struct))) (g_voxel ex_crystal) None None)) (cell_sites ex_crystal).
Proof.
  intros w. destruct (C119_nonvacuous w) as (P & G & B & _ & _ & IB & _). split; [exact P|]. destruct (ball_holds w ex_ball ex_crystal B G) as [H X]. split; [exact H|]. split; [apply X, IB|].
  split; [apply vec_eq; cbn; unfold dot; cbn; lra|]. cbn. apply perm_swap.
Qed.
