(** Alpha shapes and neighbour shells: C62, C64, C80.  The theorems are about the two
    alpha shape functions and get_nearest_neighbors; the specification below is in terms
    of circumscribed spheres and of the triangulation scipy returns. *)
From Coq Require Import Reals List ZArith Bool Lra Lia.
From Verif.Model Require Import Base Vec Molecule AlphaShape Adsorbate.
From Verif.Proofs Require Import VecFacts VolumeFacts.
From Verif.Props Require Import CircumProps.
Import ListNotations.
Open Scope nat_scope.

(* ---------------- specification ---------------- *)
(** A tetrahedron: four different vertices. *)
Definition tetrahedron (s : list nat) : Prop := length s = 4 /\ NoDup s.
(** Two different vertices joined by an edge of one of the tetrahedra. *)
Definition edge (tets : list (list nat)) (a b : nat) : Prop := a <> b /\ exists s, In s tets /\ In a s /\ In b s.
(** b can be reached from a by at most n edges. *)
Inductive within (tets : list (list nat)) : nat -> nat -> nat -> Prop :=
| within_here n a : within tets n a a
| within_step n a b c : within tets n a b -> edge tets b c -> within tets (S n) a c.

(* ---------------- C62 ---------------- *)
Lemma adj_edge tets a b : Forall tetrahedron tets -> (graph_entry tets a b = true <-> edge tets a b).
Proof.
  intros T. unfold graph_entry. rewrite existsb_exists. split.
  - intros (s & Hs & H). rewrite Forall_forall in T. destruct (T s Hs) as [L N].
    apply existsb_exists in H as (i & Hi & H). apply existsb_exists in H as (j & Hj & H). apply in_seq in Hi, Hj.
    apply orb_true_iff in H. rewrite !andb_true_iff, !Nat.eqb_eq in H.
    assert (D : nth i s 0 <> nth j s 0) by (intros E; apply (proj1 (NoDup_nth s 0) N i j) in E; lia).
    split; [destruct H as [[-> ->]|[-> ->]]; auto|]. exists s. destruct H as [[-> ->]|[-> ->]]; (split; [auto|]); split; apply nth_In; lia.
  - intros (D & s & Hs & Ha & Hb). exists s. split; auto. rewrite Forall_forall in T. destruct (T s Hs) as [L N].
    destruct (In_nth s a 0 Ha) as (i & Li & Ei). destruct (In_nth s b 0 Hb) as (j & Lj & Ej).
    assert (IJ : i <> j) by (intros ->; congruence). apply existsb_exists.
    destruct (Nat.lt_ge_cases i j).
    + exists i. split; [apply in_seq; lia|]. apply existsb_exists. exists j. split; [apply in_seq; lia|]. rewrite Ei, Ej, !Nat.eqb_refl. reflexivity.
    + exists j. split; [apply in_seq; lia|]. apply existsb_exists. exists i. split; [apply in_seq; lia|]. rewrite Ei, Ej, !Nat.eqb_refl. apply orb_true_r.
Qed.
(** walks of exactly n edges *)
Inductive walk (tets : list (list nat)) : nat -> nat -> nat -> Prop :=
| walk_0 a : walk tets 0 a a
| walk_S n a b c : walk tets n a b -> edge tets b c -> walk tets (S n) a c.
Lemma walk_longer tets n a c : Forall tetrahedron tets -> walk tets (S n) a c -> walk tets (S (S n)) a c.
Proof.
  intros T H. inversion H as [|? ? b ? W E]; subst. destruct E as (D & s & Hs & Hb & Hc).
  rewrite Forall_forall in T. destruct (T s Hs) as [L N].
  assert (X : exists x, In x s /\ x <> b /\ x <> c).
  { destruct s as [|s0 [|s1 [|s2 [|s3 [|]]]]]; cbn in L; try lia. clear - N.
    assert (A : s0 <> s1 /\ s0 <> s2 /\ s1 <> s2).
    { repeat (match goal with H : NoDup _ |- _ => inversion H; clear H; subst end). cbn in *. intuition. }
    destruct A as (A & B & C). destruct (Nat.eq_dec s0 b), (Nat.eq_dec s0 c), (Nat.eq_dec s1 b), (Nat.eq_dec s1 c), (Nat.eq_dec s2 b), (Nat.eq_dec s2 c); try (exfalso; lia);
      first [solve [exists s0; cbn; auto]|solve [exists s1; cbn; auto]|solve [exists s2; cbn; auto]]. }
  destruct X as (x & Hx & Xb & Xc). apply walk_S with x; [apply walk_S with b; auto|]; (split; [auto|exists s; auto]).
Qed.
Lemma within_walk tets n a b : Forall tetrahedron tets -> a <> b -> (within tets n a b <-> walk tets n a b).
Proof.
  intros T D. split.
  - intros H. revert D. induction H as [n a|n a b c W IH E]; intros D; [congruence|].
    destruct (Nat.eq_dec a b) as [->|AB].
    + clear IH W D. induction n; [apply walk_S with b; auto; constructor|apply walk_longer; auto].
    + apply walk_S with b; auto.
  - intros H. clear D. induction H; econstructor; eauto.
Qed.
Lemma within_mono tets n a b : within tets n a b -> within tets (S n) a b.
Proof. induction 1; econstructor; eauto. Qed.

Lemma set_nth_len {A} i (x : A) l : length (set_nth i x l) = length l.
Proof. revert i. induction l; intros [|i]; cbn; auto. Qed.
Lemma set_nth_nth {A} i j (x d : A) l : i < length l -> nth j (set_nth i x l) d = if Nat.eqb j i then x else nth j l d.
Proof.
  revert i j. induction l; intros [|i] [|j] H; cbn in *; try lia; auto. rewrite IHl by lia. reflexivity.
Qed.
Lemma graph_mul_len tets v : length (graph_mul tets v) = length v.
Proof. unfold graph_mul. rewrite map_length, seq_length. auto. Qed.
Lemma sum_pos l : Forall (fun z => 0 <= z)%Z l -> ((0 <= fold_right Z.add 0 l)%Z /\ (fold_right Z.add 0%Z l <> 0%Z <-> exists z, In z l /\ z <> 0%Z)).
Proof.
  induction 1 as [|z l Hz F [I1 I2]]; cbn; [split; [lia|]; split; [lia|intros (z & [] & _)]|].
  split; [lia|]. split.
  - intros H. destruct (Z.eq_dec z 0) as [->|]; [|exists z; auto]. destruct (proj1 I2) as (y & Hy & Ny); [lia|]. exists y; auto.
  - intros (y & [<-|Hy] & Ny); [lia|]. assert (fold_right Z.add 0%Z l <> 0%Z) by (apply I2; eauto). lia.
Qed.
Lemma graph_mul_nth tets v i : (Forall (fun z => 0 <= z)%Z v) -> i < length v ->
  (0 <= nth i (graph_mul tets v) 0)%Z /\
  (nth i (graph_mul tets v) 0%Z <> 0%Z <-> exists j, j < length v /\ graph_entry tets i j = true /\ nth j v 0%Z <> 0%Z).
Proof.
  intros F L. unfold graph_mul.
  set (g := fun i : nat => _). rewrite (nth_indep _ 0%Z (g 0)) by (rewrite map_length, seq_length; auto). rewrite map_nth, seq_nth by auto. unfold g. cbn [Nat.add].
  assert (P : Forall (fun z => 0 <= z)%Z (map (fun j => if graph_entry tets i j then nth j v 0%Z else 0%Z) (seq 0 (length v)))).
  { apply Forall_forall. intros z Hz. apply in_map_iff in Hz as (j & <- & Hj). apply in_seq in Hj. destruct (graph_entry tets i j); [|lia]. rewrite Forall_forall in F. apply F, nth_In. lia. }
  destruct (sum_pos _ P) as [S1 S2]. split; [exact S1|]. rewrite S2. split.
  - intros (z & Hz & Nz). apply in_map_iff in Hz as (j & E & Hj). apply in_seq in Hj. exists j. destruct (graph_entry tets i j); [|congruence]. repeat split; auto; [lia|congruence].
  - intros (j & Lj & A & Nz). exists (nth j v 0%Z). split; auto. apply in_map_iff. exists j. rewrite A. split; auto. apply in_seq. lia.
Qed.
Lemma edge_sym tets a b : edge tets a b -> edge tets b a.
Proof. intros (D & s & H & A & B). split; auto. exists s; auto. Qed.
Lemma iter_walk tets target N n : Forall tetrahedron tets -> target < N -> (forall a b, edge tets a b -> a < N) ->
  let v := Nat.iter n (graph_mul tets) (set_nth target 1%Z (repeat 0%Z N)) in
  length v = N /\ Forall (fun z => 0 <= z)%Z v /\ forall i, i < N -> (nth i v 0%Z <> 0%Z <-> walk tets n target i).
Proof.
  intros T TN B. cbv zeta. induction n as [|n (L & F & IH)]; cbn [Nat.iter nat_rect].
  - assert (LR : length (repeat 0%Z N) = N) by apply repeat_length. set (v := set_nth target 1%Z (repeat 0%Z N)). split; [unfold v; rewrite set_nth_len; auto|].
    assert (X : forall i, i < N -> nth i v 0%Z = if Nat.eqb i target then 1%Z else 0%Z).
    { intros i Hi. unfold v. rewrite set_nth_nth by lia. destruct (Nat.eqb i target); auto. apply nth_repeat. }
    split.
    + apply Forall_nth. intros i d Hi. unfold v in Hi. rewrite set_nth_len, LR in Hi. rewrite (nth_indep _ d 0%Z) by (unfold v; rewrite set_nth_len; lia). rewrite X by auto. destruct (Nat.eqb i target); lia.
    + intros i Hi. rewrite X by auto. destruct (Nat.eqb_spec i target) as [->|E]; split; intros H; try lia; [constructor|inversion H; congruence].
  - unfold Nat.iter in *. set (u := nat_rect _ _ _ n) in *. set (v := graph_mul tets u).
    split; [unfold v; rewrite graph_mul_len; auto|]. split.
    + apply Forall_nth. intros i d Hi. unfold v in *. rewrite graph_mul_len in Hi. rewrite (nth_indep _ d 0%Z) by (rewrite graph_mul_len; auto). apply graph_mul_nth; auto.
    + intros i Hi. unfold v. rewrite (proj2 (graph_mul_nth tets u i F ltac:(lia))). split.
      * intros (j & Lj & A & Nz). apply adj_edge in A; auto. apply IH in Nz; [|lia]. apply walk_S with j; auto. apply edge_sym; auto.
      * intros W. clear v. clearbody u. inversion W as [|? ? b ? W' E]; subst. exists b. assert (b < length u) by (eapply B; eauto). split; [lia|]. split; [apply adj_edge; auto; apply edge_sym; auto|]. apply IH; auto.
Qed.
Lemma max_spec xs x : forall y, In y (x :: xs) -> y <= fold_left Nat.max xs x.
Proof.
  revert x. induction xs as [|z xs IH]; intros x y; cbn; [intros [->|[]]; lia|].
  intros [->|[->|H]]; [etransitivity; [|apply IH; left; reflexivity]; lia|etransitivity; [|apply IH; left; reflexivity]; lia|]. apply IH. right; auto.
Qed.
Lemma max_in xs x : In (fold_left Nat.max xs x) (x :: xs).
Proof.
  revert x. induction xs as [|z xs IH]; intros x; cbn; auto.
  destruct (IH (Nat.max x z)) as [E|H]; [|right; right; auto]. rewrite <- E. destruct (Nat.max_dec x z) as [->| ->]; auto.
Qed.
Lemma shells_ok tets target N_shells : Forall tetrahedron tets ->
  (exists s v, In s tets /\ In v s /\ target <= v) ->
  exists l, bind (graph_size tets) (fun N => walk_shells N tets target N_shells) = Ok l /\ NoDup l /\
    forall i, In i l <-> i <> target /\ within tets N_shells target i.
Proof.
  intros T (s & u & Hs & Ht & LE). unfold graph_size.
  assert (HT : In u (concat tets)) by (apply in_concat; eauto).
  destruct (concat tets) as [|x xs] eqn:C; [contradiction|]. cbn [bind]. unfold walk_shells.
  pose proof (max_spec xs x) as M. set (N := fold_left Nat.max xs x + 1) in *.
  assert (B : forall a b, edge tets a b -> a < N).
  { intros a b (_ & s' & Hs' & Ha & _). assert (In a (x :: xs)) by (rewrite <- C; apply in_concat; eauto). specialize (M a H). unfold N. lia. }
  assert (TN : target < N) by (specialize (M _ HT); unfold N; lia).
  destruct (Nat.leb_spec N target); [lia|]. destruct (iter_walk tets target N N_shells T TN B) as (L & F & W).
  set (v := Nat.iter N_shells (graph_mul tets) (set_nth target 1%Z (repeat 0%Z N))) in *.
  eexists. split; [reflexivity|]. split; [apply NoDup_filter, seq_NoDup|].
  intros i. rewrite filter_In, in_seq, negb_true_iff, Z.eqb_neq. split.
  - intros [Hi Hn]. rewrite set_nth_nth in Hn by lia. destruct (Nat.eqb_spec i target); [congruence|]. split; auto. apply within_walk; auto. apply W; auto. lia.
  - intros [Hn Hw]. apply within_walk in Hw; auto. assert (i < N).
    { inversion Hw as [|? ? b ? _ E]; subst; [congruence|]. apply edge_sym in E. eapply B; eauto. }
    split; [lia|]. rewrite set_nth_nth by lia. destruct (Nat.eqb_spec i target); [congruence|]. apply W; auto.
Qed.
(** C62, the true part: for every shape and every target not beyond the vertices of the
    surface tetrahedra, with surface_only (the default). *)
Theorem C62_shells_partial : forall (sh : shape) target N_shells,
  let tets := map snd (filter fst (combine (sh_surface sh) (simplices (sh_tri sh)))) in
  Forall tetrahedron tets ->
  (exists s v, In s tets /\ In v s /\ target <= v) ->
  exists l, get_nearest_neighbors target sh N_shells true = Ok l /\ NoDup l /\
    forall i, In i l <-> i <> target /\ within tets N_shells target i.
Proof.
  intros sh target N tets T E. unfold get_nearest_neighbors.
  replace (compress (sh_surface sh) (simplices (sh_tri sh))) with tets; [apply shells_ok; auto|].
  unfold tets. generalize (sh_surface sh). clear. intros mask. revert mask. induction (simplices (sh_tri sh)) as [|x l IH]; intros [|[] m]; cbn; auto. f_equal. apply IH.
Qed.
(** C62 refuted without surface_only: the call fails when fewer than four tetrahedra belong
    to the alpha shape, and otherwise never returns a vertex outside the first four ... *)
Theorem C62_all_tetrahedra_refuted : forall (sh : shape) target N_shells,
  let tets := map snd (filter fst (combine (sh_alpha sh) (simplices (sh_tri sh)))) in
  Forall (fun s => length s = 4) tets ->
  (length tets < 4 -> exists e, get_nearest_neighbors target sh N_shells false = Err e) /\
  forall l i, get_nearest_neighbors target sh N_shells false = Ok l -> In i l ->
    exists s, In s (firstn 4 tets) /\ In i s.
Proof.
  intros sh target N tets T. unfold get_nearest_neighbors.
  replace (compress (sh_alpha sh) (simplices (sh_tri sh))) with tets.
  2: { unfold tets. generalize (sh_alpha sh). clear. intros mask. revert mask. induction (simplices (sh_tri sh)) as [|x l IH]; intros [|[] m]; cbn; auto. f_equal. apply IH. }
  clearbody tets. split.
  - intros L. destruct (graph_size tets) as [n|e]; [|exists e; reflexivity]. cbn [bind]. destruct (Nat.ltb_spec (length tets) 4); [|lia]. eexists. reflexivity.
  - intros l i H Hi. destruct (graph_size tets) as [n|e] eqn:G; [|discriminate]. cbn [bind] in H. destruct (Nat.ltb_spec (length tets) 4); [discriminate|].
    unfold walk_shells in H. destruct (Nat.leb_spec n target); [discriminate|]. injection H as <-. apply filter_In in Hi as [Hi HN]. apply in_seq in Hi. apply negb_true_iff, Z.eqb_neq in HN.
    set (w0 := set_nth target 1%Z (repeat 0%Z n)) in *.
    assert (LW : forall k, length (Nat.iter k (graph_mul (first_columns tets)) w0) = n).
    { induction k as [|k IH]; cbn; [unfold w0; rewrite set_nth_len, repeat_length; auto|]. unfold graph_mul. rewrite map_length, seq_length. exact IH. }
    rewrite set_nth_nth in HN by (rewrite LW; lia). destruct (Nat.eqb_spec i target) as [->|NE]; [congruence|].
    destruct N as [|k].
    { exfalso. cbn in HN. unfold w0 in HN. rewrite set_nth_nth in HN by (rewrite repeat_length; lia). destruct (Nat.eqb_spec i target); [congruence|]. apply HN. apply nth_repeat. }
    change (Nat.iter (S k) (graph_mul (first_columns tets)) w0) with (graph_mul (first_columns tets) (Nat.iter k (graph_mul (first_columns tets)) w0)) in HN. set (u := Nat.iter k (graph_mul (first_columns tets)) w0) in *.
    assert (EX : exists j, graph_entry (first_columns tets) i j = true).
    { destruct (existsb (graph_entry (first_columns tets) i) (seq 0 (length u))) eqn:E; [apply existsb_exists in E as (j & _ & E); eauto|]. exfalso. apply HN. unfold graph_mul.
      assert (LU : length u = n) by apply LW.
      set (f := fun i0 => fold_right Z.add 0%Z (map (fun j => if graph_entry (first_columns tets) i0 j then nth j u 0%Z else 0%Z) (seq 0 (length u)))).
      rewrite (nth_indep _ 0%Z (f 0)) by (rewrite map_length, seq_length, LU; lia). rewrite (map_nth f), seq_nth by lia. cbn [Nat.add]. unfold f.
      revert E. generalize (seq 0 (length u)) as us. induction us as [|x us IH]; cbn [existsb map fold_right]; auto. intros E. apply orb_false_iff in E as [E1 E]. rewrite E1, IH by auto. reflexivity. }
    destruct EX as (j & E). unfold graph_entry in E. apply existsb_exists in E as (c & Hc & E). apply existsb_exists in E as (a & Ha & E). apply existsb_exists in E as (b & Hb & E).
    apply in_seq in Ha. apply in_seq in Hb. unfold first_columns in Hc. apply in_map_iff in Hc as (col & <- & Hcol). apply in_seq in Hcol.
    assert (K : forall r, r < 4 -> exists s, In s (firstn 4 tets) /\ In (nth r (map (fun i0 => nth col (nth i0 tets []) 0) (seq 0 4)) 0) s).
    { intros r Hr. rewrite (nth_indep _ 0 ((fun i0 => nth col (nth i0 tets []) 0) 0)) by (rewrite map_length, seq_length; lia). rewrite (map_nth (fun i0 => nth col (nth i0 tets []) 0)), seq_nth by lia. cbn [Nat.add].
      assert (IN : In (nth r tets []) (firstn 4 tets)).
      { rewrite <- (firstn_skipn 4 tets) at 1. rewrite app_nth1 by (rewrite firstn_length; lia). apply nth_In. rewrite firstn_length. lia. }
      exists (nth r tets []). split; [exact IN|]. apply nth_In. rewrite Forall_forall in T. rewrite (T (nth r tets [])); [lia|]. apply nth_In. lia. }
    cbn beta zeta in E. apply orb_true_iff in E as [E|E]; apply andb_true_iff in E as [E1 E2]; apply Nat.eqb_eq in E1; rewrite E1; apply K; lia.
Qed.
(** ... nor need it be an edge of any tetrahedron: with five tetrahedra around the target's
    vertex 0, vertex 4 is returned for one shell although no tetrahedron holds 0 and 4, and
    neighbour 1 is missed. *)
Definition ex_shape : shape := mkShape [] (mkTri [[0;1;2;3]; [4;1;2;3]; [4;5;6;7]; [4;5;6;8]; [8;9;10;11]] []) [true;true;false;false;false] [true;true;true;true;false].
Theorem C62_wrong_neighbours_refuted : let tets := map snd (filter fst (combine (sh_alpha ex_shape) (simplices (sh_tri ex_shape)))) in
  Forall tetrahedron tets /\ get_nearest_neighbors 0 ex_shape 1 false = Ok [4] /\ ~ edge tets 0 4 /\ edge tets 0 1.
Proof.
  cbn zeta. split; [cbn; unfold tetrahedron; repeat constructor; cbn; intuition lia|]. split; [vm_compute; reflexivity|]. split.
  - intros (_ & s & Hs & A & B). cbn in Hs. intuition subst; cbn in *; intuition lia.
  - split; [lia|]. exists [0;1;2;3]. cbn. auto.
Qed.
Example C62_nonvacuous :
  get_nearest_neighbors 0 ex_shape 1 true = Ok [1;2;3] /\ get_nearest_neighbors 0 ex_shape 2 true = Ok [1;2;3;4] /\
  get_nearest_neighbors 0 ex_shape 3 true = Ok [1;2;3;4] /\
  Forall tetrahedron (map snd (filter fst (combine (sh_surface ex_shape) (simplices (sh_tri ex_shape))))).
Proof.
  do 3 (split; [vm_compute; reflexivity|]). cbn. unfold tetrahedron. repeat constructor; cbn; intuition lia.
Qed.

(* ---------------- C64 ---------------- *)
(** A consistent triangulation: four vertices and four neighbours per tetrahedron. *)
Definition wf_tri (tri : triangulation) : Prop :=
  length (simplices tri) = length (neighbors tri) /\
  Forall (fun s => length s = 4) (simplices tri) /\
  Forall (fun nb => length nb = 4 /\ Forall (fun z => -1 <= z < Z.of_nat (length (simplices tri)))%Z nb) (neighbors tri).
(** The four points of tetrahedron s lie on a sphere of radius at most [probe] (and are
    not in one plane). *)
Definition small_sphere (pts : list vec) (probe : R) (s : list nat) : Prop :=
  exists p0 p1 p2 p3 c r, map (fun k => nth k pts v0) s = [p0; p1; p2; p3] /\ volume6 p0 p1 p2 p3 <> 0%R /\
    (forall p, In p [p0; p1; p2; p3] -> dist c p = r) /\ (r <= probe)%R.
(** tetrahedron i passes the probe test in one of the samples of the points *)
Definition passing (tri : triangulation) (samples : list (list vec)) (probe : R) (i : nat) : Prop :=
  exists q s, In q samples /\ nth_error (simplices tri) i = Some s /\ small_sphere q probe s.
(** [q] is the array points + noise *)
Definition jitter (points noise q : list vec) : Prop :=
  length noise = length points /\ length q = length points /\
  forall k, k < length points -> nth k q v0 = vadd (nth k points v0) (nth k noise v0).
(** [sh] is what one of the two functions returns for some noise, [tri] the triangulation
    it is based on and [samples] the point sets whose spheres it measures. *)
Inductive computed (delaunay : list vec -> triangulation) (points : list vec) (probe : R) :
  triangulation -> list (list vec) -> shape -> Prop :=
| by_single n1 n2 pts1 pts2 : jitter points n1 pts1 -> jitter pts1 n2 pts2 ->
    computed delaunay points probe (delaunay pts1) [pts2] (alpha_shape delaunay points probe n1 n2)
| by_sampling noises samples sh : Forall2 (jitter points) noises samples ->
    alpha_shape_sampled delaunay points probe noises = Ok sh ->
    computed delaunay points probe (delaunay points) samples sh.
(** tetrahedron i lies on the boundary of the triangulation; next to tetrahedron j *)
Definition on_boundary (tri : triangulation) (i : nat) : Prop := exists nb, nth_error (neighbors tri) i = Some nb /\ In (-1)%Z nb.
Definition adjacent (tri : triangulation) (i j : nat) : Prop := exists nb, nth_error (neighbors tri) i = Some nb /\ In (Z.of_nat j) nb.
(** [P i]: tetrahedron i passes the probe test *)
Definition surface_tet (tri : triangulation) (P : nat -> Prop) (i : nat) : Prop :=
  P i /\ (on_boundary tri i \/ exists j, adjacent tri i j /\ on_boundary tri j /\ ~ P j).
Definition passes (probe : list bool) (i : nat) : Prop := nth_error probe i = Some true.

Lemma bget_nat l j : bget l (Z.of_nat j) = nth j l false.
Proof.
  unfold bget, py_index. destruct (Z.leb_spec 0 (Z.of_nat j)); [|lia]. destruct (Z.ltb_spec (Z.of_nat j) (Z.of_nat (length l))); cbn [andb].
  - rewrite Nat2Z.id. reflexivity.
  - destruct (Z.ltb_spec (Z.of_nat j) 0); [lia|]. rewrite andb_false_r. rewrite nth_overflow by lia. reflexivity.
Qed.
Lemma nth_error_bool l i : nth i l false = true <-> nth_error l i = Some true.
Proof.
  split; intros H.
  - rewrite <- H. apply nth_error_nth'. destruct (Nat.lt_ge_cases i (length l)); auto. rewrite nth_overflow in H by auto. discriminate.
  - eapply nth_error_nth in H. exact H.
Qed.
Lemma outside_spec tri i : wf_tri tri -> (nth_error (tri_outside tri) i = Some true <-> on_boundary tri i).
Proof.
  intros (_ & _ & W). unfold tri_outside, on_boundary. rewrite nth_error_map. destruct (nth_error (neighbors tri) i) as [nb|] eqn:E; cbn; [|split; [discriminate|intros (x & X & _); discriminate]].
  rewrite Forall_forall in W. destruct (W nb (nth_error_In _ _ E)) as [L F].
  assert (G : Nat.ltb (length (filter (fun z => 0 <=? z)%Z nb)) 4 = true <-> In (-1)%Z nb).
  { rewrite Nat.ltb_lt, <- L. clear - F. induction F as [|z nb Hz F IH]; cbn; [lia|].
    assert (LL : length (filter (fun z => 0 <=? z)%Z nb) <= length nb) by (clear; induction nb; cbn; [lia|]; destruct (0 <=? a)%Z; cbn; lia).
    destruct (Z.leb_spec 0 z); cbn; split; intros H1.
    + right. apply IH. lia.
    + destruct H1 as [->|H1]; [lia|]. apply IH in H1. lia.
    + left. lia.
    + lia. }
  split.
  - intros H. inversion H as [H1]. exists nb. split; auto. apply G; auto.
  - intros (x & X & HI). inversion X; subst. f_equal. apply G; auto.
Qed.
Lemma mask_and_nth a b i : length a = length b -> (nth_error (mask_and a b) i = Some true <-> nth_error a i = Some true /\ nth_error b i = Some true).
Proof.
  unfold mask_and. revert b i. induction a as [|x a IH]; intros [|y b] [|i] L; cbn in *; try lia; try (split; [discriminate|intros [? ?]; discriminate]).
  - split; [intros H; inversion H as [H1]; apply andb_true_iff in H1 as [-> ->]; auto|intros [H1 H2]; inversion H1; inversion H2; reflexivity].
  - apply IH. lia.
Qed.
Lemma mask_or_nth a b i : length a = length b -> (nth_error (mask_or a b) i = Some true <-> nth_error a i = Some true \/ nth_error b i = Some true).
Proof.
  unfold mask_or. revert b i. induction a as [|x a IH]; intros [|y b] [|i] L; cbn in *; try lia; try (split; [discriminate|intros [?|?]; discriminate]).
  - destruct x, y; cbn; intuition congruence.
  - apply IH. lia.
Qed.
Lemma outside_len tri : length (tri_outside tri) = length (neighbors tri). Proof. apply map_length. Qed.
Lemma ncheck_len tri p : length (neighbor_check tri p) = length (neighbors tri). Proof. apply map_length. Qed.
Lemma mask_or_len a b : length a = length b -> length (mask_or a b) = length a.
Proof. intros H. unfold mask_or. rewrite map_length, combine_length. lia. Qed.
Lemma mask_and_len a b : length a = length b -> length (mask_and a b) = length a.
Proof. intros H. unfold mask_and. rewrite map_length, combine_length. lia. Qed.
Lemma surface_ok tri probe i : wf_tri tri -> length probe = length (simplices tri) ->
  (nth_error (surface_tris tri probe) i = Some true <-> surface_tet tri (passes probe) i).
Proof.
  intros W L. pose proof W as (WL & _ & WN). unfold surface_tris, surface_tet, passes.
  rewrite mask_and_nth by (rewrite mask_or_len, outside_len; rewrite ?outside_len, ?ncheck_len; lia).
  rewrite mask_or_nth by (rewrite outside_len, ncheck_len; auto). rewrite (outside_spec tri i W).
  assert (N : nth_error (neighbor_check tri probe) i = Some true -> on_boundary tri i \/ exists j, adjacent tri i j /\ on_boundary tri j /\ ~ nth_error probe j = Some true).
  { unfold neighbor_check. rewrite nth_error_map. destruct (nth_error (neighbors tri) i) as [nb|] eqn:E; cbn; [|discriminate]. intros H. injection H as H1.
    apply existsb_exists in H1 as (z & Hz & H1). apply andb_true_iff in H1 as [H1 H2]. apply negb_true_iff in H1.
    rewrite Forall_forall in WN. destruct (WN nb (nth_error_In _ _ E)) as [_ F]. rewrite Forall_forall in F. specialize (F z Hz).
    destruct (Z.eq_dec z (-1)) as [->|D]; [left; exists nb; auto|right]. exists (Z.to_nat z).
    assert (EZ : z = Z.of_nat (Z.to_nat z)) by lia. rewrite EZ, bget_nat in H1, H2. split; [exists nb; rewrite <- EZ; auto|].
    split; [apply outside_spec; auto; apply nth_error_bool; auto|]. rewrite <- nth_error_bool. congruence. }
  assert (N' : (exists j, adjacent tri i j /\ on_boundary tri j /\ ~ nth_error probe j = Some true) -> nth_error (neighbor_check tri probe) i = Some true).
  { intros (j & (nb & E & HI) & B & P). unfold neighbor_check. rewrite nth_error_map, E. cbn. f_equal. apply existsb_exists. exists (Z.of_nat j). split; auto.
    rewrite !bget_nat. apply outside_spec in B; auto. apply nth_error_bool in B. rewrite B. rewrite <- nth_error_bool in P. apply not_true_is_false in P. rewrite P. reflexivity. }
  split; intros [H1 H2]; (split; [auto|]); destruct H2 as [H2|H2]; auto.
Qed.
(** Face k of tetrahedron i (the one opposite its k-th vertex) is exposed: nothing, or
    a tetrahedron failing the test, lies behind it. *)
Definition exposed (tri : triangulation) (P : nat -> Prop) (i k : nat) : Prop :=
  exists nb z, nth_error (neighbors tri) i = Some nb /\ nth_error nb k = Some z /\
    (z = (-1)%Z \/ exists j, z = Z.of_nat j /\ ~ P j).
Definition vertex (tri : triangulation) (i k v : nat) : Prop :=
  exists s, nth_error (simplices tri) i = Some s /\ nth_error s k = Some v.

Lemma compress_combine {A B} m (a : list A) (b : list B) x y : length a = length b -> length m = length a ->
  (In (x, y) (combine (compress m a) (compress m b)) <-> exists i, nth_error m i = Some true /\ nth_error a i = Some x /\ nth_error b i = Some y).
Proof.
  revert a b. induction m as [|c m IH]; intros [|p a] [|q b] L M; cbn in *; try lia.
  - split; [contradiction|intros (i & H & _); destruct i; discriminate].
  - destruct c; cbn.
    + rewrite IH by lia. split.
      * intros [E|(i & H)]; [inversion E; subst; exists 0; auto|exists (S i); auto].
      * intros ([|i] & H1 & H2 & H3); [cbn in *; left; congruence|right; exists i; auto].
    + rewrite IH by lia. split; [intros (i & H); exists (S i); auto|intros ([|i] & H1 & H2); [discriminate|exists i; auto]].
Qed.
Lemma compress_in {A} m (a : list A) x : length m = length a -> (In x (compress m a) <-> exists k, nth_error m k = Some true /\ nth_error a k = Some x).
Proof.
  revert a. induction m as [|c m IH]; intros [|p a] L; cbn in *; try lia.
  - split; [contradiction|intros ([|k] & H & _); discriminate].
  - destruct c; cbn; rewrite IH by lia.
    + split; [intros [->|(k & H)]; [exists 0; auto|exists (S k); auto]|intros ([|k] & H1 & H2); [cbn in *; left; congruence|right; exists k; auto]].
    + split; [intros (k & H); exists (S k); auto|intros ([|k] & H1 & H2); [discriminate|exists k; auto]].
Qed.
(** exactly the vertices opposite an unexposed face of a surface tetrahedron are returned *)
Lemma out_points_spec tri probe v : wf_tri tri -> length probe = length (simplices tri) ->
  (In v (out_points tri probe) <-> exists i k, surface_tet tri (passes probe) i /\ vertex tri i k v /\ ~ exposed tri (passes probe) i k).
Proof.
  intros W L. pose proof W as (WL & WS & WN). unfold out_points. rewrite in_concat.
  assert (SL : length (surface_tris tri probe) = length (simplices tri)).
  { unfold surface_tris. rewrite mask_and_len; [auto|]. rewrite mask_or_len; rewrite outside_len, ?ncheck_len; lia. }
  rewrite Forall_forall in WS, WN.
  split.
  - intros (l & Hl & Hv). apply in_map_iff in Hl as ((s & nb) & <- & Hsn). apply compress_combine in Hsn as (i & H1 & H2 & H3); [|lia|lia].
    cbn [fst snd] in Hv. pose proof (WS s (nth_error_In _ _ H2)) as LS. destruct (WN nb (nth_error_In _ _ H3)) as [LN FN].
    apply compress_in in Hv as (k & K1 & K2); [|rewrite map_length; lia]. rewrite nth_error_map in K1. destruct (nth_error nb k) as [z|] eqn:EZ; [|discriminate]. cbn in K1.
    inversion K1 as [K]. apply negb_true_iff, orb_false_iff in K as [K3 K4]. apply Z.eqb_neq in K3. apply negb_false_iff in K4.
    exists i, k. split; [apply surface_ok; auto|]. split; [exists s; auto|].
    intros (nb' & z' & X1 & X2 & X3). rewrite H3 in X1. inversion X1; subst nb'. rewrite EZ in X2. inversion X2; subst z'. destruct X3 as [->|(j & -> & NP)]; [congruence|].
    rewrite bget_nat in K4. apply NP. apply nth_error_bool; auto.
  - intros (i & k & H1 & (s & H2 & K2) & H3). apply surface_ok in H1; auto.
    assert (exists nb, nth_error (neighbors tri) i = Some nb) as [nb HN].
    { destruct (nth_error (neighbors tri) i) eqn:E; eauto. apply nth_error_None in E. assert (i < length (simplices tri)) by (apply nth_error_Some; congruence). lia. }
    pose proof (WS s (nth_error_In _ _ H2)) as LS. destruct (WN nb (nth_error_In _ _ HN)) as [LN FN].
    eexists. split; [apply in_map_iff; exists (s, nb); split; [reflexivity|apply compress_combine; [lia|lia|exists i; auto]]|].
    cbn [fst snd]. apply compress_in; [rewrite map_length; lia|]. exists k. split; auto. rewrite nth_error_map.
    destruct (nth_error nb k) as [z|] eqn:EZ; [|apply nth_error_None in EZ; assert (k < length s) by (apply nth_error_Some; congruence); lia].
    cbn. f_equal. apply negb_true_iff, orb_false_iff. rewrite Forall_forall in FN. pose proof (FN z (nth_error_In _ _ EZ)) as RZ.
    assert (z <> (-1)%Z) by (intros ->; apply H3; exists nb, (-1)%Z; auto). split; [apply Z.eqb_neq; auto|]. apply negb_false_iff.
    assert (E : z = Z.of_nat (Z.to_nat z)) by lia. destruct (bget probe z) eqn:BG; auto. exfalso. apply H3. exists nb, z. split; auto. split; auto. right. exists (Z.to_nat z). split; auto.
    rewrite E, bget_nat in BG. unfold passes. rewrite <- nth_error_bool. congruence.
Qed.
(* the probe mask and what it stands for *)
Lemma simplex_passes_ok pts probe s : simplex_passes pts probe s = true <-> small_sphere pts probe s.
Proof.
  unfold simplex_passes, small_sphere.
  destruct (map (fun k => nth k pts v0) s) as [|p0 [|p1 [|p2 [|p3 [|p4 l]]]]]; try (split; [discriminate|intros (? & ? & ? & ? & ? & ? & E & _); discriminate]).
  destruct (Req_EM_T (volume6 p0 p1 p2 p3) 0) as [Z|Z].
  - rewrite C63_flat by auto. split; [discriminate|]. intros (a0 & a1 & a2 & a3 & c & r & E & V & _). inversion E; subst. contradiction.
  - destruct (C63_circumsphere _ _ _ _ Z) as (r & c & E & D & U). rewrite E, Rleb_iff. split.
    + intros H. exists p0, p1, p2, p3, c, r. auto.
    + intros (a0 & a1 & a2 & a3 & c' & r' & E' & _ & D' & H). inversion E'; subst. destruct (U c' r' D') as [_ ->]. auto.
Qed.
Lemma probe_test_ok q probe tri i : nth_error (probe_test q probe tri) i = Some true <-> passing tri [q] probe i.
Proof.
  unfold probe_test, passing. rewrite nth_error_map. destruct (nth_error (simplices tri) i) as [s|]; cbn; [|split; [discriminate|intros (? & ? & _ & X & _); discriminate]].
  split.
  - intros E. exists q, s. split; [auto|]. split; [auto|]. apply simplex_passes_ok. congruence.
  - intros (q' & s' & [->|[]] & E & X). inversion E; subst. f_equal. apply simplex_passes_ok; auto.
Qed.
Lemma jitter_perturb points noise q : jitter points noise q -> q = perturb points noise.
Proof.
  intros (L & M & H). unfold perturb. apply nth_ext with (d := v0) (d' := v0); [rewrite map_length, combine_length; lia|].
  intros n Hn. rewrite H by lia.
  assert (E : forall d, nth n (map (fun pq => vadd (fst pq) (snd pq)) (combine points noise)) d = vadd (nth n points v0) (nth n noise v0)).
  { intros d. rewrite (nth_indep _ d (vadd (fst (v0, v0)) (snd (v0, v0)))) by (rewrite map_length, combine_length; lia).
    rewrite (map_nth (fun pq => vadd (fst pq) (snd pq))), combine_nth by lia. reflexivity. }
  symmetry. apply E.
Qed.
Lemma sampled_spec ps probe tri : forall acc i, length acc = length (simplices tri) ->
  (nth_error (fold_left (fun acc q => mask_or acc (probe_test q probe tri)) ps acc) i = Some true <->
   nth_error acc i = Some true \/ exists q, In q ps /\ nth_error (probe_test q probe tri) i = Some true) /\
  length (fold_left (fun acc q => mask_or acc (probe_test q probe tri)) ps acc) = length (simplices tri).
Proof.
  induction ps as [|p ps IH]; intros acc i L; cbn [fold_left].
  - split; auto. split; [auto|intros [|(q & [] & _)]; auto].
  - assert (LP : length (probe_test p probe tri) = length (simplices tri)) by apply map_length.
    destruct (IH (mask_or acc (probe_test p probe tri)) i) as [A B]; [rewrite mask_or_len; lia|]. split; auto. rewrite A, mask_or_nth by lia. cbn. split.
    + intros [[|]|(q & Hq & E)]; eauto.
    + intros [|(q & [<-|Hq] & E)]; eauto.
Qed.
Lemma sampled_mask samples probe tri : samples <> [] -> exists pt, probe_test_sampled samples probe tri = Ok pt /\
  length pt = length (simplices tri) /\ forall i, passes pt i <-> passing tri samples probe i.
Proof.
  intros H. destruct samples as [|p ps]; [congruence|]. cbn. eexists. split; [reflexivity|].
  assert (LP : length (probe_test p probe tri) = length (simplices tri)) by apply map_length. split; [apply (sampled_spec ps probe tri _ 0 LP)|].
  intros i. unfold passes. rewrite (proj1 (sampled_spec ps probe tri _ i LP)). rewrite probe_test_ok. split.
  - intros [(q & s & [<-|[]] & A)|(q & Hq & A)]; [exists p, s; cbn; tauto|]. apply probe_test_ok in A as (q' & s & [<-|[]] & A). exists q, s. cbn; tauto.
  - intros (q & s & [<-|Hq] & A); [left; exists p, s; cbn; tauto|right]. exists q. split; auto. apply probe_test_ok. exists q, s. cbn; tauto.
Qed.
Lemma computed_mask delaunay points probe tri samples sh : computed delaunay points probe tri samples sh ->
  exists pt, sh = shape_of tri pt /\ length pt = length (simplices tri) /\ forall i, passes pt i <-> passing tri samples probe i.
Proof.
  intros [n1 n2 pts1 pts2 J1 J2|noises smp sh' F E].
  - unfold alpha_shape. rewrite <- (jitter_perturb _ _ _ J1), <- (jitter_perturb _ _ _ J2). eexists. split; [reflexivity|]. split; [apply map_length|]. intros i. apply probe_test_ok.
  - unfold alpha_shape_sampled in E. assert (EM : map (perturb points) noises = smp).
    { clear E. induction F as [|n q ns qs J F IH]; cbn; auto. rewrite <- (jitter_perturb _ _ _ J), IH. reflexivity. }
    rewrite EM in E. destruct smp as [|q qs]; [discriminate|]. destruct (sampled_mask (q :: qs) probe (delaunay points)) as (pt & X & L & P); [discriminate|].
    rewrite X in E. cbn in E. inversion E; subst. eauto.
Qed.
Lemma surface_tet_iff tri P Q i : (forall i, P i <-> Q i) -> surface_tet tri P i <-> surface_tet tri Q i.
Proof. intros H. unfold surface_tet. rewrite H. split; intros [A [B|(j & C & D & E)]]; split; auto; right; exists j; (split; [auto|split; [auto|]]); intros X; apply E; apply H; exact X. Qed.
Lemma exposed_iff tri P Q i k : (forall i, P i <-> Q i) -> exposed tri P i k <-> exposed tri Q i k.
Proof.
  intros H. unfold exposed. split; intros (nb & z & A & B & [C|(j & C & D)]); exists nb, z; split; auto; split; auto; right; exists j; (split; [auto|]); intros X; apply D; apply H; exact X.
Qed.

(** C64, first part: the tetrahedra marked as surface are exactly the passing ones on the
    boundary or next to a failing boundary one; the sentinel -1 never matters. *)
Theorem C64_surface_tetrahedra_partial : forall delaunay points probe tri samples sh,
  computed delaunay points probe tri samples sh -> wf_tri tri ->
  sh_tri sh = tri /\ forall i, nth_error (sh_surface sh) i = Some true <-> surface_tet tri (passing tri samples probe) i.
Proof.
  intros * C W. destruct (computed_mask _ _ _ _ _ _ C) as (pt & -> & L & P). split; [reflexivity|]. intros i. cbn.
  rewrite surface_ok by auto. apply surface_tet_iff, P.
Qed.
(** Soundness: every returned index is a vertex of an exposed face of the alpha shape. *)
Theorem C64_returned_on_surface_partial : forall delaunay points probe tri samples sh v,
  computed delaunay points probe tri samples sh -> wf_tri tri -> In v (sh_points sh) ->
  exists i k l, surface_tet tri (passing tri samples probe) i /\ exposed tri (passing tri samples probe) i l /\ vertex tri i k v /\ k <> l.
Proof.
  intros * C W H. destruct (computed_mask _ _ _ _ _ _ C) as (pt & -> & L & PP). cbn in H. apply nodup_In in H. apply out_points_spec in H as (i & k & S & V & NE); auto.
  assert (E : exists l, exposed tri (passes pt) i l).
  { destruct S as [P [(nb & E & HI)|(j & (nb & E & HI) & _ & NP)]]; apply In_nth_error in HI as [l HL]; exists l, nb; eauto.
    exists (Z.of_nat j). split; auto. split; auto. right. eauto. }
  destruct E as [l E]. exists i, k, l. split; [apply (surface_tet_iff _ _ _ _ PP); auto|]. split; [apply (exposed_iff _ _ _ _ _ PP); auto|]. split; auto. intros ->. contradiction.
Qed.
(** Completeness holds for surface tetrahedra with a single exposed face ... *)
Theorem C64_single_face_partial : forall delaunay points probe tri samples sh i l k v,
  computed delaunay points probe tri samples sh -> wf_tri tri ->
  surface_tet tri (passing tri samples probe) i -> (forall m, exposed tri (passing tri samples probe) i m -> m = l) -> vertex tri i k v -> k <> l ->
  In v (sh_points sh).
Proof.
  intros * C W S U V D. destruct (computed_mask _ _ _ _ _ _ C) as (pt & -> & L & PP). cbn. apply nodup_In. apply out_points_spec; auto. exists i, k.
  split; [apply (surface_tet_iff _ _ _ _ PP); exact S|]. split; [exact V|]. intros E. apply D. apply U. apply (exposed_iff _ _ _ _ _ PP); exact E.
Qed.
(** No index is returned twice. *)
Theorem C64_no_repeats : forall delaunay points probe tri samples sh, computed delaunay points probe tri samples sh -> NoDup (sh_points sh).
Proof. intros * C. destruct (computed_mask _ _ _ _ _ _ C) as (pt & -> & _). apply NoDup_nodup. Qed.
(** ... but not in general: for the corner of a cube and a large enough probe, all four
    faces are exposed and no point is returned. *)
Definition lone : triangulation := mkTri [[0;1;2;3]] [[-1;-1;-1;-1]%Z].
Definition corner : list vec := [mkV 0 0 0; mkV 1 0 0; mkV 0 1 0; mkV 0 0 1]%R.
Definition still : list vec := [v0; v0; v0; v0].
Lemma corner_still : jitter corner still corner.
Proof. split; [reflexivity|split; [reflexivity|]]. intros k Hk. cbn in Hk. destruct k as [|[|[|[|]]]]; try lia; cbn; vring. Qed.
Lemma corner_small k0 k1 k2 k3 pts : nth k0 pts v0 = mkV 0 0 0 -> nth k1 pts v0 = mkV 1 0 0 -> nth k2 pts v0 = mkV 0 1 0 -> nth k3 pts v0 = mkV 0 0 1 -> small_sphere pts 1 [k0; k1; k2; k3].
Proof.
  intros E0 E1 E2 E3. exists (mkV 0 0 0), (mkV 1 0 0), (mkV 0 1 0), (mkV 0 0 1), (mkV (1/2) (1/2) (1/2)), (sqrt (3/4)). cbn [map]. rewrite E0, E1, E2, E3. split; [reflexivity|].
  split; [unfold volume6; vunfold; cbn; lra|]. split.
  - intros p [<-|[<-|[<-|[<-|[]]]]]; unfold dist, norm; f_equal; vunfold; cbn; lra.
  - rewrite <- sqrt_1. apply sqrt_le_1; lra.
Qed.
Theorem C64_surface_points_refuted :
  let del := fun _ => lone in let sh := alpha_shape del corner 1 still still in
  let P := passing lone [corner] 1 in
  computed del corner 1 lone [corner] sh /\ wf_tri lone /\ surface_tet lone P 0 /\
  (forall k, k < 4 -> exposed lone P 0 k) /\ vertex lone 0 1 1 /\ sh_points sh = [].
Proof.
  intros del sh P. assert (C : computed del corner 1 lone [corner] sh) by (apply (by_single del corner 1 still still corner corner corner_still corner_still)).
  assert (W : wf_tri lone) by (repeat split; repeat constructor; cbn; lia).
  assert (E : forall k, k < 4 -> exposed lone P 0 k).
  { intros k Hk. exists [-1;-1;-1;-1]%Z, (-1)%Z. split; [reflexivity|]. split; [|left; auto]. destruct k as [|[|[|[|]]]]; try lia; reflexivity. }
  split; [exact C|]. split; [exact W|]. split; [|split; [exact E|split; [eexists; split; reflexivity|]]].
  - split; [|left; eexists; split; [reflexivity|left; reflexivity]]. exists corner, [0;1;2;3]. split; [left; reflexivity|]. split; [reflexivity|]. apply corner_small; reflexivity.
  - destruct (sh_points sh) as [|v l] eqn:S; auto. exfalso.
    destruct (computed_mask _ _ _ _ _ _ C) as (pt & X & L & PP). assert (HV : In v (sh_points sh)) by (rewrite S; left; auto). rewrite X in HV. apply nodup_In in HV.
    apply out_points_spec in HV as (i & k & [SP _] & (s & V1 & V2) & NE); auto.
    destruct i as [|i]; [|destruct i; discriminate]. inversion V1; subst s. apply NE. apply (exposed_iff _ _ _ _ _ PP). apply E. change 4 with (length [0;1;2;3]). apply nth_error_Some. congruence.
Qed.
(** one surface tetrahedron with a single exposed face *)
Definition cap_tri : triangulation := mkTri [[0;1;2;3]; [4;1;2;3]; [0;5;2;3]; [0;1;6;3]] [[1;2;3;-1]; [0;-1;-1;-1]; [-1;0;-1;-1]; [-1;-1;0;-1]]%Z.
Definition cap_points : list vec := corner ++ [mkV 1 1 1; mkV (-1) 0 0; mkV 0 (-1) 0]%R.
Definition cap_still : list vec := still ++ [v0; v0; v0].
Lemma cap_jitter : jitter cap_points cap_still cap_points.
Proof. split; [reflexivity|split; [reflexivity|]]. intros k Hk. cbn in Hk. destruct k as [|[|[|[|[|[|[|]]]]]]]; try lia; cbn; vring. Qed.
Lemma small_of pts k0 k1 k2 k3 p0 p1 p2 p3 c : map (fun k => nth k pts v0) [k0;k1;k2;k3] = [p0;p1;p2;p3] -> volume6 p0 p1 p2 p3 <> 0%R ->
  (forall p, In p [p0;p1;p2;p3] -> dot (vsub c p) (vsub c p) = 3/4)%R -> small_sphere pts 1 [k0;k1;k2;k3].
Proof.
  intros E V D. exists p0, p1, p2, p3, c, (sqrt (3/4)). split; [exact E|]. split; [exact V|]. split.
  - intros p Hp. unfold dist, norm. rewrite D; auto.
  - rewrite <- sqrt_1. apply sqrt_le_1; lra.
Qed.
Example C64_nonvacuous :
  let del := fun _ => cap_tri in let sh := alpha_shape del cap_points 1 cap_still cap_still in let P := passing cap_tri [cap_points] 1 in
  computed del cap_points 1 cap_tri [cap_points] sh /\ wf_tri cap_tri /\ surface_tet cap_tri P 0 /\
  (forall m, exposed cap_tri P 0 m -> m = 3) /\ vertex cap_tri 0 1 1.
Proof.
  intros del sh P.
  assert (PI : forall i, i < 4 -> P i).
  { intros i Hi. exists cap_points, (nth i (simplices cap_tri) []). split; [left; auto|]. split; [apply nth_error_nth'; exact Hi|].
    destruct i as [|[|[|[|]]]]; try lia; cbn [nth cap_tri simplices].
    - apply (small_of _ _ _ _ _ (mkV 0 0 0) (mkV 1 0 0) (mkV 0 1 0) (mkV 0 0 1) (mkV (1/2) (1/2) (1/2))); [reflexivity|unfold volume6; vunfold; cbn; lra|]. intros p [<-|[<-|[<-|[<-|[]]]]]; vunfold; cbn; lra.
    - apply (small_of _ _ _ _ _ (mkV 1 1 1) (mkV 1 0 0) (mkV 0 1 0) (mkV 0 0 1) (mkV (1/2) (1/2) (1/2))); [reflexivity|unfold volume6; vunfold; cbn; lra|]. intros p [<-|[<-|[<-|[<-|[]]]]]; vunfold; cbn; lra.
    - apply (small_of _ _ _ _ _ (mkV 0 0 0) (mkV (-1) 0 0) (mkV 0 1 0) (mkV 0 0 1) (mkV (-1/2) (1/2) (1/2))); [reflexivity|unfold volume6; vunfold; cbn; lra|]. intros p [<-|[<-|[<-|[<-|[]]]]]; vunfold; cbn; lra.
    - apply (small_of _ _ _ _ _ (mkV 0 0 0) (mkV 1 0 0) (mkV 0 (-1) 0) (mkV 0 0 1) (mkV (1/2) (-1/2) (1/2))); [reflexivity|unfold volume6; vunfold; cbn; lra|]. intros p [<-|[<-|[<-|[<-|[]]]]]; vunfold; cbn; lra. }
  split; [apply (by_single del cap_points 1 cap_still cap_still cap_points cap_points cap_jitter cap_jitter)|].
  split; [repeat split; repeat constructor; cbn; lia|]. split; [split; [apply PI; lia|left; eexists; split; [reflexivity|do 3 right; left; reflexivity]]|].
  split; [|eexists; split; reflexivity]. intros m (nb & z & H1 & H2 & H3). cbn in H1. inversion H1; subst nb.
  destruct m as [|[|[|[|m]]]]; cbn in H2; [| | |reflexivity|destruct m; discriminate]; inversion H2; subst z; destruct H3 as [|(j & E & NP)]; try discriminate; exfalso; apply NP, PI; lia.
Qed.

(* ---------------- C80 ---------------- *)
(** Tetrahedron i belongs to the alpha shape that is returned: it passes, or it is an
    inner void. *)
Definition in_alpha (sh : shape) (i : nat) : Prop := nth_error (sh_alpha sh) i = Some true.
(** With no sample the function fails; with samples it succeeds, keeps the triangulation
    of the unperturbed points, and a tetrahedron on its boundary is in the alpha shape iff
    it passes the probe test in at least one sample. *)
Theorem C80_sampling : forall delaunay points probe noises samples,
  Forall2 (jitter points) noises samples -> wf_tri (delaunay points) ->
  (samples = [] -> alpha_shape_sampled delaunay points probe noises = Err UnboundLocalError) /\
  (samples <> [] -> exists sh, alpha_shape_sampled delaunay points probe noises = Ok sh /\ sh_tri sh = delaunay points /\
     forall i, i < length (simplices (delaunay points)) ->
       (in_alpha sh i <-> ~ on_boundary (delaunay points) i \/ passing (delaunay points) samples probe i)).
Proof.
  intros * F W. assert (EM : map (perturb points) noises = samples).
  { induction F as [|n q ns qs J F IH]; cbn; auto. rewrite <- (jitter_perturb _ _ _ J), IH. reflexivity. }
  split.
  - intros ->. inversion F; subst. reflexivity.
  - intros H. destruct (sampled_mask samples probe (delaunay points) H) as (pt & E & L & P). unfold alpha_shape_sampled. rewrite EM, E. cbn [bind]. eexists. split; [reflexivity|]. split; [reflexivity|].
    intros i Hi. unfold in_alpha. cbn. rewrite <- P. pose proof (outside_spec _ i W) as O. destruct W as (WL & _).
    assert (LO : length (tri_outside (delaunay points)) = length pt) by (rewrite outside_len; lia).
    unfold alpha_tris, mask_not. rewrite nth_error_map.
    assert (LA : length (mask_and (tri_outside (delaunay points)) (map negb pt)) = length pt) by (rewrite mask_and_len; rewrite ?map_length; lia).
    destruct (nth_error (mask_and _ _) i) as [b|] eqn:EB; [|apply nth_error_None in EB; lia]. cbn.
    assert (B : b = true <-> on_boundary (delaunay points) i /\ ~ passes pt i).
    { rewrite <- O. transitivity (nth_error (mask_and (tri_outside (delaunay points)) (map negb pt)) i = Some true); [rewrite EB; split; congruence|].
      rewrite mask_and_nth by (rewrite map_length; lia). rewrite nth_error_map. unfold passes. destruct (nth_error pt i) as [[|]|] eqn:EP; cbn; [| |apply nth_error_None in EP; lia]; intuition congruence. }
    destruct b; cbn; split; intros X; try discriminate; auto.
    + exfalso. destruct (proj1 B eq_refl). tauto.
    + unfold passes. destruct (nth_error pt i) as [[|]|] eqn:EP; [auto| |apply nth_error_None in EP; lia].
      left. intros OB. assert (false = true) by (apply B; split; auto; unfold passes; congruence). discriminate.
Qed.
(** Further samples never remove a tetrahedron. *)
Theorem C80_monotone : forall delaunay points probe noises samples more samples' sh sh' i,
  Forall2 (jitter points) noises samples -> Forall2 (jitter points) more samples' -> wf_tri (delaunay points) ->
  alpha_shape_sampled delaunay points probe noises = Ok sh ->
  alpha_shape_sampled delaunay points probe (noises ++ more) = Ok sh' ->
  in_alpha sh i -> in_alpha sh' i.
Proof.
  intros * F1 F2 W E1 E2 H.
  destruct (C80_sampling delaunay points probe noises samples F1 W) as [A1 B1].
  destruct (C80_sampling delaunay points probe (noises ++ more) (samples ++ samples') ltac:(apply Forall2_app; auto) W) as [A2 B2].
  assert (N1 : samples <> []) by (intros Z; rewrite A1 in E1; [discriminate|auto]).
  destruct (B1 N1) as (s1 & X1 & _ & Y1). rewrite E1 in X1. inversion X1; subst s1.
  destruct B2 as (s2 & X2 & _ & Y2); [destruct samples; [congruence|discriminate]|]. rewrite E2 in X2. inversion X2; subst s2.
  assert (L : length (sh_alpha sh) = length (simplices (delaunay points))).
  { assert (C : computed delaunay points probe (delaunay points) samples sh) by (eapply by_sampling; eauto).
    destruct (computed_mask _ _ _ _ _ _ C) as (pt & -> & LP & _). cbn. unfold alpha_tris, mask_not. rewrite map_length, mask_and_len; rewrite ?map_length, outside_len; destruct W as (WL & _); lia. }
  assert (Hi : i < length (simplices (delaunay points))) by (rewrite <- L; apply nth_error_Some; unfold in_alpha in H; congruence).
  apply Y2; auto. apply Y1 in H; auto. destruct H as [H|(q & s & HQ & HS)]; auto. right. exists q, s. split; auto. apply in_or_app; auto.
Qed.
Example C80_nonvacuous :
  let del := fun _ => lone in
  Forall2 (jitter corner) [still; still] [corner; corner] /\ wf_tri (del corner) /\
  passing (del corner) [corner; corner] 1 0 /\ on_boundary (del corner) 0.
Proof.
  intros del. split; [repeat constructor; apply corner_still|]. split; [repeat split; repeat constructor; cbn; lia|].
  split; [|eexists; split; [reflexivity|left; reflexivity]].
  exists corner, [0;1;2;3]. split; [left; reflexivity|]. split; [reflexivity|]. apply corner_small; reflexivity.
Qed.
