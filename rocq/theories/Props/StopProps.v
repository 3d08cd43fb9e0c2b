(** The search for a surface normal stops at the first five small turns in a row (C154). *)
From Coq Require Import Reals List ZArith Bool Lia Lra.
From Verif.Model Require Import Base Vec AlphaShape Adsorbate.
From Verif.Spec Require Import StopSpec.
From Verif.Proofs Require Import VecFacts AlgFacts.
From Verif.Props Require Import AdsorbateProps.
Import ListNotations.
Open Scope R_scope.

Section Stop.
Variables (points : list vec) (decay tol margin : R).
Notation upd := (normal_update decay margin).
Notation loop := (normal_loop points decay tol margin).
Notation point k := (nth k points v0).

Lemma above_iff d : above tol d = true <-> exists r, d = Some r /\ 1 - tol < r.
Proof.
  destruct d as [r|]; cbn; [rewrite Rltb_iff|]; split; intros H; eauto; try discriminate.
  - destruct H as (r' & E & L). injection E as <-. exact L.
  - destruct H as (r' & E & _). discriminate.
Qed.
Lemma stop_iff wl : stop_now tol wl = true <-> settled tol (rev wl).
Proof.
  unfold stop_now, settled. rewrite andb_true_iff, Nat.ltb_lt, forallb_forall. split.
  - intros [L F]. exists (rev (skipn 5 wl)), (rev (firstn 5 wl)). split; [rewrite <- rev_app_distr, firstn_skipn; reflexivity|]. split; [|split].
    + intros E. apply (f_equal (@length _)) in E. rewrite rev_length, skipn_length in E. cbn in E. lia.
    + rewrite rev_length, firstn_length. lia.
    + apply Forall_forall. intros d Hd. apply in_rev in Hd. apply above_iff, F, Hd.
  - intros (a & b & E & NE & L & F). apply (f_equal (@rev _)) in E. rewrite rev_involutive, rev_app_distr in E. subst wl.
    rewrite app_length, !rev_length, L. split; [destruct a; [congruence|cbn; lia]|].
    intros d Hd. rewrite firstn_app, rev_length, L, Nat.sub_diag, app_nil_r in Hd. rewrite firstn_all2 in Hd by (rewrite rev_length; lia).
    apply in_rev in Hd. rewrite Forall_forall in F. apply above_iff, F, Hd.
Qed.
(** one pass of the loop body *)
Definition pass (w : option vec) (j : nat) (wl : list (option R)) (k : nat) : option vec * nat * list (option R) :=
  match upd w (point k) j with Some (w', d) => (w', S j, d :: wl) | None => (w, j, wl) end.
Lemma pass_correction w j wl k w' j' wl' : j = length wl -> pass w j wl k = (w', j', wl') ->
  j' = length wl' /\ correction decay margin (w, rev wl) (point k) (w', rev wl').
Proof.
  intros -> H. unfold pass, normal_update in H. destruct w as [w|]; [|injection H as <- <- <-; split; [reflexivity|constructor]].
  destruct (Rleb margin (dot w (point k))) eqn:M.
  2:{ injection H as <- <- <-. split; [reflexivity|]. apply Behind. apply Rleb_false in M. lra. }
  apply Rleb_iff in M. destruct (Reqb _ 0) eqn:N; injection H as <- <- <-; (split; [reflexivity|]); cbn [rev].
  - apply Lost; auto. rewrite rev_length. apply Reqb_iff in N. apply norm_zero, N.
  - apply (Turn decay margin w (rev wl) (point k) (vsub w (vscale (decay ^ length wl) (point k)))); auto; [rewrite rev_length; reflexivity|].
    intros E. apply Reqb_false in N. apply N. rewrite E. unfold norm. replace (dot v0 v0) with 0 by (unfold v0, dot; cbn; ring). apply sqrt_0.
Qed.
Lemma correction_fun s x s1 s2 : correction decay margin s x s1 -> correction decay margin s x s2 -> s1 = s2.
Proof.
  intros H1 H2. destruct H1 as [ds x|w ds x L|w ds x w' L -> N|w ds x L E]; inversion H2; subst; try lra; try reflexivity; try contradiction; exfalso; auto.
Qed.
Lemma corrections_fun s xs s1 s2 : corrections decay margin s xs s1 -> corrections decay margin s xs s2 -> s1 = s2.
Proof.
  intros H. revert s2. induction H as [s|s x sa xs sb H1 H2 IH]; intros s2 G; inversion G as [|? ? sc ? ? G1 G2]; subst; auto.
  apply IH. rewrite (correction_fun _ _ _ _ H1 G1). exact G2.
Qed.
Lemma loop_stops seq : forall w j wl r, j = length wl -> loop seq w j wl = Ok r ->
  exists n ds, (1 <= n <= length seq)%nat /\ corrections decay margin (w, rev wl) (map (fun k => point k) (firstn n seq)) (r, ds) /\
    (n < length seq -> settled tol ds)%nat /\
    (forall m wm dm, (1 <= m < n)%nat -> corrections decay margin (w, rev wl) (map (fun k => point k) (firstn m seq)) (wm, dm) -> ~ settled tol dm).
Proof.
  induction seq as [|k seq IH]; intros w j wl r J H; [discriminate|]. cbn [normal_loop] in H. fold (pass w j wl k) in H.
  destruct (pass w j wl k) as [[w1 j1] wl1] eqn:P. destruct (pass_correction _ _ _ _ _ _ _ J P) as [J1 C].
  destruct (stop_now tol wl1) eqn:ST.
  { injection H as <-. exists 1%nat, (rev wl1). split; [cbn; lia|]. split; [cbn; econstructor; [exact C|constructor]|].
    split; [intros _; apply stop_iff, ST|]. intros m wm dm Hm. lia. }
  destruct seq as [|k' seq].
  { injection H as <-. exists 1%nat, (rev wl1). split; [cbn; lia|]. split; [cbn; econstructor; [exact C|constructor]|].
    split; [cbn; lia|]. intros m wm dm Hm. lia. }
  destruct (IH _ _ _ _ J1 H) as (n & ds & B & CS & SE & NO). exists (S n), ds. split; [cbn in *; lia|]. split; [cbn [firstn map]; econstructor; eauto|].
  split; [intros L; apply SE; cbn in *; lia|].
  intros m wm dm Hm G SD. destruct m as [|m]; [lia|]. cbn [firstn map] in G. inversion G as [|? ? sc ? ? G1 G2]; subst.
  rewrite <- (correction_fun _ _ _ _ C G1) in G2. destruct m as [|m].
  - cbn in G2. inversion G2; subst. apply stop_iff in SD. congruence.
  - apply (NO (S m) wm dm); [lia|exact G2|exact SD].
Qed.
End Stop.

(** The answer is the direction after some number n of the drawn points; the search went on
    until then because the turns had not settled after any smaller number of points, and
    unless all points were used they have settled after n. *)
Theorem C154_first_rest : forall points decay tol margin sequence w,
  find_approximate_normal points decay tol margin sequence = Ok w ->
  let start := (Some (mkV (/ 10 ^ 10) (/ 10 ^ 10) (/ 10 ^ 10)), []) in
  let drawn := map (fun k => nth k points v0) sequence in
  exists n ds, (1 <= n <= length sequence)%nat /\ corrections decay margin start (firstn n drawn) (w, ds) /\
    ((n < length sequence)%nat -> settled tol ds) /\
    (forall m wm dm, (1 <= m < n)%nat -> corrections decay margin start (firstn m drawn) (wm, dm) -> ~ settled tol dm).
Proof.
  intros points decay tol margin sequence w H start drawn. unfold find_approximate_normal in H.
  destruct (loop_stops points decay tol margin sequence (Some w_init) 0 [] w eq_refl H) as (n & ds & B & C & S & N).
  exists n, ds. split; [exact B|]. subst drawn. rewrite firstn_map. split; [exact C|]. split; [exact S|].
  intros m wm dm Hm G. rewrite firstn_map in G. exact (N m wm dm Hm G).
Qed.

(** points on the axis of the starting guess turn it by nothing *)
Lemma axis_update a j : 0 < a -> exists b, 0 < b /\
  normal_update (/ 2) (-10) (Some (mkV a a a)) (mkV (-1) (-1) (-1)) j = (if Rleb (-10) (-3 * a) then Some (Some (mkV b b b), Some 1) else None) /\
  b * b * 3 = 1.
Proof.
  intros A. unfold normal_update. replace (dot (mkV a a a) (mkV (-1) (-1) (-1))) with (-3 * a) by (unfold dot; cbn; ring).
  set (d := (/ 2) ^ j). assert (D : 0 < d) by (apply pow_lt; lra).
  replace (vsub (mkV a a a) (vscale d (mkV (-1) (-1) (-1)))) with (mkV (a + d) (a + d) (a + d)) by (apply vec_eq; cbn; ring).
  assert (N : forall c, 0 < c -> norm (mkV c c c) = c * sqrt 3).
  { intros c C. unfold norm. replace (dot (mkV c c c) (mkV c c c)) with (Rsqr c * 3) by (unfold dot, Rsqr; cbn; ring). rewrite sqrt_mult, sqrt_Rsqr; try lra. unfold Rsqr; nra. }
  assert (S3 : 0 < sqrt 3) by (apply sqrt_lt_R0; lra). assert (Q : sqrt 3 * sqrt 3 = 3) by (apply sqrt_sqrt; lra).
  exists (/ sqrt 3). split; [apply Rinv_0_lt_compat; lra|]. split.
  - destruct (Rleb (-10) (-3 * a)); [|reflexivity]. rewrite !N by lra.
    rewrite (proj2 (Reqb_false _ _)) by nra. do 2 f_equal.
    + f_equal. apply vec_eq; cbn; field; lra.
    + f_equal. unfold dot; cbn. replace ((a + d) * a + (a + d) * a + (a + d) * a) with ((a + d) * sqrt 3 * (a * sqrt 3)) by (replace ((a + d) * sqrt 3 * (a * sqrt 3)) with ((a + d) * a * (sqrt 3 * sqrt 3)) by ring; rewrite Q; ring). field. repeat split; nra.
  - replace (/ sqrt 3 * / sqrt 3 * 3) with (3 / (sqrt 3 * sqrt 3)) by (field; lra). rewrite Q. field.
Qed.
(** six points are enough, whatever would be drawn afterwards *)
Example C154_nonvacuous : exists w, forall rest,
  find_approximate_normal [mkV (-1) (-1) (-1)] (/ 2) (/ 1000) (-10) (repeat 0%nat 6 ++ rest) = Ok (Some w).
Proof.
  unfold find_approximate_normal, w_init. cbn [repeat app].
  assert (AB : above (/ 1000) (Some 1) = true) by (apply above_iff; eexists; split; [reflexivity|lra]).
  destruct (axis_update (/ 10 ^ 10) 0) as (b0 & B0 & E0 & Q0); [lra|]. rewrite (proj2 (Rleb_iff _ _)) in E0 by lra.
  assert (W : forall b, 0 < b -> b * b * 3 = 1 -> Rleb (-10) (-3 * b) = true) by (intros b P Q; apply Rleb_iff; nra).
  destruct (axis_update b0 1 B0) as (b1 & B1 & E1 & Q1). rewrite W in E1 by auto.
  destruct (axis_update b1 2 B1) as (b2 & B2 & E2 & Q2). rewrite W in E2 by auto.
  destruct (axis_update b2 3 B2) as (b3 & B3 & E3 & Q3). rewrite W in E3 by auto.
  destruct (axis_update b3 4 B3) as (b4 & B4 & E4 & Q4). rewrite W in E4 by auto.
  destruct (axis_update b4 5 B4) as (b5 & B5 & E5 & Q5). rewrite W in E5 by auto.
  exists (mkV b5 b5 b5). intros rest. cbn [normal_loop nth]. rewrite E0, E1, E2, E3, E4, E5.
  unfold stop_now. cbn [length Nat.ltb Nat.leb andb firstn forallb]. rewrite AB. reflexivity.
Qed.
