(** Random split points: C49, C50. *)
From Coq Require Import List ZArith Bool Lia.
From Verif.Model Require Import Base Priority Misc.
From Verif.Proofs Require Import PriorityFacts VolumeFacts SplitFacts.
Import ListNotations.
Open Scope Z_scope.

(** A valid answer to get_N_splits(n, m, l). *)
Definition good_splits (n m l : Z) (out : list Z) : Prop :=
  Z.of_nat (length out) = n /\ Forall (fun s => m <= s < l - m) out /\
  (forall i j a b, (i < j)%nat -> nth_error out i = Some a -> nth_error out j = Some b -> a <= b /\ m <= b - a).

Lemma splits_cases n m l draws : 1 <= n -> 2 * m < l -> ~ l - 2 * m < (n - 1) * m ->
  get_N_splits n m l draws = Err NeedMore \/ exists out, get_N_splits n m l draws = Ok out /\ good_splits n m l out.
Proof.
  intros N R G. unfold get_N_splits. destruct (Z.eqb_spec n 0); [lia|]. destruct (Z.ltb_spec (l - 2 * m) ((n - 1) * m)); [contradiction|].
  destruct draws as [|d ds]; auto. destruct (integers_ok d m (l - m)) as (s & -> & Q); [lia|]. cbn [bind].
  destruct (loop_inv n m l R ds _ _ (seed_inv n m l s N Q)) as [E|(out & E & L & F & A)]; rewrite E; cbn [bind]; auto.
  right. exists (zsort out). split; auto. destruct (zsort_facts m m (l - m) out F A) as (Z1 & Z2 & Z3).
  split; [lia|]. split; auto.
Qed.

Theorem C49_splits_separated n m l draws out : 1 <= n -> get_N_splits n m l draws = Ok out -> good_splits n m l out.
Proof.
  intros N H. destruct (Z_lt_dec (2 * m) l) as [R|R].
  - destruct (Z_lt_dec (l - 2 * m) ((n - 1) * m)) as [G|G].
    + unfold get_N_splits in H. destruct (Z.eqb_spec n 0); [lia|]. destruct (Z.ltb_spec (l - 2 * m) ((n - 1) * m)); [discriminate|lia].
    + destruct (splits_cases n m l draws N R G) as [E|(o & E & GS)]; rewrite E in H; inversion H; subst; auto.
  - unfold get_N_splits in H. destruct (Z.eqb_spec n 0); [lia|]. destruct (_ <? _); [discriminate|]. destruct draws as [|d ds]; [discriminate|].
    unfold integers in H. destruct (Z.leb_spec (l - m) m); [discriminate|lia].
Qed.
(** 3 indices of a list of 10, spacing 2: a run that dead-ends after 3, 6 and reseeds. *)
Example C49_nonvacuous : get_N_splits 3 2 10 [1; 1; 0; 1; 0]%nat = Ok [2; 5; 7].
Proof. vm_compute. reflexivity. Qed.

(** The request is possible at all iff some list satisfies the specification. *)
Lemma possible_iff n m l : 1 <= n -> 1 <= m -> ((exists out, good_splits n m l out) <-> (n - 1) * m < l - 2 * m).
Proof.
  intros N M. split.
  - intros (out & L & F & S). assert (G : forall k a, nth_error out k = Some a -> m + Z.of_nat k * m <= a).
    { induction k as [|k IH]; intros a Ha.
      - apply nth_error_In in Ha. rewrite Forall_forall in F. apply F in Ha. lia.
      - destruct (nth_error out k) as [b|] eqn:E.
        + specialize (IH _ eq_refl). destruct (S k (Datatypes.S k) b a ltac:(lia) E Ha). lia.
        + exfalso. apply nth_error_None in E. assert (Datatypes.S k < length out)%nat by (apply nth_error_Some; congruence). lia. }
    destruct (nth_error out (length out - 1)) as [a|] eqn:E.
    + pose proof (G _ _ E). apply nth_error_In in E. rewrite Forall_forall in F. apply F in E. nia.
    + apply nth_error_None in E. lia.
  - intros H. exists (map (fun k => (Z.of_nat k + 1) * m) (seq 0 (Z.to_nat n))). split; [rewrite map_length, seq_length; lia|]. split.
    + apply Forall_forall. intros s Hs. apply in_map_iff in Hs as (k & <- & Hk). apply in_seq in Hk. nia.
    + intros i j a b L Hi Hj. rewrite nth_error_map in Hi, Hj.
      assert (Q : forall i x, option_map (fun k => (Z.of_nat k + 1) * m) (nth_error (seq 0 (Z.to_nat n)) i) = Some x -> x = (Z.of_nat i + 1) * m).
      { intros i0 x Hx. destruct (nth_error (seq 0 (Z.to_nat n)) i0) as [k|] eqn:E; cbn in Hx; [|discriminate].
        assert (B : (i0 < Z.to_nat n)%nat) by (rewrite <- (seq_length (Z.to_nat n) 0); apply nth_error_Some; congruence).
        rewrite nth_error_nth' with (d := 0%nat) in E by (rewrite seq_length; auto). rewrite seq_nth in E by auto. inversion E; subst. inversion Hx. reflexivity. }
      apply Q in Hi, Hj. subst. nia.
Qed.

(** Refuted: for n=2, m=1, l=3 no answer exists, yet no stream makes it raise: it
    loops forever. *)
Theorem C50_splits_terminate_refuted :
  (~ exists out, good_splits 2 1 3 out) /\ forall draws, get_N_splits 2 1 3 draws = Err NeedMore.
Proof.
  split; [rewrite possible_iff; lia|]. intros draws. destruct (splits_cases 2 1 3 draws) as [E|(out & E & G)]; try lia; auto.
  exfalso. assert (~ exists out, good_splits 2 1 3 out) by (rewrite possible_iff; lia). eauto.
Qed.
(** Exact classification for n >= 1: possible requests can always still finish, with
    every prefix of the stream; impossible ones raise, except on the boundary
    l - 2m = (n-1)m with n >= 2, m >= 1, which never returns. *)
Theorem C50_splits_terminate_partial n m l : 1 <= n ->
  (Z.max 0 ((n - 1) * m) < l - 2 * m ->
     forall prefix, exists ext out, get_N_splits n m l (prefix ++ ext) = Ok out) /\
  (l - 2 * m < (n - 1) * m \/ l - 2 * m <= 0 ->
     forall d ds, get_N_splits n m l (d :: ds) = Err ValueError) /\
  (0 < l - 2 * m -> l - 2 * m = (n - 1) * m -> forall draws, get_N_splits n m l draws = Err NeedMore).
Proof.
  intros N. split; [|split].
  - intros H prefix. assert (R : 2 * m < l) by lia.
    assert (Q : forall d ds, exists ext out, get_N_splits n m l (d :: ds ++ ext) = Ok out).
    { intros d ds. unfold get_N_splits. destruct (Z.eqb_spec n 0); [lia|]. destruct (Z.ltb_spec (l - 2 * m) ((n - 1) * m)); [lia|].
      destruct (integers_ok d m (l - m)) as (s & -> & Q); [lia|]. cbn [bind].
      destruct (finish n m l R ltac:(intros; nia) ds _ _ (seed_inv n m l s N Q)) as (ext & out & E).
      exists ext, (zsort out). rewrite E. reflexivity. }
    destruct prefix as [|d ds]; [|apply Q]. destruct (Q 0%nat []) as (ext & out & E). exists (0%nat :: ext), out. exact E.
  - intros H d ds. unfold get_N_splits. destruct (Z.eqb_spec n 0); [lia|]. destruct (Z.ltb_spec (l - 2 * m) ((n - 1) * m)); [reflexivity|].
    unfold integers. destruct (Z.leb_spec (l - m) m); [reflexivity|lia].
  - intros H E draws. destruct (splits_cases n m l draws) as [E'|(out & E' & G)]; try lia; auto.
    exfalso. assert (M : 1 <= m) by nia. assert (P : exists out, good_splits n m l out) by eauto. apply possible_iff in P; auto. lia.
Qed.
Example C50_nonvacuous : Z.max 0 ((3 - 1) * 2) < 10 - 2 * 2 /\ 9 - 2 * 3 < (3 - 1) * 3 /\ 0 < 6 - 2 * 2 /\ 6 - 2 * 2 = (2 - 1) * 2.
Proof. lia. Qed.
