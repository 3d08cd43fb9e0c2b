(** Post-generation transformations: C55, C56, C78. *)
From Coq Require Import Reals List ZArith Bool Lra Lia.
From Verif.Model Require Import Base Vec Post.
From Verif.Proofs Require Import VecFacts VolumeFacts.
Import ListNotations.
Open Scope R_scope.

Lemma chem_pass_nth u frac t s species out i : length out = length species ->
  nth_error (chem_pass u frac t s species out) i =
  match nth_error species i, nth_error out i with
  | Some so, Some o => Some (if (so =? t)%Z && Rleb (u i) frac then s else o)
  | _, _ => None
  end.
Proof.
  intros E. unfold chem_pass. rewrite nth_error_map.
  assert (G : forall (a : list Z) (b : list Z) k i, length b = length a ->
    nth_error (combine (seq k (length a)) (combine a b)) i = match nth_error a i, nth_error b i with Some x, Some y => Some ((k + i)%nat, (x, y)) | _, _ => None end).
  { clear. induction a as [|x a IH]; intros [|y b] k [|i] E; cbn in *; try discriminate; auto.
    - rewrite Nat.add_0_r. reflexivity.
    - rewrite IH by lia. replace (S k + i)%nat with (k + S i)%nat by lia. reflexivity. }
  rewrite G by auto. destruct (nth_error species i), (nth_error out i); reflexivity.
Qed.
Lemma chem_pass_len u frac t s species out : length out = length species -> length (chem_pass u frac t s species out) = length species.
Proof. intros E. unfold chem_pass. rewrite map_length, !combine_length, seq_length. lia. Qed.

(** The passes of the loop, one per (target, substitute) pair. *)
Lemma passes_spec rng frac species (pairs : list (Z * Z)) : forall k out, length out = length species ->
  let r := fold_left (fun out kts => let '(k, (t, s)) := kts in chem_pass (rng k) frac t s species out) (combine (seq k (length pairs)) pairs) out in
  length r = length species /\
  forall i so o, nth_error species i = Some so -> nth_error out i = Some o ->
    exists x, nth_error r i = Some x /\
      (x = o \/ In (so, x) pairs) /\
      ((exists s, In (so, s) pairs) -> (forall k i, rng k i <= frac) -> In (so, x) pairs) /\
      ((forall k i, frac < rng k i) -> x = o).
Proof.
  induction pairs as [|[t s] pairs IH]; intros k out E r; cbn [length seq combine fold_left] in r.
  - split; [exact E|]. intros i so o Hs Ho. exists o. split; [exact Ho|]. split; [left; auto|]. split; [intros (s & []) _|auto].
  - destruct (IH (S k) (chem_pass (rng k) frac t s species out) (chem_pass_len _ _ _ _ _ _ E)) as [L N]. fold r in L, N. split; [exact L|].
    intros i so o Hs Ho. pose proof (chem_pass_nth (rng k) frac t s species out i E) as C. rewrite Hs, Ho in C.
    destruct (N i so _ Hs C) as (x & X & X1 & X2 & X3). exists x. split; [exact X|].
    destruct (Z.eqb_spec so t) as [->|NE]; cbn [andb] in *.
    + destruct (Rleb (rng k i) frac) eqn:RL.
      * split; [destruct X1 as [->|X1]; [right; left; auto|right; right; auto]|]. split.
        -- intros _ A. destruct X1 as [->|X1]; [left; auto|right; auto].
        -- intros A. exfalso. apply Rleb_iff in RL. specialize (A k i). lra.
      * split; [destruct X1; [auto|right; right; auto]|]. split.
        -- intros _ A. exfalso. apply Rleb_false in RL. specialize (A k i). lra.
        -- exact X3.
    + split; [destruct X1; [auto|right; right; auto]|]. split; [|exact X3].
      intros (w & [W|W]) A; [inversion W; congruence|]. right. apply X2; eauto.
Qed.
Lemma replace_spec rng target substitute frac species : length target = length substitute ->
  let r := replace_species rng target substitute frac species in
  length r = length species /\
  forall i so, nth_error species i = Some so ->
    exists x, nth_error r i = Some x /\
      (x = so \/ In (so, x) (combine target substitute)) /\
      (In so target -> (forall k i, rng k i <= frac) -> In (so, x) (combine target substitute)) /\
      ((forall k i, frac < rng k i) -> x = so).
Proof.
  intros E r. unfold r, replace_species.
  assert (EL : length target = length (combine target substitute)) by (rewrite combine_length; lia). rewrite EL.
  destruct (passes_spec rng frac species (combine target substitute) 0 species eq_refl) as [L N]. cbv zeta in L, N. split; [exact L|].
  intros i so H. destruct (N i so so H H) as (x & X & X1 & X2 & X3). exists x. split; [exact X|]. split; [exact X1|]. split; [|exact X3].
  intros HI. apply X2. clear - E HI. revert substitute E. induction target as [|t ts IH]; intros [|s ss] E; cbn in *; try discriminate; [contradiction|].
  destruct HI as [->|HI]; eauto. destruct (IH HI ss ltac:(lia)) as [w W]. eauto.
Qed.

(** C55.  [mk] supplies the random arrays: any reals in [0,1). *)
Theorem C55_substitution target substitute frac t mk c ps ss :
  new_chem target substitute frac = Ok t -> (forall c k i, 0 <= mk c k i < 1) ->
  exists c' ss', apply_post mk t c ps ss = (c', (ps, ss')) /\ length ss' = length ss /\
    forall i s, nth_error ss i = Some s -> exists s', nth_error ss' i = Some s' /\
      (s' = s \/ In (s, s') (combine target substitute)) /\
      (1 <= frac -> In s target -> In (s, s') (combine target substitute)) /\
      (frac < 0 \/ ~ In s target -> s' = s).
Proof.
  intros H R. unfold new_chem in H. destruct (Nat.eqb_spec (length target) (length substitute)) as [E|E]; [|discriminate]. inversion H; subst t. clear H.
  cbn [apply_post]. eexists. eexists. split; [reflexivity|]. destruct (replace_spec (mk c) target substitute frac ss E) as [L N]. cbv zeta in *. split; [exact L|].
  intros i s Hs. destruct (N i s Hs) as (x & X & X1 & X2 & X3). exists x. split; [exact X|]. split; [exact X1|]. split.
  - intros F HI. apply X2; auto. intros k j. specialize (R c k j). lra.
  - intros [F|F]; [apply X3; intros k j; specialize (R c k j); lra|]. destruct X1 as [|X1]; auto. apply in_combine_l in X1. contradiction.
Qed.
(** the same draws give the same result *)
Lemma chem_pass_ext : forall u u' frac t s sp out, (forall i, u i = u' i) -> chem_pass u frac t s sp out = chem_pass u' frac t s sp out.
Proof. intros u u' frac t0 s sp out H. unfold chem_pass. apply map_ext. intros [i [a b]]. rewrite H. reflexivity. Qed.
Theorem C55_reproducible : forall t mk mk' c ps ss, (forall c k i, mk c k i = mk' c k i) -> apply_post mk t c ps ss = apply_post mk' t c ps ss.
Proof.
  fix IH 1. intros t; destruct t as [ta su fr|f|ts]; intros mk mk' c ps ss H; cbn.
  - do 2 f_equal. unfold replace_species. generalize (combine (seq 0 (length ta)) (combine ta su)). intros l.
    assert (G : forall out, fold_left (fun out kts => let '(k, (t, s)) := kts in chem_pass (mk c k) fr t s ss out) l out =
      fold_left (fun out kts => let '(k, (t, s)) := kts in chem_pass (mk' c k) fr t s ss out) l out); [|apply G].
    induction l as [|[k [a b]] l IHl]; intros out; cbn; auto. rewrite IHl. f_equal. apply chem_pass_ext. intros; apply H.
  - reflexivity.
  - generalize (c, (ps, ss)). induction ts as [|t ts IHts]; intros st; cbn; auto. rewrite (IH t mk mk'); auto.
Qed.
Example C55_nonvacuous : new_chem [6; 8]%Z [8; 7]%Z (1/2) = Ok (PChem [6; 8]%Z [8; 7]%Z (1/2)) /\
  snd (snd (apply_post (fun _ _ _ => 0) (PChem [6; 8]%Z [8; 7]%Z (1/2)) 0 [] [6; 8; 1]%Z)) = [8; 7; 1]%Z.
Proof.
  split; [reflexivity|]. cbn. unfold replace_species, chem_pass. cbn. assert (E : Rleb 0 (1/2) = true) by (apply Rleb_iff; lra). rewrite E. reflexivity.
Qed.

(* ---------------- C78 ---------------- *)
(** frac = 0 can still substitute: the test is "draw <= frac" and a draw may be 0. *)
Theorem C78_zero_fraction_refuted : exists mk ss, (forall c k i, 0 <= mk c k i < 1) /\
  snd (snd (apply_post mk (PChem [6]%Z [14]%Z 0) 0 [] ss)) <> ss.
Proof.
  exists (fun _ _ _ => 0), [6]%Z. split; [intros; lra|]. cbn. unfold replace_species, chem_pass. cbn.
  assert (E : Rleb 0 0 = true) by (apply Rleb_iff; lra). rewrite E. discriminate.
Qed.
Theorem C78_zero_fraction_partial target substitute mk c ps ss : length target = length substitute -> (forall c k i, 0 < mk c k i < 1) ->
  snd (snd (apply_post mk (PChem target substitute 0) c ps ss)) = ss.
Proof.
  intros E R. cbn. destruct (replace_spec (mk c) target substitute 0 ss E) as [L N]. cbv zeta in *.
  assert (NE : forall (a b : list Z), length a = length b -> (forall i s, nth_error b i = Some s -> nth_error a i = Some s) -> a = b).
  { clear. induction a as [|x a IH]; intros [|y b] L H; try discriminate; auto. pose proof (H 0%nat y eq_refl) as H0. cbn in H0. inversion H0; subst. f_equal. apply IH; [cbn in L; lia|]. intros i s. apply (H (S i)). }
  apply NE; auto. intros i s Hs. destruct (N i s Hs) as (x & X & _ & _ & X3). rewrite X. f_equal. apply X3. intros k j. apply R.
Qed.
Example C78_nonvacuous : exists mk : nat -> nat -> nat -> R, length [6%Z; 8%Z] = length [14%Z; 16%Z] /\ forall c k i, 0 < mk c k i < 1.
Proof. exists (fun _ _ _ => 1/2). split; [reflexivity|]. intros. lra. Qed.

(* ---------------- C56 ---------------- *)
Definition run (mk : nat -> nat -> nat -> R) (t : post) (st : nat * (list vec * list Z)) := apply_post mk t (fst st) (fst (snd st)) (snd (snd st)).
Lemma run_seq mk l st : run mk (PSeq l) st = fold_left (fun st t => run mk t st) l st.
Proof. unfold run at 1. cbn [apply_post]. rewrite <- !surjective_pairing. reflexivity. Qed.
(** in list order, adding composes last, nesting is irrelevant *)
Theorem C56_sequence mk st ts new t :
  run mk (PSeq []) st = st /\
  run mk (PSeq (t :: ts)) st = run mk (PSeq ts) (run mk t st) /\
  run mk (PSeq [t]) st = run mk t st /\
  run mk (seq_add (PSeq ts) new) st = run mk (PSeq new) (run mk (PSeq ts) st) /\
  run mk (PSeq [PSeq ts; PSeq new]) st = run mk (PSeq (ts ++ new)) st /\
  run mk (PSeq (ts ++ [PSeq new])) st = run mk (PSeq (ts ++ new)) st.
Proof.
  cbn [seq_add]. rewrite !run_seq, !fold_left_app. cbn [fold_left]. rewrite !run_seq. repeat split.
Qed.
(** Pairs of equally long arrays stay equally long if the arbitrary members do so. *)
Fixpoint keeps_pairing (t : post) : Prop :=
  match t with
  | PChem a b _ => True
  | PArb f => forall ps ss, length ps = length ss -> length (fst (f ps ss)) = length (snd (f ps ss))
  | PSeq ts => (fix all l := match l with [] => True | x :: l' => keeps_pairing x /\ all l' end) ts
  end.
Lemma replace_len rng ta su frac ss : length (replace_species rng ta su frac ss) = length ss.
Proof.
  unfold replace_species. assert (G : forall l out, length out = length ss -> length (fold_left (fun out kts => let '(k, (t, s)) := kts in chem_pass (rng k) frac t s ss out) l out) = length ss); [|apply G; auto].
  induction l as [|[k [t s]] l IH]; intros out E; cbn; auto. apply IH. apply chem_pass_len; auto.
Qed.
Theorem C56_pairing : forall t mk c ps ss, keeps_pairing t -> length ps = length ss ->
  let r := snd (apply_post mk t c ps ss) in length (fst r) = length (snd r).
Proof.
  fix IH 1. intros t; destruct t as [ta su fr|f|ts]; intros mk c ps ss K L.
  - cbn. rewrite replace_len. exact L.
  - cbn. apply K. exact L.
  - cbn in K |- *. assert (G : forall st, length (fst (snd st)) = length (snd (snd st)) ->
      let r := snd (fold_left (fun st t' => apply_post mk t' (fst st) (fst (snd st)) (snd (snd st))) ts st) in length (fst r) = length (snd r)); [|apply (G (c, (ps, ss))); exact L].
    revert K. induction ts as [|t ts IHts]; intros K st HL; cbn; auto. destruct K as [K1 K2]. apply IHts; auto.
Qed.
Example C56_nonvacuous : keeps_pairing (PSeq [PArb (fun ps ss => (tl ps, tl ss)); PSeq [PChem [6]%Z [7]%Z 1]]).
Proof. cbn. repeat split. intros [|p ps] [|s ss] E; cbn in *; lia. Qed.
