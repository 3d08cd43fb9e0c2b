(** One pair of nearly opposite vectors worked out in binary64, and a concrete library. *)
From Coq Require Import Reals List Bool ZArith Lra Lia Psatz.
From Flocq Require Import Core.
From Verif.Model Require Import Base Vec Transform Float FloatRot.
From Verif.Spec Require Import Geometry FloatSpec FloatRotSpec.
From Verif.Proofs Require Import VecFacts FloatFacts FloatRotFacts FloatRotErr.
Import ListNotations.
Open Scope R_scope.

(** the double nearest to 0.3, the double nearest to 0.4, and 0.5 *)
Definition near345 : vec := mkV (5404319552844595 / 18014398509481984) (7205759403792794 / 18014398509481984) (/ 2).
Definition by5 : vec := mkV (3 / 2) 2 (5 / 2).

Lemma near345_dots : fdot near345 near345 = 4503599627370496 / 9007199254740992 /\ fdot by5 by5 = 7036874417766400 / 562949953421312 /\
  fdot near345 by5 = 5629499534213120 / 2251799813685248.
Proof.
  assert (A0 : b64 ((5404319552844595 / 18014398509481984) * (5404319552844595 / 18014398509481984)) = 6485183463413514 / 72057594037927936) by (rnd_tac 6485183463413514%Z 56%Z 72057594037927936%Z; reflexivity).
  assert (A1 : b64 ((7205759403792794 / 18014398509481984) * (7205759403792794 / 18014398509481984)) = 5764607523034236 / 36028797018963968) by (rnd_tac 5764607523034236%Z 55%Z 36028797018963968%Z; reflexivity).
  assert (A2 : b64 ((/ 2) * (/ 2)) = 4503599627370496 / 18014398509481984) by (rnd_tac 4503599627370496%Z 54%Z 18014398509481984%Z; reflexivity).
  assert (A3 : b64 (6485183463413514 / 72057594037927936 + 5764607523034236 / 36028797018963968) = 4503599627370496 / 18014398509481984) by (rnd_tac 4503599627370496%Z 54%Z 18014398509481984%Z; reflexivity).
  assert (A4 : b64 (4503599627370496 / 18014398509481984 + 4503599627370496 / 18014398509481984) = 4503599627370496 / 9007199254740992) by (rnd_tac 4503599627370496%Z 53%Z 9007199254740992%Z; reflexivity).
  assert (B0 : b64 ((3 / 2) * (3 / 2)) = 5066549580791808 / 2251799813685248) by (rnd_tac 5066549580791808%Z 51%Z 2251799813685248%Z; reflexivity).
  assert (B1 : b64 (2 * 2) = 4503599627370496 / 1125899906842624) by (rnd_tac 4503599627370496%Z 50%Z 1125899906842624%Z; reflexivity).
  assert (B2 : b64 ((5 / 2) * (5 / 2)) = 7036874417766400 / 1125899906842624) by (rnd_tac 7036874417766400%Z 50%Z 1125899906842624%Z; reflexivity).
  assert (B3 : b64 (5066549580791808 / 2251799813685248 + 4503599627370496 / 1125899906842624) = 7036874417766400 / 1125899906842624) by (rnd_tac 7036874417766400%Z 50%Z 1125899906842624%Z; reflexivity).
  assert (B4 : b64 (7036874417766400 / 1125899906842624 + 7036874417766400 / 1125899906842624) = 7036874417766400 / 562949953421312) by (rnd_tac 7036874417766400%Z 49%Z 562949953421312%Z; reflexivity).
  assert (D0 : b64 ((5404319552844595 / 18014398509481984) * (3 / 2)) = 8106479329266892 / 18014398509481984) by (rnd_tac 8106479329266892%Z 54%Z 18014398509481984%Z; reflexivity).
  assert (D1 : b64 ((7205759403792794 / 18014398509481984) * 2) = 7205759403792794 / 9007199254740992) by (rnd_tac 7205759403792794%Z 53%Z 9007199254740992%Z; reflexivity).
  assert (D2 : b64 ((/ 2) * (5 / 2)) = 5629499534213120 / 4503599627370496) by (rnd_tac 5629499534213120%Z 52%Z 4503599627370496%Z; reflexivity).
  assert (D3 : b64 (8106479329266892 / 18014398509481984 + 7205759403792794 / 9007199254740992) = 5629499534213120 / 4503599627370496) by (rnd_tac 5629499534213120%Z 52%Z 4503599627370496%Z; reflexivity).
  assert (D4 : b64 (5629499534213120 / 4503599627370496 + 5629499534213120 / 4503599627370496) = 5629499534213120 / 2251799813685248) by (rnd_tac 5629499534213120%Z 51%Z 2251799813685248%Z; reflexivity).
  unfold fdot, near345, by5. cbn [vx vy vz]. repeat split.
  - rewrite A0, A1, A2, A3, A4. reflexivity.
  - rewrite B0, B1, B2, B3, B4. reflexivity.
  - rewrite D0, D1, D2, D3, D4. reflexivity.
Qed.
Lemma fdot_opp a b : fdot a (vopp b) = - fdot a b.
Proof.
  unfold fdot, vopp. cbn [vx vy vz]. rewrite !Ropp_mult_distr_r_reverse, !b64_opp.
  rewrite <- Ropp_plus_distr, b64_opp, <- Ropp_plus_distr, b64_opp. reflexivity.
Qed.
Lemma fdot_opp2 a : fdot (vopp a) (vopp a) = fdot a a.
Proof. unfold fdot, vopp. cbn [vx vy vz]. rewrite !Rmult_opp_opp. reflexivity. Qed.
Lemma near345_cosine L : lb_dot L = fdot -> f_cosine L near345 (vopp by5) = Some (- (9007199254740990 / 9007199254740992)).
Proof.
  intros E. unfold f_cosine, f_len. rewrite E, fdot_opp2, fdot_opp. destruct near345_dots as (-> & -> & ->).
  assert (LA : b64 (sqrt (4503599627370496 / 9007199254740992)) = 6369051672525773 / 9007199254740992).
  { destruct (sqrt_between (4503599627370496 / 9007199254740992) (6369051672525772.5 / 9007199254740992) (6369051672525773.5 / 9007199254740992)); try lra. rnd_tac 6369051672525773%Z 53%Z 9007199254740992%Z. reflexivity. }
  assert (LB : b64 (sqrt (7036874417766400 / 562949953421312)) = 7961314590657216 / 2251799813685248).
  { destruct (sqrt_between (7036874417766400 / 562949953421312) (7961314590657215.5 / 2251799813685248) (7961314590657216.5 / 2251799813685248)); try lra. rnd_tac 7961314590657216%Z 51%Z 2251799813685248%Z. reflexivity. }
  assert (LL : b64 (6369051672525773 / 9007199254740992 * (7961314590657216 / 2251799813685248)) = 5629499534213121 / 2251799813685248) by (rnd_tac 5629499534213121%Z 51%Z 2251799813685248%Z; reflexivity).
  assert (QQ : b64 (5629499534213120 / 2251799813685248 / (5629499534213121 / 2251799813685248)) = 9007199254740990 / 9007199254740992) by (rnd_tac 9007199254740990%Z 53%Z 9007199254740992%Z; reflexivity).
  rewrite LA, LB, LL. unfold Reqb. destruct (Req_EM_T _ 0); [lra|]. f_equal. rewrite <- QQ, <- b64_opp. f_equal. lra.
Qed.
Lemma near345_cross : fcross near345 (vopp by5) = mkV 0 0 (/ 9007199254740992).
Proof.
  rewrite fcross_neg. unfold fcross, near345, by5. cbn [vx vy vz].
  assert (E1 : b64 (7205759403792794 / 18014398509481984 * (5 / 2)) = 4503599627370496 / 4503599627370496) by (rnd_tac 4503599627370496%Z 52%Z 4503599627370496%Z; reflexivity).
  assert (E2 : b64 (/ 2 * 2) = 4503599627370496 / 4503599627370496) by (rnd_tac 4503599627370496%Z 52%Z 4503599627370496%Z; reflexivity).
  assert (E3 : b64 (/ 2 * (3 / 2)) = 6755399441055744 / 9007199254740992) by (rnd_tac 6755399441055744%Z 53%Z 9007199254740992%Z; reflexivity).
  assert (E4 : b64 (5404319552844595 / 18014398509481984 * (5 / 2)) = 6755399441055744 / 9007199254740992) by (rnd_tac 6755399441055744%Z 53%Z 9007199254740992%Z; reflexivity).
  assert (E5 : b64 (5404319552844595 / 18014398509481984 * 2) = 5404319552844595 / 9007199254740992) by (rnd_tac 5404319552844595%Z 53%Z 9007199254740992%Z; reflexivity).
  assert (E6 : b64 (7205759403792794 / 18014398509481984 * (3 / 2)) = 5404319552844596 / 9007199254740992) by (rnd_tac 5404319552844596%Z 53%Z 9007199254740992%Z; reflexivity).
  rewrite E1, E2, E3, E4, E5, E6, !Rminus_eq_0, b64_0. 
  replace (5404319552844595 / 9007199254740992 - 5404319552844596 / 9007199254740992) with (- / 9007199254740992) by lra. rewrite b64_opp.
  assert (E7 : b64 (/ 9007199254740992) = 4503599627370496 / 40564819207303340847894502572032) by (rnd_tac 4503599627370496%Z 105%Z 40564819207303340847894502572032%Z; reflexivity).
  rewrite E7. apply vec_eq; unfold vopp; cbn [vx vy vz]; lra.
Qed.
Lemma near345_axis L : lb_dot L = fdot -> f_len L (mkV 0 0 (/ 9007199254740992)) = / 9007199254740992 /\
  f_vdiv (mkV 0 0 (/ 9007199254740992)) (/ 9007199254740992) = mkV 0 0 1.
Proof.
  intros E. split.
  - unfold f_len. rewrite E. unfold fdot. cbn [vx vy vz]. rewrite !Rmult_0_l, b64_0, Rplus_0_l, b64_0, Rplus_0_l.
    assert (E1 : b64 (/ 9007199254740992 * / 9007199254740992) = / 9007199254740992 * / 9007199254740992).
    { rnd_tac 4503599627370496%Z 158%Z 365375409332725729550921208179070754913983135744%Z. lra. }
    rewrite !E1, sqrt_square by lra. rnd_tac 4503599627370496%Z 105%Z 40564819207303340847894502572032%Z. lra.
  - unfold f_vdiv. cbn [vx vy vz]. unfold Rdiv. rewrite !Rmult_0_l, b64_0, Rinv_r by lra. f_equal. apply (b64_Z 1). lia.
Qed.

(** products and sums rounded from left to right, and the functions of a perfect C library *)
Definition plain_lib : mathlib :=
  mkLib fdot (fun q => if Rltb q (-1) || Rltb 1 q then None else if Reqb q (-1) then Some pi64 else Some (acos q)) sin cos.
Lemma plain_sound : sound_lib plain_lib.
Proof.
  assert (Z : 0 <= / 2 ^ 50) by (rewrite half50; lra).
  constructor; cbn [plain_lib lb_dot lb_acos lb_sin lb_cos].
  - apply fdot_accurate.
  - intros a b (x & y & z & -> & X & Y & W) (x' & y' & z' & -> & X' & Y' & W'). unfold fdot, dot. cbn [vx vy vz]. rewrite <- !mult_IZR.
    assert (B : forall i j, (Z.abs i <= 2 ^ 20 -> Z.abs j <= 2 ^ 20 -> Z.abs (i * j) <= 2 ^ 40)%Z) by (intros; rewrite Z.abs_mul; change (2 ^ 40)%Z with (2 ^ 20 * 2 ^ 20)%Z; apply Z.mul_le_mono_nonneg; lia).
    pose proof (B _ _ X X'). pose proof (B _ _ Y Y'). pose proof (B _ _ W W').
    rewrite !b64_Z by lia. rewrite <- plus_IZR, b64_Z by lia. rewrite <- plus_IZR, b64_Z by lia. reflexivity.
  - intros q [H|H]; rewrite (proj2 (Rltb_iff _ _) H), ?orb_true_r; reflexivity.
  - rewrite !(proj2 (Rltb_false _ _)) by lra. rewrite (proj2 (Reqb_false _ _)) by lra. cbn. rewrite acos_1. reflexivity.
  - rewrite !(proj2 (Rltb_false _ _)) by lra. rewrite (proj2 (Reqb_iff _ _)) by lra. reflexivity.
  - intros q [H1 H2]. rewrite !(proj2 (Rltb_false _ _)) by lra. cbn. destruct (Reqb q (-1)) eqn:E.
    + apply Reqb_iff in E. exists pi64. split; [reflexivity|]. rewrite E. change (-1) with (- (1)) || idtac. replace (-1) with (- (1)) by lra. rewrite acos_opp, acos_1, Rminus_0_r. apply pi64_err.
    + exists (acos q). split; [reflexivity|]. rewrite Rminus_eq_0, Rabs_R0. exact Z.
  - intros t. rewrite Rminus_eq_0, Rabs_R0. exact Z.
  - intros t. rewrite Rminus_eq_0, Rabs_R0. exact Z.
Qed.
