(** Facts about transforming volumes. *)
From Coq Require Import Reals List ZArith Bool Lia.
From Verif.Model Require Import Base Vec Algebraic Transform Generator Volume.
From Verif.Spec Require Import AlgSpec.
From Verif.Proofs Require Import VecFacts AlgFacts VolumeFacts.
Import ListNotations.

Lemma fold_and {A} (f : A -> bool) l b : fold_left (fun c a => c && f a) l b = b && forallb f l.
Proof.
  revert b. induction l as [|x l IH]; intros b; simpl; [rewrite andb_true_r; auto|].
  rewrite IH, andb_assoc. reflexivity.
Qed.
Lemma leaf_inside_eq w l p : leaf_inside w l p =
  match l_tri l with Some t => w_find w t (l_tol l) p | None => true end && forallb (fun a => alg_interior a p) (l_alg l).
Proof. unfold leaf_inside. rewrite fold_and. destruct (l_tri l); reflexivity. Qed.

Lemma matrix_alg_st_spec m o a : snd (matrix_alg_st m o a) = rmap (fun _ => tt) (matrix_alg m o a) /\
  forall a', matrix_alg m o a = Ok a' -> fst (matrix_alg_st m o a) = a'.
Proof.
  destruct a as [s|p|c]; cbn; unfold bind, rmap.
  - split; [reflexivity|]. congruence.
  - destruct (plane_set_normal _ _); split; try reflexivity; cbn; congruence.
  - destruct (cyl_set_axis _ _); split; try reflexivity; cbn; congruence.
Qed.
(** the in-place version of applyTransformation_alg agrees with [apply_alg] *)
Lemma apply_alg_st_spec : forall t a, snd (apply_alg_st t a) = rmap (fun _ => tt) (apply_alg t a) /\
  forall a', apply_alg t a = Ok a' -> fst (apply_alg_st t a) = a'.
Proof.
  induction t as [s lk bo|m o lk bo|o lk bo|pl lk bo|ts IH] using transform_ind'; intros a.
  - cbn. split; [reflexivity|]. congruence.
  - apply matrix_alg_st_spec.
  - apply matrix_alg_st_spec.
  - cbn. split; [reflexivity|discriminate].
  - cbn [apply_alg apply_alg_st]. revert a. induction IH as [|t ts H _ IHt]; intros a.
    + cbn. split; [reflexivity|congruence].
    + cbn [foldM]. destruct (H a) as [H1 H2]. destruct (apply_alg_st t a) as [b r]. cbn [fst snd] in H1, H2.
      destruct (apply_alg t a) as [a1|e]; cbn [rmap] in H1; subst r; cbn [bind].
      * rewrite (H2 a1 eq_refl). apply IHt.
      * split; [reflexivity|discriminate].
Qed.

(** the loop over alg_objects *)
Definition go_alg (t : transform) := fix go (done todo : list alg) : list alg * res unit :=
  match todo with
  | [] => (done, Ok tt)
  | a :: rest => match apply_alg t a with
                 | Ok a' => go (done ++ [a']) rest
                 | Err e => (done ++ fst (apply_alg_st t a) :: rest, Err e)
                 end
  end.
Lemma go_alg_rigid t : rigid t -> forall todo done, Forall valid_alg todo ->
  exists out, go_alg t done todo = (done ++ out, Ok tt) /\
    Forall2 (fun a a' => apply_alg t a = Ok a' /\ valid_alg a' /\
                         forall p, alg_interior a' (apply_pt t p) = alg_interior a p) todo out.
Proof.
  intros Ht. induction todo as [|a todo IH]; intros done HV; cbn.
  - exists []. rewrite app_nil_r. auto.
  - inversion HV; subst. destruct (apply_alg_rigid t Ht a H1) as (a' & E & V & I). rewrite E.
    destruct (IH (done ++ [a']) H2) as (out & Eo & F). exists (a' :: out). rewrite Eo, <- app_assoc. auto.
Qed.

(** outcome of the last part of Volume.transform: the generator *)
Definition gen_step (l2 : leaf) (t : transform) : leaf * res unit :=
  match locked t, l_gen l2 with
  | true, Some g => match generator_transform g t with
                    | Ok g' => (with_gen l2 (Some g'), Ok tt)
                    | Err e => (l2, Err e)
                    end
  | _, _ => (l2, Ok tt)
  end.
Lemma leaf_transform_nopoints w l t : l_points l = PNone ->
  leaf_transform w l t =
  let '(algs, r2) := go_alg t [] (l_alg l) in
  match r2 with Err e => (with_alg l algs, Err e) | Ok _ => gen_step (with_alg l algs) t end.
Proof. intros H. unfold leaf_transform. rewrite H. reflexivity. Qed.

Lemma gen_step_static l t :
  let l' := fst (gen_step l t) in
  l_points l' = l_points l /\ l_tri l' = l_tri l /\ l_alg l' = l_alg l /\ l_tol l' = l_tol l /\ l_prio l' = l_prio l.
Proof. unfold gen_step. destruct (locked t), (l_gen l) as [g|]; cbn; auto. destruct (generator_transform g t); cbn; auto. Qed.

Lemma leaf_transform_rigid w l t :
  l_points l = PNone -> l_tri l = None -> Forall valid_alg (l_alg l) -> rigid t ->
  let l' := fst (leaf_transform w l t) in
  l_points l' = PNone /\ l_tri l' = None /\ Forall valid_alg (l_alg l') /\ l_prio l' = l_prio l /\
  forall p, leaf_inside w l' (apply_pt t p) = leaf_inside w l p.
Proof.
  intros HP HT HV HR. cbv zeta. rewrite leaf_transform_nopoints by auto.
  destruct (go_alg_rigid t HR (l_alg l) [] HV) as (out & E & F). rewrite E. cbn [app].
  destruct (gen_step_static (with_alg l out) t) as (E1 & E2 & E3 & E4 & E5). cbv zeta in *.
  rewrite !leaf_inside_eq || idtac.
  split; [rewrite E1; exact HP|]. split; [rewrite E2; exact HT|]. split; [|split].
  - rewrite E3. cbn. clear -F. induction F as [|a a' ? ? (? & ? & ?)]; constructor; auto.
  - rewrite E5. reflexivity.
  - intros p. rewrite !leaf_inside_eq, E2, E3, HT. cbn [with_alg l_tri l_alg]. rewrite HT. cbn [andb].
    clear -F. induction F as [|a a' ? ? (_ & _ & H)]; cbn; auto. rewrite H, IHF. reflexivity.
Qed.

(** A volume tree all of whose leaves are bounded by valid algebraic objects only. *)
Fixpoint alg_only (v : volume) : Prop :=
  match v with
  | VLeaf l => l_points l = PNone /\ l_tri l = None /\ Forall valid_alg (l_alg l)
  | VMulti _ vs _ => fold_right (fun x P => alg_only x /\ P) True vs
  end.

Lemma vol_transform_rigid w t : rigid t -> forall v v', alg_only v -> vol_transform w v t = (v', Ok tt) ->
  alg_only v' /\ vol_prio v' = vol_prio v /\ forall p, vol_inside w v' (apply_pt t p) = vol_inside w v p.
Proof.
  intros HR. induction v as [l|pr vs ca IH] using volume_ind'; intros v' HA H; cbn [vol_transform] in H.
  - cbn [alg_only] in HA. destruct HA as (HP & HT & HV). destruct (leaf_transform_rigid w l t HP HT HV HR) as (A & B & C & D & E).
    cbv zeta in *. destruct (leaf_transform w l t) as [l' r]. cbn [fst] in *. inversion H; subst. cbn. auto.
  - cbn [alg_only] in HA. cbn [vol_prio vol_inside].
    set (go := fix go (l : list volume) : list volume * res unit :=
        match l with
        | [] => ([], Ok tt)
        | x :: rest =>
            let '(x', r) := vol_transform w x t in
            match r with
            | Err e => (x' :: rest, Err e)
            | Ok _ => let '(rest', r') := go rest in (x' :: rest', r')
            end
        end) in *.
    destruct (go vs) as [vs' r] eqn:EG. inversion H; subst. clear H.
    assert (G : fold_right (fun x P => alg_only x /\ P) True vs' /\
                forall p, existsb (fun v' => vol_inside w v' (apply_pt t p)) vs' = existsb (fun v' => vol_inside w v' p) vs).
    { clear pr ca. revert vs' EG. induction vs as [|x vs IHv]; intros vs' EG; cbn in EG.
      - inversion EG; subst. cbn. auto.
      - inversion IH as [|? ? Hx Hvs]; subst. cbn in HA. destruct HA as [HAx HAv].
        destruct (vol_transform w x t) as [x' [[]|e]] eqn:EX; [|discriminate].
        destruct (go vs) as [rest' r'] eqn:ER. inversion EG; subst.
        destruct (Hx x' HAx eq_refl) as (Q1 & _ & Q3). destruct (IHv Hvs HAv rest' eq_refl) as [P1 P2].
        cbn. split; [auto|]. intros p. rewrite Q3, P2. reflexivity. }
    destruct G as [G1 G2]. cbn. split; [exact G1|]. split; [reflexivity|]. exact G2.
Qed.
