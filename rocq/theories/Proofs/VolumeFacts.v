(** Facts about populate_atoms / checkIfInterior of volumes of any nesting depth. *)
From Coq Require Import Reals List ZArith Bool Permutation Lia Sorting.Sorted.
From Verif.Model Require Import Base Vec Algebraic Transform Voxel Strain Post Amorphous Generator Volume Priority.
From Verif.Spec Require Import PrioritySpec.
From Verif.Proofs Require Import PriorityFacts.
Import ListNotations.

(** Induction over the nesting of volumes. *)
Section VolInd.
Variable P : volume -> Prop.
Hypothesis HL : forall l, P (VLeaf l).
Hypothesis HM : forall p vs c, Forall P vs -> P (VMulti p vs c).
Fixpoint volume_ind' (v : volume) : P v :=
  match v with
  | VLeaf l => HL l
  | VMulti p vs c =>
      HM p vs c ((fix go l := match l return Forall P l with
                              | [] => Forall_nil _
                              | x :: t => Forall_cons _ (volume_ind' x) (go t)
                              end) vs)
  end.
End VolInd.

Lemma bind_Ok {A B} (r : res A) (f : A -> res B) b :
  bind r f = Ok b -> exists a, r = Ok a /\ f a = Ok b.
Proof. destruct r; simpl; [eauto | discriminate]. Qed.
Ltac inv_bind H :=
  let a := fresh "a" in let Ha := fresh "Ha" in
  apply bind_Ok in H; destruct H as [a [Ha H]].

Lemma index_mask_Ok {A} (a : list A) m b :
  index_mask a m = Ok b -> length a = length m /\ b = compress m a.
Proof.
  unfold index_mask; destruct (Nat.eqb_spec (length a) (length m)); intros H; inversion H; auto.
Qed.

Lemma mapMS_Forall2 {A B St} (f : St -> A -> res (St * B)) : forall l s s' bs,
  mapMS f s l = Ok (s', bs) -> Forall2 (fun a b => exists s1 s2, f s1 a = Ok (s2, b)) l bs.
Proof.
  induction l as [|x t IH]; simpl; intros s s' bs H.
  - inversion H; constructor.
  - inv_bind H. destruct a as [s1 b]. simpl in H. inv_bind H. destruct a as [s2 bs']. simpl in H.
    inversion H; subst. constructor; eauto.
Qed.
Lemma mapM_Forall2 {A B} (f : A -> res B) : forall l bs,
  mapM f l = Ok bs -> Forall2 (fun a b => f a = Ok b) l bs.
Proof.
  induction l as [|x t IH]; simpl; intros bs H.
  - inversion H; constructor.
  - inv_bind H. inv_bind H. inversion H; subst. constructor; auto.
Qed.
Lemma Forall2_len {A B} (P : A -> B -> Prop) l l' : Forall2 P l l' -> length l = length l'.
Proof. induction 1; simpl; congruence. Qed.

Lemma Forall2_in_r {A B} (P : A -> B -> Prop) l l' y : Forall2 P l l' -> In y l' -> exists x, In x l /\ P x y.
Proof. induction 1; simpl; [easy|]. intros [->|Hy]; [eauto|]. destruct IHForall2 as (z & ? & ?); eauto. Qed.
Lemma Forall2_in_l {A B} (P : A -> B -> Prop) l l' x : Forall2 P l l' -> In x l -> exists y, In y l' /\ P x y.
Proof. induction 1; simpl; [easy|]. intros [->|Hy]; [eauto|]. destruct IHForall2 as (z & ? & ?); eauto. Qed.

(** masks over a whole array are row-by-row answers *)
Lemma ones_map {A} (l : list A) : ones (length l) = map (fun _ => true) l.
Proof. unfold ones. induction l; simpl; congruence. Qed.
Lemma zeros_map {A} (l : list A) : zeros (length l) = map (fun _ => false) l.
Proof. unfold zeros. induction l; simpl; congruence. Qed.
Lemma mask_and_map {A} (f g : A -> bool) l : mask_and (map f l) (map g l) = map (fun x => f x && g x) l.
Proof. unfold mask_and. induction l; simpl; congruence. Qed.
Lemma mask_or_map {A} (f g : A -> bool) l : mask_or (map f l) (map g l) = map (fun x => f x || g x) l.
Proof. unfold mask_or. induction l; simpl; congruence. Qed.
Lemma leaf_check_map w l ps : leaf_check w l ps = map (leaf_inside w l) ps.
Proof.
  unfold leaf_check, leaf_inside.
  assert (G : forall al f, fold_left (fun c a => mask_and c (map (alg_interior a) ps)) al (map f ps)
                           = map (fun p => fold_left (fun c a => c && alg_interior a p) al (f p)) ps).
  { induction al as [|a al IH]; intros f; simpl; [reflexivity|]. rewrite mask_and_map. apply IH. }
  rewrite ones_map. destruct (l_tri l) as [t|].
  - rewrite mask_and_map. apply G.
  - apply G.
Qed.
Lemma vol_check_map w : forall v ps, vol_check w v ps = map (vol_inside w v) ps.
Proof.
  induction v as [l|pr vs ca IH] using volume_ind'; intros ps; cbn [vol_check vol_inside].
  - apply leaf_check_map.
  - rewrite zeros_map.
    assert (G : forall f, fold_left (fun c v' => mask_or c (vol_check w v' ps)) vs (map f ps)
                = map (fun p => f p || existsb (fun v' => vol_inside w v' p) vs) ps).
    { clear ca. induction IH as [|v vs Hv _ IHv]; intros f; simpl.
      - apply map_ext. intros. symmetry. apply orb_false_r.
      - rewrite Hv, mask_or_map, IHv. apply map_ext. intros. symmetry. apply orb_assoc. }
    rewrite G. reflexivity.
Qed.

(** leaf_populate in one piece *)
Lemma leaf_populate_inv w c l c' l' :
  leaf_populate w c l = Ok (c', l') ->
  exists g g' coords species,
    l_gen l = Some g /\
    supply_atoms (w_mk w) (w_draws w) c g (get_bounding_box w l) = Ok (c', g', (coords, species)) /\
    length species = length coords /\
    l' = with_atoms (with_gen l (Some g'))
           (filter (leaf_inside w l) coords,
            map snd (filter (fun ps => leaf_inside w l (fst ps)) (combine coords species))).
Proof.
  unfold leaf_populate. destruct (l_gen l) as [g|]; [|discriminate]. rewrite ?leaf_check_map. intros H.
  inv_bind H. destruct a as [[c1 g'] [coords species]].
  rewrite leaf_check_map in H.
  inv_bind H. inv_bind H. apply index_mask_Ok in Ha0, Ha1. destruct Ha0 as [_ ->], Ha1 as [L ->].
  rewrite map_length in L. inversion H; subst. exists g, g', coords, species.
  repeat split; auto. f_equal. f_equal; [apply compress_map|].
  clear - L. revert species L.
  induction coords as [|x co IH]; intros [|y sp] L; simpl in *; try discriminate; auto.
  destruct (leaf_inside w l x); simpl; rewrite (IH sp); auto.
Qed.

Lemma leaf_inside_with w l g a p : leaf_inside w (with_atoms (with_gen l g) a) p = leaf_inside w l p.
Proof. reflexivity. Qed.

(** populating changes neither priority nor interior *)
Lemma vol_populate_static w : forall v c c' v',
  vol_populate w c v = Ok (c', v') ->
  vol_prio v' = vol_prio v /\ forall p, vol_inside w v' p = vol_inside w v p.
Proof.
  induction v as [l|pr vs ca IH] using volume_ind'; intros c c' v' H; cbn [vol_populate] in H.
  - inv_bind H. destruct a as [c1 l1]. inversion H; subst.
    apply leaf_populate_inv in Ha as (g & g' & co & sp & _ & _ & _ & ->). split; reflexivity.
  - inv_bind H. destruct a as [c1 vs1]. cbn [fst snd] in H.
    pose proof (sort_perm vol_prio vs1) as HP.
    destruct (sort_by vol_prio vs1) as [|x xs] eqn:E; [discriminate|].
    inversion H; subst. split; [reflexivity|]. intros p. cbn [vol_inside].
    rewrite (existsb_perm _ _ _ HP). apply mapMS_Forall2 in Ha.
    clear -IH Ha. induction Ha as [|a b la lb (s1 & s2 & Hab) _ IHl]; [reflexivity|].
    inversion IH; subst. simpl. rewrite IHl by assumption. f_equal.
    apply (H1 _ _ _ Hab).
Qed.

Definition aligned (v : volume) : Prop := length (vol_atoms v) = length (vol_species v).

(** A volume whose atoms are those populate_atoms should leave behind, recursively. *)
Inductive settled (w : world) : volume -> Prop :=
| settled_leaf : forall l, length (vol_atoms (VLeaf l)) = length (vol_species (VLeaf l)) ->
    (forall p, In p (vol_atoms (VLeaf l)) -> leaf_inside w l p = true) -> settled w (VLeaf l)
| settled_multi : forall p vs ats sps,
    vs <> [] -> Forall (settled w) vs ->
    length ats = length sps ->
    Permutation (combine ats sps) (contents vol_prio vol_atoms vol_species (vol_inside w) vs) ->
    settled w (VMulti p vs (Some (ats, sps))).

Lemma settled_aligned w v : settled w v -> aligned v.
Proof. destruct 1; unfold aligned; [assumption|]. cbn. assumption. Qed.

Lemma combine_fst_in {A B} (a : list A) (b : list B) x :
  length a = length b -> In x a -> exists y, In (x, y) (combine a b).
Proof.
  revert b. induction a as [|a0 a IH]; intros [|b0 b] L H; simpl in *; try easy.
  destruct H as [->|H]; [exists b0; auto|]. destruct (IH b) as [y Hy]; [lia|auto|]. exists y; auto.
Qed.

Lemma in_each {Ob} (l : list Ob) o os : In (o, os) (each_with_others l) -> In o l /\ incl os l.
Proof.
  revert o os. induction l as [|x t IH]; simpl; intros o os H; [easy|].
  destruct H as [H|H].
  - inversion H; subst. split; [auto|]. intros z; simpl; auto.
  - apply in_map_iff in H as ([o1 os1] & H1 & H2). simpl in H1. inversion H1; subst.
    destruct (IH _ _ H2) as [Hi Hj]. split; [auto|]. intros z [->|Hz]; simpl; auto.
Qed.

Lemma settled_inside w : forall v, settled w v -> forall p, In p (vol_atoms v) -> vol_inside w v p = true.
Proof.
  induction v as [l|pr vs ca IH] using volume_ind'; intros H p Hp; inversion H; subst.
  - cbn in *. auto.
  - cbn in Hp. destruct (combine_fst_in ats sps p H5 Hp) as [y Hy].
    apply (Permutation_in _ H6) in Hy. unfold contents in Hy. apply in_flat_map in Hy as ([o os] & Ho & Hy).
    unfold contribution in Hy. apply filter_In in Hy as [Hy _]. cbn [fst snd] in Hy.
    apply in_combine_l in Hy. apply in_each in Ho as [Ho _].
    cbn [vol_inside]. apply existsb_exists. exists o. split; [assumption|].
    rewrite Forall_forall in IH, H4. apply IH; auto.
Qed.

Lemma populate_settled w : forall v c c' v', vol_populate w c v = Ok (c', v') -> settled w v'.
Proof.
  induction v as [l|pr vs ca IH] using volume_ind'; intros c c' v' H; cbn [vol_populate] in H.
  - inv_bind H. destruct a as [c1 l1]. inversion H; subst.
    apply leaf_populate_inv in Ha as (g & g' & co & sp & _ & _ & L & ->). constructor.
    + cbn. rewrite map_length. clear H. revert sp L. induction co as [|x co IHc]; intros [|s sp] L; simpl in *; try easy.
      destruct (leaf_inside w l x); simpl; rewrite (IHc sp); auto.
    + cbn. intros p Hp. apply filter_In in Hp. tauto.
  - inv_bind H. destruct a as [c1 vs1]. cbn [fst snd] in H.
    pose proof (resolve_correct vol_prio vol_atoms vol_species (vol_inside w) vs1) as HR.
    pose proof (sort_perm vol_prio vs1) as HP.
    assert (HS : Forall (settled w) vs1).
    { apply mapMS_Forall2 in Ha. clear -IH Ha.
      induction Ha as [|a b la lb (s1 & s2 & Hab) _ IHl]; [constructor|]. inversion IH; subst.
      constructor; eauto. }
    assert (HA : forall o, In o vs1 -> length (vol_atoms o) = length (vol_species o)).
    { rewrite Forall_forall in HS. intros; eapply settled_aligned; eauto. }
    specialize (HR HA).
    destruct (sort_by vol_prio vs1) as [|x xs] eqn:E; [discriminate|].
    inversion H; subst. constructor; [discriminate| | |].
    + eapply Permutation_Forall; [apply Permutation_sym, HP | exact HS].
    + apply HR.
    + etransitivity; [apply HR|]. apply contents_perm. symmetry. exact HP.
Qed.
