(** Collections as arguments: C103, C104, C105. *)
From Coq Require Import Reals List ZArith Bool Lra Lia.
From Verif.Model Require Import Base Vec Algebraic Transform Generator Volume Post Molecule Scene Collect.
From Verif.Spec Require Import CollectSpec.
From Verif.Proofs Require Import VecFacts VolumeFacts VolTransFacts.
Import ListNotations.
Open Scope R_scope.

(* ------------------------------------------------------------------ *)
(** * C103: what is added is what is held *)

Lemma somes_map {A} : forall xs : list A, somes (map Some xs) = xs.
Proof. induction xs; cbn; congruence. Qed.
Lemma proper_holds {A} : forall a : arg A, proper a <-> exists xs, holds a xs.
Proof.
  intros a. unfold proper, holds. generalize (given a). intros l. split.
  - induction l as [|[x|] t IH]; intros H.
    + exists []. reflexivity.
    + destruct IH as [xs ->]; [intros y Hy; apply H; right; auto|]. exists (x :: xs). reflexivity.
    + exfalso. apply (H None); [left; auto|auto].
  - intros [xs ->] x Hx ->. apply in_map_iff in Hx. destruct Hx as (y & E & _). discriminate.
Qed.
Lemma assert_loop_good {A} : forall xs : list A, assert_loop (map Some xs) = ([], Ok tt).
Proof. induction xs; cbn; auto. Qed.
Lemma assert_loop_bad {A} : forall xs : list (option A), In None xs -> snd (assert_loop xs) = Err AssertionError.
Proof. induction xs as [|[x|] t IH]; intros H; [destruct H|destruct H as [H|H]; [discriminate|cbn; auto]|reflexivity]. Qed.
Lemma not_proper {A} : forall a : arg A, ~ proper a -> In None (given a).
Proof.
  intros a H. unfold proper in H. revert H. generalize (given a). intros l. induction l as [|[x|] t IH]; intros H.
  - exfalso. apply H. intros y [].
  - right. apply IH. intros K. apply H. intros y [<-|Hy]; [discriminate|auto].
  - left. auto.
Qed.

(** One object, or any list or tuple of objects: all of the right class, and they are
    appended in order; otherwise AssertionError and nothing has changed.  Stated for
    members of any class: transformations, volumes, post-transformations. *)
Theorem C103_added_partial : forall A (cur : list A) a,
  reusable a ->
  (forall xs, holds a xs -> add_members cur a = (cur ++ xs, a, Ok tt)) /\
  (~ proper a -> add_members cur a = (cur, a, Err AssertionError)).
Proof.
  intros A cur a HR. split.
  - intros xs H. unfold holds in H. destruct a as [x|l|l]; cbn in H; [| |destruct HR].
    + destruct xs as [|y [|]]; cbn in H; try discriminate. inversion H; subst. reflexivity.
    + subst l. unfold add_members. cbn. rewrite assert_loop_good. cbn. rewrite somes_map. reflexivity.
  - intros H. pose proof (not_proper _ H) as HN. destruct a as [x|l|l]; cbn in HN; [| |destruct HR].
    + destruct HN as [HN|[]]. subst x. reflexivity.
    + unfold add_members. cbn. rewrite (assert_loop_bad _ HN). reflexivity.
Qed.

(** Any history of additions, refused ones included *)
Definition contents {A} (cur : list A) (calls : list (arg A)) : list A :=
  fold_left (fun c a => fst (fst (add_members c a))) calls cur.
Theorem C103_history_partial : forall A (calls : list (arg A)) cur,
  Forall reusable calls ->
  exists kept, Forall2 (fun a xs => holds a xs \/ (~ proper a /\ xs = [])) calls kept /\
    contents cur calls = cur ++ concat kept.
Proof.
  intros A calls. induction calls as [|a t IH]; intros cur HF.
  - exists []. split; [constructor|]. cbn. rewrite app_nil_r. reflexivity.
  - inversion HF as [|? ? Ha Ht]; subst. destruct (C103_added_partial A cur a Ha) as [HG HB].
    assert (D : proper a \/ ~ proper a).
    { unfold proper. destruct (in_dec (fun x y : option unit => ltac:(decide equality; destruct a0, u; auto)) None (map (option_map (fun _ => tt)) (given a))) as [I|I].
      - right. intros K. apply in_map_iff in I. destruct I as ([x|] & E & I); [discriminate|]. exact (K None I eq_refl).
      - left. intros x Hx ->. apply I. apply in_map_iff. exists None. auto. }
    destruct D as [D|D].
    + apply proper_holds in D. destruct D as [xs D]. destruct (IH (cur ++ xs) Ht) as (kept & K1 & K2).
      exists (xs :: kept). split; [constructor; auto|]. cbn [contents fold_left concat]. rewrite (HG xs D). cbn [fst].
      unfold contents in K2. rewrite K2, app_assoc. reflexivity.
    + destruct (IH cur Ht) as (kept & K1 & K2). exists ([] :: kept). split; [constructor; auto|].
      cbn [contents fold_left concat app]. rewrite (HB D). cbn [fst]. exact K2.
Qed.

(** The members act as C27, C05 and C56 say: in order, as a union, in order. *)
Theorem C103_effect_partial :
  (forall a ts, reusable a -> holds a ts -> exists t, new_multitransform (Some a) = Ok t /\
     forall p, apply_pt t p = fold_left (fun q u => apply_pt u q) ts p) /\
  (forall a vs prio, reusable a -> holds a vs -> exists v, new_multivolume (Some a) prio = Ok v /\
     vol_prio v = match prio with Some n => n | None => 0%Z end /\
     forall w p, vol_inside w v p = true <-> exists u, In u vs /\ vol_inside w u p = true) /\
  (forall a ts, reusable a -> holds a ts -> exists t, new_postsequence (Some a) = Ok t /\
     forall mk c ps ss, apply_post mk t c ps ss =
       fold_left (fun st u => apply_post mk u (fst st) (fst (snd st)) (snd (snd st))) ts (c, (ps, ss))).
Proof.
  split; [|split].
  - intros a ts HR H. exists (TMulti ts). unfold new_multitransform. rewrite (proj1 (C103_added_partial _ [] a HR) ts H). split; reflexivity.
  - intros a vs prio HR H. eexists. unfold new_multivolume. rewrite (proj1 (C103_added_partial _ [] a HR) vs H). split; [reflexivity|]. split; [reflexivity|].
    intros w p. cbn [app vol_inside]. apply existsb_exists.
  - intros a ts HR H. exists (PSeq ts). unfold new_postsequence. rewrite (proj1 (C103_added_partial _ [] a HR) ts H). split; reflexivity.
Qed.

(** An iterator (a generator expression, map, filter, zip, reversed ...) of objects of
    the right class is accepted without complaint and nothing at all is added: the
    check has used it up before [extend] reads it. *)
Theorem C103_iterator_refuted :
  (forall A (cur : list A) a xs, ~ reusable a -> holds a xs -> add_members cur a = (cur, Once [], Ok tt)) /\
  (forall a ts, ~ reusable a -> holds a ts -> exists t, new_multitransform (Some a) = Ok t /\
     forall p, apply_pt t p = p) /\
  (forall a vs prio, ~ reusable a -> holds a vs -> exists v, new_multivolume (Some a) prio = Ok v /\
     forall w p, vol_inside w v p = false) /\
  (forall a ts, ~ reusable a -> holds a ts -> exists t, new_postsequence (Some a) = Ok t /\
     forall mk c ps ss, apply_post mk t c ps ss = (c, (ps, ss))).
Proof.
  assert (M : forall A (cur : list A) a xs, ~ reusable a -> holds a xs -> add_members cur a = (cur, Once [], Ok tt)).
  { intros A cur a xs HR H. destruct a as [x|l|l]; cbn in HR; [destruct HR; auto|destruct HR; auto|].
    unfold holds in H. cbn in H. subst l. unfold add_members. cbn. rewrite assert_loop_good. cbn. rewrite app_nil_r. reflexivity. }
  split; [exact M|]. split; [|split].
  - intros a ts HR H. exists (TMulti []). unfold new_multitransform. rewrite (M _ [] a ts HR H). split; reflexivity.
  - intros a ts prio HR H. eexists. unfold new_multivolume. rewrite (M _ [] a ts HR H). split; reflexivity.
  - intros a ts HR H. exists (PSeq []). unfold new_postsequence. rewrite (M _ [] a ts HR H). split; reflexivity.
Qed.
(** A wrong element stops an iterator as well: nothing is added, but the iterator has
    lost everything up to and including that element. *)
Theorem C103_iterator_wrong_partial : forall A (cur : list A) good rest,
  add_members cur (Once (map Some good ++ None :: rest)) = (cur, Once rest, Err AssertionError).
Proof.
  intros. unfold add_members. cbn.
  assert (E : assert_loop (map Some good ++ None :: rest) = (rest, Err AssertionError)) by (induction good; cbn; auto).
  rewrite E. reflexivity.
Qed.
(** A collection (iterators included) with a member of another class is refused by the
    constructors too: no object is made of the members before it *)
Theorem C103_constructors_refuse_partial :
  (forall a, ~ proper a -> new_multitransform (Some a) = Err AssertionError) /\
  (forall a prio, ~ proper a -> new_multivolume (Some a) prio = Err AssertionError) /\
  (forall a, ~ proper a -> new_postsequence (Some a) = Err AssertionError) /\
  (exists t, new_multitransform None = Ok t /\ forall p, apply_pt t p = p) /\
  (forall prio, exists v, new_multivolume None prio = Ok v /\ forall w p, vol_inside w v p = false) /\
  (exists t, new_postsequence None = Ok t /\ forall mk c ps ss, apply_post mk t c ps ss = (c, (ps, ss))).
Proof.
  assert (M : forall A (cur : list A) a, ~ proper a -> exists a', add_members cur a = (cur, a', Err AssertionError)).
  { intros A cur a H. destruct a as [x|l|l].
    - exists (One x). exact (proj2 (C103_added_partial A cur (One x) I) H).
    - exists (Seq l). exact (proj2 (C103_added_partial A cur (Seq l) I) H).
    - pose proof (not_proper _ H) as HN. cbn in HN.
      assert (E : exists r, assert_loop l = (r, Err AssertionError)).
      { clear H. induction l as [|[y|] t IH]; [destruct HN| |exists t; reflexivity].
        destruct HN as [HN|HN]; [discriminate|]. destruct (IH HN) as [r E]. exists r. exact E. }
      destruct E as [r E]. exists (Once r). unfold add_members. cbn. rewrite E. reflexivity. }
  split; [|split; [|split; [|split; [|split]]]].
  - intros a H. destruct (M _ [] a H) as [a' E]. unfold new_multitransform. rewrite E. reflexivity.
  - intros a prio H. destruct (M _ [] a H) as [a' E]. unfold new_multivolume. rewrite E. reflexivity.
  - intros a H. destruct (M _ [] a H) as [a' E]. unfold new_postsequence. rewrite E. reflexivity.
  - exists (TMulti []). split; reflexivity.
  - intros prio. eexists. split; reflexivity.
  - exists (PSeq []). split; reflexivity.
Qed.
Example C103_nonvacuous :
  let shift := TTranslation (mkV 1 0 0) true false in
  let flip := TInversion None true false in
  contents [] [Seq [Some shift; Some flip]; Seq [Some shift; None]; One (Some shift); One None] = [shift; flip; shift] /\
  (exists t, new_multitransform (Some (Seq [Some shift; Some flip])) = Ok t /\ apply_pt t (mkV 0 0 0) = mkV (-1) 0 0) /\
  (exists t, new_multitransform (Some (Once [Some shift; Some flip])) = Ok t /\ apply_pt t (mkV 0 0 0) = mkV 0 0 0).
Proof.
  split; [reflexivity|]. split; (eexists; split; [reflexivity|]); [|reflexivity].
  cbn. unfold matrix_pt. apply vec_eq; vunfold; ring.
Qed.

(* ------------------------------------------------------------------ *)
(** * C104: a scene takes every volume and molecule it is given *)

Lemma fold_add_any : forall l s, fold_left add_any l s = fold_left add_object (somes l) s.
Proof. induction l as [|[x|] t IH]; intros s; cbn; auto. Qed.
Lemma fold_add_objects : forall l lo hi obs,
  fold_left add_object l (mkScene lo hi obs None) =
  mkScene lo hi (match obs, l with None, [] => None | None, _ => Some l | Some o, _ => Some (o ++ l) end) None.
Proof.
  induction l as [|x t IH]; intros lo hi obs; cbn [fold_left].
  - destruct obs; [rewrite app_nil_r|]; reflexivity.
  - unfold add_object at 2. cbn. rewrite IH. destruct obs as [o|]; [rewrite <- app_assoc|]; reflexivity.
Qed.

(** Object, list or iterator: the scene holds the volumes and molecules among what it
    was given, in that order, whatever else was among them; none at all leaves it
    without objects.  Giving them to the constructor or to add_object is the same. *)
Theorem C104_scene_holds : forall bounds a,
  let s := new_scene_arg bounds (Some a) in
  (forall o, In (Some o) (given a) <-> exists l, sc_objects s = Some l /\ In o l) /\
  (forall objs, holds a objs -> objs <> [] -> sc_objects s = Some objs) /\
  ((forall x, In x (given a) -> x = None) <-> sc_objects s = None) /\
  s = fold_left add_any (given a) (new_scene_arg bounds None) /\
  s = new_scene bounds (somes (given a)) /\
  sc_lo s = sc_lo (new_scene_arg bounds None) /\ sc_hi s = sc_hi (new_scene_arg bounds None) /\ sc_checks s = None.
Proof.
  intros bounds a s.
  assert (E : s = fold_left add_object (somes (given a)) (new_scene bounds [])).
  { subst s. unfold new_scene_arg. rewrite fold_add_any. destruct a; reflexivity. }
  assert (N : new_scene bounds [] = mkScene (sc_lo (new_scene bounds [])) (sc_hi (new_scene bounds [])) None None) by (destruct bounds; reflexivity).
  assert (E2 : s = mkScene (sc_lo (new_scene bounds [])) (sc_hi (new_scene bounds [])) (match somes (given a) with [] => None | _ => Some (somes (given a)) end) None).
  { rewrite E, N, fold_add_objects. reflexivity. }
  assert (I : forall o, In (Some o) (given a) <-> In o (somes (given a))).
  { intros o. generalize (given a). induction l as [|[x|] t IH]; cbn; [tauto| |].
    - rewrite <- IH. split; (intros [H|H]; [left; congruence|right; exact H]).
    - rewrite <- IH. split; [intros [H|H]; [discriminate|exact H]|auto]. }
  split; [|split; [|split; [|split; [|split; [|split; [|split]]]]]].
  - intros o. rewrite I, E2. cbn [sc_objects]. split.
    + intros H. exists (somes (given a)). split; [|exact H]. destruct (somes (given a)); [destruct H|reflexivity].
    + intros (l & H1 & H2). destruct (somes (given a)); inversion H1; subst; exact H2.
  - intros objs H Hne. unfold holds in H. rewrite E2. cbn [sc_objects]. rewrite H, somes_map. destruct objs; congruence.
  - rewrite E2. cbn [sc_objects]. split.
    + intros H. replace (somes (given a)) with (@nil sobj); [reflexivity|]. symmetry.
      destruct (somes (given a)) as [|o t] eqn:K; [reflexivity|]. exfalso.
      assert (In (Some o) (given a)) as J by (apply I; left; auto). specialize (H _ J). discriminate.
    + intros H x Hx. destruct x as [o|]; [|reflexivity]. apply I in Hx. destruct (somes (given a)); [destruct Hx|discriminate].
  - rewrite E, fold_add_any. reflexivity.
  - rewrite E. unfold new_scene. cbn [fold_left]. destruct bounds; reflexivity.
  - rewrite E2. reflexivity.
  - rewrite E2. reflexivity.
  - rewrite E2. reflexivity.
Qed.
Example C104_nonvacuous : forall o1 o2 : sobj,
  sc_objects (new_scene_arg None (Some (Once [Some o1; None; Some o2]))) = Some [o1; o2] /\
  sc_objects (new_scene_arg None (Some (One None))) = None.
Proof. intros. split; reflexivity. Qed.

(* ------------------------------------------------------------------ *)
(** * C105: one transformation keyword moves every part of a MultiVolume *)

Lemma volume_parts_ind (P : volume -> Prop) :
  (forall l, P (VLeaf l)) -> (forall p vols c, Forall P vols -> P (VMulti p vols c)) -> forall v, P v.
Proof.
  intros HL HM. fix IH 1. intros [l|p vols c]; [apply HL|]. apply HM. induction vols; constructor; auto.
Qed.

Lemma leaf_arg : forall w l g ts,
  leaf_from_volume w l g ts = (new <- leaf_from_volume w l g [] ;;
     foldM (fun v t => let '(v', r) := leaf_transform w v t in rmap (fun _ => v') r) ts new).
Proof.
  intros w l g ts. unfold leaf_from_volume. destruct (match l_points l with PNone => _ | PArr p => _ | PBad => _ end) as [a|e]; cbn [bind]; [|reflexivity].
  destruct (match match g with Some g0 => Some g0 | None => l_gen l end with Some g0 => _ | None => _ end) as [b|e]; reflexivity.
Qed.
Lemma leaf_arg_good : forall w l g a ts, has_iter a = true -> holds a ts ->
  leaf_from_volume_arg w l g a = rmap (pair (snd (run_through a))) (leaf_from_volume w l g ts).
Proof.
  intros w l g a ts HI H. rewrite leaf_arg. unfold leaf_from_volume_arg. destruct (leaf_from_volume w l g []) as [n|e]; cbn [bind]; [|reflexivity].
  rewrite HI. assert (E : fst (run_through a) = map Some ts) by (destruct a; [discriminate|exact H|exact H]). rewrite E.
  revert n. induction ts as [|t ts IH] in |- *; intros n; cbn [map foldM]; [reflexivity|].
  destruct (leaf_transform w n t) as [v' [[]|e]]; cbn [rmap bind]; [|reflexivity].
  rewrite <- IH. reflexivity.
Qed.

(** What the copy of one part went through *)
Definition copied (w : world) (g : option generator) (ts : list transform) (l l' : leaf) : Prop :=
  leaf_from_volume w l g ts = Ok l'.
(** the same with all priorities and the nesting *)
Inductive same_tree : volume -> volume -> Prop :=
| same_leaf : forall l l', same_tree (VLeaf l) (VLeaf l')
| same_multi : forall p vs vs' c c', Forall2 same_tree vs vs' -> same_tree (VMulti p vs c) (VMulti p vs' c').

(** A list of transformations: every part is copied and moved by all of them, at every
    depth of nesting, and the argument can be used again. *)
Theorem C105_every_part_partial : forall w g ts v,
  vol_from_volume_arg w g (Seq (map Some ts)) v =
    rmap (pair (Seq (map Some ts))) (vol_from_volume w v g ts) /\
  (forall a v', vol_from_volume_arg w g (Seq (map Some ts)) v = Ok (a, v') ->
     same_tree v v' /\ Forall2 (copied w g ts) (parts v) (parts v')).
Proof.
  intros w g ts.
  assert (H1 : forall v, vol_from_volume_arg w g (Seq (map Some ts)) v = rmap (pair (Seq (map Some ts))) (vol_from_volume w v g ts)).
  { induction v as [l|p vols c IH] using volume_parts_ind; cbn [vol_from_volume_arg vol_from_volume].
    - rewrite (leaf_arg_good w l g (Seq (map Some ts)) ts eq_refl eq_refl). destruct (leaf_from_volume w l g ts); reflexivity.
    - assert (E : mapMS (vol_from_volume_arg w g) (Seq (map Some ts)) vols =
                  rmap (pair (Seq (map Some ts))) (mapM (fun v' => vol_from_volume w v' g ts) vols)).
      { induction IH as [|v vs Hv Hvs IHvs]; [reflexivity|]. cbn [mapMS mapM]. rewrite Hv.
        destruct (vol_from_volume w v g ts) as [v'|e]; cbn [rmap bind]; [|reflexivity]. cbn [fst]. rewrite IHvs.
        destruct (mapM _ vs) as [vs'|e]; reflexivity. }
      rewrite E. destruct (mapM _ vols); reflexivity. }
  intros v. split; [apply H1|]. intros a v' H. rewrite H1 in H. destruct (vol_from_volume w v g ts) as [v1|e] eqn:E; cbn in H; [|discriminate].
  inversion H; subst a v1. clear H. revert v' E. induction v as [l|p vols c IH] using volume_parts_ind; intros v' E; cbn [vol_from_volume] in E.
  - destruct (leaf_from_volume w l g ts) as [l'|] eqn:EL; cbn in E; [|discriminate]. inversion E; subst. split; [constructor|].
    cbn. constructor; [exact EL|constructor].
  - inv_bind E. inversion E; subst. clear E. cbn [parts].
    assert (K : Forall2 same_tree vols a /\ Forall2 (copied w g ts) (flat_map parts vols) (flat_map parts a)).
    { revert a Ha. induction IH as [|v vs Hv Hvs IHvs]; intros a Ha; cbn [mapM] in Ha.
      - inversion Ha; subst. split; constructor.
      - inv_bind Ha. inv_bind Ha. inversion Ha; subst. destruct (Hv _ Ha0) as [A1 A2]. destruct (IHvs _ Ha1) as [B1 B2].
        split; [constructor; auto|]. cbn. apply Forall2_app; auto. }
    split; [constructor; apply K|apply K].
Qed.

(** An iterator moves the first part only: all others are copied where they are. *)
Theorem C105_iterator_refuted : forall w g ts v a v',
  vol_from_volume_arg w g (Once (map Some ts)) v = Ok (a, v') ->
  same_tree v v' /\
  (parts v = [] \/ exists l0 rest l0' rest', parts v = l0 :: rest /\ parts v' = l0' :: rest' /\
     copied w g ts l0 l0' /\ Forall2 (copied w g []) rest rest').
Proof.
  intros w g ts.
  (* an exhausted iterator first *)
  assert (H0 : forall v a v', vol_from_volume_arg w g (Once []) v = Ok (a, v') ->
             a = Once [] /\ same_tree v v' /\ Forall2 (copied w g []) (parts v) (parts v')).
  { induction v as [l|p vols c IH] using volume_parts_ind; intros a v' H; cbn [vol_from_volume_arg] in H.
    - rewrite (leaf_arg_good w l g (Once []) [] eq_refl eq_refl) in H. destruct (leaf_from_volume w l g []) as [l'|] eqn:EL; cbn in H; [|discriminate].
      inversion H; subst. repeat split; [constructor|]. cbn. constructor; [exact EL|constructor].
    - inv_bind H. inversion H; subst. clear H. destruct a0 as [a0 vols']. cbn [fst snd].
      assert (K : a0 = Once [] /\ Forall2 same_tree vols vols' /\ Forall2 (copied w g []) (flat_map parts vols) (flat_map parts vols')).
      { revert a0 vols' Ha. induction IH as [|v vs Hv Hvs IHvs]; intros a0 vols' Ha; cbn [mapMS] in Ha.
        - inversion Ha; subst. repeat split; constructor.
        - inv_bind Ha. inv_bind Ha. inversion Ha; subst. destruct a as [b v1]. cbn [fst snd] in *. destruct (Hv _ _ Ha0) as (-> & A1 & A2).
          destruct a1 as [c' vs1]. destruct (IHvs _ _ Ha1) as (-> & B1 & B2). cbn [fst snd].
          repeat split; [constructor; auto|]. cbn. apply Forall2_app; auto. }
      destruct K as (-> & K1 & K2). repeat split; [constructor; auto|exact K2]. }
  assert (H0' : forall vs a vs', mapMS (vol_from_volume_arg w g) (Once []) vs = Ok (a, vs') ->
             a = Once [] /\ Forall2 same_tree vs vs' /\ Forall2 (copied w g []) (flat_map parts vs) (flat_map parts vs')).
  { induction vs as [|v vs IHvs]; intros a vs' Ha; cbn [mapMS] in Ha.
    - inversion Ha; subst. repeat split; constructor.
    - inv_bind Ha. inv_bind Ha. inversion Ha; subst. destruct a0 as [b v1]. cbn [fst snd] in *. destruct (H0 _ _ _ Ha0) as (-> & A1 & A2).
      destruct a1 as [c' vs1]. destruct (IHvs _ _ Ha1) as (-> & B1 & B2). cbn [fst snd].
      repeat split; [constructor; auto|]. cbn. apply Forall2_app; auto. }
  set (split1 := fun (ls ls' : list leaf) (a : arg transform) =>
         (ls = [] /\ ls' = [] /\ a = Once (map Some ts)) \/
         (a = Once [] /\ exists l0 rest l0' rest', ls = l0 :: rest /\ ls' = l0' :: rest' /\ copied w g ts l0 l0' /\ Forall2 (copied w g []) rest rest')).
  assert (H1 : forall v a v', vol_from_volume_arg w g (Once (map Some ts)) v = Ok (a, v') -> same_tree v v' /\ split1 (parts v) (parts v') a).
  { induction v as [l|p vols c IH] using volume_parts_ind; intros a v' H; cbn [vol_from_volume_arg] in H.
    - rewrite (leaf_arg_good w l g (Once (map Some ts)) ts eq_refl eq_refl) in H. destruct (leaf_from_volume w l g ts) as [l'|] eqn:EL; cbn in H; [|discriminate].
      inversion H; subst. split; [constructor|]. right. split; [reflexivity|]. exists l, [], l', []. repeat split; [exact EL|constructor].
    - inv_bind H. inversion H; subst. clear H. destruct a0 as [a0 vols']. cbn [fst snd parts].
      assert (K : Forall2 same_tree vols vols' /\ split1 (flat_map parts vols) (flat_map parts vols') a0).
      { revert a0 vols' Ha. induction IH as [|v vs Hv Hvs IHvs]; intros a0 vols' Ha; cbn [mapMS] in Ha.
        - inversion Ha; subst. split; [constructor|]. left. auto.
        - inv_bind Ha. inv_bind Ha. inversion Ha; subst. destruct a as [b v1], a1 as [c' vs1]. cbn [fst snd] in *.
          destruct (Hv _ _ Ha0) as (A1 & [(A2 & A3 & ->) | (-> & l0 & rest & l0' & rest' & A2 & A3 & A4 & A5)]).
          + destruct (IHvs _ _ Ha1) as (B1 & B2). split; [constructor; auto|]. cbn [flat_map]. rewrite A2, A3. exact B2.
          + destruct (H0' _ _ _ Ha1) as (-> & B1 & B2). split; [constructor; auto|]. right. split; [reflexivity|].
            exists l0, (rest ++ flat_map parts vs), l0', (rest' ++ flat_map parts vs1). cbn [flat_map]. rewrite A2, A3.
            repeat split; [exact A4|apply Forall2_app; auto]. }
      destruct K as (K1 & K2). split; [constructor; auto|exact K2]. }
  intros v a v' H. destruct (H1 _ _ _ H) as (S1 & [(E & _) | (_ & E)]); split; auto.
Qed.

(** A single transformation, or a MultiTransform, in place of a list: TypeError, unless
    there is nothing to copy. *)
Theorem C105_single_refused : forall w g x v, parts v <> [] -> (forall l, In l (parts v) -> exists l', leaf_from_volume w l g [] = Ok l') ->
  vol_from_volume_arg w g (One x) v = Err TypeError.
Proof.
  intros w g x.
  assert (H : forall v, (forall l, In l (parts v) -> exists l', leaf_from_volume w l g [] = Ok l') ->
     (parts v <> [] -> vol_from_volume_arg w g (One x) v = Err TypeError) /\
     (parts v = [] -> exists v', vol_from_volume_arg w g (One x) v = Ok (One x, v'))).
  { induction v as [l|p vols c IH] using volume_parts_ind; intros HL; cbn [vol_from_volume_arg parts] in *.
    - split; [|discriminate]. intros _. unfold leaf_from_volume_arg. destruct (HL l (or_introl eq_refl)) as [l' ->]. reflexivity.
    - assert (K : (flat_map parts vols <> [] -> mapMS (vol_from_volume_arg w g) (One x) vols = Err TypeError) /\
                  (flat_map parts vols = [] -> exists vs', mapMS (vol_from_volume_arg w g) (One x) vols = Ok (One x, vs'))).
      { induction IH as [|v vs Hv Hvs IHvs]; [split; [intros []; reflexivity|exists []; reflexivity]|].
        cbn [flat_map mapMS] in *. destruct Hv as [V1 V2]; [intros l Hl; apply HL, in_or_app; auto|].
        destruct IHvs as [W1 W2]; [intros l Hl; apply HL, in_or_app; auto|].
        destruct (parts v) as [|l0 t] eqn:EP.
        - destruct (V2 eq_refl) as [v' ->]. cbn [bind fst snd app]. split.
          + intros N. rewrite (W1 N). reflexivity.
          + intros N. destruct (W2 N) as [vs' ->]. eexists. reflexivity.
        - rewrite V1 by discriminate. split; [reflexivity|discriminate]. }
      split.
      + intros N. rewrite (proj1 K N). reflexivity.
      + intros N. destruct (proj2 K N) as [vs' ->]. eexists. reflexivity. }
  intros v N HL. apply H; auto.
Qed.

(** Two balls of radius 1 ten apart, moved by five along y. *)
Definition two_balls : volume :=
  VMulti 0 [VMulti 1 [VLeaf (mkLeaf PNone None None [ASphere (mkSphere 1 (mkV 0 0 0) default_tol)] (Some GNull) 0 default_vtol None)] None;
            VLeaf (mkLeaf PNone None None [ASphere (mkSphere 1 (mkV 10 0 0) default_tol)] (Some GNull) 0 default_vtol None)] None.
Example C105_nonvacuous : forall w,
  let shift := TTranslation (mkV 0 5 0) false false in
  (exists v', vol_from_volume_arg w None (Seq [Some shift]) two_balls = Ok (Seq [Some shift], v') /\
     vol_inside w v' (mkV 0 5 0) = true /\ vol_inside w v' (mkV 10 5 0) = true /\ vol_inside w v' (mkV 10 0 0) = false) /\
  (exists v', vol_from_volume_arg w None (Once [Some shift]) two_balls = Ok (Once [], v') /\
     vol_inside w v' (mkV 0 5 0) = true /\ vol_inside w v' (mkV 10 5 0) = false /\ vol_inside w v' (mkV 10 0 0) = true) /\
  parts two_balls <> [] /\ (forall l, In l (parts two_balls) -> exists l', leaf_from_volume w l None [] = Ok l').
Proof.
  intros w shift.
  assert (B : forall c p, sphere_interior (mkSphere 1 c default_tol) p = true <-> dot (vsub p c) (vsub p c) < (1 + default_tol) * (1 + default_tol)).
  { intros c p. unfold sphere_interior. cbn [s_center s_radius s_tol]. rewrite Rltb_iff. reflexivity. }
  assert (T : forall c p, dot (vsub p c) (vsub p c) = 0 -> sphere_interior (mkSphere 1 c default_tol) p = true).
  { intros c p H. apply B. rewrite H. unfold default_tol. lra. }
  assert (F : forall c p, 4 <= dot (vsub p c) (vsub p c) -> sphere_interior (mkSphere 1 c default_tol) p = false).
  { intros c p H. destruct (sphere_interior _ p) eqn:K; [|reflexivity]. apply B in K. unfold default_tol in K. lra. }
  split; [|split; [|split]].
  - eexists. split; [cbn; reflexivity|]. cbn [vol_inside existsb]. rewrite !leaf_inside_eq. cbn -[sphere_interior]. unfold sphere_set_center. cbn [s_radius s_center s_tol].
    split; [|split].
    + rewrite T; [reflexivity|vunfold; ring].
    + rewrite (T (vadd (mkV 10 0 0) _)); [rewrite ?orb_true_r; reflexivity|vunfold; ring].
    + rewrite !F; [reflexivity| |]; vunfold; lra.
  - eexists. split; [cbn; reflexivity|]. cbn [vol_inside existsb]. rewrite !leaf_inside_eq. cbn -[sphere_interior]. unfold sphere_set_center. cbn [s_radius s_center s_tol].
    split; [|split].
    + rewrite T; [reflexivity|vunfold; ring].
    + rewrite !F; [reflexivity| |]; vunfold; lra.
    + rewrite (T (mkV 10 0 0)); [rewrite ?orb_true_r; reflexivity|vunfold; ring].
  - discriminate.
  - intros l [<-|[<-|[]]]; eexists; reflexivity.
Qed.
