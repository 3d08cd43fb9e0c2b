(** Molecules in scenes: C142; default bounds: C123. *)
From Coq Require Import String Reals List ZArith Bool Permutation Lia Lra.
From Verif.Model Require Import Base Vec Voxel Algebraic Generator Volume Molecule Scene Priority.
From Verif.Spec Require Import PrioritySpec SceneSpec.
From Verif.Proofs Require Import VecFacts PriorityFacts VolumeFacts SceneFacts.
From Verif.Props Require Import SceneProps.
Import ListNotations.
Open Scope R_scope.

(** the volumes and the molecules among objects; the atoms of a volume as populated *)
Definition volumes_of (objs : list sobj) : list volume := flat_map (fun o => match o with SVol v => [v] | SMol _ => [] end) objs.
Definition molecules_of (objs : list sobj) : list molecule := flat_map (fun o => match o with SVol _ => [] | SMol m => [m] end) objs.
Definition filled_atoms (v : volume) : list vec := match vol_result v with Some r => fst r | None => [] end.
Definition filled_species (v : volume) : list Z := match vol_result v with Some r => snd r | None => [] end.
(** the atoms of m outside every volume of smaller or equal priority number *)
Definition free_atoms (w : world) (vs : list volume) (m : molecule) : list (vec * Z) :=
  filter (fun ps => negb (existsb (fun v => (vol_prio v <=? m_prio m)%Z && vol_inside w v (fst ps)) vs))
         (combine (m_atoms m) (m_species m)).

Lemma volumes_app a b : volumes_of (a ++ b) = volumes_of a ++ volumes_of b.
Proof. apply flat_map_app. Qed.
Lemma loses_volumes w o others p : loses ob_prio (ob_inside w) o others p =
  existsb (fun v => (vol_prio v <=? ob_prio o)%Z && vol_inside w v p) (volumes_of others).
Proof.
  unfold loses. induction others as [|[v|m] t IH]; cbn [existsb volumes_of flat_map app]; [reflexivity| |].
  - cbn [ob_prio ob_inside]. rewrite IH. reflexivity.
  - cbn [ob_inside mol_inside]. unfold mol_inside. rewrite andb_false_r, IH. reflexivity.
Qed.
Lemma split_contents w l : forall r, Permutation
  (flat_map (fun oo => contribution ob_prio ob_atoms ob_species (ob_inside w) (fst oo, r ++ snd oo)) (each_with_others l))
  (flat_map (fun vv => contribution vol_prio filled_atoms filled_species (vol_inside w) (fst vv, volumes_of r ++ snd vv)) (each_with_others (volumes_of l)) ++
   flat_map (free_atoms w (volumes_of r ++ volumes_of l)) (molecules_of l)).
Proof.
  assert (FM : forall (A B C : Type) (f : A -> B) (g : B -> list C) (l : list A), flat_map g (map f l) = flat_map (fun x => g (f x)) l).
  { intros; rewrite !flat_map_concat_map, map_map; auto. }
  induction l as [|x t IH]; intros r; [apply Permutation_refl|].
  cbn [each_with_others flat_map]. rewrite FM. cbn [fst snd].
  specialize (IH (r ++ [x])). rewrite (flat_map_ext _ (fun oo => contribution ob_prio ob_atoms ob_species (ob_inside w) (fst oo, r ++ x :: snd oo))) in IH
    by (intros []; cbn [fst snd]; rewrite <- app_assoc; reflexivity).
  rewrite volumes_app in IH. destruct x as [v|m].
  - change (volumes_of (SVol v :: t)) with (v :: volumes_of t). change (molecules_of (SVol v :: t)) with (molecules_of t).
    cbn [each_with_others flat_map]. rewrite FM. cbn [fst snd]. rewrite <- app_assoc.
    change (volumes_of [SVol v]) with [v] in IH.
    rewrite (flat_map_ext (fun vv => contribution vol_prio filled_atoms filled_species (vol_inside w) (fst vv, (volumes_of r ++ [v]) ++ snd vv))
      (fun vv => contribution vol_prio filled_atoms filled_species (vol_inside w) (fst vv, volumes_of r ++ v :: snd vv))) in IH
      by (intros []; cbn [fst snd]; rewrite <- app_assoc; reflexivity).
    rewrite <- app_assoc in IH. apply Permutation_app; [|exact IH].
    apply Permutation_refl'. unfold contribution. cbn [fst snd]. apply filter_ext. intros ps. rewrite loses_volumes, volumes_app. reflexivity.
  - change (volumes_of (SMol m :: t)) with (volumes_of t). change (molecules_of (SMol m :: t)) with (m :: molecules_of t). cbn [flat_map].
    change (volumes_of [SMol m]) with (@nil volume) in IH. rewrite app_nil_r in IH.
    assert (E : contribution ob_prio ob_atoms ob_species (ob_inside w) (SMol m, r ++ t) = free_atoms w (volumes_of r ++ volumes_of t) m).
    { unfold contribution, free_atoms. cbn [fst snd]. apply filter_ext. intros ps. rewrite loses_volumes, volumes_app. reflexivity. }
    rewrite E. etransitivity; [apply Permutation_app_head, IH|]. rewrite !app_assoc. apply Permutation_app_tail, Permutation_app_comm.
Qed.

(** C142.  Molecules take no space.  The atoms of a populated scene are those of its volumes
    alone, as resolved among each other, together with the atoms of every molecule that lie
    outside every volume of smaller or equal priority number; whether other molecules are
    near does not matter, and populating leaves molecules as they are. *)
Theorem C142_molecules_take_no_space : forall w c s c' s' objs,
  sc_objects s = Some objs -> objs <> [] -> Forall obj_aligned objs -> populate w c s = Ok (c', s') ->
  exists pobjs ats sps, populated w objs pobjs /\ molecules_of pobjs = molecules_of objs /\
    all_atoms s' = Ok ats /\ all_species s' = Ok sps /\ length ats = length sps /\
    Permutation (combine ats sps)
      (contents vol_prio filled_atoms filled_species (vol_inside w) (volumes_of pobjs) ++
       flat_map (free_atoms w (volumes_of pobjs)) (molecules_of objs)).
Proof.
  intros w c s c' s' objs E NE HA H. destruct (C01_scene_precedence_exact _ _ _ _ _ _ E NE HA H) as (pobjs & ats & sps & P & A & S & L & PE).
  assert (M : molecules_of pobjs = molecules_of objs).
  { clear -P. unfold populated in P. induction P as [|o o' l l' (c & c' & Q) _ IH]; [reflexivity|]. destruct o as [v|m]; cbn [ob_populate] in Q.
    - inv_bind Q. injection Q as _ <-. exact IH.
    - injection Q as _ <-. change (m :: molecules_of l' = m :: molecules_of l). rewrite IH. reflexivity. }
  exists pobjs, ats, sps. repeat (split; [assumption|]). rewrite PE, <- M. apply (split_contents w pobjs []).
Qed.
Example C142_nonvacuous : exists s', populate demo_world 0 demo_scene = Ok (0%nat, s') /\
  (forall objs, sc_objects demo_scene = Some objs -> Forall obj_aligned objs /\ objs <> [] /\ length (molecules_of objs) = 1%nat /\ length (volumes_of objs) = 1%nat) /\
  free_atoms demo_world [demo_void'] demo_mol = [(mkV 5 0 0, 8%Z)].
Proof.
  destruct demo_populates as (s' & H & _). exists s'. split; [exact H|]. split.
  - intros objs E. injection E as <-. split; [repeat constructor|]. split; [discriminate|]. split; reflexivity.
  - unfold free_atoms. demo_eval. reflexivity.
Qed.

(** Without bounds a scene gets the box from 0 to 10 on every axis, whatever it contains. *)
Theorem C123_default_bounds : forall objs, sc_lo (new_scene None objs) = mkV 0 0 0 /\ sc_hi (new_scene None objs) = mkV 10 10 10.
Proof.
  intros objs. unfold new_scene. set (b := match makeRectPrism 10 10 10 None with [] => (v0, v0) | p :: ps => (rows_min p ps, rows_max p ps) end).
  assert (G : forall l s, sc_lo (fold_left add_object l s) = sc_lo s /\ sc_hi (fold_left add_object l s) = sc_hi s).
  { induction l as [|o l IH]; intros s; cbn [fold_left]; [auto|]. destruct (IH (add_object s o)) as [-> ->]. split; reflexivity. }
  destruct (G objs (mkScene (fst b) (snd b) None None)) as [-> ->]. cbn [sc_lo sc_hi].
  assert (M : forall x, Rmin x x = x) by (intros; unfold Rmin; destruct (Rle_dec x x); reflexivity).
  assert (M' : forall x, Rmax x x = x) by (intros; unfold Rmax; destruct (Rle_dec x x); reflexivity).
  unfold b, makeRectPrism, unit_cube, rows_min, rows_max. cbn [map fold_left fst snd]. unfold vmul, vmin, vmax. cbn [vx vy vz fold_left fst snd].
  rewrite ?Rmult_0_l, ?Rmult_1_l. split; apply vec_eq; cbn [vx vy vz];
  repeat match goal with
  | |- context [Rmin ?a ?b] => first [rewrite (Rmin_left a b) by lra | rewrite (Rmin_right a b) by lra]
  | |- context [Rmax ?a ?b] => first [rewrite (Rmax_left a b) by lra | rewrite (Rmax_right a b) by lra]
  end; reflexivity.
Qed.
Theorem C123_given_bounds : forall lo hi objs, sc_lo (new_scene (Some (lo, hi)) objs) = lo /\ sc_hi (new_scene (Some (lo, hi)) objs) = hi.
Proof.
  intros lo hi objs. unfold new_scene. cbn [fst snd]. change lo with (sc_lo (mkScene lo hi None None)) at 2. change hi with (sc_hi (mkScene lo hi None None)) at 4.
  generalize (mkScene lo hi None None). induction objs as [|o l IH]; intros s; cbn [fold_left]; [auto|]. destruct (IH (add_object s o)) as [-> ->]. split; reflexivity.
Qed.
