(** How the classes that hold collections take their arguments: MultiTransform
    (transform.py), MultiVolume and the transformation keyword of from_volume
    (volume.py), PostSequence (post.py) and Scene (scene.py).
    The members themselves are modelled in Transform.v, Volume.v, Post.v and Scene.v. *)
From Coq Require Import List Bool.
From Verif.Model Require Import Base Vec Transform Generator Volume Post Molecule Scene.
Import ListNotations.

(** What a caller can pass.  An element is [Some x] if it passes the isinstance test of
    the callee and [None] if it does not.
    [One]: an object without __iter__.  [Seq]: an iterable that can be run through again
    and again (list, tuple, array).  [Once]: an iterator or generator expression with
    these elements left.  Python's iteration protocol, used at transform.py 400-404,
    volume.py 423-427 and 376-377, post.py 84-88, scene.py 30-34. *)
Inductive arg (A : Type) :=
| One (x : option A)
| Seq (xs : list (option A))
| Once (xs : list (option A)).
Arguments One {A} x.
Arguments Seq {A} xs.
Arguments Once {A} xs.

(** hasattr(x, '__iter__'), transform.py 400, volume.py 423, post.py 84, scene.py 31 *)
Definition has_iter {A} (a : arg A) : bool := match a with One _ => false | _ => true end.

(** A complete [for x in a]: the elements met, and the argument afterwards *)
Definition run_through {A} (a : arg A) : list (option A) * arg A :=
  match a with
  | One x => ([], One x)
  | Seq xs => (xs, Seq xs)
  | Once xs => (xs, Once [])
  end.

(** [for x in a: assert isinstance(x, ...)]: stops at the first wrong element, which
    has then been taken from an iterator.  transform.py 401-403, volume.py 424-426,
    post.py 85-87 *)
Fixpoint assert_loop {A} (xs : list (option A)) : list (option A) * res unit :=
  match xs with
  | [] => ([], Ok tt)
  | Some _ :: t => assert_loop t
  | None :: t => (t, Err AssertionError)
  end.
Definition assert_all {A} (a : arg A) : arg A * res unit :=
  match a with
  | One x => (One x, Ok tt)
  | Seq xs => (Seq xs, snd (assert_loop xs))
  | Once xs => (Once (fst (assert_loop xs)), snd (assert_loop xs))
  end.

(** The members of the right class *)
Fixpoint somes {A} (xs : list (option A)) : list A :=
  match xs with [] => [] | Some x :: t => x :: somes t | None :: t => somes t end.

(** add_transform / add_volume: the new list, the argument afterwards and the outcome.
    transform.py 398-409, volume.py 417-431, post.py 78-92.
    [extend] is reached only when every element the loop met was of the right class;
    it then runs through the argument a second time. *)
Definition add_members {A} (cur : list A) (a : arg A) : list A * arg A * res unit :=
  if has_iter a then
    let '(a', r) := assert_all a in
    match r with
    | Err e => (cur, a', Err e)
    | Ok _ => let '(xs, a'') := run_through a' in (cur ++ somes xs, a'', Ok tt)
    end
  else
    match a with
    | One (Some x) => (cur ++ [x], a, Ok tt)
    | _ => (cur, a, Err AssertionError)
    end.

(** The constructors with their optional collection.
    transform.py 362-366, volume.py 402-409, post.py 73-76 *)
Definition new_multitransform (a : option (arg transform)) : res transform :=
  match a with
  | None => Ok (TMulti [])
  | Some a => let '(ts, _, r) := add_members [] a in rmap (fun _ => TMulti ts) r
  end.
Definition new_multivolume (a : option (arg volume)) (prio : option BinNums.Z) : res volume :=
  let p := match prio with Some p => p | None => BinNums.Z0 end in
  match a with
  | None => Ok (VMulti p [] None)
  | Some a => let '(vs, _, r) := add_members [] a in rmap (fun _ => VMulti p vs None) r
  end.
Definition new_postsequence (a : option (arg post)) : res post :=
  match a with
  | None => Ok (PSeq [])
  | Some a => let '(ts, _, r) := add_members [] a in rmap (fun _ => PSeq ts) r
  end.

(** Scene.add_object on anything (scene.py 61-72): other classes are ignored *)
Definition add_any (s : scene) (x : option sobj) : scene :=
  match x with Some o => add_object s o | None => s end.
(** Scene.__init__ with any argument, scene.py 24-43 *)
Definition new_scene_arg (bounds : option (vec * vec)) (a : option (arg sobj)) : scene :=
  fold_left add_any
    (match a with
     | None => []
     | Some (One x) => [x]
     | Some a => fst (run_through a)
     end) (new_scene bounds []).

(** Volume.from_volume with any transformation argument, volume.py 356-378.  Running
    through something that is not iterable is a TypeError (also for a MultiTransform);
    transform() refuses other classes with an AssertionError (volume.py 277-278). *)
Definition leaf_from_volume_arg (w : world) (l : leaf) (g : option generator) (a : arg transform)
  : res (arg transform * leaf) :=
  new <- leaf_from_volume w l g [] ;;
  if has_iter a then
    new' <- foldM (fun v t => match t with
                              | Some t => let '(v', r) := leaf_transform w v t in rmap (fun _ => v') r
                              | None => Err AssertionError
                              end) (fst (run_through a)) new ;;
    Ok (snd (run_through a), new')
  else Err TypeError.
(** MultiVolume.from_volume passes the same argument to every member, volume.py 505-521 *)
Fixpoint vol_from_volume_arg (w : world) (g : option generator) (a : arg transform) (v : volume)
  : res (arg transform * volume) :=
  match v with
  | VLeaf l => rmap (fun r => (fst r, VLeaf (snd r))) (leaf_from_volume_arg w l g a)
  | VMulti p vols _ =>
      r <- mapMS (vol_from_volume_arg w g) a vols ;;
      Ok (fst r, VMulti p (snd r) None)
  end.
