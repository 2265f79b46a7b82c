(** * Vocabulary for nested trees and mesh files as objects (exact real arithmetic) *)
From Coq Require Import ZArith Reals Bool List.
From Verif Require Import Num Outcome GeomModel GeomSpec ObjModel TreeModel ObjSpec MeshSpec.
Import ListNotations.
Local Open Scope R_scope.

(** finite box which contains every hit of this ray short of the horizon, and the ray does not start
    on a plane of one of the box's faces. Small trees, which answer a miss by a hit at the horizon,
    qualify. *)
Definition near_boxed {M} (s d : pt) (o : object xr M) : Prop :=
  exists lo hi, oBounds o = Val (xbox lo hi) /\ ordered lo hi /\ off_planes lo hi s /\
    forall h r', oIntersect o (xray s d) = Val (h, r') -> xltb (XF 0) (hT h) = true -> xltb (hT h) (XF horizon) = true ->
      exists t, hT h = XF t /\ in_closed_box lo hi (along s d t).

(** the triangles of faces with three or four corners *)
Definition triangles (fs : list (list Z)) : list face3 :=
  flat_map (fun f => match f with [a; b; c] => [(a, b, c)] | [a; b; c; d] => [(a, b, c); (c, d, a)] | _ => nil end) fs.

(** transforms one after the other *)
Definition moved (ts : list (affine R)) (p : pt) : pt := fold_left (fun q t => transformPoint t q) ts p.

(** [h] is the nearest point of the mesh in front of the ray, with the mesh's material, interpolated
    normal and no texture coordinates *)
Definition file_hit {M} (ps : list pt) (fs : list face3) (m : option M) (s d : pt) (h : hit xr M) : Prop :=
  exists f t w0 w1 w2, In f fs /\ 0 < t /\ in_face ps f w0 w1 w2 (along s d t) /\
    (forall t', 0 < t' -> on_mesh ps fs (along s d t') -> t <= t') /\
    hT h = XF t /\ hMat h = m /\ hLocal h = xv zero3 /\
    ((forall i, (0 < corner_count f i)%nat -> normal_sum ps fs i <> zero3) ->
       hNormal h = xv (blend3 f w0 w1 w2 (fun i => unit_of (normal_sum ps fs i)))).
