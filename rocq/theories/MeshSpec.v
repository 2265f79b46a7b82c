(** * Vocabulary for meshes of triangles (exact real arithmetic) *)
From Coq Require Import ZArith Reals Bool List.
From Verif Require Import Num Outcome GeomModel GeomSpec ObjModel TreeModel ObjSpec.
Import ListNotations.
Local Open Scope R_scope.

(** a face names three points of a list by index *)
Definition face3 : Type := (Z * Z * Z)%type.
Definition corner (ps : list pt) (i : Z) : pt := nth (Z.to_nat i) ps zero3.
Definition in_range {A} (ps : list A) (i : Z) : Prop := (0 <= i < Z.of_nat (length ps))%Z.
Definition face_in_range {A} (ps : list A) (f : face3) : Prop :=
  let '(i, j, k) := f in in_range ps i /\ in_range ps j /\ in_range ps k.

(** normal vector of a face, twice its area in length *)
Definition area_normal (ps : list pt) (f : face3) : pt :=
  let '(i, j, k) := f in cross3 (minus3 (corner ps j) (corner ps i)) (minus3 (corner ps k) (corner ps i)).
(** unit normal; degenerate faces have none and contribute nothing *)
Definition unit_normal (ps : list pt) (f : face3) : pt :=
  if Req_EM_T (norm2 (area_normal ps f)) 0 then zero3 else unit_of (area_normal ps f).

(** how many corners of the face are point [i] *)
Definition corner_count (f : face3) (i : Z) : nat :=
  let '(a, b, c) := f in let one (x : Z) := if Z.eqb x i then 1%nat else 0%nat in (one a + one b + one c)%nat.
Definition touched (fs : list face3) (i : Z) : Prop := exists f, In f fs /\ (0 < corner_count f i)%nat.
(** sum of the unit normals of the faces that meet in point [i] *)
Fixpoint normal_sum (ps : list pt) (fs : list face3) (i : Z) : pt :=
  match fs with
  | nil => zero3
  | f :: rest => plus3 (scal3 (INR (corner_count f i)) (unit_normal ps f)) (normal_sum ps rest i)
  end.

(** [p] lies in the face, with the given weights *)
Definition in_face (ps : list pt) (f : face3) (w0 w1 w2 : R) (p : pt) : Prop :=
  let '(i, j, k) := f in
  0 <= w0 /\ 0 <= w1 /\ 0 <= w2 /\ w0 + w1 + w2 = 1 /\ p = weighted w0 w1 w2 (corner ps i) (corner ps j) (corner ps k).
Definition on_mesh (ps : list pt) (fs : list face3) (p : pt) : Prop :=
  exists f w0 w1 w2, In f fs /\ in_face ps f w0 w1 w2 p.

(** the value at a point of the face of an attribute known at the corners *)
Definition blend (f : face3) (w0 w1 w2 : R) (a : Z -> R) : R :=
  let '(i, j, k) := f in w0 * a i + w1 * a j + w2 * a k.
Definition blend3 (f : face3) (w0 w1 w2 : R) (a : Z -> pt) : pt :=
  let '(i, j, k) := f in weighted w0 w1 w2 (a i) (a j) (a k).

(** the ray starts on no axis-parallel plane through one of the points *)
Definition start_off (ps : list pt) (s : pt) : Prop :=
  forall p, In p ps -> vx s <> vx p /\ vy s <> vy p /\ vz s <> vz p.
(** the ray is not parallel to a face, and no face is degenerate *)
Definition general_position (ps : list pt) (fs : list face3) (d : pt) : Prop :=
  forall f, In f fs -> area_normal ps f <> zero3 /\ dot3 (area_normal ps f) d <> 0.

(** points of a parallelogram *)
Definition para (o a b : pt) (u v : R) : pt :=
  plus3 o (plus3 (scal3 u (minus3 a o)) (scal3 v (minus3 b o))).

(** distance at which a tree gives up *)
Definition horizon : R := IZR (9 * 10 ^ 99).

(** the coordinates as numbers of the code *)
Definition xuv (p : R * R) : xr * xr := (XF (fst p), XF (snd p)).
