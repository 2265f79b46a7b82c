(** * Vocabulary for stating geometric properties (exact real arithmetic)

    Independent of the code: plain coordinates formulas over R^3. *)
From Coq Require Import Reals.
From Verif Require Import GeomModel.
Local Open Scope R_scope.

Definition pt := vec R.

(** scalar product, squared norm, squared distance, distance *)
Definition dot3 (a b : pt) : R := vx a * vx b + vy a * vy b + vz a * vz b.
Definition norm2 (a : pt) : R := dot3 a a.
Definition norm (a : pt) : R := sqrt (norm2 a).
Definition minus3 (a b : pt) : pt := Vec (vx a - vx b) (vy a - vy b) (vz a - vz b).
Definition plus3 (a b : pt) : pt := Vec (vx a + vx b) (vy a + vy b) (vz a + vz b).
Definition scal3 (k : R) (a : pt) : pt := Vec (k * vx a) (k * vy a) (k * vz a).
Definition dist (a b : pt) : R := norm (minus3 a b).
(** right-handed vector product and signed volume *)
Definition cross3 (a b : pt) : pt :=
  Vec (vy a * vz b - vz a * vy b) (vz a * vx b - vx a * vz b) (vx a * vy b - vy a * vx b).
Definition vol (a b c : pt) : R := dot3 a (cross3 b c).
Definition zero3 : pt := Vec 0 0 0.
(** unit vector along a non-zero vector *)
Definition unit_of (a : pt) : pt := scal3 (/ norm a) a.
(** determinant of the linear map with the given columns *)
Definition det3 (m : matrix R) : R := vol (m0 m) (m1 m) (m2 m).
