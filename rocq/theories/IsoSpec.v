(** * Height fields: what is meant by the surface *)
From Coq Require Import Reals.
From Verif Require Import Num GeomModel ObjModel GeomSpec ObjSpec.
Local Open Scope R_scope.

(** a height function on the extended reals that has the values of [f] at finite arguments *)
Definition lifts (f : R -> R -> R) (g : xr -> xr -> xr) : Prop := forall u v, g (XF u) (XF v) = XF (f u v).
(** [f] stays between 0 and 1, as the documentation asks *)
Definition unit_heights (f : R -> R -> R) : Prop := forall u v, 0 <= f u v <= 1.
(** height of a point above the surface [y = dy * f (x / dx) (z / dz)] *)
Definition elevation (dx dy dz : R) (f : R -> R -> R) (p : pt) : R := vy p - dy * f (vx p / dx) (vz p / dz).
(** the line runs through the box from [t1] to [t2] *)
Definition crosses (dx dy dz : R) (s d : pt) (t1 t2 : R) : Prop :=
  t1 <= t2 /\ forall t, in_closed_box zero3 (Vec dx dy dz) (along s d t) <-> t1 <= t <= t2.
(** slope of [dy * f] over a distance of 1/4096 in one of the arguments *)
Definition slope (dy : R) (f : R -> R) (u : R) : R := dy * (f (u + 1 / 8192) - f (u - 1 / 8192)) / (1 / 4096).
