(** * Vocabulary: averages over the disk and the hemisphere *)
From Coq Require Import ZArith Reals List.
From Coquelicot Require Import Coquelicot.
From Verif Require Import GeomModel GeomSpec.
Local Open Scope R_scope.

(** the direction at angle [th] from [n] and azimuth [ph] in the frame ([ex], [ey], [n]) *)
Definition polar (ex ey n : pt) (th ph : R) : pt :=
  plus3 (plus3 (scal3 (sin th * cos ph) ex) (scal3 (sin th * sin ph) ey)) (scal3 (cos th) n).
(** irradiance over pi: the integral over the hemisphere of [L] times the cosine (the solid angle is sin th dth dph) *)
Definition cosine_average (ex ey n : pt) (L : pt -> R) : R :=
  / PI * RInt (fun ph => RInt (fun th => L (polar ex ey n th ph) * cos th * sin th) 0 (PI / 2)) 0 (2 * PI).
(** the mean over the unit disk (the area is r dr dph) *)
Definition disk_average (f : R -> R -> R) : R :=
  / PI * RInt (fun ph => RInt (fun r => f (r * cos ph) (r * sin ph) * r) 0 1) 0 (2 * PI).

Definition orthonormal (ex ey n : pt) : Prop :=
  norm2 ex = 1 /\ norm2 ey = 1 /\ norm2 n = 1 /\ dot3 ex ey = 0 /\ dot3 ex n = 0 /\ dot3 ey n = 0.
(** continuous in the direction *)
Definition continuous_light (L : pt -> R) : Prop :=
  forall eps, 0 < eps -> exists del, 0 < del /\
    forall w w', norm2 w = 1 -> norm2 w' = 1 -> dist w w' < del -> Rabs (L w - L w') < eps.
Definition continuous_on_disk (f : R -> R -> R) : Prop :=
  forall eps, 0 < eps -> exists del, 0 < del /\
    forall x y x' y', x * x + y * y <= 1 -> x' * x' + y' * y' <= 1 -> Rabs (x - x') < del -> Rabs (y - y') < del -> Rabs (f x y - f x' y') < eps.
