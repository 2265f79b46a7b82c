(** * Vocabulary: light from a flat lamp on a surface (C128) *)
From Coq Require Import ZArith Reals List.
From Coquelicot Require Import Coquelicot.
From Verif Require Import GeomModel GeomSpec SceneSpec.
Local Open Scope R_scope.

(** what one unit of area at [p] of a matte lamp of brightness 1 facing down sends to a matte surface at [x] with
    normal [n] (of length one): both cosines, the square of the distance, and nothing from behind *)
Definition sent (x n p : pt) : R :=
  (Rmax 0 (dot3 (minus3 p x) n) / dist p x) * (Rmax 0 (vy p - vy x) / dist p x) / (PI * (dist p x * dist p x)).
(** integrals over the raised surface of a lamp: rectangle, disk (in polar coordinates) *)
Definition over_rect (w h : R) (c : pt) (f : pt -> R) : R :=
  RInt (fun a => RInt (fun b => f (Vec a (vy c + tinyR) b)) (vz c - h / 2) (vz c + h / 2)) (vx c - w / 2) (vx c + w / 2).
Definition over_disk (diam : R) (c : pt) (f : pt -> R) : R :=
  RInt (fun ph => RInt (fun r => f (Vec (vx c + r * cos ph) (vy c + tinyR) (vz c + r * sin ph)) * r) 0 (diam / 2)) 0 (2 * PI).
(** the lit surface of a lamp *)
Definition on_rect (w h : R) (c p : pt) : Prop := vy p = vy c /\ Rabs (vx p - vx c) <= w / 2 /\ Rabs (vz p - vz c) <= h / 2.
Definition on_disk (diam : R) (c p : pt) : Prop := vy p = vy c /\ (vx p - vx c) ^ 2 + (vz p - vz c) ^ 2 <= (diam / 2) ^ 2.
