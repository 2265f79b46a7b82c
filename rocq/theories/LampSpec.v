(** * Light sent out by a flat lamp (C126), in exact real arithmetic *)
From Coq Require Import ZArith Reals List.
From Verif Require Import Num Outcome GeomModel GeomSpec ColorModel SeqModel ObjModel TreeModel SceneModel SceneSpec.
Import ListNotations.
Local Open Scope R_scope.

(** what a surface element at [p] with normal [n] (of length one) sends to [x], for the share [area] of a matte
    lamp of brightness 1: proportional to the cosine, falling off with the square of the distance, nothing backwards *)
Definition radiated (area : R) (p n x : pt) : R :=
  area * (Rmax 0 (dot3 (minus3 x p) n) / dist x p / (PI * (dist x p * dist x p))).

(** a lamp with surface [S], area [area] and normal [n] of brightness [b]: sampling draws a point of the surface *)
Definition shines {G} (rand2 : G -> (R * R) * G) (l : light R) (b : color R) (area : R) (S : pt -> Prop) (n : pt) : Prop :=
  norm2 n = 1 /\
  forall target (c c' : ctx R G) u v, generate2 rand2 c = Val ((u, v), c') -> 0 <= u <= 1 -> 0 <= v <= 1 ->
    exists p, S p /\ lightSample rand2 l target c = Val ((p, scaled (radiated area p n target) b), c').

(** a map that multiplies all distances by [k] *)
Definition similarity (k : R) (f : pt -> pt) : Prop := 0 < k /\ forall p q, dist (f p) (f q) = k * dist p q.
Definition image (f : pt -> pt) (S : pt -> Prop) (q : pt) : Prop := exists p, S p /\ q = f p.
Definition raised_rect (w h : R) (c p : pt) : Prop :=
  vy p = vy c + tinyR /\ Rabs (vx p - vx c) <= w / 2 /\ Rabs (vz p - vz c) <= h / 2.
Definition raised_disk (diam : R) (c p : pt) : Prop :=
  vy p = vy c + tinyR /\ (vx p - vx c) ^ 2 + (vz p - vz c) ^ 2 <= (diam / 2) ^ 2.
Definition downwards : pt := Vec 0 (-1) 0.
