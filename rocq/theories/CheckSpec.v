(** * Vocabulary: the nearest of two distances in front *)
From Coq Require Import ZArith Bool.
From Flocq Require IEEE754.BinarySingleNaN.
Import IEEE754.BinarySingleNaN.
From Verif Require Import Num GeomModel ObjModel.

Definition ahead (t : b64) : Prop := nltb (nofZ 0) t = true.
(** [t] is ahead, and [s] is not nearer *)
Definition nearest (t s : b64) : Prop := ahead t /\ (ahead s -> nltb s t = false).

Definition map4 {A B} (f : A -> B) (a b c d : A) : B * B * B * B := (f a, f b, f c, f d).

Definition anyNaN (v : vec b64) : bool := is_nan (vx v) || is_nan (vy v) || is_nan (vz v).
