(** * What mirrors and glass are asked to do, in double precision *)
From Coq Require Import ZArith Reals.
From Flocq Require Import Core.
From Flocq Require IEEE754.BinarySingleNaN.
Import IEEE754.BinarySingleNaN.
From Verif Require Import Num B64 GeomModel FloatSpec.
Local Open Scope R_scope.

(** vectors that can be normalised: no component above 2^400, some component at least 2^-400 *)
Definition usable (w : vec b64) : Prop := all3 (at_most 400) w /\ some3 (at_least (-400)) w.
(** refractive indices, from a quarter to four *)
Definition index (x : b64) : Prop := FloatSpec.between (/ 4) 4 x.
(** fractions of the light *)
Definition weight (x : b64) : Prop := is_finite x = true /\ 0 <= B2R x <= 1.
