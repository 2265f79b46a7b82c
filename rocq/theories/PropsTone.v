(** * Property theorems: named colours and exposure values (C140) *)
From Coq Require Import ZArith Reals Bool.
From Flocq Require Import Core.
From Flocq Require IEEE754.BinarySingleNaN.
Import IEEE754.BinarySingleNaN.
From Verif Require Import Num Outcome B64 GeomModel ColorModel ToneModel ToneSpec ToneProofs.
Local Open Scope R_scope.

(** ** C140: exposure values scale exactly *)
Theorem C140_exposure_is_exact :
  forall {TF : Trig b64} (n : Z) (c : color b64), exact_powers TF -> (Z.abs n <= 1000)%Z -> each (roomy n) c -> each2 (times2 n) c (clev c (nofZ n)).
Proof. exact @exposure_exact. Qed.
Print Assumptions C140_exposure_is_exact.

(** under- and overexposing by the same value changes no bit *)
Theorem C140_exposure_can_be_undone :
  forall {TF : Trig b64} (n : Z) (c : color b64), exact_powers TF -> (Z.abs n <= 100)%Z -> each plain c -> clev (clev c (nofZ n)) (nofZ (- n)) = c.
Proof. exact @exposure_back. Qed.
Print Assumptions C140_exposure_can_be_undone.

(** in exact arithmetic, any exposures add up, and one more doubles the light *)
Theorem C140_exposures_add : forall (c : color R) a b, clev (clev c a) b = clev c (a + b) /\ clev c 0 = c.
Proof. exact exposures_add. Qed.
Print Assumptions C140_exposures_add.
Theorem C140_one_more_doubles : forall (a b : R), 0 < ev a /\ (a < b -> ev a < ev b) /\ ev (a + 1) = 2 * ev a.
Proof. exact brighter. Qed.
Print Assumptions C140_one_more_doubles.

(** a white surface or filter returns every colour unchanged, bit by bit, also infinities and NaN *)
Theorem C140_white_is_neutral : forall c : color b64, clmul3 c white = c /\ clmul3 white c = c.
Proof. exact white_neutral. Qed.
Print Assumptions C140_white_is_neutral.

(** the named colours consist of the channels of their name; filters keep the common channels, lights add theirs *)
Theorem C140_named_colours : has false false false black /\ has true true true white /\ has true false false red /\ has true true false yellow /\
  has false true false green /\ has false true true cyan /\ has false false true blue /\ has true false true magenta.
Proof. exact named_colours. Qed.
Print Assumptions C140_named_colours.
Theorem C140_lights_and_filters : forall (c d : color b64) r g b r' g' b', has r g b c -> has r' g' b' d ->
  has (r && r') (g && g') (b && b') (clmul3 c d) /\
  ((r && r' = false)%bool -> (g && g' = false)%bool -> (b && b' = false)%bool -> has (r || r') (g || g') (b || b') (cladd c d)).
Proof. exact colour_arithmetic. Qed.
Print Assumptions C140_lights_and_filters.

Example C140_example : cladd red (cladd green blue) = (white : color b64) /\ clmul3 yellow cyan = (green : color b64) /\ clmul3 red cyan = (black : color b64).
Proof. exact three_lights. Qed.
Example C140_example_stops : forall {TF : Trig b64}, exact_powers TF -> B2R (cR (clev yellow (nofZ 3))) = 8 /\ cB (clev yellow (nofZ 3)) = (nofZ 0 : b64).
Proof. exact @eightfold. Qed.
