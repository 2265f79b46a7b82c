(** * Vocabulary for the accuracy of sampled images *)
From Coq Require Import ZArith Reals List.
From Flocq Require Import Core.
From Flocq Require IEEE754.BinarySingleNaN.
Import IEEE754.BinarySingleNaN.
From Verif Require Import Num B64 FloatSpec ColorModel SamplerModel SamplerSpec.
Import ListNotations.
Local Open Scope R_scope.

(** one of red, green and blue *)
Definition channel (ch : color b64 -> b64) : Prop := ch = cR \/ ch = cG \/ ch = cB.
(** all channels are numbers of magnitude at most 2^k *)
Definition sane (k : Z) (c : color b64) : Prop := at_most k (cR c) /\ at_most k (cG c) /\ at_most k (cB c).
(** the samples of pixel [p] in passes 0 .. n-1 *)
Definition pixel_samples {G} (f : imageFunc b64 G) (aa : bool) (shifts : list (b64 * b64)) (g : G) (w h : Z) (p : pixel) (n : Z) : list (color b64) :=
  map (fun k => sample_color f aa shifts g w h p (Z.of_nat k)) (seq 0 (Z.to_nat n)).
(** the real numbers in one channel of them *)
Definition reals (ch : color b64 -> b64) (l : list (color b64)) : list R := map (fun c => B2R (ch c)) l.
(** 2^-53: relative error of one rounding *)
Definition roundoff : R := bpow radix2 (-53).
(** rounding errors in the variance of samples, relative to the sum of their squares *)
Definition variance_error (x : list R) : R :=
  let n := IZR (Z.of_nat (length x)) in
  (3 * n + 7) * roundoff * (Rsum (map (fun y => y * y) x) / (n - 1)) + bpow radix2 (-1070).
