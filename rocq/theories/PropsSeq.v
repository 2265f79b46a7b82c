(** * Properties C05-C10: sample sequences *)
From Coq Require Import ZArith Reals Bool List Lra Lia.
From Verif Require Import Num NumLaws Outcome B64 GeomModel GeomSpec GeomProofs SeqModel SeqSpec HaltonProofs SeqProofs.
Import ListNotations.
Local Open Scope R_scope.

(** ** C05 *)
Theorem C05_halton_strictly_inside_unit_interval :
  forall b i : Z, (2 <= b)%Z -> (0 <= i)%Z ->
    exists r, halton (F:=R) b i = Val r /\ 0 < r < 1.
Proof. exact halton_R_val. Qed.
Print Assumptions C05_halton_strictly_inside_unit_interval.

Theorem C05_halton_never_repeats :
  forall (b i j : Z) (r : R), (2 <= b)%Z -> (0 <= i)%Z -> (0 <= j)%Z ->
    halton (F:=R) b i = Val r -> halton (F:=R) b j = Val r -> i = j.
Proof. exact halton_R_inj. Qed.
Print Assumptions C05_halton_never_repeats.

(** base 3, index 4 (that is, the fifth number): 5 = 12_3, reversed 0.21_3 = 7/9 *)
Example C05_example : halton (F:=R) 3 4 = Val (7 / 9).
Proof. rewrite (halton_R 3 4 2) by (cbn; lia). f_equal. Qed.

(** ** C06 *)
Theorem C06_halton_stratified :
  forall (b : Z) (k : nat) (i0 j : Z),
    (2 <= b)%Z -> (0 <= i0)%Z -> (0 <= j < b ^ Z.of_nat k)%Z ->
    exists i, (i0 <= i < i0 + b ^ Z.of_nat k)%Z /\
      (exists r, halton (F:=R) b i = Val r /\
        IZR j / IZR (b ^ Z.of_nat k) <= r < (IZR j + 1) / IZR (b ^ Z.of_nat k)) /\
      forall i' r', (i0 <= i' < i0 + b ^ Z.of_nat k)%Z -> halton (F:=R) b i' = Val r' ->
        IZR j / IZR (b ^ Z.of_nat k) <= r' < (IZR j + 1) / IZR (b ^ Z.of_nat k) -> i' = i.
Proof. exact halton_R_stratified. Qed.
Print Assumptions C06_halton_stratified.

(** positions 3..6 of base 2 (k = 2): 1/8, 5/8, 3/8, 7/8 - one in each quarter *)
Example C06_example :
  halton (F:=R) 2 3 = Val (1 / 8) /\ halton (F:=R) 2 4 = Val (5 / 8) /\
  halton (F:=R) 2 5 = Val (3 / 8) /\ halton (F:=R) 2 6 = Val (7 / 8).
Proof. repeat split; rewrite (halton_R _ _ 3) by (cbn; lia); f_equal. Qed.

(** ** C07 *)
Theorem C07_float_quotient_is_exact :
  forall i b : Z, (0 <= i < 2 ^ 53)%Z -> (2 <= b < 2 ^ 53)%Z ->
    ntrunc (nfloor (ndiv (nofZ i) (nofZ b : b64))) = (i / b)%Z.
Proof. exact b64_quotient. Qed.
Print Assumptions C07_float_quotient_is_exact.

Theorem C07_loop_walks_the_digits_and_stops :
  forall (b n : Z) (fuel : nat) (f r : b64),
    (2 <= b < 2 ^ 53)%Z -> (0 <= n < 2 ^ 53)%Z -> (53 < fuel)%nat ->
    exists ds, digits_value b ds = n /\ Forall (fun d => 0 <= d < b)%Z ds /\ (length ds <= 53)%nat /\
      halton_loop fuel b n (nofZ b) f r = Val (accum (nofZ b) ds f r).
Proof. exact halton_loop_53. Qed.
Print Assumptions C07_loop_walks_the_digits_and_stops.

Theorem C07_halton_finite_in_binary64 :
  forall b i : Z, (2 <= b < 2 ^ 53)%Z -> (0 <= i < 2 ^ 53 - 1)%Z ->
    exists r : b64, halton b i = Val r /\
      Flocq.IEEE754.BinarySingleNaN.is_finite r = true /\
      0 <= Flocq.IEEE754.BinarySingleNaN.B2R r <= Flocq.Core.Raux.bpow Flocq.Core.Zaux.radix2 106.
Proof. exact halton_b64_finite. Qed.
Print Assumptions C07_halton_finite_in_binary64.

(** the largest admissible index; a non-trivial digit sum *)
Example C07_example :
  ntrunc (nfloor (ndiv (nofZ (2 ^ 53 - 1)) (nofZ 2 : b64))) = (2 ^ 52 - 1)%Z /\
  omap Flocq.IEEE754.BinarySingleNaN.B2SF (halton (F:=b64) 3 4) = Val (Coq.Floats.SpecFloat.S754_finite false 7005599420354104 (-53)).
Proof. split; vm_compute; reflexivity. Qed.

(** ** C08 *)
Theorem C08_frac_in_unit_interval :
  forall x : b64, nisnan x = false -> nltb x ninf = true -> nleb (nofZ 0) x = true -> in_unit (frac x).
Proof. exact frac_in_unit. Qed.
Print Assumptions C08_frac_in_unit_interval.

Theorem C08_generate2_in_unit_square :
  forall s : hseq b64,
    (2 <= hs_baseU s < 2 ^ 53)%Z -> (2 <= hs_baseV s < 2 ^ 53)%Z -> (0 <= hs_index s < 2 ^ 53 - 1)%Z ->
    in_unit (hs_shiftU s) -> in_unit (hs_shiftV s) ->
    exists u v, hseq_generate2 s = Val (u, v) /\ in_unit u /\ in_unit v.
Proof. exact hseq_generate2_in_unit. Qed.
Print Assumptions C08_generate2_in_unit_square.

Example C08_example :
  let s := HSeq 2 3 6 (b64_of_bin 1 (-2)) (b64_of_bin 3 (-2)) [] in
  in_unit (hs_shiftU s) /\ in_unit (hs_shiftV s) /\
  omap (fun '(u, v) => neqb u (b64_of_bin 1 (-3))) (hseq_generate2 s) = Val true.
Proof. vm_compute. auto. Qed.

(** ** C09 *)
Theorem C09_cosineSphere_unit_and_above_surface :
  forall (u v : R) (n : pt), norm2 n = 1 -> 0 <= v <= 1 ->
    norm2 (cosineSphere u v n) = 1 /\
    dot3 (cosineSphere u v n) n = sqrt (1 - v) /\
    0 <= dot3 (cosineSphere u v n) n.
Proof. exact cosineSphere_spec. Qed.
Print Assumptions C09_cosineSphere_unit_and_above_surface.

Theorem C09_tangent_frame_orthonormal :
  forall n : pt, norm2 n = 1 ->
    let m := cosineFrame n in
    m2 m = n /\ norm2 (m0 m) = 1 /\ norm2 (m1 m) = 1 /\ norm2 (m2 m) = 1 /\
    dot3 (m0 m) (m1 m) = 0 /\ dot3 (m0 m) (m2 m) = 0 /\ dot3 (m1 m) (m2 m) = 0.
Proof. exact cosineFrame_orthonormal. Qed.
Print Assumptions C09_tangent_frame_orthonormal.

Example C09_example : norm2 (Vec (2 / 3) (-1 / 3) (2 / 3)) = 1.
Proof. spec_unfold. lra. Qed.

(** ** C10 *)
Theorem C10_uniformDisk_polar :
  forall u v : R, 0 <= v ->
    let '(x, y) := uniformDisk u v in
    x = sqrt v * cos (2 * PI * u) /\ y = sqrt v * sin (2 * PI * u) /\ x * x + y * y = v.
Proof. exact uniformDisk_spec. Qed.
Print Assumptions C10_uniformDisk_polar.

Example C10_example : uniformDisk 0 (1 / 4) = (1 / 2, 0).
Proof.
  assert (sqrt (1 / 4) = 1 / 2) as E by (replace (1 / 4) with ((1 / 2) * (1 / 2)) by lra; apply sqrt_square; lra).
  unfold uniformDisk; rnum. rewrite E, Rmult_0_r, cos_0, sin_0. f_equal; lra.
Qed.
