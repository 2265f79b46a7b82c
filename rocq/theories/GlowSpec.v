(** * What bloom looks like: light spread over distances in the picture (C116) *)
From Coq Require Import ZArith Reals.
From Verif Require Import Num ColorModel ImageSpec.
Local Open Scope R_scope.

(** distance between the centres of two pixels, [dy] and [dx] apart, of size [px] *)
Definition gap (px : R) (dy dx : Z) : R := px * sqrt (IZR dx * IZR dx + IZR dy * IZR dy).

(** a bell curve, and the rings around a small round opening; [J1] is the Bessel function *)
Definition bell (r : R) : R := exp (- (r * r)).
Definition rings (J1 : R -> R) (r : R) : R := if Req_EM_T r 0 then 1 else (2 * J1 r / r) * (2 * J1 r / r).
(** eight rays, with a gap at the centre *)
Definition star (n dy dx : Z) : R :=
  let i := Z.max (Z.abs dy) (Z.abs dx) in
  if ((2 <=? i)%Z && (i <? n - 1)%Z)%bool then
    if ((dy =? 0)%Z || (dx =? 0)%Z)%bool then (IZR (n - i) / IZR n) ^ 2
    else if (Z.abs dy =? Z.abs dx)%Z then sqrt (1 / 2) * (IZR (n - i) / IZR n) ^ 2 else 0
  else 0.

Definition gray3 (v : R) : color R := Color v v v.
Definition mean3 (c : color R) : R := (cR c + cG c + cB c) / 3.

(** the part of [src] above the threshold, spread with weights [k] over pixels at most [n] away, in
    each direction, and scaled by [amplitude / total] *)
Definition spread (w h n : Z) (src : Z -> Z -> R) (threshold amplitude total : R) (k : Z -> Z -> R) (y x : Z) : R :=
  amplitude / total *
  sum_pixels w h (fun iy ix =>
    if ((Z.abs (y - iy) <=? n)%Z && (Z.abs (x - ix) <=? n)%Z)%bool then above threshold (src iy ix) * k (y - iy)%Z (x - ix)%Z else 0).
(** [g] is [f] with a glow of the weights [k], which add up to [amplitude] in the mean over the channels *)
Definition glows (w h n : Z) (f g : Z -> Z -> color R) (threshold amplitude : R) (k : Z -> Z -> color R) : Prop :=
  let total := sum_pixels (2 * n + 1) (2 * n + 1) (fun y x => mean3 (k (y - n)%Z (x - n)%Z)) in
  0 < total /\
  forall ch, channel ch -> forall y x, inside w h y x ->
    ch (g y x) = ch (f y x) + spread w h n (fun y x => ch (f y x)) threshold amplitude total (fun dy dx => ch (k dy dx)) y x.
