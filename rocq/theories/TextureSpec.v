(** * What texture lookups should return *)
From Coq Require Import ZArith Reals Bool List.
From Verif Require Import Num ColorModel ImageModel ImageSpec.
Import ListNotations.

(** pixel in column i of row j *)
Definition pixelAt {F} (img : list (list (color F))) (j i : Z) : option (color F) :=
  match nth_error img (Z.to_nat j) with Some row => nth_error row (Z.to_nat i) | None => None end.

Local Open Scope R_scope.
(** the value at column position i+s and row position j+t of the image, which wraps around *)
Definition next (n i : Z) : Z := if (n <=? i + 1)%Z then 0%Z else (i + 1)%Z.
Definition between4 (a b c d v : R) : Prop := Rmin (Rmin a b) (Rmin c d) <= v <= Rmax (Rmax a b) (Rmax c d).
Definition interpolates (w h : Z) (img : list (list (color R))) (i j : Z) (s t : R) (c : color R) : Prop :=
  exists c00 c10 c01 c11,
    pixelAt img j i = Some c00 /\ pixelAt img j (next w i) = Some c10 /\
    pixelAt img (next h j) i = Some c01 /\ pixelAt img (next h j) (next w i) = Some c11 /\
    forall ch, channel ch ->
      ch c = (1 - t) * ((1 - s) * ch c00 + s * ch c10) + t * ((1 - s) * ch c01 + s * ch c11) /\
      between4 (ch c00) (ch c10) (ch c01) (ch c11) (ch c).


(** within [width] of a multiple of 1/[pitch] *)
Definition on_line (width pitch u : R) : Prop := exists k : Z, Rabs (u - IZR k / pitch) < width.
