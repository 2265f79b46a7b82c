(** * What texture lookups and pixel positions should be in double precision *)
From Coq Require Import ZArith Reals List.
From Flocq Require Import Core.
From Flocq Require IEEE754.BinarySingleNaN.
Import IEEE754.BinarySingleNaN.
From Verif Require Import Num B64 FloatSpec ColorModel ImageModel ImageSpec TextureSpec MeanSpec.
Import ListNotations.
Local Open Scope R_scope.

(** all pixels have channels of magnitude at most 2^k *)
Definition picture_at_most (k : Z) (img : list (list (color b64))) : Prop := Forall (Forall (sane k)) img.
(** [c] is the colour at column position i+s and row position j+t of the wrapped image, up to an error of [e] *)
Definition nearly_interpolates (w h : Z) (img : list (list (color b64))) (i j : Z) (s t e : R) (c : color b64) : Prop :=
  exists c00 c10 c01 c11,
    pixelAt img j i = Some c00 /\ pixelAt img j (next w i) = Some c10 /\
    pixelAt img (next h j) i = Some c01 /\ pixelAt img (next h j) (next w i) = Some c11 /\
    forall ch, MeanSpec.channel ch -> is_finite (ch c) = true /\
      Rabs (B2R (ch c) - ((1 - t) * ((1 - s) * B2R (ch c00) + s * B2R (ch c10)) + t * ((1 - s) * B2R (ch c01) + s * B2R (ch c11)))) <= e.
(** [y] is the position [x] of a period of pictures, in units of [n] columns, up to an error of [e] columns *)
Definition near_position (x : b64) (n e y : R) : Prop := exists a : Z, Rabs (y - (B2R x - IZR a) * n) <= e.

(** camera coordinates of the centre of pixel (x, y) of a picture of w x h pixels *)
Definition centre_u (w x : Z) : R := (IZR x + / 2) / IZR w.
Definition centre_v (w h y : Z) : R := / 2 + (IZR h / 2 - (IZR y + / 2)) / IZR w.
