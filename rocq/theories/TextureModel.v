(** * Model of package texture

    Textures only read their image, which is given as a list of rows. *)
From Coq Require Import ZArith Reals Bool List.
From Verif Require Import Num Outcome GeomModel ColorModel SeqModel TreeModel SceneModel ImageModel.
Import ListNotations.
Local Open Scope num_scope.

Section Texture.
  Context {F : Type} `{NF : Num F}.
  Notation rows := (list (list (color F))).

  (** texture/interpolation.go:94-96; rows first *)
  Definition atIndex (img : rows) (i j : Z) : outcome (color F) := obind (getZ img j) (fun row => getZ row i).

  (** texture/interpolation.go:27-34 *)
  Definition nearestUV (img : rows) (u v : F) : outcome (color F) :=
    let '(w, h) := rowsSize img in
    let i := ntrunc (u * #(w - 1) + nQ 1 2) in
    let j := ntrunc (v * #(h - 1) + nQ 1 2) in
    atIndex img i j.
  (** texture/interpolation.go:17-25 *)
  Definition nearest (img : rows) : texture F := fun p => nearestUV img (vx p) (vy p).

  (** the fractional part of math.Modf of a number x >= 0 (for x >= 1 the integer part is
      obtained by clearing the bits behind the point) *)
  Definition modfPos (x : F) : F := if x <? #1 then x else x - nfloor x.
  Definition modfFrac (x : F) : F := if x <? #0 then - modfPos (- x) else modfPos x.

  (** texture/interpolation.go:79-88 *)
  Definition warp (x : F) : F :=
    let x := modfFrac x in
    let x := if x <? #0 then #1 + x else x in
    if x =? #1 then #0 else x.
  (** texture/interpolation.go:90-92 *)
  Definition bilin (f00 f01 f10 f11 x y : F) : F :=
    f00 * (#1 - x) * (#1 - y) + f10 * x * (#1 - y) + f01 * (#1 - x) * y + f11 * x * y.
  (** texture/interpolation.go:43-77 *)
  Definition bilinearUV (img : rows) (u v : F) : outcome (color F) :=
    let '(w, h) := rowsSize img in
    if (negb (u =? u) || negb (v =? v))%bool then Val black else
    let X := warp u * #(w - 1) in
    let Y := warp v * #(h - 1) in
    let x0 := ntrunc X in
    let y0 := ntrunc Y in
    let x1 := (x0 + 1)%Z in
    let x1 := if (w <=? x1)%Z then 0%Z else x1 in
    let y1 := (y0 + 1)%Z in
    let y1 := if (h <=? y1)%Z then 0%Z else y1 in
    let x := frac X in
    let y := frac Y in
    obind (atIndex img x0 y0) (fun c00 =>
    obind (atIndex img x0 y1) (fun c01 =>
    obind (atIndex img x1 y0) (fun c10 =>
    obind (atIndex img x1 y1) (fun c11 =>
    Val (Color (bilin (cR c00) (cR c01) (cR c10) (cR c11) x y)
               (bilin (cG c00) (cG c01) (cG c10) (cG c11) x y)
               (bilin (cB c00) (cB c01) (cB c10) (cB c11) x y)))))).
  (** texture/interpolation.go:36-40, texture2d.go:11-23 *)
  Definition bilinear (img : rows) : texture F := fun p => bilinearUV img (vx p) (vy p).

  (** imagef/colorf/color.go:36-38 *)
  Definition constTexture (c : color F) : texture F := fun _ => Val c.

  (** texture/assets.go:45-47 *)
  Definition floorInt (x : F) : Z := ntrunc (nfloor x).
  (** texture/assets.go:19-31; Go's % on ints is the truncated remainder *)
  Definition checkers (pitchU pitchV : F) (a b : texture F) : texture F := fun p =>
    let pitchU := pitchU * #2 in
    let pitchV := pitchV * #2 in
    let u := vx p in
    let v := vy p in
    let i := floorInt (u * pitchU) in
    let j := floorInt (v * pitchV) in
    if (Z.rem (i + j) 2 =? 0)%Z
    then a (Vec u v #0) else b (Vec u v #0).
  (** texture/assets.go:33-43 *)
  Definition grid (width pitchU pitchV : F) (a b : texture F) : texture F := fun p =>
    let u := vx p in
    let v := vy p in
    let u2 := frac (u * pitchU) in
    let v2 := frac (v * pitchV) in
    if ((u2 <? width * pitchU) || (v2 <? width * pitchV) || (u2 >? #1 - width * pitchU) || (v2 >? #1 - width * pitchV))%bool
    then b (Vec u v #0) else a (Vec u v #0).

  (** texture/texture2d.go:33-45 *)
  Definition panned (orig : texture F) (iScaleU iScaleV deltaU deltaV : F) : texture F := fun p =>
    orig (Vec (vx p * iScaleU - deltaU) (vy p * iScaleV - deltaV) #0).
  (** texture/texture2d.go:25-31 *)
  Definition pan (t : texture F) (deltaU deltaV : F) : texture F := panned t #1 #1 deltaU deltaV.
  Definition scaleUV (t : texture F) (scaleU scaleV : F) : texture F := panned t (#1 / scaleU) (#1 / scaleV) #0 #0.

  Context `{TF : Trig F}.
  (** math.Asin and math.Atan2 *)
  Variables (nasin : F -> F) (natan2 : F -> F -> F).
  (** texture/uvmapper.go:24-37 *)
  Definition fisheyeUV (dir : vec F) : F * F :=
    let dir := vnormalized dir in
    let r := nsqrt (vz dir * vz dir + vx dir * vx dir) in
    let r := nasin r / (npi / #2) in
    let th := natan2 (vz dir) (vx dir) in
    let x := r * ncos th in
    let y := r * nsin th in
    (nQ 1 2 + x * nQ 1 2, nQ 1 2 + y * nQ 1 2).
  (** texture/uvmapper.go:24-38, 72-80 *)
  Definition mapFisheye (t : texture F) : texture F := fun p =>
    let '(u, v) := fisheyeUV p in t (Vec u v #0).
End Texture.
