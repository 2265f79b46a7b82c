(** * Model of package imagef/colorf *)
From Coq Require Import ZArith Reals Bool List.
From Verif Require Import Num.
Local Open Scope num_scope.

(** imagef/colorf/color.go:27-29 *)
Record color (F : Type) : Type := Color { cR : F; cG : F; cB : F }.
Arguments Color {F} _ _ _.
Arguments cR {F} _.
Arguments cG {F} _.
Arguments cB {F} _.

Section Color.
  Context {F : Type} `{NF : Num F}.

  (** color.go:11, and the zero value Color{} *)
  Definition black : color F := Color #0 #0 #0.
  (** color.go:12 *)
  Definition white : color F := Color #1 #1 #1.
  (** color.go:31-33 *)
  Definition gray (v : F) : color F := Color v v v.
  (** color.go:58-61 *)
  Definition clmul (c : color F) (s : F) : color F := Color (s * cR c) (s * cG c) (s * cB c).
  (** color.go:72-74 *)
  Definition clmul3 (c b : color F) : color F := Color (cR c * cR b) (cG c * cG b) (cB c * cB b).
  (** color.go:77-79 *)
  Definition cladd (c b : color F) : color F := Color (cR c + cR b) (cG c + cG b) (cB c + cB b).
  (** color.go:82-85 *)
  Definition clmadd (c : color F) (s : F) (b : color F) : color F :=
    Color (cR c + s * cR b) (cG c + s * cG b) (cB c + s * cB b).
  (** color.go:92-101 *)
  Definition clmax (c : color F) : F :=
    let m := cR c in
    let m := if cG c >? m then cG c else m in
    if cB c >? m then cB c else m.
  (** color.go:103-105 *)
  Definition clgray (c : color F) : F := (cR c + cG c + cB c) / #3.
  (** color.go:151-153: x != x *)
  Definition clisnan (a : color F) : bool :=
    negb (cR a =? cR a) || negb (cG a =? cG a) || negb (cB a =? cB a).

  (** color.go:141-149 *)
  Definition clip (v : F) : F :=
    let v := if v <? #0 then #0 else v in
    if v >? #1 then #1 else v.

  Context `{TF : Trig F}.
  (** color.go:109-119. The constants are 0.0031308, 12.92, 1.055, 1/2.4 and 0.05. *)
  Definition linearToSRGB (c : F) : F :=
    let c := clip c in
    if c <=? nQ 31308 10000000 then nQ 1292 100 * c
    else
      let c := nQ 1055 1000 * npow c (nQ 10 24) - nQ 5 100 in
      if c >? #1 then #1 else c.

  (** color.go:122-127 *)
  Definition srgbSlope (c : F) : F :=
    if c <=? nQ 31308 10000000 then nQ 1292 100
    else nQ 1055 1000 * nQ 10 24 * npow c (nQ (-14) 24).

  (** color.go:132-138 *)
  Definition sRGBToLinear (s : F) : F :=
    if s <=? nQ 4045 100000 then s / nQ 1292 100
    else npow ((s + nQ 55 1000) / nQ 1055 1000) (nQ 24 10).
End Color.
