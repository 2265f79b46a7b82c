(** * Model of packages imagef, imagef/ppm and imagef/post

    Images that are written to live in a heap of backing arrays, so that aliasing is
    visible. Code that only reads an image (the encoders) gets the rows as lists. *)
From Coq Require Import ZArith Reals Bool List.
From Verif Require Import Num Outcome ColorModel SeqModel ObjModel TreeModel.
Import ListNotations.

(** ** Slices *)
(** a Go slice: backing array, offset and length (nothing appends, so no capacity) *)
Record slice : Type := Slice { slArr : nat; slOff : Z; slLen : Z }.
(** imagef/image.go:11 and imagef/grey.go:10: a slice of rows. The outer slice is never written
    after construction. *)
Definition image : Type := list slice.

Section Heap.
  Context {A : Type}.
  Local Open Scope Z_scope.

  Definition heap : Type := list (list A).
  Definition hact (B : Type) : Type := heap -> outcome (B * heap).
  Definition hret {B} (b : B) : hact B := fun H => Val (b, H).
  Definition hbind {B C} (x : hact B) (f : B -> hact C) : hact C := fun H => obind (x H) (fun '(b, H') => f b H').
  Definition hlift {B} (o : outcome B) : hact B := fun H => omap (fun b => (b, H)) o.

  (** s[i] *)
  Definition loadAt (s : slice) (i : Z) : hact A := fun H =>
    if ((i <? 0) || (slLen s <=? i))%bool then Panic else
    match nth_error H (slArr s) with
    | Some arr => omap (fun a => (a, H)) (getZ arr (slOff s + i))
    | None => Panic
    end.
  (** s[i] = a *)
  Definition storeAt (s : slice) (i : Z) (a : A) : hact unit := fun H =>
    if ((i <? 0) || (slLen s <=? i))%bool then Panic else
    match nth_error H (slArr s) with
    | Some arr => omap (fun arr' => (tt, setNth H (slArr s) arr')) (setZ arr (slOff s + i) a)
    | None => Panic
    end.
  (** s[lo:hi] *)
  Definition subslice (s : slice) (lo hi : Z) : outcome slice :=
    if ((0 <=? lo) && (lo <=? hi) && (hi <=? slLen s))%bool then Val (Slice (slArr s) (slOff s + lo) (hi - lo)) else Panic.
  (** make([]T, n) *)
  Definition alloc (zero : A) (n : Z) : hact slice := fun H =>
    if n <? 0 then Panic else Val (Slice (length H) 0 n, H ++ [repeat zero (Z.to_nat n)]).

  (** for i := i0; ...; i++ (n times), with the state of the loop *)
  Fixpoint hfor {S} (n : nat) (i : Z) (body : Z -> S -> hact S) (s : S) : hact S :=
    match n with
    | O => hret s
    | Datatypes.S n => hbind (body i s) (hfor n (i + 1) body)
    end.
  Definition hloop (n : Z) (body : Z -> hact unit) : hact unit := hfor (Z.to_nat n) 0 (fun i _ => body i) tt.

  (** img[y][x] and img[y][x] = a *)
  Definition getPix (img : image) (y x : Z) : hact A := hbind (hlift (getZ img y)) (fun row => loadAt row x).
  Definition setPix (img : image) (y x : Z) (a : A) : hact unit := hbind (hlift (getZ img y)) (fun row => storeAt row x a).

  Fixpoint rowsOf (list : slice) (w : Z) (n : nat) (i : Z) : outcome image :=
    match n with
    | O => Val nil
    | Datatypes.S n => obind (subslice list (i * w) ((i + 1) * w)) (fun row => omap (cons row) (rowsOf list w n (i + 1)))
    end.
  (** imagef/image.go:13-20, imagef/grey.go:13-20 *)
  Definition makeImage (zero : A) (w h : Z) : hact image :=
    hbind (alloc zero (w * h)) (fun list =>
    if h <? 0 then hlift Panic else hlift (rowsOf list w (Z.to_nat h) 0)).

  (** imagef/image.go:22-33: (Dx, Dy) of Bounds *)
  Definition imgSize (img : image) : Z * Z :=
    match img with nil => (0, 0) | row :: _ => (slLen row, Z.of_nat (length img)) end.

  (** imagef/image.go:55-64 *)
  Definition copyImage (zero : A) (img : image) : hact image :=
    let '(w, h) := imgSize img in
    hbind (makeImage zero w h) (fun cpy =>
    hbind (hloop h (fun iy => hloop w (fun ix =>
             hbind (getPix img iy ix) (fun c => setPix cpy iy ix c)))) (fun _ =>
    hret cpy)).

  (** for iy := range img { for ix := range img[iy] { ... } } *)
  Definition overPixels {S} (img : image) (body : Z -> Z -> S -> hact S) (s : S) : hact S :=
    hfor (length img) 0 (fun iy s =>
      hbind (hlift (getZ img iy)) (fun row =>
      hfor (Z.to_nat (slLen row)) 0 (fun ix s => body iy ix s) s)) s.
End Heap.
Arguments heap A : clear implicits.
Arguments hact A B : clear implicits.

(** ** Package imagef/post *)
Section Post.
  Context {F : Type} `{NF : Num F}.
  Local Open Scope num_scope.
  Notation hact := (hact (color F)).

  (** util/util.go:41-43 *)
  Definition re (x : F) : F := umax x #0.

  (** imagef/post/convolution.go:16-23 *)
  Definition kernelSum (kern : image) : hact F :=
    overPixels kern (fun iy ix sum =>
      hbind (getPix kern iy ix) (fun c => hret (sum + (cR c + cG c + cB c) / #3))) #0.
  (** imagef/post/convolution.go:24-30 *)
  Definition scaledKernel (kern : image) (factor : F) : hact image :=
    hbind (copyImage black kern) (fun k =>
    hbind (overPixels k (fun iy ix _ =>
      hbind (getPix k iy ix) (fun c => setPix k iy ix (clmul c factor))) tt) (fun _ => hret k)).
  (** imagef/post/convolution.go:43-56: one source pixel *)
  Definition splat (dst k : image) (w h kw kh kdx kdy ix iy : Z) (c : color F) : hact unit :=
    hloop kh (fun iky =>
      let idy := (iy + iky - kdy)%Z in
      if ((idy <? 0) || (h <=? idy))%Z%bool then hret tt else
      hloop kw (fun ikx =>
        let idx := (ix + ikx - kdx)%Z in
        if ((idx <? 0) || (w <=? idx))%Z%bool then hret tt else
        hbind (getPix dst idy idx) (fun d =>
        hbind (getPix k iky ikx) (fun kc =>
        setPix dst idy idx (cladd d (clmul3 c kc)))))).
  (** imagef/post/convolution.go:11-60 *)
  Definition addConvolution (dst src kern : image) (amplitude offset : F) : hact unit :=
    let '(w, h) := imgSize src in
    let '(kw, kh) := imgSize kern in
    let kdx := Z.quot kw 2 in
    let kdy := Z.quot kh 2 in
    hbind (kernelSum kern) (fun sum =>
    hbind (scaledKernel kern (amplitude / sum)) (fun k =>
    hloop h (fun iy => hloop w (fun ix =>
      hbind (getPix src iy ix) (fun c =>
      if clmax c <? offset then hret tt else
      splat dst k w h kw kh kdx kdy ix iy (Color (re (cR c - offset)) (re (cG c - offset)) (re (cB c - offset)))))))).

  (** Go's int arithmetic wraps around *)
  Definition wrap64 (z : Z) : Z := ((z + 2 ^ 63) mod 2 ^ 64 - 2 ^ 63)%Z.

  (** imagef/post/convolution.go:87-99 *)
  Definition kernel (pixels : Z) (f : F -> F -> color F) : hact image :=
    let n := wrap64 (2 * pixels + 1) in
    let center := Z.quot n 2 in
    hbind (makeImage black n n) (fun k =>
    hbind (hloop n (fun iky =>
      let v := #(iky - center) in
      hloop n (fun ikx =>
        let u := #(ikx - center) in
        setPix k iky ikx (f u v)))) (fun _ => hret k)).

  (** imagef/post/convolution.go:101-124; the constant 1/math.Sqrt2 *)
  Definition starBody (pixels : Z) (k : image) (i : Z) : hact unit :=
    let s := #(pixels - i) / #pixels in
    let v := s * s in
    let col := Color v v v in
    let c := pixels in
    hbind (setPix k c (c + i) col) (fun _ =>
    hbind (setPix k c (c - i) col) (fun _ =>
    hbind (setPix k (c + i) c col) (fun _ =>
    hbind (setPix k (c - i) c col) (fun _ =>
    let col := clmul col (nsqrt (nQ 1 2)) in
    hbind (setPix k (c + i) (c + i) col) (fun _ =>
    hbind (setPix k (c - i) (c - i) col) (fun _ =>
    hbind (setPix k (c + i) (c - i) col) (fun _ =>
    setPix k (c - i) (c + i) col))))))).
  Definition starKernel (pixels : Z) : hact image :=
    let n := wrap64 (2 * pixels + 1) in
    hbind (makeImage black n n) (fun k =>
    hbind (hfor (Z.to_nat (pixels - 1 - 2)) 2 (fun i _ => starBody pixels k i) tt) (fun _ => hret k)).

  Context `{TF : Trig F}.
  (** math.J1 *)
  Variable bessel1 : F -> F.

  (** imagef/post/convolution.go:62-68 *)
  Definition gaussianAt (width u v : F) : color F :=
    let r2 := (u * u + v * v) / (width * width) in
    let c := nexp (- r2) in Color c c c.
  Definition gaussian (pixels : Z) (width : F) : hact image := kernel pixels (gaussianAt width).
  (** imagef/post/convolution.go:83-85 *)
  Definition airy1 (r : F) : F := let x := #2 * bessel1 r / r in x * x.
  (** imagef/post/convolution.go:70-81; constants 500/700, 500/500 and 500/450 *)
  Definition airyAt (width u v : F) : color F :=
    let r := nsqrt (u * u + v * v) / width in
    if r =? #0 then Color #1 #1 #1 else
    Color (airy1 (nQ 500 700 * r)) (airy1 (#1 * r)) (airy1 (nQ 500 450 * r)).
  Definition airy (pixels : Z) (width : F) : hact image := kernel pixels (airyAt width).

  (** imagef/post/params.go:6-16 *)
  Record bloomParams : Type := Bloom { bpRadius : F; bpAmplitude : F; bpThreshold : F }.
  Record postParams : Type := PostParams { ppGaussian : bloomParams; ppAiry : bloomParams; ppStar : bloomParams }.

  (** imagef/post/params.go:31-56: the kernel, then a copy, then the convolution *)
  Definition bloomWith (K : hact image) (img : image) (b : bloomParams) : hact image :=
    hbind K (fun K =>
    hbind (copyImage black img) (fun img2 =>
    hbind (addConvolution img2 img K (bpAmplitude b) (bpThreshold b)) (fun _ => hret img2))).
  Definition applyGaussianBloom (img : image) (pixelSize : F) (b : bloomParams) : hact image :=
    let widthPix := bpRadius b / pixelSize in
    bloomWith (gaussian (wrap64 (ntrunc (#5 * widthPix)%num + 1)) widthPix) img b.
  Definition applyAiryBloom (img : image) (pixelSize : F) (b : bloomParams) : hact image :=
    let widthPix := bpRadius b / pixelSize in
    bloomWith (airy (wrap64 (ntrunc (#8 * widthPix)%num + 1)) widthPix) img b.
  Definition applyStarBloom (img : image) (pixelSize : F) (b : bloomParams) : hact image :=
    bloomWith (starKernel (ntrunc (bpRadius b / pixelSize))) img b.
  (** imagef/post/params.go:18-29 *)
  Definition applyTo (p : postParams) (img : image) (pixelSize : F) : hact image :=
    hbind (if negb (bpRadius (ppGaussian p) =? #0) then applyGaussianBloom img pixelSize (ppGaussian p) else hret img) (fun img =>
    hbind (if negb (bpRadius (ppAiry p) =? #0) then applyAiryBloom img pixelSize (ppAiry p) else hret img) (fun img =>
    if negb (bpRadius (ppStar p) =? #0) then applyStarBloom img pixelSize (ppStar p) else hret img)).
End Post.
Arguments bloomParams F : clear implicits.
Arguments postParams F : clear implicits.

(** ** Loading, imagef/load.go:37-53 *)
Section Load.
  Context {F : Type} `{NF : Num F}.
  Local Open Scope num_scope.
  (** [at_ x y] is what image.Decode's result returns for At(x, y).RGBA(), without alpha *)
  Definition loadImage (w h : Z) (at_ : Z -> Z -> Z * Z * Z) (colorspace : F -> F) : hact (color F) image :=
    hbind (makeImage black w h) (fun img =>
    hbind (hloop h (fun y => hloop w (fun x =>
      let '(r, g, b) := at_ x y in
      let Y := (h - 1 - y)%Z in
      setPix img Y x (Color (colorspace (#r / #65535)) (colorspace (#g / #65535)) (colorspace (#b / #65535)))))) (fun _ =>
    hret img)).
End Load.

(** ** Package imagef/ppm *)
Section Digits.
  Local Open Scope Z_scope.
  (** decimal digits as fmt prints an int; bytes are integers *)
  Fixpoint digitsLoop (fuel : nat) (z : Z) (acc : list Z) : list Z :=
    match fuel with
    | O => acc
    | S n => if z <? 10 then (48 + z) :: acc else digitsLoop n (z / 10) ((48 + z mod 10) :: acc)
    end.
  Definition digits (z : Z) : list Z := digitsLoop (S (Z.to_nat (Z.log2 z))) z nil.
  Definition fmtInt (z : Z) : list Z := if z <? 0 then 45 :: digits (- z) else digits z.
  Definition space : Z := 32.
  Definition newline : Z := 10.
End Digits.

Section Ppm.
  Context {F : Type} `{NF : Num F} `{TF : Trig F}.
  Local Open Scope num_scope.

  (** imagef/ppm/ppm.go:72-82 *)
  Definition trunc16 (c : F) : Z :=
    let c := linearToSRGB c in
    let i := ntrunc (c * #65535) in
    let i := if (65535 <? i)%Z then 65535%Z else i in
    if (i <? 0)%Z then 0%Z else i.

  (** imagef/colorf/color.go:47-52; converting a float64 to uint32 goes through int64 on amd64 *)
  Definition rgba (c : color F) : Z * Z * Z * Z :=
    let chan (x : F) := (ntrunc (linearToSRGB x * #65535)%num mod 2 ^ 32)%Z in
    (chan (cR c), chan (cG c), chan (cB c), 65535%Z).

  (** an io.Writer: the state after writing some bytes, and whether an error was returned *)
  Context {W : Type} (write : list Z -> W -> bool * W).

  Definition wact : Type := W -> bool * W.         (* true: non-nil error returned *)
  Definition wok : wact := fun w => (false, w).
  (** if err := a; err != nil { return err }; b *)
  Definition wthen (a b : wact) : wact := fun w => let '(e, w) := a w in if e then (true, w) else b w.
  (** a (error dropped); b *)
  Definition wdrop (a b : wact) : wact := fun w => let '(_, w) := a w in b w.
  (** for _, a := range l { if err := f(a); err != nil { return err } } *)
  Fixpoint weach {A} (f : A -> wact) (l : list A) : wact :=
    match l with nil => wok | a :: rest => wthen (f a) (weach f rest) end.

  (** rows of the image; len(img[0]) of an image without rows is 0, image.go:28-33 *)
  Definition rowsSize (img : list (list (color F))) : Z * Z :=
    match img with nil => (0, 0)%Z | row :: _ => (Z.of_nat (length row), Z.of_nat (length img)) end.

  (** imagef/ppm/ppm.go:59-70; each Fprintln is one call of Write; [fmt] is the digit 3 or 6 *)
  Definition writeHeader (fmt : Z) (img : list (list (color F))) : wact :=
    let '(dx, dy) := rowsSize img in
    wthen (write [80; 48 + fmt; newline]%Z)
    (wthen (write (fmtInt dx ++ [space] ++ fmtInt dy ++ [newline]))
    (write (fmtInt 65535 ++ [newline]))).

  (** imagef/ppm/ppm.go:15-31. Fprint adds no spaces between a number and a string. *)
  Definition asciiPixel (c : color F) : list Z :=
    fmtInt (trunc16 (cR c)) ++ [space] ++ fmtInt (trunc16 (cG c)) ++ [space] ++ fmtInt (trunc16 (cB c)) ++ [space].
  Definition encodeAscii16 (img : list (list (color F))) : wact :=
    wthen (writeHeader 3 img)
      (weach (fun row => wthen (weach (fun c => write (asciiPixel c)) row) (write [newline])) img).

  (** imagef/ppm/ppm.go:54-57, with the conversion to uint16 *)
  Definition uint16BE (z : Z) : list Z := let x := (z mod 2 ^ 16)%Z in [(x / 2 ^ 8) mod 2 ^ 8; x mod 2 ^ 8]%Z.
  (** imagef/ppm/ppm.go:33-52; the errors of Write are dropped *)
  Definition encode48BE (img : list (list (color F))) : wact :=
    wthen (writeHeader 6 img)
      (weach (fun row =>
         weach (fun c =>
           wdrop (write (uint16BE (trunc16 (cR c))))
           (wdrop (write (uint16BE (trunc16 (cG c))))
           (wdrop (write (uint16BE (trunc16 (cB c)))) wok))) row) img).
End Ppm.
