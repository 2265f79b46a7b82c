(** * What it means that an image shows certain pixels *)
From Coq Require Import ZArith Reals Bool List.
From Verif Require Import Num Outcome ColorModel ImageModel.
Import ListNotations.
Local Open Scope Z_scope.

Section Spec.
  Context {A : Type}.

  Definition inside (w h y x : Z) : Prop := 0 <= y < h /\ 0 <= x < w.

  (** [img] has h rows of w pixels, and reading img[y][x] gives [f y x] *)
  Definition shows (H : heap A) (img : image) (w h : Z) (f : Z -> Z -> A) : Prop :=
    Z.of_nat (length img) = h /\ Forall (fun row => slLen row = w) img /\
    forall y x, inside w h y x -> getPix img y x H = Val (f y x, H).

  (** a program that writes the given pixels, in order *)
  Fixpoint writes (img : image) (l : list (Z * Z * A)) : hact A unit :=
    match l with
    | nil => hret tt
    | (y, x, a) :: rest => hbind (setPix img y x a) (fun _ => writes img rest)
    end.
  (** the value last written to (y, x), if any *)
  Fixpoint last_write (l : list (Z * Z * A)) (y x : Z) (before : A) : A :=
    match l with
    | nil => before
    | (y', x', a) :: rest => last_write rest y x (if (y' =? y) && (x' =? x) then a else before)
    end.
  (** every array of [H] has the same contents in [H'] *)
  Definition keeps (H H' : heap A) : Prop := forall b, (b < length H)%nat -> nth_error H' b = nth_error H b.
End Spec.

(** sums over pixels *)
Local Open Scope R_scope.
Fixpoint sum_to (n : nat) (f : Z -> R) : R :=
  match n with O => 0 | S n => sum_to n f + f (Z.of_nat n) end.
Definition sum_pixels (w h : Z) (f : Z -> Z -> R) : R :=
  sum_to (Z.to_nat h) (fun y => sum_to (Z.to_nat w) (fun x => f y x)).
Definition insideb (w h y x : Z) : bool := ((0 <=? y) && (y <? h) && (0 <=? x) && (x <? w))%Z%bool.

(** brightness above a threshold *)
Definition above (threshold c : R) : R := Rmax (c - threshold) 0.

(** The convolution of the part of [src] above the threshold with the kernel, whose centre is
    pixel (kh/2, kw/2), scaled by [amplitude / total]; source pixels outside the image are dark. *)
Definition convolved (w h : Z) (src : Z -> Z -> R) (threshold : R)
    (kw kh : Z) (kern : Z -> Z -> R) (amplitude total : R) (y x : Z) : R :=
  sum_pixels w h (fun iy ix =>
    let ky := (y - iy + kh / 2)%Z in
    let kx := (x - ix + kw / 2)%Z in
    if insideb kw kh ky kx then above threshold (src iy ix) * (kern ky kx * (amplitude / total)) else 0).
(** sum of the kernel, averaged over the colour channels *)
Definition kernel_total (kw kh : Z) (kern : Z -> Z -> color R) : R :=
  sum_pixels kw kh (fun y x => (cR (kern y x) + cG (kern y x) + cB (kern y x)) / 3).

(** one of the three color channels *)
Definition channel (ch : color R -> R) : Prop := ch = cR \/ ch = cG \/ ch = cB.

(** finite colors, and images of finite colors *)
Definition injc (c : color R) : color xr := Color (XF (cR c)) (XF (cG c)) (XF (cB c)).
Definition injf (f : Z -> Z -> color R) : Z -> Z -> color xr := fun y x => injc (f y x).
