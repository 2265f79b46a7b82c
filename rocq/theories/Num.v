(** * Number operations

    Every floating-point computation of /repo is modelled by a function that is
    polymorphic in the record [Num F] below; the functions are then read at three
    instances:
    - [R]   : exact real arithmetic (no rounding, no Inf/NaN);
    - [xr]  : exact real arithmetic extended with +Inf, -Inf and NaN, following the
              IEEE-754 rules; there is only one (unsigned, "+") zero;
    - [b64] : IEEE-754 binary64 with round-to-nearest-even, i.e. Go's float64
              (NaN payloads are not distinguished).

    Only definitions in this file; facts about them are in NumLaws.v. *)
From Coq Require Import ZArith Reals Bool List.
From Flocq Require Import Core.
From Flocq Require IEEE754.BinarySingleNaN.
Import IEEE754.BinarySingleNaN.

(** ** The operations of Go's float64 used by the code *)
Class Num (F : Type) : Type := {
  nofZ   : Z -> F;              (* conversion float64(i); also exact constants *)
  nadd   : F -> F -> F;         (* x + y *)
  nsub   : F -> F -> F;         (* x - y *)
  nmul   : F -> F -> F;         (* x * y *)
  ndiv   : F -> F -> F;         (* x / y *)
  nopp   : F -> F;              (* -x *)
  nsqrt  : F -> F;              (* math.Sqrt *)
  nabs   : F -> F;              (* math.Abs *)
  nfloor : F -> F;              (* math.Floor *)
  ntrunc : F -> Z;              (* conversion int(x) *)
  nltb   : F -> F -> bool;      (* x < y  *)
  nleb   : F -> F -> bool;      (* x <= y *)
  neqb   : F -> F -> bool;      (* x == y *)
  nisnan : F -> bool            (* math.IsNaN *)
}.

(** Number types with an infinity (math.Inf(1)). *)
Class NumInf (F : Type) : Type := { ninf : F }.

Declare Scope num_scope.
Delimit Scope num_scope with num.
Infix "+" := nadd : num_scope.
Infix "-" := nsub : num_scope.
Infix "*" := nmul : num_scope.
Infix "/" := ndiv : num_scope.
Notation "- x" := (nopp x) : num_scope.
Infix "<?" := nltb : num_scope.
Infix "<=?" := nleb : num_scope.
Infix "=?" := neqb : num_scope.
Notation "x >? y" := (nltb y x) : num_scope.
Notation "x >=? y" := (nleb y x) : num_scope.
Notation "# z" := (nofZ z%Z) (at level 1, format "# z") : num_scope.

(** Go's untyped constants are exact and rounded once when converted to float64;
    [nQ a b] is the constant a/b: one correctly rounded division of two exact integers. *)
Definition nQ {F} `{Num F} (a b : Z) : F := ndiv (nofZ a) (nofZ b).
Definition nhalf {F} `{Num F} : F := nQ 1 2.

(** ** Instance: real numbers *)
Definition Rltb (x y : R) : bool := if Rlt_dec x y then true else false.
Definition Rleb (x y : R) : bool := if Rle_dec x y then true else false.
Definition Reqb (x y : R) : bool := if Req_EM_T x y then true else false.

#[export] Instance NumR : Num R := {
  nofZ := IZR;
  nadd := Rplus;
  nsub := Rminus;
  nmul := Rmult;
  ndiv := Rdiv;
  nopp := Ropp;
  nsqrt := R_sqrt.sqrt;
  nabs := Rabs;
  nfloor := fun x => IZR (Zfloor x);
  ntrunc := Ztrunc;
  nltb := Rltb;
  nleb := Rleb;
  neqb := Reqb;
  nisnan := fun _ => false
}.

(** ** Instance: extended reals *)
Inductive xr : Type := XF (r : R) | XP | XN | XNaN.

(** sign of a real: -1, 0, 1 *)
Definition Rsgn (x : R) : comparison := Rcompare x 0.

Definition xopp (x : xr) : xr :=
  match x with XF a => XF (- a) | XP => XN | XN => XP | XNaN => XNaN end.

Definition xadd (x y : xr) : xr :=
  match x, y with
  | XNaN, _ | _, XNaN => XNaN
  | XF a, XF b => XF (a + b)
  | XP, XN | XN, XP => XNaN
  | XP, _ | _, XP => XP
  | XN, _ | _, XN => XN
  end.

Definition xsub (x y : xr) : xr := xadd x (xopp y).

(** infinity with the sign of a comparison with zero; NaN for zero *)
Definition xinf_of (c : comparison) : xr :=
  match c with Gt => XP | Lt => XN | Eq => XNaN end.

Definition xsgn (x : xr) : comparison :=
  match x with XF a => Rsgn a | XP => Gt | XN => Lt | XNaN => Eq end.

Definition cmul (c d : comparison) : comparison :=
  match c with Eq => Eq | Gt => d | Lt => CompOpp d end.

Definition xmul (x y : xr) : xr :=
  match x, y with
  | XNaN, _ | _, XNaN => XNaN
  | XF a, XF b => XF (a * b)
  | _, _ => xinf_of (cmul (xsgn x) (xsgn y))
  end.

Definition xdiv (x y : xr) : xr :=
  match x, y with
  | XNaN, _ | _, XNaN => XNaN
  | XF a, XF b => if Req_EM_T b 0 then xinf_of (Rsgn a) else XF (a / b)
  | XF _, _ => XF 0
  | _, XF b => if Rle_dec 0 b then x else xopp x
  | _, _ => XNaN
  end.

Definition xsqrt (x : xr) : xr :=
  match x with
  | XF a => if Rlt_dec a 0 then XNaN else XF (R_sqrt.sqrt a)
  | XP => XP | XN => XNaN | XNaN => XNaN
  end.

Definition xabs (x : xr) : xr :=
  match x with XF a => XF (Rabs a) | XP | XN => XP | XNaN => XNaN end.

Definition xfloor (x : xr) : xr :=
  match x with XF a => XF (IZR (Zfloor a)) | _ => x end.

(** int(x): on amd64 NaN and out-of-range values convert to -2^63 *)
Definition int_min : Z := (- 2 ^ 63)%Z.
Definition clamp_int64 (z : Z) : Z :=
  if ((int_min <=? z) && (z <? 2 ^ 63))%Z%bool then z else int_min.

Definition xtrunc (x : xr) : Z :=
  match x with XF a => clamp_int64 (Ztrunc a) | _ => int_min end.

Definition xltb (x y : xr) : bool :=
  match x, y with
  | XNaN, _ | _, XNaN => false
  | XF a, XF b => Rltb a b
  | XN, XN => false | XN, _ => true
  | _, XN => false
  | XP, _ => false
  | XF _, XP => true
  end.

Definition xeqb (x y : xr) : bool :=
  match x, y with
  | XF a, XF b => Reqb a b
  | XP, XP | XN, XN => true
  | _, _ => false
  end.

Definition xleb (x y : xr) : bool := xltb x y || xeqb x y.

#[export] Instance NumX : Num xr := {
  nofZ := fun z => XF (IZR z);
  nadd := xadd;
  nsub := xsub;
  nmul := xmul;
  ndiv := xdiv;
  nopp := xopp;
  nsqrt := xsqrt;
  nabs := xabs;
  nfloor := xfloor;
  ntrunc := xtrunc;
  nltb := xltb;
  nleb := xleb;
  neqb := xeqb;
  nisnan := fun x => match x with XNaN => true | _ => false end
}.

#[export] Instance NumInfX : NumInf xr := { ninf := XP }.

(** ** Instance: IEEE-754 binary64 *)
Definition b64 : Type := binary_float 53 1024.
#[export] Instance Hprec64 : FLX.Prec_gt_0 53 := eq_refl.
#[export] Instance Hmax64 : Prec_lt_emax 53 1024 := eq_refl.

Definition b64_of_Z (z : Z) : b64 := binary_normalize 53 1024 Hprec64 Hmax64 mode_NE z 0 false.
(** m * 2^e, rounded *)
Definition b64_of_bin (m e : Z) : b64 := binary_normalize 53 1024 Hprec64 Hmax64 mode_NE m e false.

Definition b64_trunc (x : b64) : Z :=
  match x with
  | B754_finite _ _ _ _ => clamp_int64 (Btrunc x)
  | B754_zero _ => 0%Z
  | _ => int_min
  end.

#[export] Instance NumB : Num b64 := {
  nofZ := b64_of_Z;
  nadd := Bplus mode_NE;
  nsub := Bminus mode_NE;
  nmul := Bmult mode_NE;
  ndiv := Bdiv mode_NE;
  nopp := Bopp;
  nsqrt := Bsqrt mode_NE;
  nabs := Babs;
  nfloor := Bnearbyint mode_DN;
  ntrunc := b64_trunc;
  nltb := Bltb;
  nleb := Bleb;
  neqb := Beqb;
  nisnan := is_nan
}.

#[export] Instance NumInfB : NumInf b64 := { ninf := B754_infinity false }.

(** float32 rounding of a float64 and back: float64(float32(x)) *)
#[export] Instance Hprec32 : FLX.Prec_gt_0 24 := eq_refl.
#[export] Instance Hmax32 : Prec_lt_emax 24 128 := eq_refl.

Definition b64_to_b32 (x : b64) : binary_float 24 128 :=
  match x with
  | B754_zero s => B754_zero s
  | B754_infinity s => B754_infinity s
  | B754_nan => B754_nan
  | B754_finite s m e _ => binary_normalize 24 128 Hprec32 Hmax32 mode_NE (cond_Zopp s (Zpos m)) e s
  end.

Definition b32_to_b64 (x : binary_float 24 128) : b64 :=
  match x with
  | B754_zero s => B754_zero s
  | B754_infinity s => B754_infinity s
  | B754_nan => B754_nan
  | B754_finite s m e _ => binary_normalize 53 1024 Hprec64 Hmax64 mode_NE (cond_Zopp s (Zpos m)) e s
  end.

(** ** Transcendental functions (only the exact instance) *)
Class Trig (F : Type) : Type := {
  npi  : F;             (* math.Pi *)
  nsin : F -> F;        (* math.Sin *)
  ncos : F -> F;        (* math.Cos *)
  ntan : F -> F;        (* math.Tan *)
  nexp : F -> F;        (* math.Exp *)
  nlog : F -> F;        (* math.Log *)
  npow : F -> F -> F    (* math.Pow on a positive base *)
}.

#[export] Instance TrigR : Trig R := {
  npi := PI;
  nsin := sin;
  ncos := cos;
  ntan := tan;
  nexp := exp;
  nlog := ln;
  npow := Rpower
}.

(** Reduce the operations at the exact instance to the standard library's names. *)
Ltac rnum :=
  cbn [nofZ nadd nsub nmul ndiv nopp nsqrt nabs nfloor ntrunc nltb nleb neqb nisnan NumR
       npi nsin ncos ntan nexp nlog npow TrigR] in *.
