(** * What placing an object should mean *)
From Coq Require Import ZArith Reals Bool List.
From Verif Require Import Num Outcome GeomModel GeomSpec ObjModel ObjSpec.
Local Open Scope R_scope.

(** centre of a box *)
Definition mid (lo hi : pt) : pt := scal3 (1 / 2) (plus3 lo hi).
(** box of the given centre and half sides *)
Definition around (c e : pt) : bbox xr := xbox (minus3 c e) (plus3 c e).
Definition abs3 (v : pt) : pt := Vec (Rabs (vx v)) (Rabs (vy v)) (Rabs (vz v)).

(** objects with a finite box, and everything that comes from them by invertible transforms *)
Inductive placeable {M} : object xr M -> Prop :=
| P_base o lo hi : oTransf o = None -> oBounds o = Val (xbox lo hi) -> ordered lo hi -> placeable o
| P_move o t o' : placeable o -> det3 (afA t) <> 0 -> transformed o (xaff t) = Val o' -> placeable o'.

(** rigid motions: no distance changes *)
Definition rigid (t : affine R) : Prop := forall p q, dist (transformPoint t p) (transformPoint t q) = dist p q.
(** [o] is [base] after any number of rigid motions *)
Inductive displaced {M} (base : object xr M) : object xr M -> Prop :=
| D_base : displaced base base
| D_move o t o' : displaced base o -> rigid t -> transformed o (xaff t) = Val o' -> displaced base o'.

(** trigonometric functions of the extended reals: exact for finite numbers *)
Definition xfun (f : R -> R) (x : xr) : xr := match x with XF a => XF (f a) | _ => XNaN end.
Definition TrigX : Trig xr := {|
  npi := XF PI; nsin := xfun sin; ncos := xfun cos; ntan := xfun tan; nexp := xfun exp; nlog := xfun ln;
  npow := fun x y => match x, y with XF a, XF b => XF (Rpower a b) | _, _ => XNaN end |}.

(** the middle of an interval *)
Inductive halfway : xr -> xr -> xr -> Prop :=
| halfway_bounded a b : halfway (XF a) (XF b) (XF ((a + b) / 2))
| halfway_everywhere : halfway XN XP (XF 0)
| halfway_up a : halfway (XF a) XP XP
| halfway_down b : halfway XN (XF b) XN.
Definition lower_end (x : xr) : Prop := x = XN \/ exists r, x = XF r.
Definition upper_end (x : xr) : Prop := x = XP \/ exists r, x = XF r.
