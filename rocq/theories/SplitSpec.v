(** * How a bounding volume hierarchy divides its objects (C119) *)
From Coq Require Import ZArith Bool List Sorting.Sorted Permutation.
From Flocq Require IEEE754.BinarySingleNaN.
Import IEEE754.BinarySingleNaN.
From Verif Require Import Num Outcome GeomModel ObjModel TreeModel ObjSpec.
Import ListNotations.

(** what sort.Slice asks of [less], and what it then does *)
Definition ordering {A : Type} (less : A -> A -> bool) (l : list A) : Prop :=
  (forall a, In a l -> less a a = false) /\
  (forall a b c, In a l -> In b l -> In c l -> less a b = true -> less b c = true -> less a c = true) /\
  (forall a b c, In a l -> In b l -> In c l -> less a b = false -> less b c = false -> less a c = false).
Definition sorts {A : Type} (sortSlice : (A -> A -> bool) -> list A -> list A) : Prop :=
  forall less l, Permutation (sortSlice less l) l /\
    (ordering less l -> StronglySorted (fun a b => less b a = false) (sortSlice less l)).

Section Split.
  Context {M : Type}.

  (** [x] is the least (the greatest) coordinate of the boxes of [os] *)
  Definition coordinate (os : list (object b64 M)) (d : axis) (x : b64) : Prop :=
    exists o b, In o os /\ oBounds o = Val b /\ (x = vget (bMin b) d \/ x = vget (bMax b) d).
  Definition least (os : list (object b64 M)) (d : axis) (x : b64) : Prop :=
    coordinate os d x /\ forall y, coordinate os d y -> nleb x y = true.
  Definition greatest (os : list (object b64 M)) (d : axis) (x : b64) : Prop :=
    coordinate os d x /\ forall y, coordinate os d y -> nleb y x = true.
  (** the length they cover together *)
  Definition covers (os : list (object b64 M)) (d : axis) (s : b64) : Prop :=
    exists lo hi, least os d lo /\ greatest os d hi /\ s = nsub hi lo.
  Definition longest (os : list (object b64 M)) (d : axis) : Prop :=
    exists s, covers os d s /\ is_nan s = false /\ forall e, exists s', covers os e s' /\ nleb s' s = true.

  (** the centre of the box of [a] (doubled) is not beyond that of [b] *)
  Definition not_beyond (d : axis) (a b : object b64 M) : Prop :=
    exists ba bb, oBounds a = Val ba /\ oBounds b = Val bb /\
      nleb (nadd (vget (bMin ba) d) (vget (bMax ba) d)) (nadd (vget (bMin bb) d) (vget (bMax bb) d)) = true.

  (** half of the objects on each side of a plane across the longest extent *)
  Definition halves (l r : list (object b64 M)) : Prop :=
    (length l <= length r <= S (length l))%nat /\
    exists d, longest (l ++ r) d /\ forall a b, In a l -> In b r -> not_beyond d a b.

  Definition finite_box (o : object b64 M) : Prop :=
    exists b, oBounds o = Val b /\ forall d, is_finite (vget (bMin b) d) = true /\ is_finite (vget (bMax b) d) = true.
End Split.
