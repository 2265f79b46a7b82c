(** * Solids of many parts *)
From Coq Require Import ZArith Reals Bool List.
From Verif Require Import Num Outcome GeomModel GeomSpec ObjModel ObjSpec SolidProofs CsgSpec FenceProofs CsgTrees B64.
Import ListNotations.
Local Open Scope R_scope.

(** ** C153: slices of a beam along the x axis, half a unit or more apart, united and cut with another slice none of
    whose ends is an end of theirs: a ray along the axis that passes through the result need not hit it, because
    marching gives up after a hundred crossings *)
Theorem C153_solids_of_many_parts_are_seen_refuted :
  ~ (forall (x : b64 * b64) (xs : list (b64 * b64)) (y : b64 * b64) (t : b64),
      spread (ends (x :: xs)) = true -> spread (ends [y]) = true ->
      existsb (fun e => existsb (neqb e) (ends [y])) (ends (x :: xs)) = false ->
      nltb (nofZ 0) t = true ->
      oInside (cAnd (slices x xs) (slice y)) (rayAt alongX t) = Val true ->
      oInside (cAnd (slices x xs) (slice y)) (rStart alongX) = Val false ->
      exists h r', oIntersect (cAnd (slices x xs) (slice y)) alongX = Val (h, r') /\ nltb (nofZ 0) (hT h) = true).
Proof. exact fence_gap. Qed.
Print Assumptions C153_solids_of_many_parts_are_seen_refuted.

(** with up to 49 blocks, wherever they are, it does (exact arithmetic) *)
Theorem C153_solids_of_few_parts_are_seen :
  forall (M : Type) (NI : NumInf R) (x : option M * pt * pt) (xs : list (option M * pt * pt)) (m : option M) (lo hi s d : pt),
    (length xs <= 48)%nat -> (forall y, In y (x :: xs) -> ordered (snd (fst y)) (snd y)) -> ordered lo hi -> slanted d ->
    let a := Meet (fence x xs) (Block m lo hi) in
    ~ skin a s ->
    (forall t t', skin a (along s d t) -> skin a (along s d t') -> t < t' -> t + tiny < t') ->
    (forall t, skin a (along s d t) -> t < ninf) -> apart a s d ->
    exists h, oIntersect (build a) (Ray s d) = Val (h, Ray s d) /\
      forall t, 0 < t -> ~ (within a (along s d t) <-> within a s) -> 0 < hT h <= t.
Proof. exact @fence_seen. Qed.
Print Assumptions C153_solids_of_few_parts_are_seen.

(** five slices, the last one kept: it is seen at x = 8 *)
Example C153_example :
  match oIntersect (cAnd (slices (nofZ 0, nofZ 1) (pickets 4)) (slice (nQ 15 2, nofZ 20))) alongX with
  | Val (h, _) => (nltb (nQ 12999 1000) (hT h) && nltb (hT h) (nQ 13001 1000))%bool | _ => false end = true.
Proof. vm_compute. reflexivity. Qed.
