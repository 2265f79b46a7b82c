(** * Fences: many blocks in a row, cut with another block *)
From Coq Require Import ZArith Reals Bool List Lra Lia.
From Verif Require Import Num Outcome GeomModel GeomSpec ObjModel ObjSpec PrimProofs SolidProofs CsgSpec CsgTrees B64.
Import ListNotations.

(** ** Double precision: slices of the beam |y| < 1, |z| < 1 *)
Definition slice (x : b64 * b64) : object b64 unit :=
  boxWithBounds None (Vec (fst x) (nofZ (-1)) (nofZ (-1))) (Vec (snd x) (nofZ 1) (nofZ 1)).
Definition slices (x : b64 * b64) (xs : list (b64 * b64)) : object b64 unit := fold_left (fun o y => cOr o (slice y)) xs (slice x).
Definition ends (xs : list (b64 * b64)) : list b64 := flat_map (fun x => [fst x; snd x]) xs.
(** in increasing order, at least 1/2 apart *)
Fixpoint spread (xs : list b64) : bool :=
  match xs with
  | x :: (y :: _) as r => nleb (nadd x (nQ 1 2)) y && spread r
  | _ => true
  end.
Definition pickets (n : nat) : list (b64 * b64) := map (fun i => (nofZ (2 * Z.of_nat i), nofZ (2 * Z.of_nat i + 1))) (seq 1 n).
Definition alongX : ray b64 := Ray (Vec (nofZ (-5)) (nQ 1 8) (nQ 1 4)) (Vec (nofZ 1) (nofZ 0) (nofZ 0)).
Definition isVal (b : bool) (o : outcome bool) : bool := match o with Val x => Bool.eqb x b | _ => false end.
Definition seesAt (t : b64) (o : object b64 unit) : bool := match oIntersect o alongX with Val (h, _) => neqb (hT h) t | _ => false end.

Lemma isVal_eq b o : isVal b o = true -> o = Val b.
Proof. destruct o as [x| |]; cbn; try discriminate. intros H. apply Bool.eqb_prop in H. now subst. Qed.

Lemma fence_zero (t : b64) : neqb t (nofZ 0) = true -> nltb (nofZ 0) t = true -> False.
Proof. destruct t as [[]|[]| |[] m e B]; vm_compute; discriminate. Qed.

Lemma fence_spread : spread (ends ((nofZ 0, nofZ 1) :: pickets 50)) = true.
Proof. vm_compute. reflexivity. Qed.
Lemma fence_inside : oInside (cAnd (slices (nofZ 0, nofZ 1) (pickets 50)) (slice (nQ 199 2, nofZ 200))) (rayAt alongX (nQ 211 2)) = Val true.
Proof. apply isVal_eq. vm_compute. reflexivity. Qed.
Lemma fence_outside : oInside (cAnd (slices (nofZ 0, nofZ 1) (pickets 50)) (slice (nQ 199 2, nofZ 200))) (rStart alongX) = Val false.
Proof. apply isVal_eq. vm_compute. reflexivity. Qed.
Lemma fence_unseen : seesAt (nofZ 0) (cAnd (slices (nofZ 0, nofZ 1) (pickets 50)) (slice (nQ 199 2, nofZ 200))) = true.
Proof. vm_compute. reflexivity. Qed.
Lemma seesAt_zero o h r' : seesAt (nofZ 0) o = true -> oIntersect o alongX = Val (h, r') -> nltb (nofZ 0) (hT h) = true -> False.
Proof. unfold seesAt. intros A E. rewrite E in A. exact (fence_zero (hT h) A). Qed.

Theorem fence_gap :
  ~ (forall (x : b64 * b64) (xs : list (b64 * b64)) (y : b64 * b64) (t : b64),
      spread (ends (x :: xs)) = true -> spread (ends [y]) = true ->
      existsb (fun e => existsb (neqb e) (ends [y])) (ends (x :: xs)) = false ->
      nltb (nofZ 0) t = true ->
      oInside (cAnd (slices x xs) (slice y)) (rayAt alongX t) = Val true ->
      oInside (cAnd (slices x xs) (slice y)) (rStart alongX) = Val false ->
      exists h r', oIntersect (cAnd (slices x xs) (slice y)) alongX = Val (h, r') /\ nltb (nofZ 0) (hT h) = true).
Proof.
  intros H.
  destruct (H (nofZ 0, nofZ 1) (pickets 50) (nQ 199 2, nofZ 200) (nQ 211 2) fence_spread) as (h & r' & E & P).
  - vm_compute. reflexivity.
  - vm_compute. reflexivity.
  - vm_compute. reflexivity.
  - exact fence_inside.
  - exact fence_outside.
  - exact (seesAt_zero _ h r' fence_unseen E P).
Qed.

(** ** Exact arithmetic: up to 49 blocks and the one they are cut with *)
Local Open Scope R_scope.
Section Fence.
  Context {M : Type} {NI : NumInf R}.
  Definition fence (x : option M * pt * pt) (xs : list (option M * pt * pt)) : solid M :=
    fold_left (fun o y => Join o (Block (fst (fst y)) (snd (fst y)) (snd y))) xs (Block (fst (fst x)) (snd (fst x)) (snd x)).

  Lemma fence_parts xs : forall o : solid M, parts (fold_left (fun o (y : option M * pt * pt) => Join o (Block (fst (fst y)) (snd (fst y)) (snd y))) xs o) = (parts o + length xs)%nat.
  Proof. induction xs as [|y xs IH]; intros o; cbn [fold_left length]; [lia|]. rewrite IH. cbn [parts]. lia. Qed.
  Lemma fence_proper xs : forall o : solid M, proper o -> (forall y, In y xs -> ordered (snd (fst y)) (snd y)) ->
    proper (fold_left (fun o (y : option M * pt * pt) => Join o (Block (fst (fst y)) (snd (fst y)) (snd y))) xs o).
  Proof.
    induction xs as [|y xs IH]; intros o P H; cbn [fold_left]; [exact P|]. apply IH.
    - split; [exact P|]. apply H. left. reflexivity.
    - intros z I. apply H. right. exact I.
  Qed.

  Lemma fence_fair d : slanted d -> forall xs (o : solid M), fair o d -> 
    fair (fold_left (fun o (y : option M * pt * pt) => Join o (Block (fst (fst y)) (snd (fst y)) (snd y))) xs o) d.
  Proof.
    intros SD. induction xs as [|y xs IH]; intros o P; cbn [fold_left]; [exact P|]. apply IH. split; [exact P|exact SD].
  Qed.

  Theorem fence_seen x xs (m : option M) lo hi s d :
    (length xs <= 48)%nat -> (forall y, In y (x :: xs) -> ordered (snd (fst y)) (snd y)) -> ordered lo hi -> slanted d ->
    let a := Meet (fence x xs) (Block m lo hi) in
    ~ skin a s ->
    (forall t t', skin a (along s d t) -> skin a (along s d t') -> t < t' -> t + tiny < t') ->
    (forall t, skin a (along s d t) -> t < ninf) -> apart a s d ->
    exists h, oIntersect (build a) (Ray s d) = Val (h, Ray s d) /\
      forall t, 0 < t -> ~ (within a (along s d t) <-> within a s) -> 0 < hT h <= t.
  Proof.
    intros L O OB SD a N G F A.
    destruct (solid_not_missed a s d) as (h & E & H); auto.
    - split; [|exact OB]. apply fence_proper; [apply (O x); left; reflexivity|]. intros y I. apply O. right. exact I.
    - split; [|exact SD]. apply fence_fair; exact SD.
    - unfold a. cbn [parts]. unfold fence. rewrite fence_parts. cbn [parts]. lia.
    - exists h. split; [exact E|]. intros t T D. exact (proj1 (H t T D)).
  Qed.
End Fence.
