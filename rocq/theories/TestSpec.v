(** * Vocabulary: how much pictures differ *)
From Coq Require Import ZArith Reals List.
From Verif Require Import GeomModel GeomSpec ColorModel TestModel.
Local Open Scope R_scope.

(** f 0 + ... + f (n - 1) *)
Fixpoint total (n : nat) (f : nat -> R) : R := match n with O => 0 | S n => total n f + f n end.
(** the sum of the differences of the three channels of two pixels, in which 65535 is full brightness *)
Definition apart (p q : Z * Z * Z) : R :=
  let '(r1, g1, b1) := p in let '(r2, g2, b2) := q in
  Rabs (IZR r1 - IZR r2) / 65535 + Rabs (IZR g1 - IZR g2) / 65535 + Rabs (IZR b1 - IZR b2) / 65535.
(** the mean difference per channel, between 0 and 1 *)
Definition mean_deviation (w h : nat) (a b : Z -> Z -> Z * Z * Z) : R :=
  total h (fun y => total w (fun x => apart (a (Z.of_nat x) (Z.of_nat y)) (b (Z.of_nat x) (Z.of_nat y)))) / (3 * INR w * INR h).
(** a decoded picture: its bounds start at the origin *)
Definition sized (w h : nat) (s : shot) : Prop :=
  shMinX s = 0%Z /\ shMinY s = 0%Z /\ shMaxX s = Z.of_nat w /\ shMaxY s = Z.of_nat h.

(** root of the mean square of the difference of the colours, brighter channels than 1 counted as 1 *)
Definition below1 (c : color R) : pt := Vec (Rmin 1 (cR c)) (Rmin 1 (cG c)) (Rmin 1 (cB c)).
Definition sum_squares (l : list (color R * color R)) : R := fold_right (fun '(a, b) s => norm2 (minus3 (below1 a) (below1 b)) + s) 0 l.
Definition same_shape (w : nat) (a b : list (list (color R))) : Prop :=
  length a = length b /\ Forall (fun row => length row = w) a /\ Forall (fun row => length row = w) b.
Definition rms (a b : list (list (color R))) : R :=
  sqrt (sum_squares (combine (concat a) (concat b)) / INR (length (concat a))).

(** channels of 16 bit *)
Definition channels_ok (s : shot) : Prop := forall x y, let '(r, g, b) := shAt s x y in (0 <= r <= 65535)%Z /\ (0 <= g <= 65535)%Z /\ (0 <= b <= 65535)%Z.
