(** * Vocabulary for the distribution of the sample sequences: integrals over the unit cube, limits of means *)
From Coq Require Import ZArith Reals Bool List.
From Verif Require Import Num Outcome GeomModel GeomSpec SeqModel SamplerSpec.
Import ListNotations.
Local Open Scope R_scope.

(** the unit cube [0,1)^d cut in n^d cells; a cell is the list of its d positions *)
Fixpoint cells (n : Z) (d : nat) : list (list Z) :=
  match d with
  | O => [nil]
  | S d => flat_map (fun a => map (cons a) (cells n d)) (map Z.of_nat (seq 0 (Z.to_nat n)))
  end.
Definition in_cell (n : Z) (c : list Z) (x : list R) : Prop :=
  Forall2 (fun a y => IZR a / IZR n <= y < (IZR a + 1) / IZR n) c x.

(** Darboux: [I] is the integral of [f] over the unit cube. [f] need not be continuous. *)
Definition cube_integral (d : nat) (f : list R -> R) (I : R) : Prop :=
  forall eps, 0 < eps -> exists n lo hi, (0 < n)%Z /\
    (forall c x, In c (cells n d) -> in_cell n c x -> lo c <= f x <= hi c) /\
    I - eps < mean (map lo (cells n d)) /\ mean (map hi (cells n d)) < I + eps.

(** the mean over the first n positions *)
Definition running_mean (f : nat -> R) (n : nat) : R := mean (map f (seq 0 n)).
(** a sequence of points fills the cube evenly *)
Definition equidistributed (d : nat) (x : nat -> list R) : Prop :=
  forall f I, cube_integral d f I -> Un_cv (running_mean (fun k => f (x k))) I.

Fixpoint pairwise_coprime (bs : list Z) : Prop :=
  match bs with nil => True | b :: bs => (forall b', In b' bs -> Z.gcd b b' = 1%Z) /\ pairwise_coprime bs end.

(** continuity on the closed unit cube, in the uniform form *)
Definition in_cube (d : nat) (x : list R) : Prop := length x = d /\ Forall (fun y => 0 <= y <= 1) x.
Definition continuous_on_cube (d : nat) (f : list R -> R) : Prop :=
  forall eps, 0 < eps -> exists del, 0 < del /\
    forall x y, in_cube d x -> in_cube d y -> Forall2 (fun a b => Rabs (a - b) < del) x y -> Rabs (f x - f y) < eps.
