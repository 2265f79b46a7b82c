(** * Vocabulary: iterated integrals over the unit cube *)
From Coq Require Import ZArith Reals List.
From Coquelicot Require Import Coquelicot.
From Verif Require Import EquiSpec.
Import ListNotations.
Local Open Scope R_scope.

Fixpoint iterated (d : nat) (f : list R -> R) : R :=
  match d with
  | O => f nil
  | S d => RInt (fun y => iterated d (fun l => f (y :: l))) 0 1
  end.
