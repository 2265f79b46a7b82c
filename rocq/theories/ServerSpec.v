(** * What to expect of the server *)
From Coq Require Import ZArith Bool List.
From Verif Require Import ServerModel.
Import ListNotations.

Section Spec.
  Context {V : Type}.
  Variable veqb : V -> V -> bool.
  (** how many goroutines are now sampling on sampler [id] *)
  Definition sampling_on (id : nat) (ts : list (thread V)) : nat :=
    length (filter (fun t => match t with TSampling _ _ i _ => Nat.eqb i id | _ => false end) ts).
  (** bakes that have been accepted and not yet answered *)
  Definition in_progress (ts : list (thread V)) : nat :=
    length (filter (fun t => match t with TReading _ _ _ _ | TSampling _ _ _ _ | TSampled _ | TImage _ _ | TUnwind _ _ => true | _ => false end) ts).
  Definition cancels (rs : list (request V)) : nat :=
    length (filter (fun r => match r with Cancel => true | _ => false end) rs).
  (** the number of bakes of [v] since the last bake of another view; newest request first *)
  Fixpoint streak (v : V) (h : list (request V)) : nat :=
    match h with
    | Bake w :: h => if veqb w v then S (streak v h) else 0
    | _ :: h => streak v h
    | nil => 0
    end.
End Spec.
