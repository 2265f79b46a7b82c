(** * Results of code that can panic or fail to terminate *)

(** [Val a]: normal return; [Panic]: Go panic; [NoFuel]: the modelled loop did not finish
    within the given fuel (excluded by the theorems that mention it). *)
Inductive outcome (A : Type) : Type := Val (a : A) | Panic | NoFuel.
Arguments Val {A} _.
Arguments Panic {A}.
Arguments NoFuel {A}.

Definition obind {A B} (x : outcome A) (f : A -> outcome B) : outcome B :=
  match x with Val a => f a | Panic => Panic | NoFuel => NoFuel end.

Definition omap {A B} (f : A -> B) (x : outcome A) : outcome B :=
  match x with Val a => Val (f a) | Panic => Panic | NoFuel => NoFuel end.
