(** * Model of the rest of package imagef/colorf: named colours, exposure values *)
From Coq Require Import ZArith.
From Verif Require Import Num ColorModel.
Local Open Scope num_scope.

Section Tone.
  Context {F : Type} `{NF : Num F}.

  (** imagef/colorf/color.go:13-18; 11-12 are [black] and [white] *)
  Definition red : color F := Color #1 #0 #0.
  Definition yellow : color F := Color #1 #1 #0.
  Definition green : color F := Color #0 #1 #0.
  Definition cyan : color F := Color #0 #1 #1.
  Definition blue : color F := Color #0 #0 #1.
  Definition magenta : color F := Color #1 #0 #1.

  Context `{TF : Trig F}.
  (** color.go:87-90 *)
  Definition ev (exp : F) : F := npow #2 exp.
  (** color.go:66-68 *)
  Definition clev (c : color F) (e : F) : color F := clmul c (ev e).
End Tone.
