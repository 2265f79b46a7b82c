(** * tracer/util.go: checks of rays and hits, for debugging *)
From Coq Require Import ZArith Bool.
From Verif Require Import Num Outcome GeomModel ObjModel.

Section Checks.
  Context {F : Type} `{NF : Num F} {M : Type}.
  Local Open Scope num_scope.

  (** tracer/util.go:40-50 *)
  Definition checkHit (h : hit F M) : outcome unit :=
    if hT h =? #0 then Val tt
    else if nisnan (hT h + vx (hNormal h) + vy (hNormal h) + vz (hNormal h) + vx (hLocal h) + vy (hLocal h) + vz (hLocal h)) then Panic else Val tt.

  (** tracer/util.go:52-57; 1e-9 *)
  Definition checkRay (r : ray F) : outcome unit :=
    if nabs (#1 - vlen2 (rDir r)) >? nQ 1 1000000000 then Panic else Val tt.
End Checks.
