(** * Model of package tracer/sequence, util.Frac, and the sequences of tracer.Ctx *)
From Coq Require Import ZArith Reals Bool List.
From Verif Require Import Num Outcome GeomModel.
Import ListNotations.
Local Open Scope num_scope.

Section Seq.
  Context {F : Type} `{NF : Num F}.

  (** util/util.go:46-48 *)
  Definition frac (x : F) : F := x - nfloor x.

  (** tracer/sequence/halton.go:15-19, the loop. [i] and [b] are Go ints, [f], [r], [bf] floats;
      [i%b] is Go's truncated remainder, which panics for b = 0. *)
  Fixpoint halton_loop (fuel : nat) (b i : Z) (bf f r : F) : outcome F :=
    match fuel with
    | O => NoFuel
    | S n =>
      if (0 <? i)%Z then
        if (b =? 0)%Z then Panic else
        let f := f / bf in
        let r := r + f * #(Z.rem i b) in
        let i := ntrunc (nfloor (#i / bf)) in
        halton_loop n b i bf f r
      else Val r
    end.

  (** tracer/sequence/halton.go:9-21. The loop runs at most log2(i+1)+1 times when b >= 2. *)
  Definition halton_fuel (i : Z) : nat := S (S (Z.to_nat (Z.log2 i))).
  Definition halton (b i : Z) : outcome F :=
    halton_loop (halton_fuel (i + 1)) b (i + 1) #b #1 #0.

  (** tracer/sequence/sequence.go:30-36 (offset and stride are stored but never read) *)
  Record hseq : Type := HSeq {
    hs_baseU : Z; hs_baseV : Z; hs_index : Z;
    hs_shiftU : F; hs_shiftV : F; hs_shifts : list (F * F) }.

  (** tracer/sequence/sequence.go:38-47: index 0, shifts zero *)
  Definition newHalton (baseU baseV : Z) (shifts : list (F * F)) : hseq :=
    HSeq baseU baseV 0 #0 #0 shifts.

  (** tracer/sequence/sequence.go:49-53: panics if there is no shift for the pixel *)
  Definition hseq_init (s : hseq) (pixel : nat) (pass : Z) : outcome hseq :=
    match nth_error (hs_shifts s) pixel with
    | Some (su, sv) => Val (HSeq (hs_baseU s) (hs_baseV s) pass su sv (hs_shifts s))
    | None => Panic
    end.

  (** tracer/sequence/sequence.go:55-59: does not advance the sequence *)
  Definition hseq_generate2 (s : hseq) : outcome (F * F) :=
    obind (halton (hs_baseU s) (hs_index s)) (fun hu =>
    obind (halton (hs_baseV s) (hs_index s)) (fun hv =>
    Val (frac (hu + hs_shiftU s), frac (hv + hs_shiftV s)))).

  (** tracer/ctx.go:28-41: the deterministic sequences of a context. sequence3 is
      the pseudo-random generator, whose Init does nothing; it is not part of this record. *)
  Record ctxseq : Type := CtxSeq { cs_1 : hseq; cs_2 : hseq; cs_L : hseq; cs_AA : hseq }.

  (** tracer/ctx.go:45-65 *)
  Definition newCtxSeq (shifts : list (F * F)) : ctxseq :=
    CtxSeq (newHalton 2 3 shifts) (newHalton 5 7 shifts) (newHalton 5 7 shifts) (newHalton 2 3 shifts).

  (** tracer/ctx.go:67-72: initialises sequence1, 2, 3 and L (not AA) *)
  Definition ctxseq_init (c : ctxseq) (pixel : nat) (pass : Z) : outcome ctxseq :=
    obind (hseq_init (cs_1 c) pixel pass) (fun s1 =>
    obind (hseq_init (cs_2 c) pixel pass) (fun s2 =>
    obind (hseq_init (cs_L c) pixel pass) (fun sL =>
    Val (CtxSeq s1 s2 sL (cs_AA c))))).

  Context `{TF : Trig F}.

  (** tracer/sequence/mappings.go:13-19 *)
  Definition uniformDisk (u v : F) : F * F :=
    let theta := (#2 * npi) * u in
    let r := nsqrt v in
    (r * ncos theta, r * nsin theta).

  (** tracer/sequence/mappings.go:37-46: index of the smallest component by absolute value *)
  Definition minAxis (t : vec F) : axis :=
    let '(i, mn) := if nabs (vy t) <? nabs (vx t) then (AY, nabs (vy t)) else (AX, nabs (vx t)) in
    if nabs (vz t) <? mn then AZ else i.

  (** tracer/sequence/mappings.go:37-53: the frame (ex, ey, ez) *)
  Definition cosineFrame (normal : vec F) : matrix F :=
    let t := vset normal (minAxis normal) #1 in
    let ex := vnormalized (vcross t normal) in
    let ey := vcross ex normal in
    Matrix ex ey normal.

  (** tracer/sequence/mappings.go:27-57 *)
  Definition cosineSphere (u v : F) (normal : vec F) : vec F :=
    let '(x, y) := uniformDisk u v in
    let z := nsqrt (#1 - (x * x + y * y)) in
    mmulvec (cosineFrame normal) (Vec x y z).
End Seq.
Arguments hseq F : clear implicits.
Arguments ctxseq F : clear implicits.
