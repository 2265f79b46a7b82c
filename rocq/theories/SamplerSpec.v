(** * Vocabulary for the sampler properties *)
From Coq Require Import ZArith Reals Bool List.
From Verif Require Import Num Outcome ColorModel SeqModel SamplerModel.
Import ListNotations.

(** pixel (x,y) lies in the half-open rectangle of a tile; in the image *)
Definition in_tile (t : tile) (p : pixel) : Prop :=
  (tx0 t <= fst p < tx1 t)%Z /\ (ty0 t <= snd p < ty1 t)%Z.
Definition in_image (w h : Z) (p : pixel) : Prop := (0 <= fst p < w)%Z /\ (0 <= snd p < h)%Z.
Definition in_imageb (w h : Z) (p : pixel) : bool :=
  ((0 <=? fst p) && (fst p <? w) && (0 <=? snd p) && (snd p <? h))%Z%bool.

Section Spec.
  Context {F : Type} `{NF : Num F} {G : Type}.
  Local Open Scope num_scope.

  (** accumulators of one pixel: number of samples, sum, sum of squares *)
  Record acc : Type := Acc { aN : Z; aSum : color F; aSq : color F }.

  Definition acc_at (m : mem F) (p : pixel) : acc :=
    Acc (mN m p) (Color (mF m p SumR) (mF m p SumG) (mF m p SumB))
        (Color (mF m p SqR) (mF m p SqG) (mF m p SqB)).

  (** adding one sample: it is always counted, and added unless it is NaN *)
  Definition add_sample (a : acc) (c : color F) : acc :=
    Acc (aN a + 1)
      (if clisnan c then aSum a else Color (cR (aSum a) + cR c) (cG (aSum a) + cG c) (cB (aSum a) + cB c))
      (if clisnan c then aSq a else
         Color (cR (aSq a) + cR c * cR c) (cG (aSq a) + cG c * cG c) (cB (aSq a) + cB c * cB c)).

  (** [n] further samples of a pixel; [s k] is the sample of pass number [k] *)
  Fixpoint more_samples (s : Z -> color F) (n : nat) (a : acc) : acc :=
    match n with O => a | S n => more_samples s n (add_sample a (s (aN a))) end.

  (** an image function whose colour does not depend on the time-seeded generator *)
  Definition deterministic (f : imageFunc F G) : Prop :=
    forall c g g' x y, fst (f c g x y) = fst (f c g' x y).

  (** the position sampled for pixel [p] in pass [k] *)
  Definition sample_pos (aa : bool) (shifts : list (F * F)) (w h : Z) (p : pixel) (k : Z) : outcome (ctxseq F * (F * F)) :=
    obind (indexToCam w h #(fst p) #(snd p)) (fun '(xi, yi) =>
    obind (ctxseq_init (newCtxSeq shifts) (Z.to_nat (w * snd p + fst p)) k) (fun c =>
    omap (fun xy => (c, xy)) (jitter aa w h c xi yi))).

  (** the colour sampled for pixel [p] in pass [k] (black if the position is undefined) *)
  Definition sample_color (f : imageFunc F G) (aa : bool) (shifts : list (F * F)) (g : G) (w h : Z) (p : pixel) (k : Z) : color F :=
    match sample_pos aa shifts w h p k with
    | Val (c, (x, y)) => fst (f c g x y)
    | _ => black
    end.

  (** accumulators after [n] more passes *)
  Definition after_passes (f : imageFunc F G) (aa : bool) (shifts : list (F * F)) (w h : Z) (g : G) (n : Z) (m : mem F) (p : pixel) : acc :=
    if in_imageb w h p then more_samples (sample_color f aa shifts g w h p) (Z.to_nat n) (acc_at m p) else acc_at m p.

  (** consecutive calls of Sample with the given pass counts *)
  Inductive sampleCalls (f : imageFunc F G) (aa : bool) (shifts : list (F * F)) (w h : Z) : list Z -> mem F -> mem F -> Prop :=
  | calls_nil m : sampleCalls f aa shifts w h nil m m
  | calls_cons n ns m1 m2 m3 : sampleCall f aa shifts w h n m1 m2 -> sampleCalls f aa shifts w h ns m2 m3 -> sampleCalls f aa shifts w h (n :: ns) m1 m3.

  (** the pixel a worker is about to access *)
  Definition pending (x : worker F G) : option pixel :=
    match x with
    | Busy _ (LoadN p _) | Busy _ (StoreN p _ _) | Busy _ (LoadF p _ _) | Busy _ (StoreF p _ _ _) => Some p
    | _ => None
    end.
  Definition crashed (x : worker F G) : Prop := match x with Busy _ Crash => True | _ => False end.
End Spec.
Arguments acc F : clear implicits.

(** total number of passes of a list of calls *)
Definition total (ns : list Z) : Z := fold_right Z.add 0%Z ns.

(** ** Statistics of real samples *)
Section Stats.
  Local Open Scope R_scope.
  Fixpoint Rsum (l : list R) : R := match l with nil => 0 | x :: l => x + Rsum l end.
  (** the samples of passes 0 .. n-1 *)
  Definition first_samples (s : Z -> color R) (n : nat) : list (color R) := map (fun k => s (Z.of_nat k)) (seq 0 n).

  Definition mean (l : list R) : R := Rsum l / IZR (Z.of_nat (length l)).

  (** sample variance with n-1 in the denominator *)
  Definition variance (l : list R) : R :=
    Rsum (map (fun x => (x - mean l) * (x - mean l)) l) / (IZR (Z.of_nat (length l)) - 1).

End Stats.
