(** * Property theorems: colours of scenes under lamps in double precision (C141) *)
From Coq Require Import ZArith Reals List.
From Flocq Require Import Core.
From Flocq Require IEEE754.BinarySingleNaN.
Import IEEE754.BinarySingleNaN.
From Verif Require Import Num Outcome B64 GeomModel ColorModel SeqModel SeqSpec ObjModel SamplerModel SamplerSpec SceneModel SceneSpec CtxProofs RenderModel RenderSpec FloatSpec TurnSpec ScatterSpec DullSpec DullProofs
  ShineSpec ShineProofs ShineScene ShineRender ShineExample.
Import ListNotations.
Local Open Scope R_scope.

(** ** C141: lamps cannot make a NaN or an infinity *)
Theorem C141_lamplit_scenes_have_no_bad_colours :
  forall {G} {NI : NumInf b64} {TF : Trig b64} (rand2 : G -> (b64 * b64) * G) (P k : Z) (s : scene b64),
  (0 <= P <= 20)%Z -> (0 <= k)%Z -> (k + 60 + sRecursionDepth s <= 900)%Z -> lamplit P k s -> damping TF -> sharp_trig TF -> FloatSpec.between 3 4 (npi : b64) ->
  forall fuel w r (c c' : ctx b64 G) q col, fair_numbers rand2 (cSeq c) -> pool_ok c -> in_use c r -> nth_error (cHeap c) r = Some q -> cDepth c = 0%Z -> (0 <= sRecursionDepth s)%Z ->
    aimed P (bpow radix2 (-30)) q -> lightField rand2 fuel s w r c = Val (col, c') -> lit (k + 60 + sRecursionDepth s) col.
Proof. exact @shine_start. Qed.
Print Assumptions C141_lamplit_scenes_have_no_bad_colours.

(** balls under point lights are such scenes *)
Theorem C141_balls_under_lamps :
  forall (k : Z) (depth : Z) media lights balls others, park k media lights balls others -> lamplit 7 k (newScene depth media lights (map ball_object balls ++ others)).
Proof. exact @park_lamplit. Qed.
Print Assumptions C141_balls_under_lamps.

(** the pixels of a rendering: in range, and no sample was dropped *)
Theorem C141_pixels_under_lamps_stay_in_range :
  forall {G} {NI : NumInf b64} {TF : Trig b64} (rand2 : G -> (b64 * b64) * G) (k : Z) (s : scene b64) fuel cam ms aa shifts w h ns m,
  (0 <= k)%Z -> (0 <= sRecursionDepth s)%Z -> (k + 60 + sRecursionDepth s <= 900)%Z -> lamplit 7 k s -> damping TF -> sharp_trig TF -> accurate_trig TF ->
  made cam -> Forall finite_angles ms -> (rotations ms <= 1000)%nat -> small_lens cam -> place 7 (camPos (fold_left handle ms cam)) ->
  (forall g, fair_pair (fst (rand2 g))) -> Forall (fun x => in_unit (fst x) /\ in_unit (snd x)) shifts -> Z.of_nat (length shifts) = (w * h)%Z ->
  (0 <= w <= 2 ^ 30)%Z -> (0 <= h <= 2 ^ 30)%Z -> (h <= 3 * w)%Z -> Forall (fun n => 0 <= n)%Z ns -> (0 < total ns < 2 ^ 53)%Z ->
  renderCalls rand2 fuel s (fold_left handle ms cam) aa shifts w h ns newMem m ->
  forall p, in_image w h p -> lit (k + 60 + sRecursionDepth s) (imagef m p) /\ mN m p = total ns.
Proof. exact @shine_images. Qed.
Print Assumptions C141_pixels_under_lamps_stay_in_range.

(** a ball, half mirror and half matte, with a lamp above it under a white sky; the light seen there is neither black nor white *)
Example C141_example :
  park 7 nil [bulb] [shinyBall] [sky] /\ damping dimTrig /\ sharp_trig dimTrig /\ accurate_trig dimTrig /\
  match lightField (TF := dimTrig) (fun g : unit => ((half, half), g)) 100 (newScene 8 nil [bulb] (map ball_object [shinyBall] ++ [sky])) All 0
          (Ctx 0 (newCtxSeq [(half, half)]) tt nil [Ray (Vec (nofZ 0) (nofZ 4) (nofZ 0)) (Vec (nofZ 0) (nofZ (-1)) (nofZ 0))] 0) with
  | Val (col, _) => (nltb (nQ 81 100) (cR col) && nltb (cR col) (nQ 88 100))%bool
  | _ => false
  end = true.
Proof. exact (conj garden_park (conj dim_damping (conj dim_sharp (conj dim_accurate garden_bright)))). Qed.
