(** * Property theorems: rotations and cameras in double precision (C134-C135) *)
From Coq Require Import ZArith Reals List.
From Flocq Require Import Core.
From Flocq Require IEEE754.BinarySingleNaN.
Import IEEE754.BinarySingleNaN.
From Verif Require Import Num Outcome GeomModel ObjModel TreeModel SeqModel SceneModel SceneSpec CheckModel FloatSpec TurnSpec CamFloat TurnFloat.
Import ListNotations.
Local Open Scope R_scope.

(** ** C134: rays of cameras have length one *)
Theorem C134_camera_rays_have_length_one :
  forall (T : Trig b64), accurate_trig T -> forall (G : Type) (NI : NumInf b64) (rand2 : G -> (b64 * b64) * G) (cam : camera b64) (ms : list handling) (u v : b64) (c : ctx b64 G),
    made cam -> Forall finite_angles ms -> INR (rotations ms) <= 1000000000 ->
    (forall g, FloatSpec.between 0 1 (fst (fst (rand2 g))) /\ FloatSpec.between 0 1 (snd (fst (rand2 g)))) ->
    at_most 2 u -> at_most 2 v -> pool_ok c ->
    exists q, fires rand2 (fold_left handle ms cam) u v c q /\ near_unit (rDir q) /\
      Rabs (rdot (rDir q) (rDir q) - 1) <= 6100 * bpow radix2 (-53) * (INR (rotations ms) + 1).
Proof. exact @camera_rays. Qed.
Print Assumptions C134_camera_rays_have_length_one.

(** so they pass the check that the tracer makes, unless the camera has been turned more than a thousand times *)
Theorem C134_camera_rays_pass_the_check :
  forall (T : Trig b64), accurate_trig T -> forall (G : Type) (NI : NumInf b64) (rand2 : G -> (b64 * b64) * G) (cam : camera b64) (ms : list handling) (u v : b64) (c : ctx b64 G),
    made cam -> Forall finite_angles ms -> (rotations ms <= 1000)%nat ->
    (forall g, FloatSpec.between 0 1 (fst (fst (rand2 g))) /\ FloatSpec.between 0 1 (snd (fst (rand2 g)))) ->
    at_most 2 u -> at_most 2 v -> pool_ok c ->
    exists q, fires rand2 (fold_left handle ms cam) u v c q /\ checkRay q = Val tt.
Proof. exact @camera_checked. Qed.
Print Assumptions C134_camera_rays_pass_the_check.

(** an isometric camera that looks along -Z, carried and yawed by a quarter turn, looks along -X *)
Example C134_example :
  accurate_trig cornerTrig /\
  (exists cam, isometric (TF := cornerTrig) 2 (nofZ 7) = Val cam /\ made (T := cornerTrig) cam /\
    match rayFrom (TF := cornerTrig) (fun g : unit => ((nofZ 0, nofZ 0), g)) (fold_left (handle (T := cornerTrig)) [Carry (Vec (nofZ 1) (nofZ 2) (nofZ 3)); Rotate (ndiv cornerPi (nofZ 2)) (nofZ 0) (nofZ 0)] cam)
            (nQ 1 2) (nQ 1 2) (Ctx 1 (newCtxSeq nil) tt nil nil 0) with
    | Val (r, c') => option_map (fun q => (ntrunc (vx (rDir q)), ntrunc (vy (rDir q)), ntrunc (vz (rDir q)))) (nth_error (cHeap c') r)
    | _ => None
    end = Some (-1, 0, 0)%Z).
Proof.
  split; [exact corner_accurate|]. eexists. split; [reflexivity|]. split; [exact (made_isometric (T := cornerTrig) 2 (nofZ 7) _ eq_refl)|]. vm_compute. reflexivity.
Qed.

(** ** C135: rotations by quarter turns *)
Theorem C135_quarter_turns_are_exact :
  forall (T : Trig b64), accurate_trig T -> exact_corners T -> forall (a : b64) (c s : Z) (v : vec b64), corner a c s -> all3 (at_most 900) v ->
  let X := B2R (vx v) in let Y := B2R (vy v) in let Z := B2R (vz v) in
  exactly (transformDir (yaw a) v) (IZR c * X + IZR s * Z) Y (IZR c * Z - IZR s * X) /\
  exactly (transformDir (pitch a) v) X (IZR c * Y - IZR s * Z) (IZR c * Z + IZR s * Y) /\
  exactly (transformDir (roll a) v) (IZR c * X - IZR s * Y) (IZR c * Y + IZR s * X) Z.
Proof. exact (fun T A E a c s v C V => conj (yaw_corner A E a c s v C V) (conj (pitch_corner A E a c s v C V) (roll_corner A E a c s v C V))). Qed.
Print Assumptions C135_quarter_turns_are_exact.

(** at other angles the base vectors of the plane of the rotation go exactly where the sine and cosine say *)
Theorem C135_rotated_base_vectors :
  forall (T : Trig b64), accurate_trig T -> forall a : b64, is_finite a = true ->
  exactly (m0 (afA (yaw a))) (B2R (uCos a)) 0 (- B2R (uSin a)) /\ exactly (m2 (afA (yaw a))) (B2R (uSin a)) 0 (B2R (uCos a)) /\
  exactly (m1 (afA (pitch a))) 0 (B2R (uCos a)) (B2R (uSin a)) /\ exactly (m2 (afA (pitch a))) 0 (- B2R (uSin a)) (B2R (uCos a)) /\
  exactly (m0 (afA (roll a))) (B2R (uCos a)) (B2R (uSin a)) 0 /\ exactly (m1 (afA (roll a))) (- B2R (uSin a)) (B2R (uCos a)) 0.
Proof. exact @columns. Qed.
Print Assumptions C135_rotated_base_vectors.

(** three quarters of a turn are not among the exceptions of util.Sin and util.Cos *)
Theorem C135_three_quarter_turns_are_exact_refuted :
  exists T : Trig b64, accurate_trig T /\ exact_corners T /\
  let a := nmul (nofZ 3) (ndiv npi (nofZ 2)) in is_finite a = true /\ B2R (vx (transformDir (yaw a) vEx)) <> 0.
Proof. exact three_quarters. Qed.
Print Assumptions C135_three_quarter_turns_are_exact_refuted.

(** (1, 2, 3) yawed, pitched and rolled by a quarter turn *)
Example C135_example :
  let v := Vec (nofZ 1) (nofZ 2) (nofZ 3) : vec b64 in let show (w : vec b64) := (ntrunc (vx w), ntrunc (vy w), ntrunc (vz w)) in let a := ndiv cornerPi (nofZ 2) in
  accurate_trig cornerTrig /\ exact_corners cornerTrig /\ corner (T := cornerTrig) a 0 1 /\
  show (transformDir (yaw (TF := cornerTrig) a) v) = (3, 2, -1)%Z /\ show (transformDir (pitch (TF := cornerTrig) a) v) = (1, -3, 2)%Z /\ show (transformDir (roll (TF := cornerTrig) a) v) = (-2, 1, 3)%Z.
Proof.
  cbv zeta. split; [exact corner_accurate|]. split; [exact corner_exact|]. split; [right; left; split; [reflexivity|split; reflexivity]|].
  split; [vm_compute; reflexivity|]. split; vm_compute; reflexivity.
Qed.
