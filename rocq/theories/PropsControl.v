(** * Properties C123, C124: the controls of the viewer *)
From Coq Require Import ZArith Reals Bool List Lra.
From Verif Require Import Num Outcome GeomModel GeomSpec ColorModel ObjModel SceneModel SceneSpec ApiModel ViewerModel ControlSpec ControlProofs.
Import ListNotations.
Local Open Scope R_scope.

(** ** C123 *)
Theorem C123_keys_move_along_the_picture_partial :
  forall (M L Med : Type) (nm n2 fb : M) (fov : R) (p : pt) (cam0 : camera R) (s : state R) (sp : spec R M L Med),
    0 < fov < PI -> projective fov = Val cam0 -> spCamera sp = Some (camTranslate cam0 p) ->
    drawable (stView s) sp -> vwIsometric (stView s) = false ->
    exists cam, shown_by nm n2 fb (stView s) sp cam /\
      forall G (NI : NumInf R) (rand2 : G -> (R * R) * G) x y (c : ctx R G), pool_ok c ->
        shoots rand2 cam x y c (Ray (plus3 p (vwCamPos (stView s)))
          (unit_of (plus3 (plus3 (scal3 (x - / 2) (rightwards s)) (scal3 (y - / 2) (upwards s))) (scal3 (/ (2 * tan (fov / 2))) (forwards s))))).
Proof. exact @keys_steer. Qed.
Print Assumptions C123_keys_move_along_the_picture_partial.

Theorem C123_forward_goes_sideways_refuted :
  forall (M L Med : Type) (nm n2 fb : M) (cam0 : camera R) (sp : spec R M L Med),
    projective (PI / 2) = Val cam0 -> spCamera sp = Some (camYawPitchRoll cam0 (PI / 2) 0 0) ->
    (0 < spRecursion sp)%Z -> (0 < spNumPass sp)%Z ->
    exists cam, shown_by nm n2 fb (stView start) sp cam /\
      forwards start = Vec 0 0 (- / 20) /\
      forall G (NI : NumInf R) (rand2 : G -> (R * R) * G) (c : ctx R G), pool_ok c -> shoots rand2 cam (/ 2) (/ 2) c (Ray zero3 (Vec (-1) 0 0)).
Proof. exact @forward_sideways. Qed.
Print Assumptions C123_forward_goes_sideways_refuted.

Theorem C123_steps :
  forall s : state R,
    norm2 (rightwards s) = / 400 /\ norm2 (upwards s) = / 400 /\ norm2 (forwards s) = / 400 /\
    dot3 (rightwards s) (upwards s) = 0 /\ dot3 (upwards s) (forwards s) = 0 /\ dot3 (rightwards s) (forwards s) = 0.
Proof. exact steps_orthonormal. Qed.
Print Assumptions C123_steps.

Theorem C123_other_keys :
  forall (s : state R) (shift : bool),
    travel KF shift s = rightwards s /\ travel KRight shift s = rightwards s /\
    travel KS shift s = scal3 (-1) (rightwards s) /\ travel KLeft shift s = scal3 (-1) (rightwards s) /\
    travel KUp shift s = (if shift then upwards s else forwards s) /\ travel KE shift s = travel KUp shift s /\
    travel KDown shift s = scal3 (-1) (travel KUp shift s) /\ travel KD shift s = travel KDown shift s /\ travel KSpace shift s = upwards s.
Proof. exact keys_agree. Qed.
Print Assumptions C123_other_keys.

Theorem C123_wheel :
  forall s : state R, vwIsometric (stView s) = false -> isLeft (stMouse s) = false ->
    stView (wheel BWheelUp s) = stView (press KUp false s) /\ stView (wheel BWheelDown s) = stView (press KDown false s) /\
    stView (wheel BWheelLeft s) = stView (press KLeft false s) /\ stView (wheel BWheelRight s) = stView (press KRight false s).
Proof. exact wheel_moves. Qed.
Print Assumptions C123_wheel.

(** one step to the right and two forward *)
Example C123_example : vwCamPos (stView (press KUp false (press KE false (press KF false start)))) = Vec (1 / 20) 0 (- (1 / 10)) :> pt.
Proof. exact walk. Qed.

(** ** C124 *)
Theorem C124_the_picture_follows_the_mouse :
  forall d (s : state R), isLeft (stMouse s) = true -> - (PI / 2) <= vwCamPitch (stView s) <= PI / 2 ->
    dot3 (forwards s) (rightwards (drag d 0 s)) = cos (vwCamPitch (stView s)) * sin (d / 200) / 400 /\
    (- (PI / 2) <= vwCamPitch (stView s) + d / 200 <= PI / 2 -> dot3 (forwards s) (upwards (drag 0 d s)) = - sin (d / 200) / 400).
Proof. exact picture_follows. Qed.
Print Assumptions C124_the_picture_follows_the_mouse.

Theorem C124_dragging_sideways_turns_about_the_vertical :
  forall d (s : state R), isLeft (stMouse s) = true -> - (PI / 2) <= vwCamPitch (stView s) <= PI / 2 ->
    rightwards (drag d 0 s) = turn (d / 200) 0 0 (rightwards s) /\ upwards (drag d 0 s) = turn (d / 200) 0 0 (upwards s) /\
    forwards (drag d 0 s) = turn (d / 200) 0 0 (forwards s).
Proof. exact drag_turns. Qed.
Print Assumptions C124_dragging_sideways_turns_about_the_vertical.

Theorem C124_dragging_upwards_tilts :
  forall d (s : state R), isLeft (stMouse s) = true -> - (PI / 2) <= vwCamPitch (stView s) <= PI / 2 ->
    rightwards (drag 0 d s) = rightwards s /\
    (- (PI / 2) <= vwCamPitch (stView s) + d / 200 <= PI / 2 ->
     forwards (drag 0 d s) = plus3 (scal3 (cos (d / 200)) (forwards s)) (scal3 (sin (d / 200)) (upwards s))).
Proof. exact drag_pitches. Qed.
Print Assumptions C124_dragging_upwards_tilts.

Theorem C124_never_upside_down :
  forall (to32 : R -> R) (jsonOk : R -> bool) is (s : state R), run to32 jsonOk is start = Val s -> 0 <= vy (upwards s).
Proof. exact never_upside_down. Qed.
Print Assumptions C124_never_upside_down.

Theorem C124_axis_keys :
  forall code k (s : state R) shift, axis_key code = Some k ->
    along_axis (stView (press code shift s)) = (if (match along_axis (stView s) with Some j => j =? k | None => false end)%Z then None else Some k) /\
    vwIsometricFOV (stView (press code shift s)) = (if Req_EM_T (vwIsometricFOV (stView s)) 0 then 8 else vwIsometricFOV (stView s)).
Proof. exact axis_keys. Qed.
Print Assumptions C124_axis_keys.

Theorem C124_zoom :
  forall s : state R, vwIsometric (stView s) = true -> 0 < vwIsometricFOV (stView s) -> isLeft (stMouse s) = false ->
    vwIsometricFOV (stView (wheel BWheelDown s)) ^ 2 = 2 * vwIsometricFOV (stView s) ^ 2 /\
    stView (wheel BWheelUp (wheel BWheelDown s)) = stView s.
Proof. exact zoom_halves. Qed.
Print Assumptions C124_zoom.

Theorem C124_pictures_along_an_axis_stand_still :
  forall (M L Med : Type) (nm n2 fb : M) (s : state R) (sp : spec R M L Med), vwIsometric (stView s) = true -> vwIsometricFOV (stView s) <> 0 ->
    (forall code shift, moves code = true -> viewApplyTo nm n2 fb (stView (press code shift s)) sp = viewApplyTo nm n2 fb (stView s) sp) /\
    (forall dx dy, viewApplyTo nm n2 fb (stView (drag dx dy s)) sp = viewApplyTo nm n2 fb (stView s) sp).
Proof. exact @axis_still. Qed.
Print Assumptions C124_pictures_along_an_axis_stand_still.

Theorem C124_pictures_along_an_axis_have_a_size :
  forall (to32 : R -> R) (jsonOk : R -> bool) is (s : state R), run to32 jsonOk is start = Val s ->
    vwIsometric (stView s) = true -> 0 < vwIsometricFOV (stView s).
Proof. exact (fun to32 jsonOk is s E => proj1 (proj2 (upright_run to32 jsonOk is s E))). Qed.
Print Assumptions C124_pictures_along_an_axis_have_a_size.

Theorem C124_normals_cycle :
  forall (s : state R) shift, (0 <= vwDebugNormals (stView s) <= 2)%Z ->
    (vwDebugNormals (stView (press KN shift s)) = (vwDebugNormals (stView s) + 1) mod 3)%Z.
Proof. exact normals_cycle. Qed.
Print Assumptions C124_normals_cycle.

(** along X, then along Z, then in perspective again; and a long drag downwards ends at the zenith *)
Example C124_example :
  along_axis (stView (press KX false start)) = Some 0%Z /\ along_axis (stView (press KZ false (press KX false start))) = Some 2%Z /\
  along_axis (stView (press KZ false (press KZ false (press KX false start)))) = None /\
  forwards (drag 0 1000 (setMouse BLeft true 0 0 start)) = Vec 0 (/ 20) 0.
Proof. exact tour. Qed.
