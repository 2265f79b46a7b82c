(** * The controls of the viewer (C123, C124) *)
From Coq Require Import ZArith Reals Bool List Lia Lra Psatz.
From Verif Require Import Num NumLaws Outcome GeomModel GeomSpec GeomProofs ColorModel ObjModel SceneModel SceneSpec SceneProofs CamProofs ApiModel ApiSpec ApiRender ApiView ViewerModel ViewerSpec ViewerProofs ControlSpec.
Import ListNotations.
Local Open Scope R_scope.

Definition ahead (v : view R) (a : pt) : pt := turn (vwCamYaw v) (vwCamPitch v) 0 a.

Lemma moveCam_travel (d : pt) (s : state R) : minus3 (vwCamPos (stView (moveCam d s))) (vwCamPos (stView s)) = scal3 (/ 20) (ahead (stView s) d).
Proof.
  unfold moveCam, setView, withPos, ahead. cbn [stView vwCamPos]. rewrite <- ypr_matrix.
  unfold minus3, vmadd, scal3, nQ. rnum. apply vec_eq; cbn [vx vy vz]; lra.
Qed.
Lemma ahead_opp v (a : pt) : ahead v (scal3 (-1) a) = scal3 (-1) (ahead v a).
Proof. unfold ahead, turn, scal3. cbn [vx vy vz]. apply vec_eq; cbn [vx vy vz]; ring. Qed.
Lemma ahead_comb v (a b c : R) :
  ahead v (Vec a b (- c)) = plus3 (plus3 (scal3 a (ahead v (Vec 1 0 0))) (scal3 b (ahead v (Vec 0 1 0)))) (scal3 c (ahead v (Vec 0 0 (-1)))).
Proof. unfold ahead, turn, scal3, plus3. cbn [vx vy vz]. apply vec_eq; cbn [vx vy vz]; ring. Qed.

Lemma rightwards_eq s : rightwards s = scal3 (/ 20) (ahead (stView s) (Vec 1 0 0)).
Proof. exact (moveCam_travel (Vec 1 0 0) s). Qed.
Lemma upwards_eq s : upwards s = scal3 (/ 20) (ahead (stView s) (Vec 0 1 0)).
Proof. exact (moveCam_travel (Vec 0 1 0) s). Qed.
Lemma forwards_eq s : forwards s = scal3 (/ 20) (ahead (stView s) (Vec 0 0 (-1))).
Proof. exact (moveCam_travel (Vec 0 0 (-1)) s). Qed.

Lemma unit_of_turn y p r (a : pt) : turn y p r (unit_of a) = unit_of (turn y p r a).
Proof.
  assert (N : norm (turn y p r a) = norm a). { unfold norm. f_equal. unfold norm2. apply turn_dot. }
  unfold unit_of. rewrite N. unfold turn, scal3. cbn [vx vy vz]. apply vec_eq; cbn [vx vy vz]; unfold Rdiv; ring.
Qed.

Section Show.
  Context {M L Med : Type}.
  Variables (nm n2 fb : M).

  Lemma shown_perspective (v : view R) (sp : spec R M L Med) cam : drawable v sp -> vwIsometric v = false -> spCamera sp = Some cam ->
    exists cam', shown_by nm n2 fb v sp cam' /\
      forall G (NI : NumInf R) (rand2 : G -> (R * R) * G) x y (c : ctx R G) q, pool_ok c -> shoots rand2 cam x y c q ->
          shoots rand2 cam' x y c
            (Ray (plus3 (plus3 (camPos cam) (vwCamPos v)) (turn (vwCamYaw v) (vwCamPitch v) 0 (minus3 (rStart q) (camPos cam))))
                 (turn (vwCamYaw v) (vwCamPitch v) 0 (rDir q))).
  Proof.
    intros (H1 & H2 & H3 & H4) Hi Hc.
    destruct (view_ok nm n2 fb v sp cam Hc H1 H2 H3 H4) as (sp' & cam' & E & _ & _ & _ & _ & Ec & _ & _ & _ & Hs).
    { rewrite Hi. discriminate. }
    exists cam'. split; [exists sp'; auto|]. intros. now apply (Hs Hi).
  Qed.

  Lemma keys_steer fov (p : pt) cam0 (s : state R) (sp : spec R M L Med) : 0 < fov < PI -> projective fov = Val cam0 ->
    spCamera sp = Some (camTranslate cam0 p) -> drawable (stView s) sp -> vwIsometric (stView s) = false ->
    exists cam, shown_by nm n2 fb (stView s) sp cam /\
      forall G (NI : NumInf R) (rand2 : G -> (R * R) * G) x y (c : ctx R G), pool_ok c ->
        shoots rand2 cam x y c (Ray (plus3 p (vwCamPos (stView s)))
          (unit_of (plus3 (plus3 (scal3 (x - / 2) (rightwards s)) (scal3 (y - / 2) (upwards s))) (scal3 (/ (2 * tan (fov / 2))) (forwards s))))).
  Proof.
    intros Hf Hc0 Hc Hd Hi. destruct (shown_perspective _ _ _ Hd Hi Hc) as (cam & Hs & Hr). exists cam. split; [exact Hs|].
    intros G NI rand2 x y c Hp.
    destruct (pinhole (NI := NI) rand2 fov Hf) as (cam1 & E1 & Hq). rewrite Hc0 in E1. injection E1 as <-.
    assert (P0 : camPos cam0 = vO).
    { unfold projective in Hc0. rewrite proj_cam in Hc0 by (rnum; lra). injection Hc0 as <-. reflexivity. }
    pose proof (moved_camera rand2 cam0 [Shift p] x y c _ Hp (Hq x y c Hp)) as Hm. cbn [fold_left call shifted turned rStart rDir] in Hm.
    specialize (Hr G NI rand2 x y c _ Hp Hm). cbn [rStart rDir] in Hr. rewrite unit_of_turn in Hr.
    set (f := / (2 * tan (fov / 2))) in *.
    replace (unit_of _) with (unit_of (ahead (stView s) (Vec (x - / 2) (y - / 2) (- f)))).
    2: { rewrite rightwards_eq, upwards_eq, forwards_eq, ahead_comb. rewrite <- (unit_of_scal (/ 20)) by lra. f_equal.
         unfold scal3, plus3. cbn [vx vy vz]. apply vec_eq; cbn [vx vy vz]; ring. }
    change (ahead (stView s) (Vec (x - / 2) (y - / 2) (- f))) with (turn (vwCamYaw (stView s)) (vwCamPitch (stView s)) 0 (Vec (x - / 2) (y - / 2) (- f))).
    replace (plus3 p (vwCamPos (stView s))) with
      (plus3 (plus3 (camPos (camTranslate cam0 p)) (vwCamPos (stView s)))
         (turn (vwCamYaw (stView s)) (vwCamPitch (stView s)) 0 (minus3 (plus3 (plus3 (camPos cam0) p) (minus3 zero3 (camPos cam0))) (camPos (camTranslate cam0 p))))); [exact Hr|].
    unfold camTranslate, transformCam. cbn [camPos]. rewrite P0.
    unfold vadd, vO, plus3, minus3, turn, zero3. cbn [vx vy vz]. rnum. apply vec_eq; cbn [vx vy vz]; ring.
  Qed.

  (** a scene whose own camera is turned by a right angle *)
  Lemma forward_sideways cam0 (sp : spec R M L Med) : projective (PI / 2) = Val cam0 -> spCamera sp = Some (camYawPitchRoll cam0 (PI / 2) 0 0) ->
    (0 < spRecursion sp)%Z -> (0 < spNumPass sp)%Z ->
    exists cam, shown_by nm n2 fb (stView start) sp cam /\
      forwards start = Vec 0 0 (- / 20) /\
      forall G (NI : NumInf R) (rand2 : G -> (R * R) * G) (c : ctx R G), pool_ok c -> shoots rand2 cam (/ 2) (/ 2) c (Ray zero3 (Vec (-1) 0 0)).
  Proof.
    intros Hc0 Hc Hr Hn.
    assert (Hd : drawable (stView start) sp) by (repeat split; cbn; lia || assumption).
    destruct (shown_perspective _ _ _ Hd eq_refl Hc) as (cam & Hs & Hray). exists cam. split; [exact Hs|]. split.
    - rewrite forwards_eq. unfold ahead, turn, scal3. cbn [start stView startView vwCamYaw vwCamPitch vx vy vz]. rnum. rewrite cos_0, sin_0.
      apply vec_eq; cbn [vx vy vz]; lra.
    - intros G NI rand2 c Hp. pose proof PI_RGT_0 as P.
      destruct (pinhole (NI := NI) rand2 (PI / 2)) as (cam1 & E1 & Hq); [lra|]. rewrite Hc0 in E1. injection E1 as <-.
      assert (P0 : camPos cam0 = vO).
      { unfold projective in Hc0. rewrite proj_cam in Hc0 by (rnum; lra). injection Hc0 as <-. reflexivity. }
      pose proof (moved_camera rand2 cam0 [Turn (PI / 2) 0 0] (/ 2) (/ 2) c _ Hp (Hq (/ 2) (/ 2) c Hp)) as Hm.
      cbn [fold_left call shifted turned rStart rDir] in Hm.
      rewrite pinhole_center in Hm by (apply Rinv_0_lt_compat, Rmult_lt_0_compat; [lra|apply tan_half_pos; lra]).
      specialize (Hray G NI rand2 (/ 2) (/ 2) c _ Hp Hm). cbn [rStart rDir] in Hray.
      match type of Hray with shoots _ _ _ _ _ ?q => replace q with (Ray zero3 (Vec (-1) 0 0) : ray R) in Hray; [exact Hray|] end.
      unfold camYawPitchRoll, transformCam. cbn [camPos]. rewrite P0. cbn [start stView startView vwCamYaw vwCamPitch vwCamPos].
      unfold vadd, vO, plus3, minus3, turn, zero3. cbn [vx vy vz]. rnum. rewrite cos_0, sin_0, cos_PI2, sin_PI2. f_equal; apply vec_eq; cbn [vx vy vz]; ring.
  Qed.
End Show.

(** ** The other keys *)
Lemma keys_agree (s : state R) (shift : bool) :
  travel KF shift s = rightwards s /\ travel KRight shift s = rightwards s /\
  travel KS shift s = scal3 (-1) (rightwards s) /\ travel KLeft shift s = scal3 (-1) (rightwards s) /\
  travel KUp shift s = (if shift then upwards s else forwards s) /\ travel KE shift s = travel KUp shift s /\
  travel KDown shift s = scal3 (-1) (travel KUp shift s) /\ travel KD shift s = travel KDown shift s /\ travel KSpace shift s = upwards s.
Proof.
  assert (Hl : travel KLeft false s = scal3 (-1) (rightwards s)).
  { unfold travel. cbn [press handleKeyEvent]. rewrite rightwards_eq. unfold press, handleKeyEvent.
    change (Vec (nofZ (-1)) (nofZ 0) (nofZ 0)) with (Vec (-1) 0 0 : pt). rewrite moveCam_travel.
    replace (Vec (-1) 0 0 : pt) with (scal3 (-1) (Vec 1 0 0)) by (unfold scal3; apply vec_eq; cbn [vx vy vz]; ring).
    rewrite ahead_opp. unfold scal3. apply vec_eq; cbn [vx vy vz]; ring. }
  assert (Hd : travel KDown shift s = scal3 (-1) (travel KUp shift s)).
  { unfold travel, press, handleKeyEvent. destruct shift.
    - change (Vec (nofZ 0) (nofZ (-1)) (nofZ 0)) with (Vec 0 (-1) 0 : pt). change (Vec (nofZ 0) (nofZ 1) (nofZ 0)) with (Vec 0 1 0 : pt). rewrite !moveCam_travel.
      replace (Vec 0 (-1) 0 : pt) with (scal3 (-1) (Vec 0 1 0)) by (unfold scal3; apply vec_eq; cbn [vx vy vz]; ring).
      rewrite ahead_opp. unfold scal3. apply vec_eq; cbn [vx vy vz]; ring.
    - change (Vec (nofZ 0) (nofZ 0) (nofZ 1)) with (Vec 0 0 1 : pt). change (Vec (nofZ 0) (nofZ 0) (nofZ (-1))) with (Vec 0 0 (-1) : pt). rewrite !moveCam_travel.
      replace (Vec 0 0 1 : pt) with (scal3 (-1) (Vec 0 0 (-1))) by (unfold scal3; apply vec_eq; cbn [vx vy vz]; ring).
      rewrite ahead_opp. unfold scal3. apply vec_eq; cbn [vx vy vz]; ring. }
  repeat split; try exact Hd; try exact Hl; destruct shift; reflexivity.
Qed.
Lemma steps_orthonormal (s : state R) :
  norm2 (rightwards s) = / 400 /\ norm2 (upwards s) = / 400 /\ norm2 (forwards s) = / 400 /\
  dot3 (rightwards s) (upwards s) = 0 /\ dot3 (upwards s) (forwards s) = 0 /\ dot3 (rightwards s) (forwards s) = 0.
Proof.
  assert (D : forall a b : pt, dot3 (scal3 (/ 20) (ahead (stView s) a)) (scal3 (/ 20) (ahead (stView s) b)) = dot3 a b / 400).
  { intros a b. transitivity (dot3 (ahead (stView s) a) (ahead (stView s) b) / 400).
    - unfold dot3, scal3. cbn [vx vy vz]. field.
    - unfold ahead. now rewrite turn_dot. }
  rewrite rightwards_eq, upwards_eq, forwards_eq. unfold norm2. rewrite !D. unfold dot3. cbn [vx vy vz]. repeat split; lra.
Qed.
Lemma wheel_moves (s : state R) : vwIsometric (stView s) = false -> isLeft (stMouse s) = false ->
  stView (wheel BWheelUp s) = stView (press KUp false s) /\ stView (wheel BWheelDown s) = stView (press KDown false s) /\
  stView (wheel BWheelLeft s) = stView (press KLeft false s) /\ stView (wheel BWheelRight s) = stView (press KRight false s).
Proof.
  intros Hi Hm. unfold wheel, handleMouseEvent. rewrite Hm. cbn [setMouse stView]. rewrite Hi. repeat split; reflexivity.
Qed.

(** ** Dragging *)
Lemma drag_view dx dy (s : state R) : isLeft (stMouse s) = true ->
  stView (drag dx dy s) = withAngles (stView s) (vwCamYaw (stView s) + dx / 200)
    (Rmin (PI / 2) (Rmax (- (PI / 2)) (vwCamPitch (stView s) + dy / 200))).
Proof.
  intros Hm. pose proof PI_RGT_0 as P. unfold drag, handleMouseEvent. rewrite Hm. cbn [setMouse stView].
  destruct (negb (vwIsometric _)); cbn [setMouse stView]; unfold rotateCamera, setView; cbn [setMouse stView]; f_equal; unfold nQ; rnum.
  all: try (replace (stX s + dx - stX s) with dx by ring; lra).
  all: replace (stY s + dy - stY s) with dy by ring; replace (vwCamPitch (stView s) + dy * (5 / 1000)) with (vwCamPitch (stView s) + dy / 200) by lra;
    set (p := vwCamPitch (stView s) + dy / 200); clearbody p.
  all: destruct (Rltb_spec p (- (PI / 2))); match goal with |- context [Rltb (PI / 2) ?x] => destruct (Rltb_spec (PI / 2) x) end;
    unfold Rmin, Rmax; repeat destruct (Rle_dec _ _); lra.
Qed.

Lemma drag_follows dx dy (s : state R) : isLeft (stMouse s) = true -> - (PI / 2) <= vwCamPitch (stView s) <= PI / 2 ->
  (dy = 0 -> forall a, ahead (stView (drag dx dy s)) a = turn (dx / 200) 0 0 (ahead (stView s) a)) /\
  (dx = 0 -> - (PI / 2) <= vwCamPitch (stView s) + dy / 200 <= PI / 2 ->
    forall a, ahead (stView (drag dx dy s)) a = ahead (stView s) (turn 0 (dy / 200) 0 a)).
Proof.
  intros Hm Hp. rewrite (drag_view _ _ _ Hm). unfold ahead, withAngles. cbn [vwCamYaw vwCamPitch]. split.
  - intros -> a. replace (Rmin _ _) with (vwCamPitch (stView s)) by (unfold Rmin, Rmax; repeat destruct (Rle_dec _ _); lra).
    unfold turn. cbn [vx vy vz]. rewrite cos_plus, sin_plus, cos_0, sin_0. apply vec_eq; cbn [vx vy vz]; ring.
  - intros -> Hq a. replace (Rmin _ _) with (vwCamPitch (stView s) + dy / 200) by (unfold Rmin, Rmax; repeat destruct (Rle_dec _ _); lra).
    replace (vwCamYaw (stView s) + 0 / 200) with (vwCamYaw (stView s)) by lra.
    unfold turn. cbn [vx vy vz]. rewrite cos_plus, sin_plus, cos_0, sin_0. apply vec_eq; cbn [vx vy vz]; ring.
Qed.
Lemma dot_scal k (a b : pt) : dot3 (scal3 k a) (scal3 k b) = k * k * dot3 a b.
Proof. unfold dot3, scal3. cbn [vx vy vz]. ring. Qed.
Lemma picture_follows d (s : state R) : isLeft (stMouse s) = true -> - (PI / 2) <= vwCamPitch (stView s) <= PI / 2 ->
  dot3 (forwards s) (rightwards (drag d 0 s)) = cos (vwCamPitch (stView s)) * sin (d / 200) / 400 /\
  (- (PI / 2) <= vwCamPitch (stView s) + d / 200 <= PI / 2 -> dot3 (forwards s) (upwards (drag 0 d s)) = - sin (d / 200) / 400).
Proof.
  intros Hm Hp. rewrite forwards_eq, rightwards_eq, upwards_eq, !dot_scal. split.
  - rewrite (proj1 (drag_follows d 0 s Hm Hp) eq_refl). unfold ahead, turn, dot3. cbn [vx vy vz]. rewrite sin_0, cos_0.
    set (y := vwCamYaw (stView s)). pose proof (sin2_cos2 y) as H. unfold Rsqr in H.
    transitivity (cos (vwCamPitch (stView s)) * sin (d / 200) * (sin y * sin y + cos y * cos y) / 400); [field|rewrite H; field].
  - intros Hq. rewrite (proj2 (drag_follows 0 d s Hm Hp) eq_refl Hq). unfold ahead. rewrite turn_dot. unfold dot3, turn. cbn [vx vy vz].
    rewrite sin_0, cos_0. lra.
Qed.

(** ** What every session keeps *)
Definition upright (v : view R) : Prop := - (PI / 2) <= vwCamPitch v <= PI / 2 /\ (vwIsometric v = true -> 0 < vwIsometricFOV v) /\ 0 <= vwIsometricFOV v.
Lemma upright_moveCam d (s : state R) : upright (stView s) -> upright (stView (moveCam d s)).
Proof. exact (fun H => H). Qed.
Lemma fovOr8_pos f : 0 <= f -> 0 < fovOr8 (F := R) f.
Proof. intros H. unfold fovOr8. rnum. destruct (Reqb_spec f 0); lra. Qed.
Lemma upright_toggle d (s : state R) : upright (stView s) -> upright (stView (toggleIsometric d s)).
Proof.
  intros (A & B & C). pose proof (fovOr8_pos _ C). unfold toggleIsometric, setView, withIsometric, upright. cbn [stView vwCamPitch vwIsometric vwIsometricFOV].
  split; [exact A|]. split; [intros _; assumption|lra].
Qed.
Lemma upright_zoom k (s : state R) : 0 < k -> upright (stView s) -> upright (stView (isometricZoom k s)).
Proof.
  intros K (A & B & C). pose proof (fovOr8_pos _ C). unfold isometricZoom, setView, withIsometric, upright. cbn [stView vwCamPitch vwIsometric vwIsometricFOV].
  rnum. assert (0 < fovOr8 (vwIsometricFOV (stView s)) * k) by now apply Rmult_lt_0_compat. split; [exact A|]. split; [intros _; assumption|lra].
Qed.
Lemma upright_rotate dx dy (s : state R) : upright (stView s) -> upright (stView (rotateCamera dx dy s)).
Proof.
  intros (A & B & C). pose proof PI_RGT_0 as P. unfold rotateCamera, setView, withAngles, upright. cbn [stView vwCamPitch vwIsometric vwIsometricFOV].
  split; [|split; assumption]. rnum. set (p := _ + dy * _). clearbody p.
  destruct (Rltb_spec p (- (PI / 2))); match goal with |- context [Rltb (PI / 2) ?x] => destruct (Rltb_spec (PI / 2) x) end; lra.
Qed.
Lemma zooms : 0 < sqrt (1 / 2) /\ 0 < sqrt 2.
Proof. split; apply sqrt_lt_R0; lra. Qed.
Lemma upright_event to32 e (s s' : state R) : upright (stView s) -> handleEvent to32 e s = Val s' -> upright (stView s').
Proof.
  intros H E. destruct zooms as [Z1 Z2]. destruct e as [pr code sh|dir b x y sh|w h| |dead]; cbn [handleEvent] in E.
  - injection E as <-. destruct pr; [|exact H]. destruct code, sh; cbn [handleKeyEvent];
      first [now apply upright_moveCam | now apply upright_toggle | exact H
            |destruct H as (A & B & C); unfold toggleNormals, setView, withNormals, upright; cbn [stView vwCamPitch vwIsometric vwIsometricFOV]; auto].
  - injection E as <-. unfold handleMouseEvent.
    destruct (match dir with DPress => _ | _ => _ end) as [m p]. set (s1 := setMouse m p (stX s) (stY s) s).
    assert (H1 : upright (stView s1)) by exact H. set (s2 := if isLeft m then _ else s1).
    assert (H2 : upright (stView s2)) by (subst s2; destruct (isLeft m); [now apply upright_rotate|exact H1]).
    set (s3 := setMouse m p x y s2). assert (H3 : upright (stView s3)) by exact H2. clearbody s3.
    destruct (negb _); destruct b, sh; first [exact H3 | now apply upright_moveCam | now apply upright_zoom; rnum].
  - injection E as <-. exact H.
  - injection E as <-. exact H.
  - unfold handleLifecycleEvent in E. destruct dead; [destruct (stAborted s); [discriminate|]|]; injection E as <-; exact H.
Qed.
Lemma upright_run to32 jsonOk is (s : state R) : run to32 jsonOk is start = Val s -> upright (stView s).
Proof.
  apply (view_inv to32 jsonOk upright (fun _ => True)).
  - intros e t t' _. apply upright_event.
  - auto.
  - unfold upright. cbn. pose proof PI_RGT_0. repeat split; try discriminate; lra.
Qed.
Lemma never_upside_down to32 jsonOk is (s : state R) : run to32 jsonOk is start = Val s -> 0 <= vy (upwards s).
Proof.
  intros E. destruct (upright_run _ _ _ _ E) as (P & _). rewrite upwards_eq. unfold ahead, turn, scal3. cbn [vx vy vz]. rewrite cos_0.
  pose proof (cos_ge_0 _ (proj1 P) (proj2 P)). lra.
Qed.

(** ** Without perspective *)
Lemma axis_keys code k (s : state R) shift : axis_key code = Some k ->
  along_axis (stView (press code shift s)) = (if (match along_axis (stView s) with Some j => j =? k | None => false end)%Z then None else Some k) /\
  vwIsometricFOV (stView (press code shift s)) = (if Req_EM_T (vwIsometricFOV (stView s)) 0 then 8 else vwIsometricFOV (stView s)).
Proof.
  assert (T : forall d, along_axis (stView (toggleIsometric d s)) = (if (match along_axis (stView s) with Some j => j =? d | None => false end)%Z then None else Some d) /\
    vwIsometricFOV (stView (toggleIsometric d s)) = (if Req_EM_T (vwIsometricFOV (stView s)) 0 then 8 else vwIsometricFOV (stView s))).
  { intros d. unfold toggleIsometric, setView, withIsometric, along_axis. cbn [stView vwIsometric vwIsometricFOV vwIsometricDir]. split.
    - destruct (vwIsometric (stView s)), (vwIsometricDir (stView s) =? d)%Z; reflexivity.
    - unfold fovOr8. rnum. destruct (Reqb_spec (vwIsometricFOV (stView s)) 0), (Req_EM_T (vwIsometricFOV (stView s)) 0); lra. }
  destruct code; cbn [axis_key]; intros H; try discriminate; injection H as <-; apply T.
Qed.
Lemma axis_twice code k (s : state R) shift : axis_key code = Some k -> vwIsometric (stView s) = false ->
  along_axis (stView (press code shift (press code shift s))) = None.
Proof.
  intros H Hi. rewrite (proj1 (axis_keys code k _ shift H)), (proj1 (axis_keys code k _ shift H)).
  replace (along_axis (stView s)) with (@None Z) by (unfold along_axis; now rewrite Hi). now rewrite Z.eqb_refl.
Qed.
Lemma zoom_halves (s : state R) : vwIsometric (stView s) = true -> 0 < vwIsometricFOV (stView s) -> isLeft (stMouse s) = false ->
  vwIsometricFOV (stView (wheel BWheelDown s)) ^ 2 = 2 * vwIsometricFOV (stView s) ^ 2 /\
  stView (wheel BWheelUp (wheel BWheelDown s)) = stView s.
Proof.
  intros Hi Hf Hm. destruct zooms as [Z1 Z2].
  assert (E : stView (wheel BWheelDown s) = withIsometric (stView s) true (vwIsometricFOV (stView s) * sqrt 2) (vwIsometricDir (stView s))).
  { unfold wheel, handleMouseEvent. rewrite Hm. cbn [setMouse stView]. rewrite Hi. cbn [negb]. unfold isometricZoom, setView. cbn [setMouse stView].
    rewrite Hi. f_equal. unfold fovOr8. rnum. destruct (Reqb_spec (vwIsometricFOV (stView s)) 0); [lra|reflexivity]. }
  split.
  - rewrite E. unfold withIsometric. cbn [vwIsometricFOV]. replace ((vwIsometricFOV (stView s) * sqrt 2) ^ 2) with (vwIsometricFOV (stView s) ^ 2 * (sqrt 2 * sqrt 2)) by ring.
    rewrite sqrt_def by lra. ring.
  - set (s1 := wheel BWheelDown s) in *.
    assert (Hm1 : isLeft (stMouse s1) = false).
    { subst s1. unfold wheel, handleMouseEvent. rewrite Hm. cbn [setMouse stView]. rewrite Hi. exact Hm. }
    unfold wheel at 1, handleMouseEvent. rewrite Hm1. cbn [setMouse stView]. rewrite E. cbn [withIsometric vwIsometric negb].
    unfold isometricZoom, setView. cbn [setMouse stView]. rewrite E. unfold withIsometric. cbn [vwWidth vwHeight vwAntiAlias vwCamPos vwCamYaw vwCamPitch vwDebugNormals vwIsometric vwIsometricFOV vwIsometricDir].
    unfold fovOr8. unfold nQ. rnum. assert (0 < vwIsometricFOV (stView s) * sqrt 2) by now apply Rmult_lt_0_compat.
    destruct (Reqb_spec (vwIsometricFOV (stView s) * sqrt 2) 0); [lra|].
    rewrite Rmult_assoc, <- sqrt_mult by lra. replace (2 * (1 / 2)) with 1 by lra. rewrite sqrt_1, Rmult_1_r.
    clear - Hi. destruct (stView s) as [w h aa p y q n i f d]. cbn in *. now rewrite Hi.
Qed.
Lemma axis_ignores_camera {M L Med : Type} (nm n2 fb : M) (v w : view R) (sp : spec R M L Med) : vwIsometric v = true -> vwIsometricFOV v <> 0 ->
  vwWidth w = vwWidth v -> vwHeight w = vwHeight v -> vwDebugNormals w = vwDebugNormals v -> vwIsometric w = true ->
  vwIsometricFOV w = vwIsometricFOV v -> vwIsometricDir w = vwIsometricDir v ->
  viewApplyTo nm n2 fb w sp = viewApplyTo nm n2 fb v sp.
Proof.
  intros Hi Hf E1 E2 E3 E4 E5 E6. unfold viewApplyTo. rewrite E1, E2, E3, E4, E5, E6, Hi. destruct (spCamera sp) as [c|]; [|reflexivity].
  unfold initDefaults. cbn [spRecursion spNumPass spCamera spWidth spHeight spDebugNormals spObjects spMedia spLights spIsometricFOV spIsometricDir obind].
  repeat match goal with |- context [match ?x with pair _ _ => _ end] => destruct x as [? ?] end.
  rnum. destruct (Reqb_spec (vwIsometricFOV v) 0); [contradiction|]. reflexivity.
Qed.
Lemma axis_still {M L Med : Type} (nm n2 fb : M) (s : state R) (sp : spec R M L Med) : vwIsometric (stView s) = true -> vwIsometricFOV (stView s) <> 0 ->
  (forall code shift, moves code = true -> viewApplyTo nm n2 fb (stView (press code shift s)) sp = viewApplyTo nm n2 fb (stView s) sp) /\
  (forall dx dy, viewApplyTo nm n2 fb (stView (drag dx dy s)) sp = viewApplyTo nm n2 fb (stView s) sp).
Proof.
  intros Hi Hf. split.
  - intros code shift Hm. destruct code, shift; try discriminate Hm; now apply axis_ignores_camera.
  - intros dx dy. unfold drag, handleMouseEvent. destruct (isLeft (stMouse s)); cbn [setMouse stView rotateCamera setView withAngles vwIsometric]; rewrite Hi;
      cbn [negb setMouse stView]; [|reflexivity]. now apply axis_ignores_camera.
Qed.
Lemma normals_cycle (s : state R) shift : (0 <= vwDebugNormals (stView s) <= 2)%Z ->
  (vwDebugNormals (stView (press KN shift s)) = (vwDebugNormals (stView s) + 1) mod 3)%Z.
Proof.
  intros H. unfold press, handleKeyEvent, toggleNormals, setView, withNormals. cbn [stView vwDebugNormals].
  assert (D : (vwDebugNormals (stView s) = 0 \/ vwDebugNormals (stView s) = 1 \/ vwDebugNormals (stView s) = 2)%Z) by lia.
  destruct D as [-> |[-> | ->]]; reflexivity.
Qed.

Lemma turn_scal y p r k (a : pt) : turn y p r (scal3 k a) = scal3 k (turn y p r a).
Proof. unfold turn, scal3. cbn [vx vy vz]. apply vec_eq; cbn [vx vy vz]; ring. Qed.
Lemma drag_turns d (s : state R) : isLeft (stMouse s) = true -> - (PI / 2) <= vwCamPitch (stView s) <= PI / 2 ->
  rightwards (drag d 0 s) = turn (d / 200) 0 0 (rightwards s) /\ upwards (drag d 0 s) = turn (d / 200) 0 0 (upwards s) /\ forwards (drag d 0 s) = turn (d / 200) 0 0 (forwards s).
Proof.
  intros Hm Hp. pose proof (proj1 (drag_follows d 0 s Hm Hp) eq_refl) as E.
  rewrite !rightwards_eq, !upwards_eq, !forwards_eq, !turn_scal, !E. auto.
Qed.
Lemma drag_pitches d (s : state R) : isLeft (stMouse s) = true -> - (PI / 2) <= vwCamPitch (stView s) <= PI / 2 ->
  rightwards (drag 0 d s) = rightwards s /\ (- (PI / 2) <= vwCamPitch (stView s) + d / 200 <= PI / 2 ->
   forwards (drag 0 d s) = plus3 (scal3 (cos (d / 200)) (forwards s)) (scal3 (sin (d / 200)) (upwards s))).
Proof.
  intros Hm Hp. split.
  - rewrite !rightwards_eq, (drag_view _ _ _ Hm). unfold ahead, turn, withAngles, scal3. cbn [vwCamYaw vwCamPitch vx vy vz]. rewrite cos_0, sin_0.
    replace (vwCamYaw (stView s) + 0 / 200) with (vwCamYaw (stView s)) by lra. apply vec_eq; cbn [vx vy vz]; ring.
  - intros Hq. pose proof (proj2 (drag_follows 0 d s Hm Hp) eq_refl Hq) as E. rewrite !upwards_eq, !forwards_eq, E.
    unfold ahead, turn, scal3, plus3. cbn [vx vy vz]. rewrite cos_0, sin_0. apply vec_eq; cbn [vx vy vz]; ring.
Qed.

(** ** Examples *)
Lemma walk : vwCamPos (stView (press KUp false (press KE false (press KF false start)))) = Vec (1 / 20) 0 (- (1 / 10)) :> pt.
Proof.
  assert (S : forall code (s : state R), vwCamPos (stView (press code false s)) = plus3 (vwCamPos (stView s)) (travel code false s)).
  { intros code s. unfold travel, minus3, plus3. apply vec_eq; cbn [vx vy vz]; ring. }
  assert (A : forall s : state R, vwCamYaw (stView s) = 0 -> vwCamPitch (stView s) = 0 -> forall a, ahead (stView s) a = a).
  { intros s E1 E2 a. unfold ahead, turn. rewrite E1, E2, cos_0, sin_0. apply vec_eq; cbn [vx vy vz]; ring. }
  rewrite 3 S. change (travel KUp false ?s) with (forwards s). change (travel KE false ?s) with (forwards s). change (travel KF false ?s) with (rightwards s).
  rewrite !forwards_eq, !rightwards_eq, !A by reflexivity. unfold plus3, scal3. cbn [start stView startView vwCamPos vx vy vz]. rnum. apply vec_eq; cbn [vx vy vz]; lra.
Qed.
Lemma tour :
  along_axis (stView (press KX false start)) = Some 0%Z /\ along_axis (stView (press KZ false (press KX false start))) = Some 2%Z /\
  along_axis (stView (press KZ false (press KZ false (press KX false start)))) = None /\
  forwards (drag 0 1000 (setMouse BLeft true 0 0 start)) = Vec 0 (/ 20) 0.
Proof.
  repeat split. rewrite forwards_eq, drag_view by reflexivity. unfold ahead, withAngles, setMouse. cbn [stView start startView vwCamYaw vwCamPitch]. rnum.
  pose proof PI_4 as P4. pose proof PI_RGT_0 as P0.
  replace (Rmin _ _) with (PI / 2) by (unfold Rmin, Rmax; repeat destruct (Rle_dec _ _); lra).
  replace (0 + 0 / 200) with 0 by lra. unfold turn, scal3. cbn [vx vy vz]. rewrite cos_0, sin_0, cos_PI2, sin_PI2. apply vec_eq; cbn [vx vy vz]; lra.
Qed.
