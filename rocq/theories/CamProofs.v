(** * Cameras (C44-C47, C81) *)
From Coq Require Import ZArith Reals Bool List Lra Lia Psatz.
From Verif Require Import Num NumLaws Outcome GeomModel GeomSpec GeomProofs ColorModel SeqModel SeqProofs ObjModel TreeModel ObjSpec SceneModel SceneSpec SceneProofs CtxProofs ParamProofs.
Import ListNotations.
Local Open Scope R_scope.

Section Cam.
  Context {G : Type} {NI : NumInf R}.
  Variable rand2 : G -> (R * R) * G.
  Notation ctx := (ctx R G).

  (** what the wrapped camera does with lens sample [s] *)
  Definition ray0 (k : camera0 R) (s : R * R) (u v : R) : ray R :=
    match k with
    | CProjective f fd a =>
      projectiveRay f fd (if (a >? #0)%num then (let '(x, y) := uniformDisk (fst s) (snd s) in Vec (0 + x * a) (0 + y * a) 0) else vO) u v
    | CEnvMap => envMapRay u v
    | CIsometric size => isometricRay size u v
    end.

  Lemma write_read (c : ctx) i q0 q : nth_error (cHeap c) i = Some q0 ->
    exists c', writeRay i q c = Val (tt, c') /\ nth_error (cHeap c') i = Some q /\ cPool c' = cPool c /\ cRng c' = cRng c.
  Proof.
    intros H. unfold writeRay. rewrite H. eexists. split; [reflexivity|]. cbn. split; [|auto].
    apply nth_setNth_eq. apply nth_error_Some. now rewrite H.
  Qed.

  Lemma shoots_run (cam : camera R) u v (c : ctx) : pool_ok c ->
    shoots rand2 cam u v c (camRay cam (ray0 (camOrig cam) (fst (rand2 (cRng c))) u v)).
  Proof.
    intros Hp. unfold shoots, rayFrom.
    destruct (new_ray_zero c Hp) as (i & c1 & E1 & _ & _ & Hz & _).
    assert (Hr1 : cRng c1 = cRng c).
    { revert E1. unfold newRay, mbind, writeRay, mret. destruct (cPool c); cbn [obind];
      match goal with |- context [nth_error ?h ?j] => destruct (nth_error h j) end; cbn [obind]; intros E1; try discriminate; injection E1 as <- <-; reflexivity. }
    assert (X : exists c2, rayFrom0 rand2 (camOrig cam) u v c = Val (i, c2) /\ nth_error (cHeap c2) i = Some (ray0 (camOrig cam) (fst (rand2 (cRng c))) u v)).
    { unfold rayFrom0. unfold mbind at 1. rewrite E1. cbn [obind]. destruct (camOrig cam) as [f fd a| |size]; cbn [ray0].
      - destruct (a >? #0)%num.
        + unfold mbind, generateLens, pseudo2. cbn [obind]. rewrite Hr1. destruct (rand2 (cRng c)) as [uv g] eqn:Eg. cbn [obind fst].
          destruct (uniformDisk (fst uv) (snd uv)) as [x y]. cbn [mret obind].
          destruct (write_read (withRng c1 g) i zeroRay (projectiveRay f fd (Vec (#0 + x * a) (#0 + y * a) #0)%num u v)) as (c2 & E2 & H2 & _); [exact Hz|].
          rewrite E2. cbn [obind]. exists c2. split; [reflexivity|exact H2].
        + unfold mbind, mret. cbn [obind].
          destruct (write_read c1 i zeroRay (projectiveRay f fd vO u v)) as (c2 & E2 & H2 & _); [exact Hz|].
          rewrite E2. cbn [obind]. exists c2. split; [reflexivity|exact H2].
      - unfold mbind, mret. destruct (write_read c1 i zeroRay (envMapRay u v)) as (c2 & E2 & H2 & _); [exact Hz|].
        rewrite E2. cbn [obind]. exists c2. auto.
      - unfold mbind, mret. destruct (write_read c1 i zeroRay (isometricRay size u v)) as (c2 & E2 & H2 & _); [exact Hz|].
        rewrite E2. cbn [obind]. exists c2. auto. }
    destruct X as (c2 & E2 & H2). unfold mbind at 1. rewrite E2. cbn [obind].
    unfold mbind, readRay. rewrite H2. cbn [obind].
    destruct (write_read c2 i _ (camRay cam (ray0 (camOrig cam) (fst (rand2 (cRng c))) u v)) H2) as (c3 & E3 & H3 & _).
    rewrite E3. cbn [obind]. exists i, c3. split; [reflexivity|exact H3].
  Qed.
  Lemma shoots_fun cam u v c q q' : shoots rand2 cam u v c q -> shoots rand2 cam u v c q' -> q = q'.
  Proof.
    intros (r & c1 & E & H) (r' & c1' & E' & H'). rewrite E in E'. injection E' as <- <-. rewrite H in H'. now injection H'.
  Qed.
End Cam.

(** ** Rotations *)
Lemma mmulvec_zero (m : matrix R) : mmulvec m zero3 = zero3.
Proof. geom_unfold. unfold zero3. vec_ring. Qed.

Lemma ypr_matrix y p r (a : pt) : mmulvec (afA (yawPitchRoll y p r)) a = turn y p r a.
Proof.
  assert (E : transformPoint (yawPitchRoll y p r) a = turn y p r a).
  { rewrite yawPitchRoll_order. destruct a as [a1 a2 a3]. rewrite roll_point, pitch_point, yaw_point. reflexivity. }
  assert (E0 : transformPoint (yawPitchRoll y p r) zero3 = zero3).
  { rewrite yawPitchRoll_order. unfold zero3. rewrite roll_point, pitch_point, yaw_point. apply vec_eq; cbn [vx vy vz]; ring. }
  unfold transformPoint in E, E0.
  assert (Z : mmulvec (afA (yawPitchRoll y p r)) zero3 = zero3).
  { apply mmulvec_zero. }
  rewrite Z in E0. rewrite <- E. generalize dependent (afB (yawPitchRoll y p r)). intros b _ E0.
  assert (b = zero3) as ->.
  { destruct b as [b1 b2 b3]. unfold vadd, zero3 in E0; cbn [vx vy vz] in E0; rnum. injection E0 as A B C.
    apply vec_eq; cbn [vx vy vz zero3]; lra. }
  destruct (mmulvec _ a) as [q1 q2 q3]. apply vec_eq; unfold vadd, zero3; cbn [vx vy vz]; rnum; ring.
Qed.

Lemma turn_dot y p r a b : dot3 (turn y p r a) (turn y p r b) = dot3 a b.
Proof.
  destruct a as [a1 a2 a3], b as [b1 b2 b3]. unfold turn, dot3; cbn [vx vy vz].
  generalize (cs1 y) (cs1 p) (cs1 r). set (cy := cos y). set (sy := sin y). set (cp := cos p). set (sp := sin p). set (cr := cos r). set (sr := sin r).
  clearbody cy sy cp sp cr sr. intros A B C.
  set (x1 := a1 * cr - a2 * sr). set (y1 := a2 * cr + a1 * sr). set (x1' := b1 * cr - b2 * sr). set (y1' := b2 * cr + b1 * sr).
  set (z2 := a3 * cp + y1 * sp). set (z2' := b3 * cp + y1' * sp).
  transitivity ((cy * cy + sy * sy) * (x1 * x1' + z2 * z2') + (y1 * cp - a3 * sp) * (y1' * cp - b3 * sp)); [ring|].
  rewrite A. unfold z2, z2'.
  transitivity (x1 * x1' + (cp * cp + sp * sp) * (y1 * y1' + a3 * b3)); [ring|]. rewrite B. unfold x1, x1', y1, y1'.
  transitivity ((cr * cr + sr * sr) * (a1 * b1 + a2 * b2) + a3 * b3); [ring|]. rewrite C. ring.
Qed.

Lemma turned_dot ms : forall a b, dot3 (turned ms a) (turned ms b) = dot3 a b.
Proof.
  induction ms as [|m ms IH]; intros a b; [reflexivity|]. unfold turned in *. cbn [fold_left].
  destruct m as [d|y p r]; rewrite IH; [reflexivity|apply turn_dot].
Qed.
Lemma turn_minus y p r a b : turn y p r (minus3 a b) = minus3 (turn y p r a) (turn y p r b).
Proof. unfold turn, minus3; cbn [vx vy vz]. apply vec_eq; cbn [vx vy vz]; ring. Qed.
Lemma turned_minus ms : forall a b, turned ms (minus3 a b) = minus3 (turned ms a) (turned ms b).
Proof.
  induction ms as [|m ms IH]; intros a b; [reflexivity|]. unfold turned in *. cbn [fold_left].
  destruct m as [d|y p r]; [apply IH|]. rewrite turn_minus. apply IH.
Qed.

(** ** C47 *)
Lemma call_orig m cam : camOrig (call cam m) = camOrig cam.
Proof. destruct m; reflexivity. Qed.
Lemma calls_orig ms : forall cam, camOrig (fold_left call ms cam) = camOrig cam.
Proof. induction ms as [|m ms IH]; intros cam; [reflexivity|]. cbn [fold_left]. rewrite IH. apply call_orig. Qed.
Lemma calls_pos ms : forall cam, camPos (fold_left call ms cam) = shifted ms (camPos cam).
Proof.
  induction ms as [|m ms IH]; intros cam; [reflexivity|]. cbn [fold_left]. rewrite IH. unfold shifted at 2; cbn [fold_left].
  destruct m as [d|y p r]; cbn [call]; unfold camTranslate, camYawPitchRoll, transformCam; cbn [camPos]; unfold shifted; f_equal.
  - unfold vadd, plus3. f_equal; rnum; ring.
  - destruct (camPos cam) as [k1 k2 k3]. unfold vadd, vO; cbn [vx vy vz]. f_equal; rnum; ring.
Qed.
Lemma calls_matrix ms : forall cam a, mmulvec (camMatrix (fold_left call ms cam)) a = turned ms (mmulvec (camMatrix cam) a).
Proof.
  induction ms as [|m ms IH]; intros cam a; [reflexivity|]. cbn [fold_left]. rewrite IH. unfold turned at 2; cbn [fold_left].
  destruct m as [d|y p r]; cbn [call]; unfold camTranslate, camYawPitchRoll, transformCam; cbn [camMatrix]; unfold turned; f_equal; rewrite mmulvec_mmul.
  - apply mmulvec_unit.
  - apply ypr_matrix.
Qed.

Lemma moved_camera {G} {NI : NumInf R} (rand2 : G -> (R * R) * G) (cam : camera R) ms u v (c : ctx R G) q : pool_ok c -> shoots rand2 cam u v c q ->
  shoots rand2 (fold_left call ms cam) u v c
    (Ray (plus3 (shifted ms (camPos cam)) (turned ms (minus3 (rStart q) (camPos cam)))) (turned ms (rDir q))).
Proof.
  intros Hp Hq. generalize (shoots_fun rand2 cam u v c _ _ Hq (shoots_run rand2 cam u v c Hp)). intros ->.
  generalize (shoots_run rand2 (fold_left call ms cam) u v c Hp). rewrite calls_orig.
  set (q0 := ray0 _ _ _ _). intros H. replace (Ray _ _) with (camRay (fold_left call ms cam) q0); [exact H|].
  unfold camRay. rewrite calls_pos, !calls_matrix. cbn [rStart rDir].
  set (A := mmulvec (camMatrix cam) (rStart q0)).
  replace (minus3 (vadd A (camPos cam)) (camPos cam)) with A by (unfold minus3, vadd; apply vec_eq; cbn [vx vy vz]; rnum; ring).
  f_equal. unfold vadd, plus3. f_equal; rnum; ring.
Qed.

(** ** C44 *)
Lemma half_turn (a : pt) : turn (deg (IZR 180)) 0 0 a = Vec (- vx a) (vy a) (- vz a).
Proof.
  unfold turn, deg; rnum. replace (180 * (PI / 180)) with PI by field. rewrite cos_0, sin_0, cos_PI, sin_PI. apply vec_eq; cbn [vx vy vz]; ring.
Qed.
Lemma nQ_half : (nQ 1 2 : R) = / 2.
Proof. unfold nQ; rnum. field. Qed.

Lemma tan_half_pos fov : 0 < fov < PI -> 0 < tan (fov / 2).
Proof. intros H. apply tan_gt_0; lra. Qed.

Lemma proj_cam fov aperture fd : 0 < fov < PI -> fd <> 0 ->
  projectiveAperture fov aperture fd =
    Val (WithTransform (CProjective (/ (2 * tan (fov / 2))) fd aperture) vO (afA (yawPitchRoll (deg (IZR 180)) 0 0))).
Proof.
  intros H Hf. unfold projectiveAperture, fovToFocalLen, transform0; rnum. rewrite nQ_half.
  replace (Reqb fd 0) with false by (symmetry; destruct (Reqb_spec fd 0); [contradiction|reflexivity]).
  rewrite andb_false_r.
  destruct (Rleb_spec fov 0); [lra|]. destruct (Rleb_spec PI fov); [lra|]. cbn [orb omap].
  generalize (tan_half_pos fov H). intros Ht.
  replace (/ 2 / tan (fov / 2)) with (/ (2 * tan (fov / 2))) by (field; lra). reflexivity.
Qed.

Lemma unit_of_scal k (a : pt) : 0 < k -> unit_of (scal3 k a) = unit_of a.
Proof.
  intros Hk. unfold unit_of.
  assert (E : norm (scal3 k a) = k * norm a).
  { unfold norm. replace (norm2 (scal3 k a)) with (k * k * norm2 a) by (spec_unfold; ring).
    rewrite sqrt_mult_alt by nra. now rewrite sqrt_square by lra. }
  rewrite E. destruct a as [a1 a2 a3]. destruct (Req_dec (norm (Vec a1 a2 a3)) 0) as [Z|Z].
  - rewrite Z, Rmult_0_r. unfold scal3; cbn [vx vy vz].
    assert (N : norm2 (Vec a1 a2 a3) = 0) by (rewrite <- norm_sqr, Z; ring).
    unfold norm2, dot3 in N; cbn [vx vy vz] in N. assert (a1 = 0 /\ a2 = 0 /\ a3 = 0) as (-> & -> & ->) by (repeat split; nra).
    apply vec_eq; cbn [vx vy vz]; ring.
  - unfold scal3; cbn [vx vy vz]. apply vec_eq; cbn [vx vy vz]; field; lra.
Qed.

Lemma turn_unit_of (a : pt) : turn (deg (IZR 180)) 0 0 (unit_of a) = unit_of (turn (deg (IZR 180)) 0 0 a).
Proof.
  rewrite !half_turn. destruct a as [a1 a2 a3]. unfold unit_of, scal3; cbn [vx vy vz].
  replace (norm (Vec (- a1) a2 (- a3))) with (norm (Vec a1 a2 a3)); [apply vec_eq; cbn [vx vy vz]; ring|].
  unfold norm. f_equal. spec_unfold. ring.
Qed.

Lemma pinhole {G} {NI : NumInf R} (rand2 : G -> (R * R) * G) fov : 0 < fov < PI ->
  exists cam, projective fov = Val cam /\ forall u v (c : ctx R G), pool_ok c ->
    shoots rand2 cam u v c (Ray zero3 (unit_of (Vec (u - / 2) (v - / 2) (- / (2 * tan (fov / 2)))))).
Proof.
  intros H. unfold projective. rewrite proj_cam by (rnum; lra). eexists. split; [reflexivity|].
  intros u v c Hc. set (cam := WithTransform _ _ _). set (q := Ray _ _).
  generalize (shoots_run rand2 cam u v c Hc). intros S.
  replace q with (camRay cam (ray0 (camOrig cam) (fst (rand2 (cRng c))) u v)); [exact S|].
  unfold camRay, cam, q. cbn [camOrig ray0 camMatrix camPos]. rnum.
  destruct (Rltb_spec 0 0); [lra|]. unfold projectiveRay. rnum. destruct (Reqb_spec 1 0); [lra|]. cbn [negb rStart rDir].
  rewrite vnormalized_unit_of, !ypr_matrix, turn_unit_of, !half_turn, nQ_half. f_equal.
  - unfold vadd, vO, zero3; cbn [vx vy vz]. apply vec_eq; cbn [vx vy vz]; rnum; ring.
  - f_equal. unfold vsub, vmul, vO; cbn [vx vy vz]. apply vec_eq; cbn [vx vy vz]; rnum; ring.
Qed.

Lemma pinhole_bad fov : fov <= 0 \/ PI <= fov -> projective (F:=R) fov = Panic.
Proof.
  intros H. unfold projective, projectiveAperture, fovToFocalLen; rnum.
  destruct (Rleb_spec fov 0), (Rleb_spec PI fov); cbn [orb omap]; try reflexivity. lra.
Qed.

Lemma unit_of_norm2' (a : pt) : vz a <> 0 -> norm2 (unit_of a) = 1.
Proof. intros H. apply unit_of_norm2. intros ->. apply H. reflexivity. Qed.

Lemma norm_sq_eq (x : pt) n : 0 <= n -> norm2 x = n * n -> norm x = n.
Proof. intros H E. unfold norm. rewrite E. now apply sqrt_square. Qed.

Lemma pinhole_center f : 0 < f -> unit_of (Vec (/ 2 - / 2) (/ 2 - / 2) (- f)) = Vec 0 0 (-1).
Proof.
  intros H. unfold unit_of. rewrite (norm_sq_eq _ f); [|lra|spec_unfold; ring]. unfold scal3; cbn [vx vy vz]. apply vec_eq; cbn [vx vy vz]; field; lra.
Qed.

Lemma pinhole_span fov : 0 < fov < PI -> let f := / (2 * tan (fov / 2)) in
  dot3 (unit_of (Vec (0 - / 2) (/ 2 - / 2) (- f))) (unit_of (Vec (1 - / 2) (/ 2 - / 2) (- f))) = cos fov.
Proof.
  intros H. cbv zeta. generalize (tan_half_pos fov H). intros Ht.
  assert (Hs : 0 < sin (fov / 2)) by (apply sin_gt_0; lra). assert (Hc : 0 < cos (fov / 2)) by (apply cos_gt_0; lra).
  generalize (cs1 (fov / 2)). intros E1.
  set (n := / (2 * sin (fov / 2))).
  assert (Hn : 0 < n) by (apply Rinv_0_lt_compat; lra).
  assert (N : norm (Vec (0 - / 2) (/ 2 - / 2) (- / (2 * tan (fov / 2)))) = n).
  { apply norm_sq_eq; [lra|]. unfold n, tan. spec_unfold.
    apply (Rmult_eq_reg_r (4 * sin (fov / 2) * sin (fov / 2))); [|nra].
    transitivity (cos (fov / 2) * cos (fov / 2) + sin (fov / 2) * sin (fov / 2)); [field; lra|]. rewrite E1. field. lra. }
  assert (N' : norm (Vec (1 - / 2) (/ 2 - / 2) (- / (2 * tan (fov / 2)))) = n).
  { apply norm_sq_eq; [lra|]. unfold n, tan. spec_unfold.
    apply (Rmult_eq_reg_r (4 * sin (fov / 2) * sin (fov / 2))); [|nra].
    transitivity (cos (fov / 2) * cos (fov / 2) + sin (fov / 2) * sin (fov / 2)); [field; lra|]. rewrite E1. field. lra. }
  unfold unit_of. rewrite N, N'. unfold n, tan. spec_unfold.
  replace (cos fov) with (cos (fov / 2) * cos (fov / 2) - sin (fov / 2) * sin (fov / 2)) by (rewrite <- cos_2a; f_equal; field). field. lra.
Qed.

(** ** C45 *)
Lemma lens_rays {G} {NI : NumInf R} (rand2 : G -> (R * R) * G) fov aperture fd : 0 < fov < PI -> 0 < aperture -> 0 < fd ->
  exists cam, projectiveAperture fov aperture fd = Val cam /\ forall u v (c : ctx R G), pool_ok c ->
    exists x y, uniformDisk (fst (fst (rand2 (cRng c)))) (snd (fst (rand2 (cRng c)))) = (x, y) /\
    let start := Vec (- (x * aperture)) (y * aperture) 0 in
    let focus := scal3 fd (Vec (u - / 2) (v - / 2) (- / (2 * tan (fov / 2)))) in
    shoots rand2 cam u v c (Ray start (unit_of (minus3 focus start))).
Proof.
  intros H Ha Hf. rewrite proj_cam by lra. eexists. split; [reflexivity|].
  intros u v c Hc. destruct (uniformDisk _ _) as [x y] eqn:E. exists x, y. split; [reflexivity|].
  cbv zeta. set (cam := WithTransform _ _ _). set (q := Ray _ _).
  generalize (shoots_run rand2 cam u v c Hc). intros S.
  replace q with (camRay cam (ray0 (camOrig cam) (fst (rand2 (cRng c))) u v)); [exact S|].
  unfold camRay, cam, q. cbn [camOrig ray0 camMatrix camPos]. rewrite E. rnum.
  destruct (Rltb_spec 0 aperture); [|lra]. unfold projectiveRay. rnum. destruct (Reqb_spec fd 0); [lra|]. cbn [negb rStart rDir].
  rewrite vnormalized_unit_of, !ypr_matrix, turn_unit_of, !half_turn, nQ_half. f_equal.
  - unfold vadd, vO; cbn [vx vy vz]. apply vec_eq; cbn [vx vy vz]; rnum; ring.
  - f_equal. unfold vsub, vmul, minus3, scal3; cbn [vx vy vz]. apply vec_eq; cbn [vx vy vz]; rnum; ring.
Qed.

Lemma reaches (s p : pt) : p <> s -> exists t, 0 < t /\ along s (unit_of (minus3 p s)) t = p.
Proof.
  intros H. assert (N : minus3 p s <> zero3).
  { intros E. apply H. destruct p as [p1 p2 p3], s as [s1 s2 s3]. unfold minus3, zero3 in E; cbn [vx vy vz] in E. injection E as A B C. apply vec_eq; cbn [vx vy vz]; lra. }
  generalize (norm_pos _ N). intros Hn. exists (norm (minus3 p s)). split; [exact Hn|].
  unfold along, unit_of. set (n := norm _) in *. clearbody n. destruct p as [p1 p2 p3], s as [s1 s2 s3].
  unfold plus3, scal3, minus3; cbn [vx vy vz]. apply vec_eq; cbn [vx vy vz]; field; lra.
Qed.

Lemma lens_focus {G} {NI : NumInf R} (rand2 : G -> (R * R) * G) fov aperture fd :
  (forall g, 0 <= snd (fst (rand2 g)) <= 1) -> 0 < fov < PI -> 0 < aperture -> 0 < fd ->
  exists cam, projectiveAperture fov aperture fd = Val cam /\ forall u v,
    exists p, vz p = - (fd / (2 * tan (fov / 2))) /\
    forall (c : ctx R G), pool_ok c -> exists q, shoots rand2 cam u v c q /\ norm2 (rDir q) = 1 /\
      vz (rStart q) = 0 /\ norm2 (rStart q) <= aperture * aperture /\ exists t, 0 < t /\ along (rStart q) (rDir q) t = p.
Proof.
  intros Hr H Ha Hf. destruct (lens_rays rand2 fov aperture fd H Ha Hf) as (cam & E & S). exists cam. split; [exact E|].
  generalize (tan_half_pos fov H). intros Ht.
  assert (Hk : 0 < / (2 * tan (fov / 2))) by (apply Rinv_0_lt_compat; lra).
  intros u v. exists (scal3 fd (Vec (u - / 2) (v - / 2) (- / (2 * tan (fov / 2))))). split.
  - unfold scal3; cbn [vz]. field. lra.
  - intros c Hc. destruct (S u v c Hc) as (x & y & Exy & Hs). cbv zeta in Hs. eexists. split; [exact Hs|].
    cbn [rStart rDir vz]. set (p := scal3 _ _). set (s := Vec _ _ _).
    assert (Hps : p <> s). { intros X. apply (f_equal vz) in X. unfold p, s, scal3 in X; cbn [vz] in X. nra. }
    split; [|split; [|split]].
    + apply unit_of_norm2'. unfold p, s, minus3, scal3; cbn [vz]. nra.
    + reflexivity.
    + specialize (Hr (cRng c)). destruct (rand2 (cRng c)) as [[a b] g]. cbn [fst snd] in *.
      generalize (uniformDisk_spec a b (proj1 Hr)). rewrite Exy. intros (_ & _ & N).
      unfold s. spec_unfold. nra.
    + apply reaches. exact Hps.
Qed.

(** ** C46 *)
Lemma env_ray {G} {NI : NumInf R} (rand2 : G -> (R * R) * G) u v (c : ctx R G) : pool_ok c ->
  shoots rand2 environmentMap u v c
    (Ray zero3 (Vec (- (sin (2 * PI * u) * cos (PI * (v - / 2)))) (sin (PI * (v - / 2))) (cos (2 * PI * u) * cos (PI * (v - / 2))))).
Proof.
  intros Hc. set (q := Ray _ _). generalize (shoots_run rand2 environmentMap u v c Hc). intros S.
  match type of S with shoots _ _ _ _ _ ?r => replace q with r; [exact S|] end.
  unfold camRay, environmentMap, transform0, q. cbn [camOrig ray0 camMatrix camPos]. unfold envMapRay; cbn [rStart rDir].
  rewrite !mmulvec_unit, nQ_half. rnum. f_equal.
  - unfold vadd, vO, zero3; cbn [vx vy vz]. apply vec_eq; cbn [vx vy vz]; rnum; ring.
  - replace (- u * 2 * PI) with (- (2 * PI * u)) by ring. rewrite sin_neg, cos_neg.
    replace ((v - / 2) * PI) with (PI * (v - / 2)) by ring. f_equal. ring.
Qed.

Lemma cos1_zero x : -2 * PI < x < 2 * PI -> cos x = 1 -> x = 0.
Proof.
  intros H E. replace x with (2 * (x / 2)) in E by field. rewrite cos_2a_sin in E.
  assert (S : sin (x / 2) = 0) by nra.
  destruct (Rtotal_order x 0) as [L|[L|L]]; [|exact L|].
  - exfalso. generalize (sin_lt_0_var (x / 2)). intros X. specialize (X ltac:(lra) ltac:(lra)). lra.
  - exfalso. generalize (sin_gt_0 (x / 2)). intros X. specialize (X ltac:(lra) ltac:(lra)). lra.
Qed.
Lemma angle_unique a b : 0 <= a < 2 * PI -> 0 <= b < 2 * PI -> cos a = cos b -> sin a = sin b -> a = b.
Proof.
  intros Ha Hb C S. assert (X : a - b = 0); [|lra]. apply cos1_zero; [lra|]. rewrite cos_minus, C, S. generalize (cs1 b). lra.
Qed.
Lemma angle_exists k s : k * k + s * s = 1 -> exists a, 0 <= a < 2 * PI /\ cos a = k /\ sin a = s.
Proof.
  intros H. assert (Hk : -1 <= k <= 1) by nra. generalize (acos_bound k). intros B.
  assert (Hs : sin (acos k) = sqrt (1 - k * k)).
  { rewrite sin_acos by exact Hk. reflexivity. }
  generalize PI_RGT_0. intros Hpi.
  destruct (Rle_or_lt 0 s) as [P|P].
  - exists (acos k). split; [lra|]. split; [now apply cos_acos|]. rewrite Hs. replace (1 - k * k) with (s * s) by lra. now apply sqrt_square.
  - exists (2 * PI - acos k).
    assert (Hn : 0 < acos k).
    { destruct (proj1 B) as [?|Z]; [assumption|]. exfalso. apply (f_equal sin) in Z. rewrite Hs, sin_0 in Z.
      replace (1 - k * k) with (- s * - s) in Z by lra. rewrite sqrt_square in Z by lra. lra. }
    split; [lra|]. split.
    + rewrite cos_minus, cos_2PI, sin_2PI, cos_acos by exact Hk. ring.
    + rewrite sin_minus, cos_2PI, sin_2PI, Hs. replace (1 - k * k) with (- s * - s) by lra. rewrite sqrt_square by lra. ring.
Qed.

Definition env_dir (u v : R) : pt :=
  Vec (- (sin (2 * PI * u) * cos (PI * (v - / 2)))) (sin (PI * (v - / 2))) (cos (2 * PI * u) * cos (PI * (v - / 2))).
Lemma env_unit u v : norm2 (env_dir u v) = 1.
Proof.
  unfold env_dir. spec_unfold. set (a := 2 * PI * u). set (b := PI * (v - / 2)).
  transitivity ((cos a * cos a + sin a * sin a) * (cos b * cos b) + sin b * sin b); [ring|]. rewrite cs1. generalize (cs1 b). lra.
Qed.

Lemma env_onto (d : pt) : norm2 d = 1 -> (vx d <> 0 \/ vz d <> 0) -> exists u v, 0 <= u < 1 /\ 0 < v < 1 /\ env_dir u v = d.
Proof.
  destruct d as [x y z]. unfold norm2, dot3; cbn [vx vy vz]. intros H Hxz.
  assert (Hy : -1 < y < 1) by (destruct Hxz; nra).
  generalize PI_RGT_0. intros Hpi.
  set (k := cos (asin y)).
  assert (Ek : k = sqrt (1 - y * y)). { unfold k. rewrite cos_asin by lra. f_equal. }
  assert (Hk : 0 < k) by (rewrite Ek; apply sqrt_lt_R0; nra).
  assert (Ekk : k * k = 1 - y * y) by (rewrite Ek; apply sqrt_sqrt; nra).
  destruct (angle_exists (z / k) (- x / k)) as (a & Ha & Ca & Sa).
  { apply (Rmult_eq_reg_r (k * k)); [|nra]. field_simplify; [|lra]. nra. }
  exists (a / (2 * PI)), (/ 2 + asin y / PI).
  assert (A1 : - (PI / 2) < asin y < PI / 2) by (apply asin_bound_lt; lra).
  split; [|split].
  - split; [apply Rmult_le_pos; [lra|left; apply Rinv_0_lt_compat; lra]|].
    apply (Rmult_lt_reg_r (2 * PI)); [lra|]. unfold Rdiv. rewrite Rmult_assoc, Rinv_l, Rmult_1_r by lra. lra.
  - assert (E : asin y = asin y / PI * PI) by (field; lra). rewrite E in A1. set (w := asin y / PI) in *. split; nra.
  - unfold env_dir. replace (2 * PI * (a / (2 * PI))) with a by (field; lra).
    replace (PI * (/ 2 + asin y / PI - / 2)) with (asin y) by (field; lra).
    rewrite Ca, Sa, sin_asin by lra. fold k. apply vec_eq; cbn [vx vy vz]; [field; lra|reflexivity|field; lra].
Qed.

Lemma env_inj u v u' v' : 0 <= u < 1 -> 0 < v < 1 -> 0 <= u' < 1 -> 0 < v' < 1 -> env_dir u v = env_dir u' v' -> u = u' /\ v = v'.
Proof.
  generalize PI_RGT_0. intros Hpi Hu Hv Hu' Hv' E. unfold env_dir in E. injection E as X Y Z.
  assert (Ev : v = v').
  { apply (f_equal asin) in Y. rewrite !asin_sin in Y by (split; nra). nra. }
  subst v'. split; [|reflexivity].
  assert (Hc : 0 < cos (PI * (v - / 2))) by (apply cos_gt_0; nra).
  set (k := cos (PI * (v - / 2))) in *.
  assert (C : cos (2 * PI * u) = cos (2 * PI * u')) by (apply (Rmult_eq_reg_r k); [exact Z|lra]).
  assert (S : sin (2 * PI * u) = sin (2 * PI * u')) by (apply (Rmult_eq_reg_r k); [lra|lra]).
  assert (A : 2 * PI * u = 2 * PI * u') by (apply angle_unique; auto; split; nra). nra.
Qed.

(** ** C81 *)
Lemma turn_iso (dir : Z) (a : pt) :
  (dir = 0%Z -> turn (deg (IZR 90)) 0 0 a = Vec (vz a) (vy a) (- vx a)) /\
  (dir = 1%Z -> turn 0 (deg (IZR (-90))) 0 a = Vec (vx a) (vz a) (- vy a)) /\
  (dir = 2%Z -> turn 0 0 0 a = a).
Proof.
  assert (D : deg (IZR 90) = PI / 2) by (unfold deg; rnum; field).
  assert (D' : deg (IZR (-90)) = - (PI / 2)) by (unfold deg; rnum; field).
  repeat split; intros _; unfold turn; rewrite ?D, ?D', ?cos_neg, ?sin_neg, ?cos_0, ?sin_0, ?cos_PI2, ?sin_PI2;
    destruct a as [x y z]; apply vec_eq; cbn [vx vy vz]; ring.
Qed.

Lemma iso_rays {G} {NI : NumInf R} (rand2 : G -> (R * R) * G) dir size : (0 <= dir <= 2)%Z ->
  exists cam, isometric dir size = Val cam /\ forall u v (c : ctx R G), pool_ok c ->
    let '(rt, up, back) := iso_frame dir in
    shoots rand2 cam u v c (Ray (plus3 (plus3 (scal3 ((u - / 2) * size) rt) (scal3 ((v - / 2) * size) up)) (scal3 4096 back)) (scal3 (-1) back)).
Proof.
  intros H. assert (C : (dir = 0 \/ dir = 1 \/ dir = 2)%Z) by lia.
  destruct C as [->|[->| ->]]; cbn [isometric Z.eqb Pos.eqb iso_frame]; eexists; (split; [reflexivity|]); intros u v c Hc.
  all: match goal with |- shoots _ ?cm _ _ _ ?q => generalize (shoots_run rand2 cm u v c Hc); intros S;
    match type of S with shoots _ _ _ _ _ ?r => replace q with r; [exact S|] end end.
  all: unfold camRay, transform0; cbn [camOrig ray0 camMatrix camPos]; unfold isometricRay; cbn [rStart rDir]; rewrite !ypr_matrix.
  1: rewrite !(proj1 (turn_iso 0 _) eq_refl). 2: rewrite !(proj1 (proj2 (turn_iso 1 _)) eq_refl). 3: rewrite !(proj2 (proj2 (turn_iso 2 _)) eq_refl).
  all: rewrite !nQ_half; unfold vadd, vO, plus3, scal3; cbn [vx vy vz]; rnum; f_equal; apply vec_eq; cbn [vx vy vz]; ring.
Qed.
