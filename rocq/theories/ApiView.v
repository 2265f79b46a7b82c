(** * Views, and the image of local rendering *)
From Coq Require Import ZArith Reals Bool List Lia Lra.
From Verif Require Import Num NumLaws Outcome GeomModel GeomSpec GeomProofs ColorModel ObjModel SceneModel SceneSpec CamProofs ImageModel ApiModel ApiSpec ApiRender.
Import ListNotations.
Local Open Scope R_scope.

Section View.
  Context {M L Med : Type}.
  Variables (nm n2 fb : M).
  Notation spec := (spec R M L Med).

  Lemma default_camera_ok : exists c : camera R, defaultCamera = Val c.
  Proof.
    unfold defaultCamera, projective. rewrite proj_cam; [eexists; reflexivity| |rnum; lra].
    unfold deg; rnum. pose proof PI_RGT_0. split; nra.
  Qed.

  Lemma init_total (s : spec) : sizes s -> (spIsometricFOV s = 0 \/ (0 <= spIsometricDir s <= 2)%Z) ->
    exists s', initDefaults nm n2 fb s = Val s'.
  Proof.
    intros Hs Hi. rewrite init_eq by exact Hs. destruct default_camera_ok as [dc Hdc]. rewrite Hdc.
    assert (exists c0, match spCamera s with Some c => Val c | None => Val dc end = Val c0) as [c0 ->] by (destruct (spCamera s); eauto).
    cbn [obind]. destruct (neqb (spIsometricFOV s) (nofZ 0)) eqn:E; [eexists; reflexivity|].
    destruct Hi as [Hi|Hi].
    - rnum. rewrite Hi in E. destruct (Reqb_spec 0 0); [discriminate|lra].
    - assert (D : (spIsometricDir s = 0 \/ spIsometricDir s = 1 \/ spIsometricDir s = 2)%Z) by lia.
      destruct D as [D|[D|D]]; rewrite D; eexists; reflexivity.
  Qed.

  Lemma transformed_camera {G} {NI : NumInf R} (rand2 : G -> (R * R) * G) (cam : camera R) yaw pitch (d : pt) u v (c : ctx R G) q :
    pool_ok c -> shoots rand2 cam u v c q ->
    shoots rand2 (transformCam cam (afA (yawPitchRoll yaw pitch 0)) d) u v c
      (Ray (plus3 (plus3 (camPos cam) d) (turn yaw pitch 0 (minus3 (rStart q) (camPos cam)))) (turn yaw pitch 0 (rDir q))).
  Proof.
    intros Hp Hq. generalize (shoots_fun rand2 cam u v c _ _ Hq (shoots_run rand2 cam u v c Hp)). intros ->.
    generalize (shoots_run rand2 (transformCam cam (afA (yawPitchRoll yaw pitch 0)) d) u v c Hp).
    cbn [transformCam camOrig]. set (q0 := ray0 _ _ _ _). intros H. replace (Ray _ _) with (camRay (transformCam cam (afA (yawPitchRoll yaw pitch 0)) d) q0); [exact H|].
    unfold camRay, transformCam. cbn [camPos camMatrix rStart rDir].
    rewrite <- !ypr_matrix.
    assert (MM : forall a, mmulvec (mmul (afA (yawPitchRoll yaw pitch 0)) (camMatrix cam)) a = mmulvec (afA (yawPitchRoll yaw pitch 0)) (mmulvec (camMatrix cam) a)).
    { intros a. unfold mmulvec, mmul. apply vec_eq; cbn; rnum; ring. }
    rewrite !MM. set (A := mmulvec (camMatrix cam) (rStart q0)).
    replace (minus3 (vadd A (camPos cam)) (camPos cam)) with A by (unfold minus3, vadd; apply vec_eq; cbn [vx vy vz]; rnum; ring).
    set (B := mmulvec (afA _) A). f_equal. unfold vadd, plus3. apply vec_eq; cbn [vx vy vz]; rnum; ring.
  Qed.

  Lemma view_ok (v : view R) (s : spec) cam : spCamera s = Some cam -> (0 < spRecursion s)%Z -> (0 < spNumPass s)%Z ->
    (0 < vwWidth v <= 2 ^ 52)%Z -> (0 < vwHeight v <= 2 ^ 52)%Z ->
    (vwIsometric v = true -> vwIsometricFOV v <> 0 /\ (0 <= vwIsometricDir v <= 2)%Z) ->
    exists s' cam', viewApplyTo nm n2 fb v s = Val s' /\
      spWidth s' = vwWidth v /\ spHeight s' = vwHeight v /\ spLights s' = spLights s /\ spNumPass s' = spNumPass s /\
      spCamera s' = Some cam' /\
      (vwDebugNormals v <> 2%Z -> spRecursion s' = spRecursion s) /\
      (vwDebugNormals v <> 1%Z -> vwDebugNormals v <> 2%Z -> spObjects s' = spObjects s /\ spMedia s' = spMedia s) /\
      (vwIsometric v = true -> isometric (vwIsometricDir v) (vwIsometricFOV v) = Val cam') /\
      (vwIsometric v = false ->
        forall G (NI : NumInf R) (rand2 : G -> (R * R) * G) x y (c : ctx R G) q, pool_ok c -> shoots rand2 cam x y c q ->
          shoots rand2 cam' x y c
            (Ray (plus3 (plus3 (camPos cam) (vwCamPos v)) (turn (vwCamYaw v) (vwCamPitch v) 0 (minus3 (rStart q) (camPos cam))))
                 (turn (vwCamYaw v) (vwCamPitch v) 0 (rDir q)))).
  Proof.
    intros Hc Hr Hn Hw Hh Hi. unfold viewApplyTo. rewrite Hc.
    set (s0 := Spec _ _ _ _ _ _ _ _ _ _ _).
    assert (Hs : sizes s0) by (split; cbn [s0 spWidth spHeight]; lia).
    destruct (init_total s0 Hs) as [s' Hs'].
    { cbn [s0 spIsometricFOV spIsometricDir]. destruct (vwIsometric v); [right; apply Hi; auto|left; reflexivity]. }
    destruct (init_inv nm n2 fb s0 s' Hs Hs') as (cam' & E & Hcam).
    destruct (init_ok nm n2 fb s0 s' Hs') as (Q1 & Q2 & Q3 & Q4 & _ & _ & _ & _ & Q5); [cbn; lia|cbn; lia|exact Hs|].
    cbn [s0 spNumPass spRecursion spWidth spHeight spLights spDebugNormals spObjects spMedia] in Q1, Q2, Q3, Q4, Q5.
    exists s', cam'. split; [exact Hs'|]. split; [apply Q3; lia|]. split; [apply Q4; lia|]. split; [apply Q5|]. split; [apply Q1; lia|].
    split; [now rewrite E|]. split; [apply Q2; lia|]. split; [apply Q5|].
    cbn [s0 spIsometricFOV spIsometricDir spCamera] in Hcam. split.
    - intros Eiso. rewrite Eiso in Hcam. rnum. destruct (Reqb_spec (vwIsometricFOV v) 0) as [Z|_]; [destruct (Hi Eiso); contradiction|exact Hcam].
    - intros Eiso. rewrite Eiso in Hcam. rnum. destruct (Reqb_spec 0 0) as [_|N]; [|contradiction]. subst cam'.
      intros. now apply transformed_camera.
  Qed.
End View.

(** ** The image after the calls of renderLocal *)
From Verif Require Import SeqModel SamplerModel SamplerSpec SamplerProofs SamplerFacts.
Lemma total_app a b : (total (a ++ b) = total a + total b)%Z.
Proof. unfold total. induction a as [|x a IH]; cbn [app fold_right]; [reflexivity|]. rewrite IH. ring. Qed.
Lemma total_counting k : total (counting k) = triangular (Z.of_nat k).
Proof.
  induction k as [|k IH]; [reflexivity|]. rewrite counting_S, total_app, IH.
  replace (Z.of_nat (S k)) with (Z.of_nat k + 1)%Z by lia. rewrite triangular_S by lia. unfold total; cbn [fold_right]. lia.
Qed.
Lemma counting_nonneg k : Forall (fun n => 0 <= n)%Z (counting k).
Proof. apply Forall_forall. intros x Hx. unfold counting in Hx. apply in_map_iff in Hx. destruct Hx as (n & <- & _). lia. Qed.

Lemma counted_mean {G} (f : imageFunc R G) aa shifts w h g0 k m p :
  deterministic f -> (0 <= w)%Z -> (0 <= h)%Z -> Z.of_nat (length shifts) = (w * h)%Z ->
  sampleCalls f aa shifts w h (counting k) newMem m -> in_image w h p ->
  let l := first_samples (sample_color f aa shifts g0 w h p) (Z.to_nat (triangular (Z.of_nat k))) in
  SamplerModel.imagef m p = Color (mean (map cR l)) (mean (map cG l)) (mean (map cB l)).
Proof.
  intros Hd Hw Hh Hs Hc Hp. pose proof (calls_mean f aa shifts w h g0 (counting k) m p Hd Hw Hh Hs (counting_nonneg k) Hc Hp) as H.
  cbv zeta in *. now rewrite total_counting in H.
Qed.
