(** * Lights (C52, C53, exact real arithmetic) and scenes of package objects *)
From Coq Require Import ZArith Reals Bool List Lra Lia Psatz Permutation.
From Verif Require Import Num NumLaws Outcome GeomModel GeomSpec GeomProofs ColorModel SeqModel SeqProofs ObjModel TreeModel ObjSpec ObjProofs SceneModel SceneSpec SceneProofs.
Import ListNotations.
Local Open Scope R_scope.

Lemma omap_val' {A B} (f : A -> B) (o : outcome A) y : omap f o = Val y -> exists x, o = Val x /\ y = f x.
Proof. destruct o; cbn; intros H; try discriminate. injection H as <-. eauto. Qed.
Lemma obind_val' {A B} (f : A -> outcome B) (o : outcome A) y : obind o f = Val y -> exists x, o = Val x /\ f x = Val y.
Proof. destruct o; cbn; intros H; try discriminate. eauto. Qed.

(** ** Point lights *)
Lemma vlen2_norm2 (a : pt) : vlen2 a = norm2 a.
Proof. reflexivity. Qed.
Lemma vsub_minus (a b : pt) : vsub a b = minus3 a b.
Proof. reflexivity. Qed.
Lemma dist_sqr (a b : pt) : dist a b * dist a b = norm2 (minus3 a b).
Proof. unfold dist. apply norm_sqr. Qed.
Lemma point_light_sample {G} (rand2 : G -> (R * R) * G) (power : color R) (pos target : pt) (c : ctx R G) : target <> pos ->
  lightSample rand2 (pointLight power pos) target c =
    Val ((pos, scaled (/ (4 * PI * (dist target pos * dist target pos))) power), c).
Proof.
  intros Hne. unfold pointLight, lightSample, mret, pointIntensity. rewrite vsub_minus, vlen2_norm2, dist_sqr.
  assert (norm2 (minus3 target pos) <> 0).
  { apply Rgt_not_eq, norm2_pos. intros H. apply Hne. destruct target as [a b d], pos as [x y z].
    unfold minus3, zero3 in H; cbn in H. injection H as H1 H2 H3. f_equal; lra. }
  set (n := norm2 _) in *. clearbody n. generalize PI_RGT_0; intros Hpi.
  do 2 f_equal. unfold clmul, scaled; rnum. f_equal. f_equal; field; lra.
Qed.

(** ** Area lights *)
Lemma planar_sample {G} (rand2 : G -> (R * R) * G) w h center tp k obj target (c c' : ctx R G) u v :
  generate2 rand2 c = Val ((u, v), c') ->
  lightSample rand2 (LPlanar w h center tp k obj) target c =
    Val ((planarPos w h center k (u, v), clmul tp (planarIntensity (planarPos w h center k (u, v)) target)), c').
Proof. intros H. cbn [lightSample]. unfold mbind. rewrite H. reflexivity. Qed.

Lemma tiny_eq : tiny = tinyR.
Proof. unfold tiny, tinyR, nQ; rnum. unfold Rdiv. rewrite Rmult_1_l. f_equal. rewrite <- mult_IZR. reflexivity. Qed.
Lemma rect_pos w h (center : pt) u v : 0 <= w -> 0 <= h -> 0 <= u <= 1 -> 0 <= v <= 1 ->
  let p := planarPos w h center KRect (u, v) in
  Rabs (vx p - vx center) <= w / 2 /\ vy p = vy center + tinyR /\ Rabs (vz p - vz center) <= h / 2.
Proof.
  intros Hw Hh Hu Hv. unfold planarPos, transfSample, transfRect, vadd, nQ. cbn [fst snd vx vy vz]. rewrite tiny_eq. rnum.
  split; [|split]; [|ring|].
  - apply Rabs_le. split; nra.
  - apply Rabs_le. split; nra.
Qed.
Lemma disk_pos diam (center : pt) u v : 0 <= diam -> 0 <= v <= 1 ->
  let p := planarPos diam diam center KDisk (u, v) in
  (vx p - vx center) * (vx p - vx center) + (vz p - vz center) * (vz p - vz center) = v * (diam / 2 * (diam / 2)) /\
  vy p = vy center + tinyR.
Proof.
  intros Hd Hv. unfold planarPos, transfSample. cbn [fst snd].
  generalize (uniformDisk_spec u v (proj1 Hv)). destruct (uniformDisk u v) as [x y]. intros (_ & _ & Hxy).
  unfold vadd, nQ. cbn [vx vy vz]. rewrite tiny_eq. rnum. split; [|ring]. rewrite <- Hxy. field.
Qed.

(** intensity factor of a point [p] of a surface that emits downwards *)
Lemma planarIntensity_spec (p target : pt) :
  0 <= planarIntensity p target /\
  (vy p <= vy target -> planarIntensity p target = 0) /\
  (vy target < vy p -> planarIntensity p target =
     (vy p - vy target) / dist target p / (PI * (dist target p * dist target p))).
Proof.
  set (I := planarIntensity p target).
  assert (E : I = if Rltb (1 / PI / norm2 (minus3 target p) * ((vy p - vy target) / norm (minus3 target p))) 0 then 0
                  else 1 / PI / norm2 (minus3 target p) * ((vy p - vy target) / norm (minus3 target p))).
  { unfold I, planarIntensity. rewrite vsub_minus, vlen2_norm2, vnormalized_unit_of. rnum.
    replace (vdot _ (unit_of (minus3 target p))) with ((vy p - vy target) / norm (minus3 target p)); [reflexivity|].
    unfold vdot, unit_of, scal3, minus3; cbn [vx vy vz]; rnum. unfold Rdiv. ring. }
  set (n := norm (minus3 target p)) in *. assert (Hn : n * n = norm2 (minus3 target p)) by apply norm_sqr.
  rewrite <- Hn in E. assert (Hn0 : 0 <= n) by apply sqrt_pos.
  generalize PI_RGT_0; intros Hpi.
  assert (Hz : n = 0 -> vy p = vy target).
  { intros Hz. assert (X : norm2 (minus3 target p) = 0) by (rewrite <- Hn, Hz; ring).
    unfold norm2, dot3, minus3 in X; cbn [vx vy vz] in X.
    assert (Y : Rsqr (vy target - vy p) = 0).
    { generalize (Rle_0_sqr (vx target - vx p)) (Rle_0_sqr (vy target - vy p)) (Rle_0_sqr (vz target - vz p)). unfold Rsqr. lra. }
    apply Rsqr_0_uniq in Y. lra. }
  split; [|split].
  - rewrite E. rcase; lra.
  - intros Hle. rewrite E. destruct (Req_dec n 0) as [Hz'|Hz'].
    + rewrite (Hz Hz'). unfold Rminus. rewrite Rplus_opp_r. unfold Rdiv. rewrite Rmult_0_l, Rmult_0_r. rcase; lra.
    + assert (P : 0 < 1 / PI / (n * n)).
      { apply Rmult_lt_0_compat; [apply Rmult_lt_0_compat; [lra|now apply Rinv_0_lt_compat]|apply Rinv_0_lt_compat; nra]. }
      assert (Q : (vy p - vy target) / n <= 0).
      { unfold Rdiv. assert (0 < / n) by (apply Rinv_0_lt_compat; lra). nra. }
      rcase; [reflexivity|nra].
  - intros Hlt. assert (Hz' : n <> 0) by (intros X; apply Hz in X; lra).
    assert (P : 0 < 1 / PI / (n * n)).
    { apply Rmult_lt_0_compat; [apply Rmult_lt_0_compat; [lra|now apply Rinv_0_lt_compat]|apply Rinv_0_lt_compat; nra]. }
    assert (Q : 0 < (vy p - vy target) / n).
    { unfold Rdiv. assert (0 < / n) by (apply Rinv_0_lt_compat; lra). nra. }
    rewrite E. unfold dist. fold n. rcase; [nra|]. field. split; lra.
Qed.

Section Built.
  Context {F : Type} `{NF : Num F} `{NI : NumInf F} `{TF : Trig F}.
  Notation object := (object F (material F)).
  Variable to32 : F -> F.
  Variable sortSlice : (object -> object -> bool) -> list object -> list object.
  Hypothesis sort_ok : reorders sortSlice.

  (** everything the constructors of package lights can produce *)
  Lemma transformedLight_preserves l t l' : transformedLight l t = Val l' -> preserves (lightObject l').
  Proof.
    intros H. destruct l; cbn [transformedLight] in H; try discriminate;
    apply omap_val' in H; destruct H as (o & Ho & ->); cbn [lightObject]; eapply transformed_preserves; exact Ho.
  Qed.
  Lemma planarLight_preserves b w h c rs restr k l : planarLight to32 sortSlice b w h c rs restr k = Val l -> preserves (lightObject l).
  Proof.
    intros H. unfold planarLight in H. apply omap_val' in H. destruct H as (o & Ho & ->). cbn [lightObject].
    apply restrict_preserves. unfold rectangle, rectangleWithVertices, quadrilateral, meshWithUV in Ho.
    apply obind_val' in Ho. destruct Ho as (vs & _ & Ho). apply obind_val' in Ho. destruct Ho as (u & _ & Ho).
    eapply mesh_preserves; eauto.
  Qed.
  Lemma built_light_preserves l : built_light to32 sortSlice l -> preserves (lightObject l).
  Proof.
    induction 1 as [power pos|b w h c l H|b d c l H|b a y p l H|l t l' _ _ H].
    - intros r h r' H. cbn in H. congruence.
    - eapply planarLight_preserves; exact H.
    - eapply planarLight_preserves; exact H.
    - unfold sunLight in H. apply obind_val' in H. destruct H as (dl & _ & H). eapply transformedLight_preserves; exact H.
    - eapply transformedLight_preserves; exact H.
  Qed.
  Lemma blackened_preserves (o : object) : preserves o -> preserves (blackened o).
  Proof.
    intros P r h r' H. cbn in H. apply omap_val' in H. destruct H as ([h1 r1] & E & H). injection H as -> ->. eapply P; exact E.
  Qed.

  Lemma newScene_restoring rd media lights objs :
    (forall o, In o objs -> built to32 sortSlice o) -> (forall l, In l lights -> built_light to32 sortSlice l) ->
    restoring (newScene rd media lights objs).
  Proof.
    intros Ho Hl o Hin. change (preserves o). unfold all_objects, newScene in Hin. cbn in Hin.
    rewrite !in_app_iff in Hin.
    assert (A : In o objs -> preserves o).
    { intros H. eapply built_preserves; eauto. }
    destruct Hin as [H|[[H|H]|[H|H]]]; auto; apply in_map_iff in H; destruct H as (l & <- & Hi).
    - now apply built_light_preserves, Hl.
    - now apply blackened_preserves, built_light_preserves, Hl.
  Qed.
End Built.
