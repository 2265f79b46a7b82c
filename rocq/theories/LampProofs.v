(** * Flat lamps and their transformations (C126) *)
From Coq Require Import ZArith Reals Bool List Lra Lia.
From Verif Require Import Num Outcome GeomModel GeomSpec GeomProofs ColorModel SeqModel ObjModel TreeModel SceneModel SceneSpec SceneProofs LightProofs SceneMore LampSpec.
Import ListNotations.
Lemma add4 (a b c d : vertex R) i n : (0 <= i < 4)%Z -> exists a' b' c' d', addNormal [a; b; c; d] i n = Val [a'; b'; c'; d'].
Proof. intros H. assert (i = 0 \/ i = 1 \/ i = 2 \/ i = 3)%Z as [-> | [-> | [-> | ->]]] by lia; do 4 eexists; reflexivity. Qed.
Lemma rect_total : forall (NI : NumInf R) M (to32 : R -> R) ss (m : option M) w h c, exists o b, rectangle to32 ss m w h c = Val o /\ oBounds o = Val b /\ oTransf o = None.
Proof. intros. 
 unfold rectangle, rectangleWithVertices, quadrilateral, meshWithUV. 
 set (a1 := vadd _ c). set (a2 := vadd _ c). set (a3 := vadd _ c). set (a4 := vadd a2 _). clearbody a1 a2 a3 a4.
 cbn [meshVertices omap obind]. 
 unfold mesh, calcNormals. cbn [sumNormals].
 set (n1 := faceNormal _ _). replace n1 with (Val (triangleNormal a1 a2 a3)) by reflexivity. clear n1. cbn [obind].
 set (n2 := triangleNormal a1 a2 a3). clearbody n2. destruct (isBadVec n2).
 - set (n1 := faceNormal _ _). replace n1 with (Val (triangleNormal a4 a3 a2)) by reflexivity. clear n1. cbn [obind].
   set (n3 := triangleNormal _ _ _). clearbody n3. destruct (isBadVec n3); eexists _, _; (split; [reflexivity|]); split; reflexivity.
 - match goal with |- context [addNormal [?x1; ?x2; ?x3; ?x4] 0 n2] => destruct (add4 x1 x2 x3 x4 0 n2 ltac:(lia)) as (b1 & b2 & b3 & b4 & ->) end. cbn [obind].
   destruct (add4 b1 b2 b3 b4 1 n2 ltac:(lia)) as (c1 & c2 & c3 & c4 & ->). cbn [obind].
   destruct (add4 c1 c2 c3 c4 3 n2 ltac:(lia)) as (d1 & d2 & d3 & d4 & ->). cbn [obind].
   set (n1 := faceNormal _ _). replace n1 with (Val (triangleNormal (vtPos d3) (vtPos d4) (vtPos d2))) by reflexivity. clear n1. cbn [obind].
   set (n3 := triangleNormal _ _ _). clearbody n3. destruct (isBadVec n3); [eexists _, _; (split; [reflexivity|]); split; reflexivity|].
   destruct (add4 d1 d2 d3 d4 2 n3 ltac:(lia)) as (e1 & e2 & e3 & e4 & ->). cbn [obind].
   destruct (add4 e1 e2 e3 e4 3 n3 ltac:(lia)) as (f1 & f2 & f3 & f4 & ->). cbn [obind].
   destruct (add4 f1 f2 f3 f4 1 n3 ltac:(lia)) as (g1 & g2 & g3 & g4 & ->). cbn [obind].
   eexists _, _; (split; [reflexivity|]); split; reflexivity.
Qed.
Lemma rect_light_total : forall (NI : NumInf R) (to32 : R -> R) ss b w h c, exists l, rectangleLight to32 ss b w h c = Val l /\ forall t, exists l', transformedLight l t = Val l'.
Proof. intros. unfold rectangleLight, planarLight. destruct (rect_total NI _ to32 ss (Some (MTwoSided (MFlat (fun _ => Val b)) (MFlat (fun _ => Val black)))) w h c) as (o & bb & E & B & T). rewrite E.
 eexists. split; [reflexivity|]. intros t. cbn [transformedLight lightObject transformed cRestrict oTransf oBounds]. unfold bounds2. rewrite B. cbn [obind allSpace oBounds].
 eexists. reflexivity. Qed.
Lemma disk_light_total : forall (NI : NumInf R) (to32 : R -> R) ss b w c, exists l, diskLight to32 ss b w c = Val l /\ forall t, exists l', transformedLight l t = Val l'.
Proof. intros. unfold diskLight, planarLight. destruct (rect_total NI _ to32 ss (Some (MTwoSided (MFlat (fun _ => Val b)) (MFlat (fun _ => Val black)))) w w c) as (o & bb & E & B & T). rewrite E.
 eexists. split; [reflexivity|]. intros t. cbn [transformedLight lightObject transformed cRestrict oTransf oBounds]. unfold bounds2. rewrite B. cbn [obind allSpace oBounds].
 eexists. reflexivity. Qed.

Local Open Scope R_scope.
Lemma radiated_below area p x : area * planarIntensity p x = radiated area p downwards x.
Proof.
  destruct (planarIntensity_spec p x) as (_ & A & B). unfold radiated.
  assert (dot3 (minus3 x p) downwards = vy p - vy x) as -> by (unfold dot3, minus3, downwards; cbn [vx vy vz]; ring).
  destruct (Rle_or_lt (vy p) (vy x)) as [L|L].
  - rewrite A, Rmax_left by lra. unfold Rdiv. ring.
  - rewrite B, Rmax_right by lra. reflexivity.
Qed.

Section Shine.
  Context {G : Type} {NI : NumInf R}.
  Variable rand2 : G -> (R * R) * G.

  Lemma rect_shines to32 sortSlice b w h center l : 0 <= w -> 0 <= h -> rectangleLight to32 sortSlice b w h center = Val l ->
    shines rand2 l b (w * h) (raised_rect w h center) downwards.
  Proof.
    intros Hw Hh Hl. split; [unfold norm2, dot3, downwards; cbn [vx vy vz]; ring|].
    intros target c c' u v Hg Hu Hv. unfold rectangleLight, planarLight in Hl. apply omap_val' in Hl. destruct Hl as (rect & _ & ->).
    exists (planarPos w h center KRect (u, v)).
    destruct (rect_pos w h center u v Hw Hh Hu Hv) as (A & B & C). split; [now split|].
    rewrite (planar_sample _ _ _ _ _ _ _ _ _ _ _ _ Hg), scaled_mul, <- radiated_below. rnum. do 3 f_equal. f_equal. ring.
  Qed.
  Lemma disk_shines to32 sortSlice b diam center l : 0 <= diam -> diskLight to32 sortSlice b diam center = Val l ->
    shines rand2 l b (PI * (diam / 2) ^ 2) (raised_disk diam center) downwards.
  Proof.
    intros Hw Hl. split; [unfold norm2, dot3, downwards; cbn [vx vy vz]; ring|].
    intros target c c' u v Hg Hu Hv. unfold diskLight, planarLight in Hl. apply omap_val' in Hl. destruct Hl as (rect & _ & ->).
    exists (planarPos diam diam center KDisk (u, v)).
    destruct (disk_pos diam center u v Hw Hv) as (A & B). split.
    { split; [exact B|]. rewrite <- !Rsqr_pow2. unfold Rsqr. rewrite A. generalize (Rle_0_sqr (diam / 2)). unfold Rsqr. nra. }
    rewrite (planar_sample _ _ _ _ _ _ _ _ _ _ _ _ Hg), scaled_mul, <- radiated_below. rnum. do 3 f_equal. f_equal. field.
  Qed.

  Section Moved.
    Variables (t : affine R) (k : R).
    Hypothesis Ht : similarity k (transformPoint t).

    Lemma moved_minus p q : minus3 (transformPoint t p) (transformPoint t q) = transformDir t (minus3 p q).
    Proof.
      destruct t as [[[a1 a2 a3] [b1 b2 b3] [c1 c2 c3]] [s1 s2 s3]], p as [x y z], q as [x' y' z'].
      unfold transformPoint, transformDir, mmulvec, vadd, minus3. cbn [afA afB m0 m1 m2 vx vy vz]. rnum. f_equal; ring.
    Qed.
    Lemma dir_norm2 v : norm2 (transformDir t v) = k * k * norm2 v.
    Proof.
      destruct Ht as (K & D). specialize (D v zero3). unfold dist in D. rewrite moved_minus in D.
      assert (minus3 v zero3 = v) as E by (destruct v as [x y z]; unfold minus3, zero3; cbn [vx vy vz]; f_equal; ring). rewrite E in D.
      unfold norm in D. rewrite <- (sqrt_sqrt (norm2 (transformDir t v))), D by apply norm2_nonneg.
      rewrite <- (sqrt_sqrt (norm2 v)) at 3 by apply norm2_nonneg. ring.
    Qed.
    Lemma dir_dot v w : dot3 (transformDir t v) (transformDir t w) = k * k * dot3 v w.
    Proof.
      pose proof (dir_norm2 (plus3 v w)) as A. pose proof (dir_norm2 v) as B. pose proof (dir_norm2 w) as C.
      assert (transformDir t (plus3 v w) = plus3 (transformDir t v) (transformDir t w)) as E.
      { clear. destruct t as [[[a1 a2 a3] [b1 b2 b3] [c1 c2 c3]] [s1 s2 s3]], v as [x y z], w as [x' y' z'].
        unfold transformDir, mmulvec, plus3. cbn [afA afB m0 m1 m2 vx vy vz]. rnum. f_equal; ring. }
      rewrite E in A. revert A B C. generalize (transformDir t v) (transformDir t w). clear.
      intros [x y z] [x' y' z']. destruct v as [a b c], w as [a' b' c']. unfold norm2, dot3, plus3. cbn [vx vy vz]. lra.
    Qed.
    Lemma moved_det : det3 (afA t) <> 0.
    Proof.
      pose proof (dir_dot (Vec 1 0 0) (Vec 1 0 0)) as D11. pose proof (dir_dot (Vec 0 1 0) (Vec 0 1 0)) as D22. pose proof (dir_dot (Vec 0 0 1) (Vec 0 0 1)) as D33.
      pose proof (dir_dot (Vec 1 0 0) (Vec 0 1 0)) as D12. pose proof (dir_dot (Vec 1 0 0) (Vec 0 0 1)) as D13. pose proof (dir_dot (Vec 0 1 0) (Vec 0 0 1)) as D23.
      destruct Ht as (K & _). clear Ht. intros Z. destruct t as [[[a1 a2 a3] [b1 b2 b3] [c1 c2 c3]] [s1 s2 s3]].
      unfold transformDir, mmulvec, det3, vol, dot3, cross3 in *. cbn [afA afB m0 m1 m2 vx vy vz] in *. revert D11 D22 D33 D12 D13 D23 Z. rnum. cbn [vx vy vz]. intros.
      set (g11 := a1 * a1 + a2 * a2 + a3 * a3). set (g22 := b1 * b1 + b2 * b2 + b3 * b3). set (g33 := c1 * c1 + c2 * c2 + c3 * c3).
      set (g12 := a1 * b1 + a2 * b2 + a3 * b3). set (g13 := a1 * c1 + a2 * c2 + a3 * c3). set (g23 := b1 * c1 + b2 * c2 + b3 * c3).
      set (det := dot3 (Vec a1 a2 a3) (cross3 (Vec b1 b2 b3) (Vec c1 c2 c3))).
      assert (det * det = g11 * (g22 * g33 - g23 * g23) - g12 * (g12 * g33 - g23 * g13) + g13 * (g12 * g23 - g22 * g13)) as E.
      { unfold det, g11, g22, g33, g12, g13, g23, dot3, cross3. cbn [vx vy vz]. ring. }
      assert (det = 0) as Z' by (unfold det, dot3, cross3; cbn [vx vy vz]; lra).
      assert (g11 = k * k) as E1 by (unfold g11; lra). assert (g22 = k * k) as E2 by (unfold g22; lra). assert (g33 = k * k) as E3 by (unfold g33; lra).
      assert (g12 = 0) as E4 by (unfold g12; lra). assert (g13 = 0) as E5 by (unfold g13; lra). assert (g23 = 0) as E6 by (unfold g23; lra).
      rewrite Z', E1, E2, E3, E4, E5, E6 in E. assert (0 < k * k * (k * k * (k * k))) by (repeat apply Rmult_lt_0_compat; lra). lra.
    Qed.

    Lemma moved_radiated area p n target : radiated area p n (transformPoint (ainverse t) target) =
      radiated (k ^ 2 * area) (transformPoint t p) (scal3 (/ k) (transformDir t n)) target.
    Proof.
      set (q := transformPoint (ainverse t) target). rewrite <- (ainverse_point_r t target) by apply moved_det. fold q.
      unfold radiated. rewrite moved_minus. destruct Ht as (K & D). rewrite !D.
      assert (dot3 (transformDir t (minus3 q p)) (scal3 (/ k) (transformDir t n)) = k * dot3 (minus3 q p) n) as ->.
      { transitivity (/ k * dot3 (transformDir t (minus3 q p)) (transformDir t n)); [unfold dot3, scal3; cbn [vx vy vz]; ring|].
        rewrite dir_dot. field. lra. }
      replace (Rmax 0 (k * dot3 (minus3 q p) n)) with (k * Rmax 0 (dot3 (minus3 q p) n)).
      2:{ rewrite <- RmaxRmult by lra. now rewrite Rmult_0_r. }
      assert (P := PI_RGT_0). unfold Rdiv. rewrite !Rinv_mult. generalize (/ dist q p). intros i. field. lra.
    Qed.

    Lemma moved_shines l l' b area S n : shines rand2 l b area S n -> transformedLight l t = Val l' ->
      shines rand2 l' b (k ^ 2 * area) (image (transformPoint t) S) (scal3 (/ k) (transformDir t n)).
    Proof.
      intros (N & H) E. split.
      { transitivity (/ k * / k * norm2 (transformDir t n)); [unfold norm2, dot3, scal3; cbn [vx vy vz]; ring|].
        rewrite dir_norm2, N. destruct Ht as (K & _). field. lra. }
      intros target c c' u v Hg Hu Hv.
      assert (exists o, l' = LTransformed t (ainverse t) l o) as (o & ->).
      { destruct l; cbn [transformedLight] in E; try discriminate; apply omap_val' in E; destruct E as (o & _ & ->); eauto. }
      destruct (H (transformPoint (ainverse t) target) c c' u v Hg Hu Hv) as (p & Sp & Es).
      exists (transformPoint t p). split; [exists p; auto|].
      cbn [lightSample]. rewrite (mbind_run _ _ _ _ _ Es). unfold mret. now rewrite moved_radiated.
    Qed.
  End Moved.
End Shine.

Lemma point_stuck (power : color R) (pos : vec R) t : transformedLight (pointLight power pos) t = Panic.
Proof. reflexivity. Qed.

(** stretching a lamp to twice its width doubles its area but not its light *)
Definition stretch : affine R := Affine (Matrix (Vec 2 0 0) (Vec 0 1 0) (Vec 0 0 1)) zero3.

Lemma stretched_witness {NI : NumInf R} (to32 : R -> R) sortSlice (b : color R) : cR b <> 0 ->
  exists l l' wide, rectangleLight to32 sortSlice b 2 2 zero3 = Val l /\ transformedLight l stretch = Val l' /\
    rectangleLight to32 sortSlice b 4 2 zero3 = Val wide /\
    forall G (rand2 : G -> (R * R) * G) (c : ctx R G), generate2 rand2 c = Val ((1 / 2, 1 / 2), c) ->
      exists p col, lightSample rand2 l' (Vec 0 (-1) 0) c = Val ((p, col), c) /\
        lightSample rand2 wide (Vec 0 (-1) 0) c = Val ((p, scaled 2 col), c) /\ cR col <> 0.
Proof.
  intros Hb. destruct (rect_light_total NI to32 sortSlice b 2 2 zero3) as (l & El & T). destruct (T stretch) as (l' & Et).
  destruct (rect_light_total NI to32 sortSlice b 4 2 zero3) as (wide & Ew & _).
  exists l, l', wide. split; [exact El|]. split; [exact Et|]. split; [exact Ew|]. intros G rand2 c Hg.
  unfold rectangleLight, planarLight in El, Ew. apply omap_val' in El. destruct El as (o1 & _ & ->). apply omap_val' in Ew. destruct Ew as (o2 & _ & ->).
  cbn [transformedLight] in Et. apply omap_val' in Et. destruct Et as (o3 & _ & ->).
  cbn [lightSample].
  erewrite mbind_run; [|erewrite mbind_run; [|exact Hg]; cbv zeta; reflexivity].
  rewrite (mbind_run _ _ _ _ _ Hg). cbv beta iota zeta. unfold mret.
  assert (planarPos 2 2 zero3 KRect (1 / 2, 1 / 2) = Vec 0 tinyR 0) as E1.
  { unfold planarPos, transfSample, transfRect, vadd, zero3. cbn [fst snd vx vy vz]. unfold nQ. rnum. f_equal; try field. rewrite Rplus_0_r. exact tiny_eq. }
  assert (planarPos 4 2 zero3 KRect (1 / 2, 1 / 2) = Vec 0 tinyR 0) as E2.
  { unfold planarPos, transfSample, transfRect, vadd, zero3. cbn [fst snd vx vy vz]. unfold nQ. rnum. f_equal; try field. rewrite Rplus_0_r. exact tiny_eq. }
  assert (transformPoint (ainverse stretch) (Vec 0 (-1) 0) = Vec 0 (-1) 0) as E3.
  { rewrite <- (ainverse_point_l stretch (Vec 0 (-1) 0)) at 2.
    - f_equal. unfold stretch, transformPoint, mmulvec, vadd, zero3. cbn [afA afB m0 m1 m2 vx vy vz]. rnum. f_equal; ring.
    - unfold stretch, det3, vol, dot3, cross3. cbn [afA afB m0 m1 m2 vx vy vz]. lra. }
  rewrite E1, E2, E3.
  assert (transformPoint stretch (Vec 0 tinyR 0) = Vec 0 tinyR 0) as E4.
  { unfold stretch, transformPoint, mmulvec, vadd, zero3. cbn [afA afB m0 m1 m2 vx vy vz]. rnum. f_equal; ring. }
  rewrite E4.
  set (k := planarIntensity _ _).
  assert (0 < k) as Hk.
  { unfold k. destruct (planarIntensity_spec (Vec 0 tinyR 0) (Vec 0 (-1) 0)) as (_ & _ & I). cbn [vx vy vz] in I.
    assert (0 < tinyR) as TP by (unfold tinyR; lra).
    rewrite I by lra. assert (P := PI_RGT_0).
    assert (0 < dist (Vec 0 (-1) 0) (Vec 0 tinyR 0)) as D.
    { unfold dist, norm, norm2, dot3, minus3. cbn [vx vy vz]. apply sqrt_lt_R0. match goal with |- 0 < ?a => replace a with ((1 + tinyR) * (1 + tinyR)) by ring end. apply Rmult_lt_0_compat; lra. }
    apply Rdiv_lt_0_compat; [apply Rdiv_lt_0_compat; lra|]. apply Rmult_lt_0_compat; [exact P|]. apply Rmult_lt_0_compat; exact D. }
  clearbody k.
  eexists _, _. split; [reflexivity|]. rewrite !scaled_mul. split.
  - rnum. do 3 f_equal. unfold scaled. cbn [cR cG cB]. f_equal; ring.
  - unfold scaled. cbn [cR]. rnum. apply Rmult_integral_contrapositive_currified; [apply Rgt_not_eq; lra|exact Hb].
Qed.
