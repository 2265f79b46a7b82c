(** * The sun (C84) *)
From Coq Require Import ZArith Reals Bool List Lra Lia.
From Verif Require Import Num Outcome GeomModel GeomSpec GeomProofs ColorModel SeqModel SeqProofs ObjModel TreeModel ObjSpec SceneModel SceneSpec SceneProofs LightProofs.
Import ListNotations.
Local Open Scope R_scope.

Definition sunTransform (r yw pt : R) : affine R :=
  composeLR [rotate vO vEx (#(-90) * (npi / #180))%num; translate (Vec 0 0 (- r)); rotate vO vEx pt; rotate vO vEy yw].

Lemma sun_point r yw pt (p : vec R) :
  transformPoint (sunTransform r yw pt) p =
    plus3 (scal3 (r + vy p) (sun_dir yw pt)) (plus3 (scal3 (vx p) (Vec (cos yw) 0 (- sin yw)))
      (scal3 (vz p) (Vec (sin pt * sin yw) (cos pt) (sin pt * cos yw)))).
Proof.
  unfold sunTransform. rewrite composeLR_point. cbn [fold_left]. destruct p as [x y z].
  assert (E : (#(-90) * (npi / #180))%num = - (PI / 2)) by (rnum; field). rewrite E.
  fold (pitch (- (PI / 2))). rewrite pitch_point, cos_neg, sin_neg, cos_PI2, sin_PI2. rewrite translate_point.
  unfold plus3 at 1. cbn [vx vy vz].
  fold (pitch pt). rewrite pitch_point. fold (yaw yw). rewrite yaw_point.
  unfold sun_dir, plus3, scal3. cbn [vx vy vz]. f_equal; ring.
Qed.

Lemma sun_det r yw pt : det3 (afA (sunTransform r yw pt)) <> 0.
Proof.
  set (T := sunTransform r yw pt).
  assert (H : vol (transformDir T (Vec 1 0 0)) (transformDir T (Vec 0 1 0)) (transformDir T (Vec 0 0 1)) = 1).
  { unfold T, sunTransform. rewrite !composeLR_dir. cbn [fold_left].
    assert (Ex : (vEx : vec R) <> zero3) by (unfold vEx, zero3; intros X; injection X; rnum; lra).
    assert (Ey : (vEy : vec R) <> zero3) by (unfold vEy, zero3; intros X; injection X; rnum; lra).
    rewrite !rotate_vol by assumption. rewrite !translate_dir. rewrite !rotate_vol by assumption.
    unfold vol, dot3, cross3. cbn [vx vy vz]. ring. }
  intros D. generalize H. clear H. generalize dependent T. intros [[[a b c] [d e f] [g h i]] t] D. unfold det3, vol in *.
  unfold transformDir, mmulvec, dot3, cross3 in *. cbn [afA m0 m1 m2 vx vy vz] in *. rnum. intros H. lra.
Qed.

Lemma sun_orth yw pt a b k :
  norm2 (plus3 (scal3 k (sun_dir yw pt)) (plus3 (scal3 a (Vec (cos yw) 0 (- sin yw)))
      (scal3 b (Vec (sin pt * sin yw) (cos pt) (sin pt * cos yw))))) = k * k + a * a + b * b /\
  dot3 (plus3 (scal3 k (sun_dir yw pt)) (plus3 (scal3 a (Vec (cos yw) 0 (- sin yw)))
      (scal3 b (Vec (sin pt * sin yw) (cos pt) (sin pt * cos yw))))) (sun_dir yw pt) = k.
Proof.
  unfold norm2, dot3, plus3, scal3, sun_dir. cbn [vx vy vz].
  assert (A := cs1 yw). assert (B := cs1 pt).
  set (cy := cos yw) in *. set (sy := sin yw) in *. set (cp := cos pt) in *. set (sp := sin pt) in *.
  assert (C : cy * cy = 1 - sy * sy) by lra. assert (D : cp * cp = 1 - sp * sp) by lra.
  split.
  - transitivity (k * k * (cp * cp * (cy * cy + sy * sy) + sp * sp) + a * a * (cy * cy + sy * sy) + b * b * (cp * cp + sp * sp * (cy * cy + sy * sy)) + 2 * k * b * (sp * cp) * (1 - (cy * cy + sy * sy))); [ring|].
    rewrite A. replace (cp * cp * 1 + sp * sp) with 1 by lra. replace (cp * cp + sp * sp * 1) with 1 by lra. ring.
  - transitivity (k * (cp * cp * (cy * cy + sy * sy) + sp * sp) + b * (sp * cp) * (1 - (cy * cy + sy * sy))); [ring|]. rewrite A. replace (cp * cp * 1 + sp * sp) with 1 by lra. ring.
Qed.

Lemma sun_sample {G} {NI : NumInf R} (rand2 : G -> (R * R) * G) to32 sortSlice b ad yw pt l target (c c' : ctx R G) u v :
  0 < ad -> sunLight to32 sortSlice b ad yw pt = Val l -> generate2 rand2 c = Val ((u, v), c') -> 0 <= v <= 1 ->
  exists off, let r := 10 ^ 6 in
    let pos := plus3 (scal3 (r + tinyR) (sun_dir yw pt)) off in
    dot3 off (sun_dir yw pt) = 0 /\ norm off <= ad * r / 2 /\
    (dot3 target (sun_dir yw pt) < r + tinyR ->
     lightSample rand2 l target c =
      Val ((pos, scaled (r * r * (r + tinyR - dot3 target (sun_dir yw pt)) / (dist target pos * dist target pos * dist target pos)) b), c')).
Proof.
  intros Had Hl Hg Hv. unfold sunLight in Hl. apply obind_val' in Hl. destruct Hl as (dl & Hd & Hl).
  unfold diskLight, planarLight in Hd. apply omap_val' in Hd. destruct Hd as (rect & _ & ->).
  cbn [transformedLight] in Hl. apply omap_val' in Hl. destruct Hl as (obj & _ & ->).
  change (composeLR _) with (sunTransform (IZR (10 ^ 6)) yw pt). replace (sunTransform (IZR (10 ^ 6)) yw pt) with (sunTransform (10 ^ 6) yw pt) by (f_equal; cbn; lra). set (T := sunTransform (10 ^ 6) yw pt).
  cbn [lightSample]. rnum. replace (IZR (10 ^ 6)) with (10 ^ 6) in * by (cbn; lra). set (r := 10 ^ 6) in *.
  change (sunTransform (10 ^ 6) yw pt) with (sunTransform r yw pt) in T.
  assert (Hr : 0 < r) by (unfold r; apply pow_lt; lra).
  set (p := planarPos (ad * r) (ad * r) vO KDisk (u, v)).
  destruct (disk_pos (ad * r) vO u v ltac:(apply Rmult_le_pos; lra) Hv) as [Hp1 Hp2]. fold p in Hp1, Hp2.
  cbn [vO vx vy vz] in Hp1, Hp2. rnum. rewrite !Rminus_0_r in Hp1. rewrite Rplus_0_l in Hp2.
  exists (plus3 (scal3 (vx p) (Vec (cos yw) 0 (- sin yw))) (scal3 (vz p) (Vec (sin pt * sin yw) (cos pt) (sin pt * cos yw)))).
  set (off := plus3 _ _). cbv zeta.
  destruct (sun_orth yw pt (vx p) (vz p) 0) as [O1 O2].
  assert (Z : forall w, plus3 (scal3 0 (sun_dir yw pt)) w = w) by (intros [a1 a2 a3]; unfold plus3, scal3; cbn [vx vy vz]; f_equal; ring).
  rewrite Z in O1, O2. fold off in O1, O2. split; [exact O2|]. split.
  { unfold norm. rewrite O1. replace (0 * 0 + vx p * vx p + vz p * vz p) with (v * (ad * r / 2 * (ad * r / 2))) by lra.
    set (k := ad * r / 2). assert (0 <= k) by (unfold k; apply Rmult_le_pos; [apply Rmult_le_pos|]; lra).
    apply Rle_trans with (sqrt (k * k)); [apply sqrt_le_1_alt; generalize (Rle_0_sqr k); unfold Rsqr; nra|rewrite sqrt_square; lra]. }
  intros Hside. set (pos := plus3 (scal3 (r + tinyR) (sun_dir yw pt)) off).
  assert (HT : transformPoint T p = pos).
  { unfold T. rewrite sun_point. unfold pos, off. now rewrite Hp2. }
  set (q' := transformPoint (ainverse T) target).
  assert (HQ : transformPoint T q' = target) by (apply ainverse_point_r, sun_det).
  assert (Hy : vy q' = dot3 target (sun_dir yw pt) - r).
  { rewrite <- HQ. unfold T. rewrite sun_point. rewrite (proj2 (sun_orth yw pt (vx q') (vz q') (r + vy q'))). ring. }
  assert (HD : dist q' p = dist target pos).
  { rewrite <- HT, <- HQ. unfold T. rewrite !sun_point. unfold dist, norm. f_equal.
    transitivity (norm2 (plus3 (scal3 (vy q' - vy p) (sun_dir yw pt)) (plus3 (scal3 (vx q' - vx p) (Vec (cos yw) 0 (- sin yw)))
      (scal3 (vz q' - vz p) (Vec (sin pt * sin yw) (cos pt) (sin pt * cos yw)))))).
    - rewrite (proj1 (sun_orth _ _ _ _ _)). unfold norm2, minus3, dot3. cbn [vx vy vz]. ring.
    - f_equal. unfold minus3, plus3, scal3. cbn [vx vy vz]. f_equal; ring. }
  assert (Hlow : vy q' < vy p) by (rewrite Hy, Hp2; lra).
  destruct (planarIntensity_spec p q') as (_ & _ & I). specialize (I Hlow).
  erewrite mbind_run; [|erewrite mbind_run; [|exact Hg]; cbv zeta; reflexivity].
  change (planarPos _ _ _ _ _) with p.
  cbv beta iota. unfold mret. rewrite HT, I, HD, Hy, Hp2.
  assert (Hdist : 0 < dist target pos).
  { unfold dist, norm. apply sqrt_lt_R0. apply norm2_pos. intros X. rewrite <- HT in X. rewrite <- HQ in X.
    assert (E : norm2 (minus3 (transformPoint T q') (transformPoint T p)) = 0) by (rewrite X; unfold norm2, dot3, zero3; cbn [vx vy vz]; ring).
    assert (D := HD). rewrite <- HT, <- HQ in D. unfold dist, norm in D. rewrite E, sqrt_0 in D. apply sqrt_eq_0 in D; [|apply norm2_nonneg].
    unfold norm2, dot3, minus3 in D. cbn [vx vy vz] in D.
    generalize (Rle_0_sqr (vx q' - vx p)) (Rle_0_sqr (vz q' - vz p)). unfold Rsqr. intros.
    assert (0 < (vy q' - vy p) * (vy q' - vy p)) by (apply Rsqr_pos_lt; lra). lra. }
  do 3 f_equal. assert (P := PI_RGT_0).
  unfold clmul, scaled. cbn [cR cG cB]. rnum. f_equal; field; repeat split; lra.
Qed.
