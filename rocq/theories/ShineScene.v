(** * Balls under lamps *)
From Coq Require Import ZArith Reals Bool List Lra Lia.
From Flocq Require Import Core.
From Flocq Require IEEE754.BinarySingleNaN.
Import IEEE754.BinarySingleNaN.
From Verif Require Import Num NumLaws Outcome B64 GeomModel ColorModel SeqModel ObjModel TreeModel SceneModel SceneSpec FloatErr FloatSpec RectFloat SphereFloat MirrorSpec DullSpec DullProofs ShineSpec ShineFloat ShineProofs.
Import ListNotations.
Local Open Scope R_scope.

Lemma qb_near {M} (m : option M) (diam : b64) c : FloatSpec.between 1 64 diam -> Rabs (B2R (qb (sphereData m diam c)) - B2R diam / 2 * (B2R diam / 2)) <= / 1000000000.
Proof.
  intros [F H]. cbn [qb sphereData]. destruct (Z_b 2) as [F2 E2]; [vm_compute; discriminate|]. pose proof u_u as U.
  destruct (div_u 8 diam (nofZ 2) ltac:(lia) F) as (G & E & _); [rewrite E2; lra|rewrite E2; change (bpow radix2 8) with 256; apply Rabs_le; lra|].
  rewrite E2 in E. change (bpow radix2 8) with 256 in E. set (r := ndiv diam (nofZ 2)) in *. apply Rabs_le_inv in E.
  assert (Y : 0 <= B2R r <= 33) by lra.
  assert (Yq : 0 <= B2R r * B2R r <= 65536) by nra.
  destruct (mul_u 16 r r ltac:(lia) G G) as (_ & EK & _); [change (bpow radix2 16) with 65536; apply Rabs_le; lra|].
  change (bpow radix2 16) with 65536 in EK. apply Rabs_le_inv in EK. set (h := B2R diam / 2) in *.
  assert (X : Rabs (B2R r * B2R r - h * h) <= / 2000000000).
  { replace (B2R r * B2R r - h * h) with ((B2R r - h) * (B2R r + h)) by ring. rewrite Rabs_mult. assert (Rabs (B2R r - h) <= 256 * u) by (apply Rabs_le; lra).
    assert (Rabs (B2R r + h) <= 70) by (apply Rabs_le; unfold h in *; lra). pose proof (Rabs_pos (B2R r - h)). pose proof (Rabs_pos (B2R r + h)). nra. }
  apply Rabs_le_inv in X. apply Rabs_le. lra.
Qed.

Lemma ball_solid k lights b : near_ball k b -> Forall (apart b) lights -> solid 7 k lights (ball_object b).
Proof.
  destruct b as [m diam c]. unfold near_ball, apart, ball_object. cbn [bMaterial bDiam bCenter]. intros (Dm & Hr & Hc) Ap q h q' E.
  assert (q' = q /\ h = quadricIntersect (sphereData (Some m) diam c) q) as [-> Eh].
  { unfold sphere, quadric, simpleObj in E. cbn [oIntersect omap] in E. split; congruence. }
  split; [reflexivity|]. intros m' M. split.
  { destruct (quadric_shows _ _ _ _ E) as [X|X]; rewrite M in X; [|discriminate X]. cbn [qMat sphereData] in X. assert (m' = m) as -> by congruence. exact Dm. }
  intros (As & Ad & An) T _. assert (Hr' : FloatSpec.between 1 512 diam) by (destruct Hr as [A B]; split; [exact A|lra]).
  assert (Hc8 : all3 (at_most 8) c) by (destruct Hc as (A & B & C); exact (conj (am_mono 6 8 _ A ltac:(lia)) (conj (am_mono 6 8 _ B ltac:(lia)) (am_mono 6 8 _ C ltac:(lia))))).
  destruct q as [s d]. cbn [rStart rDir] in *. change (7 + 1)%Z with 8%Z in As.
  destruct (qb_u (Some m) diam c Hr') as [Fb Hb].
  destruct (hit_near (Some m) c diam (am8 _ Hc8) Fb Hb s d (am8 _ As) (nu_unitish _ (conj Ad An))) as (En & Fp & Dp); [rewrite <- Eh; exact T|].
  rewrite <- Eh in En, Fp, Dp. pose proof (qb_near (Some m) diam c Hr) as Q. pose proof u_u as U. set (p := rayAt (Ray s d) (hT h)) in *.
  assert (D2 : Rabs (dist2 p c - B2R diam / 2 * (B2R diam / 2)) <= / 1000000). { apply Rabs_le_inv in Dp, Q. apply Rabs_le. lra. }
  clear Dp Q. set (r := B2R diam / 2) in *. assert (R : 1 / 2 <= r <= 32) by (destruct Hr as [_ Hr]; unfold r; lra).
  unfold dist2 in D2. unfold rx, ry, rz in D2. destruct Fp as (F1 & F2 & F3). destruct Hc as ((C1 & K1) & (C2 & K2) & (C3 & K3)). change (bpow radix2 6) with 64 in K1, K2, K3.
  set (a1 := B2R (vx p) - B2R (vx c)) in *. set (a2 := B2R (vy p) - B2R (vy c)) in *. set (a3 := B2R (vz p) - B2R (vz c)) in *.
  apply Rabs_le_inv in D2, K1, K2, K3.
  assert (B1 : - (r + 1) <= a1 <= r + 1) by (apply sq_le; nra). assert (B2 : - (r + 1) <= a2 <= r + 1) by (apply sq_le; nra). assert (B3 : - (r + 1) <= a3 <= r + 1) by (apply sq_le; nra).
  split; [|split].
  - unfold place, all3, at_most. change (bpow radix2 7) with 128. unfold a1, a2, a3 in *. repeat split; try assumption; apply Rabs_le; lra.
  - rewrite En. unfold quadricNormal, mul3, vsub. cbn [qa qOrigin sphereData vx vy vz].
    destruct (w_u (vx p) (vx c) F1 C1) as [G1 E1]; [fold a1; lra|]. destruct (w_u (vy p) (vy c) F2 C2) as [G2 E2]; [fold a2; lra|]. destruct (w_u (vz p) (vz c) F3 C3) as [G3 E3]; [fold a3; lra|].
    fold a1 in E1. fold a2 in E2. fold a3 in E3.
    assert (L : 1 <= bpow radix2 400 / 1000) by (pose proof (bpow_le radix2 10 400 ltac:(lia)) as X; change (bpow radix2 10) with 1024 in X; lra).
    assert (S : bpow radix2 (-400) <= / 16) by (change (/ 16) with (bpow radix2 (-4)); apply bpow_le; lia).
    unfold usable, all3, some3, at_most, at_least. cbn [vx vy vz]. split.
    + repeat split; try assumption; apply Rabs_le; lra.
    + destruct (Rle_lt_dec (/ 8) (Rabs a1)) as [X|X].
      { left. eapply Rle_trans; [exact S|]. revert X. unfold Rabs. do 2 destruct Rcase_abs; lra. }
      destruct (Rle_lt_dec (/ 8) (Rabs a2)) as [Y|Y].
      { right. left. eapply Rle_trans; [exact S|]. revert Y. unfold Rabs. do 2 destruct Rcase_abs; lra. }
      right. right. destruct (Rle_lt_dec (/ 8) (Rabs a3)) as [Z|Z].
      { eapply Rle_trans; [exact S|]. revert Z. unfold Rabs. do 2 destruct Rcase_abs; lra. }
      exfalso. apply Rabs_lt_inv in X, Y, Z. nra.
  - eapply Forall_impl; [|exact Ap]. intros [pos power| |] H; cbn [off_light]; try exact I. unfold off.
    assert (B18 : 0 < bpow radix2 (-18) <= / 200000) by (split; [apply bpow_gt_0|change (bpow radix2 (-18)) with (/ IZR (2 ^ 18)); apply Rinv_le; [lra|apply IZR_le; lia]]).
    set (e := bpow radix2 (-18)) in *.
    destruct (Rle_lt_dec e (Rabs (B2R (vx pos) - B2R (vx p)))) as [X|X]; [now left|]. destruct (Rle_lt_dec e (Rabs (B2R (vy pos) - B2R (vy p)))) as [Y|Y]; [now right; left|].
    destruct (Rle_lt_dec e (Rabs (B2R (vz pos) - B2R (vz p)))) as [Z|Z]; [now right; right|]. exfalso. apply Rabs_lt_inv in X, Y, Z.
    set (x := B2R (vx pos) - B2R (vx p)) in *. set (y := B2R (vy pos) - B2R (vy p)) in *. set (z := B2R (vz pos) - B2R (vz p)) in *.
    assert (ED : (B2R (vx pos) - B2R (vx c)) ^ 2 + (B2R (vy pos) - B2R (vy c)) ^ 2 + (B2R (vz pos) - B2R (vz c)) ^ 2 = (a1 * a1 + a2 * a2 + a3 * a3) + 2 * (a1 * x + a2 * y + a3 * z) + (x * x + y * y + z * z)).
    { unfold a1, a2, a3, x, y, z. ring. }
    cbv zeta in H. rewrite ED in H.
    assert (P1 : Rabs (a1 * x) <= (r + 1) * / 200000) by (apply prod_le; lra). assert (P2 : Rabs (a2 * y) <= (r + 1) * / 200000) by (apply prod_le; lra). assert (P3 : Rabs (a3 * z) <= (r + 1) * / 200000) by (apply prod_le; lra).
    assert (Q1 : Rabs (x * x) <= / 200000 * / 200000) by (apply prod_le; lra). assert (Q2 : Rabs (y * y) <= / 200000 * / 200000) by (apply prod_le; lra). assert (Q3 : Rabs (z * z) <= / 200000 * / 200000) by (apply prod_le; lra).
    apply Rabs_le_inv in P1, P2, P3, Q1, Q2, Q3. generalize dependent (a1 * x). generalize dependent (a2 * y). generalize dependent (a3 * z). generalize dependent (x * x). generalize dependent (y * y). generalize dependent (z * z). intros. fold r in H. simpl in H. lra.
Qed.

Lemma coloured_solid P k lights o : coloured k o -> solid P k lights o.
Proof. intros H q h q' E. destruct (H q h q' E) as [A B]. split; [exact A|]. intros m M. destruct (B m M) as [C D]. split; [exact C|]. intros _ _ X. congruence. Qed.
Lemma lamp_coloured k l : lamp k l -> coloured k (lightObject l) /\ coloured k (blackened (lightObject l)).
Proof.
  destruct l as [pos power| |]; cbn [lamp]; try contradiction. intros _. cbn [lightObject]. split; intros q h q' E.
  - unfold plainObject in E. cbn [oIntersect] in E. split; [congruence|]. intros m M. exfalso. apply (f_equal (fun o => match o with Val x => hMat (fst x) | _ => None end)) in E. cbn [fst] in E. rewrite <- E in M. discriminate M.
  - unfold blackened, plainObject in E. cbn [oIntersect omap] in E. split; [congruence|]. intros m M. apply (f_equal (fun o => match o with Val x => hMat (fst x) | _ => None end)) in E. cbn [fst hMat] in E. rewrite <- E in M.
    assert (m = MBlack) as -> by congruence. split; [exact I|reflexivity].
Qed.
Lemma backdrop_coloured k t : lit_texture k t -> coloured k (backdrop (Some (MFlat t))).
Proof.
  intros D q h q' H. assert (E := H). apply (f_equal (fun o => match o with Val x => hMat (fst x) | _ => None end)) in H. cbn [backdrop simpleObj oIntersect omap fst hMat] in H, E.
  split; [congruence|]. intros m M. rewrite <- H in M. assert (m = MFlat t) as -> by congruence. split; [exact D|reflexivity].
Qed.

Lemma park_lamplit k depth media lights balls others : park k media lights balls others -> lamplit 7 k (newScene depth media lights (map ball_object balls ++ others)).
Proof.
  intros [L N B A O M]. unfold lamplit, newScene, all_objects. cbn [sLights sObjects sObjectsAndLights sObjectsMinusLights sMedia]. split; [exact L|]. split; [exact N|]. split; [|exact M].
  assert (X : Forall (solid 7 k lights) (map ball_object balls ++ others)).
  { apply Forall_app. split.
    - apply Forall_forall. intros o Ho. apply in_map_iff in Ho. destruct Ho as (b & <- & Hb). rewrite Forall_forall in B, A. apply ball_solid; [now apply B|now apply A].
    - eapply Forall_impl; [|exact O]. intros o. apply coloured_solid. }
  assert (Y : forall f, (forall l, lamp k l -> coloured k (f l)) -> Forall (solid 7 k lights) (map f lights)).
  { intros f Hf. apply Forall_forall. intros o Ho. apply in_map_iff in Ho. destruct Ho as (l & <- & Hl). rewrite Forall_forall in L. apply coloured_solid, Hf, L, Hl. }
  apply Forall_app. split; [exact X|]. apply Forall_app. split; (apply Forall_app; split; [exact X|]); apply Y; intros l Hl; apply (lamp_coloured k l Hl).
Qed.
