(** * Bilinear interpolation and pixel positions in double precision *)
From Coq Require Import ZArith Reals Bool List Lra Lia.
From Flocq Require Import Core.
From Flocq Require IEEE754.BinarySingleNaN.
Import IEEE754.BinarySingleNaN.
From Verif Require Import Num Outcome B64 FloatErr FloatSpec GeomModel ColorModel SeqModel SeqProofs SceneModel ImageModel ImageSpec PpmSpec PpmProofs TextureModel TextureSpec TextureProofs
  SamplerModel SamplerSpec SamplerNum MeanSpec LookupSpec.
Import ListNotations.
Local Open Scope R_scope.

Lemma rnd_M x M : bpow radix2 (-900) <= M -> Rabs x <= M -> Rabs (rnd x - x) <= u * M.
Proof.
  intros HM Hx. destruct (Rle_lt_dec (bpow radix2 (-900)) (Rabs x)) as [L|L].
  - destruct (rnd_rel x) as (e & He & ->). { apply Rle_trans with (2 := L). apply bpow_le. lia. }
    replace (x * (1 + e) - x) with (e * x) by ring. rewrite Rabs_mult. apply Rmult_le_compat; try apply Rabs_pos; easy.
  - destruct (rnd_u x (-900) ltac:(lia) ltac:(lra)) as [A _]. apply Rle_trans with (1 := A). rewrite Rmult_comm. apply Rmult_le_compat_l; [pose proof u_pos; lra|easy].
Qed.

(** ** Positions in a texture *)
Lemma modfPos_exact (x : b64) : is_finite x = true -> 0 <= B2R x -> exists a : Z, B2R (modfPos x) = B2R x - IZR a.
Proof.
  intros F P. unfold modfPos. cbn [nofZ NumB]. destruct b64_1 as [F1 E1].
  destruct (nltb x (b64_of_Z 1)) eqn:L; [exists 0%Z; lra|]. exists (Zfloor (B2R x)).
  destruct (bfloor_correct x F) as [Ff Ef].
  pose proof (Zfloor_lb (B2R x)). pose proof (Zfloor_ub (B2R x)). pose proof big_2.
  destruct (bsub_correct x (nfloor x) F Ff) as [_ Es]; [rewrite Ef; apply Rabs_le; lra|].
  rewrite Es, Ef. apply rnd_id. apply frac_fmt; [apply fmt_B2R|easy].
Qed.

Lemma modfFrac_exact (x : b64) : is_finite x = true -> exists a : Z, B2R (modfFrac x) = B2R x - IZR a.
Proof.
  intros F. unfold modfFrac. destruct b64_0 as [F0 E0]. cbn [nofZ NumB]. destruct (nltb x (b64_of_Z 0)) eqn:L.
  - apply (bltb_R x _ F F0) in L. rewrite E0 in L. destruct (opp_R x) as [FO EO].
    destruct (modfPos_exact (nopp x)) as [a Ea]; [congruence|rewrite EO; lra|]. exists (- a)%Z.
    destruct (opp_R (modfPos (nopp x))) as [_ ->]. rewrite Ea, EO, opp_IZR. lra.
  - apply modfPos_exact; [easy|]. destruct (Rle_lt_dec 0 (B2R x)) as [P|P]; [easy|].
    assert (nltb x (b64_of_Z 0) = true) by (apply (bltb_R x _ F F0); lra). congruence.
Qed.

Lemma warp_near (x : b64) : is_finite x = true -> exists a : Z, Rabs (B2R (warp x) - (B2R x - IZR a)) <= u.
Proof.
  intros F. unfold warp. cbv zeta. destruct (modfFrac_b64 x F) as [Fm Rm]. destruct (modfFrac_exact x F) as [a Ea]. set (m := modfFrac x) in *. cbn [nofZ NumB].
  destruct b64_0 as [F0 E0], b64_1 as [F1 E1]. pose proof u_pos.
  set (t := if nltb m (b64_of_Z 0) then nadd (b64_of_Z 1) m else m) in *.
  assert (G : is_finite t = true /\ exists b : Z, Rabs (B2R t - (B2R x - IZR b)) <= u).
  { unfold t. destruct (nltb m (b64_of_Z 0)) eqn:L.
    - apply (bltb_R m _ Fm F0) in L. rewrite E0 in L.
      destruct (add_u 0 (b64_of_Z 1) m ltac:(lia) F1 Fm) as (A & B & _); [rewrite E1; change (bpow radix2 0) with 1; apply Rabs_le; lra|].
      split; [easy|]. exists (a - 1)%Z. rewrite minus_IZR. change (bpow radix2 0) with 1 in B. rewrite E1 in B.
      replace (B2R x - (IZR a - 1)) with (1 + B2R m) by (rewrite Ea; lra). lra.
    - split; [easy|]. exists a. rewrite Ea. replace (B2R x - IZR a - (B2R x - IZR a)) with 0 by lra. rewrite Rabs_R0. lra. }
  destruct G as [Ft (b & Hb)]. destruct (neqb t (b64_of_Z 1)) eqn:E.
  - apply (beqb_R t _ Ft F1) in E. rewrite E1 in E. exists (b + 1)%Z. rewrite plus_IZR, E0. replace (0 - (B2R x - (IZR b + 1))) with (B2R t - (B2R x - IZR b)) by lra. exact Hb.
  - exists b. exact Hb.
Qed.

Lemma position (x : b64) n : is_finite x = true -> (1 <= n <= 2 ^ 53)%Z -> near_position x (IZR (n - 1)) (3 * u * IZR (n - 1)) (B2R (nmul (warp x) (nofZ (n - 1)))).
Proof.
  intros F Hn. destruct (warp_near x F) as [a Ha]. exists a. destruct (warp_b64 x F) as [FW RW].
  destruct (bofZ_correct (n - 1) ltac:(lia)) as [Fn En]. pose proof u_pos as UP.
  assert (Z0 : 0 <= IZR (n - 1)) by (apply IZR_le; lia).
  assert (B : 0 <= B2R (warp x) * IZR (n - 1) <= IZR (n - 1)). { split; [apply Rmult_le_pos; lra|]. rewrite <- (Rmult_1_l (IZR (n - 1))) at 2. apply Rmult_le_compat_r; lra. }
  assert (G : IZR (n - 1) <= big). { unfold big. apply Rle_trans with (IZR (2 ^ 53)); [apply IZR_le; lia|]. change (2 ^ 53)%Z with (radix2 ^ 53)%Z. rewrite (IZR_Zpower radix2) by lia. apply bpow_le. lia. }
  destruct (bmul_correct (warp x) (b64_of_Z (n - 1)) FW Fn) as [_ C]; [rewrite En; apply Rabs_le; lra|]. rewrite En in C.
  cbn [nofZ NumB]. rewrite C.
  assert (D : Rabs (rnd (B2R (warp x) * IZR (n - 1)) - B2R (warp x) * IZR (n - 1)) <= u * IZR (n - 1)).
  { destruct (Z.eq_dec n 1) as [->|N].
    - change (IZR (1 - 1)) with 0. rewrite !Rmult_0_r, rnd_0. rewrite Rminus_0_r, Rabs_R0. lra.
    - apply rnd_M; [|apply Rabs_le; lra]. apply Rle_trans with 1; [apply (bpow_le radix2 (-900) 0); lia|apply IZR_le; lia]. }
  replace (rnd (B2R (warp x) * IZR (n - 1)) - (B2R x - IZR a) * IZR (n - 1))
    with (rnd (B2R (warp x) * IZR (n - 1)) - B2R (warp x) * IZR (n - 1) + (B2R (warp x) - (B2R x - IZR a)) * IZR (n - 1)) by ring.
  eapply Rle_trans; [apply Rabs_triang|]. rewrite Rabs_mult, (Rabs_pos_eq (IZR (n - 1))) by easy.
  assert (Rabs (B2R (warp x) - (B2R x - IZR a)) * IZR (n - 1) <= u * IZR (n - 1)) by (apply Rmult_le_compat_r; easy).
  assert (0 <= u * IZR (n - 1)) by (apply Rmult_le_pos; lra). lra.
Qed.

(** ** Interpolation *)
Lemma frac_exact (X : b64) : is_finite X = true -> 0 <= B2R X -> B2R X < bpow radix2 60 ->
  is_finite (frac X) = true /\ B2R (frac X) = B2R X - IZR (ntrunc X) /\ 0 <= B2R (frac X) < 1.
Proof.
  intros F P L. unfold frac. destruct (bfloor_correct X F) as [Ff Ef].
  pose proof (Zfloor_lb (B2R X)). pose proof (Zfloor_ub (B2R X)). pose proof big_2.
  destruct (bsub_correct X (nfloor X) F Ff) as [Fs Es]; [rewrite Ef; apply Rabs_le; lra|].
  assert (T : ntrunc X = Zfloor (B2R X)).
  { rewrite btrunc_correct; [apply Ztrunc_floor; easy|easy|]. rewrite Ztrunc_floor by easy. unfold int_min. split; [apply Z.le_trans with 0%Z; [lia|apply Zfloor_lub; exact P]|].
    apply lt_IZR. apply Rle_lt_trans with (B2R X); [easy|]. apply Rlt_trans with (1 := L). change (2 ^ 63)%Z with (radix2 ^ 63)%Z. rewrite (IZR_Zpower radix2) by lia. apply bpow_lt. lia. }
  rewrite T, Es, Ef, rnd_id by (apply frac_fmt; [apply fmt_B2R|easy]). split; [easy|]. split; [easy|lra].
Qed.

Lemma weigh k (f a : b64) x ef ea M : (-900 <= k <= 900)%Z -> is_finite f = true -> is_finite a = true -> Rabs (B2R f - M) <= ef -> Rabs (B2R f) <= bpow radix2 k ->
  0 <= B2R a <= 1 -> Rabs (B2R a - x) <= ea -> Rabs M <= bpow radix2 k ->
  is_finite (nmul f a) = true /\ Rabs (B2R (nmul f a) - M * x) <= ef + bpow radix2 k * ea + bpow radix2 k * u /\ Rabs (B2R (nmul f a)) <= bpow radix2 k.
Proof.
  intros Hk Ff Fa Hf Bf Ba Ha BM.
  assert (L : Rabs (B2R f * B2R a) <= bpow radix2 k). { rewrite Rabs_mult, (Rabs_pos_eq (B2R a)) by lra. rewrite <- (Rmult_1_r (bpow radix2 k)). apply Rmult_le_compat; [apply Rabs_pos|lra|easy|lra]. }
  destruct (mul_u k f a ltac:(lia) Ff Fa L) as (A & B & C). split; [easy|]. split; [|easy].
  replace (B2R (nmul f a) - M * x) with ((B2R (nmul f a) - B2R f * B2R a) + (B2R f - M) * B2R a + M * (B2R a - x)) by ring.
  eapply Rle_trans; [apply Rabs_triang|]. eapply Rle_trans; [apply Rplus_le_compat_r, Rabs_triang|]. rewrite !Rabs_mult, (Rabs_pos_eq (B2R a)) by lra.
  assert (Rabs (B2R f - M) * B2R a <= ef * 1) by (apply Rmult_le_compat; [apply Rabs_pos|lra|easy|lra]).
  assert (Rabs M * Rabs (B2R a - x) <= bpow radix2 k * ea) by (apply Rmult_le_compat; try apply Rabs_pos; easy). lra.
Qed.

Lemma two_weights k (f a b : b64) x y ea eb : (-900 <= k <= 900)%Z -> at_most k f -> is_finite a = true -> is_finite b = true ->
  0 <= B2R a <= 1 -> 0 <= B2R b <= 1 -> Rabs (B2R a - x) <= ea -> Rabs (B2R b - y) <= eb -> 0 <= x <= 1 -> 
  is_finite (nmul (nmul f a) b) = true /\ Rabs (B2R (nmul (nmul f a) b) - B2R f * x * y) <= bpow radix2 k * (ea + eb + 2 * u) /\ Rabs (B2R (nmul (nmul f a) b)) <= bpow radix2 k.
Proof.
  intros Hk [Ff Bf] Fa Fb Ba Bb Ha Hb Hx. pose proof (bpow_gt_0 radix2 k).
  destruct (weigh k f a x 0 ea (B2R f) Hk Ff Fa) as (A1 & A2 & A3); try easy; [rewrite Rminus_diag_eq, Rabs_R0 by easy; lra|].
  destruct (weigh k (nmul f a) b y _ eb (B2R f * x) Hk A1 Fb A2) as (B1 & B2 & B3); try easy.
  { rewrite Rabs_mult, (Rabs_pos_eq x) by lra. rewrite <- (Rmult_1_r (bpow radix2 k)). apply Rmult_le_compat; [apply Rabs_pos|lra|easy|lra]. }
  split; [easy|]. split; [|easy]. eapply Rle_trans; [exact B2|]. right; ring.
Qed.

Lemma bilin_near k (f00 f01 f10 f11 x y : b64) : (-900 <= k <= 900)%Z -> at_most k f00 -> at_most k f01 -> at_most k f10 -> at_most k f11 ->
  is_finite x = true -> is_finite y = true -> 0 <= B2R x < 1 -> 0 <= B2R y < 1 ->
  is_finite (bilin f00 f01 f10 f11 x y) = true /\
  Rabs (B2R (bilin f00 f01 f10 f11 x y) - ((1 - B2R y) * ((1 - B2R x) * B2R f00 + B2R x * B2R f10) + B2R y * ((1 - B2R x) * B2R f01 + B2R x * B2R f11))) <= 24 * u * bpow radix2 k.
Proof.
  intros Hk H00 H01 H10 H11 Fx Fy Bx By. unfold bilin. pose proof u_pos as UP. destruct (Z_b 1 ltac:(lia)) as [F1 E1].
  assert (C : forall z : b64, is_finite z = true -> 0 <= B2R z < 1 -> is_finite (nsub (nofZ 1) z) = true /\ 0 <= B2R (nsub (nofZ 1) z) <= 1 /\ Rabs (B2R (nsub (nofZ 1) z) - (1 - B2R z)) <= u).
  { intros z Fz Bz. destruct (sub_u 0 (nofZ 1) z ltac:(lia) F1 Fz) as (A & B & _); [rewrite E1; change (bpow radix2 0) with 1; apply Rabs_le; lra|].
    change (bpow radix2 0) with 1 in B. rewrite E1 in B. split; [easy|]. split; [|lra].
    pose proof (bsub_correct (nofZ 1) z F1 Fz) as [_ ->]; [rewrite E1; pose proof big_2; apply Rabs_le; lra|]. rewrite E1.
    split; [apply rnd_nonneg; lra|apply rnd_le; [apply (fmt_Z 1); lia|lra]]. }
  destruct (C x Fx Bx) as (Fa & Ba & Ea). destruct (C y Fy By) as (Fb & Bb & Eb). clear C.
  set (a := nsub (nofZ 1) x) in *. set (b := nsub (nofZ 1) y) in *.
  assert (Zx : Rabs (B2R x - B2R x) <= 0) by (rewrite Rminus_diag_eq, Rabs_R0; lra). assert (Zy : Rabs (B2R y - B2R y) <= 0) by (rewrite Rminus_diag_eq, Rabs_R0; lra).
  destruct (two_weights k f00 a b (1 - B2R x) (1 - B2R y) u u Hk H00 Fa Fb Ba Bb Ea Eb ltac:(lra)) as (P1 & Q1 & M1).
  destruct (two_weights k f10 x b (B2R x) (1 - B2R y) 0 u Hk H10 Fx Fb ltac:(lra) Bb Zx Eb ltac:(lra)) as (P2 & Q2 & M2).
  destruct (two_weights k f01 a y (1 - B2R x) (B2R y) u 0 Hk H01 Fa Fy Ba ltac:(lra) Ea Zy ltac:(lra)) as (P3 & Q3 & M3).
  destruct (two_weights k f11 x y (B2R x) (B2R y) 0 0 Hk H11 Fx Fy ltac:(lra) ltac:(lra) Zx Zy ltac:(lra)) as (P4 & Q4 & M4).
  set (p1 := nmul (nmul f00 a) b) in *. set (p2 := nmul (nmul f10 x) b) in *. set (p3 := nmul (nmul f01 a) y) in *. set (p4 := nmul (nmul f11 x) y) in *.
  clearbody p1 p2 p3 p4. set (K := bpow radix2 k) in *. assert (KP : 0 < K) by apply bpow_gt_0.
  assert (K1 : bpow radix2 (k + 1) = 2 * K) by (rewrite bpow_plus; change (bpow radix2 1) with 2; unfold K; ring).
  assert (K2 : bpow radix2 (k + 2) = 4 * K) by (rewrite bpow_plus; change (bpow radix2 2) with 4; unfold K; ring).
  apply Rabs_le_inv in M1, M2, M3, M4, Q1, Q2, Q3, Q4.
  destruct (add_u (k + 1) p1 p2 ltac:(lia) P1 P2) as (S1 & T1 & U1); [rewrite K1; apply Rabs_le; lra|]. rewrite K1 in *. apply Rabs_le_inv in T1, U1.
  destruct (add_u (k + 2) (nadd p1 p2) p3 ltac:(lia) S1 P3) as (S2 & T2 & U2); [rewrite K2; apply Rabs_le; lra|]. rewrite K2 in *. apply Rabs_le_inv in T2.
  assert (V2 : Rabs (B2R (nadd (nadd p1 p2) p3)) <= 3 * K).
  { destruct (badd_correct (nadd p1 p2) p3 S1 P3) as [_ ->].
    - apply Rle_trans with (4 * K); [apply Rabs_le; lra|]. rewrite <- K2. apply bpow_big. lia.
    - apply rnd_abs_le; [|apply Rabs_le; lra]. unfold K. apply (fmt_F2R 3 k); lia. }
  apply Rabs_le_inv in V2.
  destruct (add_u (k + 2) (nadd (nadd p1 p2) p3) p4 ltac:(lia) S2 P4) as (S3 & T3 & _); [rewrite K2; apply Rabs_le; lra|]. rewrite K2 in *. apply Rabs_le_inv in T3.
  split; [exact S3|]. apply Rabs_le.
  replace ((1 - B2R y) * ((1 - B2R x) * B2R f00 + B2R x * B2R f10) + B2R y * ((1 - B2R x) * B2R f01 + B2R x * B2R f11))
    with (B2R f00 * (1 - B2R x) * (1 - B2R y) + B2R f10 * B2R x * (1 - B2R y) + B2R f01 * (1 - B2R x) * B2R y + B2R f11 * B2R x * B2R y) by ring.
  assert (0 < K * u) by (apply Rmult_lt_0_compat; easy).
  lra.
Qed.

Lemma picture_pixel k (img : list (list (color b64))) j i c : picture_at_most k img -> pixelAt img j i = Some c -> sane k c.
Proof.
  unfold picture_at_most, pixelAt. intros A E. destruct (nth_error img (Z.to_nat j)) eqn:N; [|easy].
  apply nth_error_In in N, E. rewrite Forall_forall in A. specialize (A _ N). rewrite Forall_forall in A. now apply A.
Qed.

Theorem bilinear_near w (img : list (list (color b64))) (x y z : b64) k : rectangular w img -> (0 < w)%nat ->
  (Z.of_nat w <= 2 ^ 53)%Z -> (Z.of_nat (length img) <= 2 ^ 53)%Z -> is_finite x = true -> is_finite y = true -> (-900 <= k <= 900)%Z -> picture_at_most k img ->
  exists i j s t c, bilinear img (Vec x y z) = Val c /\
    (0 <= i < Z.of_nat w)%Z /\ (0 <= j < Z.of_nat (length img))%Z /\ 0 <= s < 1 /\ 0 <= t < 1 /\
    near_position x (IZR (Z.of_nat w - 1)) (3 * roundoff * IZR (Z.of_nat w - 1)) (IZR i + s) /\
    near_position y (IZR (Z.of_nat (length img) - 1)) (3 * roundoff * IZR (Z.of_nat (length img) - 1)) (IZR j + t) /\
    nearly_interpolates (Z.of_nat w) (Z.of_nat (length img)) img i j s t (24 * roundoff * bpow radix2 k) c.
Proof.
  intros R W0 Hw Hh Fu Fv Hk Pk. unfold bilinear, bilinearUV. cbn [vx vy]. rewrite (rowsSize_rect w img R). set (W := Z.of_nat w) in *. set (H := Z.of_nat (length img)) in *.
  assert (Pw : (1 <= W)%Z) by lia. assert (Ph : (1 <= H)%Z) by (destruct R as [N _]; unfold H; destruct img; [easy|cbn [length]; lia]).
  rewrite (proj2 (beqb_R x x Fu Fu) eq_refl), (proj2 (beqb_R y y Fv Fv) eq_refl). cbn [negb orb]. cbv zeta.
  destruct (warp_b64 x Fu) as [FU RU]. destruct (warp_b64 y Fv) as [FV RV].
  destruct (scaled_b64 (warp x) W FU ltac:(lra) ltac:(lia)) as [FX RX]. destruct (scaled_b64 (warp y) H FV ltac:(lra) ltac:(lia)) as [FY RY].
  pose proof (position x W Fu ltac:(lia)) as PX. pose proof (position y H Fv ltac:(lia)) as PY.
  set (X := nmul (warp x) (nofZ (W - 1))) in *. set (Y := nmul (warp y) (nofZ (H - 1))) in *.
  assert (IX : (0 <= ntrunc X < W)%Z). { apply trunc_index; [easy|lra| |lia]. rewrite minus_IZR in RX. lra. }
  assert (IY : (0 <= ntrunc Y < H)%Z). { apply trunc_index; [easy|lra| |lia]. rewrite minus_IZR in RY. lra. }
  assert (BG : forall n, (n <= 2 ^ 53)%Z -> IZR (n - 1) < bpow radix2 60).
  { intros n Hn. apply Rle_lt_trans with (IZR (2 ^ 53)); [apply IZR_le; lia|]. change (2 ^ 53)%Z with (radix2 ^ 53)%Z. rewrite (IZR_Zpower radix2) by lia. apply bpow_lt. lia. }
  destruct (frac_exact X FX ltac:(lra)) as (FS & ES & BS); [pose proof (BG W Hw); lra|].
  destruct (frac_exact Y FY ltac:(lra)) as (FT & ET & BT); [pose proof (BG H Hh); lra|].
  set (x0 := ntrunc X) in *. set (y0 := ntrunc Y) in *.
  change (if (W <=? x0 + 1)%Z then 0%Z else (x0 + 1)%Z) with (next W x0). change (if (H <=? y0 + 1)%Z then 0%Z else (y0 + 1)%Z) with (next H y0).
  assert (IX1 : (0 <= next W x0 < W)%Z) by (unfold next; destruct (Z.leb_spec W (x0 + 1)); lia).
  assert (IY1 : (0 <= next H y0 < H)%Z) by (unfold next; destruct (Z.leb_spec H (y0 + 1)); lia).
  destruct (pixelAt_some w img y0 x0 R) as [c00 E00]; [lia|lia|]. destruct (pixelAt_some w img (next H y0) x0 R) as [c01 E01]; [lia|lia|].
  destruct (pixelAt_some w img y0 (next W x0) R) as [c10 E10]; [lia|lia|]. destruct (pixelAt_some w img (next H y0) (next W x0) R) as [c11 E11]; [lia|lia|].
  rewrite (atIndex_pixel img x0 y0 c00), (atIndex_pixel img x0 (next H y0) c01), (atIndex_pixel img (next W x0) y0 c10), (atIndex_pixel img (next W x0) (next H y0) c11) by (easy || lia).
  cbn [obind].
  exists x0, y0, (B2R (frac X)), (B2R (frac Y)). eexists. split; [reflexivity|]. split; [easy|]. split; [easy|]. split; [easy|]. split; [easy|].
  change roundoff with u.
  split; [rewrite ES; replace (IZR x0 + (B2R X - IZR x0)) with (B2R X) by ring; exact PX|].
  split; [rewrite ET; replace (IZR y0 + (B2R Y - IZR y0)) with (B2R Y) by ring; exact PY|].
  exists c00, c10, c01, c11. split; [easy|]. split; [easy|]. split; [easy|]. split; [easy|].
  destruct (picture_pixel k img _ _ _ Pk E00) as (? & ? & ?). destruct (picture_pixel k img _ _ _ Pk E10) as (? & ? & ?).
  destruct (picture_pixel k img _ _ _ Pk E01) as (? & ? & ?). destruct (picture_pixel k img _ _ _ Pk E11) as (? & ? & ?).
  intros ch [->|[->| ->]]; cbn [cR cG cB]; apply bilin_near; easy.
Qed.
