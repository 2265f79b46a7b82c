(** * Pixel positions in double precision *)
From Coq Require Import ZArith Reals Bool List Lra Lia.
From Flocq Require Import Core.
From Flocq Require IEEE754.BinarySingleNaN.
Import IEEE754.BinarySingleNaN.
From Verif Require Import Num Outcome B64 FloatErr FloatSpec SeqModel SamplerModel SamplerSpec SamplerNum MeanSpec LookupSpec LookupFloat.
Local Open Scope R_scope.

Lemma half_R : is_finite (nhalf : b64) = true /\ B2R (nhalf : b64) = / 2.
Proof.
  unfold nhalf, nQ. destruct (Z_b 1 ltac:(lia)) as [F1 E1]. destruct (Z_b 2 ltac:(lia)) as [F2 E2].
  destruct (bdiv_correct (nofZ 1) (nofZ 2) F1) as [A B]; [rewrite E2; lra|rewrite E1, E2; apply Rle_trans with 4; [apply Rabs_le; lra|apply (bpow_le radix2 2 1023); lia]|].
  split; [exact A|]. rewrite B, E1, E2. replace (1 / 2) with (bpow radix2 (-1)) by (change (bpow radix2 (-1)) with (/ 2); lra). rewrite rnd_id by (apply fmt_bpow; lia). reflexivity.
Qed.

(** exact part: indices plus a half, and sizes *)
Lemma fmt_half n : (0 <= n <= 2 ^ 51)%Z -> fmt (IZR n + / 2) /\ fmt (IZR n - / 2).
Proof.
  intros Hn. split.
  - replace (IZR n + / 2) with (IZR (2 * n + 1) * bpow radix2 (-1)) by (rewrite plus_IZR, mult_IZR; change (bpow radix2 (-1)) with (/ 2); lra). apply fmt_F2R; lia.
  - replace (IZR n - / 2) with (IZR (2 * n - 1) * bpow radix2 (-1)) by (rewrite minus_IZR, mult_IZR; change (bpow radix2 (-1)) with (/ 2); lra). apply fmt_F2R; lia.
Qed.
Lemma small_big x n : (0 <= n <= 2 ^ 51)%Z -> Rabs x <= 4 * IZR n + 4 -> Rabs x <= big.
Proof.
  intros Hn H. apply Rle_trans with (1 := H). apply Rle_trans with (bpow radix2 54); [|apply bpow_le; lia].
  change (bpow radix2 54) with (IZR (2 ^ 54)). rewrite <- mult_IZR, <- plus_IZR. apply IZR_le. lia.
Qed.
Lemma index_half n : (0 <= n <= 2 ^ 51)%Z -> is_finite (nsub (nofZ n) (nopp nhalf) : b64) = true /\ B2R (nsub (nofZ n) (nopp nhalf) : b64) = IZR n + / 2.
Proof.
  intros Hn. destruct half_R as [FH EH]. destruct (opp_R nhalf) as [FO EO]. rewrite EH in EO. rewrite FH in FO. destruct (Z_b n ltac:(lia)) as [Fn En].
  assert (0 <= IZR n) by (apply IZR_le; lia).
  destruct (bsub_correct (nofZ n) (nopp nhalf) Fn FO) as [A B]; [rewrite En, EO; apply (small_big _ n Hn); apply Rabs_le; lra|].
  split; [easy|]. rewrite B, En, EO. replace (IZR n - - / 2) with (IZR n + / 2) by lra. apply rnd_id. apply fmt_half. lia.
Qed.
Lemma size_half n : (1 <= n <= 2 ^ 51)%Z -> is_finite (nsub (nsub (nofZ n) nhalf) (nopp nhalf) : b64) = true /\ B2R (nsub (nsub (nofZ n) nhalf) (nopp nhalf) : b64) = IZR n.
Proof.
  intros Hn. destruct half_R as [FH EH]. destruct (opp_R nhalf) as [FO EO]. rewrite EH in EO. rewrite FH in FO. destruct (Z_b n ltac:(lia)) as [Fn En].
  assert (1 <= IZR n) by (apply IZR_le; lia).
  destruct (bsub_correct (nofZ n) nhalf Fn FH) as [A B]; [rewrite En, EH; apply (small_big _ n ltac:(lia)); apply Rabs_le; lra|].
  rewrite En, EH in B. rewrite rnd_id in B by (apply fmt_half; lia).
  destruct (bsub_correct (nsub (nofZ n) nhalf) (nopp nhalf) A FO) as [C D]; [rewrite B, EO; apply (small_big _ n ltac:(lia)); apply Rabs_le; lra|].
  split; [easy|]. rewrite D, B, EO. replace (IZR n - / 2 - - / 2) with (IZR n) by lra. apply rnd_id, fmt_Z. lia.
Qed.

Lemma lin_u w x : (1 <= w <= 2 ^ 51)%Z -> (0 <= x < w)%Z ->
  let r := linterp (nopp nhalf) (nofZ 0) (nsub (nofZ w) nhalf) (nofZ 1) (nofZ x) : b64 in
  is_finite r = true /\ B2R r = rnd (centre_u w x).
Proof.
  intros Hw Hx. unfold linterp, centre_u. destruct (index_half x ltac:(lia)) as [FX EX]. destruct (size_half w Hw) as [FW EW].
  destruct (Z_b 0 ltac:(lia)) as [F0 E0]. destruct (Z_b 1 ltac:(lia)) as [F1 E1].
  assert (W1 : 1 <= IZR w) by (apply IZR_le; lia). assert (X0 : 0 <= IZR x) by (apply IZR_le; lia).
  assert (XW : IZR x + 1 <= IZR w) by (rewrite <- plus_IZR; apply IZR_le; lia).
  destruct (bsub_correct (nofZ 1) (nofZ 0) F1 F0) as [A B]; [rewrite E0, E1; apply (small_big _ 0 ltac:(lia)); apply Rabs_le; lra|].
  rewrite E0, E1, Rminus_0_r, (rnd_id 1 (fmt_Z 1 ltac:(lia))) in B.
  destruct (bmul_correct (nsub (nofZ 1) (nofZ 0)) (nsub (nofZ x) (nopp nhalf)) A FX) as [C D]; [rewrite B, EX; apply (small_big _ x ltac:(lia)); apply Rabs_le; lra|].
  rewrite B, EX, Rmult_1_l, rnd_id in D by (apply fmt_half; lia).
  set (q := (IZR x + / 2) / IZR w).
  assert (Q : 0 <= q <= 1). { unfold q. split; [apply Rmult_le_pos; [lra|left; apply Rinv_0_lt_compat; lra]|]. apply Rmult_le_reg_r with (IZR w); [lra|]. unfold Rdiv. rewrite Rmult_assoc, Rinv_l by lra. lra. }
  destruct (bdiv_correct (nmul (nsub (nofZ 1) (nofZ 0)) (nsub (nofZ x) (nopp nhalf))) (nsub (nsub (nofZ w) nhalf) (nopp nhalf)) C) as [E F]; [rewrite EW; lra|rewrite D, EW; fold q; apply (small_big _ 0 ltac:(lia)); apply Rabs_le; lra|].
  rewrite D, EW in F. fold q in F.
  assert (RQ : 0 <= rnd q <= 1) by (split; [apply rnd_nonneg; lra|apply rnd_le; [apply (fmt_Z 1); lia|lra]]).
  destruct (badd_correct (nofZ 0) _ F0 E) as [G H]; [rewrite E0, F; apply (small_big _ 0 ltac:(lia)); apply Rabs_le; lra|].
  split; [exact G|]. rewrite H, E0, F, Rplus_0_l. apply rnd_id, rnd_fmt.
Qed.

Lemma lin_v w h y : (1 <= w <= 2 ^ 51)%Z -> (1 <= h <= 2 ^ 51)%Z -> (0 <= y < h)%Z ->
  let q := ndiv (nofZ h) (nofZ w) : b64 in
  let r := linterp (nopp nhalf) (nadd nhalf (nmul nhalf q)) (nsub (nofZ h) nhalf) (nsub nhalf (nmul nhalf q)) (nofZ y) : b64 in
  is_finite r = true /\ Rabs (B2R r - centre_v w h y) <= 20 * u * (1 + IZR h / IZR w).
Proof.
  intros Hw Hh Hy. unfold linterp, centre_v. destruct (index_half y ltac:(lia)) as [FY EY]. destruct (size_half h Hh) as [FH' EH'].
  destruct half_R as [FH EH]. destruct (Z_b w ltac:(lia)) as [Fw Ew]. destruct (Z_b h ltac:(lia)) as [Fh Eh].
  assert (W1 : 1 <= IZR w) by (apply IZR_le; lia). assert (H1 : 1 <= IZR h) by (apply IZR_le; lia). assert (Y0 : 0 <= IZR y) by (apply IZR_le; lia).
  assert (YH : IZR y + 1 <= IZR h) by (rewrite <- plus_IZR; apply IZR_le; lia).
  set (rr := IZR h / IZR w) in *. set (M := 1 + rr).
  assert (RP : 0 < rr) by (apply Rmult_lt_0_compat; [lra|apply Rinv_0_lt_compat; lra]).
  assert (RW : rr * IZR w = IZR h) by (unfold rr; field; lra).
  assert (RH : rr <= IZR h). { rewrite <- RW at 1. assert (0 <= rr * (IZR w - 1)) by (apply Rmult_le_pos; lra). lra. }
  assert (HB : IZR h <= bpow radix2 51) by (change (bpow radix2 51) with (IZR (2 ^ 51)); apply IZR_le; lia).
  assert (M1 : 1 <= M) by (unfold M; lra). assert (MB : M <= bpow radix2 52) by (unfold M; change (bpow radix2 52) with (2 * bpow radix2 51); pose proof (bpow_le radix2 0 51 ltac:(lia)) as B0; change (bpow radix2 0) with 1 in B0; lra).
  pose proof u_pos as UP. pose proof u_small as US.
  assert (T9 : bpow radix2 (-900) <= 1) by (apply (bpow_le radix2 (-900) 0); lia).
  assert (BIG : forall x c, Rabs x <= c * M -> 0 <= c <= 1024 -> Rabs x <= big).
  { intros x c A C. apply Rle_trans with (1 := A). apply Rle_trans with (1024 * bpow radix2 52); [apply Rmult_le_compat; lra|].
    change 1024 with (bpow radix2 10). rewrite <- bpow_plus. apply bpow_le. lia. }
  assert (RM : forall x c, 1 <= c -> Rabs x <= c * M -> - (c * (u * M)) <= rnd x - x <= c * (u * M)).
  { intros x c C A. apply Rabs_le_inv. replace (c * (u * M)) with (u * (c * M)) by ring. apply rnd_M; [|exact A].
    apply Rle_trans with (1 := T9). rewrite <- (Rmult_1_r 1). apply Rmult_le_compat; lra. }
  set (e := u * M) in *. assert (EP : 0 < e) by (apply Rmult_lt_0_compat; lra). assert (ES : e <= / 1000000 * M) by (unfold e; apply Rmult_le_compat_r; lra).
  (* q *)
  destruct (bdiv_correct (nofZ h) (nofZ w) Fh) as [Fq Eq]; [rewrite Ew; lra|rewrite Eh, Ew; fold rr; apply (BIG _ 1); [apply Rabs_le; unfold M; lra|lra]|].
  rewrite Eh, Ew in Eq. fold rr in Eq. pose proof (RM rr 1 ltac:(lra) ltac:(apply Rabs_le; unfold M; lra)) as Rq. rewrite <- Eq in Rq.
  set (q := ndiv (nofZ h) (nofZ w) : b64) in *.
  (* p *)
  assert (Bp : Rabs (/ 2 * B2R q) <= 1 * M) by (apply Rabs_le; unfold M in *; lra).
  destruct (bmul_correct nhalf q FH Fq) as [Fp Ep]; [rewrite EH; apply (BIG _ 1); [exact Bp|lra]|].
  rewrite EH in Ep. pose proof (RM _ 1 ltac:(lra) Bp) as Rp. rewrite <- Ep in Rp. set (p := nmul nhalf q) in *.
  (* A, B *)
  assert (BA : Rabs (/ 2 + B2R p) <= 1 * M) by (apply Rabs_le; unfold M in *; lra).
  destruct (badd_correct nhalf p FH Fp) as [FA EA]; [rewrite EH; apply (BIG _ 1); [exact BA|lra]|].
  rewrite EH in EA. pose proof (RM _ 1 ltac:(lra) BA) as RA. rewrite <- EA in RA. set (A := nadd nhalf p) in *.
  assert (BB : Rabs (/ 2 - B2R p) <= 1 * M) by (apply Rabs_le; unfold M in *; lra).
  destruct (bsub_correct nhalf p FH Fp) as [FB EB]; [rewrite EH; apply (BIG _ 1); [exact BB|lra]|].
  rewrite EH in EB. pose proof (RM _ 1 ltac:(lra) BB) as RB. rewrite <- EB in RB. set (B := nsub nhalf p) in *.
  (* D *)
  assert (BD : Rabs (B2R B - B2R A) <= 2 * M) by (apply Rabs_le; unfold M in *; lra).
  destruct (bsub_correct B A FB FA) as [FD ED]; [apply (BIG _ 2); [exact BD|lra]|].
  pose proof (RM _ 2 ltac:(lra) BD) as RD. rewrite <- ED in RD. set (D := nsub B A) in *.
  assert (DR : - (8 * e) <= B2R D + rr <= 8 * e) by (unfold M in *; lra).
  (* P *)
  set (Y := nsub (nofZ y) (nopp nhalf) : b64) in *. set (HH := nsub (nsub (nofZ h) nhalf) (nopp nhalf) : b64) in *.
  assert (AD : Rabs (B2R D) <= 2 * M) by (apply Rabs_le; unfold M in *; lra).
  assert (PB : Rabs (B2R D * B2R Y) <= 2 * M * IZR h). { rewrite EY, Rabs_mult, (Rabs_pos_eq (IZR y + / 2)) by lra. apply Rmult_le_compat; [apply Rabs_pos|lra|exact AD|lra]. }
  destruct (bmul_correct D Y FD FY) as [FP EP'].
  { apply Rle_trans with (1 := PB). apply Rle_trans with (2 * bpow radix2 52 * bpow radix2 51); [apply Rmult_le_compat; lra|]. change 2 with (bpow radix2 1). rewrite <- !bpow_plus. apply bpow_le. lia. }
  assert (RPP : Rabs (rnd (B2R D * B2R Y) - B2R D * B2R Y) <= 2 * e * IZR h).
  { replace (2 * e * IZR h) with (u * (2 * M * IZR h)) by (unfold e; ring). apply rnd_M; [|exact PB]. apply Rle_trans with (1 := T9). assert (1 * 1 <= M * IZR h) by (apply Rmult_le_compat; lra). lra. }
  rewrite <- EP' in RPP. set (P := nmul D Y) in *.
  (* Q *)
  assert (HI : 0 < / IZR h) by (apply Rinv_0_lt_compat; lra).
  assert (YQ : 0 <= (IZR y + / 2) / IZR h <= 1). { split; [apply Rmult_le_pos; lra|]. apply Rmult_le_reg_r with (IZR h); [lra|]. unfold Rdiv. rewrite Rmult_assoc, Rinv_l by lra. lra. }
  set (t := (IZR y + / 2) / IZR h) in *.
  assert (PH : - (2 * e) <= B2R P / IZR h - B2R D * t <= 2 * e).
  { apply Rabs_le_inv. replace (B2R P / IZR h - B2R D * t) with ((B2R P - B2R D * B2R Y) * / IZR h) by (rewrite EY; unfold t; field; lra).
    rewrite Rabs_mult, (Rabs_pos_eq (/ IZR h)) by lra. apply Rmult_le_reg_r with (IZR h); [lra|]. rewrite Rmult_assoc, Rinv_l by lra. lra. }
  assert (DT : - (8 * e) <= B2R D * t + rr * t <= 8 * e).
  { replace (B2R D * t + rr * t) with ((B2R D + rr) * t) by ring. assert (0 <= (8 * e - (B2R D + rr)) * t) by (apply Rmult_le_pos; lra). assert (0 <= (8 * e + (B2R D + rr)) * t) by (apply Rmult_le_pos; lra).
    assert (0 <= 8 * e * (1 - t)) by (apply Rmult_le_pos; lra). lra. }
  assert (RT : 0 <= rr * t <= rr). { split; [apply Rmult_le_pos; lra|]. assert (0 <= rr * (1 - t)) by (apply Rmult_le_pos; lra). lra. }
  assert (BQ : Rabs (B2R P / IZR h) <= 2 * M) by (apply Rabs_le; unfold M in *; lra).
  destruct (bdiv_correct P HH FP) as [FQ EQ]; [rewrite EH'; lra|rewrite EH'; apply (BIG _ 2); [exact BQ|lra]|].
  rewrite EH' in EQ. pose proof (RM _ 2 ltac:(lra) BQ) as RQ. rewrite <- EQ in RQ. set (Q := ndiv P HH) in *.
  (* sum *)
  assert (BV : Rabs (B2R A + B2R Q) <= 2 * M) by (apply Rabs_le; unfold M in *; lra).
  destruct (badd_correct A Q FA FQ) as [FV EV]; [apply (BIG _ 2); [exact BV|lra]|].
  pose proof (RM _ 2 ltac:(lra) BV) as RV. rewrite <- EV in RV.
  split; [exact FV|]. replace (20 * u * M) with (20 * e) by (unfold e; ring).
  assert (TV : / 2 + (IZR h / 2 - (IZR y + / 2)) / IZR w = / 2 + rr / 2 - rr * t) by (unfold rr, t; field; lra).
  rewrite TV. apply Rabs_le. lra.
Qed.

Lemma pixel_position w h p : (1 <= w <= 2 ^ 51)%Z -> (1 <= h <= 2 ^ 51)%Z -> in_image w h p ->
  exists x y : b64, indexToCam w h (nofZ (fst p)) (nofZ (snd p)) = Val (x, y) /\ is_finite x = true /\ is_finite y = true /\
    Rabs (B2R x - centre_u w (fst p)) <= roundoff /\ Rabs (B2R y - centre_v w h (snd p)) <= 20 * roundoff * (1 + IZR h / IZR w).
Proof.
  intros Hw Hh [Hx Hy]. destruct (indexToCam_b64 w h p ltac:(lia) ltac:(lia) (conj Hx Hy)) as (x & y & E). exists x, y. split; [exact E|].
  unfold indexToCam in E. destruct (_ || _)%bool in E; [discriminate E|].
  destruct (lin_u w (fst p) Hw Hx) as [A B]. destruct (lin_v w h (snd p) Hw Hh Hy) as [C D]. cbv zeta in *.
  assert (Ex : x = linterp (nopp nhalf) (nofZ 0) (nsub (nofZ w) nhalf) (nofZ 1) (nofZ (fst p))) by congruence.
  assert (Ey : y = linterp (nopp nhalf) (nadd nhalf (nmul nhalf (ndiv (nofZ h) (nofZ w)))) (nsub (nofZ h) nhalf) (nsub nhalf (nmul nhalf (ndiv (nofZ h) (nofZ w)))) (nofZ (snd p))) by congruence.
  subst x y. split; [exact A|]. split; [exact C|]. split; [|exact D]. rewrite B. change roundoff with u.
  assert (W1 : 1 <= IZR w) by (apply IZR_le; lia). assert (X0 : 0 <= IZR (fst p)) by (apply IZR_le; lia).
  assert (XW : IZR (fst p) + 1 <= IZR w) by (rewrite <- plus_IZR; apply IZR_le; lia).
  rewrite <- (Rmult_1_r u). apply rnd_M; [apply (bpow_le radix2 (-900) 0); lia|]. unfold centre_u. apply Rabs_le. 
  split; [apply Rle_trans with 0; [lra|apply Rmult_le_pos; [lra|left; apply Rinv_0_lt_compat; lra]]|].
  apply Rmult_le_reg_r with (IZR w); [lra|]. unfold Rdiv. rewrite Rmult_assoc, Rinv_l by lra. lra.
Qed.

(** the error is a small fraction of a pixel *)
Lemma error_small w h : (1 <= w)%Z -> (1 <= h)%Z -> (w + h <= 2 ^ 47)%Z -> roundoff * 3 < / IZR w /\ 3 * (20 * roundoff * (1 + IZR h / IZR w)) < / IZR w.
Proof.
  intros Hw Hh S. assert (W1 : 1 <= IZR w) by (apply IZR_le; lia). assert (H1 : 1 <= IZR h) by (apply IZR_le; lia).
  assert (B : IZR w + IZR h <= 140737488355328) by (rewrite <- plus_IZR; apply IZR_le; lia).
  change roundoff with u. pose proof u_pos as UP. pose proof u_val as UV.
  assert (P : u * (IZR w + IZR h) <= / 64). { apply Rle_trans with (u * 140737488355328); [apply Rmult_le_compat_l; lra|]. rewrite UV. lra. }
  assert (WP : 0 < / IZR w) by (apply Rinv_0_lt_compat; lra).
  assert (0 <= u * IZR h) by (apply Rmult_le_pos; lra).
  split; apply Rmult_lt_reg_r with (IZR w); try lra.
  - rewrite Rinv_l by lra. lra.
  - replace (3 * (20 * u * (1 + IZR h / IZR w)) * IZR w) with (60 * (u * (IZR w + IZR h))) by (field; lra). rewrite Rinv_l by lra. lra.
Qed.

Lemma pixels_in_order w h p p' (x y x' y' : b64) : (1 <= w)%Z -> (1 <= h)%Z -> (w + h <= 2 ^ 47)%Z -> in_image w h p -> in_image w h p' ->
  indexToCam w h (nofZ (fst p)) (nofZ (snd p)) = Val (x, y) -> indexToCam w h (nofZ (fst p')) (nofZ (snd p')) = Val (x', y') ->
  ((fst p < fst p')%Z -> nltb x x' = true) /\ ((snd p < snd p')%Z -> nltb y' y = true).
Proof.
  intros Hw Hh S Hp Hp' E E'. destruct (error_small w h Hw Hh S) as [S1 S2].
  destruct (pixel_position w h p ltac:(lia) ltac:(lia) Hp) as (a & b & Ea & Fa & Fb & Ha & Hb).
  destruct (pixel_position w h p' ltac:(lia) ltac:(lia) Hp') as (a' & b' & Ea' & Fa' & Fb' & Ha' & Hb').
  assert (a = x /\ b = y) as [-> ->] by (split; congruence). assert (a' = x' /\ b' = y') as [-> ->] by (split; congruence).
  apply Rabs_le_inv in Ha, Hb, Ha', Hb'. assert (W1 : 1 <= IZR w) by (apply IZR_le; lia). assert (WP : 0 < / IZR w) by (apply Rinv_0_lt_compat; lra).
  set (e := 20 * roundoff * (1 + IZR h / IZR w)) in *. clearbody e. pose proof u_pos as UP. change roundoff with u in *.
  split; intros L; apply bltb_R; try easy.
  - assert (D : / IZR w <= centre_u w (fst p') - centre_u w (fst p)).
    { unfold centre_u. replace ((IZR (fst p') + / 2) / IZR w - (IZR (fst p) + / 2) / IZR w) with ((IZR (fst p') - IZR (fst p)) * / IZR w) by (field; lra).
      rewrite <- (Rmult_1_l (/ IZR w)) at 1. apply Rmult_le_compat_r; [lra|]. rewrite <- minus_IZR. apply IZR_le. lia. }
    lra.
  - assert (D : / IZR w <= centre_v w h (snd p) - centre_v w h (snd p')).
    { unfold centre_v. replace (/ 2 + (IZR h / 2 - (IZR (snd p) + / 2)) / IZR w - (/ 2 + (IZR h / 2 - (IZR (snd p') + / 2)) / IZR w)) with ((IZR (snd p') - IZR (snd p)) * / IZR w) by (field; lra).
      rewrite <- (Rmult_1_l (/ IZR w)) at 1. apply Rmult_le_compat_r; [lra|]. rewrite <- minus_IZR. apply IZR_le. lia. }
    lra.
Qed.

Lemma pixels_in_window w h p (x y : b64) : (1 <= w)%Z -> (1 <= h)%Z -> (w + h <= 2 ^ 47)%Z -> in_image w h p ->
  indexToCam w h (nofZ (fst p)) (nofZ (snd p)) = Val (x, y) ->
  (nltb (nofZ 0) x = true /\ nltb x (nofZ 1) = true) /\ ((h <= w)%Z -> nltb (nofZ 0) y = true /\ nltb y (nofZ 1) = true).
Proof.
  intros Hw Hh S Hp E. destruct (error_small w h Hw Hh S) as [S1 S2].
  destruct (pixel_position w h p ltac:(lia) ltac:(lia) Hp) as (a & b & Ea & Fa & Fb & Ha & Hb).
  assert (a = x /\ b = y) as [-> ->] by (split; congruence). destruct Hp as [Hx Hy].
  apply Rabs_le_inv in Ha, Hb. assert (W1 : 1 <= IZR w) by (apply IZR_le; lia). assert (WP : 0 < / IZR w) by (apply Rinv_0_lt_compat; lra).
  assert (WW : IZR w * / IZR w = 1) by (apply Rinv_r; lra).
  set (e := 20 * roundoff * (1 + IZR h / IZR w)) in *. clearbody e. pose proof u_pos as UP. change roundoff with u in *.
  destruct (Z_b 0 ltac:(lia)) as [F0 E0]. destruct (Z_b 1 ltac:(lia)) as [F1 E1].
  assert (X0 : 0 <= IZR (fst p)) by (apply IZR_le; lia). assert (XW : IZR (fst p) + 1 <= IZR w) by (rewrite <- plus_IZR; apply IZR_le; lia).
  assert (Y0 : 0 <= IZR (snd p)) by (apply IZR_le; lia). assert (YH : IZR (snd p) + 1 <= IZR h) by (rewrite <- plus_IZR; apply IZR_le; lia).
  assert (M : forall z, 0 <= z -> 0 <= z * / IZR w) by (intros; apply Rmult_le_pos; lra).
  split; [|intros L].
  - pose proof (M _ X0). pose proof (M (IZR w - IZR (fst p) - 1) ltac:(lra)). unfold centre_u, Rdiv in Ha.
    split; apply bltb_R; try easy; rewrite ?E0, ?E1; lra.
  - assert (HW : IZR h <= IZR w) by (apply IZR_le; lia). unfold centre_v, Rdiv in Hb.
    pose proof (M (IZR w - IZR h) ltac:(lra)). pose proof (M _ Y0). pose proof (M (IZR h - IZR (snd p) - 1) ltac:(lra)).
    split; apply bltb_R; try easy; rewrite ?E0, ?E1; lra.
Qed.
