(** * Working lemmas for the binary64 instance *)
From Coq Require Import ZArith Reals Bool List Lra Lia.
From Flocq Require Import Core.
From Flocq Require IEEE754.BinarySingleNaN.
Import IEEE754.BinarySingleNaN.
From Verif Require Import Num NumLaws.
Local Open Scope R_scope.

Notation fexp64 := (SpecFloat.fexp 53 1024).
(** rounding to nearest, ties to even *)
Definition rnd (x : R) : R := round radix2 fexp64 ZnearestE x.
Definition fmt (x : R) : Prop := generic_format radix2 fexp64 x.

#[export] Instance fexp64_valid : Valid_exp fexp64.
Proof. apply (fexp_correct 53 1024). exact Hprec64. Qed.
#[export] Instance fexp64_mono : Monotone_exp fexp64.
Proof. apply (FLT_exp_monotone (-1074) 53). Qed.

Lemma fexp64_FLT : fexp64 = FLT_exp (-1074) 53.
Proof. reflexivity. Qed.

Lemma rnd_mono x y : x <= y -> rnd x <= rnd y.
Proof. apply round_le; typeclasses eauto. Qed.
Lemma rnd_id x : fmt x -> rnd x = x.
Proof. intros; apply round_generic; auto; typeclasses eauto. Qed.
Lemma rnd_fmt x : fmt (rnd x).
Proof. apply generic_format_round; typeclasses eauto. Qed.
Lemma fmt_B2R (x : b64) : fmt (B2R x).
Proof. apply generic_format_B2R. Qed.

Lemma fmt_bpow e : (-1074 <= e)%Z -> fmt (bpow radix2 e).
Proof. intros H. apply generic_format_bpow. rewrite fexp64_FLT. unfold FLT_exp. lia. Qed.

(** m * 2^e is representable when m has at most 53 bits *)
Lemma fmt_F2R m e : (Z.abs m < 2 ^ 53)%Z -> (-1074 <= e)%Z -> fmt (IZR m * bpow radix2 e).
Proof.
  intros Hm He. apply generic_format_FLT. exists (Float radix2 m e).
  - unfold F2R; cbn. reflexivity.
  - exact Hm.
  - exact He.
Qed.
Lemma fmt_Z m : (Z.abs m <= 2 ^ 53)%Z -> fmt (IZR m).
Proof.
  intros Hm. destruct (Z.eq_dec (Z.abs m) (2 ^ 53)) as [E|E].
  - assert (m = 2 ^ 53 \/ m = - 2 ^ 53)%Z as [-> | ->] by lia.
    + change (IZR (2 ^ 53)) with (bpow radix2 53). apply fmt_bpow. lia.
    + rewrite opp_IZR. apply generic_format_opp. change (IZR (2 ^ 53)) with (bpow radix2 53). apply fmt_bpow. lia.
  - replace (IZR m) with (IZR m * bpow radix2 0) by (cbn; ring). apply fmt_F2R; lia.
Qed.
Lemma fmt_0 : fmt 0.
Proof. apply generic_format_0. Qed.
Lemma fmt_opp x : fmt x -> fmt (- x).
Proof. apply generic_format_opp. Qed.
Lemma rnd_0 : rnd 0 = 0.
Proof. apply rnd_id, fmt_0. Qed.
Lemma rnd_nonneg x : 0 <= x -> 0 <= rnd x.
Proof. intros. rewrite <- rnd_0. now apply rnd_mono. Qed.
Lemma rnd_le x y : fmt y -> x <= y -> rnd x <= y.
Proof. intros Hy H. rewrite <- (rnd_id y Hy). now apply rnd_mono. Qed.
Lemma rnd_ge x y : fmt y -> y <= x -> y <= rnd x.
Proof. intros Hy H. rewrite <- (rnd_id y Hy). now apply rnd_mono. Qed.
Lemma rnd_abs_le x y : fmt y -> Rabs x <= y -> Rabs (rnd x) <= y.
Proof.
  intros Hy H. apply Rabs_le. apply Rabs_le_inv in H. split.
  - apply rnd_ge; [now apply fmt_opp|lra].
  - apply rnd_le; auto; lra.
Qed.

(** a safely representable magnitude *)
Definition big : R := bpow radix2 1023.
Lemma fmt_big : fmt big.
Proof. apply fmt_bpow. lia. Qed.
Lemma big_lt : big < bpow radix2 1024.
Proof. apply bpow_lt. lia. Qed.
Lemma rnd_in_range x : Rabs x <= big ->
  Rlt_bool (Rabs (round radix2 fexp64 (round_mode mode_NE) x)) (bpow radix2 1024) = true.
Proof.
  intros H. apply Rlt_bool_true. change (round radix2 fexp64 (round_mode mode_NE) x) with (rnd x).
  eapply Rle_lt_trans; [apply rnd_abs_le; [exact fmt_big|exact H]|exact big_lt].
Qed.

Lemma badd_correct (x y : b64) : is_finite x = true -> is_finite y = true -> Rabs (B2R x + B2R y) <= big ->
  is_finite (nadd x y) = true /\ B2R (nadd x y) = rnd (B2R x + B2R y).
Proof.
  intros Fx Fy H. generalize (Bplus_correct 53 1024 Hprec64 Hmax64 mode_NE x y Fx Fy).
  rewrite rnd_in_range by exact H. intros (A & B & _). split; [exact B|exact A].
Qed.
Lemma bsub_correct (x y : b64) : is_finite x = true -> is_finite y = true -> Rabs (B2R x - B2R y) <= big ->
  is_finite (nsub x y) = true /\ B2R (nsub x y) = rnd (B2R x - B2R y).
Proof.
  intros Fx Fy H. generalize (Bminus_correct 53 1024 Hprec64 Hmax64 mode_NE x y Fx Fy).
  rewrite rnd_in_range by exact H. intros (A & B & _). split; [exact B|exact A].
Qed.
Lemma bmul_correct (x y : b64) : is_finite x = true -> is_finite y = true -> Rabs (B2R x * B2R y) <= big ->
  is_finite (nmul x y) = true /\ B2R (nmul x y) = rnd (B2R x * B2R y).
Proof.
  intros Fx Fy H. generalize (Bmult_correct 53 1024 Hprec64 Hmax64 mode_NE x y).
  rewrite rnd_in_range by exact H. intros (A & B & _). split; [|exact A].
  cbn [nmul NumB]. rewrite B, Fx, Fy. reflexivity.
Qed.
Lemma bdiv_correct (x y : b64) : is_finite x = true -> B2R y <> 0 -> Rabs (B2R x / B2R y) <= big ->
  is_finite (ndiv x y) = true /\ B2R (ndiv x y) = rnd (B2R x / B2R y).
Proof.
  intros Fx Fy H. generalize (Bdiv_correct 53 1024 Hprec64 Hmax64 mode_NE x y Fy).
  rewrite rnd_in_range by exact H. intros (A & B & _). split; [|exact A].
  cbn [ndiv NumB]. rewrite B, Fx. reflexivity.
Qed.

Lemma b64_of_bin_correct m e : Rabs (IZR m * bpow radix2 e) <= big ->
  is_finite (b64_of_bin m e) = true /\ B2R (b64_of_bin m e) = rnd (IZR m * bpow radix2 e).
Proof.
  intros H. generalize (binary_normalize_correct 53 1024 Hprec64 Hmax64 mode_NE m e false).
  cbv zeta. replace (F2R {| Fnum := m; Fexp := e |} : R) with (IZR m * bpow radix2 e) by reflexivity.
  rewrite rnd_in_range by exact H. intros (A & B & _). split; [exact B|exact A].
Qed.
Lemma bofZ_correct m : (Z.abs m <= 2 ^ 53)%Z -> is_finite (b64_of_Z m) = true /\ B2R (b64_of_Z m) = IZR m.
Proof.
  intros H. generalize (b64_of_bin_correct m 0). change (b64_of_bin m 0) with (b64_of_Z m).
  replace (IZR m * bpow radix2 0) with (IZR m) by (cbn; ring). intros X.
  destruct X as [A B].
  - rewrite <- abs_IZR. apply Rle_trans with (IZR (2 ^ 53)); [now apply IZR_le|].
    change (IZR (2 ^ 53)) with (bpow radix2 53). apply bpow_le. lia.
  - split; auto. rewrite B. apply rnd_id, fmt_Z, H.
Qed.

Lemma bfloor_correct (x : b64) : is_finite x = true ->
  is_finite (nfloor x) = true /\ B2R (nfloor x) = IZR (Zfloor (B2R x)).
Proof.
  intros Fx. destruct (Bnearbyint_correct 53 1024 Hmax64 mode_DN x) as (A & B & _).
  split; [cbn [nfloor NumB]; rewrite B; exact Fx|].
  cbn [nfloor NumB]. rewrite A. cbn [round_mode].
  rewrite round_FIX_IZR. reflexivity.
Qed.

Lemma btrunc_correct (x : b64) : is_finite x = true -> (int_min <= Ztrunc (B2R x) < 2 ^ 63)%Z ->
  ntrunc x = Ztrunc (B2R x).
Proof.
  intros Fx H. assert (Btrunc x = Ztrunc (B2R x)) as E.
  { apply eq_IZR. rewrite (Btrunc_correct 53 1024 Hmax64). now rewrite round_FIX_IZR. }
  destruct x as [s|s| |s m e p]; try discriminate.
  - cbn. now rewrite Ztrunc_IZR.
  - cbn [ntrunc NumB]. unfold b64_trunc. rewrite E. unfold clamp_int64.
    destruct (Z.leb_spec int_min (Ztrunc (B2R (B754_finite s m e p)))); [|lia].
    destruct (Z.ltb_spec (Ztrunc (B2R (B754_finite s m e p))) (2 ^ 63)); [|lia]. reflexivity.
Qed.

(** comparisons of finite numbers *)
Lemma bltb_R (x y : b64) : is_finite x = true -> is_finite y = true ->
  (nltb x y = true <-> B2R x < B2R y).
Proof. intros; cbn [nltb NumB]. rewrite Bltb_finite by auto. apply Rltb_true. Qed.
Lemma bleb_R (x y : b64) : is_finite x = true -> is_finite y = true ->
  (nleb x y = true <-> B2R x <= B2R y).
Proof. intros; cbn [nleb NumB]. rewrite Bleb_finite by auto. apply Rleb_true. Qed.

(** ** x - floor x is exact for x >= 0 *)
Lemma frac_fmt (x : R) : fmt x -> 0 <= x -> fmt (x - IZR (Zfloor x)).
Proof.
  intros Fx Hx. unfold fmt in Fx. rewrite fexp64_FLT in Fx.
  apply FLT_format_generic in Fx; [|exact Hprec64].
  destruct Fx as [[m e] E Hm He]. cbn in E, Hm, He. unfold F2R in E; cbn in E.
  assert (0 <= m)%Z as Hm0.
  { apply le_IZR. apply Rmult_le_reg_r with (bpow radix2 e); [apply bpow_gt_0|]. rewrite Rmult_0_l, <- E. exact Hx. }
  destruct (Z_le_gt_dec 0 e) as [He0|He0].
  - (* an integer *)
    assert (x = IZR (m * 2 ^ e)) as Ex.
    { rewrite E, mult_IZR. f_equal. rewrite <- (IZR_Zpower radix2) by lia. reflexivity. }
    rewrite Ex, Zfloor_IZR. unfold Rminus. rewrite Rplus_opp_r. apply fmt_0.
  - set (k := (- e)%Z). assert (0 < k)%Z by lia.
    assert (0 < 2 ^ k)%Z as Pk by (apply Z.pow_pos_nonneg; lia).
    assert (IZR (2 ^ k) * bpow radix2 e = 1) as Ek.
    { change 2%Z with (radix_val radix2). rewrite IZR_Zpower by lia. rewrite <- bpow_plus.
      unfold k. replace (- e + e)%Z with 0%Z by lia. reflexivity. }
    assert (Zfloor x = m / 2 ^ k)%Z as Ef.
    { rewrite <- Zfloor_div by lia. f_equal. rewrite E. apply IZR_lt in Pk.
      apply Rmult_eq_reg_r with (IZR (2 ^ k)); [|lra]. unfold Rdiv. rewrite (Rmult_assoc (IZR m) (/ _)), Rinv_l by lra.
      rewrite Rmult_assoc, (Rmult_comm (bpow radix2 e)), Ek. reflexivity. }
    rewrite Ef. replace (x - IZR (m / 2 ^ k)) with (IZR (m mod 2 ^ k) * bpow radix2 e).
    + apply fmt_F2R; [|lia]. generalize (Z.mod_pos_bound m (2 ^ k) Pk) (Z.mod_le m (2 ^ k) Hm0 Pk).
      intros. assert (Z.abs m < 2 ^ 53)%Z as Hm' by exact Hm.
      rewrite Z.abs_eq by lia. rewrite Z.abs_eq in Hm' by lia. lia.
    + rewrite Z.mod_eq by lia. rewrite minus_IZR, mult_IZR, E.
      replace ((IZR m - IZR (2 ^ k) * IZR (m / 2 ^ k)) * bpow radix2 e)
        with (IZR m * bpow radix2 e - IZR (m / 2 ^ k) * (IZR (2 ^ k) * bpow radix2 e)) by ring.
      rewrite Ek. ring.
Qed.

(** ** float64(i)/float64(b) rounds to a value with the same integer part *)
Lemma ulp_le_53 (x : R) : bpow radix2 (-1022) <= x -> ulp radix2 fexp64 x <= x * bpow radix2 (-52).
Proof.
  intros H. assert (0 < x) by (generalize (bpow_gt_0 radix2 (-1022)); lra).
  generalize (ulp_FLT_le radix2 (-1074) 53 x). cbn.
  rewrite (Rabs_pos_eq x) by lra. intros X. apply X. exact H.
Qed.

Lemma rnd_quotient (i b : Z) : (0 <= i < 2 ^ 53)%Z -> (2 <= b < 2 ^ 53)%Z ->
  Zfloor (rnd (IZR i / IZR b)) = (i / b)%Z.
Proof.
  intros Hi Hb. set (q := (i / b)%Z).
  assert (IZR b > 0) as Pb by (apply Rlt_gt, IZR_lt; lia).
  assert (b * q <= i < b * (q + 1))%Z as Hq by (unfold q; generalize (Z.div_mod i b ltac:(lia)) (Z.mod_pos_bound i b ltac:(lia)); nia).
  assert (0 <= q)%Z as Hq0 by (apply Z.div_pos; lia).
  assert (q + 1 <= 2 ^ 53)%Z as Hq1 by nia.
  assert (IZR q <= IZR i / IZR b) as L.
  { apply Rmult_le_reg_r with (IZR b); [lra|]. unfold Rdiv. rewrite Rmult_assoc, Rinv_l, Rmult_1_r by lra.
    rewrite <- mult_IZR. apply IZR_le. lia. }
  apply Zfloor_imp. split.
  - apply rnd_ge; [apply fmt_Z; lia|exact L].
  - set (s := IZR (q + 1)). set (x := IZR i / IZR b).
    assert (1 <= s) as Hs by (apply IZR_le; lia).
    assert (fmt s) as Fs by (apply fmt_Z; lia).
    assert (fmt (pred radix2 fexp64 s)) as Fp by (apply generic_format_pred; [typeclasses eauto|exact Fs]).
    assert (bpow radix2 (-1) <= pred radix2 fexp64 s) as Hp.
    { apply pred_ge_gt; [typeclasses eauto| apply fmt_bpow; lia |exact Fs |].
      apply Rlt_le_trans with 1; [|exact Hs]. change 1 with (bpow radix2 0). apply bpow_lt. lia. }
    assert (s - pred radix2 fexp64 s < s * bpow radix2 (-52)) as Hgap.
    { rewrite <- (succ_pred radix2 fexp64 s) at 1 by exact Fs.
      rewrite succ_eq_pos by (generalize (bpow_gt_0 radix2 (-1)); lra).
      replace (pred radix2 fexp64 s + ulp radix2 fexp64 (pred radix2 fexp64 s) - pred radix2 fexp64 s)
        with (ulp radix2 fexp64 (pred radix2 fexp64 s)) by ring.
      eapply Rle_lt_trans.
      + apply ulp_le_53. eapply Rle_trans; [|exact Hp]. apply bpow_le. lia.
      + apply Rmult_lt_compat_r; [apply bpow_gt_0|]. apply pred_lt_id. lra. }
    assert (pred radix2 fexp64 s < s) as Hlt by (apply pred_lt_id; lra).
    apply Rle_lt_trans with (pred radix2 fexp64 s); [|exact Hlt].
    unfold rnd. apply round_N_le_midp; [typeclasses eauto|exact Fp|].
    rewrite succ_pred; [|typeclasses eauto|exact Fs].
    (* x <= s - (b - i mod b)/b and b s = i + (b - i mod b) *)
    set (d := (b * (q + 1) - i)%Z). assert (1 <= d)%Z as Hd by lia.
    assert (x = s - IZR d / IZR b) as Ex.
    { unfold x, s, d. rewrite minus_IZR, mult_IZR, !plus_IZR. field. lra. }
    assert (IZR b * s = IZR i + IZR d) as Ebs.
    { unfold s, d. rewrite minus_IZR, mult_IZR. ring. }
    assert (s * bpow radix2 (-52) <= 2 * (IZR d / IZR b)) as Hfin.
    { assert (IZR i + IZR d <= 2 * IZR d * bpow radix2 52) as H1.
      { change (bpow radix2 52) with (IZR (2 ^ 52)). rewrite <- !mult_IZR, <- plus_IZR. apply IZR_le. nia. }
      rewrite <- Ebs in H1.
      apply Rmult_le_reg_r with (IZR b * bpow radix2 52); [apply Rmult_lt_0_compat; [lra|apply bpow_gt_0]|].
      replace (s * bpow radix2 (-52) * (IZR b * bpow radix2 52))
        with (IZR b * s * (bpow radix2 (-52) * bpow radix2 52)) by ring.
      rewrite <- bpow_plus. change (bpow radix2 (-52 + 52)) with 1.
      replace (2 * (IZR d / IZR b) * (IZR b * bpow radix2 52)) with (2 * IZR d * bpow radix2 52) by (field; lra). lra. }
    lra.
Qed.
