(** * Boxes in double precision *)
From Coq Require Import ZArith Reals Bool List Lra Lia Psatz.
From Flocq Require Import Core.
From Flocq Require Relative.
From Flocq Require IEEE754.BinarySingleNaN.
Import IEEE754.BinarySingleNaN.
From Verif Require Import Num NumLaws Outcome B64 GeomModel ObjModel ParamProofs FloatSpec.
Import ListNotations.
Local Open Scope R_scope.

Lemma mul_inv (x y : b64) : is_finite (nmul x y) = true -> is_finite x = true /\ is_finite y = true /\ B2R (nmul x y) = rnd (B2R x * B2R y).
Proof.
  intros H.
  assert (is_finite x = true /\ is_finite y = true) as [Fx Fy].
  { destruct x as [s|s| |s m e p], y as [s'|s'| |s' m' e' p']; cbn in H |- *; auto; discriminate. }
  split; [exact Fx|]. split; [exact Fy|]. generalize (Bmult_correct 53 1024 Hprec64 Hmax64 mode_NE x y).
  destruct (Rlt_bool _ _).
  - intros (A & _). exact A.
  - intros A. exfalso. assert (is_finite_SF (B2SF (nmul x y)) = false) as E.
    { change (nmul x y) with (Bmult mode_NE x y). rewrite A. destruct (xorb _ _); reflexivity. }
    rewrite is_finite_SF_B2SF in E. congruence.
Qed.
Lemma one_b : is_finite (nofZ 1 : b64) = true /\ B2R (nofZ 1 : b64) = 1.
Proof. apply bofZ_correct. lia. Qed.
Lemma div_inv (d : b64) : is_finite (ndiv (nofZ 1) d) = true -> is_finite d = true -> B2R d <> 0 /\ B2R (ndiv (nofZ 1) d) = rnd (1 / B2R d).
Proof.
  intros H Fd. destruct one_b as [F1 E1].
  assert (B2R d <> 0) as N.
  { intros E. destruct d as [s|s| |s m e p]; try discriminate Fd.
    - exfalso. revert H. generalize F1. change (ndiv (nofZ 1) (B754_zero s)) with (Bdiv mode_NE (nofZ 1 : b64) (B754_zero s)).
      destruct (nofZ 1 : b64) as [s1|s1| |s1 m1 e1 p1] eqn:Eo; cbn; intros; try discriminate. 
    - cbn in E. unfold F2R in E. cbn in E. assert (bpow radix2 e <> 0) by (apply Rgt_not_eq, bpow_gt_0).
      apply Rmult_integral in E. destruct E as [E|E]; [|contradiction]. destruct s; cbn in E; apply (f_equal Rabs) in E; revert E; rewrite Rabs_R0; apply Rabs_no_R0; apply not_0_IZR; discriminate. }
  split; [exact N|]. generalize (Bdiv_correct 53 1024 Hprec64 Hmax64 mode_NE (nofZ 1 : b64) d N).
  destruct (Rlt_bool _ _).
  - intros (A & _). rewrite E1 in A. exact A.
  - intros A. exfalso. assert (is_finite_SF (B2SF (ndiv (nofZ 1) d)) = false) as E.
    { change (ndiv (nofZ 1 : b64) d) with (Bdiv mode_NE (nofZ 1 : b64) d). rewrite A. destruct (xorb _ _); reflexivity. }
    rewrite is_finite_SF_B2SF in E. congruence.
Qed.

Lemma rnd_eps x : exists e n, Rabs e <= bpow radix2 (-53) /\ Rabs n <= bpow radix2 (-1075) /\ rnd x = x * (1 + e) + n.
Proof.
  destruct (Relative.error_N_FLT radix2 (-1074) 53 ltac:(lia) (fun z => negb (Z.even z)) x) as (e & n & He & Hn & _ & E).
  exists e, n. split; [|split].
  - replace (bpow radix2 (-53)) with (/ 2 * bpow radix2 (-53 + 1)); [exact He|].
    change (-53 + 1)%Z with (1 + -53)%Z. rewrite bpow_plus. change (bpow radix2 1) with 2. lra.
  - replace (bpow radix2 (-1075)) with (/ 2 * bpow radix2 (-1074)); [exact Hn|].
    change (-1074)%Z with (1 + -1075)%Z. rewrite bpow_plus. change (bpow radix2 1) with 2. lra.
  - exact E.
Qed.

Notation small x := (is_finite x = true /\ Rabs (B2R x) <= bpow radix2 20).
Lemma bp_split a b : bpow radix2 (a + b) = bpow radix2 a * bpow radix2 b.
Proof. apply bpow_plus. Qed.

Lemma approx_const : is_finite (nQ 1 (10 ^ 8) : b64) = true /\ bpow radix2 (-27) <= B2R (nQ 1 (10 ^ 8) : b64).
Proof.
  split; [vm_compute; reflexivity|].
  assert (nleb (nQ 1 (2 ^ 27) : b64) (nQ 1 (10 ^ 8) : b64) = true) as H by (vm_compute; reflexivity).
  assert (is_finite (nQ 1 (2 ^ 27) : b64) = true) as F1 by (vm_compute; reflexivity).
  assert (is_finite (nQ 1 (10 ^ 8) : b64) = true) as F2 by (vm_compute; reflexivity).
  assert (B2R (nQ 1 (2 ^ 27) : b64) = bpow radix2 (-27)) as E.
  { assert (B2SF (nQ 1 (2 ^ 27) : b64) = SpecFloat.S754_finite false 4503599627370496 (-79)) as E by (vm_compute; reflexivity).
    rewrite <- SF2R_B2SF with (x := nQ 1 (2 ^ 27) : b64). rewrite E. cbn [SF2R]. unfold F2R. cbn [Fnum Fexp cond_Zopp].
    change 4503599627370496%Z with (2 ^ 52)%Z. rewrite (IZR_Zpower radix2) by lia. rewrite <- bpow_plus. reflexivity. }
  change (nleb (nQ 1 (2 ^ 27) : b64) (nQ 1 (10 ^ 8) : b64)) with (Bleb (nQ 1 (2 ^ 27) : b64) (nQ 1 (10 ^ 8) : b64)) in H.
  rewrite (Bleb_finite _ _ F1 F2) in H. apply Rleb_true in H. rewrite E in H. exact H.
Qed.

Lemma inv_eps D : D <> 0 -> Rabs D <= 2 -> exists e, Rabs e <= bpow radix2 (-53) /\ rnd (1 / D) = 1 / D * (1 + e).
Proof.
  intros HD H2. destruct (Relative.relative_error_N_FLT_ex radix2 (-1074) 53 ltac:(lia) (fun z => negb (Z.even z)) (1 / D)) as (e & He & E).
  - apply Rle_trans with (/ 2).
    + change (/ 2) with (bpow radix2 (-1)). apply bpow_le. lia.
    + unfold Rdiv. rewrite Rmult_1_l, Rabs_inv. apply Rinv_le; [now apply Rabs_pos_lt|exact H2].
  - exists e. split; [|exact E]. replace (bpow radix2 (-53)) with (/ 2 * bpow radix2 (-53 + 1)); [exact He|].
    change (-53 + 1)%Z with (1 + -53)%Z. rewrite bpow_plus. change (bpow radix2 1) with 2. lra.
Qed.

Lemma plane_error (m s d : b64) : small m -> small s -> is_finite d = true -> Rabs (B2R d) <= 2 ->
  let t := nmul (nsub m s) (ndiv (nofZ 1) d) in is_finite t = true ->
  is_finite (nadd s (nmul t d)) = true /\ Rabs (B2R (nadd s (nmul t d)) - B2R m) <= bpow radix2 (-28).
Proof.
  intros [Fm Hm] [Fs Hs] Fd Hd t Ft.
  assert (P : forall e, 0 < bpow radix2 e) by (intros; apply bpow_gt_0).
  assert (B : forall e, (e <= 1023)%Z -> bpow radix2 e <= big) by (intros; apply bpow_le; assumption).
  assert (D1 : forall e, bpow radix2 (e + 1) = 2 * bpow radix2 e) by (intros; rewrite bpow_plus; change (bpow radix2 1) with 2; ring).
  assert (H21 : Rabs (B2R m - B2R s) <= bpow radix2 21).
  { change 21%Z with (20 + 1)%Z. rewrite D1. unfold Rminus. eapply Rle_trans; [apply Rabs_triang|]. rewrite Rabs_Ropp. lra. }
  destruct (bsub_correct m s Fm Fs) as [Fa Ea]; [eapply Rle_trans; [exact H21|apply B; lia]|].
  set (a := nsub m s) in *.
  assert (Ha : Rabs (B2R a) <= bpow radix2 21) by (rewrite Ea; apply rnd_abs_le; [apply fmt_bpow; lia|exact H21]).
  assert (Xa := rnd_err_small _ 21 ltac:(lia) H21). rewrite <- Ea in Xa. change (21 - 53)%Z with (-32)%Z in Xa.
  unfold t in Ft. destruct (mul_inv _ _ Ft) as (_ & Fi & Et). fold t in Ft, Et. destruct (div_inv d Fi Fd) as [Nd Ei].
  destruct (inv_eps (B2R d) Nd Hd) as (e1 & He1 & E1). rewrite E1 in Ei.
  destruct (rnd_eps (B2R a * B2R (ndiv (nofZ 1) d))) as (e2 & n & He2 & Hn & E2). rewrite <- Et in E2.
  set (A := B2R a) in *. set (D := B2R d) in *. set (T := B2R t) in *.
  assert (TD : T * D = A * (1 + e1) * (1 + e2) + n * D) by (rewrite E2, Ei; field; exact Nd).
  assert (XT : Rabs (T * D - A) <= bpow radix2 (-30)).
  { rewrite TD. replace (A * (1 + e1) * (1 + e2) + n * D - A) with (A * (e1 + e2 + e1 * e2) + n * D) by ring.
    eapply Rle_trans; [apply Rabs_triang|]. rewrite !Rabs_mult.
    assert (Rabs (e1 + e2 + e1 * e2) <= bpow radix2 (-52) + bpow radix2 (-53)) as Q.
    { eapply Rle_trans; [apply Rabs_triang|]. eapply Rle_trans; [apply Rplus_le_compat_r, Rabs_triang|]. rewrite Rabs_mult.
      change (-52)%Z with (-53 + 1)%Z. rewrite D1. assert (bpow radix2 (-53) <= 1) by (apply (bpow_le radix2 (-53) 0); lia).
      generalize (Rabs_pos e1) (Rabs_pos e2) (P (-53)%Z). intros. assert (Rabs e1 * Rabs e2 <= bpow radix2 (-53) * 1) by (apply Rmult_le_compat; lra). lra. }
    assert (Rabs A * Rabs (e1 + e2 + e1 * e2) <= bpow radix2 21 * (bpow radix2 (-52) + bpow radix2 (-53))) as Q2 by (apply Rmult_le_compat; auto using Rabs_pos).
    rewrite Rmult_plus_distr_l, <- !bpow_plus in Q2. change (21 + -52)%Z with (-31)%Z in Q2. change (21 + -53)%Z with (-32)%Z in Q2.
    assert (Rabs n * Rabs D <= bpow radix2 (-1075) * 2) as Q3 by (apply Rmult_le_compat; auto using Rabs_pos).
    assert (bpow radix2 (-1075) * 2 <= bpow radix2 (-32)) as Q4 by (rewrite Rmult_comm, <- D1; apply bpow_le; lia).
    change (-30)%Z with (-32 + 1 + 1)%Z. change (-31)%Z with (-32 + 1)%Z in Q2. rewrite D1 in Q2. rewrite !D1. lra. }
  assert (H22 : Rabs (T * D) <= bpow radix2 22).
  { replace (T * D) with ((T * D - A) + A) by ring. eapply Rle_trans; [apply Rabs_triang|].
    change 22%Z with (21 + 1)%Z. rewrite D1. assert (bpow radix2 (-30) <= bpow radix2 21) by (apply bpow_le; lia). lra. }
  destruct (bmul_correct t d Ft Fd) as [Fq Eq]; [eapply Rle_trans; [exact H22|apply B; lia]|]. fold T D in Eq.
  assert (Xq := rnd_err_small _ 22 ltac:(lia) H22). rewrite <- Eq in Xq. change (22 - 53)%Z with (-31)%Z in Xq.
  assert (Hq : Rabs (B2R (nmul t d)) <= bpow radix2 22) by (rewrite Eq; apply rnd_abs_le; [apply fmt_bpow; lia|exact H22]).
  assert (H23 : Rabs (B2R s + B2R (nmul t d)) <= bpow radix2 23).
  { eapply Rle_trans; [apply Rabs_triang|]. change 23%Z with (22 + 1)%Z. rewrite D1. assert (bpow radix2 20 <= bpow radix2 22) by (apply bpow_le; lia). lra. }
  destruct (badd_correct s (nmul t d) Fs Fq) as [Fp Ep]; [eapply Rle_trans; [exact H23|apply B; lia]|].
  split; [exact Fp|].
  assert (Xp := rnd_err_small _ 23 ltac:(lia) H23). rewrite <- Ep in Xp. change (23 - 53)%Z with (-30)%Z in Xp.
  replace (B2R (nadd s (nmul t d)) - B2R m) with ((B2R (nadd s (nmul t d)) - (B2R s + B2R (nmul t d))) + (B2R (nmul t d) - T * D) + (T * D - A) + (A - (B2R m - B2R s))) by ring.
  eapply Rle_trans; [apply Rabs_triang|]. eapply Rle_trans; [apply Rplus_le_compat_r, Rabs_triang|].
  eapply Rle_trans; [apply Rplus_le_compat_r, Rplus_le_compat_r, Rabs_triang|].
  change (-28)%Z with (-32 + 1 + 1 + 1 + 1)%Z. change (-30)%Z with (-32 + 1 + 1)%Z in *. change (-31)%Z with (-32 + 1)%Z in *.
  rewrite !D1 in *. generalize (P (-32)%Z). lra.
Qed.

Lemma plane_approx (m s d : b64) : small m -> small s -> is_finite d = true -> Rabs (B2R d) <= 2 ->
  let t := nmul (nsub m s) (ndiv (nofZ 1) d) in is_finite t = true -> approx (F := b64) (nadd s (nmul t d)) m = true.
Proof.
  intros Hm Hs Fd Hd t Ft. destruct (plane_error m s d Hm Hs Fd Hd Ft) as [Fp Hp]. fold t in Fp, Hp. destruct Hm as [Fm Hm].
  set (p := nadd s (nmul t d)) in *. destruct approx_const as [Fc Hc].
  destruct (bsub_correct p m Fp Fm) as [Fx Ex]; [eapply Rle_trans; [exact Hp|apply bpow_le; lia]|].
  unfold approx. change (nabs (nsub p m)) with (Babs (nsub p m)).
  rewrite bltb_eq; [|rewrite is_finite_Babs; exact Fx|exact Fc]. apply Rltb_true. rewrite B2R_Babs, Ex.
  apply Rle_lt_trans with (bpow radix2 (-28)); [apply rnd_abs_le; [apply fmt_bpow; lia|exact Hp]|].
  eapply Rlt_le_trans; [|exact Hc]. apply bpow_lt. lia.
Qed.

(** ** Which plane is reported *)
Section Pick.
  Implicit Types x y z t : b64.
  Lemma umin_nan x y : nisnan (umin x y) = nisnan y.
  Proof. unfold umin. destruct (nltb x y) eqn:E; [|reflexivity]. destruct (nltb_not_nan _ _ E) as [-> ->]. reflexivity. Qed.
  Lemma umax_nan x y : nisnan (umax x y) = nisnan y.
  Proof. unfold umax. destruct (nltb y x) eqn:E; [|reflexivity]. destruct (nltb_not_nan _ _ E) as [-> ->]. reflexivity. Qed.
  Lemma max3_nan x y z : nisnan (max3 x y z) = nisnan x.
  Proof.
    unfold max3. destruct (nltb x y) eqn:E.
    - destruct (nltb_not_nan _ _ E) as [Nx Ny]. destruct (nltb y z) eqn:E'; [destruct (nltb_not_nan _ _ E'); congruence|congruence].
    - destruct (nltb x z) eqn:E'; [destruct (nltb_not_nan _ _ E'); congruence|reflexivity].
  Qed.
  Lemma min3_le x y z : nisnan x = false -> nisnan (min3 x y z) = false /\ nleb (min3 x y z) x = true /\
    (nisnan y = false -> nleb (min3 x y z) y = true) /\ (nisnan z = false -> nleb (min3 x y z) z = true).
  Proof.
    intros Nx. unfold min3. set (m := if nltb y x then y else x).
    assert (Nm : nisnan m = false /\ nleb m x = true /\ (nisnan y = false -> nleb m y = true)).
    { unfold m. destruct (nltb y x) eqn:E.
      - destruct (nltb_not_nan _ _ E) as [Ny _]. split; [exact Ny|]. split; [now apply nltb_leb|]. intros _. now apply nleb_refl.
      - split; [exact Nx|]. split; [now apply nleb_refl|]. intros Ny. now apply nltb_false_leb. }
    destruct Nm as (Nm & Lx & Ly). destruct (nltb z m) eqn:E.
    - destruct (nltb_not_nan _ _ E) as [Nz _]. assert (nleb z m = true) by now apply nltb_leb. split; [exact Nz|]. split; [eapply nleb_trans; eassumption|].
      split; [intros Ny; eapply nleb_trans; eauto|]. intros _. now apply nleb_refl.
    - split; [exact Nm|]. split; [exact Lx|]. split; [exact Ly|]. intros Nz. now apply nltb_false_leb.
  Qed.
  Lemma umax_in x y : umax x y = x \/ umax x y = y. Proof. unfold umax. destruct (nltb y x); auto. Qed.
  Lemma umin_in x y : umin x y = x \/ umin x y = y. Proof. unfold umin. destruct (nltb x y); auto. Qed.
  Lemma max3_in x y z : max3 x y z = x \/ max3 x y z = y \/ max3 x y z = z.
  Proof. unfold max3. destruct (nltb x y); [destruct (nltb y z)|destruct (nltb x z)]; auto. Qed.
  Lemma min3_in x y z : min3 x y z = x \/ min3 x y z = y \/ min3 x y z = z.
  Proof. unfold min3. destruct (nltb y x); [destruct (nltb z y)|destruct (nltb z x)]; auto. Qed.

  Lemma below_finite t f : is_finite f = true -> nltb (nofZ 0) t = true -> nleb t f = true -> is_finite t = true.
  Proof.
    intros Ff H0 Hl. change (nleb t f) with (Bleb t f) in Hl. change (nltb (nofZ 0) t) with (Bltb (nofZ 0 : b64) t) in H0. rewrite b64_key_leb in Hl. rewrite b64_key_ltb in H0.
    rewrite (b64_key_finite f Ff) in Hl. assert (is_finite (nofZ 0 : b64) = true /\ B2R (nofZ 0 : b64) = 0) as [F0 E0] by (apply bofZ_correct; lia).
    rewrite (b64_key_finite _ F0) in H0. destruct t as [s|s| |s m e p]; try reflexivity; destruct s || idtac; cbn in Hl, H0; discriminate.
  Qed.
End Pick.

(** finite on an axis along which the ray moves *)
Lemma axis_finite (m s d : b64) : small m -> small s -> is_finite d = true -> bpow radix2 (-900) <= Rabs (B2R d) ->
  is_finite (nmul (nsub m s) (ndiv (nofZ 1) d)) = true.
Proof.
  intros [Fm Hm] [Fs Hs] Fd Hd.
  assert (D1 : forall e, bpow radix2 (e + 1) = 2 * bpow radix2 e) by (intros; rewrite bpow_plus; change (bpow radix2 1) with 2; ring).
  assert (H21 : Rabs (B2R m - B2R s) <= bpow radix2 21).
  { change 21%Z with (20 + 1)%Z. rewrite D1. unfold Rminus. eapply Rle_trans; [apply Rabs_triang|]. rewrite Rabs_Ropp. lra. }
  destruct (bsub_correct m s Fm Fs) as [Fa Ea]; [eapply Rle_trans; [exact H21|apply bpow_le; lia]|].
  assert (Ha : Rabs (B2R (nsub m s)) <= bpow radix2 21) by (rewrite Ea; apply rnd_abs_le; [apply fmt_bpow; lia|exact H21]).
  destruct one_b as [F1 E1]. assert (Hi : Rabs (1 / B2R d) <= bpow radix2 900).
  { unfold Rdiv. rewrite Rmult_1_l, Rabs_inv. change 900%Z with (- (-900))%Z. rewrite bpow_opp. apply Rinv_le; [apply bpow_gt_0|exact Hd]. }
  destruct (bdiv_correct (nofZ 1) d F1) as [Fi Ei].
  - intros E. rewrite E, Rabs_R0 in Hd. generalize (bpow_gt_0 radix2 (-900)). lra.
  - rewrite E1. eapply Rle_trans; [exact Hi|apply bpow_le; lia].
  - rewrite E1 in Ei. assert (Hi' : Rabs (B2R (ndiv (nofZ 1) d)) <= bpow radix2 900) by (rewrite Ei; apply rnd_abs_le; [apply fmt_bpow; lia|exact Hi]).
    apply (bmul_correct _ _ Fa Fi). rewrite Rabs_mult. apply Rle_trans with (bpow radix2 21 * bpow radix2 900).
    + apply Rmult_le_compat; auto using Rabs_pos.
    + rewrite <- bpow_plus. apply bpow_le. lia.
Qed.
Lemma pick_finite (x y : b64) : is_finite x = true -> is_finite y = true -> is_finite (umax x y) = true.
Proof. intros. destruct (umax_in x y) as [->| ->]; auto. Qed.
Lemma finite_nan (x : b64) : is_finite x = true -> nisnan x = false.
Proof. destruct x; cbn; congruence. Qed.

Theorem box_no_panic {M} (mat : option M) (lo hi s d : vec b64) : all3 (at_most 20) lo -> all3 (at_most 20) hi -> all3 (at_most 20) s ->
  all3 (at_most 1) d -> some3 (at_least (-900)) d ->
  exists h, boxIntersect (BBox lo hi) mat (Ray s d) = Val h.
Proof.
  intros (L1 & L2 & L3) (H1 & H2 & H3) (S1 & S2 & S3) ((D1 & E1) & (D2 & E2) & (D3 & E3)) Mv.
  unfold boxIntersect. set (t := bbIntersect (BBox lo hi) (Ray s d)). destruct (nltb (nofZ 0) t) eqn:Pt; [|eexists; reflexivity].
  cbn [negb].
  set (tx := fun m : b64 => nmul (nsub m (vx s)) (ndiv (nofZ 1) (vx d))).
  set (ty := fun m : b64 => nmul (nsub m (vy s)) (ndiv (nofZ 1) (vy d))).
  set (tz := fun m : b64 => nmul (nsub m (vz s)) (ndiv (nofZ 1) (vz d))).
  set (ten := max3 (umin (tx (vx lo)) (tx (vx hi))) (umin (ty (vy lo)) (ty (vy hi))) (umin (tz (vz lo)) (tz (vz hi)))).
  set (tex := min3 (umax (tx (vx lo)) (tx (vx hi))) (umax (ty (vy lo)) (ty (vy hi))) (umax (tz (vz lo)) (tz (vz hi)))).
  assert (Et : t = if nltb tex ten then nofZ 0 else if nltb ten (nofZ 0) then tex else ten) by reflexivity.
  assert (Which : (t = tex \/ t = ten) /\ nisnan tex = false /\ nleb t tex = true /\ nisnan (umax (tx (vx lo)) (tx (vx hi))) = false).
  { rewrite Et in Pt |- *. destruct (nltb tex ten) eqn:C1; [rewrite nltb_irrefl in Pt; discriminate|].
    destruct (nltb ten (nofZ 0)) eqn:C2.
    - destruct (nltb_not_nan _ _ C2) as [Nten _]. unfold ten in Nten. rewrite max3_nan, umin_nan in Nten.
      destruct (nltb_not_nan _ _ Pt) as [_ Nt]. split; [auto|]. split; [exact Nt|]. split; [now apply nleb_refl|]. now rewrite umax_nan.
    - destruct (nltb_not_nan _ _ Pt) as [_ Nt]. assert (Nx := Nt). unfold ten in Nx. rewrite max3_nan, umin_nan in Nx.
      assert (Nx' : nisnan (umax (tx (vx lo)) (tx (vx hi))) = false) by now rewrite umax_nan.
      destruct (min3_le _ (umax (ty (vy lo)) (ty (vy hi))) (umax (tz (vz lo)) (tz (vz hi))) Nx') as (Ntex & _). fold tex in Ntex.
      split; [auto|]. split; [exact Ntex|]. split; [|exact Nx']. now apply nltb_false_leb. }
  destruct Which as (Wh & Ntex & Le & Nx).
  assert (Ft : is_finite t = true).
  { destruct (min3_le _ (umax (ty (vy lo)) (ty (vy hi))) (umax (tz (vz lo)) (tz (vz hi))) Nx) as (_ & A & B & C). fold tex in A, B, C.
    destruct Mv as [Mv|[Mv|Mv]].
    - apply (below_finite t (umax (tx (vx lo)) (tx (vx hi)))); auto; [|eapply nleb_trans; eassumption].
      apply pick_finite; apply axis_finite; auto.
    - assert (F : is_finite (umax (ty (vy lo)) (ty (vy hi))) = true) by (apply pick_finite; apply axis_finite; auto).
      apply (below_finite t (umax (ty (vy lo)) (ty (vy hi)))); auto. eapply nleb_trans; [exact Le|]. apply B. now apply finite_nan.
    - assert (F : is_finite (umax (tz (vz lo)) (tz (vz hi))) = true) by (apply pick_finite; apply axis_finite; auto).
      apply (below_finite t (umax (tz (vz lo)) (tz (vz hi)))); auto. eapply nleb_trans; [exact Le|]. apply C. now apply finite_nan. }
  assert (In6 : t = tx (vx lo) \/ t = tx (vx hi) \/ t = ty (vy lo) \/ t = ty (vy hi) \/ t = tz (vz lo) \/ t = tz (vz hi)).
  { destruct Wh as [-> | ->].
    - unfold tex. destruct (min3_in (umax (tx (vx lo)) (tx (vx hi))) (umax (ty (vy lo)) (ty (vy hi))) (umax (tz (vz lo)) (tz (vz hi)))) as [->|[->| ->]].
      + destruct (umax_in (tx (vx lo)) (tx (vx hi))) as [->| ->]; auto.
      + destruct (umax_in (ty (vy lo)) (ty (vy hi))) as [->| ->]; auto 6.
      + destruct (umax_in (tz (vz lo)) (tz (vz hi))) as [->| ->]; auto 8.
    - unfold ten. destruct (max3_in (umin (tx (vx lo)) (tx (vx hi))) (umin (ty (vy lo)) (ty (vy hi))) (umin (tz (vz lo)) (tz (vz hi)))) as [->|[->| ->]].
      + destruct (umin_in (tx (vx lo)) (tx (vx hi))) as [->| ->]; auto.
      + destruct (umin_in (ty (vy lo)) (ty (vy hi))) as [->| ->]; auto 6.
      + destruct (umin_in (tz (vz lo)) (tz (vz hi))) as [->| ->]; auto 8. }
  assert (App : approx (nadd (vx s) (nmul t (vx d))) (vx lo) = true \/ approx (nadd (vx s) (nmul t (vx d))) (vx hi) = true \/
    approx (nadd (vy s) (nmul t (vy d))) (vy lo) = true \/ approx (nadd (vy s) (nmul t (vy d))) (vy hi) = true \/
    approx (nadd (vz s) (nmul t (vz d))) (vz lo) = true \/ approx (nadd (vz s) (nmul t (vz d))) (vz hi) = true).
  { destruct In6 as [E|[E|[E|[E|[E|E]]]]]; rewrite E in Ft |- *; [left|right; left|do 2 right; left|do 3 right; left|do 4 right; left|do 5 right]; apply plane_approx; auto. }
  unfold boxNormal. cbn [bMin bMax rayAt rStart rDir vx vy vz].
  destruct (approx _ (vx lo)) eqn:A1; [eexists; reflexivity|]. destruct (approx _ (vx hi)) eqn:A2; [eexists; reflexivity|].
  destruct (approx _ (vy lo)) eqn:A3; [eexists; reflexivity|]. destruct (approx _ (vy hi)) eqn:A4; [eexists; reflexivity|].
  destruct (approx _ (vz lo)) eqn:A5; [eexists; reflexivity|]. destruct (approx _ (vz hi)) eqn:A6; [eexists; reflexivity|].
  exfalso. destruct App as [E|[E|[E|[E|[E|E]]]]]; congruence.
Qed.

Lemma box_object_no_panic (M : Type) (m : option M) (lo hi s d : vec b64) :
  all3 (at_most 20) lo -> all3 (at_most 20) hi -> all3 (at_most 20) s -> all3 (at_most 1) d -> some3 (at_least (-900)) d ->
  exists h, oIntersect (boxWithBounds m lo hi : object b64 M) (Ray s d) = Val h.
Proof.
  intros H1 H2 H3 H4 H5. destruct (box_no_panic m lo hi s d H1 H2 H3 H4 H5) as (h & E).
  unfold boxWithBounds, simpleObj. cbn [oIntersect]. rewrite E. eexists. reflexivity.
Qed.
Lemma ofZ_small k z : (0 <= k <= 52)%Z -> (Z.abs z <= 2 ^ k)%Z -> at_most k (nofZ z).
Proof.
  intros Hk H. assert (2 ^ k <= 2 ^ 52)%Z by (apply Z.pow_le_mono_r; lia).
  destruct (bofZ_correct z) as [F E]; [lia|]. split; [exact F|]. change (Rabs (B2R (b64_of_Z z)) <= bpow radix2 k). rewrite E, <- abs_IZR. rewrite <- (IZR_Zpower radix2) by lia. apply IZR_le. exact H.
Qed.
Lemma ofZ_least z : (Z.abs z <= 2 ^ 52)%Z -> z <> 0%Z -> at_least (-900) (nofZ z).
Proof.
  intros H Hz. destruct (bofZ_correct z) as [F E]; [lia|]. unfold at_least. change (bpow radix2 (-900) <= Rabs (B2R (b64_of_Z z))). rewrite E, <- abs_IZR.
  apply Rle_trans with 1; [apply (bpow_le radix2 (-900) 0); lia|]. apply IZR_le. lia.
Qed.
(** a city block, seen from a kilometre away; all in millimetres *)
Lemma block_example {M} (m : option M) (z : Z) : (Z.abs z <= 1000000)%Z ->
  exists h, oIntersect (boxWithBounds m (Vec (nofZ (-50000)) (nofZ 0) (nofZ (-40000))) (Vec (nofZ 50000) (nofZ 30000) (nofZ 40000)) : object b64 M)
    (Ray (Vec (nofZ 1000000) (nofZ 1500) (nofZ z)) (Vec (nofZ (-1)) (nofZ 0) (nofZ 0))) = Val h.
Proof.
  intros Hz. assert (X : forall k, (Z.abs k <= 1000000)%Z -> at_most 20 (nofZ k)) by (intros k Hk; apply ofZ_small; [lia|]; change (2 ^ 20)%Z with 1048576%Z; lia).
  assert (Y : forall k, (Z.abs k <= 2)%Z -> at_most 1 (nofZ k)) by (intros k Hk; apply ofZ_small; [lia|exact Hk]).
  destruct (box_no_panic m (Vec (nofZ (-50000)) (nofZ 0) (nofZ (-40000))) (Vec (nofZ 50000) (nofZ 30000) (nofZ 40000))
    (Vec (nofZ 1000000) (nofZ 1500) (nofZ z)) (Vec (nofZ (-1)) (nofZ 0) (nofZ 0))) as (h & E).
  1-4: unfold all3; cbn [vx vy vz]; split; [|split]; (apply X || apply Y); lia.
  - left. cbn [vx]. apply ofZ_least; lia.
  - unfold boxWithBounds, simpleObj. cbn [oIntersect]. rewrite E. eexists. reflexivity.
Qed.
