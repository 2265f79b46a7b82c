(** * Spheres in double precision: hits lie on the sphere, lifted points lie outside *)
From Coq Require Import ZArith Reals Bool List Lra Lia Psatz.
From Flocq Require Import Core.
From Flocq Require IEEE754.BinarySingleNaN.
Import IEEE754.BinarySingleNaN.
From Verif Require Import Num NumLaws Outcome B64 GeomModel ObjModel ParamProofs FloatSpec BoxFloat FloatErr.
Local Open Scope R_scope.

(** ** The coefficients of the quadratic equation *)
Definition rx (v : vec b64) := B2R (vx v).
Definition ry (v : vec b64) := B2R (vy v).
Definition rz (v : vec b64) := B2R (vz v).
Definition fin3 (v : vec b64) : Prop := is_finite (vx v) = true /\ is_finite (vy v) = true /\ is_finite (vz v) = true.

Lemma unit_le x y z : x * x + y * y + z * z <= 1001/1000 -> -1001/1000 <= x <= 1001/1000 /\ -1001/1000 <= y <= 1001/1000 /\ -1001/1000 <= z <= 1001/1000.
Proof.
  intros H. assert (0 <= x * x) by apply Rle_0_sqr. assert (0 <= y * y) by apply Rle_0_sqr. assert (0 <= z * z) by apply Rle_0_sqr.
  assert (G : forall q, q * q <= 1001/1000 -> -1001/1000 <= q <= 1001/1000) by (clear; intros q Hq; split; nra).
  split; [|split]; apply G; lra.
Qed.
Lemma prod_le p q m n : - m <= p <= m -> - n <= q <= n -> Rabs (p * q) <= m * n.
Proof. intros P Q. rewrite Rabs_mult. apply Rmult_le_compat; auto using Rabs_pos; apply Rabs_le; lra. Qed.

Section Coeffs.
  Variables c s d : vec b64.
  Variable b : b64.
  Hypothesis Fc : fin3 c.
  Hypothesis Fs : fin3 s.
  Hypothesis Fd : fin3 d.
  Hypothesis Fb : is_finite b = true.
  Let O0 := rx s - rx c. Let O1 := ry s - ry c. Let O2 := rz s - rz c.
  Hypothesis HO : -512 <= O0 <= 512 /\ -512 <= O1 <= 512 /\ -512 <= O2 <= 512.
  Let a := rx d * rx d + ry d * ry d + rz d * rz d.
  Hypothesis Ha : 999 / 1000 <= a <= 1001 / 1000.
  Hypothesis Hb : 0 <= B2R b <= 65536.
  Let bet := 2 * (rx d * O0 + ry d * O1 + rz d * O2).
  Let gam := O0 * O0 + O1 * O1 + O2 * O2 - B2R b.

  Definition coeffs : b64 * b64 * b64 :=
    let s0 := nsub (vx s) (vx c) in let s1 := nsub (vy s) (vy c) in let s2 := nsub (vz s) (vz c) in
    let one := nofZ 1 in
    (nadd (nadd (nmul (nmul one (vx d)) (vx d)) (nmul (nmul one (vy d)) (vy d))) (nmul (nmul one (vz d)) (vz d)),
     nmul (nofZ 2) (nadd (nadd (nmul (nmul one (vx d)) s0) (nmul (nmul one (vy d)) s1)) (nmul (nmul one (vz d)) s2)),
     nsub (nadd (nadd (nmul (nmul one s0) s0) (nmul (nmul one s1) s1)) (nmul (nmul one s2) s2)) b).

  Lemma dir_le : -1001/1000 <= rx d <= 1001/1000 /\ -1001/1000 <= ry d <= 1001/1000 /\ -1001/1000 <= rz d <= 1001/1000.
  Proof. apply unit_le. apply Ha. Qed.

  Lemma coeffs_u : exists A B C, coeffs = (A, B, C) /\ is_finite A = true /\ is_finite B = true /\ is_finite C = true /\
    Rabs (B2R A - a) <= 32 * u /\ Rabs (B2R B - bet) <= 32768 * u /\ Rabs (B2R C - gam) <= 8388608 * u.
  Proof.
    destruct Fc as (Fc0 & Fc1 & Fc2). destruct Fs as (Fs0 & Fs1 & Fs2). destruct Fd as (Fd0 & Fd1 & Fd2).
    destruct HO as (H0 & H1 & H2). destruct dir_le as (D0 & D1 & D2). assert (U := u_pos).
    destruct (sub_u 9 (vx s) (vx c) ltac:(lia) Fs0 Fc0 ltac:(apply Rabs_le; exact H0)) as (G0 & E0 & M0).
    destruct (sub_u 9 (vy s) (vy c) ltac:(lia) Fs1 Fc1 ltac:(apply Rabs_le; exact H1)) as (G1 & E1 & M1).
    destruct (sub_u 9 (vz s) (vz c) ltac:(lia) Fs2 Fc2 ltac:(apply Rabs_le; exact H2)) as (G2 & E2 & M2).
    change (bpow radix2 9) with 512 in *.
    unfold coeffs. set (s0 := nsub (vx s) (vx c)) in *. set (s1 := nsub (vy s) (vy c)) in *. set (s2 := nsub (vz s) (vz c)) in *.
    assert (Bd : forall x : b64, -1001/1000 <= B2R x <= 1001/1000 -> Rabs (B2R x) <= bpow radix2 1000).
    { intros x Hx. apply Rle_trans with (bpow radix2 1); [change (bpow radix2 1) with 2; apply Rabs_le; lra|apply bpow_le; lia]. }
    assert (Bs : forall x : b64, Rabs (B2R x) <= 512 -> Rabs (B2R x) <= bpow radix2 1000).
    { intros x Hx. apply Rle_trans with (bpow radix2 9); [exact Hx|apply bpow_le; lia]. }
    destruct (one_mul (vx d) Fd0 (Bd _ D0)) as [Fo0 Eo0]. destruct (one_mul (vy d) Fd1 (Bd _ D1)) as [Fo1 Eo1]. destruct (one_mul (vz d) Fd2 (Bd _ D2)) as [Fo2 Eo2].
    destruct (one_mul s0 G0 (Bs _ M0)) as [Fp0 Ep0]. destruct (one_mul s1 G1 (Bs _ M1)) as [Fp1 Ep1]. destruct (one_mul s2 G2 (Bs _ M2)) as [Fp2 Ep2].
    apply Rabs_le_inv in M0, M1, M2, E0, E1, E2.
    fold (rx d) in Eo0, D0. fold (ry d) in Eo1, D1. fold (rz d) in Eo2, D2.
    change (B2R (vx s) - B2R (vx c)) with O0 in E0. change (B2R (vy s) - B2R (vy c)) with O1 in E1. change (B2R (vz s) - B2R (vz c)) with O2 in E2.
    (* A *)
    destruct (dot_u 1 (nmul (nofZ 1) (vx d)) (nmul (nofZ 1) (vy d)) (nmul (nofZ 1) (vz d)) (vx d) (vy d) (vz d)) as (FA & EA & _); auto; [lia|..].
    1: rewrite Eo0; fold (rx d). 2: rewrite Eo1; fold (ry d). 3: rewrite Eo2; fold (rz d).
    1-3: change (bpow radix2 1) with 2; eapply Rle_trans; [eapply (prod_le _ _ (1001/1000) (1001/1000)); lra|lra].
    rewrite Eo0, Eo1, Eo2 in EA. fold (rx d) (ry d) (rz d) a in EA. change (bpow radix2 1) with 2 in EA.
    (* B *)
    destruct (dot_u 10 (nmul (nofZ 1) (vx d)) (nmul (nofZ 1) (vy d)) (nmul (nofZ 1) (vz d)) s0 s1 s2) as (FB & EB & MB); auto; [lia|..].
    1: rewrite Eo0. 2: rewrite Eo1. 3: rewrite Eo2.
    1-3: change (bpow radix2 10) with 1024; eapply Rle_trans; [eapply (prod_le _ _ (1001/1000) 512); lra|lra].
    rewrite Eo0, Eo1, Eo2 in EB. change (bpow radix2 10) with 1024 in EB, MB.
    destruct (Z_b 2 ltac:(lia)) as [F2 V2].
    set (B' := nadd (nadd (nmul (nmul (nofZ 1) (vx d)) s0) (nmul (nmul (nofZ 1) (vy d)) s1)) (nmul (nmul (nofZ 1) (vz d)) s2)) in *.
    destruct (mul_u 13 (nofZ 2) B' ltac:(lia) F2 FB) as (FB2 & EB2 & _).
    { rewrite V2, Rabs_mult, (Rabs_pos_eq 2) by lra. change (bpow radix2 13) with 8192. lra. }
    rewrite V2 in EB2. change (bpow radix2 13) with 8192 in EB2.
    (* C *)
    destruct (dot_u 18 (nmul (nofZ 1) s0) (nmul (nofZ 1) s1) (nmul (nofZ 1) s2) s0 s1 s2) as (FC & EC & MC); auto; [lia|..].
    1: rewrite Ep0. 2: rewrite Ep1. 3: rewrite Ep2.
    1-3: change (bpow radix2 18) with 262144; eapply Rle_trans; [eapply (prod_le _ _ 512 512); lra|lra].
    rewrite Ep0, Ep1, Ep2 in EC. change (bpow radix2 18) with 262144 in EC, MC.
    set (C' := nadd (nadd (nmul (nmul (nofZ 1) s0) s0) (nmul (nmul (nofZ 1) s1) s1)) (nmul (nmul (nofZ 1) s2) s2)) in *.
    apply Rabs_le_inv in EA, EB, EB2, EC, MC.
    destruct (sub_u 21 C' b ltac:(lia) FC Fb) as (FD & ED & _).
    { change (bpow radix2 21) with 2097152. apply Rabs_le. lra. }
    change (bpow radix2 21) with 2097152 in ED. apply Rabs_le_inv in ED.
    eexists _, _, _. split; [reflexivity|]. split; [exact FA|]. split; [exact FB2|]. split; [exact FD|].
    assert (X : forall p q e, - (1001/1000) <= p <= 1001/1000 -> - e <= q <= e -> - (1001/1000 * e) <= p * q <= 1001/1000 * e).
    { intros p q e P Q. assert (Rabs (p * q) <= 1001/1000 * e) as Y by (apply prod_le; lra). apply Rabs_le_inv in Y. lra. }
    split; [apply Rabs_le; lra|]. split.
    - apply Rabs_le. unfold bet. set (t0 := B2R s0) in *. set (t1 := B2R s1) in *. set (t2 := B2R s2) in *.
      assert (Y0 := X (rx d) (t0 - O0) _ ltac:(lra) E0). assert (Y1 := X (ry d) (t1 - O1) _ ltac:(lra) E1). assert (Y2 := X (rz d) (t2 - O2) _ ltac:(lra) E2).
      fold (rx d) (ry d) (rz d) in EB.
      clear - EB EB2 Y0 Y1 Y2 U. lra.
    - apply Rabs_le. unfold gam. set (t0 := B2R s0) in *. set (t1 := B2R s1) in *. set (t2 := B2R s2) in *.
      assert (Z : forall t o, -512 <= t <= 512 -> -512 <= o <= 512 -> - (512 * u) <= t - o <= 512 * u -> - (524288 * u) <= t * t - o * o <= 524288 * u).
      { clear - U. intros t o T P E. replace (t * t - o * o) with ((t + o) * (t - o)) by ring.
        assert (Rabs ((t + o) * (t - o)) <= 1024 * (512 * u)) as Y by (apply prod_le; lra). apply Rabs_le_inv in Y. lra. }
      assert (Y0 := Z t0 O0 M0 H0 E0). assert (Y1 := Z t1 O1 M1 H1 E1). assert (Y2 := Z t2 O2 M2 H2 E2).
      clear - EC ED Y0 Y1 Y2 U. lra.
  Qed.
End Coeffs.

(** ** The roots *)
Lemma cauchy x y z p q r : (x * p + y * q + z * r) * (x * p + y * q + z * r) <= (x * x + y * y + z * z) * (p * p + q * q + r * r).
Proof.
  assert (0 <= (x * q - y * p) * (x * q - y * p)) by apply Rle_0_sqr. assert (0 <= (x * r - z * p) * (x * r - z * p)) by apply Rle_0_sqr.
  assert (0 <= (y * r - z * q) * (y * r - z * q)) by apply Rle_0_sqr. nra.
Qed.
Lemma sq_le x m : 0 <= m -> x * x <= m * m -> - m <= x <= m.
Proof. intros. split; nra. Qed.
Lemma le_sq x m : - m <= x <= m -> x * x <= m * m.
Proof. intros. nra. Qed.

Section Roots.
  Variables A B C : b64.
  Variables a bet gam : R.
  Hypothesis FA : is_finite A = true.
  Hypothesis FB : is_finite B = true.
  Hypothesis FC : is_finite C = true.
  Hypothesis EA : Rabs (B2R A - a) <= 32 * u.
  Hypothesis EB : Rabs (B2R B - bet) <= 32768 * u.
  Hypothesis EC : Rabs (B2R C - gam) <= 8388608 * u.
  Hypothesis Ha : 999 / 1000 <= a <= 1001 / 1000.
  Hypothesis Hb : -1800 <= bet <= 1800.
  Hypothesis Hg : -65536 <= gam <= 786432.

  Definition disc : b64 := nsub (nmul B B) (nmul (nmul (nofZ 4) A) C).
  Lemma ABC : 998/1000 <= B2R A <= 1002/1000 /\ -1801 <= B2R B <= 1801 /\ -65537 <= B2R C <= 786433.
  Proof. assert (V := u_val). apply Rabs_le_inv in EA, EB, EC. rewrite V in *. lra. Qed.
  Lemma disc_u : is_finite disc = true /\ Rabs (B2R disc - (B2R B * B2R B - 4 * B2R A * B2R C)) <= 20971520 * u /\ Rabs (B2R disc) <= 4194304.
  Proof.
    destruct ABC as (HA & HB & HC). assert (U := u_pos). assert (V := u_val).
    assert (B2 : 0 <= B2R B * B2R B) by apply Rle_0_sqr. assert (B3 := le_sq (B2R B) 1801 HB).
    destruct (mul_u 22 B B ltac:(lia) FB FB) as (F1 & E1 & M1).
    { change (bpow radix2 22) with 4194304. rewrite Rabs_pos_eq by exact B2. lra. }
    destruct (Z_b 4 ltac:(lia)) as [F4 V4].
    destruct (mul_u 3 (nofZ 4) A ltac:(lia) F4 FA) as (F2 & E2 & M2).
    { change (bpow radix2 3) with 8. rewrite V4, Rabs_pos_eq; lra. }
    rewrite V4 in E2. change (bpow radix2 3) with 8 in *. change (bpow radix2 22) with 4194304 in *. apply Rabs_le_inv in E1, E2, M2.
    assert (M3 : Rabs (B2R (nmul (nofZ 4) A) * B2R C) <= 401/100 * 786433) by (apply prod_le; rewrite V in *; lra).
    destruct (mul_u 22 (nmul (nofZ 4) A) C ltac:(lia) F2 FC) as (F3 & E3 & M4).
    { change (bpow radix2 22) with 4194304. lra. }
    change (bpow radix2 22) with 4194304 in *. apply Rabs_le_inv in E3, M3.
    assert (L : - (401/100 * 786433) <= B2R (nmul (nofZ 4) A) * B2R C) by lra.
    assert (L2 : - (401/100 * 65537) <= B2R (nmul (nofZ 4) A) * B2R C).
    { assert (0 <= B2R (nmul (nofZ 4) A) <= 401/100) by (rewrite V in *; lra). nra. }
    destruct (sub_u 22 (nmul B B) (nmul (nmul (nofZ 4) A) C) ltac:(lia) F1 F3) as (F & E & M).
    { change (bpow radix2 22) with 4194304. apply Rabs_le. rewrite V in *. lra. }
    change (bpow radix2 22) with 4194304 in *. fold disc in F, E, M. split; [exact F|]. split; [|exact M].
    apply Rabs_le_inv in E. apply Rabs_le.
    assert (Y : Rabs ((B2R (nmul (nofZ 4) A) - 4 * B2R A) * B2R C) <= 8 * u * 786433) by (apply prod_le; lra). apply Rabs_le_inv in Y.
    clear - Y E E1 E3 U. lra.
  Qed.
  Lemma disc_near : Rabs (B2R disc - (bet * bet - 4 * a * gam)) <= 536870912 * u.
  Proof.
    destruct ABC as (HA & HB & HC). destruct disc_u as (_ & E & _). assert (U := u_pos). apply Rabs_le_inv in E, EA, EB, EC.
    assert (Y1 : Rabs ((B2R B + bet) * (B2R B - bet)) <= 3601 * (32768 * u)) by (apply prod_le; lra).
    assert (Y2 : Rabs ((B2R A - a) * B2R C) <= (32 * u) * 786433) by (apply prod_le; lra).
    assert (Y3 : Rabs (a * (B2R C - gam)) <= (1001/1000) * (8388608 * u)) by (apply prod_le; lra).
    apply Rabs_le_inv in Y1, Y2, Y3. apply Rabs_le. clear - E Y1 Y2 Y3 U. lra.
  Qed.

  (** the two roots; [sg] is the sign in front of the square root *)
  Definition root (sg : bool) : b64 :=
    ndiv (if sg then nadd (nopp B) (nsqrt disc) else nsub (nopp B) (nsqrt disc)) (nmul (nofZ 2) A).

  Lemma root_u sg : 0 <= B2R disc -> is_finite (root sg) = true /\ Rabs (B2R (root sg)) <= 2048 /\
    Rabs (a * (B2R (root sg) * B2R (root sg)) + bet * B2R (root sg) + gam) <= 1073741824 * u.
  Proof.
    intros Dp. destruct ABC as (HA & HB & HC). destruct disc_u as (FD & _ & MD). assert (ED := disc_near). assert (U := u_pos). assert (UV := u_val).
    apply Rabs_le_inv in ED, EA, EB, EC, MD.
    destruct (sqrt_u 11 disc ltac:(lia) FD Dp) as ((FV & EV & MV) & PV).
    { change (bpow radix2 11) with 2048. rewrite <- (sqrt_Rsqr 2048) by lra. apply sqrt_le_1_alt. unfold Rsqr. lra. }
    change (bpow radix2 11) with 2048 in *. set (V := nsqrt disc) in *. apply Rabs_le_inv in EV, MV.
    destruct (opp_R B) as [Fo Eo]. rewrite FB in Fo.
    assert (exists w : R, (w = 1 \/ w = -1) /\ exists n : b64, root sg = ndiv n (nmul (nofZ 2) A) /\ is_finite n = true /\ Rabs (B2R n - (- B2R B + w * B2R V)) <= 4096 * u) as (w & Hw & n & En & Fn & Nn).
    { unfold root. fold V. destruct sg.
      - destruct (add_u 12 (nopp B) V ltac:(lia) Fo FV) as (F & E & _).
        { change (bpow radix2 12) with 4096. rewrite Eo. apply Rabs_le. lra. }
        change (bpow radix2 12) with 4096 in E. rewrite Eo in E. exists 1. split; [auto|]. eexists. split; [reflexivity|]. split; [exact F|]. rewrite Rmult_1_l. exact E.
      - destruct (sub_u 12 (nopp B) V ltac:(lia) Fo FV) as (F & E & _).
        { change (bpow radix2 12) with 4096. rewrite Eo. apply Rabs_le. lra. }
        change (bpow radix2 12) with 4096 in E. rewrite Eo in E. exists (-1). split; [auto|]. eexists. split; [reflexivity|]. split; [exact F|].
        replace (- B2R B + -1 * B2R V) with (- B2R B - B2R V) by ring. exact E. }
    rewrite En. apply Rabs_le_inv in Nn.
    assert (WV : - 2048 <= w * B2R V <= 2048) by (destruct Hw as [-> | ->]; lra).
    destruct (Z_b 2 ltac:(lia)) as [F2 V2].
    destruct (mul_u 2 (nofZ 2) A ltac:(lia) F2 FA) as (Fm & Em & _).
    { change (bpow radix2 2) with 4. rewrite V2, Rabs_pos_eq; lra. }
    rewrite V2 in Em. change (bpow radix2 2) with 4 in Em. apply Rabs_le_inv in Em. set (m := nmul (nofZ 2) A) in *.
    assert (Pm : 199/100 <= B2R m <= 201/100) by (rewrite UV in *; lra).
    destruct (div_u 11 n m ltac:(lia) Fn) as (Ft & Et & Mt); [lra| |].
    { change (bpow radix2 11) with 2048. unfold Rdiv. rewrite Rabs_mult, Rabs_inv, (Rabs_pos_eq (B2R m)) by lra.
      apply Rmult_le_reg_r with (B2R m); [lra|]. rewrite Rmult_assoc, Rinv_l, Rmult_1_r by lra.
      apply Rle_trans with 3850; [apply Rabs_le; rewrite UV in *; lra|nra]. }
    change (bpow radix2 11) with 2048 in *. split; [exact Ft|]. split; [exact Mt|].
    set (t := B2R (ndiv n m)) in *. apply Rabs_le_inv in Et, Mt.
    assert (Y1 : - (4117 * u) <= B2R m * t - B2R n <= 4117 * u).
    { assert (Rabs (B2R m * (t - B2R n / B2R m)) <= 201/100 * (2048 * u)) as Y by (apply prod_le; lra). apply Rabs_le_inv in Y.
      replace (B2R m * (t - B2R n / B2R m)) with (B2R m * t - B2R n) in Y by (field; lra). lra. }
    assert (Y2 : Rabs ((2 * a - B2R m) * t) <= 68 * u * 2048) by (apply prod_le; lra). apply Rabs_le_inv in Y2.
    set (e := 2 * a * t + bet - w * B2R V).
    assert (He : - (262144 * u) <= e <= 262144 * u) by (unfold e; clear - Y1 Y2 Nn EB U; lra).
    assert (SV : Rabs (B2R V * B2R V - B2R disc) <= 16777216 * u).
    { assert (B2R V * B2R V - B2R disc = (B2R V + sqrt (B2R disc)) * (B2R V - sqrt (B2R disc))) as ->.
      { assert (X := sqrt_sqrt _ Dp). generalize dependent (sqrt (B2R disc)). intros q. intros. clear - X. nra. }
      apply Rle_trans with (4097 * (2048 * u)); [|lra]. apply prod_le; [|lra]. rewrite UV in *. lra. }
    apply Rabs_le_inv in SV.
    assert (W2 : (w * B2R V) * (w * B2R V) = B2R V * B2R V) by (destruct Hw as [-> | ->]; ring).
    assert (Q : 4 * a * (a * (t * t) + bet * t + gam) = B2R V * B2R V + 2 * (w * B2R V) * e + e * e - (bet * bet - 4 * a * gam)).
    { rewrite <- W2. unfold e. ring. }
    assert (Y3 : Rabs (2 * (w * B2R V) * e) <= 4096 * (262144 * u)) by (apply prod_le; lra). apply Rabs_le_inv in Y3.
    assert (Y4 : 0 <= e * e <= u).
    { split; [apply Rle_0_sqr|]. apply Rle_trans with ((262144 * u) * (262144 * u)); [apply le_sq; exact He|]. rewrite UV. lra. }
    assert (R1 : Rabs (4 * a * (a * (t * t) + bet * t + gam)) <= 1700000000 * u) by (rewrite Q; apply Rabs_le; clear - SV ED Y3 Y4 U; lra).
    rewrite Rabs_mult, (Rabs_pos_eq (4 * a)) in R1 by lra. 
    assert (P := Rabs_pos (a * (t * t) + bet * t + gam)). set (q := Rabs (a * (t * t) + bet * t + gam)) in *. clear - R1 P Ha U.
    assert (399/100 * q <= 4 * a * q) by (apply Rmult_le_compat_r; lra). lra.
  Qed.
End Roots.

(** ** Hits lie on the sphere *)
Lemma at_u (s t d : b64) : is_finite s = true -> is_finite t = true -> is_finite d = true -> -256 <= B2R s <= 256 -> Rabs (B2R t) <= 2048 -> -1001/1000 <= B2R d <= 1001/1000 ->
  is_finite (nadd s (nmul t d)) = true /\ Rabs (B2R (nadd s (nmul t d)) - (B2R s + B2R t * B2R d)) <= 12288 * u.
Proof.
  intros Fs Ft Fd Hs Ht Hd. assert (U := u_pos). apply Rabs_le_inv in Ht.
  assert (Y : Rabs (B2R t * B2R d) <= 2048 * (1001/1000)) by (apply prod_le; lra).
  destruct (mul_u 12 t d ltac:(lia) Ft Fd) as (F1 & E1 & M1); [change (bpow radix2 12) with 4096; lra|].
  change (bpow radix2 12) with 4096 in *. apply Rabs_le_inv in E1, M1, Y.
  destruct (add_u 13 s (nmul t d) ltac:(lia) Fs F1) as (F & E & _); [change (bpow radix2 13) with 8192; apply Rabs_le; lra|].
  change (bpow radix2 13) with 8192 in E. apply Rabs_le_inv in E. split; [exact F|]. apply Rabs_le. lra.
Qed.
Lemma near_sq E e m k : -257 <= E <= 257 -> - k <= e <= k -> 0 <= k <= 1 -> m = 515 * k -> - m <= (E + e) * (E + e) - E * E <= m.
Proof.
  intros H1 H2 H3 ->. replace ((E + e) * (E + e) - E * E) with ((2 * E + e) * e) by ring.
  assert (Rabs ((2 * E + e) * e) <= 515 * k) as Y by (apply prod_le; lra). apply Rabs_le_inv in Y. exact Y.
Qed.
Lemma comp257 x y z b e : x * x + y * y + z * z - b <= e -> e <= 1 -> b <= 65536 -> -257 <= x <= 257 /\ -257 <= y <= 257 /\ -257 <= z <= 257.
Proof.
  intros H He Hb. assert (0 <= x * x) by apply Rle_0_sqr. assert (0 <= y * y) by apply Rle_0_sqr. assert (0 <= z * z) by apply Rle_0_sqr.
  split; [|split]; apply sq_le; lra.
Qed.
Definition small256 (v : vec b64) : Prop := fin3 v /\ -256 <= rx v <= 256 /\ -256 <= ry v <= 256 /\ -256 <= rz v <= 256.
Definition unitish (d : vec b64) : Prop := fin3 d /\ 999 / 1000 <= rx d * rx d + ry d * ry d + rz d * rz d <= 1001 / 1000.
Definition dist2 (p c : vec b64) : R := (rx p - rx c) * (rx p - rx c) + (ry p - ry c) * (ry p - ry c) + (rz p - rz c) * (rz p - rz c).

Section Dist.
  Variables c s d : vec b64.
  Variable b : b64.
  Hypothesis Fc : fin3 c.
  Hypothesis Fs : fin3 s.
  Hypothesis Hs : -512 <= rx s - rx c <= 512 /\ -512 <= ry s - ry c <= 512 /\ -512 <= rz s - rz c <= 512.
  Hypothesis Hd : unitish d.
  Hypothesis Fb : is_finite b = true.
  Hypothesis Hb : 0 <= B2R b <= 65536.

  Lemma ray_coeffs : exists A B C bet gam, coeffs c s d b = (A, B, C) /\ is_finite A = true /\ is_finite B = true /\ is_finite C = true /\
    Rabs (B2R A - (rx d * rx d + ry d * ry d + rz d * rz d)) <= 32 * u /\ Rabs (B2R B - bet) <= 32768 * u /\ Rabs (B2R C - gam) <= 8388608 * u /\
    -1800 <= bet <= 1800 /\ -65536 <= gam <= 786432 /\
    bet = 2 * (rx d * (rx s - rx c) + ry d * (ry s - ry c) + rz d * (rz s - rz c)) /\ gam = dist2 s c - B2R b.
  Proof.
    destruct Hs as (O0 & O1 & O2). destruct Hd as (Fd & Ha).
    destruct (coeffs_u c s d b Fc Fs Fd Fb (conj O0 (conj O1 O2)) Ha Hb) as (A & B & C & E & FA & FB & FC & EA & EB & EC).
    exists A, B, C, (2 * (rx d * (rx s - rx c) + ry d * (ry s - ry c) + rz d * (rz s - rz c))), (dist2 s c - B2R b).
    split; [exact E|]. split; [exact FA|]. split; [exact FB|]. split; [exact FC|]. split; [exact EA|]. split; [exact EB|]. split; [exact EC|].
    assert (Q0 := le_sq (rx s - rx c) 512 O0). assert (Q1 := le_sq (ry s - ry c) 512 O1). assert (Q2 := le_sq (rz s - rz c) 512 O2).
    assert (P0 : 0 <= (rx s - rx c) * (rx s - rx c)) by apply Rle_0_sqr. assert (P1 : 0 <= (ry s - ry c) * (ry s - ry c)) by apply Rle_0_sqr. assert (P2 : 0 <= (rz s - rz c) * (rz s - rz c)) by apply Rle_0_sqr.
    unfold dist2. split; [|split; [lra|split; reflexivity]].
    assert (X := cauchy (rx d) (ry d) (rz d) (rx s - rx c) (ry s - ry c) (rz s - rz c)).
    set (k := rx d * (rx s - rx c) + ry d * (ry s - ry c) + rz d * (rz s - rz c)) in *.
    assert (k * k <= 1001/1000 * 786432).
    { eapply Rle_trans; [exact X|]. apply Rmult_le_compat; try lra. }
    assert (-900 <= k <= 900) by (apply sq_le; lra). lra.
  Qed.

End Dist.

Section OnSphere.
  Variables c s d : vec b64.
  Variable b : b64.
  Hypothesis Hs : small256 s.
  Hypothesis Hd : unitish d.
  Hypothesis Hb : 0 <= B2R b <= 65536.

  Lemma on_sphere t : is_finite t = true -> Rabs (B2R t) <= 2048 ->
    Rabs ((rx d * rx d + ry d * ry d + rz d * rz d) * (B2R t * B2R t) + 2 * (rx d * (rx s - rx c) + ry d * (ry s - ry c) + rz d * (rz s - rz c)) * B2R t + (dist2 s c - B2R b)) <= 1073741824 * u ->
    let p := rayAt (Ray s d) t in fin3 p /\ Rabs (dist2 p c - B2R b) <= 1200000000 * u.
  Proof.
    intros Ft Mt H p. destruct Hs as ((Fs0 & Fs1 & Fs2) & S0 & S1 & S2). destruct Hd as ((Fd0 & Fd1 & Fd2) & Ha). destruct (unit_le _ _ _ (proj2 Ha)) as (D0 & D1 & D2).
    assert (U := u_pos). assert (UV := u_val).
    destruct (at_u (vx s) t (vx d) Fs0 Ft Fd0 S0 Mt D0) as [G0 E0]. destruct (at_u (vy s) t (vy d) Fs1 Ft Fd1 S1 Mt D1) as [G1 E1]. destruct (at_u (vz s) t (vz d) Fs2 Ft Fd2 S2 Mt D2) as [G2 E2].
    split; [split; [exact G0|split; [exact G1|exact G2]]|].
    change (nadd (vx s) (nmul t (vx d))) with (vx p) in *. change (nadd (vy s) (nmul t (vy d))) with (vy p) in *. change (nadd (vz s) (nmul t (vz d))) with (vz p) in *.
    fold (rx p) (rx s) (rx d) in E0. fold (ry p) (ry s) (ry d) in E1. fold (rz p) (rz s) (rz d) in E2.
    unfold dist2 in *. apply Rabs_le_inv in E0, E1, E2, H.
    set (X := rx s + B2R t * rx d - rx c). set (Y := ry s + B2R t * ry d - ry c). set (Z := rz s + B2R t * rz d - rz c).
    assert (Q : X * X + Y * Y + Z * Z - B2R b = (rx d * rx d + ry d * ry d + rz d * rz d) * (B2R t * B2R t) + 2 * (rx d * (rx s - rx c) + ry d * (ry s - ry c) + rz d * (rz s - rz c)) * B2R t +
      ((rx s - rx c) * (rx s - rx c) + (ry s - ry c) * (ry s - ry c) + (rz s - rz c) * (rz s - rz c) - B2R b)) by (unfold X, Y, Z; ring).
    rewrite <- Q in H. destruct (comp257 X Y Z (B2R b) (1073741824 * u)) as (X1 & Y1 & Z1); [lra|rewrite UV; lra|lra|].
    assert (N0 := near_sq X (rx p - (rx s + B2R t * rx d)) _ (12288 * u) X1 E0 ltac:(rewrite UV; lra) eq_refl).
    assert (N1 := near_sq Y (ry p - (ry s + B2R t * ry d)) _ (12288 * u) Y1 E1 ltac:(rewrite UV; lra) eq_refl).
    assert (N2 := near_sq Z (rz p - (rz s + B2R t * rz d)) _ (12288 * u) Z1 E2 ltac:(rewrite UV; lra) eq_refl).
    replace (X + (rx p - (rx s + B2R t * rx d))) with (rx p - rx c) in N0 by (unfold X; ring).
    replace (Y + (ry p - (ry s + B2R t * ry d))) with (ry p - ry c) in N1 by (unfold Y; ring).
    replace (Z + (rz p - (rz s + B2R t * rz d))) with (rz p - rz c) in N2 by (unfold Z; ring).
    apply Rabs_le. clear - N0 N1 N2 H U. lra.
  Qed.
End OnSphere.

(** ** Points lifted off the sphere *)
Lemma tiny_u : is_finite (tiny : b64) = true /\ 81 / 100000000 <= B2R (tiny : b64) <= 82 / 100000000.
Proof.
  unfold tiny, nQ. destruct (Z_b 1) as [F1 E1]; [vm_compute; discriminate|]. destruct (Z_b (1204 * 1024)) as [F2 E2]; [vm_compute; discriminate|].
  assert (E2' : B2R (nofZ (1204 * 1024) : b64) = 1232896) by exact E2.
  destruct (div_u 0 (nofZ 1) (nofZ (1204 * 1024)) ltac:(lia) F1) as (F & E & _).
  - rewrite E2'. lra.
  - rewrite E1, E2'. simpl. apply Rabs_le. lra.
  - split; [exact F|]. rewrite E1, E2' in E. change (bpow radix2 0) with 1 in E. rewrite u_val in E. apply Rabs_le_inv in E. lra.
Qed.

(** [(N + l) m + e] against a sphere of squared radius [b]; [m] is a unit vector *)
Lemma lift_gam N l m0 m1 m2 e0 e1 e2 b k :
  m0 * m0 + m1 * m1 + m2 * m2 = 1 -> 498/1000 <= N <= 258 -> 8/10000000 <= l <= 2/1000000 -> 0 <= k <= 1/1000000000000 ->
  - k <= e0 <= k -> - k <= e1 <= k -> - k <= e2 <= k -> b - 14/100000000 <= N * N ->
  5/10000000 <= ((N + l) * m0 + e0) * ((N + l) * m0 + e0) + ((N + l) * m1 + e1) * ((N + l) * m1 + e1) + ((N + l) * m2 + e2) * ((N + l) * m2 + e2) - b.
Proof.
  intros M HN Hl Hk H0 H1 H2 Hb.
  assert (P0 : 0 <= m0 * m0) by apply Rle_0_sqr. assert (P1 : 0 <= m1 * m1) by apply Rle_0_sqr. assert (P2 : 0 <= m2 * m2) by apply Rle_0_sqr.
  assert (B0 : -1 <= m0 <= 1) by (apply sq_le; lra). assert (B1 : -1 <= m1 <= 1) by (apply sq_le; lra). assert (B2 : -1 <= m2 <= 1) by (apply sq_le; lra).
  assert (Q0 : 0 <= e0 * e0) by apply Rle_0_sqr. assert (Q1 : 0 <= e1 * e1) by apply Rle_0_sqr. assert (Q2 : 0 <= e2 * e2) by apply Rle_0_sqr.
  replace (_ - b) with ((N + l) * (N + l) * (m0 * m0 + m1 * m1 + m2 * m2) + 2 * ((N + l) * (m0 * e0 + m1 * e1 + m2 * e2)) + (e0 * e0 + e1 * e1 + e2 * e2) - b) by ring.
  rewrite M. assert (Y0 : Rabs (m0 * e0) <= 1 * k) by (apply prod_le; lra). assert (Y1 : Rabs (m1 * e1) <= 1 * k) by (apply prod_le; lra). assert (Y2 : Rabs (m2 * e2) <= 1 * k) by (apply prod_le; lra).
  apply Rabs_le_inv in Y0, Y1, Y2.
  assert (Y : Rabs ((N + l) * (m0 * e0 + m1 * e1 + m2 * e2)) <= 259 * (3/1000000000000)) by (apply prod_le; lra). apply Rabs_le_inv in Y.
  assert (Z : 8/10000000 * (498/1000) <= l * N) by (apply Rmult_le_compat; lra). assert (0 <= l * l) by apply Rle_0_sqr.
  replace ((N + l) * (N + l) * 1) with (N * N + 2 * (l * N) + l * l) by ring. lra.
Qed.
Lemma lift_bet N l m0 m1 m2 e0 e1 e2 d0 d1 d2 k : 498/1000 <= N <= 258 -> 8/10000000 <= l <= 2/1000000 -> 0 <= k <= 1/1000000000000 ->
  - k <= e0 <= k -> - k <= e1 <= k -> - k <= e2 <= k -> -1001/1000 <= d0 <= 1001/1000 -> -1001/1000 <= d1 <= 1001/1000 -> -1001/1000 <= d2 <= 1001/1000 ->
  - (1/1000000) <= d0 * m0 + d1 * m1 + d2 * m2 ->
  - (52/100000) <= 2 * (d0 * ((N + l) * m0 + e0) + d1 * ((N + l) * m1 + e1) + d2 * ((N + l) * m2 + e2)).
Proof.
  intros HN Hl Hk H0 H1 H2 D0 D1 D2 Hm.
  assert (Y0 : Rabs (d0 * e0) <= 1001/1000 * k) by (apply prod_le; lra). assert (Y1 : Rabs (d1 * e1) <= 1001/1000 * k) by (apply prod_le; lra). assert (Y2 : Rabs (d2 * e2) <= 1001/1000 * k) by (apply prod_le; lra).
  apply Rabs_le_inv in Y0, Y1, Y2.
  replace (2 * _) with (2 * ((N + l) * (d0 * m0 + d1 * m1 + d2 * m2)) + 2 * (d0 * e0 + d1 * e1 + d2 * e2)) by ring.
  assert (- (1/1000000) * 259 <= (N + l) * (d0 * m0 + d1 * m1 + d2 * m2)).
  { destruct (Rle_or_lt 0 (d0 * m0 + d1 * m1 + d2 * m2)) as [G|G].
    - assert (0 <= (N + l) * (d0 * m0 + d1 * m1 + d2 * m2)) by (apply Rmult_le_pos; lra). lra.
    - assert (X : (N + l) * - (d0 * m0 + d1 * m1 + d2 * m2) <= 259 * (1/1000000)) by (apply Rmult_le_compat; lra). lra. }
  lra.
Qed.

(** ** Rays that start outside and do not point inside *)
Lemma quadratic_pos a bet gam t : 999/1000 <= a <= 1001/1000 -> -(52/100000) <= bet -> 5/10000000 <= gam -> 0 <= t -> 4/10000000 <= a * (t * t) + bet * t + gam.
Proof.
  intros Ha Hb Hg Ht. assert (X : 0 <= (t - 26/100000) * (t - 26/100000)) by apply Rle_0_sqr.
  assert (Y : - (52/100000) * t <= bet * t) by (apply Rmult_le_compat_r; lra).
  assert (0 <= t * t) by (apply Rmult_le_pos; lra). assert (Z : 999/1000 * (t * t) <= a * (t * t)) by (apply Rmult_le_compat_r; lra).
  nra.
Qed.
Lemma lt0 (x : b64) : is_finite x = true -> nltb (nofZ 0) x = Rltb 0 (B2R x).
Proof. intros F. rewrite bltb_eq; [reflexivity|reflexivity|exact F]. Qed.
Lemma gt0 (x : b64) : is_finite x = true -> nltb x (nofZ 0) = Rltb (B2R x) 0.
Proof. intros F. rewrite bltb_eq; [reflexivity|exact F|reflexivity]. Qed.

Section Sphere.
  Context {M : Type}.
  Variable m : option M.
  Variables c : vec b64.
  Variable diam : b64.
  Let Q : quadricData b64 M := sphereData m diam c.

  Lemma sphere_abc s d : quadricABC Q (Ray s d) = coeffs c s d (qb Q). Proof. reflexivity. Qed.

  (** what the intersection routine can answer *)
  Lemma quadric_cases s d A B C : coeffs c s d (qb Q) = (A, B, C) ->
    let h := quadricIntersect Q (Ray s d) in
    h = noHit \/ exists sg, h = quadricHit Q (Ray s d) (root A B C sg) /\ nltb (disc A B C) (nofZ 0) = false /\ nltb (nofZ 0) (root A B C sg) = true.
  Proof.
    intros E h. unfold h, quadricIntersect. rewrite sphere_abc, E. fold (disc A B C).
    destruct (nltb (disc A B C) (nofZ 0)) eqn:D; [left; reflexivity|].
    change (ndiv (nsub (nopp B) (nsqrt (disc A B C))) (nmul (nofZ 2) A)) with (root A B C false).
    change (ndiv (nadd (nopp B) (nsqrt (disc A B C))) (nmul (nofZ 2) A)) with (root A B C true).
    destruct (nltb (root A B C true) (root A B C false)).
    - destruct (nltb (nofZ 0) (root A B C true)) eqn:T1; destruct (nltb (nofZ 0) (root A B C false)) eqn:T2; rewrite ?T1, ?T2; cbn [andb];
      repeat (match goal with |- context [if ?q then _ else _] => destruct q end); auto; right; eexists; eauto.
    - destruct (nltb (nofZ 0) (root A B C true)) eqn:T1; destruct (nltb (nofZ 0) (root A B C false)) eqn:T2; rewrite ?T1, ?T2; cbn [andb];
      repeat (match goal with |- context [if ?q then _ else _] => destruct q end); auto; right; eexists; eauto.
  Qed.

  Hypothesis Fc : small256 c.
  Hypothesis Fb : is_finite (qb Q) = true.
  Hypothesis Hb : 249/1000 <= B2R (qb Q) <= 65536.

  Lemma outside_miss q d : fin3 q -> unitish d ->
    -512 <= rx q - rx c <= 512 /\ -512 <= ry q - ry c <= 512 /\ -512 <= rz q - rz c <= 512 ->
    5/10000000 <= dist2 q c - B2R (qb Q) -> - (52/100000) <= 2 * (rx d * (rx q - rx c) + ry d * (ry q - ry c) + rz d * (rz q - rz c)) ->
    quadricIntersect Q (Ray q d) = noHit.
  Proof.
    intros Fq Hd HO Hg Hbt. destruct (ray_coeffs c q d (qb Q) (proj1 Fc) Fq HO Hd Fb ltac:(lra)) as (A & B & C & bet & gam & E & FA & FB & FC & EA & EB & EC & Rb & Rg & Vb & Vg).
    destruct (quadric_cases q d A B C E) as [H|(sg & _ & D & T)]; [exact H|exfalso].
    set (a := rx d * rx d + ry d * ry d + rz d * rz d) in *. assert (Ha : 999/1000 <= a <= 1001/1000) by exact (proj2 Hd).
    destruct (disc_u A B C a bet gam FA FB FC EA EB EC Ha Rb Rg) as (FD & _ & _). rewrite (gt0 _ FD) in D. apply Rltb_false in D.
    destruct (root_u A B C a bet gam FA FB FC EA EB EC Ha Rb Rg sg D) as (Ft & _ & Rt). rewrite (lt0 _ Ft) in T. apply Rltb_true in T.
    assert (X := quadratic_pos a bet gam (B2R (root A B C sg)) Ha ltac:(lra) ltac:(lra) ltac:(lra)). apply Rabs_le_inv in Rt. rewrite u_val in Rt. lra.
  Qed.

  (** a hit is near the sphere *)
  Lemma hit_near s d : small256 s -> unitish d -> let h := quadricIntersect Q (Ray s d) in nltb (nofZ 0) (hT h) = true ->
    let p := rayAt (Ray s d) (hT h) in hNormal h = quadricNormal Q p /\ fin3 p /\ Rabs (dist2 p c - B2R (qb Q)) <= 1200000000 * u.
  Proof.
    intros Hs Hd h Th p. destruct Fc as (Fc' & c0 & c1 & c2). destruct (Hs) as (Fs & s0 & s1 & s2).
    destruct (ray_coeffs c s d (qb Q) Fc' Fs ltac:(lra) Hd Fb ltac:(lra)) as (A & B & C & bet & gam & E & FA & FB & FC & EA & EB & EC & Rb & Rg & Vb & Vg).
    destruct (quadric_cases s d A B C E) as [H|(sg & H & D & T)]; [unfold h in Th; rewrite H in Th; discriminate Th|].
    assert (Eh : hT h = root A B C sg) by (unfold h; rewrite H; reflexivity).
    split; [unfold p, h; rewrite H; reflexivity|].
    set (a := rx d * rx d + ry d * ry d + rz d * rz d) in *. assert (Ha : 999/1000 <= a <= 1001/1000) by exact (proj2 Hd).
    destruct (disc_u A B C a bet gam FA FB FC EA EB EC Ha Rb Rg) as (FD & _ & _). rewrite (gt0 _ FD) in D. apply Rltb_false in D.
    destruct (root_u A B C a bet gam FA FB FC EA EB EC Ha Rb Rg sg D) as (Ft & Mt & Rt).
    unfold p. rewrite Eh. rewrite Vb, Vg in Rt. exact (on_sphere c s d (qb Q) Hs Hd ltac:(lra) _ Ft Mt Rt).
  Qed.

  Lemma w_u (x y : b64) : is_finite x = true -> is_finite y = true -> -257 <= B2R x - B2R y <= 257 ->
    is_finite (nmul (nofZ 1) (nsub x y)) = true /\ - (512 * u) <= B2R (nmul (nofZ 1) (nsub x y)) - (B2R x - B2R y) <= 512 * u.
  Proof.
    intros Fx Fy H. destruct (sub_u 9 x y ltac:(lia) Fx Fy) as (F & E & Mx); [change (bpow radix2 9) with 512; apply Rabs_le; lra|].
    change (bpow radix2 9) with 512 in *. destruct (one_mul (nsub x y) F) as [G V]; [eapply Rle_trans; [exact Mx|apply (bpow_le radix2 9 1000); lia]|].
    split; [exact G|]. rewrite V. apply Rabs_le_inv in E. exact E.
  Qed.

  Lemma normal_fin p : fin3 p -> Rabs (dist2 p c - B2R (qb Q)) <= 1200000000 * u ->
    let n := vnormalized (quadricNormal Q p) in
    fin3 n /\ (-2 <= rx n <= 2 /\ -2 <= ry n <= 2 /\ -2 <= rz n <= 2) /\ (-513 <= rx p <= 513 /\ -513 <= ry p <= 513 /\ -513 <= rz p <= 513) /\ Rabs (rx n * rx n + ry n * ry n + rz n * rz n - 1) <= 100 * u.
  Proof.
    intros (Fp0 & Fp1 & Fp2) Hp n. destruct Fc as ((Fc0 & Fc1 & Fc2) & C0 & C1 & C2). assert (U := u_pos). assert (UV := u_val).
    apply Rabs_le_inv in Hp.
    destruct (comp257 (rx p - rx c) (ry p - ry c) (rz p - rz c) (B2R (qb Q)) (1200000000 * u)) as (P0 & P1 & P2); [unfold dist2 in Hp; lra|rewrite UV; lra|lra|].
    destruct (w_u _ _ Fp0 Fc0 P0) as [G0 W0]. destruct (w_u _ _ Fp1 Fc1 P1) as [G1 W1]. destruct (w_u _ _ Fp2 Fc2 P2) as [G2 W2].
    set (w := quadricNormal Q p) in *.
    change (nmul (nofZ 1) (nsub (vx p) (vx c))) with (vx w) in *. change (nmul (nofZ 1) (nsub (vy p) (vy c))) with (vy w) in *. change (nmul (nofZ 1) (nsub (vz p) (vz c))) with (vz w) in *.
    fold (rx w) (rx p) (rx c) in W0. fold (ry w) (ry p) (ry c) in W1. fold (rz w) (rz p) (rz c) in W2.
    assert (R0 : -258 <= rx w <= 258) by (rewrite UV in *; lra). assert (R1 : -258 <= ry w <= 258) by (rewrite UV in *; lra). assert (R2 : -258 <= rz w <= 258) by (rewrite UV in *; lra).
    assert (N0 := near_sq (rx p - rx c) (rx w - (rx p - rx c)) _ (512 * u) P0 W0 ltac:(rewrite UV; lra) eq_refl).
    assert (N1 := near_sq (ry p - ry c) (ry w - (ry p - ry c)) _ (512 * u) P1 W1 ltac:(rewrite UV; lra) eq_refl).
    assert (N2 := near_sq (rz p - rz c) (rz w - (rz p - rz c)) _ (512 * u) P2 W2 ltac:(rewrite UV; lra) eq_refl).
    replace (rx p - rx c + (rx w - (rx p - rx c))) with (rx w) in N0 by ring. replace (ry p - ry c + (ry w - (ry p - ry c))) with (ry w) in N1 by ring. replace (rz p - rz c + (rz w - (rz p - rz c))) with (rz w) in N2 by ring.
    assert (NN : B2R (qb Q) - 14/100000000 <= rx w * rx w + ry w * ry w + rz w * rz w <= B2R (qb Q) + 14/100000000).
    { unfold dist2 in Hp. rewrite UV in *. clear - N0 N1 N2 Hp. lra. }
    assert (B400 : 512 <= bpow radix2 400) by (change 512 with (bpow radix2 9); apply bpow_le; lia).
    assert (B800 : bpow radix2 (-800) <= / 8) by (change (/ 8) with (bpow radix2 (-3)); apply bpow_le; lia).
    assert (K0 : is_finite (vx w) = true /\ is_finite (vy w) = true /\ is_finite (vz w) = true) by (split; [exact G0|split; [exact G1|exact G2]]).
    assert (K1 : Rabs (B2R (vx w)) <= bpow radix2 400 /\ Rabs (B2R (vy w)) <= bpow radix2 400 /\ Rabs (B2R (vz w)) <= bpow radix2 400).
    { split; [|split]; (eapply Rle_trans; [|exact B400]); apply Rabs_le; [change (B2R (vx w)) with (rx w)|change (B2R (vy w)) with (ry w)|change (B2R (vz w)) with (rz w)]; lra. }
    assert (K2 : bpow radix2 (-800) <= B2R (vx w) * B2R (vx w) + B2R (vy w) * B2R (vy w) + B2R (vz w) * B2R (vz w)).
    { eapply Rle_trans; [exact B800|]. change (/ 8 <= rx w * rx w + ry w * ry w + rz w * rz w). lra. }
    assert (UN := norm_unit w K0 K1 K2). fold n in UN.
    assert (K : app (vx n) (rx w / sqrt (rx w * rx w + ry w * ry w + rz w * rz w)) (8 * u) 2 /\ app (vy n) (ry w / sqrt (rx w * rx w + ry w * ry w + rz w * rz w)) (8 * u) 2 /\ app (vz n) (rz w / sqrt (rx w * rx w + ry w * ry w + rz w * rz w)) (8 * u) 2).
    { exact (norm_u w K0 K1 K2). }
    clear K0 K1 K2.
    clear B400 B800. destruct K as ((K0 & _ & M0) & (K1 & _ & M1) & (K2 & _ & M2)). apply Rabs_le_inv in M0, M1, M2.
    split; [split; [exact K0|split; [exact K1|exact K2]]|]. split; [split; [exact M0|split; [exact M1|exact M2]]|]. split; [clear - P0 P1 P2 C0 C1 C2; lra|exact UN].
  Qed.

  Lemma lifted p q l : fin3 p -> fin3 q -> Rabs (dist2 p c - B2R (qb Q)) <= 1200000000 * u -> 8/10000000 <= l <= 2/1000000 ->
    let n := vnormalized (quadricNormal Q p) in
    Rabs (rx q - (rx p + l * rx n)) <= 4096 * u -> Rabs (ry q - (ry p + l * ry n)) <= 4096 * u -> Rabs (rz q - (rz p + l * rz n)) <= 4096 * u ->
    (-512 <= rx q - rx c <= 512 /\ -512 <= ry q - ry c <= 512 /\ -512 <= rz q - rz c <= 512) /\
    5/10000000 <= dist2 q c - B2R (qb Q) /\
    forall d, unitish d -> - / 1048576 <= rx d * rx n + ry d * ry n + rz d * rz n -> - (52/100000) <= 2 * (rx d * (rx q - rx c) + ry d * (ry q - ry c) + rz d * (rz q - rz c)).
  Proof.
    intros (Fp0 & Fp1 & Fp2) Fq Hp Hl n Q0 Q1 Q2. destruct Fc as ((Fc0 & Fc1 & Fc2) & _). assert (U := u_pos). assert (UV := u_val).
    apply Rabs_le_inv in Hp, Q0, Q1, Q2.
    destruct (comp257 (rx p - rx c) (ry p - ry c) (rz p - rz c) (B2R (qb Q)) (1200000000 * u)) as (P0 & P1 & P2); [unfold dist2 in Hp; lra|rewrite UV; lra|lra|].
    destruct (w_u _ _ Fp0 Fc0 P0) as [G0 W0]. destruct (w_u _ _ Fp1 Fc1 P1) as [G1 W1]. destruct (w_u _ _ Fp2 Fc2 P2) as [G2 W2].
    set (w := quadricNormal Q p) in *.
    change (nmul (nofZ 1) (nsub (vx p) (vx c))) with (vx w) in *. change (nmul (nofZ 1) (nsub (vy p) (vy c))) with (vy w) in *. change (nmul (nofZ 1) (nsub (vz p) (vz c))) with (vz w) in *.
    fold (rx w) (rx p) (rx c) in W0. fold (ry w) (ry p) (ry c) in W1. fold (rz w) (rz p) (rz c) in W2.
    assert (R0 : -258 <= rx w <= 258) by (rewrite UV in *; lra). assert (R1 : -258 <= ry w <= 258) by (rewrite UV in *; lra). assert (R2 : -258 <= rz w <= 258) by (rewrite UV in *; lra).
    assert (N0 := near_sq (rx p - rx c) (rx w - (rx p - rx c)) _ (512 * u) P0 W0 ltac:(rewrite UV; lra) eq_refl).
    assert (N1 := near_sq (ry p - ry c) (ry w - (ry p - ry c)) _ (512 * u) P1 W1 ltac:(rewrite UV; lra) eq_refl).
    assert (N2 := near_sq (rz p - rz c) (rz w - (rz p - rz c)) _ (512 * u) P2 W2 ltac:(rewrite UV; lra) eq_refl).
    replace (rx p - rx c + (rx w - (rx p - rx c))) with (rx w) in N0 by ring. replace (ry p - ry c + (ry w - (ry p - ry c))) with (ry w) in N1 by ring. replace (rz p - rz c + (rz w - (rz p - rz c))) with (rz w) in N2 by ring.
    assert (NN : B2R (qb Q) - 14/100000000 <= rx w * rx w + ry w * ry w + rz w * rz w <= B2R (qb Q) + 14/100000000).
    { unfold dist2 in Hp. rewrite UV in *. clear - N0 N1 N2 Hp. lra. }
    assert (B400 : 512 <= bpow radix2 400) by (change 512 with (bpow radix2 9); apply bpow_le; lia).
    assert (B800 : bpow radix2 (-800) <= / 8) by (change (/ 8) with (bpow radix2 (-3)); apply bpow_le; lia).
    assert (K : app (vx n) (rx w / sqrt (rx w * rx w + ry w * ry w + rz w * rz w)) (8 * u) 2 /\ app (vy n) (ry w / sqrt (rx w * rx w + ry w * ry w + rz w * rz w)) (8 * u) 2 /\ app (vz n) (rz w / sqrt (rx w * rx w + ry w * ry w + rz w * rz w)) (8 * u) 2).
    { apply norm_u; [split; [exact G0|split; [exact G1|exact G2]]| |].
      - split; [|split]; (eapply Rle_trans; [|exact B400]); apply Rabs_le; [change (B2R (vx w)) with (rx w)|change (B2R (vy w)) with (ry w)|change (B2R (vz w)) with (rz w)]; lra.
      - eapply Rle_trans; [exact B800|]. change (/ 8 <= rx w * rx w + ry w * ry w + rz w * rz w). lra. }
    clear B400 B800. destruct K as ((_ & K0 & _) & (_ & K1 & _) & (_ & K2 & _)).
    set (N := sqrt (rx w * rx w + ry w * ry w + rz w * rz w)) in *.
    assert (SN : N * N = rx w * rx w + ry w * ry w + rz w * rz w) by (apply sqrt_sqrt; lra). assert (PN : 0 <= N) by apply sqrt_pos.
    rewrite <- SN in NN. clearbody N.
    assert (BN : 498/1000 < N <= 257).
    { split.
      - destruct (Rlt_or_le (498/1000) N) as [G|G]; [exact G|exfalso]. assert (N * N <= 498/1000 * (498/1000)) by (apply Rmult_le_compat; lra). lra.
      - destruct (Rle_or_lt N 257) as [G|G]; [exact G|exfalso]. assert (257 * 257 <= N * N) by (apply Rmult_le_compat; lra). lra. }
    set (m0 := rx w / N) in *. set (m1 := ry w / N) in *. set (m2 := rz w / N) in *.
    assert (V0 : rx w = N * m0) by (unfold m0; field; lra). assert (V1 : ry w = N * m1) by (unfold m1; field; lra). assert (V2 : rz w = N * m2) by (unfold m2; field; lra).
    assert (MM : m0 * m0 + m1 * m1 + m2 * m2 = 1).
    { apply Rmult_eq_reg_l with (N * N); [|nra]. rewrite V0, V1, V2 in SN. clear - SN. lra. }
    clearbody m0 m1 m2. apply Rabs_le_inv in K0, K1, K2.
    fold (rx n) in K0. fold (ry n) in K1. fold (rz n) in K2.
    assert (L0 : Rabs (l * (rx n - m0)) <= 1 * (8 * u)) by (apply prod_le; lra). assert (L1 : Rabs (l * (ry n - m1)) <= 1 * (8 * u)) by (apply prod_le; lra). assert (L2 : Rabs (l * (rz n - m2)) <= 1 * (8 * u)) by (apply prod_le; lra).
    apply Rabs_le_inv in L0, L1, L2.
    set (e0 := rx q - rx c - (N + l) * m0). set (e1 := ry q - ry c - (N + l) * m1). set (e2 := rz q - rz c - (N + l) * m2).
    assert (D0 : - (5000 * u) <= e0 <= 5000 * u) by (unfold e0; rewrite V0 in W0; clear - W0 Q0 L0 U; lra).
    assert (D1 : - (5000 * u) <= e1 <= 5000 * u) by (unfold e1; rewrite V1 in W1; clear - W1 Q1 L1 U; lra).
    assert (D2 : - (5000 * u) <= e2 <= 5000 * u) by (unfold e2; rewrite V2 in W2; clear - W2 Q2 L2 U; lra).
    assert (X0 : rx q - rx c = (N + l) * m0 + e0) by (unfold e0; ring). assert (X1 : ry q - ry c = (N + l) * m1 + e1) by (unfold e1; ring). assert (X2 : rz q - rz c = (N + l) * m2 + e2) by (unfold e2; ring).
    assert (S0 : 0 <= m0 * m0) by apply Rle_0_sqr. assert (S1 : 0 <= m1 * m1) by apply Rle_0_sqr. assert (S2 : 0 <= m2 * m2) by apply Rle_0_sqr.
    assert (B0 : -1 <= m0 <= 1) by (apply sq_le; lra). assert (B1 : -1 <= m1 <= 1) by (apply sq_le; lra). assert (B2 : -1 <= m2 <= 1) by (apply sq_le; lra).
    assert (J0 : Rabs ((N + l) * m0) <= 258 * 1) by (apply prod_le; lra). assert (J1 : Rabs ((N + l) * m1) <= 258 * 1) by (apply prod_le; lra). assert (J2 : Rabs ((N + l) * m2) <= 258 * 1) by (apply prod_le; lra).
    apply Rabs_le_inv in J0, J1, J2. assert (KU : 0 <= 5000 * u <= 1/1000000000000) by (rewrite UV; lra).
    unfold dist2. rewrite X0, X1, X2. split; [lra|]. split; [apply (lift_gam N l m0 m1 m2 e0 e1 e2 _ (5000 * u)); try lra; assumption|].
    intros d Hd Hn. destruct (unit_le _ _ _ (proj2 (proj2 Hd))) as (d0 & d1 & d2). apply (lift_bet N l m0 m1 m2 e0 e1 e2 _ _ _ (5000 * u)); try lra; try assumption.
    assert (Y0 : Rabs (rx d * (rx n - m0)) <= 1001/1000 * (8 * u)) by (apply prod_le; lra). assert (Y1 : Rabs (ry d * (ry n - m1)) <= 1001/1000 * (8 * u)) by (apply prod_le; lra). assert (Y2 : Rabs (rz d * (rz n - m2)) <= 1001/1000 * (8 * u)) by (apply prod_le; lra).
    apply Rabs_le_inv in Y0, Y1, Y2. rewrite UV in Y0, Y1, Y2. clear - Y0 Y1 Y2 Hn. lra.
  Qed.
End Sphere.

(** ** Assembly *)
Lemma am8 v : all3 (at_most 8) v -> small256 v.
Proof.
  intros ((F0 & M0) & (F1 & M1) & (F2 & M2)). change (bpow radix2 8) with 256 in *. apply Rabs_le_inv in M0, M1, M2.
  split; [split; [exact F0|split; [exact F1|exact F2]]|]. split; [exact M0|split; [exact M1|exact M2]].
Qed.
Lemma nu_unitish d : near_unit d -> unitish d.
Proof.
  intros [(F0 & F1 & F2) H]. split; [split; [exact F0|split; [exact F1|exact F2]]|]. apply Rabs_le_inv in H.
  change (rx d * rx d + ry d * ry d + rz d * rz d) with (rdot d d). lra.
Qed.
Lemma qb_u {M} (m : option M) diam c : between 1 512 diam -> is_finite (qb (sphereData m diam c)) = true /\ 249/1000 <= B2R (qb (sphereData m diam c)) <= 65536.
Proof.
  intros [F H]. cbn [qb sphereData]. destruct (Z_b 2) as [F2 E2]; [vm_compute; discriminate|]. assert (UV := u_val).
  destruct (div_u 8 diam (nofZ 2) ltac:(lia) F) as (G & E & Mx); [rewrite E2; lra|rewrite E2; change (bpow radix2 8) with 256; apply Rabs_le; lra|].
  rewrite E2 in E. change (bpow radix2 8) with 256 in *. set (r := ndiv diam (nofZ 2)) in *. apply Rabs_le_inv in E, Mx. rewrite UV in E.
  assert (Y : Rabs (B2R r * B2R r) <= 256 * 256) by (apply prod_le; lra).
  destruct (mul_u 16 r r ltac:(lia) G G) as (K & EK & MK); [change (bpow radix2 16) with 65536; lra|].
  split; [exact K|]. change (bpow radix2 16) with 65536 in *. rewrite UV in EK. apply Rabs_le_inv in EK, MK, Y.
  assert (4999/10000 * (4999/10000) <= B2R r * B2R r) by (apply Rmult_le_compat; lra). lra.
Qed.

Lemma madd_u (x n t : b64) : is_finite x = true -> is_finite n = true -> is_finite t = true -> -515 <= B2R x <= 515 -> -2 <= B2R n <= 2 -> 0 <= B2R t <= /1000 ->
  is_finite (nadd x (nmul t n)) = true /\ Rabs (B2R (nadd x (nmul t n)) - (B2R x + B2R t * B2R n)) <= 1025 * u.
Proof.
  intros Fx Fn Ft Hx Hn Ht. assert (U := u_pos). assert (Y : Rabs (B2R t * B2R n) <= /1000 * 2) by (apply prod_le; lra).
  destruct (mul_u 0 t n ltac:(lia) Ft Fn) as (F & E & Mx); [change (bpow radix2 0) with 1; lra|]. change (bpow radix2 0) with 1 in *. apply Rabs_le_inv in E, Mx, Y.
  destruct (add_u 10 x (nmul t n) ltac:(lia) Fx F) as (G & E' & _); [change (bpow radix2 10) with 1024; apply Rabs_le; lra|].
  change (bpow radix2 10) with 1024 in *. apply Rabs_le_inv in E'. split; [exact G|]. apply Rabs_le. lra.
Qed.

Lemma wide x : -513 <= x <= 513 -> -515 <= x <= 515. Proof. lra. Qed.
Lemma wide' x : -514 <= x <= 514 -> -515 <= x <= 515. Proof. lra. Qed.
Lemma inner x e f : -513 <= x <= 513 -> - (1025 * u) <= f <= 1025 * u -> - (/ 1000 * 2) <= e <= / 1000 * 2 -> -514 <= x + e + f <= 514.
Proof. rewrite u_val. lra. Qed.

Section Lift.
  Context {M : Type}.
  Variable m : option M.
  Variables (c p0 n : vec b64) (diam : b64).
  Hypothesis Hc : small256 c.
  Hypothesis Hr : between 1 512 diam.
  Let Q : quadricData b64 M := sphereData m diam c.
  Hypothesis Fp : fin3 p0.
  Hypothesis Dp : Rabs (dist2 p0 c - B2R (qb Q)) <= 1200000000 * u.
  Hypothesis En : n = vnormalized (quadricNormal Q p0).
  Definition lift1 : vec b64 := vmadd p0 tiny n.
  Definition lift2 : vec b64 := vmadd lift1 tiny n.
  Let tau := B2R (tiny : b64).

  Lemma n_fin : fin3 n /\ (-2 <= rx n <= 2 /\ -2 <= ry n <= 2 /\ -2 <= rz n <= 2) /\ (-513 <= rx p0 <= 513 /\ -513 <= ry p0 <= 513 /\ -513 <= rz p0 <= 513).
  Proof. rewrite En. destruct (qb_u m diam c Hr) as [Fb Hb]. destruct (normal_fin m c diam Hc Hb p0 Fp Dp) as (A & B & C & _). exact (conj A (conj B C)). Qed.
  Lemma n_unit : Rabs (rx n * rx n + ry n * ry n + rz n * rz n - 1) <= 100 * u.
  Proof. rewrite En. destruct (qb_u m diam c Hr) as [Fb Hb]. apply (normal_fin m c diam Hc Hb p0 Fp Dp). Qed.
  Lemma tau_le : 0 <= tau <= / 1000. Proof. destruct tiny_u as [_ H]. fold tau in H. lra. Qed.
  Lemma lift1_u : fin3 lift1 /\ (Rabs (rx lift1 - (rx p0 + tau * rx n)) <= 1025 * u /\ Rabs (ry lift1 - (ry p0 + tau * ry n)) <= 1025 * u /\ Rabs (rz lift1 - (rz p0 + tau * rz n)) <= 1025 * u) /\
    (-514 <= rx lift1 <= 514 /\ -514 <= ry lift1 <= 514 /\ -514 <= rz lift1 <= 514).
  Proof.
    destruct n_fin as ((Fn0 & Fn1 & Fn2) & (N0 & N1 & N2) & (P0 & P1 & P2)). destruct Fp as (Fp0 & Fp1 & Fp2). destruct tiny_u as [Ft _]. assert (Ht := tau_le).
    destruct (madd_u (vx p0) (vx n) tiny Fp0 Fn0 Ft (wide _ P0) N0 Ht) as [Fx Ex].
    destruct (madd_u (vy p0) (vy n) tiny Fp1 Fn1 Ft (wide _ P1) N1 Ht) as [Fy Ey].
    destruct (madd_u (vz p0) (vz n) tiny Fp2 Fn2 Ft (wide _ P2) N2 Ht) as [Fz Ez].
    split; [split; [exact Fx|split; [exact Fy|exact Fz]]|]. split; [split; [exact Ex|split; [exact Ey|exact Ez]]|].
    assert (T0 : Rabs (tau * rx n) <= / 1000 * 2) by (apply prod_le; [clear - Ht; lra|exact N0]).
    assert (T1 : Rabs (tau * ry n) <= / 1000 * 2) by (apply prod_le; [clear - Ht; lra|exact N1]).
    assert (T2 : Rabs (tau * rz n) <= / 1000 * 2) by (apply prod_le; [clear - Ht; lra|exact N2]).
    apply Rabs_le_inv in T0, T1, T2, Ex, Ey, Ez.
    split; [|split].
    - replace (rx lift1) with (rx p0 + tau * rx n + (rx lift1 - (rx p0 + tau * rx n))) by ring. exact (inner _ _ _ P0 Ex T0).
    - replace (ry lift1) with (ry p0 + tau * ry n + (ry lift1 - (ry p0 + tau * ry n))) by ring. exact (inner _ _ _ P1 Ey T1).
    - replace (rz lift1) with (rz p0 + tau * rz n + (rz lift1 - (rz p0 + tau * rz n))) by ring. exact (inner _ _ _ P2 Ez T2).
  Qed.
  Lemma lift2_u : fin3 lift2 /\ (Rabs (rx lift2 - (rx lift1 + tau * rx n)) <= 1025 * u /\ Rabs (ry lift2 - (ry lift1 + tau * ry n)) <= 1025 * u /\ Rabs (rz lift2 - (rz lift1 + tau * rz n)) <= 1025 * u).
  Proof.
    destruct n_fin as ((Fn0 & Fn1 & Fn2) & (N0 & N1 & N2) & _). destruct lift1_u as ((Fp0 & Fp1 & Fp2) & _ & (P0 & P1 & P2)). destruct tiny_u as [Ft _]. assert (Ht := tau_le).
    destruct (madd_u (vx lift1) (vx n) tiny Fp0 Fn0 Ft (wide' _ P0) N0 Ht) as [Fx Ex].
    destruct (madd_u (vy lift1) (vy n) tiny Fp1 Fn1 Ft (wide' _ P1) N1 Ht) as [Fy Ey].
    destruct (madd_u (vz lift1) (vz n) tiny Fp2 Fn2 Ft (wide' _ P2) N2 Ht) as [Fz Ez].
    split; [split; [exact Fx|split; [exact Fy|exact Fz]]|]. split; [exact Ex|split; [exact Ey|exact Ez]].
  Qed.
  Lemma two_steps a t b k x : Rabs (k - (a + t * b)) <= 1025 * u -> Rabs (x - (k + t * b)) <= 1025 * u -> Rabs (x - (a + 2 * t * b)) <= 4096 * u.
  Proof. intros H1 H2. assert (U := u_pos). apply Rabs_le_inv in H1, H2. apply Rabs_le. lra. Qed.
  Lemma one_step a t b k : Rabs (k - (a + t * b)) <= 1025 * u -> Rabs (k - (a + t * b)) <= 4096 * u.
  Proof. intros H1. assert (U := u_pos). lra. Qed.

  Lemma lifts_miss d : near_unit d -> - bpow radix2 (-20) <= rdot d n -> quadricIntersect Q (Ray lift1 d) = noHit /\ quadricIntersect Q (Ray lift2 d) = noHit.
  Proof.
    intros Hd Hn. apply nu_unitish in Hd. change (bpow radix2 (-20)) with (/ 1048576) in Hn. change (rdot d n) with (rx d * rx n + ry d * ry n + rz d * rz n) in Hn.
    destruct (qb_u m diam c Hr) as [Fb Hb]. destruct lift1_u as (F1 & (X1 & Y1 & Z1) & _). destruct lift2_u as (F2 & (X2 & Y2 & Z2)). destruct tiny_u as [_ Ht].
    assert (T1 : 8/10000000 <= tau <= 2/1000000) by (unfold tau; clear - Ht; lra). assert (T2 : 8/10000000 <= 2 * tau <= 2/1000000) by (unfold tau; clear - Ht; lra).
    rewrite En in *. split.
    - destruct (lifted m c diam Hc Hb p0 lift1 tau Fp F1 Dp T1 (one_step _ _ _ _ X1) (one_step _ _ _ _ Y1) (one_step _ _ _ _ Z1)) as (L1 & L2 & L3).
      apply outside_miss; auto.
    - destruct (lifted m c diam Hc Hb p0 lift2 (2 * tau) Fp F2 Dp T2 (two_steps _ _ _ _ _ X1 X2) (two_steps _ _ _ _ _ Y1 Y2) (two_steps _ _ _ _ _ Z1 Z2)) as (L1 & L2 & L3).
      apply outside_miss; auto.
  Qed.
End Lift.

Lemma light_dir (lp p n : vec b64) : fin3 p -> (-514 <= rx p <= 514 /\ -514 <= ry p <= 514 /\ -514 <= rz p <= 514) -> fin3 n -> (-2 <= rx n <= 2 /\ -2 <= ry n <= 2 /\ -2 <= rz n <= 2) ->
  all3 (at_most 300) lp -> some3 (at_least (-300)) (vsub lp p) -> let l := vnormalized (vsub lp p) in nltb (nofZ 0) (vdot l n) = true -> near_unit l /\ - bpow radix2 (-20) <= rdot l n.
Proof.
    intros (F0 & F1 & F2) (I0 & I1 & I2) (G0 & G1 & G2) (N0 & N1 & N2) Hl Hw l Hv.
    destruct Hl as ((L0 & M0) & (L1 & M1) & (L2 & M2)).
    assert (B : 514 <= bpow radix2 300) by (apply Rle_trans with (bpow radix2 10); [change (bpow radix2 10) with 1024; lra|apply bpow_le; lia]).
    assert (B2 : bpow radix2 301 = 2 * bpow radix2 300) by (change 301%Z with (1 + 300)%Z; rewrite bpow_plus; reflexivity).
    assert (S : forall x y : b64, is_finite x = true -> is_finite y = true -> Rabs (B2R x) <= bpow radix2 300 -> -514 <= B2R y <= 514 -> is_finite (nsub x y) = true /\ Rabs (B2R (nsub x y)) <= bpow radix2 301).
    { intros x y Fx Fy Hx Hy. destruct (sub_u 301 x y ltac:(lia) Fx Fy) as (F & _ & X); [|split; [exact F|exact X]]. rewrite B2. apply Rabs_le_inv in Hx. apply Rabs_le. clear - Hx Hy B. generalize dependent (bpow radix2 300). intros; lra. }
    destruct (S _ _ L0 F0 M0 I0) as [D0 R0]. destruct (S _ _ L1 F1 M1 I1) as [D1 R1]. destruct (S _ _ L2 F2 M2 I2) as [D2 R2]. clear S B B2.
    set (w := vsub lp p) in *. change (nsub (vx lp) (vx p)) with (vx w) in *. change (nsub (vy lp) (vy p)) with (vy w) in *. change (nsub (vz lp) (vz p)) with (vz w) in *. clearbody w.
    assert (B4 : bpow radix2 301 <= bpow radix2 400) by (apply bpow_le; lia).
    assert (Lo : bpow radix2 (-800) <= B2R (vx w) * B2R (vx w) + B2R (vy w) * B2R (vy w) + B2R (vz w) * B2R (vz w)).
    { assert (Q : forall x, bpow radix2 (-300) <= Rabs x -> bpow radix2 (-800) <= x * x).
      { intros x Hx. apply Rle_trans with (bpow radix2 (-300) * bpow radix2 (-300)); [rewrite <- bpow_plus; apply bpow_le; lia|].
        rewrite <- (Rabs_pos_eq (x * x)) by apply Rle_0_sqr. rewrite Rabs_mult. apply Rmult_le_compat; try exact Hx; apply bpow_ge_0. }
      unfold some3, at_least in Hw. generalize (Rle_0_sqr (B2R (vx w))) (Rle_0_sqr (B2R (vy w))) (Rle_0_sqr (B2R (vz w))). unfold Rsqr. intros q0 q1 q2.
      destruct Hw as [Hw|[Hw|Hw]]; apply Q in Hw; revert Hw; clear - q0 q1 q2; generalize (bpow radix2 (-800)); intros; lra. }
    assert (Hi : Rabs (B2R (vx w)) <= bpow radix2 400 /\ Rabs (B2R (vy w)) <= bpow radix2 400 /\ Rabs (B2R (vz w)) <= bpow radix2 400) by (split; [|split]; eapply Rle_trans; eauto).
    destruct (norm_u w (conj D0 (conj D1 D2)) Hi Lo) as ((U0 & _ & V0) & (U1 & _ & V1) & (U2 & _ & V2)).
    assert (Nu := norm_unit w (conj D0 (conj D1 D2)) Hi Lo). cbv zeta in Nu. fold l in U0, U1, U2, V0, V1, V2, Nu. clearbody l. clear Lo Hi B4 R0 R1 R2 Hw M0 M1 M2.
    assert (K : near_unit l) by (split; [split; [exact U0|split; [exact U1|exact U2]]|unfold rdot; eapply Rle_trans; [exact Nu|rewrite u_val; lra]]).
    split; [exact K|].
    assert (P : forall x y : b64, Rabs (B2R x) <= 2 -> -2 <= B2R y <= 2 -> Rabs (B2R x * B2R y) <= bpow radix2 2).
    { intros x y Hx Hy. change (bpow radix2 2) with (2 * 2). apply prod_le; [apply Rabs_le_inv; exact Hx|exact Hy]. }
    destruct (vdot_u 2 l n ltac:(lia) U0 U1 U2 G0 G1 G2 (P _ _ V0 N0) (P _ _ V1 N1) (P _ _ V2 N2)) as (Fv & Ev & _).
    rewrite (lt0 _ Fv) in Hv. apply Rltb_true in Hv. fold (rdot l n) in Ev. change (bpow radix2 2) with 4 in Ev. rewrite u_val in Ev. apply Rabs_le_inv in Ev.
    change (bpow radix2 (-20)) with (/ 1048576). clear - Ev Hv. lra.
Qed.

Section NoAcne.
  Context {M : Type}.
  Variable m : option M.
  Variables (diam : b64) (c s d : vec b64) (h : hit b64 M) (r' : ray b64).
  Hypothesis Hr : between 1 512 diam.
  Hypothesis Hc : all3 (at_most 8) c.
  Hypothesis Hs : all3 (at_most 8) s.
  Hypothesis Hd : near_unit d.
  Hypothesis Hh : oIntersect (sphere m diam c) (Ray s d) = Val (h, r').
  Hypothesis Ht : nltb (nofZ 0) (hT h) = true.
  Let n := vnormalized (hNormal h).
  Let p := vmadd (rayAt (Ray s d) (hT h)) tiny n.

  Lemma acne_pre : let p0 := rayAt (Ray s d) (hT h) in fin3 p0 /\ Rabs (dist2 p0 c - B2R (qb (sphereData m diam c))) <= 1200000000 * u /\ n = vnormalized (quadricNormal (sphereData m diam c) p0).
  Proof.
    injection Hh as E _. destruct (qb_u m diam c Hr) as [Fb Hb]. destruct (hit_near m c diam (am8 _ Hc) Fb Hb s d (am8 _ Hs) (nu_unitish _ Hd)) as (En & Fp & Dp); [rewrite E; exact Ht|].
    rewrite E in *. split; [exact Fp|]. split; [exact Dp|]. unfold n. now rewrite En.
  Qed.
  Lemma ball_normal : fin3 n /\ Rabs (rdot n n - 1) <= 100 * u.
  Proof.
    destruct acne_pre as (Fp & Dp & En). split; [apply (n_fin m c _ n diam (am8 _ Hc) Hr Fp Dp En)|exact (n_unit m c _ n diam (am8 _ Hc) Hr Fp Dp En)].
  Qed.
  Lemma no_acne d' : near_unit d' -> - bpow radix2 (-20) <= rdot d' n ->
    oIntersect (sphere m diam c) (Ray p d') = Val (noHit, Ray p d') /\ oIntersect (sphere m diam c) (Ray (vmadd p tiny n) d') = Val (noHit, Ray (vmadd p tiny n) d').
  Proof.
    intros Hd' Hn. destruct acne_pre as (Fp & Dp & En). destruct (lifts_miss m c _ n diam (am8 _ Hc) Hr Fp Dp En d' Hd' Hn) as [A B].
    split; [change (Val (quadricIntersect (sphereData m diam c) (Ray p d'), Ray p d') = Val (noHit, Ray p d'))|change (Val (quadricIntersect (sphereData m diam c) (Ray (vmadd p tiny n) d'), Ray (vmadd p tiny n) d') = Val (noHit, Ray (vmadd p tiny n) d'))]; do 2 f_equal; assumption.
  Qed.

  Lemma no_acne_light lp : all3 (at_most 300) lp -> some3 (at_least (-300)) (vsub lp p) ->
    let l := vnormalized (vsub lp p) in nltb (nofZ 0) (vdot l n) = true -> oIntersect (sphere m diam c) (Ray p l) = Val (noHit, Ray p l).
  Proof.
    intros Hl Hw l Hv. destruct acne_pre as (Fp & Dp & En). destruct (lift1_u m c _ n diam (am8 _ Hc) Hr Fp Dp En) as (Fq & _ & Iq).
    destruct (n_fin m c _ n diam (am8 _ Hc) Hr Fp Dp En) as (Fn & In & _).
    destruct (light_dir lp p n Fq Iq Fn In Hl Hw Hv) as [K1 K2]. exact (proj1 (no_acne l K1 K2)).
  Qed.
End NoAcne.

(** ** Witnesses *)
Definition farCam : ray b64 := Ray (Vec (nQ (-2117151) 8) (nQ 97 1024) (nQ 211 1024)) (Vec (nofZ 1) (nofZ 0) (nofZ 0)).
Definition smallBall : object b64 unit := sphere None (nofZ 1) vO.
Definition farHit : hit b64 unit := quadricIntersect (sphereData None (nofZ 1) vO) farCam.
Definition farN : vec b64 := vnormalized (hNormal farHit).
Definition farP : vec b64 := vmadd (rayAt farCam (hT farHit)) tiny farN.
Definition lamp : vec b64 := Vec (nofZ (-90)) (nofZ 20) (nofZ 40).
Definition farL : vec b64 := vnormalized (vsub lamp farP).
Lemma far_acne : nltb (nofZ 0) (hT farHit) = true /\ nltb (nofZ 0) (vdot farL farN) = true /\ nltb (nofZ 0) (hT (quadricIntersect (sphereData (M := unit) None (nofZ 1) vO) (Ray farP farL))) = true.
Proof. vm_compute. auto. Qed.
Lemma unit_x : near_unit (Vec (nofZ 1) (nofZ 0) (nofZ 0)).
Proof.
  split; [split; [reflexivity|split; reflexivity]|]. destruct (Z_b 1) as [_ E1]; [vm_compute; discriminate|]. destruct (Z_b 0) as [_ E0]; [vm_compute; discriminate|].
  unfold rdot. cbn [vx vy vz]. rewrite E1, E0. apply Rabs_le. lra.
Qed.
Lemma self_shadow_far : ~ (forall (M : Type) (m : option M) (diam : b64) (c s d : vec b64) h r',
    all3 (fun x => is_finite x = true) c -> all3 (fun x => is_finite x = true) s -> near_unit d -> between 1 512 diam ->
    oIntersect (sphere m diam c) (Ray s d) = Val (h, r') -> nltb (nofZ 0) (hT h) = true ->
    let n := vnormalized (hNormal h) in let p := vmadd (rayAt (Ray s d) (hT h)) tiny n in
    forall lp, all3 (at_most 300) lp -> let l := vnormalized (vsub lp p) in nltb (nofZ 0) (vdot l n) = true ->
    oIntersect (sphere m diam c) (Ray p l) = Val (noHit, Ray p l)).
Proof.
  intros H. destruct far_acne as (A & B & C).
  specialize (H unit None (nofZ 1) vO (rStart farCam) (rDir farCam) farHit farCam).
  assert (E : oIntersect (sphere None (nofZ 1) vO) (Ray farP farL) = Val (noHit (F := b64) (M := unit), Ray farP farL)).
  { refine (H _ _ unit_x _ eq_refl A lamp _ B).
    - split; [reflexivity|split; reflexivity].
    - split; [vm_compute; reflexivity|split; vm_compute; reflexivity].
    - destruct (Z_b 1) as [F1 E1]; [vm_compute; discriminate|]. split; [exact F1|]. rewrite E1. lra.
    - assert (P : 128 <= bpow radix2 300) by (change 128 with (bpow radix2 7); apply bpow_le; lia).
      split; [|split]; unfold lamp; cbn [vx vy vz]; (match goal with |- at_most _ (nofZ ?k) => destruct (Z_b k) as [F1 E1]; [vm_compute; discriminate|] end);
      split; [exact F1| |exact F1| |exact F1|]; rewrite E1; (eapply Rle_trans; [|exact P]); apply Rabs_le; lra. }
  apply (f_equal (fun o => match o with Val (h, _) => nltb (nofZ 0) (hT h) | _ => false end)) in E.
  change (nltb (nofZ 0) (hT (quadricIntersect (sphereData (M := unit) None (nofZ 1) vO) (Ray farP farL))) = nltb (nofZ 0) (nofZ 0 : b64)) in E.
  rewrite C in E. discriminate E.
Qed.

Definition ballHit : hit b64 unit := quadricIntersect (sphereData None (nofZ 2) (Vec (nofZ 0) (nofZ 0) (nofZ (-5)))) (Ray vO (Vec (nofZ 0) (nofZ 0) (nofZ (-1)))).
Definition is_zero (x : b64) : bool := match x with B754_zero _ => true | _ => false end.
Lemma is_zero_R x : is_zero x = true -> B2R x = 0. Proof. destruct x; intros E; try discriminate E. reflexivity. Qed.
Lemma ball_hit : nltb (nofZ 0) (hT ballHit) = true /\ (let n := vnormalized (hNormal ballHit) in is_zero (vx n) && is_zero (vy n) && nltb (nofZ 0) (vz n) && is_finite (vz n))%bool = true.
Proof. vm_compute. auto. Qed.
Lemma ball_val : oIntersect (sphere None (nofZ 2) (Vec (nofZ 0) (nofZ 0) (nofZ (-5)))) (Ray vO (Vec (nofZ 0) (nofZ 0) (nofZ (-1)))) = Val (ballHit, Ray vO (Vec (nofZ 0) (nofZ 0) (nofZ (-1)))).
Proof. reflexivity. Qed.
Lemma ball_small k : (Z.abs k <= 100)%Z -> at_most 8 (nofZ k).
Proof.
  intros Hk. destruct (Z_b k) as [Fk Ek]; [eapply Z.le_trans; [exact Hk|discriminate]|]. split; [exact Fk|]. rewrite Ek, <- abs_IZR. change (bpow radix2 8) with 256. apply IZR_le. lia.
Qed.
Lemma unit_z : near_unit (Vec (nofZ 0) (nofZ 0) (nofZ (-1))).
Proof.
  destruct (Z_b 0) as [F0 E0]; [discriminate|]. destruct (Z_b (-1)) as [F1 E1]; [discriminate|]. split; [split; [exact F0|split; [exact F0|exact F1]]|].
  unfold rdot. cbn [vx vy vz]. rewrite E0, E1. apply Rabs_le. lra.
Qed.
Lemma diam2 : between 1 512 (nofZ 2). Proof. destruct (Z_b 2) as [F2 E2]; [discriminate|]. split; [exact F2|]. rewrite E2. lra. Qed.
Lemma up_dot (d' n : vec b64) : (is_zero (vx n) && is_zero (vy n) && nltb (nofZ 0) (vz n) && is_finite (vz n))%bool = true -> 0 <= B2R (vz d') -> - bpow radix2 (-20) <= rdot d' n.
Proof.
  intros B Hz. apply andb_prop in B as [B F]. apply andb_prop in B as [B Z]. apply andb_prop in B as [X Y].
  rewrite (lt0 _ F) in Z. apply Rltb_true in Z. apply is_zero_R in X, Y.
  unfold rdot. rewrite X, Y. assert (0 <= B2R (vz d') * B2R (vz n)) by (apply Rmult_le_pos; lra). change (bpow radix2 (-20)) with (/ 1048576). lra.
Qed.
Lemma ball_example d' : near_unit d' -> 0 <= B2R (vz d') ->
  let n := vnormalized (hNormal ballHit) in let p := vmadd (rayAt (Ray vO (Vec (nofZ 0) (nofZ 0) (nofZ (-1)))) (hT ballHit)) tiny n in
  oIntersect (sphere None (nofZ 2) (Vec (nofZ 0) (nofZ 0) (nofZ (-5)))) (Ray p d') = Val (noHit (M := unit), Ray p d').
Proof.
  intros Hd Hz. assert (P := ball_val). destruct ball_hit as (A & B). cbv zeta in B. assert (K := up_dot d' _ B Hz). clear B. revert P A K. generalize ballHit. intros h P A K.
  assert (Hc : all3 (at_most 8) (Vec (nofZ 0) (nofZ 0) (nofZ (-5)))) by (split; [apply ball_small; discriminate|split; apply ball_small; discriminate]).
  assert (H0 : all3 (at_most 8) vO) by (split; [apply ball_small; discriminate|split; apply ball_small; discriminate]).
  exact (proj1 (no_acne None _ _ _ _ _ _ diam2 Hc H0 unit_z P A d' Hd K)).
Qed.
