(** * Sums, means and variances of samples in double precision *)
From Coq Require Import ZArith Reals Bool List Lra Lia Psatz.
From Flocq Require Import Core.
From Flocq Require Plus_error Relative.
From Flocq Require IEEE754.BinarySingleNaN.
Import IEEE754.BinarySingleNaN.
From Verif Require Import Num NumLaws Outcome B64 BoxFloat FloatSpec FloatErr ColorModel SamplerModel SamplerSpec SamplerNum.
Import ListNotations.
Local Open Scope R_scope.

Definition eta : R := bpow radix2 (-1075).
Lemma eta_val : eta = bpow radix2 (-1075). Proof. reflexivity. Qed.
Lemma eta_20 : 20 * eta <= bpow radix2 (-1070).
Proof. unfold eta. change (-1070)%Z with (5 + -1075)%Z. rewrite bpow_plus. change (bpow radix2 5) with 32. assert (P := bpow_gt_0 radix2 (-1075)). lra. Qed.
Lemma eta_pos : 0 < eta. Proof. apply bpow_gt_0. Qed.
Lemma eta_small : eta <= / 10000000000000000.
Proof. apply Rle_trans with (bpow radix2 (-60)); [apply bpow_le; lia|]. change (bpow radix2 (-60)) with (/ 1152921504606846976). lra. Qed.
#[global] Opaque eta.

Lemma add_fl x y : fmt x -> fmt y -> exists e, Rabs e <= u /\ rnd (x + y) = (x + y) * (1 + e).
Proof.
  intros Hx Hy. unfold fmt in Hx, Hy. rewrite fexp64_FLT in Hx, Hy.
  destruct (Plus_error.FLT_plus_error_N_ex radix2 (-1074) 53 (fun z => negb (Z.even z)) x y Hx Hy) as (e & He & E).
  exists e. split.
  - eapply Rle_trans; [exact He|]. assert (U : Relative.u_ro radix2 53 = u).
    { rewrite u_val. unfold Relative.u_ro. change (bpow radix2 (- (53) + 1)) with (/ 4503599627370496). lra. }
    rewrite U. assert (P := u_pos). apply Rmult_le_reg_r with (1 + u); [lra|]. unfold Rdiv. rewrite Rmult_assoc, Rinv_l by lra. nra.
  - exact E.
Qed.
Lemma sub_fl x y : fmt x -> fmt y -> exists e, Rabs e <= u /\ rnd (x - y) = (x - y) * (1 + e).
Proof. intros Hx Hy. apply (add_fl x (- y) Hx). now apply fmt_opp. Qed.
Lemma rnd_fl x : exists e n, Rabs e <= u /\ Rabs n <= eta /\ rnd x = x * (1 + e) + n.
Proof. destruct (mul_rel x 1) as (e & n & A & B & C). exists e, n. rewrite Rmult_1_r in C. auto. Qed.

Definition mags (l : list b64) : list R := map (fun x => Rabs (B2R x)) l.
Definition vals (l : list b64) : list R := map B2R l.
Definition tame (k : Z) (l : list b64) : Prop := Forall (at_most k) l.
Definition fsum (l : list b64) : b64 := fold_left (fun a b : b64 => nadd a b) l (nofZ 0).

Lemma mags_nonneg l : 0 <= Rsum (mags l).
Proof. induction l as [|x l IH]; cbn [mags map Rsum]; [lra|]. assert (H := Rabs_pos (B2R x)). unfold mags in IH. lra. Qed.
Lemma mags_le k l : tame k l -> Rsum (mags l) <= INR (length l) * bpow radix2 k.
Proof.
  induction 1 as [|x l [_ H] _ IH]; [cbn; lra|]. change (length (x :: l)) with (S (length l)). rewrite S_INR. cbn [mags map Rsum]. unfold mags in IH. lra.
Qed.
Lemma vals_le_mags l : Rabs (Rsum (vals l)) <= Rsum (mags l).
Proof.
  induction l as [|x l IH]; cbn [vals mags map Rsum]; [rewrite Rabs_R0; lra|]. eapply Rle_trans; [apply Rabs_triang|]. unfold mags, vals in IH. lra.
Qed.

(** one more summand *)
Lemma one_more n s S A x e : 0 <= n -> (n + 1) * u <= 1 -> 0 <= A -> Rabs S <= A -> Rabs (s - S) <= (n - 1) * (1 + n * u) * u * A -> 1 <= n ->
  Rabs e <= u -> Rabs ((s + x) * (1 + e) - (S + x)) <= n * (1 + (n + 1) * u) * u * (A + Rabs x).
Proof.
  intros N0 NU HA HS HE N1 He. assert (P := u_pos).
  set (A' := A + Rabs x). assert (XA : Rabs x <= A') by (unfold A'; lra). assert (AA : A <= A') by (unfold A'; assert (H := Rabs_pos x); lra).
  assert (S' : Rabs (S + x) <= A') by (unfold A'; eapply Rle_trans; [apply Rabs_triang|]; lra).
  assert (E0 : 0 <= (n - 1) * (1 + n * u) * u) by (apply Rmult_le_pos; [apply Rmult_le_pos; nra|lra]).
  assert (E' : Rabs (s - S) <= (n - 1) * (1 + n * u) * u * A') by (eapply Rle_trans; [exact HE|apply Rmult_le_compat_l; auto]).
  replace ((s + x) * (1 + e) - (S + x)) with ((s - S) * (1 + e) + (S + x) * e) by ring.
  eapply Rle_trans; [apply Rabs_triang|]. rewrite 2!Rabs_mult.
  assert (E1 : Rabs (1 + e) <= 1 + u) by (eapply Rle_trans; [apply Rabs_triang|]; rewrite Rabs_R1; lra).
  apply Rle_trans with ((n - 1) * (1 + n * u) * u * A' * (1 + u) + A' * u).
  - apply Rplus_le_compat; apply Rmult_le_compat; auto using Rabs_pos.
  - assert (0 <= A') by lra.
    assert (G : 0 <= n * (1 + (n + 1) * u) - ((n - 1) * (1 + n * u) * (1 + u) + 1)).
    { replace (n * (1 + (n + 1) * u) - ((n - 1) * (1 + n * u) * (1 + u) + 1)) with (u * (n + 1 - (n - 1) * n * u)) by ring.
      apply Rmult_le_pos; [lra|]. assert ((n - 1) * (n * u) <= (n - 1) * 1) by (apply Rmult_le_compat_l; nra). lra. }
    assert (G2 := Rmult_le_pos _ _ (Rmult_le_pos _ _ (Rlt_le _ _ P) H) G). lra.
Qed.

(** the sum of n summands is off by at most n-1 roundings of the sum of the magnitudes *)
Lemma fsum_near l : tame 900 l -> (Z.of_nat (length l) <= 2 ^ 26)%Z ->
  is_finite (fsum l) = true /\
  Rabs (B2R (fsum l) - Rsum (vals l)) <= (INR (length l) - 1) * (1 + INR (length l) * u) * u * Rsum (mags l) * (if l then 0 else 1).
Proof.
  induction l as [|x l IH] using rev_ind; intros T L.
  - unfold fsum. cbn [fold_left]. destruct (Z_b 0 ltac:(lia)) as [F E]. split; [exact F|]. cbn [vals map Rsum]. rewrite E. rewrite Rminus_0_r, Rabs_R0. lra.
  - apply Forall_app in T. destruct T as [Tl Tx]. inversion Tx as [|? ? [Fx Bx] _]; subst. rewrite app_length in L. cbn [length] in L.
    destruct (IH Tl ltac:(lia)) as [Fs Es].
    assert (M := mags_le _ _ Tl). assert (V := vals_le_mags l). assert (M0 := mags_nonneg l). assert (P := u_pos).
    assert (N26 : INR (length l) + 1 <= 67108864). { rewrite INR_IZR_INZ. replace 67108864 with (IZR (2 ^ 26)) by reflexivity. rewrite <- plus_IZR. apply IZR_le. lia. }
    assert (Vx : vals (l ++ [x]) = vals l ++ [B2R x]) by (unfold vals; now rewrite map_app). assert (Mx : mags (l ++ [x]) = mags l ++ [Rabs (B2R x)]) by (unfold mags; now rewrite map_app).
    assert (Ff : fsum (l ++ [x]) = nadd (fsum l) x) by (unfold fsum; now rewrite fold_left_app).
    rewrite Ff, Vx, Mx, 2!Rsum_app, app_length. cbn [Rsum length]. rewrite Nat.add_1_r, S_INR. rewrite 2!Rplus_0_r.
    assert (Bs : Rabs (B2R (fsum l)) <= 2 * Rsum (mags l)).
    { destruct l as [|y l']; [unfold fsum; cbn [fold_left]; destruct (Z_b 0 ltac:(lia)) as [_ E]; rewrite E, Rabs_R0; lra|]. rewrite Rmult_1_r in Es.
      assert (Rabs (B2R (fsum (y :: l'))) <= Rabs (B2R (fsum (y :: l')) - Rsum (vals (y :: l'))) + Rabs (Rsum (vals (y :: l')))).
      { replace (B2R (fsum (y :: l'))) with (B2R (fsum (y :: l')) - Rsum (vals (y :: l')) + Rsum (vals (y :: l'))) at 1 by ring. apply Rabs_triang. }
      set (n := INR (length (y :: l'))) in *. assert (n * u <= / 2) by (rewrite u_val; lra).
      assert (1 <= n) by (unfold n; cbn [length]; rewrite S_INR; assert (H1 := pos_INR (length l')); lra).
      assert ((n - 1) * (1 + n * u) * u <= 1).
      { apply Rle_trans with (n * 2 * u); [|lra]. apply Rmult_le_compat_r; [lra|]. apply Rmult_le_compat; nra. }
      assert ((n - 1) * (1 + n * u) * u * Rsum (mags (y :: l')) <= 1 * Rsum (mags (y :: l'))) by (apply Rmult_le_compat_r; auto). lra. }
    assert (Big : Rabs (B2R (fsum l) + B2R x) <= big).
    { eapply Rle_trans; [apply Rabs_triang|]. apply Rle_trans with (bpow radix2 28 * bpow radix2 900).
      - change (bpow radix2 28) with 268435456. assert (B9 := bpow_gt_0 radix2 900).
        assert (INR (length l) * bpow radix2 900 <= 67108863 * bpow radix2 900) by (apply Rmult_le_compat_r; lra). lra.
      - rewrite <- bpow_plus. apply (bpow_big (28 + 900)). lia. }
    destruct (badd_correct (fsum l) x Fs Fx Big) as [F E]. split; [exact F|]. rewrite E.
    replace (if l ++ [x] then 0 else 1) with 1 by now destruct l. rewrite Rmult_1_r.
    destruct l as [|y l'].
    + unfold fsum. cbn [fold_left]. destruct (Z_b 0 ltac:(lia)) as [_ E0]. rewrite E0. cbn [vals map Rsum mags length INR]. rewrite Rplus_0_l, (rnd_id _ (fmt_B2R x)).
      replace (B2R x - B2R x) with 0 by ring; rewrite Rabs_R0. assert (H := Rabs_pos (B2R x)). lra.
    + rewrite Rmult_1_r in Es. destruct (add_fl _ _ (fmt_B2R (fsum (y :: l'))) (fmt_B2R x)) as (e & He & E1). rewrite E1.
      set (n := INR (length (y :: l'))) in *. assert (1 <= n) by (unfold n; cbn [length]; rewrite S_INR; assert (H1 := pos_INR (length l')); lra).
      replace (n + 1 - 1) with n by ring. apply one_more; auto; try lra. rewrite u_val. lra.
Qed.

Lemma fsum_rel l : tame 900 l -> (1 <= Z.of_nat (length l) <= 2 ^ 26)%Z ->
  is_finite (fsum l) = true /\ Rabs (B2R (fsum l) - Rsum (vals l)) <= INR (length l) * u * Rsum (mags l).
Proof.
  intros T L. destruct (fsum_near l T ltac:(lia)) as [F E]. split; [exact F|]. eapply Rle_trans; [exact E|].
  assert (M0 := mags_nonneg l). assert (P := u_pos). destruct l as [|y l']; [cbn [length] in L; lia|]. rewrite Rmult_1_r.
  set (n := INR (length (y :: l'))) in *.
  assert (1 <= n <= 67108864). { unfold n. rewrite INR_IZR_INZ. replace 67108864 with (IZR (2 ^ 26)) by reflexivity. split; apply IZR_le; lia. }
  apply Rmult_le_compat_r; [exact M0|]. apply Rmult_le_compat_r; [lra|].
  assert ((n - 1) * (n * u) <= 67108864 * (67108864 * u)) by (apply Rmult_le_compat; try nra). rewrite u_val in *. lra.
Qed.

(** replacing a value by a rounded one *)
Lemma perturb y x X E M e n : Rabs (x - X) <= E -> Rabs X <= M -> Rabs e <= u -> Rabs n <= eta -> y = x * (1 + e) + n ->
  Rabs (y - X) <= E + u * (M + E) + eta.
Proof.
  intros HE HM He Hn ->. replace (x * (1 + e) + n - X) with ((x - X) + x * e + n) by ring.
  eapply Rle_trans; [apply Rabs_triang|]. apply Rplus_le_compat; [|exact Hn]. eapply Rle_trans; [apply Rabs_triang|]. apply Rplus_le_compat; [exact HE|].
  rewrite Rabs_mult. rewrite (Rmult_comm u). apply Rmult_le_compat; auto using Rabs_pos.
  replace x with (X + (x - X)) by ring. eapply Rle_trans; [apply Rabs_triang|]. lra.
Qed.

Section Mean.
  Variable l : list b64.
  Hypothesis T : tame 900 l.
  Hypothesis L : (1 <= Z.of_nat (length l) <= 2 ^ 26)%Z.
  Let N := INR (length l).
  Let A := Rsum (mags l).
  Lemma N_range : 1 <= N <= 67108864.
  Proof. unfold N. rewrite INR_IZR_INZ. replace 67108864 with (IZR (2 ^ 26)) by reflexivity. split; apply IZR_le; lia. Qed.
  Lemma N_float : is_finite (nofZ (Z.of_nat (length l)) : b64) = true /\ B2R (nofZ (Z.of_nat (length l)) : b64) = N.
  Proof. destruct (Z_b (Z.of_nat (length l)) ltac:(lia)) as [F E]. split; [exact F|]. rewrite E. unfold N. now rewrite INR_IZR_INZ. Qed.

  Lemma fmean_near : let y : b64 := nmul (ndiv (nofZ 1) (nofZ (Z.of_nat (length l)))) (fsum l) in
    is_finite y = true /\ Rabs (B2R y - Rsum (vals l) / N) <= (N + 3) * u * (A / N) + eta.
  Proof.
    cbv zeta. destruct (fsum_rel l T L) as [Fs Es]. fold N A in Es. destruct N_float as [Fn En]. assert (NR := N_range). destruct (Z_b 1 ltac:(lia)) as [F1 E1].
    assert (A0 : 0 <= A) by apply mags_nonneg. assert (V := vals_le_mags l). fold A in V. assert (P := u_pos). assert (MA := mags_le _ _ T). fold N A in MA.
    assert (NI : 0 < / N) by (apply Rinv_0_lt_compat; lra). assert (NI1 : / N <= 1) by (rewrite <- Rinv_1; apply Rinv_le_contravar; lra).
    assert (B9 := bpow_gt_0 radix2 900). assert (I1 : 1 / N = / N) by (unfold Rdiv; ring).
    destruct (bdiv_correct (nofZ 1) (nofZ (Z.of_nat (length l))) F1) as [Fd Ed]; [rewrite En; lra|rewrite E1, En|].
    { rewrite I1, Rabs_pos_eq by lra. eapply Rle_trans; [exact NI1|]. change 1 with (bpow radix2 0). apply bpow_big. lia. }
    rewrite E1, En, I1 in Ed.
    destruct (rnd_rel (/ N)) as (e1 & He1 & R1).
    { rewrite Rabs_pos_eq by lra. apply Rle_trans with (bpow radix2 (-26)); [apply bpow_le; lia|]. change (bpow radix2 (-26)) with (/ 67108864). apply Rinv_le_contravar; lra. }
    rewrite R1 in Ed. set (S := Rsum (vals l)) in *. set (s := B2R (fsum l)) in *. set (d := ndiv (nofZ 1) (nofZ (Z.of_nat (length l))) : b64) in *.
    assert (NU : N * u <= / 100000000) by (rewrite u_val; lra). assert (US := u_small).
    assert (Bs : Rabs s <= (1 + N * u) * A). { replace s with (s - S + S) by ring. eapply Rle_trans; [apply Rabs_triang|]. lra. }
    assert (AN : 0 <= A / N) by (apply Rmult_le_pos; lra).
    assert (Q1 : Rabs (s * B2R d - S / N) <= N * u * (A / N) + u * ((1 + N * u) * (A / N))).
    { rewrite Ed. replace (s * (/ N * (1 + e1)) - S / N) with ((s - S) * / N + s * / N * e1) by (unfold Rdiv; ring).
      eapply Rle_trans; [apply Rabs_triang|]. rewrite !Rabs_mult, (Rabs_pos_eq (/ N)) by lra. apply Rplus_le_compat.
      - replace (N * u * (A / N)) with (N * u * A * / N) by (unfold Rdiv; ring). apply Rmult_le_compat_r; lra.
      - replace (u * ((1 + N * u) * (A / N))) with ((1 + N * u) * A * / N * u) by (unfold Rdiv; ring). apply Rmult_le_compat; auto using Rabs_pos.
        + apply Rmult_le_pos; [apply Rabs_pos|lra].
        + apply Rmult_le_compat_r; lra. }
    assert (V1 : Rabs (S / N) <= A / N). { unfold Rdiv. rewrite Rabs_mult, (Rabs_pos_eq (/ N)) by lra. apply Rmult_le_compat_r; lra. }
    assert (UA : u * (A / N) <= / 1000000 * (A / N)) by (apply Rmult_le_compat_r; lra).
    assert (NUA : N * u * (A / N) <= / 1000000 * (A / N)) by (apply Rmult_le_compat_r; lra).
    assert (UNUA : u * ((1 + N * u) * (A / N)) <= / 1000000 * ((1 + / 1000000) * (A / N))).
    { apply Rmult_le_compat; [lra|apply Rmult_le_pos; nra|lra|]. apply Rmult_le_compat_r; lra. }
    assert (Bd : Rabs (s * B2R d) <= 2 * (A / N)).
    { replace (s * B2R d) with (s * B2R d - S / N + S / N) by ring. eapply Rle_trans; [apply Rabs_triang|]. lra. }
    destruct (bmul_correct d (fsum l) Fd Fs) as [F E].
    { fold s. rewrite Rmult_comm. eapply Rle_trans; [exact Bd|]. apply Rle_trans with (bpow radix2 1 * bpow radix2 900); [|rewrite <- bpow_plus; apply (bpow_big (1 + 900)); lia].
      change (bpow radix2 1) with 2. apply Rmult_le_compat_l; [lra|]. apply Rmult_le_reg_r with N; [lra|]. unfold Rdiv. rewrite Rmult_assoc, Rinv_l by lra. lra. }
    split; [exact F|]. destruct (rnd_fl (s * B2R d)) as (e & n & He & Hn & R). fold s in E. rewrite (Rmult_comm (B2R d)), R in E.
    eapply Rle_trans; [apply (perturb _ _ _ _ _ e n Q1 V1 He Hn E)|]. set (a := A / N) in *. assert (0 <= u * a) by (apply Rmult_le_pos; lra).
    assert (u * (u * a) <= / 1000000 * (u * a)) by (apply Rmult_le_compat_r; nra).
    assert (N * u * (u * a) <= / 1000000 * (u * a)) by (apply Rmult_le_compat_r; nra).
    assert (u * (u * (u * a)) <= / 1000000 * (u * (u * a))) by (apply Rmult_le_compat_r; [apply Rmult_le_pos; nra|lra]).
    assert (N * u * (u * (u * a)) <= / 1000000 * (u * (u * a))) by (apply Rmult_le_compat_r; [apply Rmult_le_pos; nra|lra]).
    lra.
  Qed.
End Mean.

Definition squares (l : list b64) : list b64 := map (fun x : b64 => nmul x x) l.
Definition sumsq (l : list b64) : R := Rsum (map (fun x => B2R x * B2R x) l).

Lemma tame_le j k l : (j <= k)%Z -> tame j l -> tame k l.
Proof. intros H. apply Forall_impl. intros x [F B]. split; [exact F|]. eapply Rle_trans; [exact B|]. now apply bpow_le. Qed.
Lemma sumsq_nonneg l : 0 <= sumsq l.
Proof. unfold sumsq. induction l as [|x l IH]; cbn [map Rsum]; [lra|]. assert (H := Rle_0_sqr (B2R x)). unfold Rsqr in H. lra. Qed.
Lemma sumsq_le l : tame 400 l -> sumsq l <= INR (length l) * bpow radix2 800.
Proof.
  unfold sumsq. induction 1 as [|x l [_ H] _ IH]; [cbn; lra|]. change (length (x :: l)) with (S (length l)). rewrite S_INR. cbn [map Rsum].
  assert (B2R x * B2R x <= bpow radix2 800). { change 800%Z with (400 + 400)%Z. rewrite bpow_plus, <- (Rabs_pos_eq (B2R x * B2R x)) by (assert (Q := Rle_0_sqr (B2R x)); unfold Rsqr in Q; lra). rewrite Rabs_mult. apply Rmult_le_compat; auto using Rabs_pos. }
  lra.
Qed.
(** Cauchy and Schwarz *)
Lemma mags_sq l : Rsum (mags l) * Rsum (mags l) <= INR (length l) * sumsq l.
Proof.
  unfold sumsq. induction l as [|x l IH]; [cbn; lra|]. change (length (x :: l)) with (S (length l)). rewrite S_INR. cbn [mags map Rsum]. fold (mags l).
  assert (X : B2R x * B2R x = Rabs (B2R x) * Rabs (B2R x)) by (rewrite <- Rabs_mult, Rabs_pos_eq; auto; apply Rle_0_sqr). rewrite X.
  set (a := Rabs (B2R x)) in *. set (A := Rsum (mags l)) in *. set (Q := Rsum (map (fun x => B2R x * B2R x) l)) in *.
  assert (N0 := pos_INR (length l)). set (n := INR (length l)) in *.
  assert (H : 2 * (a * A) <= n * (a * a) + Q).
  { unfold A, Q, n. clear. induction l as [|y l IH]; [cbn; lra|]. change (length (y :: l)) with (S (length l)). rewrite S_INR. cbn [mags map Rsum]. fold (mags l).
    assert (Y : B2R y * B2R y = Rabs (B2R y) * Rabs (B2R y)) by (rewrite <- Rabs_mult, Rabs_pos_eq; auto; apply Rle_0_sqr). rewrite Y.
    assert (H := Rle_0_sqr (a - Rabs (B2R y))). unfold Rsqr in H. lra. }
  lra.
Qed.
Lemma squares_ok l : tame 400 l -> tame 900 (squares l) /\ Rabs (Rsum (vals (squares l)) - sumsq l) <= u * sumsq l + INR (length l) * eta /\
  Rsum (mags (squares l)) <= (1 + u) * sumsq l + INR (length l) * eta.
Proof.
  assert (P := u_pos). assert (Pe := eta_pos). unfold sumsq.
  induction 1 as [|x l [Fx Bx] _ (IT & IV & IM)].
  - cbn. split; [constructor|]. rewrite Rminus_0_r, Rabs_R0. lra.
  - change (length (x :: l)) with (S (length l)). rewrite S_INR. cbn [squares vals mags map Rsum]. fold (squares l) (vals (squares l)) (mags (squares l)).
    assert (X0 := Rle_0_sqr (B2R x)). unfold Rsqr in X0.
    assert (B8 : Rabs (B2R x * B2R x) <= bpow radix2 800). { change 800%Z with (400 + 400)%Z. rewrite bpow_plus, Rabs_mult. apply Rmult_le_compat; auto using Rabs_pos. }
    destruct (mul_u 800 x x ltac:(lia) Fx Fx B8) as (F & _ & B).
    destruct (bmul_correct x x Fx Fx) as [_ E]; [eapply Rle_trans; [exact B8|apply bpow_big; lia]|].
    destruct (rnd_fl (B2R x * B2R x)) as (e & n & He & Hn & R). rewrite R in E.
    assert (D : Rabs (B2R (nmul x x) - B2R x * B2R x) <= u * (B2R x * B2R x) + eta).
    { rewrite E. replace (B2R x * B2R x * (1 + e) + n - B2R x * B2R x) with (B2R x * B2R x * e + n) by ring. eapply Rle_trans; [apply Rabs_triang|]. apply Rplus_le_compat; [|exact Hn].
      rewrite Rabs_mult, (Rabs_pos_eq (B2R x * B2R x)) by lra. rewrite Rmult_comm. apply Rmult_le_compat_r; lra. }
    split; [constructor; [split; [exact F|eapply Rle_trans; [exact B|apply bpow_le; lia]]|exact IT]|]. split.
    + match goal with |- Rabs (?a + ?b - (?c + ?d)) <= _ => replace (a + b - (c + d)) with ((a - c) + (b - d)) by ring end.
      eapply Rle_trans; [apply Rabs_triang|]. lra.
    + assert (Rabs (B2R (nmul x x)) <= B2R x * B2R x + (u * (B2R x * B2R x) + eta)).
      { replace (B2R (nmul x x)) with (B2R x * B2R x + (B2R (nmul x x) - B2R x * B2R x)) by ring. eapply Rle_trans; [apply Rabs_triang|]. rewrite (Rabs_pos_eq (B2R x * B2R x)) by lra. lra. }
      lra.
Qed.

Lemma perturb0 y x X E M e : Rabs (x - X) <= E -> Rabs X <= M -> Rabs e <= u -> y = x * (1 + e) -> Rabs (y - X) <= E + u * (M + E).
Proof.
  intros HE HM He ->. replace (x * (1 + e) - X) with ((x - X) + x * e) by ring.
  eapply Rle_trans; [apply Rabs_triang|]. apply Rplus_le_compat; [exact HE|].
  rewrite Rabs_mult. rewrite (Rmult_comm u). apply Rmult_le_compat; auto using Rabs_pos.
  replace x with (X + (x - X)) by ring. eapply Rle_trans; [apply Rabs_triang|]. lra.
Qed.
Lemma near_abs x X E M : Rabs (x - X) <= E -> Rabs X <= M -> Rabs x <= M + E.
Proof. intros H1 H2. replace x with (X + (x - X)) by ring. eapply Rle_trans; [apply Rabs_triang|]. lra. Qed.

Section Variance.
  Variable l : list b64.
  Hypothesis T4 : tame 400 l.
  Hypothesis L : (2 <= Z.of_nat (length l) <= 2 ^ 26)%Z.
  Let N := INR (length l).
  Let A := Rsum (mags l).
  Let Q := sumsq l.
  Let S := Rsum (vals l).
  Let T := N * Q.
  Let U := u * T.
  Let H := N * (N * eta).

  Lemma NV : 2 <= N <= 67108864.
  Proof. unfold N. rewrite INR_IZR_INZ. replace 67108864 with (IZR (2 ^ 26)) by reflexivity. split; apply IZR_le; lia. Qed.
  Lemma Q0 : 0 <= Q. Proof. apply sumsq_nonneg. Qed.
  Lemma T0 : 0 <= T. Proof. assert (NR := NV). apply Rmult_le_pos; [lra|apply Q0]. Qed.
  Lemma U0 : 0 <= U. Proof. assert (P := u_pos). apply Rmult_le_pos; [lra|apply T0]. Qed.
  Lemma eta_H : eta <= H.
  Proof. assert (NR := NV). assert (P := eta_pos). unfold H. assert (1 * eta <= N * eta) by (apply Rmult_le_compat_r; lra). assert (1 * (N * eta) <= N * (N * eta)) by (apply Rmult_le_compat_r; lra). lra. Qed.
  Lemma SS_T : Rabs (S * S) <= T.
  Proof.
    assert (V := vals_le_mags l). assert (C := mags_sq l). fold A S in V. fold A N Q in C. fold T in C. rewrite Rabs_mult. eapply Rle_trans; [|exact C]. apply Rmult_le_compat; auto using Rabs_pos.
  Qed.
  Lemma T_SS : Rabs (T - S * S) <= T.
  Proof.
    assert (B := SS_T). assert (Z := Rle_0_sqr S). unfold Rsqr in Z. rewrite Rabs_pos_eq in B by lra. rewrite Rabs_pos_eq; lra.
  Qed.
  Lemma T_big : T <= bpow radix2 852.
  Proof.
    assert (NR := NV). assert (B := sumsq_le l T4). fold Q N in B. unfold T. change 852%Z with (26 + (26 + 800))%Z. rewrite !bpow_plus. change (bpow radix2 26) with 67108864.
    assert (B8 := bpow_gt_0 radix2 800). apply Rmult_le_compat; [lra|apply Q0|lra|]. eapply Rle_trans; [exact B|]. apply Rmult_le_compat_r; lra.
  Qed.
  Lemma H_small : H <= 1.
  Proof.
    assert (NR := NV). assert (P := eta_pos). assert (E := eta_small).
    assert (N * eta <= 67108864 * / 10000000000000000) by (apply Rmult_le_compat; lra).
    assert (N * (N * eta) <= 67108864 * (67108864 * / 10000000000000000)) by (apply Rmult_le_compat; try lra; apply Rmult_le_pos; lra). unfold H. lra.
  Qed.

  Definition fvar : b64 :=
    let n : b64 := nofZ (Z.of_nat (length l)) in
    nmul (nsub (nmul n (fsum (squares l))) (nmul (fsum l) (fsum l))) (ndiv (nofZ 1) (nmul n (nsub n (nofZ 1)))).

  Lemma small_u x : 0 <= x -> u * x <= / 1000000000000 * x.
  Proof. intros X. apply Rmult_le_compat_r; [exact X|]. assert (US := u_small). lra. Qed.
  Lemma small_Nu x : 0 <= x -> N * u * x <= / 100000000 * x.
  Proof. intros X. apply Rmult_le_compat_r; [exact X|]. assert (NR := NV). assert (US := u_small). rewrite u_val. lra. Qed.

  Lemma sq_near : is_finite (fsum (squares l)) = true /\ Rabs (N * B2R (fsum (squares l)) - T) <= (N + 1 + / 1000000) * U + 3 * H.
  Proof.
    destruct (squares_ok l T4) as (TS & VS & MS). fold N Q in VS, MS. assert (NR := NV). assert (P := u_pos). assert (Pe := eta_pos). assert (Q0' := Q0).
    assert (LS : length (squares l) = length l) by apply map_length.
    destruct (fsum_rel (squares l) TS) as [F E]; [rewrite LS; lia|]. rewrite LS in E. fold N in E. split; [exact F|].
    set (q := B2R (fsum (squares l))) in *. set (V := Rsum (vals (squares l))) in *. set (W := Rsum (mags (squares l))) in *.
    assert (G : Rabs (q - Q) <= N * u * ((1 + u) * Q + N * eta) + (u * Q + N * eta)).
    { replace (q - Q) with ((q - V) + (V - Q)) by ring. eapply Rle_trans; [apply Rabs_triang|]. apply Rplus_le_compat; [|exact VS]. eapply Rle_trans; [exact E|]. apply Rmult_le_compat_l; [apply Rmult_le_pos; lra|exact MS]. }
    replace (N * q - T) with (N * (q - Q)) by (unfold T; ring). rewrite Rabs_mult, (Rabs_pos_eq N) by lra.
    apply Rle_trans with (N * (N * u * ((1 + u) * Q + N * eta) + (u * Q + N * eta))); [apply Rmult_le_compat_l; lra|].
    assert (S1 := small_Nu U U0). assert (S2 := small_Nu H (Rle_trans _ _ _ (Rlt_le _ _ eta_pos) eta_H)). assert (U0' := U0). assert (H0 := Rle_trans _ _ _ (Rlt_le _ _ eta_pos) eta_H).
    unfold U, T, H in *. lra.
  Qed.

  Lemma H0 : 0 <= H. Proof. exact (Rle_trans _ _ _ (Rlt_le _ _ eta_pos) eta_H). Qed.
  Lemma NU0 : N * U <= / 100000000 * T.
  Proof. unfold U. assert (G := small_Nu T T0). lra. Qed.

  (** n times the sum of squares *)
  Lemma a_near : let a : b64 := nmul (nofZ (Z.of_nat (length l))) (fsum (squares l)) in
    is_finite a = true /\ Rabs (B2R a - T) <= (N + 2 + / 100000) * U + 5 * H.
  Proof.
    cbv zeta. destruct sq_near as [F E]. destruct (N_float l ltac:(lia)) as [Fn En]. fold N in En. assert (NR := NV). assert (U0' := U0). assert (T0' := T0). assert (H0' := H0). assert (HS := H_small). assert (TB := T_big). assert (EH := eta_H).
    assert (NU := NU0). assert (P := u_pos). assert (UT : U <= / 1000000000000 * T) by (apply small_u; exact T0').
    assert (AT : Rabs T <= T) by (rewrite Rabs_pos_eq; lra).
    assert (X := near_abs _ _ _ _ E AT).
    destruct (bmul_correct (nofZ (Z.of_nat (length l))) (fsum (squares l)) Fn F) as [Fa Ea].
    { rewrite En. eapply Rle_trans; [exact X|]. apply Rle_trans with (bpow radix2 853); [|apply bpow_big; lia]. change 853%Z with (1 + 852)%Z. rewrite bpow_plus. change (bpow radix2 1) with 2.
      assert (8 <= bpow radix2 852) by (apply Rle_trans with (bpow radix2 3); [change (bpow radix2 3) with 8; lra|apply bpow_le; lia]). lra. }
    split; [exact Fa|]. rewrite En in Ea. destruct (rnd_fl (N * B2R (fsum (squares l)))) as (e & n & He & Hn & R). rewrite R in Ea.
    eapply Rle_trans; [apply (perturb _ _ _ _ _ e n E AT He Hn Ea)|].
    assert (G1 := small_u H H0'). assert (G2 := small_Nu U U0'). assert (G3 := small_u U U0'). fold U in G3.
    replace (u * (T + ((N + 1 + / 1000000) * U + 3 * H))) with (U + (N * u * U + (1 + / 1000000) * (u * U) + 3 * (u * H))) by (unfold U at 1; ring). lra.
  Qed.

  (** the square of the sum *)
  Lemma b_near : let b : b64 := nmul (fsum l) (fsum l) in
    is_finite b = true /\ Rabs (B2R b - S * S) <= (2 * N + 3 / 2 + / 100000) * U + H.
  Proof.
    cbv zeta. destruct (fsum_rel l (tame_le 400 900 l ltac:(lia) T4) ltac:(lia)) as [F E]. fold N A S in E. assert (NR := NV). assert (U0' := U0). assert (T0' := T0). assert (H0' := H0). assert (HS := H_small). assert (TB := T_big). assert (EH := eta_H).
    assert (NU := NU0). assert (P := u_pos). assert (UT : U <= / 1000000000000 * T) by (apply small_u; exact T0').
    assert (A0 : 0 <= A) by apply mags_nonneg. assert (V := vals_le_mags l). fold A S in V. assert (C := mags_sq l). fold A N Q in C. fold T in C.
    set (s := B2R (fsum l)) in *. assert (Nu0 : 0 <= N * u) by (apply Rmult_le_pos; lra).
    assert (SA : Rabs s <= A + N * u * A) by (apply (near_abs _ S _ _ E V)).
    assert (D : Rabs (s * s - S * S) <= (2 * N + / 2) * U).
    { replace (s * s - S * S) with ((s - S) * (s + S)) by ring. rewrite Rabs_mult.
      apply Rle_trans with (N * u * A * (A + N * u * A + A)).
      - apply Rmult_le_compat; auto using Rabs_pos. eapply Rle_trans; [apply Rabs_triang|]. lra.
      - replace (N * u * A * (A + N * u * A + A)) with (N * u * (2 + N * u) * (A * A)) by ring.
        apply Rle_trans with (N * u * (2 + N * u) * T); [apply Rmult_le_compat_l; [apply Rmult_le_pos; lra|exact C]|].
        replace (N * u * (2 + N * u) * T) with (2 * N * U + N * (N * u) * U) by (unfold U; ring).
        assert (N * (N * u) <= / 2). { assert (N * (N * u) <= 67108864 * (67108864 * u)) by (apply Rmult_le_compat; try lra; apply Rmult_le_compat_r; lra). rewrite u_val in *. lra. }
        assert (N * (N * u) * U <= / 2 * U) by (apply Rmult_le_compat_r; auto). lra. }
    assert (X := near_abs _ _ _ _ D SS_T).
    destruct (bmul_correct (fsum l) (fsum l) F F) as [Fb Eb].
    { fold s. eapply Rle_trans; [exact X|]. apply Rle_trans with (bpow radix2 853); [|apply bpow_big; lia]. change 853%Z with (1 + 852)%Z. rewrite bpow_plus. change (bpow radix2 1) with 2. lra. }
    split; [exact Fb|]. fold s in Eb. destruct (rnd_fl (s * s)) as (e & n & He & Hn & R). rewrite R in Eb.
    eapply Rle_trans; [apply (perturb _ _ _ _ _ e n D SS_T He Hn Eb)|].
    assert (G2 := small_Nu U U0'). assert (G3 := small_u U U0').
    replace (u * (T + (2 * N + / 2) * U)) with (U + (2 * (N * u * U) + / 2 * (u * U))) by (unfold U at 1; ring). lra.
  Qed.

  Lemma c_near : let c : b64 := nsub (nmul (nofZ (Z.of_nat (length l))) (fsum (squares l))) (nmul (fsum l) (fsum l)) in
    is_finite c = true /\ Rabs (B2R c - (T - S * S)) <= (3 * N + 9 / 2 + / 1000) * U + 7 * H.
  Proof.
    cbv zeta. destruct a_near as [Fa Ea]. destruct b_near as [Fb Eb]. set (a := nmul (nofZ (Z.of_nat (length l))) (fsum (squares l)) : b64) in *. set (b := nmul (fsum l) (fsum l) : b64) in *.
    assert (NR := NV). assert (U0' := U0). assert (T0' := T0). assert (H0' := H0). assert (HS := H_small). assert (TB := T_big).
    assert (NU := NU0). assert (P := u_pos). assert (UT : U <= / 1000000000000 * T) by (apply small_u; exact T0').
    assert (D : Rabs (B2R a - B2R b - (T - S * S)) <= (3 * N + 7 / 2 + / 10000) * U + 6 * H).
    { replace (B2R a - B2R b - (T - S * S)) with ((B2R a - T) - (B2R b - S * S)) by ring. unfold Rminus at 1. eapply Rle_trans; [apply Rabs_triang|]. rewrite Rabs_Ropp. lra. }
    assert (X := near_abs _ _ _ _ D T_SS).
    destruct (bsub_correct a b Fa Fb) as [Fc Ec].
    { eapply Rle_trans; [exact X|]. apply Rle_trans with (bpow radix2 853); [|apply bpow_big; lia]. change 853%Z with (1 + 852)%Z. rewrite bpow_plus. change (bpow radix2 1) with 2.
      assert (8 <= bpow radix2 852) by (apply Rle_trans with (bpow radix2 3); [change (bpow radix2 3) with 8; lra|apply bpow_le; lia]). lra. }
    split; [exact Fc|]. destruct (sub_fl _ _ (fmt_B2R a) (fmt_B2R b)) as (e & He & R). rewrite R in Ec.
    eapply Rle_trans; [apply (perturb0 _ _ _ _ _ e D T_SS He Ec)|].
    assert (G1 := small_u H H0'). assert (G2 := small_Nu U U0'). assert (G3 := small_u U U0').
    replace (u * (T + ((3 * N + 7 / 2 + / 10000) * U + 6 * H))) with (U + (3 * (N * u * U) + (7 / 2 + / 10000) * (u * U) + 6 * (u * H))) by (unfold U at 1; ring). lra.
  Qed.

  Lemma d_near : exists e1, Rabs e1 <= u /\ let d : b64 := ndiv (nofZ 1) (nmul (nofZ (Z.of_nat (length l))) (nsub (nofZ (Z.of_nat (length l))) (nofZ 1))) in
    is_finite d = true /\ B2R d = / (N * (N - 1)) * (1 + e1).
  Proof.
    destruct (N_float l ltac:(lia)) as [Fn En]. fold N in En. destruct (Z_b 1 ltac:(lia)) as [F1 E1]. assert (NR := NV).
    set (n := nofZ (Z.of_nat (length l)) : b64) in *. set (k := Z.of_nat (length l)) in *.
    assert (NK : N = IZR k) by (unfold N, k; now rewrite INR_IZR_INZ).
    destruct (bsub_correct n (nofZ 1) Fn F1) as [F2 E2]. { rewrite En, E1, Rabs_pos_eq by lra. apply Rle_trans with (bpow radix2 26); [change (bpow radix2 26) with 67108864; lra|apply bpow_big; lia]. }
    rewrite En, E1, NK, <- minus_IZR, (rnd_id _ (fmt_Z (k - 1) ltac:(lia))), minus_IZR, <- NK in E2.
    destruct (bmul_correct n (nsub n (nofZ 1)) Fn F2) as [F3 E3]. { rewrite En, E2, Rabs_pos_eq by (apply Rmult_le_pos; lra). apply Rle_trans with (bpow radix2 52); [|apply bpow_big; lia]. change 52%Z with (26 + 26)%Z. rewrite bpow_plus. change (bpow radix2 26) with 67108864. apply Rmult_le_compat; lra. }
    assert (KK : (Z.abs (k * (k - 1)) <= 2 ^ 53)%Z). { assert (0 <= k * (k - 1) <= 2 ^ 26 * 2 ^ 26)%Z by (split; [apply Z.mul_nonneg_nonneg; lia|apply Z.mul_le_mono_nonneg; lia]). rewrite Z.abs_eq by lia. eapply Z.le_trans; [apply H1|]. vm_compute. discriminate. }
    rewrite En, E2, NK, <- minus_IZR, <- mult_IZR, (rnd_id _ (fmt_Z _ KK)), mult_IZR, minus_IZR, <- NK in E3.
    set (m := N * (N - 1)) in *. assert (M2 : 2 <= m <= 4503599627370496).
    { unfold m. split; [assert (2 * 1 <= N * (N - 1)) by (apply Rmult_le_compat; lra); lra|]. assert (N * (N - 1) <= 67108864 * 67108864) by (apply Rmult_le_compat; lra). lra. }
    assert (MI : 0 < / m) by (apply Rinv_0_lt_compat; lra). assert (MI1 : / m <= 1) by (rewrite <- Rinv_1; apply Rinv_le_contravar; lra). assert (I1 : 1 / m = / m) by (unfold Rdiv; ring).
    destruct (bdiv_correct (nofZ 1) (nmul n (nsub n (nofZ 1))) F1) as [Fd Ed]; [rewrite E3; lra|rewrite E1, E3, I1, Rabs_pos_eq by lra; eapply Rle_trans; [exact MI1|change 1 with (bpow radix2 0); apply bpow_big; lia]|].
    rewrite E1, E3, I1 in Ed.
    destruct (rnd_rel (/ m)) as (e1 & He1 & R1).
    { rewrite Rabs_pos_eq by lra. apply Rle_trans with (bpow radix2 (-52)); [apply bpow_le; lia|]. change (bpow radix2 (-52)) with (/ 4503599627370496). apply Rinv_le_contravar; lra. }
    exists e1. split; [exact He1|]. cbv zeta. split; [exact Fd|]. rewrite Ed, R1. reflexivity.
  Qed.

  Lemma fvar_near : is_finite fvar = true /\ Rabs (B2R fvar - (T - S * S) / (N * (N - 1))) <= (3 * N + 7) * u * (Q / (N - 1)) + 20 * eta.
  Proof.
    destruct c_near as [Fc Ec]. destruct d_near as (e1 & He1 & Fd & Ed). unfold fvar. cbv zeta in *.
    set (c := nsub (nmul (nofZ (Z.of_nat (length l))) (fsum (squares l))) (nmul (fsum l) (fsum l)) : b64) in *.
    set (d := ndiv (nofZ 1) (nmul (nofZ (Z.of_nat (length l))) (nsub (nofZ (Z.of_nat (length l))) (nofZ 1))) : b64) in *.
    assert (NR := NV). assert (U0' := U0). assert (T0' := T0). assert (H0' := H0). assert (HS := H_small). assert (TB := T_big).
    assert (NU := NU0). assert (P := u_pos). assert (UT : U <= / 1000000000000 * T) by (apply small_u; exact T0'). assert (EH := eta_H). assert (Pe := eta_pos).
    set (m := N * (N - 1)) in *. assert (M2 : 2 <= m) by (unfold m; assert (2 * 1 <= N * (N - 1)) by (apply Rmult_le_compat; lra); lra).
    assert (MI : 0 < / m) by (apply Rinv_0_lt_compat; lra). assert (MI1 : / m <= 1) by (rewrite <- Rinv_1; apply Rinv_le_contravar; lra).
    assert (D1 : Rabs (B2R c * / m - (T - S * S) / m) <= ((3 * N + 9 / 2 + / 1000) * U + 7 * H) * / m).
    { replace (B2R c * / m - (T - S * S) / m) with ((B2R c - (T - S * S)) * / m) by (unfold Rdiv; ring). rewrite Rabs_mult, (Rabs_pos_eq (/ m)) by lra. apply Rmult_le_compat_r; [lra|exact Ec]. }
    assert (X1 : Rabs ((T - S * S) / m) <= T * / m). { unfold Rdiv. rewrite Rabs_mult, (Rabs_pos_eq (/ m)) by lra. apply Rmult_le_compat_r; [lra|exact T_SS]. }
    assert (G1 := small_u H H0'). assert (G2 := small_Nu U U0'). assert (G3 := small_u U U0').
    assert (D2 : Rabs (B2R c * B2R d - (T - S * S) / m) <= ((3 * N + 11 / 2 + / 100) * U + 8 * H) * / m).
    { eapply Rle_trans; [apply (perturb0 _ (B2R c * / m) _ _ _ e1 D1 X1 He1); rewrite Ed; ring|].
      match goal with |- ?x * / m + u * (T * / m + ?x * / m) <= _ => replace (x * / m + u * (T * / m + x * / m)) with ((x + (U + u * x)) * / m) by (unfold U; ring) end.
      apply Rmult_le_compat_r; [lra|].
      replace (u * ((3 * N + 9 / 2 + / 1000) * U + 7 * H)) with (3 * (N * u * U) + (9 / 2 + / 1000) * (u * U) + 7 * (u * H)) by ring. lra. }
    assert (X2 := near_abs _ _ _ _ D2 X1).
    destruct (bmul_correct c d Fc Fd) as [Fv Ev].
    { eapply Rle_trans; [exact X2|]. apply Rle_trans with (bpow radix2 853); [|apply bpow_big; lia]. change 853%Z with (1 + 852)%Z. rewrite bpow_plus. change (bpow radix2 1) with 2.
      assert (16 <= bpow radix2 852) by (apply Rle_trans with (bpow radix2 4); [change (bpow radix2 4) with 16; lra|apply bpow_le; lia]).
      assert (0 <= (3 * N + 11 / 2 + / 100) * U) by (apply Rmult_le_pos; lra).
      assert ((T + ((3 * N + 11 / 2 + / 100) * U + 8 * H)) * / m <= (T + ((3 * N + 11 / 2 + / 100) * U + 8 * H)) * 1) by (apply Rmult_le_compat_l; lra). lra. }
    split; [exact Fv|]. destruct (rnd_fl (B2R c * B2R d)) as (e & n & He & Hn & R). rewrite R in Ev.
    eapply Rle_trans; [apply (perturb _ _ _ _ _ e n D2 X1 He Hn Ev)|].
    match goal with |- ?x * / m + u * (T * / m + ?x * / m) + eta <= _ => replace (x * / m + u * (T * / m + x * / m)) with ((x + (U + u * x)) * / m) by (unfold U; ring) end.
    assert (UM : U * / m = u * (Q / (N - 1))) by (unfold U, T, m; field; lra).
    assert (HM : H * / m <= 2 * eta).
    { assert (EM : H * / m = (N / (N - 1)) * eta) by (unfold H, m; field; lra). rewrite EM. apply Rmult_le_compat_r; [lra|].
      apply Rmult_le_reg_r with (N - 1); [lra|]. unfold Rdiv. rewrite Rmult_assoc, Rinv_l by lra. lra. }
    apply Rle_trans with (((3 * N + 7) * U + 9 * H) * / m + eta).
    - apply Rplus_le_compat_r, Rmult_le_compat_r; [lra|].
      replace (u * ((3 * N + 11 / 2 + / 100) * U + 8 * H)) with (3 * (N * u * U) + (11 / 2 + / 100) * (u * U) + 8 * (u * H)) by ring. lra.
    - replace (((3 * N + 7) * U + 9 * H) * / m + eta) with ((3 * N + 7) * (U * / m) + 9 * (H * / m) + eta) by ring. rewrite UM. lra.
  Qed.

  Lemma variance_real : (T - S * S) / (N * (N - 1)) = variance (vals l).
  Proof.
    assert (LV : length (vals l) = length l) by apply map_length.
    rewrite <- variance_formula by (rewrite LV; lia). rewrite LV, <- INR_IZR_INZ. fold N S. unfold T, Q, sumsq, vals. rewrite map_map. unfold Rdiv. ring.
  Qed.
End Variance.
