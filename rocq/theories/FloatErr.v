(** * Rounding errors of single operations and of dot products *)
From Coq Require Import ZArith Reals Bool List Lra Lia Psatz.
From Flocq Require Import Core.
From Flocq Require Relative.
From Flocq Require IEEE754.BinarySingleNaN.
Import IEEE754.BinarySingleNaN.
From Verif Require Import Num NumLaws Outcome B64 GeomModel ParamProofs BoxFloat.
Local Open Scope R_scope.

Definition u : R := bpow radix2 (-53).
Lemma u_pos : 0 < u. Proof. apply bpow_gt_0. Qed.
Lemma u_val : u = / 9007199254740992.
Proof. reflexivity. Qed.
#[global] Opaque u.
Lemma u_small : u <= / 9000000000000000.
Proof. rewrite u_val. lra. Qed.

(** [x] is a number, within e of r and of magnitude at most m *)
Definition app (x : b64) (r e m : R) : Prop := is_finite x = true /\ Rabs (B2R x - r) <= e /\ Rabs (B2R x) <= m.

Lemma rnd_u x k : (-900 <= k <= 1000)%Z -> Rabs x <= bpow radix2 k -> Rabs (rnd x - x) <= bpow radix2 k * u /\ Rabs (rnd x) <= bpow radix2 k.
Proof.
  intros Hk H. split.
  - assert (X := rnd_err_small x k ltac:(lia) H). unfold Zminus in X. rewrite bpow_plus in X. exact X.
  - apply rnd_abs_le; [apply fmt_bpow; lia|exact H].
Qed.
Lemma bpow_big k : (k <= 1000)%Z -> bpow radix2 k <= big.
Proof. intros. apply bpow_le. lia. Qed.

Lemma add_u k (x y : b64) : (-900 <= k <= 1000)%Z -> is_finite x = true -> is_finite y = true -> Rabs (B2R x + B2R y) <= bpow radix2 k ->
  app (nadd x y) (B2R x + B2R y) (bpow radix2 k * u) (bpow radix2 k).
Proof.
  intros Hk Fx Fy H. destruct (badd_correct x y Fx Fy) as [F E]; [eapply Rle_trans; [exact H|apply bpow_big; lia]|].
  destruct (rnd_u _ k Hk H) as [E1 E2]. rewrite <- E in E1, E2. split; [exact F|]. split; [exact E1|exact E2].
Qed.
Lemma sub_u k (x y : b64) : (-900 <= k <= 1000)%Z -> is_finite x = true -> is_finite y = true -> Rabs (B2R x - B2R y) <= bpow radix2 k ->
  app (nsub x y) (B2R x - B2R y) (bpow radix2 k * u) (bpow radix2 k).
Proof.
  intros Hk Fx Fy H. destruct (bsub_correct x y Fx Fy) as [F E]; [eapply Rle_trans; [exact H|apply bpow_big; lia]|].
  destruct (rnd_u _ k Hk H) as [E1 E2]. rewrite <- E in E1, E2. split; [exact F|]. split; [exact E1|exact E2].
Qed.
Lemma mul_u k (x y : b64) : (-900 <= k <= 1000)%Z -> is_finite x = true -> is_finite y = true -> Rabs (B2R x * B2R y) <= bpow radix2 k ->
  app (nmul x y) (B2R x * B2R y) (bpow radix2 k * u) (bpow radix2 k).
Proof.
  intros Hk Fx Fy H. destruct (bmul_correct x y Fx Fy) as [F E]; [eapply Rle_trans; [exact H|apply bpow_big; lia]|].
  destruct (rnd_u _ k Hk H) as [E1 E2]. rewrite <- E in E1, E2. split; [exact F|]. split; [exact E1|exact E2].
Qed.
Lemma div_u k (x y : b64) : (-900 <= k <= 1000)%Z -> is_finite x = true -> B2R y <> 0 -> Rabs (B2R x / B2R y) <= bpow radix2 k ->
  app (ndiv x y) (B2R x / B2R y) (bpow radix2 k * u) (bpow radix2 k).
Proof.
  intros Hk Fx Ny H. destruct (bdiv_correct x y Fx Ny) as [F E]; [eapply Rle_trans; [exact H|apply bpow_big; lia]|].
  destruct (rnd_u _ k Hk H) as [E1 E2]. rewrite <- E in E1, E2. split; [exact F|]. split; [exact E1|exact E2].
Qed.
Lemma sqrt_R (x : b64) : is_finite x = true -> 0 <= B2R x -> is_finite (nsqrt x) = true /\ B2R (nsqrt x) = rnd (sqrt (B2R x)).
Proof.
  intros F P. destruct (Bsqrt_correct 53 1024 Hprec64 Hmax64 mode_NE x) as (E & G & _). change (nsqrt x) with (Bsqrt mode_NE x). split; [|exact E].
  rewrite G. destruct x as [s|s| |s m e p]; auto. destruct s; [|reflexivity]. exfalso. cbn in P. unfold F2R in P. cbn in P.
  assert (0 < bpow radix2 e) by apply bpow_gt_0. assert (IZR (Z.neg m) < 0) by (apply IZR_lt; reflexivity). nra.
Qed.
Lemma sqrt_u k (x : b64) : (-900 <= k <= 1000)%Z -> is_finite x = true -> 0 <= B2R x -> sqrt (B2R x) <= bpow radix2 k ->
  app (nsqrt x) (sqrt (B2R x)) (bpow radix2 k * u) (bpow radix2 k) /\ 0 <= B2R (nsqrt x).
Proof.
  intros Hk F P H. destruct (sqrt_R x F P) as [G E]. assert (0 <= sqrt (B2R x)) by apply sqrt_pos.
  destruct (rnd_u (sqrt (B2R x)) k Hk) as [E1 E2]; [rewrite Rabs_pos_eq; assumption|]. rewrite <- E in E1, E2. split; [split; [exact G|split; [exact E1|exact E2]]|].
  rewrite E. apply rnd_nonneg. assumption.
Qed.
Lemma opp_R (x : b64) : is_finite (nopp x) = is_finite x /\ B2R (nopp x) = - B2R x.
Proof. split; [apply is_finite_Bopp|apply B2R_Bopp]. Qed.
Lemma one_mul (x : b64) : is_finite x = true -> Rabs (B2R x) <= bpow radix2 1000 -> is_finite (nmul (nofZ 1) x) = true /\ B2R (nmul (nofZ 1) x) = B2R x.
Proof.
  intros F H. destruct one_b as [F1 E1]. destruct (bmul_correct (nofZ 1) x F1 F) as [G E].
  - rewrite E1, Rmult_1_l. eapply Rle_trans; [exact H|apply bpow_big; lia].
  - split; [exact G|]. rewrite E, E1, Rmult_1_l. apply rnd_id, fmt_B2R.
Qed.
Lemma Z_b k : (Z.abs k <= 2 ^ 53)%Z -> is_finite (nofZ k : b64) = true /\ B2R (nofZ k : b64) = IZR k.
Proof. apply bofZ_correct. Qed.

Lemma app_le x r e m e' m' : app x r e m -> e <= e' -> m <= m' -> app x r e' m'.
Proof. intros (F & A & B) H1 H2. split; [exact F|]. split; lra. Qed.
Lemma app_abs x r e m : app x r e m -> - m <= B2R x <= m /\ - e <= B2R x - r <= e.
Proof. intros (_ & A & B). apply Rabs_le_inv in A, B. lra. Qed.

(** sum of three products of magnitude at most 2^k *)
Lemma dot_u k (x0 x1 x2 y0 y1 y2 : b64) : (-900 <= k <= 900)%Z ->
  is_finite x0 = true -> is_finite x1 = true -> is_finite x2 = true -> is_finite y0 = true -> is_finite y1 = true -> is_finite y2 = true ->
  Rabs (B2R x0 * B2R y0) <= bpow radix2 k -> Rabs (B2R x1 * B2R y1) <= bpow radix2 k -> Rabs (B2R x2 * B2R y2) <= bpow radix2 k ->
  app (nadd (nadd (nmul x0 y0) (nmul x1 y1)) (nmul x2 y2)) (B2R x0 * B2R y0 + B2R x1 * B2R y1 + B2R x2 * B2R y2) (9 * bpow radix2 k * u) (4 * bpow radix2 k).
Proof.
  intros Hk F0 F1 F2 G0 G1 G2 H0 H1 H2.
  assert (P : forall j, bpow radix2 (k + j) = bpow radix2 j * bpow radix2 k) by (intros; rewrite bpow_plus; ring).
  assert (P1 := P 1%Z). assert (P2 := P 2%Z). change (bpow radix2 1) with 2 in P1. change (bpow radix2 2) with 4 in P2.
  assert (Pk : 0 < bpow radix2 k) by apply bpow_gt_0. assert (U := u_pos).
  destruct (mul_u k x0 y0 ltac:(lia) F0 G0 H0) as (Fa & Ea & Ma). destruct (mul_u k x1 y1 ltac:(lia) F1 G1 H1) as (Fb & Eb & Mb).
  destruct (mul_u k x2 y2 ltac:(lia) F2 G2 H2) as (Fc & Ec & Mc).
  destruct (add_u (k + 1) (nmul x0 y0) (nmul x1 y1) ltac:(lia) Fa Fb) as (Fs & Es & Ms).
  { rewrite P1. eapply Rle_trans; [apply Rabs_triang|]. lra. }
  destruct (add_u (k + 2) (nadd (nmul x0 y0) (nmul x1 y1)) (nmul x2 y2) ltac:(lia) Fs Fc) as (Ft & Et & Mt).
  { rewrite P1 in Ms. rewrite P2. eapply Rle_trans; [apply Rabs_triang|]. lra. }
  rewrite P1 in Es, Ms. rewrite P2 in Et, Mt.
  split; [exact Ft|]. split; [|exact Mt].
  apply Rabs_le_inv in Ea, Eb, Ec, Es, Et. apply Rabs_le.
  assert (0 < bpow radix2 k * u) by (apply Rmult_lt_0_compat; assumption). lra.
Qed.
Lemma vdot_u k (x y : vec b64) : (-900 <= k <= 900)%Z ->
  is_finite (vx x) = true -> is_finite (vy x) = true -> is_finite (vz x) = true -> is_finite (vx y) = true -> is_finite (vy y) = true -> is_finite (vz y) = true ->
  Rabs (B2R (vx x) * B2R (vx y)) <= bpow radix2 k -> Rabs (B2R (vy x) * B2R (vy y)) <= bpow radix2 k -> Rabs (B2R (vz x) * B2R (vz y)) <= bpow radix2 k ->
  app (vdot x y) (B2R (vx x) * B2R (vx y) + B2R (vy x) * B2R (vy y) + B2R (vz x) * B2R (vz y)) (9 * bpow radix2 k * u) (4 * bpow radix2 k).
Proof. intros. apply dot_u; assumption. Qed.

(** ** Relative errors *)
Lemma rnd_rel x : bpow radix2 (-1000) <= Rabs x -> exists e, Rabs e <= u /\ rnd x = x * (1 + e).
Proof.
  intros H. destruct (Relative.relative_error_N_FLT_ex radix2 (-1074) 53 ltac:(lia) (fun z => negb (Z.even z)) x) as (e & He & E).
  - eapply Rle_trans; [|exact H]. apply bpow_le. lia.
  - exists e. split; [|exact E]. replace u with (/ 2 * bpow radix2 (-53 + 1)); [exact He|].
    change (-53 + 1)%Z with (1 + -53)%Z. rewrite bpow_plus. change (bpow radix2 1) with 2. change (bpow radix2 (-53)) with (/ 9007199254740992). rewrite u_val. lra.
Qed.

(** ** Normalized *)
Lemma add_rel x y : 0 <= x -> 0 <= y -> exists e, Rabs e <= u /\ Rabs (rnd (x + y) - (x + y) * (1 + e)) <= bpow radix2 (-1075).
Proof.
  intros Hx Hy. destruct (rnd_eps (x + y)) as (e & n & He & Hn & E). exists e. split.
  - change (bpow radix2 (-53)) with (/ 9007199254740992) in He. rewrite u_val. exact He.
  - rewrite E. replace (_ - _) with n by ring. exact Hn.
Qed.
Lemma mul_rel x y : exists e n, Rabs e <= u /\ Rabs n <= bpow radix2 (-1075) /\ rnd (x * y) = x * y * (1 + e) + n.
Proof.
  destruct (rnd_eps (x * y)) as (e & n & He & Hn & E). exists e, n. split; [|auto].
  change (bpow radix2 (-53)) with (/ 9007199254740992) in He. rewrite u_val. exact He.
Qed.
Lemma rnd_mn x : 0 <= x -> x * (1 - u) - bpow radix2 (-1075) <= rnd x <= x * (1 + u) + bpow radix2 (-1075).
Proof.
  intros Hx. destruct (rnd_eps x) as (e & n & He & Hn & E). change (bpow radix2 (-53)) with (/ 9007199254740992) in He. rewrite <- u_val in He.
  apply Rabs_le_inv in He, Hn. rewrite E. nra.
Qed.

(** facts about plain reals *)
Lemma sqrt_near N N2 q h : 0 < h <= / 1000 -> 0 < N -> N * N = N2 -> N2 * (1 - 4 * h) <= q <= N2 * (1 + 4 * h) -> N * (1 - 3 * h) <= sqrt q <= N * (1 + 2 * h).
Proof.
  intros H NP NS Hq. assert (0 < N2) by (rewrite <- NS; nra). assert (0 <= h * h) by nra. split.
  - rewrite <- (sqrt_Rsqr (N * (1 - 3 * h))) by nra. apply sqrt_le_1_alt. unfold Rsqr.
    replace (N * (1 - 3 * h) * (N * (1 - 3 * h))) with (N * N * (1 - 6 * h + 9 * (h * h))) by ring. rewrite NS. apply Rle_trans with (N2 * (1 - 4 * h)); [|lra]. apply Rmult_le_compat_l; nra.
  - rewrite <- (sqrt_Rsqr (N * (1 + 2 * h))) by nra. apply sqrt_le_1_alt. unfold Rsqr.
    replace (N * (1 + 2 * h) * (N * (1 + 2 * h))) with (N * N * (1 + 4 * h + 4 * (h * h))) by ring. rewrite NS. apply Rle_trans with (N2 * (1 + 4 * h)); [lra|]. apply Rmult_le_compat_l; nra.
Qed.
Lemma rel_near N s e h : 0 < h <= / 1000 -> 0 < N -> N * (1 - 3 * h) <= s <= N * (1 + 2 * h) -> - h <= e <= h -> N * (1 - 4 * h) <= s * (1 + e) <= N * (1 + 4 * h).
Proof.
  intros H NP Hs He. split.
  - apply Rle_trans with (N * (1 - 3 * h) * (1 - h)); [|apply Rmult_le_compat; nra]. rewrite Rmult_assoc. apply Rmult_le_compat_l; nra.
  - apply Rle_trans with (N * (1 + 2 * h) * (1 + h)); [apply Rmult_le_compat; nra|]. rewrite Rmult_assoc. apply Rmult_le_compat_l; nra.
Qed.
Lemma inv_near N V e h : 0 < h <= / 1000 -> 0 < N -> N * (1 - 4 * h) <= V <= N * (1 + 4 * h) -> - h <= e <= h -> 1 - 6 * h <= 1 / V * (1 + e) * N <= 1 + 6 * h.
Proof.
  intros H NP HV He. assert (Vp : 0 < V) by nra. replace (1 / V * (1 + e) * N) with (N * (1 + e) / V) by (field; lra). split.
  - apply Rmult_le_reg_r with V; [exact Vp|]. unfold Rdiv. rewrite (Rmult_assoc (N * (1 + e))), Rinv_l, Rmult_1_r by lra.
    apply Rle_trans with ((1 - 6 * h) * (N * (1 + 4 * h))); [apply Rmult_le_compat_l; lra|].
    replace ((1 - 6 * h) * (N * (1 + 4 * h))) with (N * ((1 - 6 * h) * (1 + 4 * h))) by ring. apply Rmult_le_compat_l; nra.
  - apply Rmult_le_reg_r with V; [exact Vp|]. unfold Rdiv. rewrite (Rmult_assoc (N * (1 + e))), Rinv_l, Rmult_1_r by lra.
    apply Rle_trans with ((1 + 6 * h) * (N * (1 - 4 * h))); [|apply Rmult_le_compat_l; lra].
    replace ((1 + 6 * h) * (N * (1 - 4 * h))) with (N * ((1 + 6 * h) * (1 - 4 * h))) by ring. apply Rmult_le_compat_l; nra.
Qed.
Lemma half_up b N h : 0 < h <= / 1000 -> 0 < b -> b <= N -> b * / 2 <= N * (1 - 4 * h).
Proof. intros. apply Rmult_le_compat; lra. Qed.
Lemma half_up3 b N h : 0 < h <= / 1000 -> 0 < b -> b <= N -> b * / 2 <= N * (1 - 3 * h).
Proof. intros. apply Rmult_le_compat; lra. Qed.
Lemma double_up b N h : 0 < h <= / 1000 -> 0 < N -> N <= b -> N * (1 + 4 * h) <= b * 2.
Proof. intros. apply Rmult_le_compat; lra. Qed.
Lemma comp_near a N : 0 < N -> a * a <= N * N -> Rabs (a / N) <= 1.
Proof.
  intros NP H. apply Rabs_le. split.
  - apply Rmult_le_reg_r with N; [exact NP|]. unfold Rdiv. rewrite Rmult_assoc, Rinv_l by lra. nra.
  - apply Rmult_le_reg_r with N; [exact NP|]. unfold Rdiv. rewrite Rmult_assoc, Rinv_l by lra. nra.
Qed.
Lemma scaled_near t p y h : 0 < h <= / 1000 -> -1 <= t <= 1 -> 1 - 6 * h <= p <= 1 + 6 * h -> - (2 * h) <= y - t * p <= 2 * h -> - (8 * h) <= y - t <= 8 * h.
Proof. intros H Ht Hp Hy. assert (- (6 * h) <= t * (p - 1) <= 6 * h) by (split; nra). replace (y - t) with (y - t * p + t * (p - 1)) by ring. lra. Qed.
Lemma prod_le2 t p h : 0 < h <= / 1000 -> Rabs t <= 1 -> 1 - 6 * h <= p <= 1 + 6 * h -> Rabs (t * p) <= 2.
Proof. intros H Ht Hp. rewrite Rabs_mult. apply Rle_trans with (1 * Rabs p); [apply Rmult_le_compat_r; [apply Rabs_pos|exact Ht]|]. rewrite Rabs_pos_eq; lra. Qed.
Lemma unit_near x y z a b c h : 0 < h <= / 1000 -> x * x + y * y + z * z = 1 -> -1 <= x <= 1 -> -1 <= y <= 1 -> -1 <= z <= 1 ->
  - (8 * h) <= a - x <= 8 * h -> - (8 * h) <= b - y <= 8 * h -> - (8 * h) <= c - z <= 8 * h -> Rabs (a * a + b * b + c * c - 1) <= 100 * h.
Proof.
  intros H E C1 C2 C3 A1 A2 A3. apply Rabs_le.
  assert (G : forall p q, -1 <= q <= 1 -> - (8 * h) <= p - q <= 8 * h -> - (17 * h) <= p * p - q * q <= 17 * h).
  { intros p q Q P. replace (p * p - q * q) with ((p - q) * (p - q) + 2 * ((p - q) * q)) by ring.
    set (d := p - q) in *. clearbody d. clear - H P Q.
    assert (0 <= d * d) by nra. assert (d * d <= 64 * (h * h)) by (assert (0 <= (8 * h - d) * (8 * h + d)) by (apply Rmult_le_pos; lra); lra).
    assert (- (8 * h) <= d * q <= 8 * h) by (split; nra). assert (h * h <= h / 1000) by nra. lra. }
  assert (G1 := G a x C1 A1). assert (G2 := G b y C2 A2). assert (G3 := G c z C3 A3). lra.
Qed.
Lemma u_ok : 0 < u <= / 1000.
Proof. assert (U := u_pos). assert (U2 := u_small). lra. Qed.

Section Norm.
  Variable w : vec b64.
  Hypothesis Fw : is_finite (vx w) = true /\ is_finite (vy w) = true /\ is_finite (vz w) = true.
  Let X := B2R (vx w). Let Y := B2R (vy w). Let W := B2R (vz w).
  Hypothesis Hi : Rabs X <= bpow radix2 400 /\ Rabs Y <= bpow radix2 400 /\ Rabs W <= bpow radix2 400.
  Let N2 := X * X + Y * Y + W * W.
  Hypothesis Lo : bpow radix2 (-800) <= N2.
  Let N := sqrt N2.

  Lemma len2_rel : let q := nadd (nadd (nmul (vx w) (vx w)) (nmul (vy w) (vy w))) (nmul (vz w) (vz w)) in
    is_finite q = true /\ N2 * (1 - 4 * u) <= B2R q <= N2 * (1 + 4 * u).
  Proof.
    intros q. destruct Fw as (F1 & F2 & F3). destruct Hi as (H1 & H2 & H3).
    assert (Sq : forall a, Rabs a <= bpow radix2 400 -> Rabs (a * a) <= bpow radix2 800).
    { intros a Ha. rewrite Rabs_mult. change 800%Z with (400 + 400)%Z. rewrite bpow_plus. apply Rmult_le_compat; auto using Rabs_pos. }
    destruct (dot_u 800 (vx w) (vy w) (vz w) (vx w) (vy w) (vz w)) as (Fq & _ & _); auto; [lia|]. fold q in Fq. split; [exact Fq|].
    destruct (mul_u 800 (vx w) (vx w) ltac:(lia) F1 F1 (Sq X H1)) as (Fa & _ & Ma).
    destruct (mul_u 800 (vy w) (vy w) ltac:(lia) F2 F2 (Sq Y H2)) as (Fb & _ & Mb).
    destruct (mul_u 800 (vz w) (vz w) ltac:(lia) F3 F3 (Sq W H3)) as (Fc & _ & Mc).
    assert (B8 : bpow radix2 801 = 2 * bpow radix2 800) by (change 801%Z with (1 + 800)%Z; rewrite bpow_plus; reflexivity).
    assert (B9 : bpow radix2 802 = 4 * bpow radix2 800) by (change 802%Z with (2 + 800)%Z; rewrite bpow_plus; reflexivity).
    assert (Ea : B2R (nmul (vx w) (vx w)) = rnd (X * X)) by (apply bmul_correct; auto; eapply Rle_trans; [apply (Sq X H1)|apply bpow_big; lia]).
    assert (Eb : B2R (nmul (vy w) (vy w)) = rnd (Y * Y)) by (apply bmul_correct; auto; eapply Rle_trans; [apply (Sq Y H2)|apply bpow_big; lia]).
    assert (Ec : B2R (nmul (vz w) (vz w)) = rnd (W * W)) by (apply bmul_correct; auto; eapply Rle_trans; [apply (Sq W H3)|apply bpow_big; lia]).
    set (a := nmul (vx w) (vx w)) in *. set (b := nmul (vy w) (vy w)) in *. set (c := nmul (vz w) (vz w)) in *.
    assert (Hab : Rabs (B2R a + B2R b) <= bpow radix2 801) by (rewrite B8; eapply Rle_trans; [apply Rabs_triang|]; lra).
    assert (Es : is_finite (nadd a b) = true /\ B2R (nadd a b) = rnd (B2R a + B2R b)) by (apply badd_correct; auto; eapply Rle_trans; [apply Hab|apply bpow_big; lia]).
    destruct Es as [Fs Es]. destruct (add_u 801 a b ltac:(lia) Fa Fb Hab) as (_ & _ & Ms).
    assert (Hsc : Rabs (B2R (nadd a b) + B2R c) <= bpow radix2 802) by (rewrite B9; rewrite B8 in Ms; eapply Rle_trans; [apply Rabs_triang|]; clear - Ms Mc; assert (0 < bpow radix2 800) by apply bpow_gt_0; generalize dependent (bpow radix2 800); intros; lra).
    assert (Et : B2R q = rnd (B2R (nadd a b) + B2R c)) by (apply badd_correct; auto; eapply Rle_trans; [apply Hsc|apply bpow_big; lia]).
    assert (PX : 0 <= X * X) by (apply Rle_0_sqr). assert (PY : 0 <= Y * Y) by (apply Rle_0_sqr). assert (PZ : 0 <= W * W) by (apply Rle_0_sqr).
    assert (Ra := rnd_mn _ PX). assert (Rb := rnd_mn _ PY). assert (Rc := rnd_mn _ PZ). rewrite <- Ea in Ra. rewrite <- Eb in Rb. rewrite <- Ec in Rc.
    assert (P1 : 0 <= B2R a) by (rewrite Ea; apply rnd_nonneg, PX). assert (P2 : 0 <= B2R b) by (rewrite Eb; apply rnd_nonneg, PY). assert (P3 : 0 <= B2R c) by (rewrite Ec; apply rnd_nonneg, PZ).
    assert (P4 : 0 <= B2R (nadd a b)) by (rewrite Es; apply rnd_nonneg, Rplus_le_le_0_compat; assumption).
    assert (Rs := rnd_mn (B2R a + B2R b) (Rplus_le_le_0_compat _ _ P1 P2)). rewrite <- Es in Rs.
    assert (Rt := rnd_mn (B2R (nadd a b) + B2R c) (Rplus_le_le_0_compat _ _ P4 P3)). rewrite <- Et in Rt.
    clear - Lo Ra Rb Rc Rs Rt P1 P2 P3 P4 PX PY PZ.
    set (n := bpow radix2 (-1075)) in *.
    assert (Hn : 100 * n <= u * N2).
    { assert (U := u_pos). apply Rle_trans with (u * bpow radix2 (-800)); [|apply Rmult_le_compat_l; [apply Rlt_le, U|exact Lo]].
      apply Rle_trans with (bpow radix2 7 * n); [change (bpow radix2 7) with 128; apply Rmult_le_compat_r; [apply bpow_ge_0|]; clear; lra|].
      unfold n. Transparent u. unfold u. Opaque u. rewrite <- !bpow_plus. apply bpow_le. lia. }
    assert (0 < n) by apply bpow_gt_0. clear Lo. clearbody n. assert (U := u_pos). assert (U2 := u_small).
    assert (U3 : u * u <= u / 1000) by nra. assert (U4 : u * u * u <= u / 1000000) by nra. assert (0 < u * u) by nra. assert (0 < u * u * u) by nra.
    unfold N2 in *. set (x := X * X) in *. set (y := Y * Y) in *. set (z := W * W) in *. 
    set (a' := B2R a) in *. set (b' := B2R b) in *. set (c' := B2R c) in *. set (s' := B2R (nadd a b)) in *. set (q' := B2R q) in *.
    clearbody x y z a' b' c' s' q'. generalize dependent u. intros u; intros.
    split.
    - apply Rle_trans with ((s' + c') * (1 - u) - n); [|lra].
      apply Rle_trans with ((((a' + b') * (1 - u) - n) + c') * (1 - u) - n); [|nra].
      apply Rle_trans with ((((x * (1 - u) - n + (y * (1 - u) - n)) * (1 - u) - n) + (z * (1 - u) - n)) * (1 - u) - n); [|].
      + nra.
      + assert (0 <= (1 - u)) by lra. assert ((x * (1 - u) - n + (y * (1 - u) - n)) * (1 - u) <= (a' + b') * (1 - u)) by (apply Rmult_le_compat_r; lra).
        apply Rplus_le_compat_r. apply Rmult_le_compat_r; lra.
    - apply Rle_trans with ((s' + c') * (1 + u) + n); [lra|].
      apply Rle_trans with ((((a' + b') * (1 + u) + n) + c') * (1 + u) + n); [nra|].
      apply Rle_trans with ((((x * (1 + u) + n + (y * (1 + u) + n)) * (1 + u) + n) + (z * (1 + u) + n)) * (1 + u) + n); [|].
      + assert (0 <= (1 + u)) by lra. assert ((a' + b') * (1 + u) <= (x * (1 + u) + n + (y * (1 + u) + n)) * (1 + u)) by (apply Rmult_le_compat_r; lra).
        apply Rplus_le_compat_r. apply Rmult_le_compat_r; lra.
      + nra.
  Qed.

  Lemma N2_pos : 0 < N2.
  Proof. eapply Rlt_le_trans; [|exact Lo]. apply bpow_gt_0. Qed.
  Lemma N_pos : 0 < N.
  Proof. apply sqrt_lt_R0, N2_pos. Qed.
  Lemma N_sq : N * N = N2.
  Proof. apply sqrt_sqrt. apply Rlt_le, N2_pos. Qed.
  Lemma N_bounds : bpow radix2 (-400) <= N <= bpow radix2 401.
  Proof.
    split.
    - unfold N. rewrite <- (sqrt_Rsqr (bpow radix2 (-400))) by apply bpow_ge_0. apply sqrt_le_1_alt. unfold Rsqr. rewrite <- bpow_plus. exact Lo.
    - unfold N. rewrite <- (sqrt_Rsqr (bpow radix2 401)) by apply bpow_ge_0. apply sqrt_le_1_alt. unfold Rsqr.
      assert (Sq : forall a, Rabs a <= bpow radix2 400 -> a * a <= bpow radix2 800).
      { intros a Ha. rewrite <- (Rabs_pos_eq (a * a)) by apply Rle_0_sqr. rewrite Rabs_mult. change 800%Z with (400 + 400)%Z. rewrite bpow_plus. apply Rmult_le_compat; auto using Rabs_pos. }
      destruct Hi as (H1 & H2 & H3). apply Sq in H1, H2, H3. rewrite <- bpow_plus. change (401 + 401)%Z with (2 + 800)%Z. rewrite bpow_plus. change (bpow radix2 2) with 4.
      unfold N2. clear - H1 H2 H3. assert (0 < bpow radix2 800) by apply bpow_gt_0. generalize dependent (bpow radix2 800). intros. lra.
  Qed.
  Lemma inv_len : let s := ndiv (nofZ 1) (nsqrt (nadd (nadd (nmul (vx w) (vx w)) (nmul (vy w) (vy w))) (nmul (vz w) (vz w)))) in
    is_finite s = true /\ 1 - 6 * u <= B2R s * N <= 1 + 6 * u.
  Proof.
    intros s. destruct len2_rel as [Fq Hq]. set (q := nadd (nadd (nmul (vx w) (vx w)) (nmul (vy w) (vy w))) (nmul (vz w) (vz w))) in *.
    assert (U := u_ok). assert (NP := N_pos). assert (NS := N_sq). destruct N_bounds as [NB1 NB2].
    assert (R1 := sqrt_near N N2 (B2R q) u U NP NS Hq).
    assert (P4 : 0 < bpow radix2 (-400)) by apply bpow_gt_0.
    assert (Sp : bpow radix2 (-401) <= sqrt (B2R q)).
    { change (-401)%Z with (-400 + -1)%Z. rewrite bpow_plus. change (bpow radix2 (-1)) with (/ 2). eapply Rle_trans; [apply (half_up3 _ N u U P4 NB1)|apply R1]. }
    assert (Qp : 0 <= B2R q).
    { destruct (Rle_lt_dec 0 (B2R q)) as [L|L]; [exact L|exfalso]. rewrite sqrt_neg_0 in Sp by (apply Rlt_le, L). apply (Rlt_irrefl 0). eapply Rlt_le_trans; [apply (bpow_gt_0 radix2 (-401))|exact Sp]. }
    destruct (sqrt_R q Fq Qp) as [Fv Ev]. set (v := nsqrt q) in *.
    destruct (rnd_rel (sqrt (B2R q))) as (e1 & He1 & Q1).
    { rewrite Rabs_pos_eq by apply sqrt_pos. eapply Rle_trans; [|exact Sp]. apply bpow_le. lia. }
    rewrite Q1 in Ev. apply Rabs_le_inv in He1.
    assert (R2 := rel_near N _ e1 u U NP R1 He1). rewrite <- Ev in R2.
    assert (VL : bpow radix2 (-401) <= B2R v).
    { change (-401)%Z with (-400 + -1)%Z. rewrite bpow_plus. change (bpow radix2 (-1)) with (/ 2). eapply Rle_trans; [apply (half_up _ N u U P4 NB1)|apply R2]. }
    assert (Vp : 0 < B2R v) by (eapply Rlt_le_trans; [apply bpow_gt_0|exact VL]).
    assert (V2 : / B2R v <= bpow radix2 401).
    { apply Rle_trans with (/ bpow radix2 (-401)); [|rewrite <- bpow_opp; apply bpow_le; lia]. apply Rinv_le; [apply bpow_gt_0|exact VL]. }
    destruct one_b as [F1 E1].
    destruct (bdiv_correct (nofZ 1) v F1) as [Fs Es]; [apply Rgt_not_eq; exact Vp| |].
    { rewrite E1. unfold Rdiv. rewrite Rmult_1_l, Rabs_pos_eq; [|apply Rlt_le, Rinv_0_lt_compat, Vp]. eapply Rle_trans; [exact V2|apply bpow_big; lia]. }
    fold s in Fs, Es. rewrite E1 in Es. split; [exact Fs|].
    destruct (rnd_rel (1 / B2R v)) as (e2 & He2 & Q2).
    { unfold Rdiv. rewrite Rmult_1_l, Rabs_pos_eq; [|apply Rlt_le, Rinv_0_lt_compat, Vp].
      apply Rle_trans with (/ bpow radix2 402); [rewrite <- bpow_opp; apply bpow_le; lia|]. apply Rinv_le; [exact Vp|].
      change 402%Z with (401 + 1)%Z. rewrite bpow_plus. change (bpow radix2 1) with 2. eapply Rle_trans; [apply R2|]. apply double_up; assumption. }
    rewrite Q2 in Es. rewrite Es. apply Rabs_le_inv in He2. apply inv_near; assumption.
  Qed.

  Lemma comp_le : Rabs (X / N) <= 1 /\ Rabs (Y / N) <= 1 /\ Rabs (W / N) <= 1.
  Proof.
    assert (NP := N_pos). assert (NS := N_sq). unfold N2 in NS.
    assert (PX : 0 <= X * X) by (apply Rle_0_sqr). assert (PY : 0 <= Y * Y) by (apply Rle_0_sqr). assert (PW : 0 <= W * W) by (apply Rle_0_sqr).
    split; [|split]; apply comp_near; try exact NP; rewrite NS.
    - rewrite Rplus_assoc. rewrite <- (Rplus_0_r (X * X)) at 1. apply Rplus_le_compat_l, Rplus_le_le_0_compat; assumption.
    - rewrite (Rplus_comm (X * X)), Rplus_assoc. rewrite <- (Rplus_0_r (Y * Y)) at 1. apply Rplus_le_compat_l, Rplus_le_le_0_compat; assumption.
    - rewrite <- (Rplus_0_l (W * W)) at 1. apply Rplus_le_compat_r, Rplus_le_le_0_compat; assumption.
  Qed.
  Lemma scaled (x : b64) (s : b64) : is_finite x = true -> is_finite s = true -> Rabs (B2R x / N) <= 1 -> 1 - 6 * u <= B2R s * N <= 1 + 6 * u ->
    app (nmul x s) (B2R x / N) (8 * u) 2.
  Proof.
    intros Fx Fs Hx Hs. assert (NP := N_pos). assert (U := u_ok).
    assert (E : B2R x * B2R s = B2R x / N * (B2R s * N)) by (field; apply Rgt_not_eq, NP).
    assert (Hm : Rabs (B2R x * B2R s) <= 2) by (rewrite E; eapply prod_le2; eassumption).
    destruct (mul_u 1 x s ltac:(lia) Fx Fs Hm) as (F & A & B). change (bpow radix2 1) with 2 in *. split; [exact F|]. split; [|exact B].
    apply Rabs_le_inv in A, Hx. rewrite E in A. apply Rabs_le. eapply scaled_near; eassumption.
  Qed.
  Lemma norm_u : app (vx (vnormalized w)) (X / N) (8 * u) 2 /\ app (vy (vnormalized w)) (Y / N) (8 * u) 2 /\ app (vz (vnormalized w)) (W / N) (8 * u) 2.
  Proof.
    destruct inv_len as [Fs Hs]. destruct comp_le as (C1 & C2 & C3). destruct Fw as (F1 & F2 & F3).
    unfold vnormalized. cbn [vx vy vz]. split; [|split]; apply scaled; assumption.
  Qed.
  Lemma comp_one : X / N * (X / N) + Y / N * (Y / N) + W / N * (W / N) = 1.
  Proof.
    assert (NP := N_pos). assert (NS := N_sq). unfold N2 in NS.
    replace (X / N * (X / N) + Y / N * (Y / N) + W / N * (W / N)) with ((X * X + Y * Y + W * W) / (N * N)) by (field; apply Rgt_not_eq, NP).
    rewrite NS. apply Rinv_r. apply Rgt_not_eq, N2_pos.
  Qed.
  Lemma norm_unit : let n := vnormalized w in
    Rabs (B2R (vx n) * B2R (vx n) + B2R (vy n) * B2R (vy n) + B2R (vz n) * B2R (vz n) - 1) <= 100 * u.
  Proof.
    intros n. destruct norm_u as ((_ & A1 & _) & (_ & A2 & _) & (_ & A3 & _)). fold n in A1, A2, A3. destruct comp_le as (C1 & C2 & C3).
    apply Rabs_le_inv in A1, A2, A3, C1, C2, C3. eapply unit_near; [exact u_ok|exact comp_one| | | | | |]; assumption.
  Qed.
End Norm.
