(** * Rotations and camera rays in double precision *)
From Coq Require Import ZArith Reals Bool List Lra Lia Psatz.
From Flocq Require Import Core.
From Flocq Require IEEE754.BinarySingleNaN.
Import IEEE754.BinarySingleNaN.
From Verif Require Import Num NumLaws Outcome B64 GeomModel GeomSpec SeqModel ObjModel TreeModel SceneModel ParamProofs FloatSpec BoxFloat FloatErr SphereFloat NormFloat RectFloat ScatterSpec CosFloat CheckModel CheckProofs CtxProofs TextureProofs TurnSpec.
Local Open Scope R_scope.

(** ** Matrices with nearly orthonormal columns *)
Definition ortho (e : R) (m : matrix b64) : Prop :=
  fin3' (m0 m) /\ fin3' (m1 m) /\ fin3' (m2 m) /\
  Rabs (rdot (m0 m) (m0 m) - 1) <= e /\ Rabs (rdot (m1 m) (m1 m) - 1) <= e /\ Rabs (rdot (m2 m) (m2 m) - 1) <= e /\
  Rabs (rdot (m0 m) (m1 m)) <= e /\ Rabs (rdot (m0 m) (m2 m)) <= e /\ Rabs (rdot (m1 m) (m2 m)) <= e.
Lemma unit_small (v : vec b64) : Rabs (rdot v v - 1) <= / 1000 -> small v.
Proof.
  unfold rdot, small. intros H. apply Rabs_le_inv in H. set (a := B2R (vx v)) in *. set (b := B2R (vy v)) in *. set (c := B2R (vz v)) in *. clearbody a b c.
  assert (Q : forall p q r, p * p + q * q + r * r - 1 <= / 1000 -> Rabs p <= 101 / 100).
  { intros p q r K. assert (0 <= q * q) by apply Rle_0_sqr. assert (0 <= r * r) by apply Rle_0_sqr. apply Rabs_le. split; nra. }
  split; [apply (Q a b c); lra|]. split; [apply (Q b a c); lra|apply (Q c a b); lra].
Qed.
Lemma sum_abs p q r : p * p + q * q + r * r <= 1001 / 1000 -> 0 <= Rabs p + Rabs q + Rabs r <= 17335 / 10000.
Proof.
  intros H. assert (A := Rabs_pos p). assert (B := Rabs_pos q). assert (C := Rabs_pos r).
  assert (A2 : Rabs p * Rabs p = p * p) by (rewrite <- Rabs_mult; apply Rabs_pos_eq, Rle_0_sqr). assert (B2 : Rabs q * Rabs q = q * q) by (rewrite <- Rabs_mult; apply Rabs_pos_eq, Rle_0_sqr). assert (C2 : Rabs r * Rabs r = r * r) by (rewrite <- Rabs_mult; apply Rabs_pos_eq, Rle_0_sqr).
  rewrite <- A2, <- B2, <- C2 in H. set (a := Rabs p) in *. set (b := Rabs q) in *. set (c := Rabs r) in *. clearbody a b c. split; [lra|].
  assert (S : (a + b + c) * (a + b + c) <= 3 * (1001 / 1000)).
  { assert (0 <= (a - b) * (a - b)) by apply Rle_0_sqr. assert (0 <= (a - c) * (a - c)) by apply Rle_0_sqr. assert (0 <= (b - c) * (b - c)) by apply Rle_0_sqr. lra. }
  nra.
Qed.
(** the scalar product of two combinations of the columns *)
Lemma gram a0 a1 a2 b0 b1 b2 n0 n1 n2 p q r p' q' r' e : 0 <= e ->
  Rabs (a0 * a0 + a1 * a1 + a2 * a2 - 1) <= e -> Rabs (b0 * b0 + b1 * b1 + b2 * b2 - 1) <= e -> Rabs (n0 * n0 + n1 * n1 + n2 * n2 - 1) <= e ->
  Rabs (a0 * b0 + a1 * b1 + a2 * b2) <= e -> Rabs (a0 * n0 + a1 * n1 + a2 * n2) <= e -> Rabs (b0 * n0 + b1 * n1 + b2 * n2) <= e ->
  p * p + q * q + r * r <= 1001 / 1000 -> p' * p' + q' * q' + r' * r' <= 1001 / 1000 ->
  Rabs ((a0 * p + b0 * q + n0 * r) * (a0 * p' + b0 * q' + n0 * r') + (a1 * p + b1 * q + n1 * r) * (a1 * p' + b1 * q' + n1 * r') + (a2 * p + b2 * q + n2 * r) * (a2 * p' + b2 * q' + n2 * r') - (p * p' + q * q' + r * r')) <= 301 / 100 * e.
Proof.
  intros He UA UB UN AB AN BN S S'. apply sum_abs in S, S'.
  replace ((a0 * p + b0 * q + n0 * r) * (a0 * p' + b0 * q' + n0 * r') + (a1 * p + b1 * q + n1 * r) * (a1 * p' + b1 * q' + n1 * r') + (a2 * p + b2 * q + n2 * r) * (a2 * p' + b2 * q' + n2 * r') - (p * p' + q * q' + r * r')) with
    (p * p' * (a0 * a0 + a1 * a1 + a2 * a2 - 1) + q * q' * (b0 * b0 + b1 * b1 + b2 * b2 - 1) + r * r' * (n0 * n0 + n1 * n1 + n2 * n2 - 1) + (p * q') * (a0 * b0 + a1 * b1 + a2 * b2) + (q * p') * (a0 * b0 + a1 * b1 + a2 * b2)
     + (p * r') * (a0 * n0 + a1 * n1 + a2 * n2) + (r * p') * (a0 * n0 + a1 * n1 + a2 * n2) + (q * r') * (b0 * n0 + b1 * n1 + b2 * n2) + (r * q') * (b0 * n0 + b1 * n1 + b2 * n2)) by ring.
  assert (PR : forall s t k, Rabs k <= e -> - (Rabs s * Rabs t * e) <= s * t * k <= Rabs s * Rabs t * e).
  { intros s t k K. apply pb; [|exact K]. rewrite Rabs_mult. apply Rle_refl. }
  assert (G1 := PR p p' _ UA). assert (G2 := PR q q' _ UB). assert (G3 := PR r r' _ UN). assert (G4 := PR p q' _ AB). assert (G5 := PR q p' _ AB). assert (G6 := PR p r' _ AN). assert (G7 := PR r p' _ AN). assert (G8 := PR q r' _ BN). assert (G9 := PR r q' _ BN).
  assert (M : (Rabs p + Rabs q + Rabs r) * (Rabs p' + Rabs q' + Rabs r') * e <= 301 / 100 * e).
  { apply Rmult_le_compat_r; [exact He|]. apply Rle_trans with (17335 / 10000 * (17335 / 10000)); [apply Rmult_le_compat; apply S || apply S'|lra]. }
  apply Rabs_le. lra.
Qed.
(** three sums of three products *)
Definition near3 (d : vec b64) (f0 f1 f2 : R) : Prop := fin3' d /\ Rabs (B2R (vx d) - f0) <= 18 * u /\ Rabs (B2R (vy d) - f1) <= 18 * u /\ Rabs (B2R (vz d) - f2) <= 18 * u.
Lemma near_dot d f0 f1 f2 e g0 g1 g2 : near3 d f0 f1 f2 -> near3 e g0 g1 g2 -> Rabs f0 <= 101 / 100 -> Rabs f1 <= 101 / 100 -> Rabs f2 <= 101 / 100 -> Rabs g0 <= 101 / 100 -> Rabs g1 <= 101 / 100 -> Rabs g2 <= 101 / 100 ->
  Rabs (rdot d e - (f0 * g0 + f1 * g1 + f2 * g2)) <= 120 * u.
Proof.
  intros (_ & A0 & A1 & A2) (_ & B0 & B1 & B2) F0 F1 F2 G0 G1 G2. unfold rdot. assert (Pu := u_pos). assert (Hu := u_small).
  set (d0 := B2R (vx d)) in *. set (d1 := B2R (vy d)) in *. set (d2 := B2R (vz d)) in *. set (e0 := B2R (vx e)) in *. set (e1 := B2R (vy e)) in *. set (e2 := B2R (vz e)) in *. clearbody d0 d1 d2 e0 e1 e2.
  assert (K : forall s t f g, Rabs (s - f) <= 18 * u -> Rabs (t - g) <= 18 * u -> Rabs f <= 101 / 100 -> Rabs g <= 101 / 100 -> - (38 * u) <= s * t - f * g <= 38 * u).
  { intros s t f g S T0 F G. replace (s * t - f * g) with ((s - f) * (t - g) + (s - f) * g + f * (t - g)) by ring.
    assert (Q1 := pb _ _ _ _ S T0). assert (Q2 := pb _ _ _ _ S G). assert (Q3 := pb _ _ _ _ F T0). assert (18 * u * (18 * u) <= u) by nra. lra. }
  assert (K0 := K _ _ _ _ A0 B0 F0 G0). assert (K1 := K _ _ _ _ A1 B1 F1 G1). assert (K2 := K _ _ _ _ A2 B2 F2 G2). apply Rabs_le. lra.
Qed.
Lemma sum3_u (a b c x y z : b64) : is_finite a = true -> is_finite b = true -> is_finite c = true -> is_finite x = true -> is_finite y = true -> is_finite z = true ->
  Rabs (B2R a) <= 101 / 100 -> Rabs (B2R b) <= 101 / 100 -> Rabs (B2R c) <= 101 / 100 -> Rabs (B2R x) <= 101 / 100 -> Rabs (B2R y) <= 101 / 100 -> Rabs (B2R z) <= 101 / 100 ->
  is_finite (nadd (nadd (nmul a x) (nmul b y)) (nmul c z)) = true /\ Rabs (B2R (nadd (nadd (nmul a x) (nmul b y)) (nmul c z)) - (B2R a * B2R x + B2R b * B2R y + B2R c * B2R z)) <= 18 * u.
Proof.
  intros A B C X Y Z RA RB RC RX RY RZ. assert (Q0 := pb _ _ _ _ RA RX). assert (Q1 := pb _ _ _ _ RB RY). assert (Q2 := pb _ _ _ _ RC RZ).
  destruct (dot_u 1 a b c x y z ltac:(lia) A B C X Y Z) as (F & E & _); [change (bpow radix2 1) with 2; apply Rabs_le; lra|change (bpow radix2 1) with 2; apply Rabs_le; lra|change (bpow radix2 1) with 2; apply Rabs_le; lra|].
  change (bpow radix2 1) with 2 in E. split; [exact F|]. eapply Rle_trans; [exact E|]. lra.
Qed.
Lemma sum4_u (a b c x y z : b64) : is_finite a = true -> is_finite b = true -> is_finite c = true -> is_finite x = true -> is_finite y = true -> is_finite z = true ->
  Rabs (B2R a) <= 101 / 100 -> Rabs (B2R b) <= 101 / 100 -> Rabs (B2R c) <= 101 / 100 -> Rabs (B2R x) <= 101 / 100 -> Rabs (B2R y) <= 101 / 100 -> Rabs (B2R z) <= 101 / 100 ->
  is_finite (nadd (nadd (nadd (nofZ 0) (nmul a x)) (nmul b y)) (nmul c z)) = true /\ Rabs (B2R (nadd (nadd (nadd (nofZ 0) (nmul a x)) (nmul b y)) (nmul c z)) - (B2R x * B2R a + B2R y * B2R b + B2R z * B2R c)) <= 18 * u.
Proof.
  intros A B C X Y Z RA RB RC RX RY RZ. assert (Q0 := pb _ _ _ _ RA RX). assert (Q1 := pb _ _ _ _ RB RY). assert (Q2 := pb _ _ _ _ RC RZ). assert (Pu := u_pos). assert (Hu := u_small).
  destruct (mul_u 1 a x ltac:(lia) A X) as (F0 & E0 & B0); [change (bpow radix2 1) with 2; apply Rabs_le; lra|]. destruct (mul_u 1 b y ltac:(lia) B Y) as (F1 & E1 & B1); [change (bpow radix2 1) with 2; apply Rabs_le; lra|]. destruct (mul_u 1 c z ltac:(lia) C Z) as (F2 & E2 & B2); [change (bpow radix2 1) with 2; apply Rabs_le; lra|].
  destruct (null_add_l 1 (nofZ 0) (nmul a x) ltac:(lia) zero_null (conj F0 B0)) as [F3 E3]. change (bpow radix2 1) with 2 in *. apply Rabs_le_inv in E0, E1, E2.
  destruct (add_u 2 _ (nmul b y) ltac:(lia) F3 F1) as (F4 & E4 & _). { rewrite E3. change (bpow radix2 2) with 4. apply Rabs_le. lra. }
  rewrite E3 in E4. change (bpow radix2 2) with 4 in E4. apply Rabs_le_inv in E4.
  destruct (add_u 2 _ (nmul c z) ltac:(lia) F4 F2) as (F5 & E5 & _). { change (bpow radix2 2) with 4. apply Rabs_le. lra. }
  change (bpow radix2 2) with 4 in E5. apply Rabs_le_inv in E5. split; [exact F5|]. apply Rabs_le. lra.
Qed.
Section Image.
  Variables (e : R) (m : matrix b64).
  Hypothesis He : 0 <= e <= / 1000.
  Hypothesis Hm : ortho e m.
  Lemma cols_small : small (m0 m) /\ small (m1 m) /\ small (m2 m).
  Proof. destruct Hm as (_ & _ & _ & A & B & C & _). split; [apply unit_small; lra|]. split; apply unit_small; lra. Qed.
  Definition img (v : vec b64) (g : vec b64 -> R) : R := g (m0 m) * B2R (vx v) + g (m1 m) * B2R (vy v) + g (m2 m) * B2R (vz v).
  Definition gx (v : vec b64) : R := B2R (vx v).
  Definition gy (v : vec b64) : R := B2R (vy v).
  Definition gz (v : vec b64) : R := B2R (vz v).
  Definition unity (v : vec b64) : Prop := Rabs (rdot v v - 1) <= / 1000.
  Lemma img_dot v w : unity v -> unity w -> Rabs (img v gx * img w gx + img v gy * img w gy + img v gz * img w gz - rdot v w) <= 301 / 100 * e.
  Proof.
    intros V W. apply Rabs_le_inv in V, W. destruct Hm as (_ & _ & _ & UA & UB & UC & AB & AC & BC). unfold rdot in *. unfold img, gx, gy, gz.
    apply gram; assumption || apply He || lra.
  Qed.
  Lemma img_small v : unity v -> Rabs (img v gx) <= 101 / 100 /\ Rabs (img v gy) <= 101 / 100 /\ Rabs (img v gz) <= 101 / 100.
  Proof.
    intros V. assert (D := img_dot v v V V). apply Rabs_le_inv in V, D. set (a := img v gx) in *. set (b := img v gy) in *. set (c := img v gz) in *. clearbody a b c.
    assert (0 <= a * a) by apply Rle_0_sqr. assert (0 <= b * b) by apply Rle_0_sqr. assert (0 <= c * c) by apply Rle_0_sqr.
    assert (Q : forall x, x * x <= 10201 / 10000 -> Rabs x <= 101 / 100) by (intros x K; apply Rabs_le; split; nra).
    split; [apply Q; lra|]. split; apply Q; lra.
  Qed.
  Lemma mulvec_near v : fin3' v -> small v -> near3 (mmulvec m v) (img v gx) (img v gy) (img v gz).
  Proof.
    intros (FX & FY & FZ) (X & Y & Z). destruct cols_small as ((A0 & A1 & A2) & (B0 & B1 & B2) & (C0 & C1 & C2)). destruct Hm as ((FA0 & FA1 & FA2) & (FB0 & FB1 & FB2) & (FC0 & FC1 & FC2) & _).
    destruct (sum3_u _ _ _ _ _ _ FA0 FB0 FC0 FX FY FZ A0 B0 C0 X Y Z) as [G0 E0]. destruct (sum3_u _ _ _ _ _ _ FA1 FB1 FC1 FX FY FZ A1 B1 C1 X Y Z) as [G1 E1]. destruct (sum3_u _ _ _ _ _ _ FA2 FB2 FC2 FX FY FZ A2 B2 C2 X Y Z) as [G2 E2].
    exact (conj (conj G0 (conj G1 G2)) (conj E0 (conj E1 E2))).
  Qed.
  Lemma col_near v : fin3' v -> small v -> near3 (mmul_col m v) (img v gx) (img v gy) (img v gz).
  Proof.
    intros (FX & FY & FZ) (X & Y & Z). destruct cols_small as ((A0 & A1 & A2) & (B0 & B1 & B2) & (C0 & C1 & C2)). destruct Hm as ((FA0 & FA1 & FA2) & (FB0 & FB1 & FB2) & (FC0 & FC1 & FC2) & _).
    destruct (sum4_u _ _ _ _ _ _ FX FY FZ FA0 FB0 FC0 X Y Z A0 B0 C0) as [G0 E0]. destruct (sum4_u _ _ _ _ _ _ FX FY FZ FA1 FB1 FC1 X Y Z A1 B1 C1) as [G1 E1]. destruct (sum4_u _ _ _ _ _ _ FX FY FZ FA2 FB2 FC2 X Y Z A2 B2 C2) as [G2 E2].
    exact (conj (conj G0 (conj G1 G2)) (conj E0 (conj E1 E2))).
  Qed.
  Lemma near_dots d d' v w : near3 d (img v gx) (img v gy) (img v gz) -> near3 d' (img w gx) (img w gy) (img w gz) -> unity v -> unity w -> Rabs (rdot d d' - rdot v w) <= 301 / 100 * e + 120 * u.
  Proof.
    intros N N' V W. destruct (img_small v V) as (V0 & V1 & V2). destruct (img_small w W) as (W0 & W1 & W2).
    assert (A := near_dot _ _ _ _ _ _ _ _ N N' V0 V1 V2 W0 W1 W2). assert (B := img_dot v w V W). apply Rabs_le_inv in A, B. apply Rabs_le. lra.
  Qed.
  Lemma mulvec_dot v w : fin3' v -> fin3' w -> unity v -> unity w -> Rabs (rdot (mmulvec m v) (mmulvec m w) - rdot v w) <= 301 / 100 * e + 120 * u.
  Proof. intros Fv Fw V W. apply near_dots; auto using mulvec_near, unit_small. Qed.
  Lemma mulvec_fin v : fin3' v -> unity v -> fin3' (mmulvec m v).
  Proof. intros Fv V. apply (mulvec_near v Fv (unit_small v V)). Qed.
End Image.
Lemma ortho_mul e e' m b : 0 <= e <= / 1000 -> 0 <= e' <= / 1000 -> ortho e m -> ortho e' b -> ortho (e' + 301 / 100 * e + 120 * u) (mmul m b).
Proof.
  intros He He' Hm Hb. destruct (cols_small e' b He' Hb) as (S0 & S1 & S2). destruct Hb as (F0 & F1 & F2 & U0 & U1 & U2 & A & B & C).
  assert (Y0 : unity (m0 b)) by (unfold unity; lra). assert (Y1 : unity (m1 b)) by (unfold unity; lra). assert (Y2 : unity (m2 b)) by (unfold unity; lra).
  assert (N0 := col_near e m He Hm _ F0 S0). assert (N1 := col_near e m He Hm _ F1 S1). assert (N2 := col_near e m He Hm _ F2 S2).
  assert (T : forall x y k, Rabs (x - y) <= 301 / 100 * e + 120 * u -> Rabs (y - k) <= e' -> Rabs (x - k) <= e' + 301 / 100 * e + 120 * u). { intros x y k P Q. apply Rabs_le_inv in P, Q. apply Rabs_le. lra. }
  assert (T0 : forall x y, Rabs (x - y) <= 301 / 100 * e + 120 * u -> Rabs y <= e' -> Rabs x <= e' + 301 / 100 * e + 120 * u). { intros x y P Q. apply Rabs_le_inv in P, Q. apply Rabs_le. lra. }
  unfold ortho, mmul. cbn [m0 m1 m2]. split; [apply N0|]. split; [apply N1|]. split; [apply N2|].
  split; [eapply T; [apply (near_dots e m He Hm _ _ _ _ N0 N0 Y0 Y0)|exact U0]|]. split; [eapply T; [apply (near_dots e m He Hm _ _ _ _ N1 N1 Y1 Y1)|exact U1]|]. split; [eapply T; [apply (near_dots e m He Hm _ _ _ _ N2 N2 Y2 Y2)|exact U2]|].
  split; [eapply T0; [apply (near_dots e m He Hm _ _ _ _ N0 N1 Y0 Y1)|exact A]|]. split; [eapply T0; [apply (near_dots e m He Hm _ _ _ _ N0 N2 Y0 Y2)|exact B]|]. eapply T0; [apply (near_dots e m He Hm _ _ _ _ N1 N2 Y1 Y2)|exact C].
Qed.

(** ** Products with the unit matrix are exact *)
Definition val (x : b64) (r : R) : Prop := is_finite x = true /\ B2R x = r.
Definition one (x : b64) : Prop := val x 1.
Lemma val_one_l x y r : one x -> Rabs r <= 2 -> val y r -> val (nmul x y) r.
Proof.
  intros [F E] L [F' E']. destruct (bmul_correct x y F F') as [A B]; [rewrite E, E', Rmult_1_l; eapply Rle_trans; [exact L|apply (bpow_big 1); lia]|].
  split; [exact A|]. rewrite B, E, Rmult_1_l, rnd_id; [exact E'|apply fmt_B2R].
Qed.
Lemma val_one_r x y r : one y -> Rabs r <= 2 -> val x r -> val (nmul x y) r.
Proof.
  intros [F E] L [F' E']. destruct (bmul_correct x y F' F) as [A B]; [rewrite E, E', Rmult_1_r; eapply Rle_trans; [exact L|apply (bpow_big 1); lia]|].
  split; [exact A|]. rewrite B, E, Rmult_1_r, rnd_id; [exact E'|apply fmt_B2R].
Qed.
Lemma val_am x r : Rabs r <= 2 -> val x r -> at_most 1 x.
Proof. intros L [F E]. split; [exact F|]. rewrite E. exact L. Qed.
Lemma val_add_l x y r : null x -> Rabs r <= 2 -> val y r -> val (nadd x y) r.
Proof. intros N L V. destruct (null_add_l 1 x y ltac:(lia) N (val_am y r L V)) as [F E]. split; [exact F|]. rewrite E. apply V. Qed.
Lemma val_add_r x y r : null y -> Rabs r <= 2 -> val x r -> val (nadd x y) r.
Proof. intros N L V. destruct (null_add_r 1 x y ltac:(lia) (val_am x r L V) N) as [F E]. split; [exact F|]. rewrite E. apply V. Qed.
Lemma val_sub_l x y r : null x -> Rabs r <= 2 -> val y r -> val (nsub x y) (- r).
Proof.
  intros [F E] L [F' E']. destruct (bsub_correct x y F F') as [A B]; [rewrite E, E'; unfold Rminus; rewrite Rplus_0_l, Rabs_Ropp; eapply Rle_trans; [exact L|apply (bpow_big 1); lia]|].
  split; [exact A|]. rewrite B, E, E'. unfold Rminus. rewrite Rplus_0_l. rewrite <- E'. apply rnd_id, fmt_opp, fmt_B2R.
Qed.
Lemma null_fin x : null x -> is_finite x = true. Proof. intros [F _]. exact F. Qed.
Lemma one_fin x : one x -> is_finite x = true. Proof. intros [F _]. exact F. Qed.
Definition unital (m : matrix b64) : Prop :=
  (one (vx (m0 m)) /\ null (vy (m0 m)) /\ null (vz (m0 m))) /\ (null (vx (m1 m)) /\ one (vy (m1 m)) /\ null (vz (m1 m))) /\ (null (vx (m2 m)) /\ null (vy (m2 m)) /\ one (vz (m2 m))).
Lemma b_one : one (nofZ 1). Proof. apply (Z_b 1). cbv; discriminate. Qed.
Lemma unital_unit : unital unitMatrix.
Proof. unfold unital, unitMatrix, vEx, vEy, vEz. cbn [m0 m1 m2 vx vy vz]. assert (O := b_one). assert (Z := zero_null). tauto. Qed.
(** same values *)
Definition likev (v w : vec b64) : Prop := val (vx v) (B2R (vx w)) /\ val (vy v) (B2R (vy w)) /\ val (vz v) (B2R (vz w)).
Definition likem (m k : matrix b64) : Prop := likev (m0 m) (m0 k) /\ likev (m1 m) (m1 k) /\ likev (m2 m) (m2 k).
Lemma like_dot a b a' b' : likev a a' -> likev b b' -> rdot a b = rdot a' b'.
Proof. intros ((_ & A0) & (_ & A1) & (_ & A2)) ((_ & B0) & (_ & B1) & (_ & B2)). unfold rdot. now rewrite A0, A1, A2, B0, B1, B2. Qed.
Lemma like_fin a b : likev a b -> fin3' a.
Proof. intros ((A & _) & (B & _) & (C & _)). exact (conj A (conj B C)). Qed.
Lemma like_ortho e m k : likem m k -> ortho e k -> ortho e m.
Proof.
  intros (A & B & C) (_ & _ & _ & H). unfold ortho.
  rewrite (like_dot _ _ _ _ A A), (like_dot _ _ _ _ B B), (like_dot _ _ _ _ C C), (like_dot _ _ _ _ A B), (like_dot _ _ _ _ A C), (like_dot _ _ _ _ B C).
  split; [exact (like_fin _ _ A)|]. split; [exact (like_fin _ _ B)|]. split; [exact (like_fin _ _ C)|]. exact H.
Qed.
Lemma small_2 x : Rabs x <= 101 / 100 -> Rabs x <= 2. Proof. lra. Qed.
Lemma col_unit_l m v : unital m -> fin3' v -> small v -> likev (mmul_col m v) v.
Proof.
  intros ((A0 & A1 & A2) & (B0 & B1 & B2) & (C0 & C1 & C2)) (X & Y & Z) (LX & LY & LZ). apply small_2 in LX, LY, LZ. unfold mmul_col, mmul_elem, likev. cbn [vx vy vz vget]. assert (ZN := zero_null).
  split; [|split].
  - apply val_add_r; [apply null_mul_r; assumption|exact LX|]. apply val_add_r; [apply null_mul_r; assumption|exact LX|]. apply val_add_l; [exact ZN|exact LX|]. apply val_one_r; [assumption|exact LX|now split].
  - apply val_add_r; [apply null_mul_r; assumption|exact LY|]. apply val_add_l; [apply null_add; [exact ZN|apply null_mul_r; assumption]|exact LY|]. apply val_one_r; [assumption|exact LY|now split].
  - apply val_add_l; [apply null_add; [apply null_add; [exact ZN|]|]; apply null_mul_r; assumption|exact LZ|]. apply val_one_r; [assumption|exact LZ|now split].
Qed.
Lemma mul_unit_l m k : unital m -> fin3' (m0 k) -> fin3' (m1 k) -> fin3' (m2 k) -> small (m0 k) -> small (m1 k) -> small (m2 k) -> likem (mmul m k) k.
Proof. intros U F0 F1 F2 S0 S1 S2. split; [|split]; apply col_unit_l; assumption. Qed.
Lemma mul_unit_r m k : unital k -> fin3' (m0 m) -> fin3' (m1 m) -> fin3' (m2 m) -> small (m0 m) -> small (m1 m) -> small (m2 m) -> likem (mmul m k) m.
Proof.
  intros ((A0 & A1 & A2) & (B0 & B1 & B2) & (C0 & C1 & C2)) (X0 & Y0 & Z0) (X1 & Y1 & Z1) (X2 & Y2 & Z2) (LX0 & LY0 & LZ0) (LX1 & LY1 & LZ1) (LX2 & LY2 & LZ2).
  apply small_2 in LX0, LY0, LZ0, LX1, LY1, LZ1, LX2, LY2, LZ2. assert (ZN := zero_null).
  assert (P0 : forall a b c x y z : b64, one a -> null b -> null c -> Rabs (B2R x) <= 2 -> is_finite x = true -> is_finite y = true -> is_finite z = true -> val (nadd (nadd (nadd (nofZ 0) (nmul a x)) (nmul b y)) (nmul c z)) (B2R x)).
  { intros a b c x y z A B C L X Y Z. apply val_add_r; [apply null_mul_l; assumption|exact L|]. apply val_add_r; [apply null_mul_l; assumption|exact L|]. apply val_add_l; [exact ZN|exact L|]. apply val_one_l; [assumption|exact L|now split]. }
  assert (P1 : forall a b c x y z : b64, null a -> one b -> null c -> Rabs (B2R y) <= 2 -> is_finite x = true -> is_finite y = true -> is_finite z = true -> val (nadd (nadd (nadd (nofZ 0) (nmul a x)) (nmul b y)) (nmul c z)) (B2R y)).
  { intros a b c x y z A B C L X Y Z. apply val_add_r; [apply null_mul_l; assumption|exact L|]. apply val_add_l; [apply null_add; [exact ZN|apply null_mul_l; assumption]|exact L|]. apply val_one_l; [assumption|exact L|now split]. }
  assert (P2 : forall a b c x y z : b64, null a -> null b -> one c -> Rabs (B2R z) <= 2 -> is_finite x = true -> is_finite y = true -> is_finite z = true -> val (nadd (nadd (nadd (nofZ 0) (nmul a x)) (nmul b y)) (nmul c z)) (B2R z)).
  { intros a b c x y z A B C L X Y Z. apply val_add_l; [apply null_add; [apply null_add; [exact ZN|]|]; apply null_mul_l; assumption|exact L|]. apply val_one_l; [assumption|exact L|now split]. }
  unfold likem, likev, mmul, mmul_col, mmul_elem. cbn [vx vy vz vget m0 m1 m2].
  split; [|split].
  - split; [|split]; apply P0; assumption.
  - split; [|split]; apply P1; assumption.
  - split; [|split]; apply P2; assumption.
Qed.
Lemma ortho_unit_l e m k : 0 <= e <= / 1000 -> unital m -> ortho e k -> ortho e (mmul m k).
Proof. intros He U H. destruct (cols_small e k He H) as (S0 & S1 & S2). apply (like_ortho e _ k); [|exact H]. apply mul_unit_l; try assumption; apply H. Qed.
Lemma ortho_unit_r e m k : 0 <= e <= / 1000 -> unital k -> ortho e m -> ortho e (mmul m k).
Proof. intros He U H. destruct (cols_small e m He H) as (S0 & S1 & S2). apply (like_ortho e _ m); [|exact H]. apply mul_unit_r; try assumption; apply H. Qed.
Lemma ortho_unital m : unital m -> ortho 0 m.
Proof.
  intros (((FA0 & A0) & (FA1 & A1) & (FA2 & A2)) & ((FB0 & B0) & (FB1 & B1) & (FB2 & B2)) & ((FC0 & C0) & (FC1 & C1) & (FC2 & C2))). unfold ortho, rdot, fin3'.
  rewrite A0, A1, A2, B0, B1, B2, C0, C1, C2.
  assert (Q : forall x, x = 0 -> Rabs x <= 0) by (intros x ->; rewrite Rabs_R0; apply Rle_refl).
  do 3 (split; [auto|]). do 5 (split; [apply Q; ring|]). apply Q; ring.
Qed.
Lemma unital_like m k : likem m k -> unital k -> unital m.
Proof.
  intros (((FA0 & A0) & (FA1 & A1) & (FA2 & A2)) & ((FB0 & B0) & (FB1 & B1) & (FB2 & B2)) & ((FC0 & C0) & (FC1 & C1) & (FC2 & C2))) ((P0 & P1 & P2) & (Q0 & Q1 & Q2) & (R0 & R1 & R2)).
  assert (O : forall x y, is_finite x = true -> B2R x = B2R y -> one y -> one x) by (intros x y F E [_ G]; split; [exact F|congruence]).
  assert (N : forall x y, is_finite x = true -> B2R x = B2R y -> null y -> null x) by (intros x y F E [_ G]; split; [exact F|congruence]).
  unfold unital. split; [|split]; (split; [|split]); first [eapply O; eassumption|eapply N; eassumption].
Qed.
Lemma unital_mul m k : unital m -> unital k -> unital (mmul m k).
Proof.
  intros M K. apply (unital_like _ k); [|exact K]. assert (H := ortho_unital k K). destruct (cols_small 0 k ltac:(lra) H) as (S0 & S1 & S2). apply mul_unit_l; try assumption; apply H.
Qed.

(** ** Rotations about the axes *)
Lemma same_b64 (x y : b64) : is_finite x = true -> is_finite y = true -> B2R y <> 0 -> neqb x y = true -> x = y.
Proof.
  intros Fx Fy N E. apply (beqb_R x y Fx Fy) in E. apply B2R_inj.
  - destruct x; try discriminate Fx; [cbn in E; congruence|reflexivity].
  - destruct y; try discriminate Fy; [cbn in N; congruence|reflexivity].
  - exact E.
Qed.
Lemma u50 : bpow radix2 (-50) = 8 * u.
Proof. rewrite u53. change (-50)%Z with (3 + -53)%Z. rewrite bpow_plus. reflexivity. Qed.
Lemma half_range (x : b64) : is_finite x = true -> 3 <= Rabs (B2R x) <= 4 -> is_finite (ndiv x (nofZ 2)) = true /\ (0 < B2R x -> 3 / 2 <= B2R (ndiv x (nofZ 2)) <= 2) /\ (B2R x < 0 -> - 2 <= B2R (ndiv x (nofZ 2)) <= - (3 / 2)).
Proof.
  intros F H. destruct (Z_b 2 ltac:(cbv; discriminate)) as [F2 E2]. destruct (bdiv_correct x (nofZ 2) F) as [A B]; [rewrite E2; lra| |].
  { rewrite E2. eapply Rle_trans; [|apply (bpow_big 2); lia]. change (bpow radix2 2) with 4. unfold Rdiv. rewrite Rabs_mult, (Rabs_pos_eq (/ 2)) by lra. lra. }
  split; [exact A|]. rewrite B, E2. assert (F3 : fmt (3 / 2)) by (change (3 / 2) with (IZR 3 * bpow radix2 (-1)); apply fmt_F2R; lia). assert (F4 : fmt 2) by (apply (fmt_Z 2); cbv; discriminate).
  split; intros S.
  - rewrite Rabs_pos_eq in H by lra. split; [apply rnd_ge; [exact F3|lra]|apply rnd_le; [exact F4|lra]].
  - rewrite Rabs_left in H by lra. split; [apply rnd_ge; [apply fmt_opp; exact F4|lra]|apply rnd_le; [apply fmt_opp; exact F3|lra]].
Qed.
Section Turns.
  Context {T : Trig b64}.
  Hypothesis HT : accurate_trig T.
  Lemma trig_unit (a : b64) : is_finite a = true -> is_finite (uSin a) = true /\ is_finite (uCos a) = true /\ Rabs (B2R (uSin a)) <= 1 /\ Rabs (B2R (uCos a)) <= 1 /\
    Rabs (B2R (uSin a) * B2R (uSin a) + B2R (uCos a) * B2R (uCos a) - 1) <= 9 * u.
  Proof.
    intros Fa. destruct HT as ((Fp & Rp) & Tr & S1 & S2 & C1 & C2). destruct (opp_R npi) as [Fo Eo]. rewrite Fp in Fo. assert (Pu := u_pos). assert (Hu := u_small).
    destruct (half_range npi Fp) as (Fh & Rh & _); [rewrite Rabs_pos_eq; lra|]. specialize (Rh ltac:(lra)).
    destruct (half_range (nopp npi) Fo) as (Fg & _ & Rg); [rewrite Eo, Rabs_Ropp, Rabs_pos_eq; lra|]. specialize (Rg ltac:(lra)).
    destruct (Tr a Fa) as (FS & FC & LS & LC & Q). rewrite u50 in Q. apply Rabs_le_inv in Q.
    assert (Sq : forall x, at_most (-40) x -> 0 <= B2R x * B2R x <= u).
    { intros x [_ L]. split; [apply Rle_0_sqr|]. assert (P := pb _ _ _ _ L L). eapply Rle_trans; [apply P|]. rewrite <- bpow_plus, u53. apply bpow_le. lia. }
    assert (Z0 : is_finite (nofZ 0 : b64) = true /\ B2R (nofZ 0 : b64) = 0) by apply (Z_b 0 ltac:(cbv; discriminate)). destruct Z0 as [FZ EZ].
    unfold uSin, uCos. destruct (neqb a npi || neqb a (nopp npi)) eqn:Es; destruct (neqb a (ndiv npi (nofZ 2)) || neqb a (ndiv (nopp npi) (nofZ 2))) eqn:Ec; cbn [nofZ] in *.
    - exfalso. apply orb_prop in Es, Ec. rewrite (beqb_R a _ Fa Fp), (beqb_R a _ Fa Fo) in Es. rewrite (beqb_R a _ Fa Fh), (beqb_R a _ Fa Fg) in Ec. lra.
    - change (b64_of_Z 0) with (nofZ 0 : b64). rewrite EZ, Rabs_R0. split; [exact FZ|]. split; [exact FC|]. split; [lra|]. split; [exact LC|].
      assert (K : 0 <= B2R (nsin a) * B2R (nsin a) <= u).
      { apply orb_prop in Es. destruct Es as [Es|Es]; apply same_b64 in Es; try assumption; try lra; subst a; now apply Sq. }
      apply Rabs_le. lra.
    - change (b64_of_Z 0) with (nofZ 0 : b64). rewrite EZ, Rabs_R0. split; [exact FS|]. split; [exact FZ|]. split; [exact LS|]. split; [lra|].
      assert (K : 0 <= B2R (ncos a) * B2R (ncos a) <= u).
      { apply orb_prop in Ec. destruct Ec as [Ec|Ec]; apply same_b64 in Ec; try assumption; try lra; subst a; now apply Sq. }
      apply Rabs_le. lra.
    - split; [exact FS|]. split; [exact FC|]. split; [exact LS|]. split; [exact LC|]. apply Rabs_le. lra.
  Qed.
End Turns.
Lemma val_Z (x : b64) k : (Z.abs k <= 2 ^ 53)%Z -> is_finite x = true -> neqb x (nofZ k) = true -> val x (IZR k).
Proof. intros L F E. destruct (Z_b k L) as [F' E']. split; [exact F|]. apply (beqb_R x _ F F') in E. congruence. Qed.
Lemma axis_x : let a := vnormalized (F := b64) vEx in one (vx a) /\ null (vy a) /\ null (vz a).
Proof. cbv zeta. split; [|split]; apply val_Z; (cbv; discriminate) || (vm_compute; reflexivity). Qed.
Lemma axis_y : let a := vnormalized (F := b64) vEy in null (vx a) /\ one (vy a) /\ null (vz a).
Proof. cbv zeta. split; [|split]; apply val_Z; (cbv; discriminate) || (vm_compute; reflexivity). Qed.
Lemma axis_z : let a := vnormalized (F := b64) vEz in null (vx a) /\ null (vy a) /\ one (vz a).
Proof. cbv zeta. split; [|split]; apply val_Z; (cbv; discriminate) || (vm_compute; reflexivity). Qed.
Section Entries.
  Variables c s : b64.
  Hypothesis Fc : is_finite c = true.
  Hypothesis Fs : is_finite s = true.
  Hypothesis Lc : Rabs (B2R c) <= 1.
  Hypothesis Ls : Rabs (B2R s) <= 1.
  Hypothesis Q : Rabs (B2R s * B2R s + B2R c * B2R c - 1) <= 9 * u.
  Let c1 : b64 := nsub (nofZ 1) c.
  Lemma c1_u : is_finite c1 = true /\ Rabs (B2R c1 - (1 - B2R c)) <= 2 * u.
  Proof.
    destruct (Z_b 1 ltac:(cbv; discriminate)) as [F1 E1]. assert (Lc' := Rabs_le_inv _ _ Lc). destruct (sub_u 1 (nofZ 1) c ltac:(lia) F1 Fc) as (F & E & _); [rewrite E1; change (bpow radix2 1) with 2; apply Rabs_le; lra|].
    rewrite E1 in E. split; [exact F|exact E].
  Qed.
  Let F1 : is_finite c1 = true := proj1 c1_u.
  (** entries of rotation matrices about an axis *)
  Lemma e_diag (x y : b64) : null x -> null y -> val (nadd c (nmul (nmul x y) c1)) (B2R c).
  Proof. intros X Y. apply val_add_r; [apply null_mul_l; [apply null_mul_l; [exact X|apply Y]|exact F1]|lra|now split]. Qed.
  Lemma e_one (x y : b64) : one x -> one y -> is_finite (nadd c (nmul (nmul x y) c1)) = true /\ Rabs (B2R (nadd c (nmul (nmul x y) c1)) - 1) <= 4 * u.
  Proof.
    intros X Y. assert (E1 := proj2 c1_u). assert (Pu := u_pos). assert (Hu := u_small). apply Rabs_le_inv in E1. assert (Lc' := Rabs_le_inv _ _ Lc).
    assert (L1 : Rabs (B2R c1) <= 2 + 2 * u) by (apply Rabs_le; lra).
    assert (P : one (nmul x y)) by (apply val_one_l; [exact X|rewrite Rabs_R1; lra|exact Y]).
    assert (V : is_finite (nmul (nmul x y) c1) = true /\ B2R (nmul (nmul x y) c1) = B2R c1).
    { destruct P as [F E]. destruct (bmul_correct (nmul x y) c1 F F1) as [A B]; [rewrite E, Rmult_1_l; eapply Rle_trans; [exact L1|]; eapply Rle_trans; [|apply (bpow_big 2); lia]; change (bpow radix2 2) with 4; lra|].
      split; [exact A|]. rewrite B, E, Rmult_1_l. apply rnd_id, fmt_B2R. }
    destruct V as [FV EV]. destruct (add_u 1 c _ ltac:(lia) Fc FV) as (F & E & _); [rewrite EV; change (bpow radix2 1) with 2; apply Rabs_le; lra|].
    rewrite EV in E. change (bpow radix2 1) with 2 in E. apply Rabs_le_inv in E. split; [exact F|]. apply Rabs_le. lra.
  Qed.
  Lemma n01 (x y : b64) : is_finite x = true -> null y -> null (nmul (nmul x y) c1).
  Proof. intros X Y. apply null_mul_l; [apply null_mul_r; assumption|exact F1]. Qed.
  Lemma n10 (x y : b64) : null x -> is_finite y = true -> null (nmul (nmul x y) c1).
  Proof. intros X Y. apply null_mul_l; [apply null_mul_l; assumption|exact F1]. Qed.
  Lemma e_null_add p z : null p -> null z -> null (nadd p (nmul z s)).
  Proof. intros P Z. apply null_add; [exact P|now apply null_mul_l]. Qed.
  Lemma e_null_sub p z : null p -> null z -> null (nsub p (nmul z s)).
  Proof. intros P Z. apply null_sub0; [exact P|now apply null_mul_l]. Qed.
  Lemma e_sin_add p z : null p -> one z -> val (nadd p (nmul z s)) (B2R s).
  Proof. intros P Z. apply val_add_l; [exact P|lra|]. apply val_one_l; [exact Z|lra|now split]. Qed.
  Lemma e_sin_sub p z : null p -> one z -> val (nsub p (nmul z s)) (- B2R s).
  Proof. intros P Z. apply val_sub_l; [exact P|lra|]. apply val_one_l; [exact Z|lra|now split]. Qed.
  Lemma square_near k : Rabs (k - 1) <= 4 * u -> Rabs (k * k - 1) <= 10 * u.
  Proof. intros K. assert (Pu := u_pos). assert (Hu := u_small). apply Rabs_le_inv in K. apply Rabs_le. nra. Qed.
End Entries.
Section Turns2.
  Context {T : Trig b64}.
  Hypothesis HT : accurate_trig T.
  Lemma rot_x (a : b64) : is_finite a = true -> ortho (10 * u) (rotationMatrix vEx a).
  Proof.
    intros Fa. destruct (trig_unit HT a Fa) as (Fs & Fc & Ls & Lc & Q). destruct axis_x as (AX & AY & AZ). assert (Pu := u_pos).
    unfold rotationMatrix. cbv zeta. set (ux := vx (vnormalized vEx)) in *. set (uy := vy (vnormalized vEx)) in *. set (uz := vz (vnormalized vEx)) in *. clearbody ux uy uz.
    set (s := uSin a) in *. set (c := uCos a) in *. clearbody s c. assert (F0 : is_finite ux = true) by apply AX. assert (F1 : is_finite uy = true) by apply AY. assert (F2 : is_finite uz = true) by apply AZ.
    destruct (e_one c Fc Lc ux ux AX AX) as [G00 V00]. destruct (e_null_add s Fs _ uz (n10 c Fc Lc uy ux AY F0) AZ) as [G01 V01]. destruct (e_null_sub s Fs _ uy (n10 c Fc Lc uz ux AZ F0) AY) as [G02 V02]. destruct (e_null_sub s Fs _ uz (n01 c Fc Lc ux uy F0 AY) AZ) as [G10 V10]. destruct (e_diag c Fc Lc uy uy AY AY) as [G11 V11]. destruct (e_sin_add s Fs Ls _ ux (n10 c Fc Lc uz uy AZ F1) AX) as [G12 V12]. destruct (e_null_add s Fs _ uy (n01 c Fc Lc ux uz F0 AZ) AY) as [G20 V20]. destruct (e_sin_sub s Fs Ls _ ux (n10 c Fc Lc uy uz AY F2) AX) as [G21 V21]. destruct (e_diag c Fc Lc uz uz AZ AZ) as [G22 V22].
    apply square_near in V00. unfold ortho, fin3', rdot. cbn [m0 m1 m2 vx vy vz]. rewrite V01, V02, V10, V11, V12, V20, V21, V22.
    apply Rabs_le_inv in V00, Q. do 3 (split; [now split|]). do 5 (split; [apply Rabs_le; lra|]). apply Rabs_le; lra.
  Qed.
  Lemma rot_y (a : b64) : is_finite a = true -> ortho (10 * u) (rotationMatrix vEy a).
  Proof.
    intros Fa. destruct (trig_unit HT a Fa) as (Fs & Fc & Ls & Lc & Q). destruct axis_y as (AX & AY & AZ). assert (Pu := u_pos).
    unfold rotationMatrix. cbv zeta. set (ux := vx (vnormalized vEy)) in *. set (uy := vy (vnormalized vEy)) in *. set (uz := vz (vnormalized vEy)) in *. clearbody ux uy uz.
    set (s := uSin a) in *. set (c := uCos a) in *. clearbody s c. assert (F0 : is_finite ux = true) by apply AX. assert (F1 : is_finite uy = true) by apply AY. assert (F2 : is_finite uz = true) by apply AZ.
    destruct (e_diag c Fc Lc ux ux AX AX) as [G00 V00]. destruct (e_null_add s Fs _ uz (n01 c Fc Lc uy ux F1 AX) AZ) as [G01 V01]. destruct (e_sin_sub s Fs Ls _ uy (n10 c Fc Lc uz ux AZ F0) AY) as [G02 V02]. destruct (e_null_sub s Fs _ uz (n10 c Fc Lc ux uy AX F1) AZ) as [G10 V10]. destruct (e_one c Fc Lc uy uy AY AY) as [G11 V11]. destruct (e_null_add s Fs _ ux (n10 c Fc Lc uz uy AZ F1) AX) as [G12 V12]. destruct (e_sin_add s Fs Ls _ uy (n10 c Fc Lc ux uz AX F2) AY) as [G20 V20]. destruct (e_null_sub s Fs _ ux (n01 c Fc Lc uy uz F1 AZ) AX) as [G21 V21]. destruct (e_diag c Fc Lc uz uz AZ AZ) as [G22 V22].
    apply square_near in V11. unfold ortho, fin3', rdot. cbn [m0 m1 m2 vx vy vz]. rewrite V00, V01, V02, V10, V12, V20, V21, V22.
    apply Rabs_le_inv in V11, Q. do 3 (split; [now split|]). do 5 (split; [apply Rabs_le; lra|]). apply Rabs_le; lra.
  Qed.
  Lemma rot_z (a : b64) : is_finite a = true -> ortho (10 * u) (rotationMatrix vEz a).
  Proof.
    intros Fa. destruct (trig_unit HT a Fa) as (Fs & Fc & Ls & Lc & Q). destruct axis_z as (AX & AY & AZ). assert (Pu := u_pos).
    unfold rotationMatrix. cbv zeta. set (ux := vx (vnormalized vEz)) in *. set (uy := vy (vnormalized vEz)) in *. set (uz := vz (vnormalized vEz)) in *. clearbody ux uy uz.
    set (s := uSin a) in *. set (c := uCos a) in *. clearbody s c. assert (F0 : is_finite ux = true) by apply AX. assert (F1 : is_finite uy = true) by apply AY. assert (F2 : is_finite uz = true) by apply AZ.
    destruct (e_diag c Fc Lc ux ux AX AX) as [G00 V00]. destruct (e_sin_add s Fs Ls _ uz (n10 c Fc Lc uy ux AY F0) AZ) as [G01 V01]. destruct (e_null_sub s Fs _ uy (n01 c Fc Lc uz ux F2 AX) AY) as [G02 V02]. destruct (e_sin_sub s Fs Ls _ uz (n10 c Fc Lc ux uy AX F1) AZ) as [G10 V10]. destruct (e_diag c Fc Lc uy uy AY AY) as [G11 V11]. destruct (e_null_add s Fs _ ux (n01 c Fc Lc uz uy F2 AY) AX) as [G12 V12]. destruct (e_null_add s Fs _ uy (n10 c Fc Lc ux uz AX F2) AY) as [G20 V20]. destruct (e_null_sub s Fs _ ux (n10 c Fc Lc uy uz AY F2) AX) as [G21 V21]. destruct (e_one c Fc Lc uz uz AZ AZ) as [G22 V22].
    apply square_near in V22. unfold ortho, fin3', rdot. cbn [m0 m1 m2 vx vy vz]. rewrite V00, V01, V02, V10, V11, V12, V20, V21.
    apply Rabs_le_inv in V22, Q. do 3 (split; [now split|]). do 5 (split; [apply Rabs_le; lra|]). apply Rabs_le; lra.
  Qed.
  Lemma u_big n : n <= 1000000000000 -> 0 <= n -> 0 <= n * u <= / 1000.
  Proof. intros L P. assert (Pu := u_pos). rewrite u_val in *. lra. Qed.
  Lemma ortho_mono e e' m : e <= e' -> ortho e m -> ortho e' m.
  Proof. intros L (A & B & C & D & E & F & G & H & I). unfold ortho. do 8 (split; [first [assumption|eapply Rle_trans; eassumption]|]). eapply Rle_trans; eassumption. Qed.
  Lemma unital_translate d : unital (afA (translate d)).
  Proof. unfold unital, translate. cbn [afA m0 m1 m2 vx vy vz]. assert (O := b_one). assert (Z := zero_null). tauto. Qed.
  Lemma rotate_ortho e o ax a : 0 <= e <= / 1000 -> ortho e (rotationMatrix ax a) -> ortho e (afA (rotate o ax a)).
  Proof.
    intros He H. unfold rotate, withOrigin, composeLR. cbn [fold_left]. unfold before at 1. cbn [afA]. apply ortho_unit_l; [exact He|apply unital_translate|].
    unfold before at 1. cbn [afA]. apply ortho_unit_r; [exact He| |exact H]. unfold before, unitTransform. cbn [afA]. apply unital_mul; [apply unital_translate|apply unital_unit].
  Qed.
  Lemma ypr_ortho y p r : is_finite y = true -> is_finite p = true -> is_finite r = true -> ortho (620 * u) (afA (yawPitchRoll y p r)).
  Proof.
    intros Fy Fp Fr. assert (L10 := u_big 10 ltac:(lra) ltac:(lra)). assert (Pu := u_pos).
    assert (Y := rotate_ortho _ vO vEy y L10 (rot_y y Fy)). assert (P := rotate_ortho _ vO vEx p L10 (rot_x p Fp)). assert (R0 := rotate_ortho _ vO vEz r L10 (rot_z r Fr)).
    fold (yaw y) in Y. fold (pitch p) in P. fold (roll r) in R0.
    assert (YP := ortho_mul _ _ _ _ L10 L10 Y P). apply (ortho_mono _ (161 * u)) in YP; [|lra].
    assert (L161 := u_big 161 ltac:(lra) ltac:(lra)). assert (A := ortho_mul _ _ _ _ L161 L10 YP R0).
    apply (ortho_mono _ (620 * u)) in A; [|lra]. exact A.
  Qed.

  (** ** Cameras *)
  Lemma handled_ortho ms : forall cam e, ortho e (camMatrix cam) -> 0 <= e -> e + INR (rotations ms) * (2000 * u) <= / 1000 -> Forall finite_angles ms ->
    ortho (e + INR (rotations ms) * (2000 * u)) (camMatrix (fold_left handle ms cam)) /\ camOrig (fold_left handle ms cam) = camOrig cam.
  Proof.
    assert (Pu := u_pos). induction ms as [|m ms IH]; intros cam e H He L Fa.
    - cbn [fold_left rotations filter length INR]. split; [|reflexivity]. eapply ortho_mono; [|exact H]. cbn. lra.
    - inversion Fa as [|m' ms' Fm Fms E1]; subst. cbn [fold_left]. assert (PI := pos_INR (rotations ms)). assert (Pn : 0 <= INR (rotations ms) * (2000 * u)) by (apply Rmult_le_pos; lra).
      destruct m as [d|y p r].
      + change (rotations (Carry d :: ms)) with (rotations ms) in *. destruct (IH (handle cam (Carry d)) e) as [A B]; try assumption.
        * cbn [handle]. unfold camTranslate, transformCam. cbn [camMatrix]. apply ortho_unit_l; [lra|apply unital_unit|exact H].
        * split; [exact A|]. rewrite B. reflexivity.
      + change (rotations (Rotate y p r :: ms)) with (S (rotations ms)) in *. rewrite S_INR in *. destruct Fm as (Fy & Fp & Fr).
        assert (He' : 0 <= e <= / 1000) by lra. assert (K := ortho_mul _ _ _ _ (u_big 620 ltac:(lra) ltac:(lra)) He' (ypr_ortho y p r Fy Fp Fr) H). apply (ortho_mono _ (e + 2000 * u)) in K; [|lra].
        destruct (IH (handle cam (Rotate y p r)) (e + 2000 * u)) as [A B]; [exact K|lra|lra|exact Fms|].
        split; [eapply ortho_mono; [|exact A]; lra|]. rewrite B. reflexivity.
  Qed.
End Turns2.
