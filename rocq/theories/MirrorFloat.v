(** * Mirrors and glass in double precision *)
From Coq Require Import ZArith Reals Bool List Lra Lia Psatz.
From Flocq Require Import Core.
From Flocq Require IEEE754.BinarySingleNaN.
Import IEEE754.BinarySingleNaN.
From Verif Require Import Num NumLaws Outcome B64 GeomModel ObjModel TreeModel SeqModel SceneModel FloatSpec FloatErr NormFloat CheckModel CheckProofs MirrorSpec.
Import ListNotations.
Local Open Scope R_scope.

Lemma sq_bound x : x * x <= 1002 / 1000 -> -101 / 100 <= x <= 101 / 100.
Proof. intros H. split; nra. Qed.
Lemma comps (v : vec b64) : Rabs (rdot v v - 1) <= / 1000 ->
  (-101 / 100 <= B2R (vx v) <= 101 / 100) /\ (-101 / 100 <= B2R (vy v) <= 101 / 100) /\ (-101 / 100 <= B2R (vz v) <= 101 / 100).
Proof.
  intros H. apply Rabs_le_inv in H. unfold rdot in H. repeat split; try apply sq_bound;
    pose proof (Rle_0_sqr (B2R (vx v))); pose proof (Rle_0_sqr (B2R (vy v))); pose proof (Rle_0_sqr (B2R (vz v))); unfold Rsqr in *; lra.
Qed.
Lemma prod_bound a b x y : - a <= x <= a -> - b <= y <= b -> - (a * b) <= x * y <= a * b.
Proof. intros X Y. split; nra. Qed.
(** Cauchy-Schwarz, roughly *)
Lemma dot_bound (v n : vec b64) : Rabs (rdot v v - 1) <= / 1000 -> Rabs (rdot n n - 1) <= / 1000 -> -101 / 100 <= rdot v n <= 101 / 100.
Proof.
  intros V N. apply Rabs_le_inv in V, N. unfold rdot in *.
  pose proof (Rle_0_sqr (B2R (vx v) - B2R (vx n))). pose proof (Rle_0_sqr (B2R (vy v) - B2R (vy n))). pose proof (Rle_0_sqr (B2R (vz v) - B2R (vz n))).
  pose proof (Rle_0_sqr (B2R (vx v) + B2R (vx n))). pose proof (Rle_0_sqr (B2R (vy v) + B2R (vy n))). pose proof (Rle_0_sqr (B2R (vz v) + B2R (vz n))).
  unfold Rsqr in *. split; lra.
Qed.
Lemma sumsq_near a b c x y z e m : 0 <= e <= 1 -> 0 <= m -> - m <= x <= m -> - m <= y <= m -> - m <= z <= m ->
  - e <= a - x <= e -> - e <= b - y <= e -> - e <= c - z <= e ->
  Rabs (a * a + b * b + c * c - (x * x + y * y + z * z)) <= 3 * ((2 * m + 1) * e).
Proof.
  intros E M X Y Z A B C.
  assert (K : forall p q, - m <= q <= m -> - e <= p - q <= e -> - ((2 * m + 1) * e) <= p * p - q * q <= (2 * m + 1) * e).
  { intros p q Q P. replace (p * p - q * q) with ((p - q) * (p + q)) by ring.
    assert (- (2 * m + 1) <= p + q <= 2 * m + 1) by lra. pose proof (prod_bound e (2 * m + 1) (p - q) (p + q) P H). lra. }
  pose proof (K a x X A). pose proof (K b y Y B). pose proof (K c z Z C). apply Rabs_le. lra.
Qed.

(** ** reflection *)
Section Reflect.
  Variables v n : vec b64.
  Hypothesis Fv : all3 (fun x => is_finite x = true) v.
  Hypothesis Fn : all3 (fun x => is_finite x = true) n.
  Hypothesis Uv : Rabs (rdot v v - 1) <= / 1000.
  Hypothesis Un : Rabs (rdot n n - 1) <= 100 * u.

  Lemma Un' : Rabs (rdot n n - 1) <= / 1000.
  Proof. eapply Rle_trans; [exact Un|]. pose proof u_small. lra. Qed.

  Lemma dot_app : app (vdot v n) (rdot v n) (18 * u) 8.
  Proof.
    destruct Fv as (V1 & V2 & V3), Fn as (N1 & N2 & N3). destruct (comps v Uv) as (A1 & A2 & A3). destruct (comps n Un') as (B1 & B2 & B3).
    assert (K : forall x y, -101 / 100 <= x <= 101 / 100 -> -101 / 100 <= y <= 101 / 100 -> Rabs (x * y) <= bpow radix2 1).
    { intros x y X Y. change (bpow radix2 1) with 2. apply Rabs_le. pose proof (prod_bound (101 / 100) (101 / 100) x y). lra. }
    eapply app_le; [apply (vdot_u 1); auto; lia| |]; change (bpow radix2 1) with 2; lra.
  Qed.

  Lemma factor_app : app (nmul (nofZ (-2)) (vdot v n)) (-2 * rdot v n) (40 * u) 4.
  Proof.
    destruct dot_app as (F & E & _). destruct (Z_b (-2)) as [F2 E2]; [lia|]. pose proof (dot_bound v n Uv Un') as D. apply Rabs_le_inv in E. pose proof u_small. pose proof u_pos.
    destruct (mul_u 2 (nofZ (-2)) (vdot v n)) as (G & H1 & H2); [lia|exact F2|exact F| |].
    - rewrite E2. change (bpow radix2 2) with 4. apply Rabs_le. lra.
    - rewrite E2 in H1. change (bpow radix2 2) with 4 in *. apply Rabs_le_inv in H1. split; [exact G|]. split; [|exact H2]. apply Rabs_le. lra.
  Qed.

  Lemma comp_app (a b m : b64) c : is_finite a = true -> is_finite b = true -> -101 / 100 <= B2R a <= 101 / 100 -> -101 / 100 <= B2R b <= 101 / 100 ->
    app m (-2 * c) (40 * u) 4 -> -101 / 100 <= c <= 101 / 100 ->
    app (nadd a (nmul m b)) (B2R a - 2 * c * B2R b) (50 * u) 4.
  Proof.
    intros Fa Fb A B (Fm & Em & _) C. apply Rabs_le_inv in Em. pose proof u_small. pose proof u_pos.
    assert (P1 := prod_bound (40 * u) (101 / 100) (B2R m - -2 * c) (B2R b) ltac:(lra) ltac:(lra)).
    assert (P2 := prod_bound (202 / 100) (101 / 100) (-2 * c) (B2R b) ltac:(lra) ltac:(lra)).
    destruct (mul_u 2 m b) as (G & H1 & H2); [lia|exact Fm|exact Fb| |].
    - change (bpow radix2 2) with 4. apply Rabs_le. lra.
    - change (bpow radix2 2) with 4 in *. apply Rabs_le_inv in H1. destruct (add_u 2 a (nmul m b)) as (G' & H1' & H2'); [lia|exact Fa|exact G| |].
      + change (bpow radix2 2) with 4. apply Rabs_le. lra.
      + change (bpow radix2 2) with 4 in *. apply Rabs_le_inv in H1'. split; [exact G'|]. split; [|exact H2']. apply Rabs_le. lra.
  Qed.

  Let r := reflect v n.
  Theorem reflect_u : all3 (fun x => is_finite x = true) r /\ Rabs (rdot r r - rdot v v) <= 2000 * u /\ Rabs (rdot r n + rdot v n) <= 500 * u.
  Proof.
    destruct Fv as (V1 & V2 & V3), Fn as (N1 & N2 & N3). destruct (comps v Uv) as (A1 & A2 & A3). destruct (comps n Un') as (B1 & B2 & B3).
    pose proof (dot_bound v n Uv Un') as D. assert (Fm := factor_app).
    destruct (comp_app _ _ _ _ V1 N1 A1 B1 Fm D) as (F1 & E1 & _). destruct (comp_app _ _ _ _ V2 N2 A2 B2 Fm D) as (F2 & E2 & _). destruct (comp_app _ _ _ _ V3 N3 A3 B3 Fm D) as (F3 & E3 & _).
    apply Rabs_le_inv in E1, E2, E3. pose proof u_small. pose proof u_pos. pose proof Un as U. apply Rabs_le_inv in U.
    split; [exact (conj F1 (conj F2 F3))|].
    assert (L : Rabs (rdot r r - ((B2R (vx v) - 2 * rdot v n * B2R (vx n)) * (B2R (vx v) - 2 * rdot v n * B2R (vx n)) + (B2R (vy v) - 2 * rdot v n * B2R (vy n)) * (B2R (vy v) - 2 * rdot v n * B2R (vy n)) + (B2R (vz v) - 2 * rdot v n * B2R (vz n)) * (B2R (vz v) - 2 * rdot v n * B2R (vz n)))) <= 3 * ((2 * 4 + 1) * (50 * u))).
    { assert (K : forall a b, -101 / 100 <= a <= 101 / 100 -> -101 / 100 <= b <= 101 / 100 -> -4 <= a - 2 * rdot v n * b <= 4).
      { intros a b A B. pose proof (prod_bound (202 / 100) (101 / 100) (2 * rdot v n) b). lra. }
      apply sumsq_near; try lra; try (apply K; lra); assumption. }
    assert (Q : (B2R (vx v) - 2 * rdot v n * B2R (vx n)) * (B2R (vx v) - 2 * rdot v n * B2R (vx n)) + (B2R (vy v) - 2 * rdot v n * B2R (vy n)) * (B2R (vy v) - 2 * rdot v n * B2R (vy n)) + (B2R (vz v) - 2 * rdot v n * B2R (vz n)) * (B2R (vz v) - 2 * rdot v n * B2R (vz n))
      = rdot v v + 4 * (rdot v n * rdot v n * (rdot n n - 1))) by (unfold rdot; ring).
    rewrite Q in L. assert (DD := prod_bound (101 / 100) (101 / 100) (rdot v n) (rdot v n) ltac:(lra) ltac:(lra)).
    assert (P := prod_bound (11 / 10) (100 * u) (rdot v n * rdot v n) (rdot n n - 1) ltac:(lra) ltac:(lra)).
    split.
    - apply Rabs_le_inv in L. apply Rabs_le. lra.
    - assert (S : rdot r n + rdot v n = (B2R (vx r) - (B2R (vx v) - 2 * rdot v n * B2R (vx n))) * B2R (vx n) + (B2R (vy r) - (B2R (vy v) - 2 * rdot v n * B2R (vy n))) * B2R (vy n)
        + (B2R (vz r) - (B2R (vz v) - 2 * rdot v n * B2R (vz n))) * B2R (vz n) - 2 * (rdot v n * (rdot n n - 1))) by (unfold rdot; ring).
      rewrite S.
      assert (S1 := prod_bound (50 * u) (101 / 100) _ (B2R (vx n)) E1 ltac:(lra)). assert (S2 := prod_bound (50 * u) (101 / 100) _ (B2R (vy n)) E2 ltac:(lra)).
      assert (S3 := prod_bound (50 * u) (101 / 100) _ (B2R (vz n)) E3 ltac:(lra)). assert (S4 := prod_bound (101 / 100) (100 * u) (rdot v n) (rdot n n - 1) ltac:(lra) ltac:(lra)).
      change (nadd (vx v) (nmul (nmul (nofZ (-2)) (vdot v n)) (vx n))) with (vx r) in S1. change (nadd (vy v) (nmul (nmul (nofZ (-2)) (vdot v n)) (vy n))) with (vy r) in S2.
      change (nadd (vz v) (nmul (nmul (nofZ (-2)) (vdot v n)) (vz n))) with (vz r) in S3. apply Rabs_le. lra.
  Qed.
End Reflect.


Lemma usable_norm w : usable w -> all3 (fun x => is_finite x = true) (vnormalized w) /\ Rabs (rdot (vnormalized w) (vnormalized w) - 1) <= 100 * u.
Proof. intros [A B]. destruct (normalized_float w A B) as (F & E & _). rewrite u53. exact (conj F E). Qed.

Theorem mirror_once (v w : vec b64) : near_unit v -> usable w ->
  let n := vnormalized w in let r := reflect v n in
  all3 (fun x => is_finite x = true) r /\ Rabs (rdot r r - rdot v v) <= 2000 * bpow radix2 (-53) /\ Rabs (rdot r n + rdot v n) <= 500 * bpow radix2 (-53).
Proof. intros [F U] W. destruct (usable_norm w W) as [G N]. rewrite <- u53. exact (reflect_u v (vnormalized w) F G U N). Qed.

Lemma mirror_chain : forall ws v, all3 (fun x => is_finite x = true) v -> Forall usable ws ->
  Rabs (rdot v v - 1) + 2000 * u * INR (length ws) <= / 1000 ->
  let r := fold_left (fun d w => reflect d (vnormalized w)) ws v in
  all3 (fun x => is_finite x = true) r /\ Rabs (rdot r r - 1) <= Rabs (rdot v v - 1) + 2000 * u * INR (length ws).
Proof.
  pose proof u_pos as UP. induction ws as [|w ws IH]; intros v F W H; cbn [fold_left].
  - split; [exact F|]. cbn [length INR]. lra.
  - inversion W as [|? ? W1 W2]; subst. destruct (usable_norm w W1) as [G N]. cbn [length] in H |- *. rewrite S_INR in H |- *.
    assert (U : Rabs (rdot v v - 1) <= / 1000). { pose proof (pos_INR (length ws)). assert (0 <= 2000 * u * (INR (length ws) + 1)) by (apply Rmult_le_pos; lra). lra. }
    destruct (reflect_u v (vnormalized w) F G U N) as (F' & E & _).
    assert (S : Rabs (rdot (reflect v (vnormalized w)) (reflect v (vnormalized w)) - 1) <= Rabs (rdot v v - 1) + 2000 * u).
    { replace (rdot (reflect v (vnormalized w)) (reflect v (vnormalized w)) - 1) with ((rdot (reflect v (vnormalized w)) (reflect v (vnormalized w)) - rdot v v) + (rdot v v - 1)) by ring.
      eapply Rle_trans; [apply Rabs_triang|]. lra. }
    destruct (IH (reflect v (vnormalized w)) F' W2) as [F'' E'']; [lra|]. split; [exact F''|]. lra.
Qed.

Theorem mirrors (v : vec b64) (ws : list (vec b64)) : all3 (fun x => is_finite x = true) v -> Rabs (rdot v v - 1) <= / 2000 -> Forall usable ws -> (Z.of_nat (length ws) <= 1000000000)%Z ->
  let r := fold_left (fun d w => reflect d (vnormalized w)) ws v in
  near_unit r /\ Rabs (rdot r r - 1) <= Rabs (rdot v v - 1) + 2000 * bpow radix2 (-53) * INR (length ws).
Proof.
  intros F U W L. assert (B : INR (length ws) <= 1000000000) by (rewrite INR_IZR_INZ; now apply IZR_le).
  assert (S : 2000 * u * INR (length ws) <= / 4000).
  { pose proof u_pos. pose proof u_small. apply Rle_trans with (2000 * u * 1000000000); [apply Rmult_le_compat_l; lra|lra]. }
  destruct (mirror_chain ws v F W) as [F' E]; [lra|]. cbv zeta. split; [split; [exact F'|lra]|]. rewrite <- u53. exact E.
Qed.

(** ** refraction *)
Lemma flip_norm (n : vec b64) : all3 (fun x => is_finite x = true) n -> Rabs (rdot n n - 1) <= / 1000 ->
  let m := vmul n (nofZ (-1)) in all3 (fun x => is_finite x = true) m /\ B2R (vx m) = - B2R (vx n) /\ B2R (vy m) = - B2R (vy n) /\ B2R (vz m) = - B2R (vz n).
Proof.
  intros (F1 & F2 & F3) U. destruct (comps n U) as (A1 & A2 & A3). destruct (Z_b (-1)) as [Fo Eo]; [lia|].
  assert (K : forall x : b64, is_finite x = true -> -101 / 100 <= B2R x <= 101 / 100 -> is_finite (nmul (nofZ (-1)) x) = true /\ B2R (nmul (nofZ (-1)) x) = - B2R x).
  { intros x F X. destruct (bmul_correct (nofZ (-1)) x Fo F) as [G E].
    - rewrite Eo. apply Rle_trans with (bpow radix2 1); [|apply bpow_big; lia]. change (bpow radix2 1) with 2. apply Rabs_le. lra.
    - split; [exact G|]. rewrite E, Eo. replace (-1 * B2R x) with (- B2R x) by ring. apply rnd_id, fmt_opp, fmt_B2R. }
  destruct (K _ F1 A1), (K _ F2 A2), (K _ F3 A3). cbv zeta. unfold vmul, all3. cbn [vx vy vz]. repeat split; assumption.
Qed.

Lemma rnd_neg x : rnd (- x) = - rnd x.
Proof. unfold rnd. apply round_NE_opp. Qed.
Lemma val_dot (v n : vec b64) : all3 (fun x => is_finite x = true) v -> all3 (fun x => is_finite x = true) n -> Rabs (rdot v v - 1) <= / 1000 -> Rabs (rdot n n - 1) <= / 1000 ->
  B2R (vdot v n) = rnd (rnd (rnd (B2R (vx v) * B2R (vx n)) + rnd (B2R (vy v) * B2R (vy n))) + rnd (B2R (vz v) * B2R (vz n))).
Proof.
  intros (V1 & V2 & V3) (N1 & N2 & N3) Uv Un. destruct (comps v Uv) as (A1 & A2 & A3). destruct (comps n Un) as (B1 & B2 & B3).
  assert (K : forall x y : b64, is_finite x = true -> is_finite y = true -> -101 / 100 <= B2R x <= 101 / 100 -> -101 / 100 <= B2R y <= 101 / 100 ->
    is_finite (nmul x y) = true /\ B2R (nmul x y) = rnd (B2R x * B2R y) /\ Rabs (rnd (B2R x * B2R y)) <= 2).
  { intros x y Fx Fy X Y. assert (P : Rabs (B2R x * B2R y) <= bpow radix2 1) by (change (bpow radix2 1) with 2; apply Rabs_le; pose proof (prod_bound (101 / 100) (101 / 100) (B2R x) (B2R y)); lra).
    destruct (bmul_correct x y Fx Fy) as [G E]; [eapply Rle_trans; [exact P|apply bpow_big; lia]|]. split; [exact G|]. split; [exact E|]. apply rnd_abs_le; [apply (fmt_bpow 1); lia|exact P]. }
  destruct (K _ _ V1 N1 A1 B1) as (G1 & E1 & L1). destruct (K _ _ V2 N2 A2 B2) as (G2 & E2 & L2). destruct (K _ _ V3 N3 A3 B3) as (G3 & E3 & L3).
  assert (S : forall x y : b64, is_finite x = true -> is_finite y = true -> forall e f, Rabs (B2R x) <= e -> Rabs (B2R y) <= f -> e + f <= 8 -> is_finite (nadd x y) = true /\ B2R (nadd x y) = rnd (B2R x + B2R y)).
  { intros x y Fx Fy e f X Y L. apply badd_correct; try assumption. apply Rle_trans with (bpow radix2 3); [|apply bpow_big; lia]. change (bpow radix2 3) with 8. eapply Rle_trans; [apply Rabs_triang|lra]. }
  rewrite <- E1 in L1. rewrite <- E2 in L2. rewrite <- E3 in L3.
  destruct (S _ _ G1 G2 2 2 L1 L2) as [G4 E4]; [lra|].
  assert (L4 : Rabs (B2R (nadd (nmul (vx v) (vx n)) (nmul (vy v) (vy n)))) <= 4).
  { rewrite E4. apply rnd_abs_le; [apply (fmt_bpow 2); lia|]. eapply Rle_trans; [apply Rabs_triang|lra]. }
  destruct (S _ _ G4 G3 4 2 L4 L3) as [_ E5]; [lra|]. unfold vdot. rewrite E5, E4, E1, E2, E3. reflexivity.
Qed.

(** the state after line 43 of refractive.go *)
Lemma refract_state n1 n2 (dir normal : vec b64) : index n1 -> index n2 -> usable dir -> usable normal ->
  let f := refract n1 n2 dir normal in
  all3 (fun x => is_finite x = true) (rfI f) /\ Rabs (rdot (rfI f) (rfI f) - 1) <= 100 * u /\
  all3 (fun x => is_finite x = true) (rfN f) /\ Rabs (rdot (rfN f) (rfN f) - 1) <= 100 * u /\
  index (rfN1 f) /\ index (rfN2 f) /\ rfN12 f = ndiv (rfN1 f) (rfN2 f) /\ rfCosI f = nopp (vdot (rfI f) (rfN f)) /\
  B2R (vdot (rfI f) (rfN f)) <= 0 /\ rfSin2T f = nmul (nmul (rfN12 f) (rfN12 f)) (nsub (nofZ 1) (nmul (rfCosI f) (rfCosI f))).
Proof.
  intros I1 I2 D N. cbv zeta. unfold refract. destruct (usable_norm dir D) as [Fi Ui]. destruct (usable_norm normal N) as [Fn Un].
  set (i := vnormalized dir) in *. set (n := vnormalized normal) in *. clearbody i n.
  assert (Ui' : Rabs (rdot i i - 1) <= / 1000) by (pose proof u_small; lra). assert (Un' : Rabs (rdot n n - 1) <= / 1000) by (pose proof u_small; lra).
  destruct (dot_app i n Fi Fn Ui' Un) as (Fd & _ & _).
  assert (Z0 : is_finite (nofZ 0 : b64) = true /\ B2R (nofZ 0 : b64) = 0) by (apply Z_b; lia). destruct Z0 as [Fz Ez].
  assert (C : nltb (nofZ 0) (vdot i n) = Rltb (B2R (nofZ 0 : b64)) (B2R (vdot i n))) by (exact (Bltb_finite (nofZ 0) (vdot i n) Fz Fd)).
  rewrite Ez in C. rewrite C. destruct (Rltb_spec 0 (B2R (vdot i n))) as [P|P]; cbv iota beta.
  - destruct (flip_norm n Fn Un') as (Fm & E1 & E2 & E3). set (m := vmul n (nofZ (-1))) in *. clearbody m. cbn [rfI rfN rfN1 rfN2 rfN12 rfCosI rfSin2T].
    assert (Um : rdot m m = rdot n n) by (unfold rdot; rewrite E1, E2, E3; ring).
    repeat (split; [assumption || (rewrite Um; assumption) || reflexivity|]). split; [|reflexivity].
    rewrite (val_dot i m Fi Fm Ui') by (rewrite Um; exact Un'). rewrite (val_dot i n Fi Fn Ui' Un') in P. rewrite E1, E2, E3, <- !Ropp_mult_distr_r, !rnd_neg, <- Ropp_plus_distr, rnd_neg, <- Ropp_plus_distr, rnd_neg. lra.
  - cbn [rfI rfN rfN1 rfN2 rfN12 rfCosI rfSin2T]. repeat (split; [assumption || reflexivity|]). reflexivity.
Qed.

Section Refract.
  Variables (n1 n2 : b64) (i n : vec b64).
  Hypothesis I1 : index n1.
  Hypothesis I2 : index n2.
  Hypothesis Fi : all3 (fun x => is_finite x = true) i.
  Hypothesis Fn : all3 (fun x => is_finite x = true) n.
  Hypothesis Ui : Rabs (rdot i i - 1) <= 100 * u.
  Hypothesis Un : Rabs (rdot n n - 1) <= 100 * u.
  Hypothesis Front : B2R (vdot i n) <= 0.
  Let n12 := ndiv n1 n2.
  Let cosi := nopp (vdot i n).
  Let sin2 := nmul (nmul n12 n12) (nsub (nofZ 1) (nmul cosi cosi)).
  Let N := B2R n12.
  Let C := B2R cosi.

  Lemma one_R : is_finite (nofZ 1 : b64) = true /\ B2R (nofZ 1 : b64) = 1. Proof. apply Z_b. lia. Qed.
  Lemma Ui' : Rabs (rdot i i - 1) <= / 1000. Proof. pose proof u_small. eapply Rle_trans; [exact Ui|lra]. Qed.
  Lemma Unn' : Rabs (rdot n n - 1) <= / 1000. Proof. pose proof u_small. eapply Rle_trans; [exact Un|lra]. Qed.

  Lemma ratio_ok : is_finite n12 = true /\ 0 <= N <= 16.
  Proof.
    destruct I1 as [F1 B1], I2 as [F2 B2]. assert (Q : 0 <= B2R n1 / B2R n2 <= 16).
    { split; [apply Rmult_le_pos; [lra|left; apply Rinv_0_lt_compat; lra]|]. apply Rmult_le_reg_r with (B2R n2); [lra|]. unfold Rdiv. rewrite Rmult_assoc, Rinv_l by lra. lra. }
    destruct (bdiv_correct n1 n2 F1) as [F E]; [lra| |].
    - apply Rle_trans with (bpow radix2 4); [|apply bpow_big; lia]. change (bpow radix2 4) with 16. apply Rabs_le. lra.
    - split; [exact F|]. unfold N, n12. rewrite E. split; [apply rnd_nonneg; lra|]. apply rnd_le; [apply (fmt_bpow 4); lia|lra].
  Qed.

  Lemma cosi_ok : is_finite cosi = true /\ 0 <= C <= 1011 / 1000 /\ Rabs (rdot i n + C) <= 18 * u.
  Proof.
    destruct (dot_app i n Fi Fn Ui' Un) as (F & E & _). unfold C, cosi. destruct (opp_R (vdot i n)) as [Fo Eo]. rewrite Fo, Eo. split; [exact F|].
    pose proof (dot_bound i n Ui' Unn') as D. apply Rabs_le_inv in E. pose proof u_small. split; [lra|]. apply Rabs_le. lra.
  Qed.

  Lemma sin2_ok : is_finite sin2 = true /\ Rabs (B2R sin2 - N * N * (1 - C * C)) <= 2000 * u /\ -7 <= B2R sin2.
  Proof.
    destruct ratio_ok as [F1 B1]. destruct cosi_ok as (F2 & B2 & _). destruct one_R as [Fo Eo]. pose proof u_small as US. pose proof u_pos as UP.
    assert (CC : 0 <= C * C <= 1023 / 1000) by nra. assert (NN : 0 <= N * N <= 256) by nra.
    destruct (mul_u 1 cosi cosi) as (G1 & E1 & _); [lia|exact F2|exact F2|fold C; change (bpow radix2 1) with 2; apply Rabs_le; lra|]. fold C in E1. change (bpow radix2 1) with 2 in E1. apply Rabs_le_inv in E1.
    set (c2 := nmul cosi cosi) in *. clearbody c2.
    destruct (sub_u 1 (nofZ 1) c2) as (G2 & E2 & _); [lia|exact Fo|exact G1|rewrite Eo; change (bpow radix2 1) with 2; apply Rabs_le; lra|]. rewrite Eo in E2. change (bpow radix2 1) with 2 in E2. apply Rabs_le_inv in E2.
    set (d := nsub (nofZ 1) c2) in *. clearbody d.
    destruct (mul_u 8 n12 n12) as (G3 & E3 & _); [lia|exact F1|exact F1|fold N; change (bpow radix2 8) with 256; apply Rabs_le; lra|]. fold N in E3. change (bpow radix2 8) with 256 in E3. apply Rabs_le_inv in E3.
    set (nn := nmul n12 n12) in *. clearbody nn.
    assert (D : - (102 / 100) <= B2R d <= 102 / 100) by lra.
    assert (P1 := prod_bound (256 * u) (102 / 100) (B2R nn - N * N) (B2R d) ltac:(lra) D).
    assert (P2 := prod_bound 256 (4 * u) (N * N) (B2R d - (1 - C * C)) ltac:(lra) ltac:(lra)).
    assert (P3 := prod_bound 256 (102 / 100) (N * N) (1 - C * C) ltac:(lra) ltac:(lra)).
    assert (P4 : N * N * (1 - C * C) >= -6) by nra.
    assert (S : B2R nn * B2R d = (B2R nn - N * N) * B2R d + N * N * (B2R d - (1 - C * C)) + N * N * (1 - C * C)) by ring.
    destruct (mul_u 9 nn d) as (G4 & E4 & _); [lia|exact G3|exact G2|change (bpow radix2 9) with 512; apply Rabs_le; lra|]. change (bpow radix2 9) with 512 in E4. apply Rabs_le_inv in E4.
    split; [exact G4|]. unfold sin2. split; [apply Rabs_le; lra|lra].
  Qed.

  Hypothesis NoTotal : B2R sin2 <= 1.
  Let cost := nsqrt (nsub (nofZ 1) sin2).
  Let W := B2R cost.

  Lemma under_sqrt : is_finite (nsub (nofZ 1) sin2) = true /\ 0 <= B2R (nsub (nofZ 1) sin2) <= 9 /\ Rabs (B2R (nsub (nofZ 1) sin2) - (1 - B2R sin2)) <= 8 * u.
  Proof.
    destruct sin2_ok as (F & E & L). destruct one_R as [Fo Eo]. pose proof u_small as US. pose proof u_pos as UP.
    destruct (sub_u 3 (nofZ 1) sin2) as (G & E1 & _); [lia|exact Fo|exact F|rewrite Eo; change (bpow radix2 3) with 8; apply Rabs_le; lra|]. rewrite Eo in E1. change (bpow radix2 3) with 8 in E1.
    split; [exact G|]. split; [|exact E1]. apply Rabs_le_inv in E1. split; [|lra].
    destruct (bsub_correct (nofZ 1) sin2 Fo F) as [_ E2].
    - rewrite Eo. apply Rle_trans with (bpow radix2 3); [|apply bpow_big; lia]. change (bpow radix2 3) with 8. apply Rabs_le. lra.
    - rewrite E2, Eo. apply rnd_nonneg. lra.
  Qed.

  Lemma cost_ok : is_finite cost = true /\ 0 <= W <= 4 /\ Rabs (W * W - (1 - N * N * (1 - C * C))) <= 2050 * u.
  Proof.
    destruct under_sqrt as (F & B & E). destruct sin2_ok as (_ & S & _). pose proof u_small as US. pose proof u_pos as UP.
    set (q := nsub (nofZ 1) sin2) in *. assert (SQ : 0 <= sqrt (B2R q) <= 3).
    { split; [apply sqrt_pos|]. replace 3 with (sqrt (3 * 3)) by (apply sqrt_square; lra). apply sqrt_le_1_alt. lra. }
    destruct (sqrt_u 2 q) as [(G & E1 & M) P]; [lia|exact F|lra|change (bpow radix2 2) with 4; lra|]. change (bpow radix2 2) with 4 in E1, M. change (nsqrt q) with cost in G, E1, M, P. fold W in E1, M, P.
    apply Rabs_le_inv in M, E1. split; [exact G|]. split; [lra|].
    assert (SS : sqrt (B2R q) * sqrt (B2R q) = B2R q) by (apply sqrt_sqrt; lra).
    assert (X := prod_bound (4 * u) 7 (W - sqrt (B2R q)) (W + sqrt (B2R q)) ltac:(lra) ltac:(lra)).
    apply Rabs_le_inv in E, S. apply Rabs_le.
    replace (W * W) with ((W - sqrt (B2R q)) * (W + sqrt (B2R q)) + sqrt (B2R q) * sqrt (B2R q)) by ring. rewrite SS. lra.
  Qed.

  Lemma amount_ok : let a := nsub (nmul n12 cosi) cost in is_finite a = true /\ Rabs (B2R a - (N * C - W)) <= 64 * u.
  Proof.
    destruct ratio_ok as [F1 B1]. destruct cosi_ok as (F2 & B2 & _). destruct cost_ok as (F3 & B3 & _). pose proof u_small as US. pose proof u_pos as UP.
    assert (NC : 0 <= N * C <= 17) by nra. cbv zeta.
    destruct (mul_u 5 n12 cosi) as (G1 & E1 & _); [lia|exact F1|exact F2|fold N C; change (bpow radix2 5) with 32; apply Rabs_le; lra|]. fold N C in E1. change (bpow radix2 5) with 32 in E1. apply Rabs_le_inv in E1.
    destruct (sub_u 5 (nmul n12 cosi) cost) as (G2 & E2 & _); [lia|exact G1|exact F3|fold W; change (bpow radix2 5) with 32; apply Rabs_le; lra|]. fold W in E2. change (bpow radix2 5) with 32 in E2. apply Rabs_le_inv in E2.
    split; [exact G2|]. apply Rabs_le. lra.
  Qed.

  Lemma trans_comp (a x y : b64) : is_finite a = true -> Rabs (B2R a - (N * C - W)) <= 64 * u -> is_finite x = true -> is_finite y = true ->
    -101 / 100 <= B2R x <= 101 / 100 -> -101 / 100 <= B2R y <= 101 / 100 ->
    is_finite (nadd (nmul n12 x) (nmul a y)) = true /\ - (200 * u) <= B2R (nadd (nmul n12 x) (nmul a y)) - (N * B2R x + (N * C - W) * B2R y) <= 200 * u.
  Proof.
    intros Fa Ea Fx Fy X Y. destruct ratio_ok as [F1 B1]. destruct cosi_ok as (F2 & B2 & _). destruct cost_ok as (F3 & B3 & _). pose proof u_small as US. pose proof u_pos as UP.
    assert (NC : 0 <= N * C <= 17) by nra. apply Rabs_le_inv in Ea.
    assert (P1 := prod_bound 16 (101 / 100) N (B2R x) ltac:(lra) ltac:(lra)).
    assert (P2 := prod_bound 17 (101 / 100) (N * C - W) (B2R y) ltac:(lra) ltac:(lra)).
    assert (P3 := prod_bound (64 * u) (101 / 100) (B2R a - (N * C - W)) (B2R y) ltac:(lra) ltac:(lra)).
    destruct (mul_u 5 n12 x) as (G1 & E1 & _); [lia|exact F1|exact Fx|fold N; change (bpow radix2 5) with 32; apply Rabs_le; lra|]. fold N in E1. change (bpow radix2 5) with 32 in E1. apply Rabs_le_inv in E1.
    destruct (mul_u 5 a y) as (G2 & E2 & _); [lia|exact Fa|exact Fy|change (bpow radix2 5) with 32; apply Rabs_le; lra|]. change (bpow radix2 5) with 32 in E2. apply Rabs_le_inv in E2.
    destruct (add_u 6 (nmul n12 x) (nmul a y)) as (G3 & E3 & _); [lia|exact G1|exact G2|change (bpow radix2 6) with 64; apply Rabs_le; lra|]. change (bpow radix2 6) with 64 in E3. apply Rabs_le_inv in E3.
    split; [exact G3|]. lra.
  Qed.

  Theorem transmitted_u : let t := vmadd (vmul i n12) (nsub (nmul n12 cosi) cost) n in
    all3 (fun x => is_finite x = true) t /\ Rabs (rdot t t - 1) <= 150000 * u /\ Rabs (rdot t n + W) <= 3000 * u.
  Proof.
    destruct ratio_ok as [F1 B1]. destruct cosi_ok as (F2 & B2 & E2). destruct cost_ok as (F3 & B3 & E3). pose proof u_small as US. pose proof u_pos as UP.
    destruct amount_ok as [Fa Ea]. set (a := nsub (nmul n12 cosi) cost) in *. clearbody a.
    destruct Fi as (i1 & i2 & i3), Fn as (g1 & g2 & g3). destruct (comps i Ui') as (A1 & A2 & A3). destruct (comps n Unn') as (C1 & C2 & C3).
    destruct (trans_comp a _ _ Fa Ea i1 g1 A1 C1) as [T1 D1]. destruct (trans_comp a _ _ Fa Ea i2 g2 A2 C2) as [T2 D2]. destruct (trans_comp a _ _ Fa Ea i3 g3 A3 C3) as [T3 D3].
    cbv zeta. set (t := vmadd (vmul i n12) a n). change (nadd (nmul n12 (vx i)) (nmul a (vx n))) with (vx t) in *. change (nadd (nmul n12 (vy i)) (nmul a (vy n))) with (vy t) in *. change (nadd (nmul n12 (vz i)) (nmul a (vz n))) with (vz t) in *.
    clearbody t. split; [exact (conj T1 (conj T2 T3))|].
    assert (NC : 0 <= N * C <= 17) by nra. set (A := N * C - W) in *. assert (AB : -4 <= A <= 17) by (unfold A; lra).
    apply Rabs_le_inv in E2, E3. assert (Ui0 := Ui). assert (Un0 := Un). apply Rabs_le_inv in Ui0, Un0.
    assert (K : forall x y, -101 / 100 <= x <= 101 / 100 -> -101 / 100 <= y <= 101 / 100 -> - 37 <= N * x + A * y <= 37).
    { intros x y X Y. assert (P1 := prod_bound 16 (101 / 100) N x ltac:(lra) ltac:(lra)). assert (P2 := prod_bound 17 (101 / 100) A y ltac:(lra) ltac:(lra)). lra. }
    assert (L : Rabs (rdot t t - ((N * B2R (vx i) + A * B2R (vx n)) * (N * B2R (vx i) + A * B2R (vx n)) + (N * B2R (vy i) + A * B2R (vy n)) * (N * B2R (vy i) + A * B2R (vy n)) + (N * B2R (vz i) + A * B2R (vz n)) * (N * B2R (vz i) + A * B2R (vz n)))) <= 3 * ((2 * 37 + 1) * (200 * u))).
    { apply sumsq_near; try lra; try (apply K; lra); assumption. }
    assert (Q : (N * B2R (vx i) + A * B2R (vx n)) * (N * B2R (vx i) + A * B2R (vx n)) + (N * B2R (vy i) + A * B2R (vy n)) * (N * B2R (vy i) + A * B2R (vy n)) + (N * B2R (vz i) + A * B2R (vz n)) * (N * B2R (vz i) + A * B2R (vz n))
      = N * N * (rdot i i - 1) + 2 * (N * A * (rdot i n + C)) + A * A * (rdot n n - 1) + (W * W - (1 - N * N * (1 - C * C))) + 1) by (unfold rdot, A; ring).
    rewrite Q in L. clear Q. assert (NN : 0 <= N * N <= 256) by nra. assert (AA : 0 <= A * A <= 289) by nra. assert (NA := prod_bound 16 17 N A ltac:(lra) ltac:(lra)).
    assert (P1 := prod_bound 256 (100 * u) (N * N) (rdot i i - 1) ltac:(lra) ltac:(lra)). assert (P2 := prod_bound 272 (18 * u) (N * A) (rdot i n + C) ltac:(lra) ltac:(lra)).
    assert (P3 := prod_bound 289 (100 * u) (A * A) (rdot n n - 1) ltac:(lra) ltac:(lra)).
    split.
    - apply Rabs_le_inv in L. apply Rabs_le. lra.
    - assert (S : rdot t n + W = (B2R (vx t) - (N * B2R (vx i) + A * B2R (vx n))) * B2R (vx n) + (B2R (vy t) - (N * B2R (vy i) + A * B2R (vy n))) * B2R (vy n)
        + (B2R (vz t) - (N * B2R (vz i) + A * B2R (vz n))) * B2R (vz n) + N * (rdot i n + C) + A * (rdot n n - 1)) by (unfold rdot, A; ring).
      rewrite S. assert (S1 := prod_bound (200 * u) (101 / 100) _ (B2R (vx n)) D1 ltac:(lra)). assert (S2 := prod_bound (200 * u) (101 / 100) _ (B2R (vy n)) D2 ltac:(lra)).
      assert (S3 := prod_bound (200 * u) (101 / 100) _ (B2R (vz n)) D3 ltac:(lra)). assert (S4 := prod_bound 16 (18 * u) N (rdot i n + C) ltac:(lra) ltac:(lra)).
      assert (S5 := prod_bound 17 (100 * u) A (rdot n n - 1) ltac:(lra) ltac:(lra)). apply Rabs_le. lra.
  Qed.
End Refract.

Theorem glass (n1 n2 : b64) (dir normal : vec b64) : index n1 -> index n2 -> usable dir -> usable normal ->
  let f := refract n1 n2 dir normal in totalReflection f = false ->
  let t := transmitted f in let r := reflect (rfI f) (rfN f) in
  (all3 (fun x => is_finite x = true) t /\ Rabs (rdot t t - 1) <= 150000 * bpow radix2 (-53) /\ rdot t (rfN f) <= 3000 * bpow radix2 (-53)) /\
  (all3 (fun x => is_finite x = true) r /\ Rabs (rdot r r - 1) <= 2100 * bpow radix2 (-53) /\ - (600 * bpow radix2 (-53)) <= rdot r (rfN f)).
Proof.
  intros I1 I2 D N f T. destruct (refract_state n1 n2 dir normal I1 I2 D N) as (Fi & Ui & Fn & Un & J1 & J2 & E12 & Ec & Fr & Es). fold f in Fi, Ui, Fn, Un, J1, J2, E12, Ec, Fr, Es.
  cbv zeta. unfold transmitted. rewrite <- u53. clearbody f. destruct f as [i n m1 m2 n12 cosi sin2]. unfold totalReflection in T. cbn [rfI rfN rfN1 rfN2 rfN12 rfCosI rfSin2T] in *. subst n12 cosi.
  destruct (sin2_ok m1 m2 i n J1 J2 Fi Fn Ui Un Fr) as (Fs & _). rewrite <- Es in Fs. destruct one_R as [Fo Eo].
  assert (C : nltb (nofZ 1) sin2 = Rltb (B2R (nofZ 1 : b64)) (B2R sin2)) by (exact (Bltb_finite (nofZ 1) sin2 Fo Fs)). rewrite Eo in C. rewrite C in T. apply Rltb_false in T.
  rewrite Es in T. destruct (transmitted_u m1 m2 i n J1 J2 Fi Fn Ui Un Fr T) as (Ft & Et & St). destruct (cost_ok m1 m2 i n J1 J2 Fi Fn Ui Un Fr T) as (_ & Wt & _).
  rewrite <- Es in Ft, Et, St, Wt. pose proof u_pos as UP. pose proof u_small as US. split.
  - split; [exact Ft|]. split; [exact Et|]. apply Rabs_le_inv in St. lra.
  - assert (Ui' : Rabs (rdot i i - 1) <= / 1000) by lra. destruct (reflect_u i n Fi Fn Ui' Un) as (Fq & Eq & Sq). split; [exact Fq|]. apply Rabs_le_inv in Eq, Sq.
    destruct (cosi_ok i n Fi Fn Ui Un Fr) as (_ & B & K). apply Rabs_le_inv in Ui. apply Rabs_le_inv in K. split; [apply Rabs_le; lra|lra].
Qed.

(** *** Fresnel weights *)

Lemma half_R : is_finite (nQ 1 2 : b64) = true /\ B2R (nQ 1 2 : b64) = / 2.
Proof.
  destruct (Z_b 1 ltac:(lia)) as [F1 E1]. destruct (Z_b 2 ltac:(lia)) as [F2 E2]. unfold nQ.
  destruct (bdiv_correct (nofZ 1) (nofZ 2) F1) as [F E]; [rewrite E2; lra|rewrite E1, E2; apply Rle_trans with (bpow radix2 0); [change (bpow radix2 0) with 1; apply Rabs_le; lra|apply bpow_big; lia]|].
  split; [exact F|]. refine (eq_trans E _). rewrite E1, E2. replace (1 / 2) with (bpow radix2 (-1)) by (change (bpow radix2 (-1)) with (/ 2); lra). rewrite rnd_id by (apply (fmt_bpow (-1)); lia). reflexivity.
Qed.

Lemma share (a b : b64) : is_finite a = true -> is_finite b = true -> 0 <= B2R a <= 100 -> 0 <= B2R b <= 100 -> 0 < B2R a + B2R b ->
  weight (sqr (ndiv (nsub a b) (nadd a b))).
Proof.
  intros Fa Fb A B P.
  assert (BB : 256 <= bpow radix2 1023) by (change 256 with (bpow radix2 8); apply bpow_le; lia).
  destruct (bsub_correct a b Fa Fb) as [Fs Es]; [apply Rle_trans with 256; [apply Rabs_le; lra|apply (bpow_big 8); lia]|].
  destruct (badd_correct a b Fa Fb) as [Fp Ep]; [apply Rle_trans with 256; [apply Rabs_le; lra|apply (bpow_big 8); lia]|].
  assert (Pp : 0 < B2R (nadd a b)).
  { rewrite Ep. assert (B2R a <= rnd (B2R a + B2R b)) by (apply rnd_ge; [apply fmt_B2R|lra]). assert (B2R b <= rnd (B2R a + B2R b)) by (apply rnd_ge; [apply fmt_B2R|lra]). lra. }
  assert (Q : Rabs (B2R (nsub a b)) <= B2R (nadd a b)).
  { rewrite Es, Ep. apply Rabs_le. split; [|apply rnd_mono; lra]. rewrite <- rnd_neg. apply rnd_mono. lra. }
  assert (QQ : Rabs (B2R (nsub a b) / B2R (nadd a b)) <= 1).
  { unfold Rdiv. rewrite Rabs_mult, (Rabs_pos_eq (/ _)) by (left; apply Rinv_0_lt_compat; exact Pp). apply Rmult_le_reg_r with (B2R (nadd a b)); [exact Pp|]. rewrite Rmult_assoc, Rinv_l by lra. lra. }
  destruct (bdiv_correct (nsub a b) (nadd a b) Fs) as [Fq Eq]; [lra|apply Rle_trans with (bpow radix2 0); [exact QQ|apply bpow_big; lia]|].
  set (q := ndiv (nsub a b) (nadd a b)) in *. assert (Bq : -1 <= B2R q <= 1).
  { apply Rabs_le_inv. rewrite Eq. apply rnd_abs_le; [apply (fmt_bpow 0); lia|exact QQ]. }
  clearbody q. assert (SQ : 0 <= B2R q * B2R q <= 1) by nra. unfold sqr, weight.
  destruct (bmul_correct q q Fq Fq) as [Fr Er]; [apply Rle_trans with (bpow radix2 0); [change (bpow radix2 0) with 1; apply Rabs_le; lra|apply bpow_big; lia]|].
  split; [exact Fr|]. rewrite Er. split; [apply rnd_nonneg; lra|apply rnd_le; [apply (fmt_bpow 0); lia|lra]].
Qed.

Lemma weight_half (p s : b64) : weight p -> weight s -> weight (nmul (nQ 1 2) (nadd p s)).
Proof.
  intros [Fp Bp] [Fs Bs]. destruct half_R as [Fh Eh]. assert (Two : fmt 2) by (apply (fmt_Z 2); lia).
  destruct (badd_correct p s Fp Fs) as [Fa Ea]; [apply Rle_trans with (bpow radix2 1); [change (bpow radix2 1) with 2; apply Rabs_le; lra|apply bpow_big; lia]|].
  assert (Ba : 0 <= B2R (nadd p s) <= 2) by (rewrite Ea; split; [apply rnd_nonneg; lra|apply rnd_le; [exact Two|lra]]).
  destruct (bmul_correct (nQ 1 2) (nadd p s) Fh Fa) as [Fm Em]; [rewrite Eh; apply Rle_trans with (bpow radix2 1); [change (bpow radix2 1) with 2; apply Rabs_le; lra|apply bpow_big; lia]|].
  split; [exact Fm|]. rewrite Em, Eh. split; [apply rnd_nonneg; lra|apply rnd_le; [apply (fmt_bpow 0); lia|lra]].
Qed.

(** products of an index and a cosine *)
Lemma part (n c : b64) : index n -> is_finite c = true -> 0 <= B2R c <= 4 ->
  is_finite (nmul n c) = true /\ 0 <= B2R (nmul n c) <= 16 /\ (bpow radix2 (-1000) <= B2R c -> 0 < B2R (nmul n c)).
Proof.
  intros [Fn Bn] Fc Bc. assert (P : 0 <= B2R n * B2R c <= 16) by nra.
  destruct (bmul_correct n c Fn Fc) as [F E]; [apply Rle_trans with (bpow radix2 4); [change (bpow radix2 4) with 16; apply Rabs_le; lra|apply bpow_big; lia]|].
  split; [exact F|]. rewrite E. split; [split; [apply rnd_nonneg; lra|apply rnd_le; [apply (fmt_bpow 4); lia|lra]]|].
  intros L. apply Rlt_le_trans with (bpow radix2 (-1002)); [apply bpow_gt_0|]. apply rnd_ge; [apply fmt_bpow; lia|].
  replace (bpow radix2 (-1002)) with (/ 4 * bpow radix2 (-1000)); [pose proof (bpow_gt_0 radix2 (-1000)); apply Rmult_le_compat; lra|].
  change (-1002)%Z with (-2 + -1000)%Z. rewrite bpow_plus. reflexivity.
Qed.

Theorem fresnel_weight (n1 n2 cosi cost : b64) : index n1 -> index n2 -> is_finite cosi = true -> is_finite cost = true ->
  0 <= B2R cosi <= 4 -> 0 <= B2R cost <= 4 -> bpow radix2 (-1000) <= B2R cosi \/ bpow radix2 (-1000) <= B2R cost ->
  weight (fresnelR n1 n2 cosi cost).
Proof.
  intros I1 I2 Fi Ft Bi Bt P. unfold fresnelR.
  destruct (part n1 cosi I1 Fi Bi) as (A1 & A2 & A3). destruct (part n2 cosi I2 Fi Bi) as (B1 & B2 & B3).
  destruct (part n1 cost I1 Ft Bt) as (C1 & C2 & C3). destruct (part n2 cost I2 Ft Bt) as (D1 & D2 & D3).
  apply weight_half; apply share; try assumption; lra.
Qed.

Lemma rest (r : b64) : weight r -> weight (nsub (nofZ 1) r) /\ Rabs (B2R r + B2R (nsub (nofZ 1 : b64) r) - 1) <= bpow radix2 (-53).
Proof.
  intros [F B]. destruct one_R as [Fo Eo]. assert (Rabs (1 - B2R r) <= bpow radix2 0) by (change (bpow radix2 0) with 1; apply Rabs_le; lra).
  destruct (sub_u 0 (nofZ 1) r) as (G & E & M); [lia|exact Fo|exact F|rewrite Eo; assumption|].
  destruct (bsub_correct (nofZ 1) r Fo F) as [_ E2]; [rewrite Eo; eapply Rle_trans; [eassumption|apply bpow_big; lia]|].
  rewrite Eo in E. split.
  - split; [exact G|]. rewrite E2, Eo. split; [apply rnd_nonneg; lra|apply rnd_le; [apply (fmt_bpow 0); lia|lra]].
  - rewrite <- u53. change (bpow radix2 0) with 1 in E. apply Rabs_le_inv in E. apply Rabs_le. lra.
Qed.

Theorem glass_weights (n1 n2 : b64) (dir normal : vec b64) : index n1 -> index n2 -> usable dir -> usable normal ->
  let f := refract n1 n2 dir normal in totalReflection f = false -> bpow radix2 (-1000) <= B2R (rfCosI f) ->
  let r := refractR f in let t := nsub (nofZ 1) r in
  weight r /\ weight t /\ Rabs (B2R r + B2R t - 1) <= bpow radix2 (-53).
Proof.
  intros I1 I2 D N f T G. destruct (refract_state n1 n2 dir normal I1 I2 D N) as (Fi & Ui & Fn & Un & J1 & J2 & E12 & Ec & Fr & Es). fold f in Fi, Ui, Fn, Un, J1, J2, E12, Ec, Fr, Es.
  cbv zeta. enough (W : weight (refractR f)) by (exact (conj W (rest _ W))).
  unfold refractR. clearbody f. destruct f as [i n m1 m2 n12 cosi sin2]. unfold totalReflection in T. cbn [rfI rfN rfN1 rfN2 rfN12 rfCosI rfSin2T] in *. subst n12 cosi.
  destruct (sin2_ok m1 m2 i n J1 J2 Fi Fn Ui Un Fr) as (Fs & _). rewrite <- Es in Fs. destruct one_R as [Fo Eo].
  assert (C : nltb (nofZ 1) sin2 = Rltb (B2R (nofZ 1 : b64)) (B2R sin2)) by (exact (Bltb_finite (nofZ 1) sin2 Fo Fs)). rewrite Eo in C. rewrite C in T. apply Rltb_false in T.
  rewrite Es in T. destruct (cost_ok m1 m2 i n J1 J2 Fi Fn Ui Un Fr T) as (Ft & Wt & _). rewrite <- Es in Ft, Wt.
  destruct (cosi_ok i n Fi Fn Ui Un Fr) as (Fc & Bc & _). apply fresnel_weight; try assumption; [lra|left; exact G].
Qed.

(** [fresnelReflection] of reflective.go: light arriving from outside a body that is at least as dense *)
Theorem coat_weights (n cosi : b64) : FloatSpec.between 1 4 n -> is_finite cosi = true -> bpow radix2 (-1000) <= B2R cosi <= 1001 / 1000 ->
  let r := fresnelReflection (nofZ 1) n cosi in let t := nsub (nofZ 1) r in
  weight r /\ weight t /\ Rabs (B2R r + B2R t - 1) <= bpow radix2 (-53).
Proof.
  intros [Fn Bn] Fc Bc. cbv zeta. enough (W : weight (fresnelReflection (nofZ 1) n cosi)) by (exact (conj W (rest _ W))).
  destruct one_R as [Fo Eo]. pose proof u_small as US. pose proof u_pos as UP. pose proof (bpow_gt_0 radix2 (-1000)) as BP. unfold fresnelReflection.
  assert (Q : 0 <= B2R (nofZ 1 : b64) / B2R n <= 1).
  { rewrite Eo. split; [apply Rmult_le_pos; [lra|left; apply Rinv_0_lt_compat; lra]|]. apply Rmult_le_reg_r with (B2R n); [lra|]. unfold Rdiv. rewrite Rmult_assoc, Rinv_l by lra. lra. }
  assert (One : fmt 1) by (apply (fmt_Z 1); lia).
  destruct (bdiv_correct (nofZ 1) n Fo) as [F1 E1]; [lra|apply Rle_trans with (bpow radix2 0); [change (bpow radix2 0) with 1; apply Rabs_le; lra|apply bpow_big; lia]|].
  assert (B1 : 0 <= B2R (ndiv (nofZ 1) n) <= 1) by (rewrite E1; split; [apply rnd_nonneg; lra|apply rnd_le; [exact One|lra]]). clear E1 Q.
  set (q := ndiv (nofZ 1) n) in *. clearbody q.
  assert (QQ : 0 <= B2R q * B2R q <= 1) by nra. destruct (bmul_correct q q F1 F1) as [F2 E2]; [apply Rle_trans with (bpow radix2 0); [change (bpow radix2 0) with 1; apply Rabs_le; lra|apply bpow_big; lia]|].
  assert (B2 : 0 <= B2R (nmul q q) <= 1) by (rewrite E2; split; [apply rnd_nonneg; lra|apply rnd_le; [exact One|lra]]). clear E2.
  set (qq := nmul q q) in *. clearbody qq.
  assert (CC : 0 <= B2R cosi * B2R cosi <= 1003 / 1000) by nra.
  destruct (bmul_correct cosi cosi Fc Fc) as [F3 E3]; [apply Rle_trans with (bpow radix2 1); [change (bpow radix2 1) with 2; apply Rabs_le; lra|apply bpow_big; lia]|].
  assert (B3 : 0 <= B2R (nmul cosi cosi) <= 2) by (rewrite E3; split; [apply rnd_nonneg; lra|apply rnd_le; [apply (fmt_Z 2); lia|lra]]). clear E3.
  set (cc := nmul cosi cosi) in *. clearbody cc.
  destruct (bsub_correct (nofZ 1) cc Fo F3) as [F4 E4]; [rewrite Eo; apply Rle_trans with (bpow radix2 1); [change (bpow radix2 1) with 2; apply Rabs_le; lra|apply bpow_big; lia]|].
  assert (B4 : -1 <= B2R (nsub (nofZ 1) cc) <= 1).
  { rewrite E4, Eo. apply Rabs_le_inv. apply rnd_abs_le; [exact One|apply Rabs_le; lra]. } clear E4.
  set (d := nsub (nofZ 1) cc) in *. clearbody d.
  assert (P := prod_bound 1 1 (B2R qq) (B2R d) ltac:(lra) ltac:(lra)).
  destruct (bmul_correct qq d F2 F4) as [F5 E5]; [apply Rle_trans with (bpow radix2 0); [change (bpow radix2 0) with 1; apply Rabs_le; lra|apply bpow_big; lia]|].
  assert (B5 : -1 <= B2R (nmul qq d) <= 1) by (rewrite E5; apply Rabs_le_inv; apply rnd_abs_le; [exact One|apply Rabs_le; lra]). clear E5.
  set (s := nmul qq d) in *. clearbody s.
  destruct (bsub_correct (nofZ 1) s Fo F5) as [F6 E6]; [rewrite Eo; apply Rle_trans with (bpow radix2 1); [change (bpow radix2 1) with 2; apply Rabs_le; lra|apply bpow_big; lia]|].
  assert (B6 : 0 <= B2R (nsub (nofZ 1) s) <= 2) by (rewrite E6, Eo; split; [apply rnd_nonneg; lra|apply rnd_le; [apply (fmt_Z 2); lia|lra]]). clear E6.
  set (w := nsub (nofZ 1) s) in *. clearbody w.
  assert (SW : 0 <= sqrt (B2R w) <= 2) by (split; [apply sqrt_pos|]; replace 2 with (sqrt (2 * 2)) by (apply sqrt_square; lra); apply sqrt_le_1_alt; lra).
  destruct (sqrt_u 1 w) as [(G & _ & M) P0]; [lia|exact F6|lra|change (bpow radix2 1) with 2; lra|]. change (bpow radix2 1) with 2 in M. apply Rabs_le_inv in M.
  apply fresnel_weight; try assumption; [split; [exact Fo|rewrite Eo; lra]|split; [exact Fn|lra]|lra|lra|left; lra].
Qed.

(** *** ctx.Check accepts the directions *)
Theorem mirrors_accepted (v : vec b64) (ws : list (vec b64)) start : all3 (fun x => is_finite x = true) v -> Rabs (rdot v v - 1) <= 2100 * bpow radix2 (-53) -> Forall usable ws -> (Z.of_nat (length ws) <= 4000)%Z ->
  checkRay (Ray start (fold_left (fun d w => reflect d (vnormalized w)) ws v)) = Val tt.
Proof.
  intros Fv U W L. rewrite <- u53 in U. pose proof u_small as US. pose proof u_pos as UP.
  destruct (mirrors v ws Fv) as [[F _] E]; [lra|exact W|lia|]. rewrite <- u53 in E.
  assert (K : INR (length ws) <= 4000). { rewrite INR_IZR_INZ. apply (IZR_le _ 4000). exact L. }
  assert (K0 := pos_INR (length ws)). apply checkRay_accepts; [exact F|].
  assert (2000 * u * INR (length ws) <= 2000 * u * 4000) by (apply Rmult_le_compat_l; lra). cbn [rDir]. lra.
Qed.

Theorem glass_accepted (n1 n2 : b64) (dir normal : vec b64) start : index n1 -> index n2 -> usable dir -> usable normal ->
  let f := refract n1 n2 dir normal in totalReflection f = false ->
  checkRay (Ray start (transmitted f)) = Val tt /\ checkRay (Ray start (reflect (rfI f) (rfN f))) = Val tt.
Proof.
  intros I1 I2 D N f T. destruct (glass n1 n2 dir normal I1 I2 D N T) as [(F1 & E1 & _) (F2 & E2 & _)]. fold f in F1, E1, F2, E2. rewrite <- u53 in E1, E2.
  pose proof u_small as US. pose proof u_pos as UP. split; apply checkRay_accepts; try assumption; cbn [rDir]; lra.
Qed.

(** ** Grazing rays *)
Lemma grazing_nan :
  exists (n1 n2 : b64) (dir normal : vec b64), index n1 /\ index n2 /\ usable dir /\ usable normal /\
    let f := refract n1 n2 dir normal in totalReflection f = false /\ B2R (rfCosI f) = 0 /\
    is_nan (refractR f) = true /\ is_nan (nsub (nofZ 1) (refractR f)) = true /\ is_nan (fresnelReflection n1 n2 (rfCosI f)) = true.
Proof.
  destruct one_R as [Fo Eo]. destruct (Z_b 0 ltac:(lia)) as [Fz Ez].
  assert (I : index (nofZ 1)) by (split; [exact Fo|rewrite Eo; lra]).
  assert (M0 : at_most 400 (nofZ 0)) by (split; [exact Fz|rewrite Ez, Rabs_R0; apply bpow_ge_0]).
  assert (M1 : at_most 400 (nofZ 1)) by (split; [exact Fo|rewrite Eo, Rabs_R1; apply (bpow_le radix2 0 400); lia]).
  assert (L1 : at_least (-400) (nofZ 1)) by (unfold at_least; rewrite Eo, Rabs_R1; apply (bpow_le radix2 (-400) 0); lia).
  exists (nofZ 1), (nofZ 1), (Vec (nofZ 1) (nofZ 0) (nofZ 0)), (Vec (nofZ 0) (nofZ 1) (nofZ 0)).
  split; [exact I|]. split; [exact I|]. split; [exact (conj (conj M1 (conj M0 M0)) (or_introl L1))|]. split; [exact (conj (conj M0 (conj M1 M0)) (or_intror (or_introl L1)))|].
  cbv zeta. split; [vm_compute; reflexivity|]. split; [|split; [|split]; vm_compute; reflexivity].
  assert (Q : match rfCosI (refract (nofZ 1 : b64) (nofZ 1) (Vec (nofZ 1) (nofZ 0) (nofZ 0)) (Vec (nofZ 0) (nofZ 1) (nofZ 0))) with B754_zero _ => true | _ => false end = true) by (vm_compute; reflexivity).
  destruct (rfCosI _); try discriminate Q. reflexivity.
Qed.
