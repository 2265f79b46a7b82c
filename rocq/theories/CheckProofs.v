(** * Proofs about tracer/util.go *)
From Coq Require Import ZArith Reals Bool Lia Lra.
From Flocq Require Import Core.
From Flocq Require IEEE754.BinarySingleNaN.
Import IEEE754.BinarySingleNaN.
From Verif Require Import Num NumLaws B64 Outcome GeomModel ParamProofs BoxFloat ObjModel CheckModel CheckSpec FloatSpec FloatErr NormFloat.
Local Open Scope R_scope.

Lemma ltb_asym (x y : b64) : nltb x y = true -> nltb y x = false.
Proof.
  change (Bltb x y = true -> Bltb y x = false). rewrite !b64_key_ltb.
  destruct (b64_key x), (b64_key y); cbn; try reflexivity; try discriminate.
  unfold Rltb. destruct (Rlt_dec r r0), (Rlt_dec r0 r); try reflexivity; try discriminate. lra.
Qed.

Lemma frontT_nearest (s t : b64) :
  (ahead s \/ ahead t -> (frontT s t = s /\ nearest s t) \/ (frontT s t = t /\ nearest t s)) /\
  (~ ahead s -> ~ ahead t -> frontT s t = nofZ 0).
Proof.
  unfold frontT, nearest, ahead. destruct (nltb t s) eqn:E.
  - pose proof (ltb_asym _ _ E) as E'. destruct (nltb (nofZ 0) t) eqn:T; [|destruct (nltb (nofZ 0) s) eqn:S].
    + split; [|congruence]. intros _. right. auto.
    + split; [|congruence]. intros _. left. split; [reflexivity|]. split; congruence.
    + split; [|auto]. intros [H|H]; discriminate.
  - destruct (nltb (nofZ 0) s) eqn:S; [|destruct (nltb (nofZ 0) t) eqn:T].
    + split; [|congruence]. intros _. left. auto.
    + split; [|congruence]. intros _. right. split; [reflexivity|]. split; congruence.
    + split; [|auto]. intros [H|H]; discriminate.
Qed.

Lemma frontmost_nearest (M : Type) (a b : hit b64 M) :
  (ahead (hT a) \/ ahead (hT b) -> (frontmost a b = a /\ nearest (hT a) (hT b)) \/ (frontmost a b = b /\ nearest (hT b) (hT a))) /\
  (~ ahead (hT a) -> ~ ahead (hT b) -> frontmost a b = noHit).
Proof.
  unfold frontmost, nearest, ahead. destruct (nltb (hT b) (hT a)) eqn:E.
  - pose proof (ltb_asym _ _ E) as E'. destruct (nltb (nofZ 0) (hT b)) eqn:T; [|destruct (nltb (nofZ 0) (hT a)) eqn:S].
    + split; [|congruence]. intros _. right. auto.
    + split; [|congruence]. intros _. left. split; [reflexivity|]. split; congruence.
    + split; [|auto]. intros [H|H]; discriminate.
  - destruct (nltb (nofZ 0) (hT a)) eqn:S; [|destruct (nltb (nofZ 0) (hT b)) eqn:T].
    + split; [|congruence]. intros _. left. auto.
    + split; [|congruence]. intros _. right. split; [reflexivity|]. split; congruence.
    + split; [|auto]. intros [H|H]; discriminate.
Qed.

(** ** CheckHit *)
Lemma nan_l (x y : b64) : is_nan x = true -> is_nan (nadd x y) = true.
Proof. destruct x; try discriminate. intros _. destruct y; reflexivity. Qed.
Lemma nan_r (x y : b64) : is_nan y = true -> is_nan (nadd x y) = true.
Proof. destruct y; try discriminate. intros _. destruct x; reflexivity. Qed.

Lemma fin_nan (x : b64) : is_finite x = true -> is_nan x = false.
Proof. destruct x; try discriminate; reflexivity. Qed.

Lemma checkHit_nan (M : Type) (h : hit b64 M) : neqb (hT h) (nofZ 0) = false ->
  is_nan (hT h) || anyNaN (hNormal h) || anyNaN (hLocal h) = true -> checkHit h = Panic.
Proof.
  intros T H. unfold checkHit. rewrite T.
  match goal with |- (if nisnan ?s then _ else _) = _ => assert (N : is_nan s = true); [|change (nisnan s) with (is_nan s); rewrite N; reflexivity] end.
  unfold anyNaN in H. rewrite !orb_true_iff in H.
  destruct H as [[H|[[H|H]|H]]|[[H|H]|H]]; auto 12 using nan_l, nan_r.
Qed.

Lemma add_fin (x y : b64) a b : (0 <= a)%Z -> (a < b)%Z -> (b <= 1000)%Z -> at_most a x -> at_most a y -> at_most b (nadd x y).
Proof.
  intros A B C [F1 H1] [F2 H2].
  assert (E : bpow radix2 b >= 2 * bpow radix2 a).
  { apply Rle_ge. replace b with (1 + (b - 1))%Z by lia. rewrite bpow_plus. apply Rmult_le_compat_l; [apply bpow_ge_0|]. apply bpow_le. lia. }
  destruct (add_u b x y ltac:(lia) F1 F2) as (F & _ & G).
  - apply Rabs_le. apply Rabs_le_inv in H1, H2. lra.
  - split; assumption.
Qed.
Lemma up (x : b64) a b : (a <= b)%Z -> at_most a x -> at_most b x.
Proof. intros L [F H]. split; [exact F|]. eapply Rle_trans; [exact H|]. apply bpow_le, L. Qed.

Lemma checkHit_ok (M : Type) (h : hit b64 M) : at_most 990 (hT h) -> all3 (at_most 990) (hNormal h) -> all3 (at_most 990) (hLocal h) -> checkHit h = Val tt.
Proof.
  intros T (N1 & N2 & N3) (L1 & L2 & L3). unfold checkHit. destruct (neqb (hT h) (nofZ 0)); [reflexivity|].
  match goal with |- (if nisnan ?s then _ else _) = _ => assert (N : is_nan s = false); [|change (nisnan s) with (is_nan s); rewrite N; reflexivity] end.
  apply fin_nan.
  pose proof (add_fin _ _ 990 991 ltac:(lia) ltac:(lia) ltac:(lia) T N1) as A1.
  pose proof (add_fin _ _ 991 992 ltac:(lia) ltac:(lia) ltac:(lia) A1 (up _ 990 991 ltac:(lia) N2)) as A2.
  pose proof (add_fin _ _ 992 993 ltac:(lia) ltac:(lia) ltac:(lia) A2 (up _ 990 992 ltac:(lia) N3)) as A3.
  pose proof (add_fin _ _ 993 994 ltac:(lia) ltac:(lia) ltac:(lia) A3 (up _ 990 993 ltac:(lia) L1)) as A4.
  pose proof (add_fin _ _ 994 995 ltac:(lia) ltac:(lia) ltac:(lia) A4 (up _ 990 994 ltac:(lia) L2)) as A5.
  exact (proj1 (add_fin _ _ 995 996 ltac:(lia) ltac:(lia) ltac:(lia) A5 (up _ 990 995 ltac:(lia) L3))).
Qed.

(** ** CheckRay *)
Lemma tol_R : is_finite (nQ 1 1000000000 : b64) = true /\ Rabs (B2R (nQ 1 1000000000 : b64) - / 1000000000) <= u.
Proof.
  destruct (Z_b 1 ltac:(lia)) as [F1 E1]. destruct (Z_b 1000000000 ltac:(lia)) as [F2 E2].
  assert (B : B2R (nofZ 1 : b64) / B2R (nofZ 1000000000 : b64) = / 1000000000) by (rewrite E1, E2; unfold Rdiv; apply Rmult_1_l).
  destruct (div_u 0 (nofZ 1 : b64) (nofZ 1000000000) ltac:(lia) F1) as (F & E & _).
  - rewrite E2. apply IZR_neq. discriminate.
  - rewrite B. change (bpow radix2 0) with 1. rewrite Rabs_pos_eq; lra.
  - split; [exact F|]. rewrite B in E. change (bpow radix2 0) with 1 in E. rewrite Rmult_1_l in E. exact E.
Qed.

Lemma check_R (r : ray b64) q : is_finite (vlen2 (rDir r)) = true -> Rabs (B2R (vlen2 (rDir r)) - q) <= 100 * u -> 0 <= q <= 12 ->
  (Rabs (q - 1) <= 9 / 10000000000 -> checkRay r = Val tt) /\ (11 / 10000000000 <= Rabs (q - 1) -> checkRay r = Panic).
Proof.
  intros F E Q. destruct tol_R as [F1 E1]. destruct (Z_b 1 ltac:(lia)) as [F2 E2]. unfold checkRay.
  set (l := vlen2 (rDir r)) in *. clearbody l.
  assert (S : is_finite (nsub (nofZ 1 : b64) l) = true /\ Rabs (B2R (nsub (nofZ 1 : b64) l) - (1 - B2R l)) <= 16 * u).
  { destruct (sub_u 4 (nofZ 1) l ltac:(lia) F2 F) as (A & B & _).
    - rewrite E2. change (bpow radix2 4) with 16. apply Rabs_le_inv in E. rewrite u_val in E. apply Rabs_le. lra.
    - rewrite E2 in B. split; [exact A|exact B]. }
  destruct S as [F3 S]. set (d := nsub (nofZ 1) l) in *. clearbody d.
  assert (A : is_finite (nabs d) = true /\ B2R (nabs d) = Rabs (B2R d)).
  { split; [change (is_finite (Babs d) = true); rewrite is_finite_Babs; exact F3|apply B2R_Babs]. }
  destruct A as [F4 A]. set (m := nabs d) in *. clearbody m.
  generalize dependent (nQ 1 1000000000 : b64). intros tol F1 E1.
  change (nltb tol m) with (Bltb tol m). rewrite (Bltb_finite tol m F1 F4). unfold Rltb. rewrite A.
  apply Rabs_le_inv in E, E1, S. rewrite u_val in *.
  split; intros H; destruct (Rlt_dec (B2R tol) (Rabs (B2R d))) as [L|L]; try reflexivity; exfalso.
  - apply Rabs_le_inv in H. revert L. unfold Rabs. destruct (Rcase_abs (B2R d)); lra.
  - apply Rnot_lt_le in L. apply Rabs_le_inv in L. revert H. unfold Rabs. destruct (Rcase_abs (q - 1)); lra.
Qed.

Lemma len2_small (d : vec b64) : all3 (at_most 1) d -> is_finite (vlen2 d) = true /\ Rabs (B2R (vlen2 d) - rdot d d) <= 100 * u.
Proof.
  intros ((F1 & H1) & (F2 & H2) & (F3 & H3)).
  assert (S : forall x : R, Rabs x <= bpow radix2 1 -> Rabs (x * x) <= bpow radix2 2).
  { intros x Hx. rewrite Rabs_mult. change (bpow radix2 2) with (2 * 2). change (bpow radix2 1) with 2 in Hx.
    apply Rmult_le_compat; try apply Rabs_pos; exact Hx. }
  destruct (dot_u 2 _ _ _ _ _ _ ltac:(lia) F1 F2 F3 F1 F2 F3 (S _ H1) (S _ H2) (S _ H3)) as (F & E & _).
  split; [exact F|]. eapply Rle_trans; [exact E|]. change (bpow radix2 2) with 4. pose proof u_pos. lra.
Qed.

Lemma rdot_pos (d : vec b64) : 0 <= rdot d d.
Proof. unfold rdot. pose proof (Rle_0_sqr (B2R (vx d))). pose proof (Rle_0_sqr (B2R (vy d))). pose proof (Rle_0_sqr (B2R (vz d))). unfold Rsqr in *. lra. Qed.

Lemma checkRay_small (r : ray b64) : all3 (at_most 1) (rDir r) ->
  (Rabs (rdot (rDir r) (rDir r) - 1) <= 9 / 10000000000 -> checkRay r = Val tt) /\ (11 / 10000000000 <= Rabs (rdot (rDir r) (rDir r) - 1) -> checkRay r = Panic).
Proof.
  intros H. destruct (len2_small _ H) as [F E]. apply check_R; [exact F|exact E|]. split; [apply rdot_pos|].
  destruct H as ((_ & H1) & (_ & H2) & (_ & H3)). unfold rdot. change (bpow radix2 1) with 2 in *. apply Rabs_le_inv in H1, H2, H3. nra.
Qed.

Lemma checkRay_big (r : ray b64) : all3 (at_most 400) (rDir r) -> 4 <= rdot (rDir r) (rDir r) -> checkRay r = Panic.
Proof.
  intros ((F1 & H1) & (F2 & H2) & (F3 & H3)) Q.
  assert (L : bpow radix2 (-800) <= rdot (rDir r) (rDir r)).
  { eapply Rle_trans; [|exact Q]. eapply Rle_trans; [apply (bpow_le radix2 (-800) 0); lia|]. change (bpow radix2 0) with 1. lra. }
  destruct (len2_rel (rDir r) (conj F1 (conj F2 F3)) (conj H1 (conj H2 H3)) L) as [F E].
  assert (U : rdot (rDir r) (rDir r) <= bpow radix2 802).
  { unfold rdot. assert (S : forall x : R, Rabs x <= bpow radix2 400 -> x * x <= bpow radix2 800).
    { intros x Hx. change 800%Z with (400 + 400)%Z. rewrite bpow_plus. apply Rabs_le_inv in Hx. pose proof (bpow_ge_0 radix2 400). generalize dependent (bpow radix2 400). intros; nra. }
    pose proof (S _ H1). pose proof (S _ H2). pose proof (S _ H3). change 802%Z with (2 + 800)%Z. rewrite bpow_plus. change (bpow radix2 2) with 4. 
    pose proof (bpow_ge_0 radix2 800). generalize dependent (bpow radix2 800). intros; lra. }
  unfold checkRay.
  change (nadd (nadd (nmul (vx (rDir r)) (vx (rDir r))) (nmul (vy (rDir r)) (vy (rDir r)))) (nmul (vz (rDir r)) (vz (rDir r)))) with (vlen2 (rDir r)) in *.
  change (B2R (vx (rDir r)) * B2R (vx (rDir r)) + B2R (vy (rDir r)) * B2R (vy (rDir r)) + B2R (vz (rDir r)) * B2R (vz (rDir r))) with (rdot (rDir r) (rDir r)) in E.
  set (q := rdot (rDir r) (rDir r)) in *. clearbody q. set (l := vlen2 (rDir r)) in *. clearbody l. clear F1 F2 F3 H1 H2 H3 L.
  assert (B : 3 <= B2R l <= bpow radix2 803).
  { change 803%Z with (1 + 802)%Z. rewrite bpow_plus. change (bpow radix2 1) with 2. generalize dependent (bpow radix2 802). intros b U. rewrite u_val in E. lra. }
  destruct (Z_b 1 ltac:(lia)) as [G1 E1].
  assert (S : is_finite (nsub (nofZ 1 : b64) l) = true /\ B2R (nsub (nofZ 1 : b64) l) = rnd (1 - B2R l)).
  { destruct (bsub_correct (nofZ 1) l G1 F) as [A A'].
    - rewrite E1. apply Rle_trans with (bpow radix2 804); [|apply bpow_big; lia].
      change 804%Z with (1 + 803)%Z. rewrite bpow_plus. change (bpow radix2 1) with 2. generalize dependent (bpow radix2 803). intros b B. apply Rabs_le. lra.
    - rewrite E1 in A'. split; [exact A|exact A']. }
  destruct S as [F3 S]. set (d := nsub (nofZ 1) l) in *. clearbody d.
  assert (A : is_finite (nabs d) = true /\ B2R (nabs d) = Rabs (B2R d)).
  { split; [change (is_finite (Babs d) = true); rewrite is_finite_Babs; exact F3|apply B2R_Babs]. }
  destruct A as [F4 A]. set (m := nabs d) in *. clearbody m.
  destruct tol_R as [T1 T2]. generalize dependent (nQ 1 1000000000 : b64). intros tol T1 T2.
  change (nltb tol m) with (Bltb tol m). rewrite (Bltb_finite tol m T1 F4). unfold Rltb. rewrite A, S.
  destruct (rnd_rel (1 - B2R l)) as (e & He & ->).
  { eapply Rle_trans; [apply (bpow_le radix2 (-1000) 0); lia|]. change (bpow radix2 0) with 1. rewrite Rabs_left1; lra. }
  apply Rabs_le_inv in T2, He. rewrite u_val in *.
  destruct (Rlt_dec (B2R tol) (Rabs ((1 - B2R l) * (1 + e)))) as [L|L]; [reflexivity|exfalso].
  apply L. rewrite Rabs_left1; nra.
Qed.

Lemma checkRay_rejects (r : ray b64) : all3 (at_most 400) (rDir r) -> 11 / 10000000000 <= Rabs (rdot (rDir r) (rDir r) - 1) -> checkRay r = Panic.
Proof.
  intros H Q. destruct (Rle_or_lt 4 (rdot (rDir r) (rDir r))) as [L|L]; [exact (checkRay_big r H L)|].
  apply checkRay_small; [|exact Q].
  destruct H as ((F1 & _) & (F2 & _) & (F3 & _)). unfold rdot in L. unfold all3, at_most. change (bpow radix2 1) with 2.
  generalize dependent (B2R (vx (rDir r))). generalize dependent (B2R (vy (rDir r))). generalize dependent (B2R (vz (rDir r))). intros z y x L.
  repeat split; try assumption; apply Rabs_le; nra.
Qed.

Lemma checkRay_accepts (r : ray b64) : all3 (fun x => is_finite x = true) (rDir r) -> Rabs (rdot (rDir r) (rDir r) - 1) <= 9 / 10000000000 -> checkRay r = Val tt.
Proof.
  intros (F1 & F2 & F3) Q. apply checkRay_small; [|exact Q]. unfold rdot in Q. unfold all3, at_most. change (bpow radix2 1) with 2.
  generalize dependent (B2R (vx (rDir r))). generalize dependent (B2R (vy (rDir r))). generalize dependent (B2R (vz (rDir r))). intros z y x Q.
  apply Rabs_le_inv in Q. repeat split; try assumption; apply Rabs_le; nra.
Qed.

Lemma checkRay_normalised (p w : vec b64) : all3 (at_most 400) w -> some3 (at_least (-400)) w -> checkRay (Ray p (vnormalized w)) = Val tt.
Proof.
  intros A B. destruct (normalized_float w A B) as (F & E & _). apply checkRay_accepts; [exact F|]. eapply Rle_trans; [exact E|].
  rewrite <- u53, u_val. lra.
Qed.

Lemma checkRay_nan (p : vec b64) : checkRay (Ray p (Vec (B754_nan : b64) B754_nan B754_nan)) = Val tt.
Proof. vm_compute. reflexivity. Qed.
Lemma checkRay_refuted : ~ (forall r : ray b64, checkRay r = Val tt -> near_unit (rDir r)).
Proof. intros H. destruct (H _ (checkRay_nan vO)) as [(A & _) _]. discriminate A. Qed.
Lemma checkHit_refuted (M : Type) : exists h : hit b64 M, checkHit h = Panic /\ is_nan (hT h) || anyNaN (hNormal h) || anyNaN (hLocal h) = false.
Proof. exists (Hit (nofZ 1) vO (Vec (B754_infinity false : b64) (B754_infinity true) (nofZ 0)) None). vm_compute. split; reflexivity. Qed.
