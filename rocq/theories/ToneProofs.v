(** * Named colours and exposure values *)
From Coq Require Import ZArith Reals Bool Lra Lia.
From Flocq Require Import Core Mult_error.
From Flocq Require IEEE754.BinarySingleNaN.
Import IEEE754.BinarySingleNaN.
From Verif Require Import Num NumLaws Outcome B64 GeomModel ColorModel FloatErr ToneModel ToneSpec.
Local Open Scope R_scope.

Lemma positive_form (y : b64) : is_finite y = true -> 0 < B2R y -> exists m e B, y = B754_finite false m e B.
Proof.
  destruct y as [s|s| |s m e B]; cbn [is_finite]; try discriminate; intros _ H.
  - cbn [B2R] in H. lra.
  - destruct s; [|now exists m, e, B]. exfalso. cbn [B2R] in H. assert (F2R (Float radix2 (cond_Zopp true (Zpos m)) e) < 0) by (apply F2R_lt_0; reflexivity). lra.
Qed.

Lemma finite_not_nan (x : b64) : is_finite x = true -> is_nan x = false.
Proof. now destruct x. Qed.

(** multiplication without loss *)
Lemma mul_exact (y x : b64) : is_finite y = true -> is_finite x = true -> fmt (B2R y * B2R x) -> Rabs (B2R y * B2R x) < bpow radix2 1024 ->
  is_finite (nmul y x) = true /\ B2R (nmul y x) = B2R y * B2R x /\ Bsign (nmul y x) = xorb (Bsign y) (Bsign x).
Proof.
  intros Fy Fx Fm L. generalize (Bmult_correct 53 1024 Hprec64 Hmax64 mode_NE y x).
  assert (E : round radix2 (SpecFloat.fexp 53 1024) (round_mode mode_NE) (B2R y * B2R x) = B2R y * B2R x) by (apply round_generic; [typeclasses eauto|exact Fm]).
  rewrite E, Rlt_bool_true by exact L. change (@nmul b64 _ y x) with (@Bmult 53 1024 Hprec64 Hmax64 mode_NE y x). intros (A & B & S).
  rewrite Fy, Fx in B. refine (conj B (conj A (S (finite_not_nan _ B)))).
Qed.
Lemma positive_sign (y : b64) : is_finite y = true -> 0 < B2R y -> Bsign y = false.
Proof. intros F P. destruct (positive_form y F P) as (m & e & B & ->). reflexivity. Qed.

Lemma fmt_B2R (x : b64) : fmt (B2R x).
Proof. apply generic_format_B2R. Qed.

Lemma mul_1 (x : b64) : nmul (nofZ 1) x = x /\ nmul x (nofZ 1) = x.
Proof.
  destruct (Z_b 1 ltac:(lia)) as [F1 E1]. assert (P : 0 < B2R (nofZ 1 : b64)) by (rewrite E1; lra).
  destruct (is_finite x) eqn:Fx.
  - assert (E : B2R (nofZ 1 : b64) * B2R x = B2R x) by (rewrite E1; ring).
    assert (E' : B2R x * B2R (nofZ 1 : b64) = B2R x) by (rewrite E1; ring).
    destruct (mul_exact (nofZ 1) x F1 Fx ltac:(rewrite E; apply fmt_B2R) ltac:(rewrite E; apply abs_B2R_lt_emax)) as (A & B & C).
    destruct (mul_exact x (nofZ 1) Fx F1 ltac:(rewrite E'; apply fmt_B2R) ltac:(rewrite E'; apply abs_B2R_lt_emax)) as (A' & B' & C').
    rewrite (positive_sign _ F1 P) in C, C'. rewrite xorb_false_l in C. rewrite xorb_false_r in C'.
    split; apply B2R_Bsign_inj; congruence.
  - destruct (positive_form _ F1 P) as (m & e & Bd & E). rewrite E. destruct x as [s|s| |s m' e' B']; try discriminate Fx; [|split; reflexivity].
    split; [destruct s; reflexivity|]. destruct s; reflexivity.
Qed.

Theorem white_neutral (c : color b64) : clmul3 c white = c /\ clmul3 white c = c.
Proof. destruct c as [r g b]. unfold clmul3, white. cbn [cR cG cB]. now rewrite !(proj1 (mul_1 _)), !(proj2 (mul_1 _)). Qed.

(** ** Exposure *)
Lemma fmt_times n x : fmt x -> x = 0 \/ bpow radix2 (-1000) <= Rabs x * bpow radix2 n -> fmt (x * bpow radix2 n).
Proof.
  intros Fx [->|H]; [rewrite Rmult_0_l; apply generic_format_0|]. unfold fmt in *. rewrite fexp64_FLT in *.
  apply generic_format_FLT_FLX.
  - rewrite Rabs_mult, (Rabs_pos_eq (bpow radix2 n)) by apply bpow_ge_0. eapply Rle_trans; [|exact H]. apply bpow_le. lia.
  - apply mult_bpow_exact_FLX. now apply generic_format_FLX_FLT in Fx.
Qed.

Section Exposure.
  Context {TF : Trig b64}.
  Hypothesis HP : exact_powers TF.
  Variable n : Z.
  Hypothesis Hn : (Z.abs n <= 1000)%Z.
  Lemma expose1 (x : b64) : roomy n x -> times2 n x (nmul (ev (nofZ n)) x) /\ Bsign (nmul (ev (nofZ n)) x) = Bsign x.
  Proof.
    intros [Fx H]. destruct (HP n Hn) as [Fp Ep]. fold (ev (F := b64) (nofZ n)) in Fp, Ep. pose proof (bpow_gt_0 radix2 n) as P.
    assert (Q : bpow radix2 n * B2R x = B2R x * bpow radix2 n) by ring.
    destruct (mul_exact (ev (nofZ n)) x Fp Fx) as (A & B & C).
    - rewrite Ep, Q. apply fmt_times; [apply fmt_B2R|]. destruct H as [H|[H _]]; [now left|now right].
    - rewrite Ep, Rabs_mult, (Rabs_pos_eq (bpow radix2 n)) by lra. destruct H as [H|[_ H]].
      + rewrite H, Rabs_R0, Rmult_0_r. apply bpow_gt_0.
      + rewrite Rmult_comm. eapply Rle_lt_trans; [exact H|now apply bpow_lt].
    - split; [split; [exact A|]|]; [now rewrite B, Ep, Q|]. rewrite C, (positive_sign _ Fp) by (rewrite Ep; exact P). apply xorb_false_l.
  Qed.
End Exposure.

Theorem exposure_exact {TF : Trig b64} (n : Z) (c : color b64) : exact_powers TF -> (Z.abs n <= 1000)%Z -> each (roomy n) c -> each2 (times2 n) c (clev c (nofZ n)).
Proof.
  intros HP Hn (A & B & C). unfold clev, clmul. refine (conj _ (conj _ _)); cbn [cR cG cB]; refine (proj1 (expose1 HP n Hn _ _)); assumption.
Qed.


Lemma plain_roomy n x : (Z.abs n <= 100)%Z -> plain x -> roomy n x.
Proof.
  intros Hn [F H]. split; [exact F|]. destruct H as [H|[H1 H2]]; [now left|right].
  pose proof (bpow_gt_0 radix2 n).
  split.
  - apply Rle_trans with (bpow radix2 (-900) * bpow radix2 n); [rewrite <- bpow_plus; apply bpow_le; lia|]. apply Rmult_le_compat_r; lra.
  - apply Rle_trans with (bpow radix2 900 * bpow radix2 n); [apply Rmult_le_compat_r; lra|]. rewrite <- bpow_plus. apply bpow_le. lia.
Qed.
Lemma back1 {TF : Trig b64} n (x : b64) : exact_powers TF -> (Z.abs n <= 100)%Z -> plain x -> nmul (ev (nofZ (- n))) (nmul (ev (nofZ n)) x) = x.
Proof.
  intros HP Hn H. destruct (expose1 HP n ltac:(lia) x (plain_roomy n x Hn H)) as [[Fy Ey] Sy]. set (y := nmul (ev (nofZ n)) x) in *. clearbody y.
  assert (E : B2R y * bpow radix2 (- n) = B2R x) by (rewrite Ey, Rmult_assoc, <- bpow_plus; replace (n + - n)%Z with 0%Z by lia; apply Rmult_1_r).
  destruct (expose1 HP (- n) ltac:(lia) y) as [[Fz Ez] Sz].
  - split; [exact Fy|]. destruct H as [Fx [H|[H1 H2]]].
    + left. now rewrite Ey, H, Rmult_0_l.
    + right. rewrite <- (Rabs_pos_eq (bpow radix2 (- n))), <- Rabs_mult, E by apply bpow_ge_0. split; [eapply Rle_trans; [|exact H1]; apply bpow_le; lia|eapply Rle_trans; [exact H2|]; apply bpow_le; lia].
  - apply B2R_Bsign_inj; [exact Fz|exact (proj1 H)|now rewrite Ez, E|now rewrite Sz, Sy].
Qed.
Theorem exposure_back {TF : Trig b64} (n : Z) (c : color b64) : exact_powers TF -> (Z.abs n <= 100)%Z -> each plain c -> clev (clev c (nofZ n)) (nofZ (- n)) = c.
Proof. intros HP Hn (A & B & C). destruct c as [r g b]. unfold clev, clmul. cbn [cR cG cB] in *. now rewrite !back1. Qed.

(** in exact arithmetic exposures add up *)
Theorem exposures_add (c : color R) a b : clev (clev c a) b = clev c (a + b) /\ clev c 0 = c.
Proof.
  destruct c as [r g l]. unfold clev, clmul, ev. cbn [cR cG cB npow TrigR nmul nofZ NumR]. rewrite Rpower_plus, Rpower_O by lra. split; f_equal; ring.
Qed.
Theorem brighter (a b : R) : 0 < ev a /\ (a < b -> ev a < ev b) /\ ev (a + 1) = 2 * ev a.
Proof.
  unfold ev. cbn [npow TrigR nofZ NumR]. refine (conj (exp_pos _) (conj (fun H => Rpower_lt 2 a b ltac:(lra) H) _)). rewrite Rpower_plus, Rpower_1 by lra. ring.
Qed.

(** ** The named colours *)
Lemma zero_plus_one : nadd (nofZ 0) (nofZ 1) = (nofZ 1 : b64) /\ nadd (nofZ 1) (nofZ 0) = (nofZ 1 : b64) /\ nadd (nofZ 0) (nofZ 0) = (nofZ 0 : b64).
Proof.
  destruct (Z_b 1 ltac:(lia)) as [F1 E1]. destruct (positive_form _ F1 ltac:(rewrite E1; lra)) as (m & e & B & E). rewrite E.
  change (nofZ 0 : b64) with (B754_zero false : b64). repeat split; reflexivity.
Qed.
Lemma zero_times_one : nmul (nofZ 0) (nofZ 1) = (nofZ 0 : b64) /\ nmul (nofZ 1) (nofZ 0) = (nofZ 0 : b64) /\ nmul (nofZ 0) (nofZ 0) = (nofZ 0 : b64).
Proof.
  destruct (Z_b 1 ltac:(lia)) as [F1 E1]. destruct (positive_form _ F1 ltac:(rewrite E1; lra)) as (m & e & B & E). rewrite E.
  change (nofZ 0 : b64) with (B754_zero false : b64). repeat split; reflexivity.
Qed.

Theorem named_colours : has false false false black /\ has true true true white /\ has true false false red /\ has true true false yellow /\
  has false true false green /\ has false true true cyan /\ has false false true blue /\ has true false true magenta.
Proof. repeat split. Qed.
Lemma channel_mul (a b : bool) : nmul (if a then nofZ 1 else nofZ 0) (if b then nofZ 1 else nofZ 0) = ((if a && b then nofZ 1 else nofZ 0) : b64).
Proof. destruct zero_times_one as (A & B & C). destruct a, b; cbn [andb]; [apply mul_1|assumption..]. Qed.
Lemma channel_add (a b : bool) : (a && b)%bool = false -> nadd (if a then nofZ 1 else nofZ 0) (if b then nofZ 1 else nofZ 0) = ((if a || b then nofZ 1 else nofZ 0) : b64).
Proof. destruct zero_plus_one as (A & B & C). destruct a, b; cbn [andb orb]; intros H; [discriminate|assumption..]. Qed.
Theorem colour_arithmetic (c d : color b64) r g b r' g' b' : has r g b c -> has r' g' b' d ->
  has (r && r') (g && g') (b && b') (clmul3 c d) /\
  ((r && r' = false)%bool -> (g && g' = false)%bool -> (b && b' = false)%bool -> has (r || r') (g || g') (b || b') (cladd c d)).
Proof.
  intros (A & B & C) (A' & B' & C'). unfold has, clmul3, cladd. cbn [cR cG cB]. rewrite A, B, C, A', B', C'. split.
  - rewrite !channel_mul. repeat split.
  - intros H1 H2 H3. rewrite !channel_add by assumption. repeat split.
Qed.
Lemma has_eq r g b (c d : color b64) : has r g b c -> has r g b d -> c = d.
Proof. destruct c as [x y z], d as [x' y' z']. unfold has. cbn [cR cG cB]. intros (-> & -> & ->) (-> & -> & ->). reflexivity. Qed.
Theorem three_lights : cladd red (cladd green blue) = (white : color b64) /\ clmul3 yellow cyan = (green : color b64) /\ clmul3 red cyan = (black : color b64).
Proof.
  destruct named_colours as (K & W & R & Y & G & C & B & M).
  refine (conj (has_eq true true true _ _ _ W) (conj (has_eq false true false _ _ _ G) (has_eq false false false _ _ _ K))).
  - exact (proj2 (colour_arithmetic _ _ _ _ _ _ _ _ R (proj2 (colour_arithmetic _ _ _ _ _ _ _ _ G B) eq_refl eq_refl eq_refl)) eq_refl eq_refl eq_refl).
  - exact (proj1 (colour_arithmetic _ _ _ _ _ _ _ _ Y C)).
  - exact (proj1 (colour_arithmetic _ _ _ _ _ _ _ _ R C)).
Qed.
(** a concrete exposure: 3 stops more *)
Lemma eightfold {TF : Trig b64} : exact_powers TF -> B2R (cR (clev yellow (nofZ 3))) = 8 /\ cB (clev yellow (nofZ 3)) = (nofZ 0 : b64).
Proof.
  intros HP. destruct (Z_b 1 ltac:(lia)) as [F1 E1].
  assert (H1 : roomy 3 (nofZ 1)). { split; [exact F1|right]. rewrite E1, Rabs_R1, Rmult_1_l. split; apply bpow_le; lia. }
  destruct (expose1 HP 3 ltac:(lia) _ H1) as [[_ A] _]. split.
  - change (cR (clev yellow (nofZ 3))) with (nmul (ev (nofZ 3)) (nofZ 1 : b64)). rewrite A, E1. cbn. lra.
  - change (cB (clev yellow (nofZ 3))) with (nmul (ev (nofZ 3)) (nofZ 0 : b64)).
    destruct (HP 3%Z ltac:(lia)) as [Fp Ep]. destruct (positive_form _ Fp ltac:(rewrite Ep; apply bpow_gt_0)) as (m & e & B & E). unfold ev. rewrite E. reflexivity.
Qed.
