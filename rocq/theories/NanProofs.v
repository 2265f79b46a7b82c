(** * Which vectors have a length, in double precision *)
From Coq Require Import ZArith Reals Bool Lra Lia.
From Flocq Require Import Core.
From Flocq Require IEEE754.BinarySingleNaN.
Import IEEE754.BinarySingleNaN.
From Verif Require Import Num B64 GeomModel.
Local Open Scope R_scope.

(** a number, and not below zero *)
Definition amount (x : b64) : Prop := is_nan x = false /\ Bsign x = false.

Lemma overflow_amount (y : b64) : B2SF y = binary_overflow 53 1024 mode_NE false -> amount y.
Proof. destruct y as [s'|s'| |s' m' e' p']; intros A; try discriminate A. cbn in A. destruct s'; [discriminate A|]. split; reflexivity. Qed.
Lemma square_amount (x : b64) : is_nan x = false -> amount (nmul x x).
Proof.
  intros N. generalize (Bmult_correct 53 1024 Hprec64 Hmax64 mode_NE x x). change (Bmult mode_NE x x) with (nmul x x).
  destruct x as [s|s| |s m e p]; try discriminate N.
  - intros _. destruct s; split; reflexivity.
  - intros _. destruct s; split; reflexivity.
  - set (x := B754_finite s m e p). destruct (Rlt_bool _ _).
    + intros (_ & F & S). assert (NN : is_nan (nmul x x) = false) by (change (is_finite (nmul x x) = true) in F; destruct (nmul x x); (reflexivity || discriminate F)).
      split; [exact NN|]. rewrite (S NN). apply xorb_nilpotent.
    + intros A. change (B2SF (nmul x x) = binary_overflow 53 1024 mode_NE (xorb (Bsign x) (Bsign x))) in A. rewrite xorb_nilpotent in A.
      exact (overflow_amount _ A).
Qed.
Lemma amount_value (x : b64) : amount x -> is_finite x = true -> 0 <= B2R x.
Proof. intros [_ S] F. destruct x as [s|s| |s m e p]; try discriminate F; cbn in *; [lra|]. subst s. apply F2R_ge_0. cbn. lia. Qed.
Lemma sum_amount (x y : b64) : amount x -> amount y -> amount (nadd x y).
Proof.
  intros X Y. destruct (is_finite x) eqn:Fx, (is_finite y) eqn:Fy.
  - generalize (Bplus_correct 53 1024 Hprec64 Hmax64 mode_NE x y Fx Fy). change (Bplus mode_NE x y) with (nadd x y).
    pose proof (amount_value x X Fx). pose proof (amount_value y Y Fy). destruct X as [Nx Sx], Y as [Ny Sy]. destruct (Rlt_bool _ _).
    + intros (_ & F & S). change (is_finite (nadd x y) = true) in F. split; [destruct (nadd x y); (reflexivity || discriminate F)|].
      change (Bsign (nadd x y) = match Rcompare (B2R x + B2R y) 0 with Eq => (match mode_NE with mode_DN => orb (Bsign x) (Bsign y) | _ => andb (Bsign x) (Bsign y) end) | Lt => true | Gt => false end) in S.
      rewrite S. destruct (Rcompare_spec (B2R x + B2R y) 0); [lra|now rewrite Sx|reflexivity].
    + intros (A & _). change (B2SF (nadd x y) = binary_overflow 53 1024 mode_NE (Bsign x)) in A. rewrite Sx in A.
      exact (overflow_amount _ A).
  - destruct X as [Nx Sx], Y as [Ny Sy]. destruct y as [s|s| |s m e p]; try discriminate. cbn in Sy. subst s. destruct x; try discriminate; split; reflexivity.
  - destruct X as [Nx Sx], Y as [Ny Sy]. destruct x as [s|s| |s m e p]; try discriminate. cbn in Sx. subst s. destruct y; try discriminate; split; reflexivity.
  - destruct X as [Nx Sx], Y as [Ny Sy]. destruct x as [s|s| |s m e p]; try discriminate. cbn in Sx. subst s. destruct y as [s|s| |s m e p]; try discriminate. cbn in Sy. subst s. split; reflexivity.
Qed.
Lemma nan_mul (x y : b64) : is_nan x = true -> is_nan (nmul x y) = true.
Proof. intros H. destruct x; try discriminate H. destruct y; reflexivity. Qed.
Lemma nan_add_l (x y : b64) : is_nan x = true -> is_nan (nadd x y) = true.
Proof. intros H. destruct x; try discriminate H. destruct y; reflexivity. Qed.
Lemma nan_add_r (x y : b64) : is_nan y = true -> is_nan (nadd x y) = true.
Proof. intros H. destruct y; try discriminate H. destruct x; reflexivity. Qed.
Lemma sqrt_amount (x : b64) : amount x -> is_nan (nsqrt x) = false.
Proof.
  intros [N S]. generalize (Bsqrt_correct 53 1024 Hprec64 Hmax64 mode_NE x). change (Bsqrt mode_NE x) with (nsqrt x). intros (_ & F & _).
  destruct x as [s|s| |s m e p]; try discriminate N; cbn in S; subst s; try reflexivity.
  change (is_finite (nsqrt (B754_finite false m e p : b64)) = true) in F. destruct (nsqrt (B754_finite false m e p : b64)); (reflexivity || discriminate F).
Qed.
Lemma nan_sqrt (x : b64) : is_nan x = true -> is_nan (nsqrt x) = true.
Proof. intros H. destruct x; try discriminate H. reflexivity. Qed.

Lemma len2_amount (v : vec b64) : is_nan (vx v) = false -> is_nan (vy v) = false -> is_nan (vz v) = false -> amount (vlen2 v).
Proof. intros X Y Z. unfold vlen2. apply sum_amount; [apply sum_amount|]; apply square_amount; assumption. Qed.
Lemma len2_nan (v : vec b64) : is_nan (vx v) = true \/ is_nan (vy v) = true \/ is_nan (vz v) = true -> is_nan (vlen2 v) = true.
Proof.
  unfold vlen2. intros [H|[H|H]].
  - apply nan_add_l, nan_add_l, nan_mul, H.
  - apply nan_add_l, nan_add_r, nan_mul, H.
  - apply nan_add_r, nan_mul, H.
Qed.
Lemma len_eq (v : vec b64) : vlen v = nsqrt (vlen2 v).
Proof. reflexivity. Qed.

Theorem isnan_length (v : vec b64) : visnan v = nisnan (vlen2 v) /\ visnan v = nisnan (vlen v) /\ visnan v = nisnan (vdot v v).
Proof.
  assert (D : vdot v v = vlen2 v) by reflexivity. rewrite D, len_eq. unfold visnan.
  change (@nisnan b64 _) with (@is_nan 53 1024).
  destruct (is_nan (vx v)) eqn:X; [rewrite nan_sqrt by (apply len2_nan; auto); rewrite len2_nan by auto; auto|].
  destruct (is_nan (vy v)) eqn:Y; [rewrite nan_sqrt by (apply len2_nan; auto); rewrite len2_nan by auto; auto|].
  destruct (is_nan (vz v)) eqn:Z; [rewrite nan_sqrt by (apply len2_nan; auto); rewrite len2_nan by auto; auto|].
  pose proof (len2_amount v X Y Z) as A. rewrite (sqrt_amount _ A). destruct A as [A _]. rewrite A. auto.
Qed.
