(** * Normalising vectors in double precision *)
From Coq Require Import ZArith Reals Lra Lia Bool.
From Flocq Require Import Core.
From Flocq Require IEEE754.BinarySingleNaN.
Import IEEE754.BinarySingleNaN.
From Verif Require Import Num NumLaws Outcome B64 GeomModel ParamProofs FloatSpec BoxFloat FloatErr.
Local Open Scope R_scope.

Lemma u53 : u = bpow radix2 (-53). Proof. rewrite u_val. change (/ 9007199254740992 = / 9007199254740992). reflexivity. Qed.
Lemma lo800 (w : vec b64) : some3 (at_least (-400)) w -> bpow radix2 (-800) <= rdot w w.
Proof.
  intros Hw. assert (Q : forall x, bpow radix2 (-400) <= Rabs x -> bpow radix2 (-800) <= x * x).
  { intros x Hx. change (-800)%Z with (-400 + -400)%Z. rewrite bpow_plus.
    rewrite <- (Rabs_pos_eq (x * x)) by apply Rle_0_sqr. rewrite Rabs_mult. apply Rmult_le_compat; try exact Hx; apply bpow_ge_0. }
  unfold some3, at_least in Hw. generalize (Rle_0_sqr (B2R (vx w))) (Rle_0_sqr (B2R (vy w))) (Rle_0_sqr (B2R (vz w))). unfold Rsqr, rdot. intros q0 q1 q2.
  destruct Hw as [Hw|[Hw|Hw]]; apply Q in Hw; revert Hw; clear - q0 q1 q2; generalize (bpow radix2 (-800)); intros; lra.
Qed.

Lemma normalized_float (w : vec b64) : all3 (at_most 400) w -> some3 (at_least (-400)) w ->
  let n := vnormalized w in
  all3 (fun x => is_finite x = true) n /\ Rabs (rdot n n - 1) <= 100 * bpow radix2 (-53) /\
  Rabs (B2R (vx n) - B2R (vx w) / sqrt (rdot w w)) <= 8 * bpow radix2 (-53) /\
  Rabs (B2R (vy n) - B2R (vy w) / sqrt (rdot w w)) <= 8 * bpow radix2 (-53) /\
  Rabs (B2R (vz n) - B2R (vz w) / sqrt (rdot w w)) <= 8 * bpow radix2 (-53).
Proof.
  intros ((F0 & M0) & (F1 & M1) & (F2 & M2)) Hw n. apply lo800 in Hw. rewrite <- u53.
  destruct (norm_u w (conj F0 (conj F1 F2)) (conj M0 (conj M1 M2)) Hw) as ((U0 & E0 & _) & (U1 & E1 & _) & (U2 & E2 & _)).
  assert (Nu := norm_unit w (conj F0 (conj F1 F2)) (conj M0 (conj M1 M2)) Hw).
  split; [split; [exact U0|split; [exact U1|exact U2]]|]. split; [exact Nu|]. split; [exact E0|split; [exact E1|exact E2]].
Qed.

(** 2^-600 and 2^600 *)
Definition two600 : b64 := nofZ (2 ^ 600).
Definition small600 : b64 := ndiv (nofZ 1) two600.
Lemma norm_small : is_finite (vx (vnormalized (Vec small600 (nofZ 0) (nofZ 0)))) = false /\ is_finite small600 = true /\ nltb (nofZ 0) small600 = true.
Proof. vm_compute. auto. Qed.
Lemma norm_big : (let n := vnormalized (Vec two600 two600 two600) in forall k, B2R (vget n k) = 0) /\ is_finite two600 = true.
Proof. split; [|vm_compute; reflexivity]. intros n k. assert (Z : vnormalized (Vec two600 two600 two600) = Vec (B754_zero false) (B754_zero false) (B754_zero false)) by (vm_compute; reflexivity). unfold n. rewrite Z. destruct k; reflexivity. Qed.
Lemma normalized_refuted : ~ (forall v : vec b64, all3 (fun x => is_finite x = true) v -> some3 (fun x => nltb (nofZ 0) x = true) v -> all3 (fun x => is_finite x = true) (vnormalized v)) /\
  ~ (forall v : vec b64, all3 (fun x => is_finite x = true) v -> some3 (fun x => nltb (nofZ 0) x = true) v -> rdot (vnormalized v) (vnormalized v) <> 0).
Proof.
  split; intros H.
  - destruct norm_small as (A & B & C).
    destruct (H (Vec small600 (nofZ 0) (nofZ 0))) as (K & _); [split; [exact B|split; reflexivity]|left; exact C|]. rewrite K in A. discriminate A.
  - destruct norm_big as (A & B). apply (H (Vec two600 two600 two600)); [split; [exact B|split; exact B]|left; vm_compute; reflexivity|].
    assert (A0 := A AX). assert (A1 := A AY). assert (A2 := A AZ). unfold vget in A0, A1, A2. unfold rdot. rewrite A0, A1, A2. lra.
Qed.
(** any vector with one component of one to a thousand metres and the others below *)
Lemma normalized_example (x y z : Z) : (1 <= x <= 1000)%Z -> (Z.abs y <= x)%Z -> (Z.abs z <= x)%Z ->
  near_unit (vnormalized (Vec (nofZ x) (nofZ y) (nofZ z))).
Proof.
  intros Hx Hy Hz. assert (Zs : forall k, (Z.abs k <= 1000)%Z -> at_most 400 (nofZ k)).
  { intros k Hk. destruct (Z_b k) as [Fk Ek]; [eapply Z.le_trans; [exact Hk|discriminate]|]. split; [exact Fk|]. rewrite Ek, <- abs_IZR.
    apply Rle_trans with (bpow radix2 10); [change (bpow radix2 10) with 1024; apply IZR_le; lia|apply bpow_le; lia]. }
  destruct (normalized_float (Vec (nofZ x) (nofZ y) (nofZ z))) as (A & B & _).
  - split; [|split]; apply Zs; lia.
  - left. destruct (Z_b x) as [_ Ex]; [apply Z.le_trans with 1000%Z; [lia|discriminate]|]. unfold at_least. cbn [vx]. rewrite Ex, <- abs_IZR.
    apply Rle_trans with (bpow radix2 0); [apply bpow_le; lia|]. change (bpow radix2 0) with 1. apply IZR_le. lia.
  - split; [exact A|]. eapply Rle_trans; [exact B|]. rewrite <- u53, u_val. lra.
Qed.
