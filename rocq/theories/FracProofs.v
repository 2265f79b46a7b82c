(** * Fractional parts in double precision *)
From Coq Require Import ZArith Reals Lra Lia.
From Flocq Require Import Core.
From Flocq Require IEEE754.BinarySingleNaN.
Import IEEE754.BinarySingleNaN.
From Verif Require Import Num B64 FloatErr GeomModel ColorModel SeqModel SeqProofs SceneModel ImageModel PpmProofs TextureProofs SamplerNum LookupFloat.
Local Open Scope R_scope.

Theorem frac_total (x : b64) : is_finite x = true ->
  is_finite (frac x) = true /\ 0 <= B2R (frac x) <= 1 /\ Rabs (B2R (frac x) - (B2R x - IZR (Zfloor (B2R x)))) <= bpow radix2 (-53).
Proof.
  intros F. unfold frac. destruct (bfloor_correct x F) as [Ff Ef].
  pose proof (Zfloor_lb (B2R x)) as L. pose proof (Zfloor_ub (B2R x)) as U. pose proof big_2 as BG.
  destruct (bsub_correct x (nfloor x) F Ff) as [Fs Es]; [rewrite Ef; apply Rabs_le; lra|]. rewrite Es, Ef. split; [exact Fs|]. split.
  - split; [apply rnd_nonneg; lra|]. apply rnd_le; [apply (fmt_Z 1); lia|lra].
  - replace (bpow radix2 (-53)) with (u * 1) by (rewrite u_val; change (bpow radix2 (-53)) with (/ 9007199254740992); ring). apply rnd_M; [change 1 with (bpow radix2 0); apply bpow_le; lia|apply Rabs_le; lra].
Qed.

Definition speck : b64 := nQ (-1) (2 ^ 60).
Lemma speck_finite : is_finite speck = true.
Proof. vm_compute. reflexivity. Qed.
Lemma speck_not_below : nltb (frac speck) (nofZ 1) = false.
Proof. vm_compute. reflexivity. Qed.

Theorem frac_reaches_one : ~ (forall x : b64, is_finite x = true -> 0 <= B2R (frac x) < 1).
Proof.
  intros H. destruct (H speck speck_finite) as [_ L]. destruct (frac_total speck speck_finite) as [Fs _]. destruct b64_1 as [F1 E1].
  assert (K : nltb (frac speck) (nofZ 1) = true) by (apply bltb_R; [exact Fs|exact F1|]; cbn [nofZ NumB]; rewrite E1; exact L).
  rewrite speck_not_below in K. discriminate K.
Qed.
