(** * Texture lookups *)
From Coq Require Import ZArith Reals Bool List Lia Lra.
From Flocq Require Import Core BinarySingleNaN.
From Verif Require Import Num NumLaws B64 Outcome GeomModel ColorModel SeqModel SeqProofs SamplerModel SamplerNum TreeModel SceneModel ImageModel ImageProofs PpmSpec PpmProofs TextureModel TextureSpec.
Import ListNotations.
Local Open Scope Z_scope.

Section Index.
  Context {F : Type}.
  Lemma pixelAt_some w (img : list (list (color F))) j i : rectangular w img -> 0 <= i < Z.of_nat w -> 0 <= j < Z.of_nat (length img) ->
    exists c, pixelAt img j i = Some c.
  Proof.
    intros R Hi Hj. unfold pixelAt. destruct (nth_error img (Z.to_nat j)) as [row|] eqn:E.
    - destruct R as [_ R]. rewrite Forall_forall in R. specialize (R row (nth_error_In _ _ E)).
      destruct (nth_error row (Z.to_nat i)) eqn:E2; [eauto|]. apply nth_error_None in E2. lia.
    - apply nth_error_None in E. lia.
  Qed.
  Lemma atIndex_pixel (img : list (list (color F))) i j c : 0 <= i -> 0 <= j -> pixelAt img j i = Some c -> atIndex img i j = Val c.
  Proof.
    intros Hi Hj E. unfold atIndex, pixelAt in *. destruct (nth_error img (Z.to_nat j)) as [row|] eqn:N; [|easy].
    rewrite (getZ_some img j row) by easy. cbn [obind]. now apply getZ_some.
  Qed.
End Index.

(** ** Floating point *)
Local Open Scope R_scope.
Lemma finite_R (x : b64) : is_finite x = true -> Rabs (B2R x) < bpow radix2 1024.
Proof. intros F. apply abs_B2R_lt_emax. Qed.
Lemma b64_1 : is_finite (b64_of_Z 1) = true /\ B2R (b64_of_Z 1) = 1.
Proof. apply bofZ_correct. lia. Qed.
Lemma b64_0 : is_finite (b64_of_Z 0) = true /\ B2R (b64_of_Z 0) = 0.
Proof. apply bofZ_correct. lia. Qed.

Lemma modfPos_b64 (x : b64) : is_finite x = true -> 0 <= B2R x -> is_finite (modfPos x) = true /\ 0 <= B2R (modfPos x) < 1.
Proof.
  intros F P. unfold modfPos. cbn [nofZ NumB]. destruct b64_1 as [F1 E1].
  destruct (nltb x (b64_of_Z 1)) eqn:L.
  - apply (bltb_R x _ F F1) in L. rewrite E1 in L. split; [easy|lra].
  - destruct (frac_range x F P) as (A & B & C). unfold frac in *. split; easy.
Qed.
Lemma modfFrac_b64 (x : b64) : is_finite x = true -> is_finite (modfFrac x) = true /\ -1 < B2R (modfFrac x) < 1.
Proof.
  intros F. unfold modfFrac. cbn [nofZ NumB nopp]. destruct b64_0 as [F0 E0].
  destruct (nltb x (b64_of_Z 0)) eqn:L.
  - apply (bltb_R x _ F F0) in L. rewrite E0 in L.
    destruct (modfPos_b64 (Bopp x)) as [A B]; [now rewrite is_finite_Bopp|rewrite B2R_Bopp; lra|].
    rewrite is_finite_Bopp, B2R_Bopp. split; [easy|lra].
  - assert (P : 0 <= B2R x). { destruct (Rle_lt_dec 0 (B2R x)) as [P|P]; [easy|]. assert (nltb x (b64_of_Z 0) = true) by (apply (bltb_R x _ F F0); lra). congruence. }
    destruct (modfPos_b64 x F P) as [A B]. split; [easy|lra].
Qed.
Lemma beqb_R (x y : b64) : is_finite x = true -> is_finite y = true -> neqb x y = true <-> B2R x = B2R y.
Proof.
  intros Fx Fy. unfold neqb, NumB, Beqb, SpecFloat.SFeqb. pose proof (Bcompare_correct 53 1024 x y Fx Fy) as C. unfold Bcompare in C. rewrite C.
  destruct (Rcompare_spec (B2R x) (B2R y)); split; intros; try easy; lra.
Qed.
Lemma big_2 : 4 <= big.
Proof. unfold big. replace 4 with (bpow radix2 2) by reflexivity. apply bpow_le. lia. Qed.
Lemma warp_b64 (x : b64) : is_finite x = true -> is_finite (warp x) = true /\ 0 <= B2R (warp x) < 1.
Proof.
  intros F. unfold warp. cbv zeta. destruct (modfFrac_b64 x F) as [Fm Rm]. set (m := modfFrac x) in *. cbn [nofZ NumB].
  destruct b64_0 as [F0 E0], b64_1 as [F1 E1]. pose proof big_2.
  set (t := if nltb m (b64_of_Z 0) then nadd (b64_of_Z 1) m else m) in *.
  assert (G : is_finite t = true /\ 0 <= B2R t <= 1).
  { unfold t. destruct (nltb m (b64_of_Z 0)) eqn:L.
    - apply (bltb_R m _ Fm F0) in L. rewrite E0 in L.
      destruct (badd_correct (b64_of_Z 1) m F1 Fm) as [A B]; [rewrite E1; apply Rabs_le; lra|].
      rewrite E1 in B. rewrite B. split; [easy|]. split; [apply rnd_nonneg; lra|]. apply rnd_le; [apply (fmt_Z 1); lia|lra].
    - assert (P : 0 <= B2R m). { destruct (Rle_lt_dec 0 (B2R m)) as [P|P]; [easy|]. assert (nltb m (b64_of_Z 0) = true) by (apply (bltb_R m _ Fm F0); lra). congruence. }
      split; [easy|lra]. }
  destruct G as [Ft Rt].
  destruct (neqb t (b64_of_Z 1)) eqn:E.
  - rewrite E0. split; [easy|lra].
  - split; [easy|]. split; [lra|]. destruct (Rle_lt_dec 1 (B2R t)) as [Q|Q]; [|easy].
    assert (neqb t (b64_of_Z 1) = true) by (apply (beqb_R t _ Ft F1); lra). congruence.
Qed.

(** the index computed from a coordinate in [0,1] *)
Lemma scaled_b64 (x : b64) n : is_finite x = true -> 0 <= B2R x <= 1 -> (1 <= n <= 2 ^ 53)%Z ->
  is_finite (nmul x (nofZ (n - 1))) = true /\ 0 <= B2R (nmul x (nofZ (n - 1))) <= IZR (n - 1).
Proof.
  intros F Rx Hn. destruct (bofZ_correct (n - 1) ltac:(lia)) as [Fn En].
  assert (Z0 : 0 <= IZR (n - 1)) by (apply IZR_le; lia).
  assert (B : 0 <= B2R x * IZR (n - 1) <= IZR (n - 1)). { split; [apply Rmult_le_pos; lra|]. rewrite <- (Rmult_1_l (IZR (n - 1))) at 2. apply Rmult_le_compat_r; lra. }
  assert (G : IZR (n - 1) <= big). { unfold big. apply Rle_trans with (IZR (2 ^ 53)); [apply IZR_le; lia|]. change (2 ^ 53)%Z with (radix2 ^ 53)%Z. rewrite (IZR_Zpower radix2) by lia. apply bpow_le. lia. }
  destruct (bmul_correct x (b64_of_Z (n - 1)) F Fn) as [A C]; [rewrite En; apply Rabs_le; lra|]. rewrite En in C.
  cbn [nofZ NumB] in *. rewrite C. split; [easy|]. split; [apply rnd_nonneg; lra|apply rnd_le; [apply fmt_Z; lia|lra]].
Qed.
Lemma trunc_index (X : b64) n : is_finite X = true -> 0 <= B2R X -> B2R X < IZR n -> (1 <= n <= 2 ^ 53)%Z -> (0 <= ntrunc X < n)%Z.
Proof.
  intros F P L Hn. assert (T : (0 <= Ztrunc (B2R X) < n)%Z).
  { rewrite Ztrunc_floor by easy. split; [apply Zfloor_lub; exact P|]. apply lt_IZR. eapply Rle_lt_trans; [apply Zfloor_lb|exact L]. }
  rewrite (btrunc_correct X F); [easy|]. unfold int_min. lia.
Qed.

Theorem bilinear_safe w (img : list (list (color b64))) (u v : b64) : rectangular w img -> (0 < w)%nat ->
  (Z.of_nat w <= 2 ^ 53)%Z -> (Z.of_nat (length img) <= 2 ^ 53)%Z -> is_finite u = true -> is_finite v = true ->
  exists c, bilinearUV img u v = Val c.
Proof.
  intros R W0 Hw Hh Fu Fv. unfold bilinearUV. rewrite (rowsSize_rect w img R). set (W := Z.of_nat w) in *. set (H := Z.of_nat (length img)) in *.
  assert (Pw : (1 <= W)%Z) by lia. assert (Ph : (1 <= H)%Z) by (destruct R as [N _]; unfold H; destruct img; [easy|cbn [length]; lia]).
  rewrite (proj2 (beqb_R u u Fu Fu) eq_refl), (proj2 (beqb_R v v Fv Fv) eq_refl). cbn [negb orb]. cbv zeta.
  destruct (warp_b64 u Fu) as [FU RU]. destruct (warp_b64 v Fv) as [FV RV].
  destruct (scaled_b64 (warp u) W FU ltac:(lra) ltac:(lia)) as [FX RX]. destruct (scaled_b64 (warp v) H FV ltac:(lra) ltac:(lia)) as [FY RY].
  set (X := nmul (warp u) (nofZ (W - 1))) in *. set (Y := nmul (warp v) (nofZ (H - 1))) in *.
  assert (IX : (0 <= ntrunc X < W)%Z). { apply trunc_index; [easy|lra| |lia]. rewrite minus_IZR in RX. lra. }
  assert (IY : (0 <= ntrunc Y < H)%Z). { apply trunc_index; [easy|lra| |lia]. rewrite minus_IZR in RY. lra. }
  set (x0 := ntrunc X) in *. set (y0 := ntrunc Y) in *.
  set (x1 := if (W <=? x0 + 1)%Z then 0%Z else (x0 + 1)%Z). set (y1 := if (H <=? y0 + 1)%Z then 0%Z else (y0 + 1)%Z).
  assert (IX1 : (0 <= x1 < W)%Z) by (unfold x1; destruct (Z.leb_spec W (x0 + 1)); lia).
  assert (IY1 : (0 <= y1 < H)%Z) by (unfold y1; destruct (Z.leb_spec H (y0 + 1)); lia).
  destruct (pixelAt_some w img y0 x0 R) as [c00 E00]; [lia|lia|]. destruct (pixelAt_some w img y1 x0 R) as [c01 E01]; [lia|lia|].
  destruct (pixelAt_some w img y0 x1 R) as [c10 E10]; [lia|lia|]. destruct (pixelAt_some w img y1 x1 R) as [c11 E11]; [lia|lia|].
  rewrite (atIndex_pixel img x0 y0 c00), (atIndex_pixel img x0 y1 c01), (atIndex_pixel img x1 y0 c10), (atIndex_pixel img x1 y1 c11) by (easy || lia).
  cbn [obind]. eauto.
Qed.

Theorem bilinear_infinite s (img : list (list (color b64))) (v : b64) : img <> nil -> is_finite v = true ->
  bilinearUV img (B754_infinity s) v = Panic.
Proof.
  intros NE Fv. unfold bilinearUV. destruct img as [|row img]; [easy|]. cbn [rowsSize].
  rewrite (proj2 (beqb_R v v Fv Fv) eq_refl).
  assert (E : neqb (B754_infinity s : b64) (B754_infinity s) = true) by (destruct s; reflexivity). rewrite E. cbn [negb orb]. cbv zeta.
  assert (WI : is_nan (warp (B754_infinity s : b64)) = true) by (destruct s; vm_compute; reflexivity).
  destruct (warp (B754_infinity s : b64)) eqn:EW; try easy.
  match goal with |- context[nmul (B754_nan) ?k] => replace (nmul (B754_nan : b64) k) with (B754_nan : b64) by reflexivity end.
  change (ntrunc (B754_nan : b64)) with int_min.
  match goal with |- obind (atIndex ?i int_min ?j) _ = _ => assert (P : atIndex i int_min j = Panic \/ exists r, atIndex i int_min j = r /\ r = Panic) end.
  { unfold atIndex. destruct (getZ (row :: img) _) as [r| |] eqn:G; cbn [obind].
    - left. unfold getZ, int_min. reflexivity.
    - now left.
    - unfold getZ in G. destruct (_ <? 0)%Z; [easy|]. destruct (nth_error _ _); easy. }
  destruct P as [P|(r & -> & P)]; [rewrite P; reflexivity|]. now rewrite P.
Qed.

Theorem nearest_safe w (img : list (list (color b64))) (u v : b64) : rectangular w img -> (0 < w)%nat ->
  (Z.of_nat w <= 2 ^ 52)%Z -> (Z.of_nat (length img) <= 2 ^ 52)%Z ->
  is_finite u = true -> 0 <= B2R u <= 1 -> is_finite v = true -> 0 <= B2R v <= 1 ->
  exists c, nearestUV img u v = Val c.
Proof.
  intros R W0 Hw Hh Fu Ru Fv Rv. unfold nearestUV. rewrite (rowsSize_rect w img R). set (W := Z.of_nat w) in *. set (H := Z.of_nat (length img)) in *.
  assert (Pw : (1 <= W)%Z) by lia. assert (Ph : (1 <= H)%Z) by (destruct R as [N _]; unfold H; destruct img; [easy|cbn [length]; lia]).
  assert (I : forall (x : b64) n, is_finite x = true -> 0 <= B2R x <= 1 -> (1 <= n <= 2 ^ 52)%Z ->
    (0 <= ntrunc (nadd (nmul x (nofZ (n - 1))) (nQ 1 2)) < n)%Z).
  { intros x n Fx Rx Hn. destruct (scaled_b64 x n Fx Rx ltac:(lia)) as [F1 R1]. destruct nhalf_b64 as [F2 E2]. change (nQ 1 2) with (nhalf : b64).
    assert (G : IZR (n - 1) + 1 / 2 <= big).
    { unfold big. apply Rle_trans with (IZR (2 ^ 53)). { rewrite minus_IZR. apply Rle_trans with (IZR n); [lra|apply IZR_le; lia]. }
      change (2 ^ 53)%Z with (radix2 ^ 53)%Z. rewrite (IZR_Zpower radix2) by lia. apply bpow_le. lia. }
    destruct (badd_correct _ _ F1 F2) as [A C]; [rewrite E2; apply Rabs_le; lra|]. rewrite E2 in C.
    assert (FH : fmt (IZR (n - 1) + 1 / 2)).
    { replace (IZR (n - 1) + 1 / 2) with (IZR (2 * n - 1) * bpow radix2 (-1)).
      - apply fmt_F2R; lia.
      - rewrite !minus_IZR, mult_IZR. change (bpow radix2 (-1)) with (/ 2). lra. }
    apply trunc_index; [exact A|rewrite C; apply rnd_nonneg; lra| |lia].
    rewrite C. apply Rle_lt_trans with (IZR (n - 1) + 1 / 2); [apply rnd_le; [exact FH|lra]|]. rewrite minus_IZR. lra. }
  cbv zeta. pose proof (I u W Fu Ru ltac:(lia)) as IX. pose proof (I v H Fv Rv ltac:(lia)) as IY.
  destruct (pixelAt_some w img _ _ R IX IY) as [c E]. exists c. apply atIndex_pixel; [lia|lia|exact E].
Qed.
