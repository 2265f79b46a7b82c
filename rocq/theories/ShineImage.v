(** * Images of scenes under lamps *)
From Coq Require Import ZArith Reals Bool List Lra Lia.
From Flocq Require Import Core.
From Flocq Require IEEE754.BinarySingleNaN.
Import IEEE754.BinarySingleNaN.
From Verif Require Import Num NumLaws Outcome B64 GeomModel ColorModel SeqModel SeqSpec SeqProofs ObjModel TreeModel SceneModel SceneSpec CtxProofs SamplerModel SamplerSpec SamplerNum FloatErr FloatSpec RectFloat ShineSpec ShineFloat.
Import ListNotations.
Local Open Scope R_scope.

(** ** Positions in the image *)
Section Pos.
  Variables i W : Z.
  Hypothesis H : (0 <= i < W)%Z.
  Hypothesis HW : (W <= 2 ^ 30)%Z.
  Let n : b64 := nsub (nofZ i) (nopp nhalf).
  Let dn : b64 := nsub (nsub (nofZ W) nhalf) (nopp nhalf).
  Lemma part : is_finite n = true /\ is_finite dn = true /\ 0 <= B2R n <= B2R dn /\ 1 / 4 <= B2R dn <= 2147483648.
  Proof.
    destruct nhalf_b64 as [Fh Eh]. destruct neg_half_b64 as [Fn En]. destruct (Z_b i) as [Fi Ei]; [lia|]. destruct (Z_b W) as [FW EW]; [lia|]. pose proof u_u as U.
    assert (Ri : 0 <= IZR i <= IZR W - 1) by (split; [apply IZR_le; lia|rewrite <- minus_IZR; apply IZR_le; lia]). assert (RW : IZR W <= 1073741824) by (apply (IZR_le W (2 ^ 30)); exact HW).
    unfold n, dn. destruct (sub_u 31 (nofZ i) (nopp nhalf) ltac:(lia) Fi Fn) as (F1 & E1 & _); [rewrite Ei, En; change (bpow radix2 31) with 2147483648; apply Rabs_le; lra|].
    destruct (sub_u 31 (nofZ W) nhalf ltac:(lia) FW Fh) as (F2 & E2 & _); [rewrite EW, Eh; change (bpow radix2 31) with 2147483648; apply Rabs_le; lra|].
    change (bpow radix2 31) with 2147483648 in *. rewrite Ei, En in E1. rewrite EW, Eh in E2. apply Rabs_le_inv in E1, E2.
    destruct (sub_u 31 (nsub (nofZ W) nhalf) (nopp nhalf) ltac:(lia) F2 Fn) as (F3 & E3 & _); [rewrite En; change (bpow radix2 31) with 2147483648; apply Rabs_le; lra|].
    change (bpow radix2 31) with 2147483648 in *. rewrite En in E3. apply Rabs_le_inv in E3. repeat split; try assumption; lra.
  Qed.
  Lemma linterp_u (y1 y2 : b64) : is_finite y1 = true -> is_finite y2 = true -> -3 <= B2R y1 <= 3 -> -3 <= B2R y2 <= 3 ->
    let y := linterp (nopp nhalf) y1 (nsub (nofZ W) nhalf) y2 (nofZ i) in is_finite y = true /\ Rmin (B2R y1) (B2R y2) - / 1000 <= B2R y <= Rmax (B2R y1) (B2R y2) + / 1000.
  Proof.
    intros F1 F2 B1 B2. destruct part as (Fn & Fd & Hn & Hd). pose proof u_u as U. unfold linterp. cbv zeta. fold n dn.
    destruct (sub_u 3 y2 y1 ltac:(lia) F2 F1) as (FD & ED & MD); [change (bpow radix2 3) with 8; apply Rabs_le; lra|]. change (bpow radix2 3) with 8 in *. set (D := nsub y2 y1) in *. apply Rabs_le_inv in ED, MD.
    assert (P : Rabs (B2R D * B2R n) <= 8 * B2R dn) by (rewrite Rabs_mult; rewrite (Rabs_pos_eq (B2R n)) by lra; assert (Rabs (B2R D) <= 8) by (apply Rabs_le; lra); pose proof (Rabs_pos (B2R D)); nra).
    destruct (mul_u 34 D n ltac:(lia) FD Fn) as (FP & EP & _); [change (bpow radix2 34) with 17179869184; lra|]. change (bpow radix2 34) with 17179869184 in EP. set (Q := nmul D n) in *.
    assert (F : exists f, 0 <= f <= 1 /\ B2R n = f * B2R dn).
    { exists (B2R n / B2R dn). split; [|field; lra]. split; [apply Rmult_le_pos; [lra|apply Rlt_le, Rinv_0_lt_compat; lra]|]. apply Rmult_le_reg_r with (B2R dn); [lra|]. unfold Rdiv. rewrite Rmult_assoc, Rinv_l by lra. lra. }
    destruct F as (f & Hf & Ef).
    assert (EQ : Rabs (B2R Q / B2R dn - B2R D * f) <= / 10000).
    { replace (B2R Q / B2R dn - B2R D * f) with ((B2R Q - B2R D * B2R n) / B2R dn) by (rewrite Ef; field; lra). unfold Rdiv. rewrite Rabs_mult. rewrite (Rabs_pos_eq (/ B2R dn)) by (apply Rlt_le, Rinv_0_lt_compat; lra).
      assert (/ B2R dn <= 4) by (replace 4 with (/ (1 / 4)) by lra; apply Rinv_le; lra). assert (0 < / B2R dn) by (apply Rinv_0_lt_compat; lra). pose proof (Rabs_pos (B2R Q - B2R D * B2R n)). nra. }
    assert (DF : -8 <= B2R D * f <= 8) by nra. apply Rabs_le_inv in EQ.
    destruct (div_u 4 Q dn ltac:(lia) FP) as (FQ & EQ2 & _); [lra|change (bpow radix2 4) with 16; apply Rabs_le; lra|]. change (bpow radix2 4) with 16 in EQ2. apply Rabs_le_inv in EQ2. set (Z := ndiv Q dn) in *.
    destruct (add_u 4 y1 Z ltac:(lia) F1 FQ) as (FS & ES & _); [change (bpow radix2 4) with 16; apply Rabs_le; lra|]. change (bpow radix2 4) with 16 in ES. apply Rabs_le_inv in ES.
    split; [exact FS|]. assert (DD : Rabs (B2R D * f - (B2R y2 - B2R y1) * f) <= 8 * u).
    { replace (B2R D * f - (B2R y2 - B2R y1) * f) with ((B2R D - (B2R y2 - B2R y1)) * f) by ring. rewrite Rabs_mult, (Rabs_pos_eq f) by lra. assert (Rabs (B2R D - (B2R y2 - B2R y1)) <= 8 * u) by (apply Rabs_le; lra). pose proof (Rabs_pos (B2R D - (B2R y2 - B2R y1))). nra. }
    apply Rabs_le_inv in DD. assert (C : Rmin (B2R y1) (B2R y2) <= B2R y1 + (B2R y2 - B2R y1) * f <= Rmax (B2R y1) (B2R y2)).
    { unfold Rmin, Rmax. destruct (Rle_dec _ _); split; nra. }
    lra.
  Qed.
End Pos.

Lemma in_unit_R (x : b64) : in_unit x -> is_finite x = true /\ 0 <= B2R x < 1.
Proof.
  intros [A B]. assert (F : is_finite x = true). { destruct x as [s|s| |s m e E]; try reflexivity; [destruct s|]; vm_compute in A, B; discriminate. }
  destruct (Z_b 0) as [F0 E0]; [lia|]. destruct (Z_b 1) as [F1 E1]; [lia|]. split; [exact F|]. split.
  - apply (bleb_R (nofZ 0) x F0 F) in A. now rewrite E0 in A.
  - apply (bltb_R x (nofZ 1) F F1) in B. now rewrite E1 in B.
Qed.

Lemma pixel_u w h : (0 < w <= 2 ^ 30)%Z -> (0 < h <= 2 ^ 30)%Z -> is_finite (pixelSize w h : b64) = true /\ 0 <= B2R (pixelSize w h : b64) <= 1.
Proof.
  intros Hw Hh. destruct (Z_b w) as [Fw Ew]; [lia|]. destruct (Z_b h) as [Fh Eh]; [lia|]. destruct (Z_b 1) as [F1 E1]; [lia|]. unfold pixelSize. cbv zeta.
  assert (X : forall z : b64, 1 <= B2R z -> is_finite (ndiv (nofZ 1) z) = true /\ 0 <= B2R (ndiv (nofZ 1) z) <= 1).
  { intros z Hz. assert (I : 0 < / B2R z <= 1) by (split; [apply Rinv_0_lt_compat; lra|rewrite <- Rinv_1; apply Rinv_le; lra]).
    destruct (div_u 0 (nofZ 1) z ltac:(lia) F1) as (F & E & M); [lra|rewrite E1; unfold Rdiv; rewrite Rmult_1_l; change (bpow radix2 0) with 1; apply Rabs_le; lra|].
    split; [exact F|]. change (bpow radix2 0) with 1 in M. apply Rabs_le_inv in M. split; [|lra].
    assert (Q : B2R (ndiv (nofZ 1) z) = rnd (B2R (nofZ 1 : b64) / B2R z)). { apply bdiv_correct; [exact F1|lra|]. rewrite E1. unfold Rdiv. rewrite Rmult_1_l. rewrite Rabs_pos_eq by lra. apply Rle_trans with 1; [lra|]. change 1 with (bpow radix2 0). apply bpow_big. lia. }
    rewrite Q. apply rnd_nonneg. rewrite E1. lra. }
  destruct (nltb _ _); apply X; [rewrite Ew|rewrite Eh]; apply IZR_le; lia.
Qed.
Lemma jitter_u (x p a : b64) : is_finite x = true -> -2 <= B2R x <= 3 -> is_finite p = true -> 0 <= B2R p <= 1 -> in_unit a -> at_most 2 (nadd x (nmul p (nsub a nhalf))).
Proof.
  intros Fx Hx Fp Hp Ha. destruct (in_unit_R a Ha) as [Fa Ra]. destruct nhalf_b64 as [Fh Eh]. pose proof u_u as U.
  destruct (sub_u 0 a nhalf ltac:(lia) Fa Fh) as (F1 & E1 & M1); [rewrite Eh; change (bpow radix2 0) with 1; apply Rabs_le; lra|]. change (bpow radix2 0) with 1 in *. rewrite Eh in E1. apply Rabs_le_inv in E1.
  set (z := nsub a nhalf) in *. assert (P : -(51/100) <= B2R p * B2R z <= 51/100) by nra.
  destruct (mul_u 0 p z ltac:(lia) Fp F1) as (F2 & E2 & _); [change (bpow radix2 0) with 1; apply Rabs_le; lra|]. change (bpow radix2 0) with 1 in *. apply Rabs_le_inv in E2.
  destruct (add_u 2 x (nmul p z) ltac:(lia) Fx F2) as (F3 & _ & M3); [change (bpow radix2 2) with 4; apply Rabs_le; lra|]. split; assumption.
Qed.
Lemma between_am (x : b64) : is_finite x = true -> -2 <= B2R x <= 3 -> at_most 2 x.
Proof. intros F H. split; [exact F|]. change (bpow radix2 2) with 4. apply Rabs_le. lra. Qed.

Lemma aspect_u (h w : Z) : (0 < w <= 2 ^ 30)%Z -> (0 < h <= 2 ^ 30)%Z -> (h <= 3 * w)%Z ->
  let r : b64 := nmul nhalf (ndiv (nofZ h) (nofZ w)) in is_finite r = true /\ 0 <= B2R r <= 151 / 100.
Proof.
  intros Hw Hh Ha r. destruct (Z_b w) as [Fw Ew]; [lia|]. destruct (Z_b h) as [Fh Eh]; [lia|]. destruct nhalf_b64 as [Fn En]. pose proof u_u as U.
  assert (Rw : 1 <= IZR w) by (apply IZR_le; lia). assert (Rh : 1 <= IZR h) by (apply IZR_le; lia). assert (Ra : IZR h <= 3 * IZR w) by (rewrite <- mult_IZR; apply IZR_le; lia).
  assert (Q : 0 < IZR h / IZR w <= 3). { split; [apply Rmult_lt_0_compat; [lra|apply Rinv_0_lt_compat; lra]|]. apply Rmult_le_reg_r with (IZR w); [lra|]. unfold Rdiv. rewrite Rmult_assoc, Rinv_l by lra. lra. }
  destruct (div_u 2 (nofZ h) (nofZ w) ltac:(lia) Fh) as (F1 & E1 & _); [rewrite Ew; lra|rewrite Eh, Ew; change (bpow radix2 2) with 4; apply Rabs_le; lra|].
  change (bpow radix2 2) with 4 in E1. rewrite Eh, Ew in E1.
  assert (P1 : 0 <= B2R (ndiv (nofZ h) (nofZ w) : b64)).
  { replace (B2R (ndiv (nofZ h) (nofZ w) : b64)) with (rnd (B2R (nofZ h : b64) / B2R (nofZ w : b64))); [rewrite Eh, Ew; apply rnd_nonneg; lra|].
    symmetry. apply bdiv_correct; [exact Fh|rewrite Ew; lra|]. rewrite Eh, Ew, Rabs_pos_eq by lra. apply Rle_trans with (bpow radix2 2); [change (bpow radix2 2) with 4; lra|]. apply bpow_big. lia. }
  set (q := ndiv _ _) in *. apply Rabs_le_inv in E1.
  destruct (mul_u 1 nhalf q ltac:(lia) Fn F1) as (F2 & E2 & _); [rewrite En; change (bpow radix2 1) with 2; apply Rabs_le; lra|]. change (bpow radix2 1) with 2 in E2. rewrite En in E2.
  assert (P2 : 0 <= B2R (nmul nhalf q)).
  { replace (B2R (nmul nhalf q)) with (rnd (B2R (nhalf : b64) * B2R q)); [rewrite En; apply rnd_nonneg; lra|]. symmetry. apply bmul_correct; [exact Fn|exact F1|]. rewrite En, Rabs_pos_eq by lra. apply Rle_trans with (bpow radix2 2); [change (bpow radix2 2) with 4; lra|]. apply bpow_big. lia. }
  apply Rabs_le_inv in E2. split; [exact F2|]. fold r in P2. unfold r in *. lra.
Qed.

Lemma AA_unit (shifts : list (b64 * b64)) a b : hseq_generate2 (newHalton 2 3 shifts) = Val (a, b) -> in_unit a /\ in_unit b.
Proof.
  intros E. assert (in_unit (b64_of_Z 0)) as H0 by (split; vm_compute; reflexivity).
  destruct (hseq_generate2_in_unit (newHalton 2 3 shifts)) as (x & y & Eg & X & Y); [unfold newHalton; cbn [hs_baseU hs_baseV hs_index]; lia ..|exact H0|exact H0|].
  rewrite E in Eg. assert (a = x /\ b = y) as [-> ->] by (split; congruence). now split.
Qed.

Lemma pos_small aa (shifts : list (b64 * b64)) w h p k q x y : (w <= 2 ^ 30)%Z -> (h <= 2 ^ 30)%Z -> (h <= 3 * w)%Z -> in_image w h p -> sample_pos aa shifts w h p k = Val (q, (x, y)) -> at_most 2 x /\ at_most 2 y.
Proof.
  intros Hw Hh Ha Hp E. destruct Hp as [Hx Hy]. unfold sample_pos in E. unfold indexToCam in E. rewrite !lower_b64, !upper_b64 in E by lia. cbn [orb] in E. cbv zeta in E. cbn [obind] in E.
  destruct nhalf_b64 as [Fn En]. pose proof u_u as U. destruct (Z_b 0) as [F0 E0]; [lia|]. destruct (Z_b 1) as [F1 E1]; [lia|].
  destruct (linterp_u (fst p) w ltac:(lia) Hw (nofZ 0) (nofZ 1) F0 F1) as [Fx Bx]; [rewrite E0; lra|rewrite E1; lra|]. rewrite E0, E1 in Bx. rewrite Rmin_left, Rmax_right in Bx by lra.
  destruct (aspect_u h w ltac:(lia) ltac:(lia) Ha) as [Fr Br]. set (r := nmul nhalf (ndiv (nofZ h) (nofZ w))) in *.
  destruct (add_u 2 nhalf r ltac:(lia) Fn Fr) as (G1 & D1 & _); [rewrite En; change (bpow radix2 2) with 4; apply Rabs_le; lra|].
  destruct (sub_u 2 nhalf r ltac:(lia) Fn Fr) as (G2 & D2 & _); [rewrite En; change (bpow radix2 2) with 4; apply Rabs_le; lra|]. change (bpow radix2 2) with 4 in *. rewrite En in D1, D2. apply Rabs_le_inv in D1, D2.
  destruct (linterp_u (snd p) h ltac:(lia) Hh (nadd nhalf r) (nsub nhalf r) G1 G2) as [Fy By]; [lra|lra|].
  assert (Ymin : - (12 / 10) <= Rmin (B2R (nadd nhalf r)) (B2R (nsub nhalf r))) by (apply Rmin_glb; lra). assert (Ymax : Rmax (B2R (nadd nhalf r)) (B2R (nsub nhalf r)) <= 22 / 10) by (apply Rmax_lub; lra).
  destruct (ctxseq_init (newCtxSeq shifts) _ k) as [c| |] eqn:Ec; try discriminate E. cbn [obind] in E.
  assert (EA : cs_AA c = newHalton 2 3 shifts).
  { unfold ctxseq_init, hseq_init, newCtxSeq, newHalton in Ec. cbn [cs_1 cs_2 cs_L cs_AA hs_shifts hs_baseU hs_baseV] in Ec. destruct (nth_error shifts _) as [[su sv]|]; [|discriminate Ec]. cbn [obind] in Ec.
    apply (f_equal (fun o => match o with Val c => cs_AA c | _ => cs_AA (newCtxSeq shifts) end)) in Ec. symmetry. exact Ec. }
  set (xi := linterp _ _ _ _ (nofZ (fst p))) in *. set (yi := linterp _ _ _ _ (nofZ (snd p))) in *.
  unfold jitter in E. destruct aa.
  - rewrite EA in E. destruct (hseq_generate2 (newHalton 2 3 shifts)) as [[a b]| |] eqn:Eg; try discriminate E. cbn [omap] in E.
    destruct (AA_unit shifts a b Eg) as [Ua Ub]. destruct (pixel_u w h ltac:(lia) ltac:(lia)) as [Fp Bp].
    assert (x = nadd xi (nmul (pixelSize w h) (nsub a nhalf)) /\ y = nadd yi (nmul (pixelSize w h) (nsub b nhalf))) as [-> ->] by (split; congruence).
    split; apply jitter_u; try assumption; lra.
  - cbn [omap] in E. assert (x = xi /\ y = yi) as [-> ->] by (split; congruence). split; apply between_am; try assumption; lra.
Qed.

(** ** Numbers of the sequences *)
Lemma unit_fair (u v : b64) : in_unit u -> in_unit v -> fair_pair (u, v).
Proof. intros A B. destruct (in_unit_R u A) as [F1 R1]. destruct (in_unit_R v B) as [F2 R2]. split; [split; [exact F1|cbn [fst]; lra]|]. split; [exact F2|exact R2]. Qed.
Lemma fair_at {G} (rand2 : G -> (b64 * b64) * G) aa (shifts : list (b64 * b64)) w h p k q xy : (forall g, fair_pair (fst (rand2 g))) -> Forall (fun s => in_unit (fst s) /\ in_unit (snd s)) shifts -> (0 <= k < 2 ^ 53 - 1)%Z ->
  sample_pos aa shifts w h p k = Val (q, xy) -> fair_numbers rand2 q.
Proof.
  intros Hr Hs Hk E. unfold sample_pos in E. destruct (indexToCam _ _ _ _) as [[xi yi]| |]; try discriminate E. cbn [obind] in E.
  destruct (ctxseq_init (newCtxSeq shifts) (Z.to_nat (w * snd p + fst p)) k) as [c| |] eqn:Ec; try discriminate E. cbn [obind] in E. destruct (jitter _ _ _ _ _ _) as [xy'| |]; try discriminate E. cbn [omap] in E.
  assert (q = c) as -> by congruence. clear E. unfold ctxseq_init, hseq_init, newCtxSeq, newHalton in Ec. cbn [cs_1 cs_2 cs_L cs_AA hs_shifts hs_baseU hs_baseV] in Ec.
  destruct (nth_error shifts _) as [[su sv]|] eqn:En; [|discriminate Ec]. cbn [obind] in Ec. apply nth_error_In in En. rewrite Forall_forall in Hs. destruct (Hs _ En) as [S1 S2]. cbn [fst snd] in S1, S2.
  split; [exact Hr|].
  assert (X : forall a b uv, (2 <= a < 2 ^ 53)%Z -> (2 <= b < 2 ^ 53)%Z -> hseq_generate2 (HSeq a b k su sv shifts) = Val uv -> fair_pair uv).
  { intros a b uv A B Eg. destruct (hseq_generate2_in_unit (HSeq a b k su sv shifts) A B) as (u & v & Eg' & U & V); [exact Hk|exact S1|exact S2|]. rewrite Eg in Eg'. assert (uv = (u, v)) as -> by congruence. now apply unit_fair. }
  assert (C1 : cs_1 c = HSeq 2 3 k su sv shifts). { apply (f_equal (fun o => match o with Val c => cs_1 c | _ => HSeq 0 0 0 su sv nil end)) in Ec. symmetry. exact Ec. }
  assert (C2 : cs_2 c = HSeq 5 7 k su sv shifts). { apply (f_equal (fun o => match o with Val c => cs_2 c | _ => HSeq 0 0 0 su sv nil end)) in Ec. symmetry. exact Ec. }
  rewrite C1, C2. split; intros uv; apply X; lia.
Qed.
