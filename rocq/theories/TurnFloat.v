(** * Quarter turns are exact (C135) *)
From Coq Require Import ZArith Reals Bool List Lra Lia Psatz.
From Flocq Require Import Core.
From Flocq Require IEEE754.BinarySingleNaN.
Import IEEE754.BinarySingleNaN.
From Verif Require Import Num NumLaws Outcome B64 GeomModel ParamProofs FloatSpec FloatErr NormFloat RectFloat CosFloat TextureProofs TurnSpec RotFloat.
Import ListNotations.
Local Open Scope R_scope.

Lemma likev_trans a b c : likev a b -> likev b c -> likev a c.
Proof. intros ((A0 & B0) & (A1 & B1) & (A2 & B2)) ((C0 & D0) & (C1 & D1) & (C2 & D2)). split; [|split]; split; congruence. Qed.
Lemma likem_trans a b c : likem a b -> likem b c -> likem a c.
Proof. intros (A0 & A1 & A2) (B0 & B1 & B2). split; [|split]; eapply likev_trans; eassumption. Qed.
Lemma ortho_cols m : ortho (10 * u) m -> (fin3' (m0 m) /\ fin3' (m1 m) /\ fin3' (m2 m)) /\ small (m0 m) /\ small (m1 m) /\ small (m2 m).
Proof. intros H. split; [split; [|split]; apply H|]. apply (cols_small (10 * u)); [apply u_big; lra|exact H]. Qed.
Section Exact.
  Context {T : Trig b64}.
  Hypothesis HT : accurate_trig T.
  Lemma rotate_like o ax a : ortho (10 * u) (rotationMatrix ax a) -> likem (afA (rotate o ax a)) (rotationMatrix ax a).
  Proof.
    intros H. destruct (ortho_cols _ H) as ((F0 & F1 & F2) & S0 & S1 & S2).
    assert (I : unital (mmul (afA (translate (vmul o (nofZ (-1))))) unitMatrix)) by (apply unital_mul; [apply unital_translate|apply unital_unit]).
    assert (L := mul_unit_r _ _ I F0 F1 F2 S0 S1 S2). assert (H' := like_ortho _ _ _ L H). destruct (ortho_cols _ H') as ((F0' & F1' & F2') & S0' & S1' & S2').
    exact (likem_trans _ _ _ (mul_unit_l _ _ (unital_translate o) F0' F1' F2' S0' S1' S2') L).
  Qed.
  Lemma e_exact (c : b64) : is_finite c = true -> forall k, B2R c = IZR k -> (k = 0 \/ k = 1 \/ k = -1)%Z -> forall x y : b64, one x -> one y -> one (nadd c (nmul (nmul x y) (nsub (nofZ 1) c))).
  Proof.
    intros Fc k E K x y X Y. assert (P : one (nmul x y)) by (apply val_one_l; [exact X|rewrite Rabs_R1; lra|exact Y]).
    destruct (Z_b 1 ltac:(cbv; discriminate)) as [F1 E1].
    assert (B1 : Rabs (IZR (1 - k)) <= 2) by (rewrite <- abs_IZR; apply IZR_le; lia).
    destruct (bsub_correct (nofZ 1) c F1 Fc) as [F2 E2]; [rewrite E1, E, <- minus_IZR; eapply Rle_trans; [exact B1|apply (bpow_big 1); lia]|].
    rewrite E1, E, <- minus_IZR, rnd_id in E2 by (apply fmt_Z; lia).
    destruct (val_one_l _ _ _ P B1 (conj F2 E2)) as [F3 E3].
    destruct (badd_correct c _ Fc F3) as [F4 E4]; [rewrite E3, E, <- plus_IZR; replace (k + (1 - k))%Z with 1%Z by lia; rewrite Rabs_R1; apply (bpow_big 0); lia|].
    split; [exact F4|]. rewrite E4, E3, E, <- plus_IZR. replace (k + (1 - k))%Z with 1%Z by lia. apply rnd_id. apply (fmt_Z 1). cbv; discriminate.
  Qed.
  Lemma rotv_x (a : b64) : is_finite a = true -> let M := rotationMatrix vEx a in
    (is_finite (vx (m0 M)) = true /\ Rabs (B2R (vx (m0 M)) - 1) <= 4 * u) /\ val (vy (m0 M)) 0 /\ val (vz (m0 M)) 0 /\ val (vx (m1 M)) 0 /\ val (vy (m1 M)) (B2R (uCos a)) /\ val (vz (m1 M)) (B2R (uSin a)) /\ val (vx (m2 M)) 0 /\ val (vy (m2 M)) (- B2R (uSin a)) /\ val (vz (m2 M)) (B2R (uCos a)).
  Proof.
    intros Fa. destruct (trig_unit HT a Fa) as (Fs & Fc & Ls & Lc & Q). destruct axis_x as (AX & AY & AZ). assert (Pu := u_pos).
    unfold rotationMatrix. cbv zeta. cbn [m0 m1 m2 vx vy vz]. set (ux := vx (vnormalized vEx)) in *. set (uy := vy (vnormalized vEx)) in *. set (uz := vz (vnormalized vEx)) in *. clearbody ux uy uz.
    set (s := uSin a) in *. set (c := uCos a) in *. clearbody s c. assert (F0 : is_finite ux = true) by apply AX. assert (F1 : is_finite uy = true) by apply AY. assert (F2 : is_finite uz = true) by apply AZ.
    exact (conj (e_one c Fc Lc ux ux AX AX)
      (conj (e_null_add s Fs _ uz (n10 c Fc Lc uy ux AY F0) AZ)
      (conj (e_null_sub s Fs _ uy (n10 c Fc Lc uz ux AZ F0) AY)
      (conj (e_null_sub s Fs _ uz (n01 c Fc Lc ux uy F0 AY) AZ)
      (conj (e_diag c Fc Lc uy uy AY AY)
      (conj (e_sin_add s Fs Ls _ ux (n10 c Fc Lc uz uy AZ F1) AX)
      (conj (e_null_add s Fs _ uy (n01 c Fc Lc ux uz F0 AZ) AY)
      (conj (e_sin_sub s Fs Ls _ ux (n10 c Fc Lc uy uz AY F2) AX)
      (e_diag c Fc Lc uz uz AZ AZ))))))))).
  Qed.
  Lemma rotd_x (a : b64) c : is_finite a = true -> B2R (uCos a) = IZR c -> (c = 0 \/ c = 1 \/ c = -1)%Z -> one (vx (m0 (rotationMatrix vEx a))).
  Proof.
    intros Fa E K. destruct (trig_unit HT a Fa) as (_ & Fc & _). destruct axis_x as (AX & AY & AZ). unfold rotationMatrix. cbv zeta. cbn [m0 m1 m2 vx vy vz]. apply (e_exact _ Fc c E K); assumption.
  Qed.
  Lemma pitch_vals (a : b64) : is_finite a = true -> likem (afA (pitch a)) (rotationMatrix vEx a).
  Proof. intros Fa. apply rotate_like, rot_x; assumption. Qed.
  Lemma rotv_y (a : b64) : is_finite a = true -> let M := rotationMatrix vEy a in
    val (vx (m0 M)) (B2R (uCos a)) /\ val (vy (m0 M)) 0 /\ val (vz (m0 M)) (- B2R (uSin a)) /\ val (vx (m1 M)) 0 /\ (is_finite (vy (m1 M)) = true /\ Rabs (B2R (vy (m1 M)) - 1) <= 4 * u) /\ val (vz (m1 M)) 0 /\ val (vx (m2 M)) (B2R (uSin a)) /\ val (vy (m2 M)) 0 /\ val (vz (m2 M)) (B2R (uCos a)).
  Proof.
    intros Fa. destruct (trig_unit HT a Fa) as (Fs & Fc & Ls & Lc & Q). destruct axis_y as (AX & AY & AZ). assert (Pu := u_pos).
    unfold rotationMatrix. cbv zeta. cbn [m0 m1 m2 vx vy vz]. set (ux := vx (vnormalized vEy)) in *. set (uy := vy (vnormalized vEy)) in *. set (uz := vz (vnormalized vEy)) in *. clearbody ux uy uz.
    set (s := uSin a) in *. set (c := uCos a) in *. clearbody s c. assert (F0 : is_finite ux = true) by apply AX. assert (F1 : is_finite uy = true) by apply AY. assert (F2 : is_finite uz = true) by apply AZ.
    exact (conj (e_diag c Fc Lc ux ux AX AX)
      (conj (e_null_add s Fs _ uz (n01 c Fc Lc uy ux F1 AX) AZ)
      (conj (e_sin_sub s Fs Ls _ uy (n10 c Fc Lc uz ux AZ F0) AY)
      (conj (e_null_sub s Fs _ uz (n10 c Fc Lc ux uy AX F1) AZ)
      (conj (e_one c Fc Lc uy uy AY AY)
      (conj (e_null_add s Fs _ ux (n10 c Fc Lc uz uy AZ F1) AX)
      (conj (e_sin_add s Fs Ls _ uy (n10 c Fc Lc ux uz AX F2) AY)
      (conj (e_null_sub s Fs _ ux (n01 c Fc Lc uy uz F1 AZ) AX)
      (e_diag c Fc Lc uz uz AZ AZ))))))))).
  Qed.
  Lemma rotd_y (a : b64) c : is_finite a = true -> B2R (uCos a) = IZR c -> (c = 0 \/ c = 1 \/ c = -1)%Z -> one (vy (m1 (rotationMatrix vEy a))).
  Proof.
    intros Fa E K. destruct (trig_unit HT a Fa) as (_ & Fc & _). destruct axis_y as (AX & AY & AZ). unfold rotationMatrix. cbv zeta. cbn [m0 m1 m2 vx vy vz]. apply (e_exact _ Fc c E K); assumption.
  Qed.
  Lemma yaw_vals (a : b64) : is_finite a = true -> likem (afA (yaw a)) (rotationMatrix vEy a).
  Proof. intros Fa. apply rotate_like, rot_y; assumption. Qed.
  Lemma rotv_z (a : b64) : is_finite a = true -> let M := rotationMatrix vEz a in
    val (vx (m0 M)) (B2R (uCos a)) /\ val (vy (m0 M)) (B2R (uSin a)) /\ val (vz (m0 M)) 0 /\ val (vx (m1 M)) (- B2R (uSin a)) /\ val (vy (m1 M)) (B2R (uCos a)) /\ val (vz (m1 M)) 0 /\ val (vx (m2 M)) 0 /\ val (vy (m2 M)) 0 /\ (is_finite (vz (m2 M)) = true /\ Rabs (B2R (vz (m2 M)) - 1) <= 4 * u).
  Proof.
    intros Fa. destruct (trig_unit HT a Fa) as (Fs & Fc & Ls & Lc & Q). destruct axis_z as (AX & AY & AZ). assert (Pu := u_pos).
    unfold rotationMatrix. cbv zeta. cbn [m0 m1 m2 vx vy vz]. set (ux := vx (vnormalized vEz)) in *. set (uy := vy (vnormalized vEz)) in *. set (uz := vz (vnormalized vEz)) in *. clearbody ux uy uz.
    set (s := uSin a) in *. set (c := uCos a) in *. clearbody s c. assert (F0 : is_finite ux = true) by apply AX. assert (F1 : is_finite uy = true) by apply AY. assert (F2 : is_finite uz = true) by apply AZ.
    exact (conj (e_diag c Fc Lc ux ux AX AX)
      (conj (e_sin_add s Fs Ls _ uz (n10 c Fc Lc uy ux AY F0) AZ)
      (conj (e_null_sub s Fs _ uy (n01 c Fc Lc uz ux F2 AX) AY)
      (conj (e_sin_sub s Fs Ls _ uz (n10 c Fc Lc ux uy AX F1) AZ)
      (conj (e_diag c Fc Lc uy uy AY AY)
      (conj (e_null_add s Fs _ ux (n01 c Fc Lc uz uy F2 AY) AX)
      (conj (e_null_add s Fs _ uy (n10 c Fc Lc ux uz AX F2) AY)
      (conj (e_null_sub s Fs _ ux (n10 c Fc Lc uy uz AY F2) AX)
      (e_one c Fc Lc uz uz AZ AZ))))))))).
  Qed.
  Lemma rotd_z (a : b64) c : is_finite a = true -> B2R (uCos a) = IZR c -> (c = 0 \/ c = 1 \/ c = -1)%Z -> one (vz (m2 (rotationMatrix vEz a))).
  Proof.
    intros Fa E K. destruct (trig_unit HT a Fa) as (_ & Fc & _). destruct axis_z as (AX & AY & AZ). unfold rotationMatrix. cbv zeta. cbn [m0 m1 m2 vx vy vz]. apply (e_exact _ Fc c E K); assumption.
  Qed.
  Lemma roll_vals (a : b64) : is_finite a = true -> likem (afA (roll a)) (rotationMatrix vEz a).
  Proof. intros Fa. apply rotate_like, rot_z; assumption. Qed.

  (** a row of a matrix of zeros, ones and minus ones *)
  Lemma unit_mul (a x : b64) i : (-1 <= i <= 1)%Z -> val a (IZR i) -> at_most 900 x -> at_most 900 (nmul a x) /\ B2R (nmul a x) = IZR i * B2R x.
  Proof.
    intros I [Fa Ea] [Fx Lx]. assert (B : Rabs (IZR i * B2R x) <= bpow radix2 900).
    { rewrite Rabs_mult, <- abs_IZR. apply Rle_trans with (1 * Rabs (B2R x)); [apply Rmult_le_compat_r; [apply Rabs_pos|apply (IZR_le _ 1); lia]|lra]. }
    destruct (bmul_correct a x Fa Fx) as [F E]; [rewrite Ea; eapply Rle_trans; [exact B|apply bpow_big; lia]|].
    rewrite Ea, rnd_id in E; [split; [split; [exact F|rewrite E; exact B]|exact E]|].
    assert (H : (i = 0 \/ i = 1 \/ i = -1)%Z) by lia. destruct H as [-> |[-> | ->]]; [rewrite Rmult_0_l; apply fmt_0|rewrite Rmult_1_l; apply fmt_B2R|].
    replace (-1 * B2R x) with (- B2R x) by ring. apply fmt_opp, fmt_B2R.
  Qed.
  Lemma row (a b c x y z : b64) i j k : val a (IZR i) -> val b (IZR j) -> val c (IZR k) -> (Z.abs i + Z.abs j + Z.abs k <= 1)%Z -> at_most 900 x -> at_most 900 y -> at_most 900 z ->
    val (nadd (nadd (nmul a x) (nmul b y)) (nmul c z)) (IZR i * B2R x + IZR j * B2R y + IZR k * B2R z).
  Proof.
    intros A B C K X Y Z. destruct (unit_mul a x i ltac:(lia) A X) as [MA EA]. destruct (unit_mul b y j ltac:(lia) B Y) as [MB EB]. destruct (unit_mul c z k ltac:(lia) C Z) as [MC EC].
    set (p := nmul a x) in *. set (q := nmul b y) in *. set (r := nmul c z) in *. clearbody p q r.
    assert (N : forall (e : b64) n w, at_most 900 e -> B2R e = IZR n * w -> n = 0%Z -> null e) by (intros e n w [F _] E ->; split; [exact F|]; rewrite E; ring).
    assert (H : (i = 0 /\ j = 0 \/ i = 0 /\ k = 0 \/ j = 0 /\ k = 0)%Z) by lia. destruct H as [[H1 H2]|[[H1 H2]|[H1 H2]]].
    - destruct (null_add_l 900 (nadd p q) r ltac:(lia) (null_add _ _ (N _ _ _ MA EA H1) (N _ _ _ MB EB H2)) MC) as [F E]. split; [exact F|]. rewrite E, EC, H1, H2. ring.
    - destruct (null_mid 900 p q r ltac:(lia) (N _ _ _ MA EA H1) MB (N _ _ _ MC EC H2)) as [F E]. split; [exact F|]. rewrite E, EB, H1, H2. ring.
    - destruct (null_add_r 900 p q ltac:(lia) MA (N _ _ _ MB EB H1)) as [F E]. destruct (null_add_r 900 (nadd p q) r ltac:(lia)) as [F' E']; [split; [exact F|rewrite E; apply MA]|exact (N _ _ _ MC EC H2)|].
      split; [exact F'|]. rewrite E', E, EA, H1, H2. ring.
  Qed.
  Hypothesis HC : exact_corners T.
  Lemma corner_vals (a : b64) c s : corner a c s -> is_finite a = true /\ B2R (uCos a) = IZR c /\ B2R (uSin a) = IZR s /\ ((c = 0 /\ (s = 1 \/ s = -1)) \/ (s = 0 /\ (c = 1 \/ c = -1)))%Z.
  Proof.
    destruct HT as ((Fp & Rp) & _). destruct HC as (C0 & S0 & S1 & S2 & C1 & C2). destruct (opp_R npi) as [Fo Eo]. rewrite Fp in Fo.
    destruct (half_range npi Fp) as (Fh & Rh & _); [rewrite Rabs_pos_eq; lra|]. specialize (Rh ltac:(lra)).
    destruct (half_range (nopp npi) Fo) as (Fg & _ & Rg); [rewrite Eo, Rabs_Ropp, Rabs_pos_eq; lra|]. specialize (Rg ltac:(lra)).
    destruct (Z_b 0 ltac:(cbv; discriminate)) as [FZ EZ].
    assert (Y : forall x : b64, is_finite x = true -> neqb x x = true) by (intros x F; apply (beqb_R x x F F); reflexivity).
    assert (N : forall x y : b64, is_finite x = true -> is_finite y = true -> B2R x <> B2R y -> neqb x y = false) by (intros x y F G D; apply not_true_is_false; rewrite (beqb_R x y F G); exact D).
    intros [(-> & -> & ->)|[(-> & -> & ->)|[(-> & -> & ->)|([-> | ->] & -> & ->)]]].
    - split; [exact FZ|]. unfold uSin, uCos. rewrite !N by (assumption || lra). cbn [orb]. split; [exact C0|]. split; [exact S0|]. lia.
    - split; [exact Fh|]. unfold uSin, uCos. rewrite (N _ npi), (N _ (nopp npi)), Y by (assumption || lra). cbn [orb]. split; [exact EZ|]. split; [exact S1|]. lia.
    - split; [exact Fg|]. unfold uSin, uCos. rewrite (N _ npi), (N _ (nopp npi)), (N _ (ndiv npi (nofZ 2))), Y by (assumption || lra). cbn [orb]. split; [exact EZ|]. split; [exact S2|]. lia.
    - split; [exact Fp|]. unfold uSin, uCos. rewrite Y, (N _ (ndiv npi (nofZ 2))), (N _ (ndiv (nopp npi) (nofZ 2))) by (assumption || lra). cbn [orb]. split; [exact C1|]. split; [exact EZ|]. lia.
    - split; [exact Fo|]. unfold uSin, uCos. rewrite (N _ npi), Y, (N _ (ndiv npi (nofZ 2))), (N _ (ndiv (nopp npi) (nofZ 2))) by (assumption || lra). cbn [orb]. split; [exact C2|]. split; [exact EZ|]. lia.
  Qed.
  Lemma yaw_corner (a : b64) c s v : corner a c s -> all3 (at_most 900) v ->
    let X := B2R (vx v) in let Y := B2R (vy v) in let Z := B2R (vz v) in
    exactly (transformDir (yaw a) v) (IZR c * X + IZR s * Z) (Y) (IZR c * Z - IZR s * X).
  Proof.
    intros C (VX & VY & VZ) X Y Z. destruct (corner_vals a c s C) as (Fa & Ec & Es & K).
    assert (D := rotd_y a c Fa Ec ltac:(destruct K as [(K1 & K2)|(K1 & K2)]; lia)). assert (V := rotv_y a Fa). cbv zeta in V. rewrite Ec, Es in V. rewrite <- opp_IZR in V.
    destruct V as (V00 & V01 & V02 & V10 & V11 & V12 & V20 & V21 & V22). assert (L := yaw_vals a Fa).
    destruct L as (((F00 & L00) & (F01 & L01) & (F02 & L02)) & ((F10 & L10) & (F11 & L11) & (F12 & L12)) & ((F20 & L20) & (F21 & L21) & (F22 & L22))).
    set (m := afA (yaw a)) in *. unfold exactly, transformDir. fold m. clearbody m.
    unfold mmulvec, all3. cbn [vx vy vz].
    destruct (row _ _ _ (vx v) (vy v) (vz v) c 0 s (conj F00 (eq_trans L00 (proj2 V00))) (conj F10 (eq_trans L10 (proj2 V10))) (conj F20 (eq_trans L20 (proj2 V20))) ltac:(destruct K as [(K1 & K2)|(K1 & K2)]; lia) VX VY VZ) as [G0 R0].
    destruct (row _ _ _ (vx v) (vy v) (vz v) 0 1 0 (conj F01 (eq_trans L01 (proj2 V01))) (conj F11 (eq_trans L11 (proj2 D))) (conj F21 (eq_trans L21 (proj2 V21))) ltac:(destruct K as [(K1 & K2)|(K1 & K2)]; lia) VX VY VZ) as [G1 R1].
    destruct (row _ _ _ (vx v) (vy v) (vz v) (- s) 0 c (conj F02 (eq_trans L02 (proj2 V02))) (conj F12 (eq_trans L12 (proj2 V12))) (conj F22 (eq_trans L22 (proj2 V22))) ltac:(destruct K as [(K1 & K2)|(K1 & K2)]; lia) VX VY VZ) as [G2 R2].
    rewrite ?opp_IZR in *. fold X Y Z in R0, R1, R2. split; [exact (conj G0 (conj G1 G2))|]. split; [rewrite R0; ring|]. split; [rewrite R1; ring|rewrite R2; ring].
  Qed.
  Lemma pitch_corner (a : b64) c s v : corner a c s -> all3 (at_most 900) v ->
    let X := B2R (vx v) in let Y := B2R (vy v) in let Z := B2R (vz v) in
    exactly (transformDir (pitch a) v) (X) (IZR c * Y - IZR s * Z) (IZR c * Z + IZR s * Y).
  Proof.
    intros C (VX & VY & VZ) X Y Z. destruct (corner_vals a c s C) as (Fa & Ec & Es & K).
    assert (D := rotd_x a c Fa Ec ltac:(destruct K as [(K1 & K2)|(K1 & K2)]; lia)). assert (V := rotv_x a Fa). cbv zeta in V. rewrite Ec, Es in V. rewrite <- opp_IZR in V.
    destruct V as (V00 & V01 & V02 & V10 & V11 & V12 & V20 & V21 & V22). assert (L := pitch_vals a Fa).
    destruct L as (((F00 & L00) & (F01 & L01) & (F02 & L02)) & ((F10 & L10) & (F11 & L11) & (F12 & L12)) & ((F20 & L20) & (F21 & L21) & (F22 & L22))).
    set (m := afA (pitch a)) in *. unfold exactly, transformDir. fold m. clearbody m.
    unfold mmulvec, all3. cbn [vx vy vz].
    destruct (row _ _ _ (vx v) (vy v) (vz v) 1 0 0 (conj F00 (eq_trans L00 (proj2 D))) (conj F10 (eq_trans L10 (proj2 V10))) (conj F20 (eq_trans L20 (proj2 V20))) ltac:(destruct K as [(K1 & K2)|(K1 & K2)]; lia) VX VY VZ) as [G0 R0].
    destruct (row _ _ _ (vx v) (vy v) (vz v) 0 c (- s) (conj F01 (eq_trans L01 (proj2 V01))) (conj F11 (eq_trans L11 (proj2 V11))) (conj F21 (eq_trans L21 (proj2 V21))) ltac:(destruct K as [(K1 & K2)|(K1 & K2)]; lia) VX VY VZ) as [G1 R1].
    destruct (row _ _ _ (vx v) (vy v) (vz v) 0 s c (conj F02 (eq_trans L02 (proj2 V02))) (conj F12 (eq_trans L12 (proj2 V12))) (conj F22 (eq_trans L22 (proj2 V22))) ltac:(destruct K as [(K1 & K2)|(K1 & K2)]; lia) VX VY VZ) as [G2 R2].
    rewrite ?opp_IZR in *. fold X Y Z in R0, R1, R2. split; [exact (conj G0 (conj G1 G2))|]. split; [rewrite R0; ring|]. split; [rewrite R1; ring|rewrite R2; ring].
  Qed.
  Lemma roll_corner (a : b64) c s v : corner a c s -> all3 (at_most 900) v ->
    let X := B2R (vx v) in let Y := B2R (vy v) in let Z := B2R (vz v) in
    exactly (transformDir (roll a) v) (IZR c * X - IZR s * Y) (IZR c * Y + IZR s * X) (Z).
  Proof.
    intros C (VX & VY & VZ) X Y Z. destruct (corner_vals a c s C) as (Fa & Ec & Es & K).
    assert (D := rotd_z a c Fa Ec ltac:(destruct K as [(K1 & K2)|(K1 & K2)]; lia)). assert (V := rotv_z a Fa). cbv zeta in V. rewrite Ec, Es in V. rewrite <- opp_IZR in V.
    destruct V as (V00 & V01 & V02 & V10 & V11 & V12 & V20 & V21 & V22). assert (L := roll_vals a Fa).
    destruct L as (((F00 & L00) & (F01 & L01) & (F02 & L02)) & ((F10 & L10) & (F11 & L11) & (F12 & L12)) & ((F20 & L20) & (F21 & L21) & (F22 & L22))).
    set (m := afA (roll a)) in *. unfold exactly, transformDir. fold m. clearbody m.
    unfold mmulvec, all3. cbn [vx vy vz].
    destruct (row _ _ _ (vx v) (vy v) (vz v) c (- s) 0 (conj F00 (eq_trans L00 (proj2 V00))) (conj F10 (eq_trans L10 (proj2 V10))) (conj F20 (eq_trans L20 (proj2 V20))) ltac:(destruct K as [(K1 & K2)|(K1 & K2)]; lia) VX VY VZ) as [G0 R0].
    destruct (row _ _ _ (vx v) (vy v) (vz v) s c 0 (conj F01 (eq_trans L01 (proj2 V01))) (conj F11 (eq_trans L11 (proj2 V11))) (conj F21 (eq_trans L21 (proj2 V21))) ltac:(destruct K as [(K1 & K2)|(K1 & K2)]; lia) VX VY VZ) as [G1 R1].
    destruct (row _ _ _ (vx v) (vy v) (vz v) 0 0 1 (conj F02 (eq_trans L02 (proj2 V02))) (conj F12 (eq_trans L12 (proj2 V12))) (conj F22 (eq_trans L22 (proj2 D))) ltac:(destruct K as [(K1 & K2)|(K1 & K2)]; lia) VX VY VZ) as [G2 R2].
    rewrite ?opp_IZR in *. fold X Y Z in R0, R1, R2. split; [exact (conj G0 (conj G1 G2))|]. split; [rewrite R0; ring|]. split; [rewrite R1; ring|rewrite R2; ring].
  Qed.
End Exact.

(** ** Other angles *)
Lemma columns {T : Trig b64} (HT : accurate_trig T) (a : b64) : is_finite a = true ->
  exactly (m0 (afA (yaw a))) (B2R (uCos a)) 0 (- B2R (uSin a)) /\ exactly (m2 (afA (yaw a))) (B2R (uSin a)) 0 (B2R (uCos a)) /\
  exactly (m1 (afA (pitch a))) 0 (B2R (uCos a)) (B2R (uSin a)) /\ exactly (m2 (afA (pitch a))) 0 (- B2R (uSin a)) (B2R (uCos a)) /\
  exactly (m0 (afA (roll a))) (B2R (uCos a)) (B2R (uSin a)) 0 /\ exactly (m1 (afA (roll a))) (- B2R (uSin a)) (B2R (uCos a)) 0.
Proof.
  intros Fa. assert (X := rotv_x HT a Fa). assert (Y := rotv_y HT a Fa). assert (Z := rotv_z HT a Fa). cbv zeta in X, Y, Z.
  destruct X as (_ & _ & _ & (_ & X10) & (_ & X11) & (_ & X12) & (_ & X20) & (_ & X21) & (_ & X22)).
  destruct Y as ((_ & Y00) & (_ & Y01) & (_ & Y02) & _ & _ & _ & (_ & Y20) & (_ & Y21) & (_ & Y22)).
  destruct Z as ((_ & Z00) & (_ & Z01) & (_ & Z02) & (_ & Z10) & (_ & Z11) & (_ & Z12) & _).
  assert (LX := pitch_vals HT a Fa). assert (LY := yaw_vals HT a Fa). assert (LZ := roll_vals HT a Fa).
  assert (E : forall v w x y z, likev v w -> B2R (vx w) = x -> B2R (vy w) = y -> B2R (vz w) = z -> exactly v x y z).
  { intros v w x y z ((F0 & E0) & (F1 & E1) & (F2 & E2)) <- <- <-. exact (conj (conj F0 (conj F1 F2)) (conj E0 (conj E1 E2))). }
  split; [eapply E; [apply LY|assumption..]|]. split; [eapply E; [apply LY|assumption..]|]. split; [eapply E; [apply LX|assumption..]|]. split; [eapply E; [apply LX|assumption..]|]. split; (eapply E; [apply LZ|assumption..]).
Qed.

(** a sine and a cosine that are right at the quarter turns up to half a turn and nearly right at three quarters *)
Definition cornerPi : b64 := nQ 31415927 10000000.
Definition isOne (x : b64) (l : list b64) : bool := existsb (fun y => neqb x y) l.
Definition cornerTrig : Trig b64 :=
  {| npi := cornerPi;
     nsin := fun x => if isOne x [nofZ 0; cornerPi; nopp cornerPi] then nofZ 0 else if isOne x [ndiv cornerPi (nofZ 2)] then nofZ 1 else nofZ (-1);
     ncos := fun x => if isOne x [nofZ 0] then nofZ 1 else if isOne x [cornerPi; nopp cornerPi] then nofZ (-1)
                      else if isOne x [ndiv cornerPi (nofZ 2); ndiv (nopp cornerPi) (nofZ 2)] then nofZ 0 else nQ 1 9007199254740992;
     ntan := fun _ => nofZ 1; nexp := fun x => x; nlog := fun x => x; npow := fun x _ => x |}.
Lemma tinyc : is_finite (nQ 1 9007199254740992 : b64) = true /\ 0 < B2R (nQ 1 9007199254740992 : b64) <= / 1000000000000000.
Proof. split; [vm_compute; reflexivity|]. vm_compute. lra. Qed.
Lemma corner_accurate : accurate_trig cornerTrig.
Proof.
  assert (Z0 := Z_b 0 ltac:(cbv; discriminate)). assert (Z1 := Z_b 1 ltac:(cbv; discriminate)). assert (Zm := Z_b (-1) ltac:(cbv; discriminate)). assert (C := tinyc).
  split; [split; [vm_compute; reflexivity|vm_compute; lra]|]. split.
  - intros x _. cbn [nsin ncos cornerTrig].
    assert (D : isOne x [nofZ 0; cornerPi; nopp cornerPi] = isOne x [nofZ 0] || isOne x [cornerPi; nopp cornerPi]) by (unfold isOne; cbn [existsb]; destruct (neqb x (nofZ 0)), (neqb x cornerPi), (neqb x (nopp cornerPi)); reflexivity).
    rewrite D. set (t := nQ 1 9007199254740992 : b64) in *. clearbody t. set (p := bpow radix2 (-50)). assert (P : / 1125899906842624 <= p) by (change p with (/ 1125899906842624); apply Rle_refl). clearbody p.
    set (z := nofZ 0 : b64) in *. set (o := nofZ 1 : b64) in *. set (n := nofZ (-1) : b64) in *. clearbody z o n. destruct Z0 as [F0 E0]. destruct Z1 as [F1 E1]. destruct Zm as [Fm Em]. destruct C as [Ft Et].
    assert (Hp : 0 <= p) by lra.
    assert (S2 : 0 <= B2R t * B2R t <= / 1125899906842624) by (split; [apply Rle_0_sqr|nra]).
    destruct (isOne x [z]), (isOne x [cornerPi; nopp cornerPi]); cbn [orb];
      (split; [repeat match goal with |- context [if ?b then _ else _] => destruct b end; assumption|]); (split; [repeat match goal with |- context [if ?b then _ else _] => destruct b end; assumption|]);
      repeat match goal with |- context [if ?b then _ else _] => destruct b end; rewrite ?E0, ?E1, ?Em; (split; [apply Rabs_le; lra|]); (split; [apply Rabs_le; lra|]); apply Rabs_le; lra.
  - assert (N : forall x : b64, neqb x (nofZ 0) = true -> is_finite x = true -> at_most (-40) x).
    { intros x E F. apply null_am. split; [exact F|]. apply (beqb_R x _ F (proj1 Z0)) in E. rewrite E. apply Z0. }
    split; [|split; [|split]]; apply N; vm_compute; reflexivity.
Qed.
Lemma corner_exact : exact_corners cornerTrig.
Proof. unfold exact_corners. split; [|split; [|split; [|split; [|split]]]]; vm_compute; lra. Qed.
Definition turn270 : b64 := nmul (nofZ 3) (ndiv cornerPi (nofZ 2)).
Lemma fin270 : is_finite turn270 = true. Proof. vm_compute. reflexivity. Qed.
Lemma not0 : isOne turn270 [nofZ 0] = false. Proof. vm_compute. reflexivity. Qed.
Lemma not180 : isOne turn270 [cornerPi; nopp cornerPi] = false. Proof. vm_compute. reflexivity. Qed.
Lemma not90 : isOne turn270 [ndiv cornerPi (nofZ 2); ndiv (nopp cornerPi) (nofZ 2)] = false. Proof. vm_compute. reflexivity. Qed.
Lemma cos_if (T : Trig b64) (x : b64) : isOne x [ndiv npi (nofZ 2); ndiv (nopp npi) (nofZ 2)] = false -> uCos x = ncos x.
Proof. unfold isOne, uCos. cbn [existsb]. rewrite orb_false_r. intros ->. reflexivity. Qed.
Lemma cos270 : uCos (TF := cornerTrig) turn270 = nQ 1 9007199254740992.
Proof. rewrite (cos_if cornerTrig turn270 not90). unfold ncos, cornerTrig. rewrite not0, not180, not90. reflexivity. Qed.
Lemma three_quarters : exists T : Trig b64, accurate_trig T /\ exact_corners T /\
  let a := nmul (nofZ 3) (ndiv npi (nofZ 2)) in is_finite a = true /\ B2R (vx (transformDir (yaw a) vEx)) <> 0.
Proof.
  exists cornerTrig. split; [exact corner_accurate|]. split; [exact corner_exact|]. cbv zeta. change (nmul (nofZ 3) (ndiv npi (nofZ 2))) with turn270. split; [exact fin270|].
  assert (Ea := cos270). assert (Fa := fin270). set (a := turn270) in *. clearbody a.
  destruct (columns corner_accurate a Fa) as (((F0 & _) & E0 & _) & ((F2 & _) & _) & _). assert (L := yaw_vals corner_accurate a Fa). destruct L as (_ & ((F1 & _) & _) & _).
  rewrite Ea in E0. clear Ea. destruct tinyc as [_ Rt]. set (t := nQ 1 9007199254740992 : b64) in *. clearbody t. unfold transformDir. set (m := afA (yaw (TF := cornerTrig) a)) in *. unfold mmulvec, vEx. cbn [vx vy vz].
  assert (V : val (nadd (nadd (nmul (vx (m0 m)) (nofZ 1)) (nmul (vx (m1 m)) (nofZ 0))) (nmul (vx (m2 m)) (nofZ 0))) (B2R t)).
  { assert (Lt : Rabs (B2R t) <= 2) by (apply Rabs_le; lra).
    apply val_add_r; [apply null_mul_r; [exact F2|exact zero_null]|exact Lt|]. apply val_add_r; [apply null_mul_r; [exact F1|exact zero_null]|exact Lt|]. apply val_one_r; [exact b_one|exact Lt|split; [exact F0|exact E0]]. }
  intros K. assert (K' : B2R t = 0) by (rewrite <- (proj2 V); exact K). lra.
Qed.
