(** * Scattered directions in double precision *)
From Coq Require Import ZArith Reals Bool List Lra Lia Psatz.
From Flocq Require Import Core.
From Flocq Require IEEE754.BinarySingleNaN.
Import IEEE754.BinarySingleNaN.
From Verif Require Import Num NumLaws Outcome B64 GeomModel GeomSpec SeqModel ObjModel TreeModel SceneModel ParamProofs FloatSpec BoxFloat FloatErr SphereFloat NormFloat RectFloat ScatterSpec.
Local Open Scope R_scope.

Definition em : R := / 1000000000000.
Lemma u_em : 0 < u /\ 8000 * u <= em.
Proof. split; [exact u_pos|]. rewrite u_val. unfold em. lra. Qed.
Lemma em_val : em = / 1000000000000. Proof. reflexivity. Qed.
Lemma p40 : bpow radix2 (-40) <= em. Proof. change (/ 1099511627776 <= em). unfold em. lra. Qed.
Lemma em_s : 0 < em <= / 1000000000. Proof. unfold em. lra. Qed.
Opaque em.
Lemma pb p q a b : Rabs p <= a -> Rabs q <= b -> - (a * b) <= p * q <= a * b.
Proof. intros A B. apply Rabs_le_inv. rewrite Rabs_mult. apply Rmult_le_compat; auto using Rabs_pos. Qed.

(** ** The point of the disk *)
Section Disk.
  Context {T : Trig b64}.
  Hypothesis HT : fair_trig T.
  Variables (a v : b64).
  Hypothesis Ha : is_finite a = true /\ 0 <= B2R a <= 1.
  Hypothesis Hv : is_finite v = true /\ 0 <= B2R v <= 1.
  Let x := fst (uniformDisk a v).
  Let y := snd (uniformDisk a v).
  Lemma theta_fin : is_finite (nmul (nmul (nofZ 2) npi) a) = true.
  Proof.
    destruct HT as (Hpi & _). destruct (Z_b 2) as [F2 E2]; [discriminate|]. destruct Hpi as [Fp Bp]. change (bpow radix2 2) with 4 in Bp. apply Rabs_le_inv in Bp.
    destruct (mul_u 3 (nofZ 2) npi ltac:(lia) F2 Fp) as (F & _ & B). { rewrite E2. change (bpow radix2 3) with 8. apply Rabs_le. lra. }
    change (bpow radix2 3) with 8 in B. apply Rabs_le_inv in B. destruct Ha as [Fa Ba].
    destruct (mul_u 3 (nmul (nofZ 2) npi) a ltac:(lia) F Fa) as (F' & _). { change (bpow radix2 3) with 8. apply Rabs_le. nra. }
    exact F'.
  Qed.
  Lemma disk_u : is_finite x = true /\ is_finite y = true /\ Rabs (B2R x) <= 1 /\ Rabs (B2R y) <= 1 /\ Rabs (B2R x * B2R x + B2R y * B2R y - B2R v) <= 2 * em.
  Proof.
    destruct HT as (_ & HS). destruct (HS _ theta_fin) as (Fs & Fc & Bs & Bc & E). unfold x, y, uniformDisk. cbn [fst snd].
    set (s := nsin _) in *. set (c := ncos _) in *. clearbody s c. destruct Hv as [Fv Bv].
    destruct (sqrt_u 0 v ltac:(lia) Fv ltac:(lra)) as [(Fr & Er & Br) Pr]. { change (bpow radix2 0) with 1. rewrite <- sqrt_1. apply sqrt_le_1_alt. lra. }
    change (bpow radix2 0) with 1 in *. set (r := nsqrt v) in *. clearbody r.
    assert (Q1 := pb _ _ 1 1 Br Bc). assert (Q2 := pb _ _ 1 1 Br Bs). rewrite Rmult_1_r in Q1, Q2.
    destruct (mul_u 0 r c ltac:(lia) Fr Fc) as (Fx & Ex & Bx). { apply Rabs_le. exact Q1. }
    destruct (mul_u 0 r s ltac:(lia) Fr Fs) as (Fy & Ey & By). { apply Rabs_le. exact Q2. }
    change (bpow radix2 0) with 1 in *. split; [exact Fx|]. split; [exact Fy|]. split; [exact Bx|]. split; [exact By|].
    set (X := B2R (nmul r c)) in *. set (Y := B2R (nmul r s)) in *. set (C := B2R c) in *. set (S := B2R s) in *. set (R' := B2R r) in *. set (V := B2R v) in *. clearbody X Y C S R' V.
    assert (SV : sqrt V * sqrt V = V) by (apply sqrt_sqrt; lra). set (q := sqrt V) in *. assert (q0 : 0 <= q <= 1). { unfold q. split; [apply sqrt_pos|]. rewrite <- sqrt_1. apply sqrt_le_1_alt. lra. } clearbody q.
    destruct u_em as [Pu Hu]. assert (P4 := p40). assert (Hem := em_s). apply Rabs_le_inv in E, Er, Ex, Ey, Br, Bx, By, Bs, Bc. rewrite Rmult_1_l in *.
    set (e1 := R' - q) in *. set (e2 := X - R' * C) in *. set (e3 := Y - R' * S) in *.
    assert (D1 : -(2 * u) <= X * X - (R' * C) * (R' * C) <= 2 * u). { replace (X * X - R' * C * (R' * C)) with (e2 * (X + R' * C)) by (unfold e2; ring). nra. }
    assert (D2 : -(2 * u) <= Y * Y - (R' * S) * (R' * S) <= 2 * u). { replace (Y * Y - R' * S * (R' * S)) with (e3 * (Y + R' * S)) by (unfold e3; ring). nra. }
    assert (D3 : -(2 * u) <= R' * R' - V <= 2 * u). { replace (R' * R' - V) with (e1 * (R' + q)) by (rewrite <- SV; unfold e1; ring). nra. }
    assert (D4 : - em <= R' * R' * (S * S + C * C - 1) <= em). { assert (0 <= R' * R' <= 1) by nra. set (k := S * S + C * C - 1) in *. clearbody k. nra. }
    replace (X * X + Y * Y - V) with ((X * X - R' * C * (R' * C)) + (Y * Y - R' * S * (R' * S)) + (R' * R' - V) + R' * R' * (S * S + C * C - 1)) by ring.
    apply Rabs_le. lra.
  Qed.
  Lemma under_u : let w := nsub (nofZ 1) (nadd (nmul x x) (nmul y y)) in is_finite w = true /\ Rabs (B2R w - (1 - B2R v)) <= 21 / 10 * em.
  Proof.
    destruct disk_u as (Fx & Fy & Bx & By & E). destruct (Z_b 1) as [F1 E1]; [discriminate|]. destruct Hv as [Fv Bv].
    destruct u_em as [Pu Hu]. assert (Hem := em_s).
    assert (Q1 := pb _ _ 1 1 Bx Bx). assert (Q2 := pb _ _ 1 1 By By). rewrite Rmult_1_r in Q1, Q2.
    destruct (mul_u 0 x x ltac:(lia) Fx Fx) as (Fxx & Exx & _). { apply Rabs_le. exact Q1. }
    destruct (mul_u 0 y y ltac:(lia) Fy Fy) as (Fyy & Eyy & _). { apply Rabs_le. exact Q2. }
    change (bpow radix2 0) with 1 in *. rewrite Rmult_1_l in *. apply Rabs_le_inv in Exx, Eyy, E.
    destruct (add_u 1 _ _ ltac:(lia) Fxx Fyy) as (Fq & Eq & _). { change (bpow radix2 1) with 2. apply Rabs_le. lra. }
    change (bpow radix2 1) with 2 in Eq. apply Rabs_le_inv in Eq.
    destruct (sub_u 1 (nofZ 1) _ ltac:(lia) F1 Fq) as (Fw & Ew & _). { rewrite E1. change (bpow radix2 1) with 2. apply Rabs_le. lra. }
    rewrite E1 in Ew. change (bpow radix2 1) with 2 in Ew. apply Rabs_le_inv in Ew.
    cbv zeta. split; [exact Fw|]. apply Rabs_le. lra.
  Qed.
  Lemma under_pos : B2R v <= 1 - bpow radix2 (-30) -> 0 <= B2R (nsub (nofZ 1) (nadd (nmul x x) (nmul y y))).
  Proof.
    intros Hv1. destruct under_u as [_ E]. assert (P30 : / 1073741825 <= bpow radix2 (-30)) by (change (/ 1073741825 <= / 1073741824); lra). assert (EM := em_val). apply Rabs_le_inv in E. rewrite EM in E. lra.
  Qed.
  Hypothesis Hv1 : 0 <= B2R (nsub (nofZ 1) (nadd (nmul x x) (nmul y y))).
  Lemma height_u : let z := nsqrt (nsub (nofZ 1) (nadd (nmul x x) (nmul y y))) in
    is_finite z = true /\ 0 <= B2R z <= 101 / 100 /\ Rabs (B2R z * B2R z - (1 - B2R v)) <= 3 * em.
  Proof.
    destruct under_u as [Fw Hw]. intros z. destruct Hv as [Fv Bv]. destruct u_em as [Pu Hu]. assert (Hem := em_s). assert (Hv1' := Hv1).
    set (w := nsub (nofZ 1) (nadd (nmul x x) (nmul y y))) in *. unfold z. clearbody w. clear z. apply Rabs_le_inv in Hw.
    assert (Pw : 0 <= B2R w <= 101 / 100) by lra.
    destruct (sqrt_u 1 w ltac:(lia) Fw ltac:(lra)) as [(Fz & Ez & Bz) Pz]. { change (bpow radix2 1) with 2. replace 2 with (sqrt (2 * 2)) by (apply sqrt_square; lra). apply sqrt_le_1_alt. lra. }
    change (bpow radix2 1) with 2 in *. apply Rabs_le_inv in Ez. assert (SV : sqrt (B2R w) * sqrt (B2R w) = B2R w) by (apply sqrt_sqrt; lra).
    assert (q0 : 0 <= sqrt (B2R w) <= 1005 / 1000). { split; [apply sqrt_pos|]. replace (1005 / 1000) with (sqrt (1005 / 1000 * (1005 / 1000))) by (apply sqrt_square; lra). apply sqrt_le_1_alt. lra. }
    set (q := sqrt (B2R w)) in *. clearbody q. set (Z := B2R (nsqrt w)) in *. clearbody Z.
    split; [exact Fz|]. split; [lra|]. assert (D : - (5 * u) <= Z * Z - q * q <= 5 * u). { replace (Z * Z - q * q) with ((Z - q) * (Z + q)) by ring. assert (0 <= Z + q <= 205 / 100) by lra. set (k := Z - q) in *. set (l := Z + q) in *. clearbody k l. nra. }
    apply Rabs_le. lra.
  Qed.
End Disk.

(** ** The frame *)
Definition fin3' (a : vec b64) : Prop := is_finite (vx a) = true /\ is_finite (vy a) = true /\ is_finite (vz a) = true.
Definition small (a : vec b64) : Prop := Rabs (B2R (vx a)) <= 101 / 100 /\ Rabs (B2R (vy a)) <= 101 / 100 /\ Rabs (B2R (vz a)) <= 101 / 100.
Lemma diff_u (a b c d : b64) : is_finite a = true -> is_finite b = true -> is_finite c = true -> is_finite d = true ->
  Rabs (B2R a) <= 101 / 100 -> Rabs (B2R b) <= 101 / 100 -> Rabs (B2R c) <= 101 / 100 -> Rabs (B2R d) <= 101 / 100 ->
  app (nsub (nmul a b) (nmul c d)) (B2R a * B2R b - B2R c * B2R d) (8 * u) 4.
Proof.
  intros Fa Fb Fc Fd A B C D. assert (Q1 := pb _ _ _ _ A B). assert (Q2 := pb _ _ _ _ C D). destruct u_em as [Pu Hu]. assert (Hem := em_s).
  destruct (mul_u 1 a b ltac:(lia) Fa Fb) as (F1 & E1 & _). { change (bpow radix2 1) with 2. apply Rabs_le. lra. }
  destruct (mul_u 1 c d ltac:(lia) Fc Fd) as (F2 & E2 & _). { change (bpow radix2 1) with 2. apply Rabs_le. lra. }
  change (bpow radix2 1) with 2 in *. apply Rabs_le_inv in E1, E2.
  destruct (sub_u 2 _ _ ltac:(lia) F1 F2) as (F3 & E3 & B3). { change (bpow radix2 2) with 4. apply Rabs_le. lra. }
  change (bpow radix2 2) with 4 in *. apply Rabs_le_inv in E3. split; [exact F3|]. split; [apply Rabs_le; lra|exact B3].
Qed.
Lemma cross_u (a b : vec b64) : fin3' a -> fin3' b -> small a -> small b -> let c := vcross a b in
  app (vx c) (B2R (vy a) * B2R (vz b) - B2R (vz a) * B2R (vy b)) (8 * u) 4 /\
  app (vy c) (B2R (vz a) * B2R (vx b) - B2R (vx a) * B2R (vz b)) (8 * u) 4 /\
  app (vz c) (B2R (vx a) * B2R (vy b) - B2R (vy a) * B2R (vx b)) (8 * u) 4.
Proof.
  intros (A0 & A1 & A2) (B0 & B1 & B2) (SA0 & SA1 & SA2) (SB0 & SB1 & SB2) c. unfold c, vcross; cbn [vx vy vz].
  split; [|split]; apply diff_u; assumption.
Qed.
Definition min_axis_ok (n : vec b64) (i : axis) : Prop :=
  let x := Rabs (B2R (vx n)) in let y := Rabs (B2R (vy n)) in let z := Rabs (B2R (vz n)) in
  match i with AX => x <= y /\ x <= z | AY => y <= x /\ y <= z | AZ => z <= x /\ z <= y end.
Lemma abs_lt (a b : b64) : is_finite a = true -> is_finite b = true -> nltb (nabs a) (nabs b) = Rltb (Rabs (B2R a)) (Rabs (B2R b)).
Proof.
  intros A B. rewrite bltb_eq; cbn [nabs NumB]; rewrite ?is_finite_Babs; try assumption. now rewrite !B2R_Babs.
Qed.
Lemma minAxis_ok n : fin3' n -> min_axis_ok n (minAxis n).
Proof.
  intros (A & B & C). unfold minAxis. rewrite (abs_lt (vy n) (vx n)) by assumption.
  destruct (Rltb (Rabs (B2R (vy n))) (Rabs (B2R (vx n)))) eqn:E.
  - apply Rltb_true in E. rewrite abs_lt by assumption. destruct (Rltb (Rabs (B2R (vz n))) (Rabs (B2R (vy n)))) eqn:E'.
    + apply Rltb_true in E'. cbn [min_axis_ok]. lra.
    + apply Rltb_false in E'. cbn [min_axis_ok]. lra.
  - apply Rltb_false in E. rewrite abs_lt by assumption. destruct (Rltb (Rabs (B2R (vz n))) (Rabs (B2R (vx n)))) eqn:E'.
    + apply Rltb_true in E'. cbn [min_axis_ok]. lra.
    + apply Rltb_false in E'. cbn [min_axis_ok]. lra.
Qed.
Lemma sq_le a b : Rabs a <= Rabs b -> a * a <= b * b.
Proof. intros H. rewrite <- (Rabs_sqr a), <- (Rabs_sqr b) || idtac. apply Rsqr_le_abs_1 in H. exact H. Qed.
(** (1 - a) e x n, where a is the smallest component of n *)
Lemma cross_big a b c : a * a <= b * b -> a * a <= c * c -> Rabs (a * a + b * b + c * c - 1) <= em -> 1 / 10 <= (1 - a) * (1 - a) * (b * b + c * c).
Proof.
  intros A B E. assert (Hem := em_s). apply Rabs_le_inv in E. assert (666 / 1000 <= b * b + c * c) by lra. assert (a * a <= 334 / 1000) by lra.
  assert (- (58 / 100) <= a <= 58 / 100) by (split; nra). assert (17 / 100 <= (1 - a) * (1 - a)) by nra.
  set (p := (1 - a) * (1 - a)) in *. set (q := b * b + c * c) in *. clearbody p q. nra.
Qed.
Section Frame.
  Variable n : vec b64.
  Hypothesis Fn : fin3' n.
  Hypothesis Un : Rabs (rdot n n - 1) <= em.
  Let t := vset n (minAxis n) (nofZ 1).
  Let ex := vnormalized (vcross t n).
  Let ey := vcross ex n.
  Lemma n_small : small n.
  Proof.
    unfold rdot in Un. apply Rabs_le_inv in Un. assert (Hem := em_s). unfold small. set (a := B2R (vx n)) in *. set (b := B2R (vy n)) in *. set (c := B2R (vz n)) in *. clearbody a b c.
    split; [|split]; apply Rabs_le; split; nra.
  Qed.
  Lemma t_small : fin3' t /\ small t.
  Proof.
    destruct n_small as (A & B & C). destruct Fn as (FA & FB & FC). destruct (Z_b 1) as [F1 E1]; [discriminate|].
    assert (Q : Rabs (B2R (nofZ 1 : b64)) <= 101 / 100) by (rewrite E1, Rabs_R1; lra).
    unfold t, fin3', small. destruct (minAxis n); cbn [vset vx vy vz]; auto 10.
  Qed.
  (** the exact cross product *)
  Definition crossR (a b : vec b64) : vec R := Vec (B2R (vy a) * B2R (vz b) - B2R (vz a) * B2R (vy b)) (B2R (vz a) * B2R (vx b) - B2R (vx a) * B2R (vz b)) (B2R (vx a) * B2R (vy b) - B2R (vy a) * B2R (vx b)).
  Lemma c_big : 1 / 10 <= vx (crossR t n) * vx (crossR t n) + vy (crossR t n) * vy (crossR t n) + vz (crossR t n) * vz (crossR t n).
  Proof.
    assert (O := minAxis_ok n Fn). destruct (Z_b 1) as [F1 E1]; [discriminate|]. unfold rdot in Un. unfold crossR, t. cbn [vx vy vz].
    destruct (minAxis n); cbn [vset vx vy vz min_axis_ok] in *; rewrite E1; destruct O as [O1 O2]; apply sq_le in O1, O2.
    - eapply Rle_trans; [apply (cross_big (B2R (vx n)) (B2R (vy n)) (B2R (vz n)) O1 O2 Un)|]. apply Req_le. ring.
    - eapply Rle_trans; [apply (cross_big (B2R (vy n)) (B2R (vx n)) (B2R (vz n)) O1 O2)|apply Req_le; ring]. rewrite (Rplus_comm (B2R (vy n) * _)). exact Un.
    - eapply Rle_trans; [apply (cross_big (B2R (vz n)) (B2R (vx n)) (B2R (vy n)) O1 O2)|apply Req_le; ring]. eapply Rle_trans; [|exact Un]. apply Req_le. f_equal. ring.
  Qed.
  Lemma ex_u : fin3' ex /\ small ex /\ Rabs (rdot ex ex - 1) <= em /\ Rabs (rdot ex n) <= em.
  Proof.
    destruct t_small as [Ft St]. assert (Sn := n_small). destruct (cross_u t n Ft Fn St Sn) as (X & Y & Z). assert (B := c_big).
    unfold ex. set (c := vcross t n) in *. clearbody c.
    assert (G0 : crossR t n = crossR t n) by reflexivity. unfold crossR in B at 1 2 3 4 5 6. cbn [vx vy vz] in B.
    destruct Ft as (T0 & T1 & T2). destruct Fn as (N0 & N1 & N2). destruct St as (ST0 & ST1 & ST2). destruct Sn as (SN0 & SN1 & SN2).
    assert (OR : (B2R (vy t) * B2R (vz n) - B2R (vz t) * B2R (vy n)) * B2R (vx n) + (B2R (vz t) * B2R (vx n) - B2R (vx t) * B2R (vz n)) * B2R (vy n) + (B2R (vx t) * B2R (vy n) - B2R (vy t) * B2R (vx n)) * B2R (vz n) = 0) by ring.
    assert (B4 : forall a b a' b' : b64, Rabs (B2R a) <= 101 / 100 -> Rabs (B2R b) <= 101 / 100 -> Rabs (B2R a') <= 101 / 100 -> Rabs (B2R b') <= 101 / 100 -> -3 <= B2R a * B2R b - B2R a' * B2R b' <= 3).
    { intros a b a' b' A1 A2 A3 A4. assert (Q1 := pb _ _ _ _ A1 A2). assert (Q2 := pb _ _ _ _ A3 A4). lra. }
    assert (K0 := B4 _ _ _ _ ST1 SN2 ST2 SN1). assert (K1 := B4 _ _ _ _ ST2 SN0 ST0 SN2). assert (K2 := B4 _ _ _ _ ST0 SN1 ST1 SN0).
    set (a := B2R (vy t) * B2R (vz n) - B2R (vz t) * B2R (vy n)) in *. set (b := B2R (vz t) * B2R (vx n) - B2R (vx t) * B2R (vz n)) in *. set (e := B2R (vx t) * B2R (vy n) - B2R (vy t) * B2R (vx n)) in *.
    clearbody a b e t.
    destruct X as (FX & EX & BX). destruct Y as (FY & EY & BY). destruct Z as (FZ & EZ & BZ). destruct u_em as [Pu Hu]. assert (Hem := em_s).
    apply Rabs_le_inv in EX, EY, EZ.
    assert (LB : 9 / 100 <= B2R (vx c) * B2R (vx c) + B2R (vy c) * B2R (vy c) + B2R (vz c) * B2R (vz c)).
    { assert (D : forall p q, - (8 * u) <= p - q <= 8 * u -> -3 <= q <= 3 -> q * q - / 1000 <= p * p). { intros p q P Q. replace (p * p) with (q * q + (p - q) * (p + q)) by ring. assert (-7 <= p + q <= 7) by lra. set (k := p - q) in *. set (l := p + q) in *. clearbody k l. nra. }
      assert (D0 := D _ _ EX K0). assert (D1 := D _ _ EY K1). assert (D2 := D _ _ EZ K2). lra. }
    assert (FW : is_finite (vx c) = true /\ is_finite (vy c) = true /\ is_finite (vz c) = true) by auto.
    assert (P400 : 4 <= bpow radix2 400) by (apply (bpow_le radix2 2 400); lia).
    assert (HI : Rabs (B2R (vx c)) <= bpow radix2 400 /\ Rabs (B2R (vy c)) <= bpow radix2 400 /\ Rabs (B2R (vz c)) <= bpow radix2 400) by (repeat split; lra).
    assert (LO : bpow radix2 (-800) <= B2R (vx c) * B2R (vx c) + B2R (vy c) * B2R (vy c) + B2R (vz c) * B2R (vz c)).
    { eapply Rle_trans; [|exact LB]. eapply Rle_trans; [apply (bpow_le radix2 (-800) (-4)); lia|]. change (/ 16 <= 9 / 100). lra. }
    destruct (norm_u c FW HI LO) as ((F0 & E0 & _) & (F1 & E1 & _) & (F2 & E2 & _)). assert (UN := norm_unit c FW HI LO). destruct (comp_le c LO) as (C0 & C1 & C2).
    cbv zeta in UN.
    assert (NL : 3 / 10 <= sqrt (B2R (vx c) * B2R (vx c) + B2R (vy c) * B2R (vy c) + B2R (vz c) * B2R (vz c))).
    { replace (3 / 10) with (sqrt (3 / 10 * (3 / 10))) by (apply sqrt_square; lra). apply sqrt_le_1_alt. lra. }
    set (N := sqrt _) in *. clearbody N. apply Rabs_le_inv in E0, E1, E2, C0, C1, C2.
    split; [split; [exact F0|split; [exact F1|exact F2]]|].
    split. { unfold small. split; [|split]; apply Rabs_le; lra. }
    split. { unfold rdot. eapply Rle_trans; [exact UN|]. lra. }
    unfold rdot. set (f0 := B2R (vx (vnormalized c))) in *. set (f1 := B2R (vy (vnormalized c))) in *. set (f2 := B2R (vz (vnormalized c))) in *. clearbody f0 f1 f2.
    set (n0 := B2R (vx n)) in *. set (n1 := B2R (vy n)) in *. set (n2 := B2R (vz n)) in *. clearbody n0 n1 n2.
    set (c0 := B2R (vx c)) in *. set (c1 := B2R (vy c)) in *. set (c2 := B2R (vz c)) in *. clearbody c0 c1 c2.
    assert (CN : - (25 * u) <= c0 * n0 + c1 * n1 + c2 * n2 <= 25 * u).
    { replace (c0 * n0 + c1 * n1 + c2 * n2) with ((c0 - a) * n0 + (c1 - b) * n1 + (c2 - e) * n2 + (a * n0 + b * n1 + e * n2)) by ring. rewrite OR.
      assert (Q0 := pb (c0 - a) n0 (8 * u) (101 / 100) ltac:(apply Rabs_le; lra) SN0). assert (Q1 := pb (c1 - b) n1 (8 * u) (101 / 100) ltac:(apply Rabs_le; lra) SN1). assert (Q2 := pb (c2 - e) n2 (8 * u) (101 / 100) ltac:(apply Rabs_le; lra) SN2). lra. }
    assert (CD : - (100 * u) <= (c0 * n0 + c1 * n1 + c2 * n2) / N <= 100 * u).
    { set (k := c0 * n0 + c1 * n1 + c2 * n2) in *. clearbody k. split.
      - apply Rmult_le_reg_r with N; [lra|]. unfold Rdiv. rewrite Rmult_assoc, Rinv_l, Rmult_1_r by lra. nra.
      - apply Rmult_le_reg_r with N; [lra|]. unfold Rdiv. rewrite Rmult_assoc, Rinv_l, Rmult_1_r by lra. nra. }
    replace (f0 * n0 + f1 * n1 + f2 * n2) with ((f0 - c0 / N) * n0 + (f1 - c1 / N) * n1 + (f2 - c2 / N) * n2 + (c0 * n0 + c1 * n1 + c2 * n2) / N) by (field; lra).
    assert (Q0 := pb (f0 - c0 / N) n0 (8 * u) (101 / 100) ltac:(apply Rabs_le; lra) SN0). assert (Q1 := pb (f1 - c1 / N) n1 (8 * u) (101 / 100) ltac:(apply Rabs_le; lra) SN1). assert (Q2 := pb (f2 - c2 / N) n2 (8 * u) (101 / 100) ltac:(apply Rabs_le; lra) SN2).
    apply Rabs_le. lra.
  Qed.
  Lemma ey_u : fin3' ey /\ small ey /\ Rabs (rdot ey ey - 1) <= 3 * em /\ Rabs (rdot ey n) <= em /\ Rabs (rdot ex ey) <= em.
  Proof.
    destruct ex_u as (Fx & Sx & Ux & Ox). assert (Sn := n_small). destruct (cross_u ex n Fx Fn Sx Sn) as ((F0 & E0 & _) & (F1 & E1 & _) & (F2 & E2 & _)).
    fold ey in F0, E0, F1, E1, F2, E2. destruct u_em as [Pu Hu]. assert (Hem := em_s). destruct Sx as (X0 & X1 & X2). destruct Sn as (N0 & N1 & N2). unfold rdot in *. unfold fin3', small.
    clearbody ey ex.
    set (x0 := B2R (vx ex)) in *. set (x1 := B2R (vy ex)) in *. set (x2 := B2R (vz ex)) in *. set (n0 := B2R (vx n)) in *. set (n1 := B2R (vy n)) in *. set (n2 := B2R (vz n)) in *. set (y0 := B2R (vx ey)) in *. set (y1 := B2R (vy ey)) in *. set (y2 := B2R (vz ey)) in *.
    clearbody x0 x1 x2 n0 n1 n2 y0 y1 y2.
    assert (L : (x1 * n2 - x2 * n1) * (x1 * n2 - x2 * n1) + (x2 * n0 - x0 * n2) * (x2 * n0 - x0 * n2) + (x0 * n1 - x1 * n0) * (x0 * n1 - x1 * n0) = (x0 * x0 + x1 * x1 + x2 * x2) * (n0 * n0 + n1 * n1 + n2 * n2) - (x0 * n0 + x1 * n1 + x2 * n2) * (x0 * n0 + x1 * n1 + x2 * n2)) by ring.
    assert (O1 : (x1 * n2 - x2 * n1) * n0 + (x2 * n0 - x0 * n2) * n1 + (x0 * n1 - x1 * n0) * n2 = 0) by ring.
    assert (O2 : x0 * (x1 * n2 - x2 * n1) + x1 * (x2 * n0 - x0 * n2) + x2 * (x0 * n1 - x1 * n0) = 0) by ring.
    assert (B4 : forall a b a' b', Rabs a <= 101 / 100 -> Rabs b <= 101 / 100 -> Rabs a' <= 101 / 100 -> Rabs b' <= 101 / 100 -> -3 <= a * b - a' * b' <= 3).
    { intros a b a' b' A1 A2 A3 A4. assert (Q1 := pb _ _ _ _ A1 A2). assert (Q2 := pb _ _ _ _ A3 A4). lra. }
    assert (K0 := B4 _ _ _ _ X1 N2 X2 N1). assert (K1 := B4 _ _ _ _ X2 N0 X0 N2). assert (K2 := B4 _ _ _ _ X0 N1 X1 N0).
    set (e0 := x1 * n2 - x2 * n1) in *. set (e1 := x2 * n0 - x0 * n2) in *. set (e2 := x0 * n1 - x1 * n0) in *. clearbody e0 e1 e2.
    set (xx := x0 * x0 + x1 * x1 + x2 * x2) in *. set (nn := n0 * n0 + n1 * n1 + n2 * n2) in *. set (xn := x0 * n0 + x1 * n1 + x2 * n2) in *. clearbody xx nn xn.
    assert (LB : -(201 / 100 * em) <= xx * nn - xn * xn - 1 <= 201 / 100 * em).
    { apply Rabs_le_inv in Ox, Ux, Un. replace (xx * nn - xn * xn - 1) with ((xx - 1) * (nn - 1) + (xx - 1) + (nn - 1) - xn * xn) by ring.
      assert (Q1 := pb (xx - 1) (nn - 1) em em ltac:(apply Rabs_le; lra) ltac:(apply Rabs_le; lra)). assert (Q2 := pb xn xn em em ltac:(apply Rabs_le; lra) ltac:(apply Rabs_le; lra)). assert (em * em <= / 1000000000 * em) by nra. lra. }
    assert (D : forall y e, Rabs (y - e) <= 8 * u -> -3 <= e <= 3 -> Rabs (y * y - e * e) <= 56 * u).
    { intros y e P Q. apply Rabs_le. replace (y * y - e * e) with ((y - e) * (y + e)) by ring. assert (P' := Rabs_le_inv _ _ P). assert (Q' := pb (y - e) (y + e) (8 * u) 7 P ltac:(apply Rabs_le; lra)). lra. }
    assert (D0 := Rabs_le_inv _ _ (D _ _ E0 K0)). assert (D1 := Rabs_le_inv _ _ (D _ _ E1 K1)). assert (D2 := Rabs_le_inv _ _ (D _ _ E2 K2)).
    assert (UU : - (3 * em) <= y0 * y0 + y1 * y1 + y2 * y2 - 1 <= 3 * em) by lra.
    split; [split; [exact F0|split; [exact F1|exact F2]]|].
    split. { assert (forall a b c, a * a + b * b + c * c - 1 <= 3 * em -> Rabs a <= 101 / 100) as HS. { intros a b c H. apply Rabs_le. assert (0 <= b * b) by apply Rle_0_sqr. assert (0 <= c * c) by apply Rle_0_sqr. nra. }
      split; [apply (HS y0 y1 y2); lra|]. split; [apply (HS y1 y0 y2); lra|apply (HS y2 y1 y0); lra]. }
    split; [apply Rabs_le; lra|].
    split.
    - replace (y0 * n0 + y1 * n1 + y2 * n2) with ((y0 - e0) * n0 + (y1 - e1) * n1 + (y2 - e2) * n2 + (e0 * n0 + e1 * n1 + e2 * n2)) by ring. rewrite O1.
      assert (Q0 := pb _ _ _ _ E0 N0). assert (Q1 := pb _ _ _ _ E1 N1). assert (Q2 := pb _ _ _ _ E2 N2). apply Rabs_le. lra.
    - replace (x0 * y0 + x1 * y1 + x2 * y2) with ((y0 - e0) * x0 + (y1 - e1) * x1 + (y2 - e2) * x2 + (x0 * e0 + x1 * e1 + x2 * e2)) by ring. rewrite O2.
      assert (Q0 := pb _ _ _ _ E0 X0). assert (Q1 := pb _ _ _ _ E1 X1). assert (Q2 := pb _ _ _ _ E2 X2). apply Rabs_le. lra.
  Qed.
  (** ** A vector of length one, turned *)
  Variables (x y z : b64).
  Hypothesis Fx : is_finite x = true /\ Rabs (B2R x) <= 1.
  Hypothesis Fy : is_finite y = true /\ Rabs (B2R y) <= 1.
  Hypothesis Fz : is_finite z = true /\ Rabs (B2R z) <= 101 / 100.
  Hypothesis U : Rabs (B2R x * B2R x + B2R y * B2R y + B2R z * B2R z - 1) <= 6 * em.
  Let d := mmulvec (cosineFrame n) (Vec x y z).
  Lemma d_comp (a b c : b64) : is_finite a = true -> is_finite b = true -> is_finite c = true -> Rabs (B2R a) <= 101 / 100 -> Rabs (B2R b) <= 101 / 100 -> Rabs (B2R c) <= 101 / 100 ->
    app (nadd (nadd (nmul a x) (nmul b y)) (nmul c z)) (B2R a * B2R x + B2R b * B2R y + B2R c * B2R z) (18 * u) 8.
  Proof.
    intros A B C RA RB RC. destruct Fx as [FX BX]. destruct Fy as [FY BY]. destruct Fz as [FZ BZ].
    assert (Q0 := pb _ _ _ _ RA BX). assert (Q1 := pb _ _ _ _ RB BY). assert (Q2 := pb _ _ _ _ RC BZ).
    destruct (dot_u 1 a b c x y z ltac:(lia) A B C FX FY FZ) as (F & E & G); [change (bpow radix2 1) with 2; apply Rabs_le; lra|change (bpow radix2 1) with 2; apply Rabs_le; lra|change (bpow radix2 1) with 2; apply Rabs_le; lra|].
    change (bpow radix2 1) with 2 in E, G. split; [exact F|]. split; [eapply Rle_trans; [exact E|lra]|eapply Rle_trans; [exact G|lra]].
  Qed.
  Lemma d_u : fin3' d /\ Rabs (rdot d d - 1) <= 40 * em /\ Rabs (rdot d n - B2R z) <= 4 * em.
  Proof.
    destruct ex_u as ((X0 & X1 & X2) & (RX0 & RX1 & RX2) & UX & OX). destruct ey_u as ((Y0 & Y1 & Y2) & (RY0 & RY1 & RY2) & UY & OY & OXY). destruct Fn as (N0 & N1 & N2). destruct n_small as (RN0 & RN1 & RN2).
    destruct (d_comp _ _ _ X0 Y0 N0 RX0 RY0 RN0) as (F0 & E0 & _). destruct (d_comp _ _ _ X1 Y1 N1 RX1 RY1 RN1) as (F1 & E1 & _). destruct (d_comp _ _ _ X2 Y2 N2 RX2 RY2 RN2) as (F2 & E2 & _).
    change (is_finite (vx d) = true) in F0. change (is_finite (vy d) = true) in F1. change (is_finite (vz d) = true) in F2.
    match type of E0 with Rabs (B2R ?t - _) <= _ => change t with (vx d) in E0 end. match type of E1 with Rabs (B2R ?t - _) <= _ => change t with (vy d) in E1 end. match type of E2 with Rabs (B2R ?t - _) <= _ => change t with (vz d) in E2 end.
    split; [split; [exact F0|split; [exact F1|exact F2]]|]. clear X0 X1 X2 Y0 Y1 Y2 N0 N1 N2 F0 F1 F2.
    destruct Fx as [_ BX]. destruct Fy as [_ BY]. destruct Fz as [_ BZ]. assert (U' := U). destruct u_em as [Pu Hu]. assert (Hem := em_s). assert (UN := Un). unfold rdot in *. clearbody d ex ey.
    set (a0 := B2R (vx ex)) in *. set (a1 := B2R (vy ex)) in *. set (a2 := B2R (vz ex)) in *. set (b0 := B2R (vx ey)) in *. set (b1 := B2R (vy ey)) in *. set (b2 := B2R (vz ey)) in *. set (n0 := B2R (vx n)) in *. set (n1 := B2R (vy n)) in *. set (n2 := B2R (vz n)) in *. set (d0 := B2R (vx d)) in *. set (d1 := B2R (vy d)) in *. set (d2 := B2R (vz d)) in *. set (p := B2R x) in *. set (q := B2R y) in *. set (r := B2R z) in *.
    clearbody a0 a1 a2 b0 b1 b2 n0 n1 n2 d0 d1 d2 p q r. clear - RX0 RX1 RX2 UX OX RY0 RY1 RY2 UY OY OXY RN0 RN1 RN2 E0 E1 E2 BX BY BZ U' Pu Hu Hem UN.
    assert (M : forall a b c, Rabs a <= 101 / 100 -> Rabs b <= 101 / 100 -> Rabs c <= 101 / 100 -> -4 <= a * p + b * q + c * r <= 4).
    { intros a b c A B C. assert (Q0 := pb _ _ _ _ A BX). assert (Q1 := pb _ _ _ _ B BY). assert (Q2 := pb _ _ _ _ C BZ). lra. }
    assert (M0 := M _ _ _ RX0 RY0 RN0). assert (M1 := M _ _ _ RX1 RY1 RN1). assert (M2 := M _ _ _ RX2 RY2 RN2). clear M.
    assert (ID : (a0 * p + b0 * q + n0 * r) * (a0 * p + b0 * q + n0 * r) + (a1 * p + b1 * q + n1 * r) * (a1 * p + b1 * q + n1 * r) + (a2 * p + b2 * q + n2 * r) * (a2 * p + b2 * q + n2 * r) =
      p * p * (a0 * a0 + a1 * a1 + a2 * a2 - 1) + q * q * (b0 * b0 + b1 * b1 + b2 * b2 - 1) + r * r * (n0 * n0 + n1 * n1 + n2 * n2 - 1) + (p * p + q * q + r * r) + 2 * (p * q * (a0 * b0 + a1 * b1 + a2 * b2)) + 2 * (p * r * (a0 * n0 + a1 * n1 + a2 * n2)) + 2 * (q * r * (b0 * n0 + b1 * n1 + b2 * n2))) by ring.
    assert (IN : (a0 * p + b0 * q + n0 * r) * n0 + (a1 * p + b1 * q + n1 * r) * n1 + (a2 * p + b2 * q + n2 * r) * n2 = p * (a0 * n0 + a1 * n1 + a2 * n2) + q * (b0 * n0 + b1 * n1 + b2 * n2) + r * (n0 * n0 + n1 * n1 + n2 * n2 - 1) + r) by ring.
    set (f0 := a0 * p + b0 * q + n0 * r) in *. set (f1 := a1 * p + b1 * q + n1 * r) in *. set (f2 := a2 * p + b2 * q + n2 * r) in *. clearbody f0 f1 f2.
    set (aa := a0 * a0 + a1 * a1 + a2 * a2 - 1) in *. set (bb := b0 * b0 + b1 * b1 + b2 * b2 - 1) in *. set (nn := n0 * n0 + n1 * n1 + n2 * n2 - 1) in *. set (ab := a0 * b0 + a1 * b1 + a2 * b2) in *. set (an := a0 * n0 + a1 * n1 + a2 * n2) in *. set (bn := b0 * n0 + b1 * n1 + b2 * n2) in *. clearbody aa bb nn ab an bn.
    assert (PR : forall s t, Rabs s <= 101 / 100 -> Rabs t <= 101 / 100 -> Rabs (s * t) <= 103 / 100). { intros s t S T. assert (Q := pb _ _ _ _ S T). apply Rabs_le. lra. }
    assert (BX' : Rabs p <= 101 / 100) by lra. assert (BY' : Rabs q <= 101 / 100) by lra.
    split.
    - assert (Q0 := pb _ _ _ _ (PR _ _ BX' BX') UX). assert (Q1 := pb _ _ _ _ (PR _ _ BY' BY') UY). assert (Q2 := pb _ _ _ _ (PR _ _ BZ BZ) UN). assert (Q3 := pb _ _ _ _ (PR _ _ BX' BY') OXY). assert (Q4 := pb _ _ _ _ (PR _ _ BX' BZ) OX). assert (Q5 := pb _ _ _ _ (PR _ _ BY' BZ) OY).
      assert (D : forall y e, Rabs (y - e) <= 18 * u -> -4 <= e <= 4 -> Rabs (y * y - e * e) <= 162 * u).
      { intros y e P Q. apply Rabs_le. replace (y * y - e * e) with ((y - e) * (y + e)) by ring. assert (P' := Rabs_le_inv _ _ P). assert (Q' := pb (y - e) (y + e) (18 * u) 9 P ltac:(apply Rabs_le; lra)). lra. }
      assert (D0 := Rabs_le_inv _ _ (D _ _ E0 M0)). assert (D1 := Rabs_le_inv _ _ (D _ _ E1 M1)). assert (D2 := Rabs_le_inv _ _ (D _ _ E2 M2)). apply Rabs_le_inv in U'. clear D PR. apply Rabs_le. lra.
    - assert (Q0 := pb _ _ _ _ BX OX). assert (Q1 := pb _ _ _ _ BY OY). assert (Q2 := pb _ _ _ _ BZ UN). assert (Q3 := pb _ _ _ _ E0 RN0). assert (Q4 := pb _ _ _ _ E1 RN1). assert (Q5 := pb _ _ _ _ E2 RN2).
      clear PR. apply Rabs_le. lra.
  Qed.
End Frame.

(** ** The scattered direction *)
Theorem cosine_u {T : Trig b64} (a v : b64) (n : vec b64) : fair_trig T -> between 0 1 a -> between 0 (1 - bpow radix2 (-30)) v ->
  all3 (fun x => is_finite x = true) n -> Rabs (rdot n n - 1) <= bpow radix2 (-40) ->
  let d := cosineSphere a v n in
  all3 (fun x => is_finite x = true) d /\ Rabs (rdot d d - 1) <= bpow radix2 (-34) /\ Rabs (rdot d n - sqrt (1 - B2R v)) <= bpow radix2 (-22) /\ bpow radix2 (-16) <= rdot d n.
Proof.
  intros HT [Fa Ra] [Fv Rv] Fn Un. assert (P4 := p40). assert (Un' : Rabs (rdot n n - 1) <= em) by lra. assert (P30 := bpow_gt_0 radix2 (-30)).
  assert (Rv1 : 0 <= B2R v <= 1) by lra. destruct (disk_u HT a v (conj Fa Ra) (conj Fv Rv1)) as (Fx & Fy & Bx & By & E).
  destruct (height_u HT a v (conj Fa Ra) (conj Fv Rv1) (under_pos HT a v (conj Fa Ra) (conj Fv Rv1) (proj2 Rv))) as (Fz & Bz & Ez). unfold cosineSphere. destruct (uniformDisk a v) as [x y]. cbn [fst snd] in *. set (z := nsqrt _) in *. clearbody z.
  assert (Hem := em_s). assert (U : Rabs (B2R x * B2R x + B2R y * B2R y + B2R z * B2R z - 1) <= 6 * em) by (apply Rabs_le_inv in E, Ez; apply Rabs_le; lra).
  assert (Bz' : Rabs (B2R z) <= 101 / 100) by (apply Rabs_le; lra).
  destruct (d_u n Fn Un' x y z (conj Fx Bx) (conj Fy By) (conj Fz Bz') U) as (Fd & Ud & Nd). cbv zeta.
  set (d := mmulvec _ _) in *. clearbody d. split; [exact Fd|].
  assert (EV := em_val). assert (V34 : bpow radix2 (-34) = / 17179869184) by reflexivity. assert (V22 : bpow radix2 (-22) = / 4194304) by reflexivity. assert (V16 : bpow radix2 (-16) = / 65536) by reflexivity. assert (V30 : bpow radix2 (-30) = / 32768 * / 32768) by (change (/ 1073741824 = / 32768 * / 32768); lra).
  split; [eapply Rle_trans; [exact Ud|]; rewrite V34, EV; lra|].
  assert (SL : / 32768 <= sqrt (1 - B2R v)). { replace (/ 32768) with (sqrt (/ 32768 * / 32768)) by (apply sqrt_square; lra). apply sqrt_le_1_alt. lra. }
  assert (SQ : sqrt (1 - B2R v) * sqrt (1 - B2R v) = 1 - B2R v) by (apply sqrt_sqrt; lra). rewrite <- SQ in Ez. set (s := sqrt _) in *. clearbody s. apply Rabs_le_inv in Ez, Nd.
  assert (ZS : - (98304 * em) <= B2R z - s <= 98304 * em).
  { replace (B2R z * B2R z - s * s) with ((B2R z - s) * (B2R z + s)) in Ez by ring. set (k := B2R z - s) in *. assert (/ 32768 <= B2R z + s) by lra. set (l := B2R z + s) in *. clearbody k l. clear - Ez H Hem. split; nra. }
  rewrite EV in *. rewrite V22, V16. split; [apply Rabs_le; lra|lra].
Qed.

(** ** Rays scattered by balls and floors *)
Lemma near_of (d : vec b64) : all3 (fun x => is_finite x = true) d -> Rabs (rdot d d - 1) <= bpow radix2 (-34) -> near_unit d.
Proof. intros F U. split; [exact F|]. eapply Rle_trans; [exact U|]. change (/ 17179869184 <= / 1000). lra. Qed.
Lemma p40' : 100 * u <= bpow radix2 (-40). Proof. rewrite u_val. change (100 * / 9007199254740992 <= / 1099511627776). lra. Qed.
Theorem scatter_ball {T : Trig b64} (M : Type) (m : option M) (diam : b64) (c s d : vec b64) (h : hit b64 M) (r' : ray b64) : fair_trig T ->
  between 1 512 diam -> all3 (at_most 8) c -> all3 (at_most 8) s -> near_unit d ->
  oIntersect (sphere m diam c) (Ray s d) = Val (h, r') -> nltb (nofZ 0) (hT h) = true -> nltb (nofZ 0) (vdot (vnormalized (hNormal h)) d) = false ->
  let n := flipTowards (vnormalized (hNormal h)) d in let p := vmadd (vmadd (rayAt (Ray s d) (hT h)) tiny n) tiny n in
  forall a v, between 0 1 a -> between 0 (1 - bpow radix2 (-30)) v ->
    oIntersect (sphere m diam c) (Ray p (cosineSphere a v n)) = Val (noHit, Ray p (cosineSphere a v n)).
Proof.
  intros HT Hr Hc Hs Hd Hh Ht Hf n p a v Ha Hv. destruct (ball_normal m diam c s d h r' Hr Hc Hs Hd Hh Ht) as [Fn Un].
  assert (En : n = vnormalized (hNormal h)) by (unfold n, flipTowards; now rewrite Hf). unfold p. clear p. rewrite En. clear n En.
  destruct (cosine_u a v _ HT Ha Hv Fn) as (Fd & Ud & _ & Nd). { eapply Rle_trans; [exact Un|exact p40']. }
  apply (no_acne m diam c s d h r' Hr Hc Hs Hd Hh Ht); [now apply near_of|]. eapply Rle_trans; [|exact Nd]. assert (P := bpow_gt_0 radix2 (-20)). assert (P' := bpow_gt_0 radix2 (-16)). lra.
Qed.
Section Floor.
  Context {T : Trig b64} {M : Type}.
  Hypothesis HT : fair_trig T.
  Variable ss : (object b64 M -> object b64 M -> bool) -> list (object b64 M) -> list (object b64 M).
  Variables (m : option M) (w dp : b64) (c : vec b64) (o : object b64 M).
  Hypothesis Hw : at_most 8 w.
  Hypothesis Lw : bpow radix2 (-20) <= B2R w.
  Hypothesis Hp : at_most 8 dp.
  Hypothesis Lp : bpow radix2 (-20) <= B2R dp.
  Hypothesis Hc : all3 (at_most 7) c.
  Hypothesis Ho : rectangle to32b ss m w dp c = Val o.
  Variables (s d : vec b64) (h : hit b64 M) (r' : ray b64).
  Hypothesis Hs : all3 (at_most 10) s.
  Hypothesis Hd : near_unit d.
  Hypothesis Ld : at_least (-100) (vy d).
  Hypothesis Hh : oIntersect o (Ray s d) = Val (h, r').
  Hypothesis Hpos : nltb (nofZ 0) (hT h) = true.
  Hypothesis Hfar : nltb (hT h) (nofZ (10 ^ 98)) = true.
  Let n := flipTowards (vnormalized (hNormal h)) d.
  Let p := vmadd (vmadd (rayAt (Ray s d) (hT h)) tiny n) tiny n.
  Variables a v : b64.
  Hypothesis Ha : between 0 1 a.
  Hypothesis Hv : between 0 (1 - bpow radix2 (-30)) v.
  Let d' := cosineSphere a v n.
  Lemma floor_dir : near_unit d' /\ bpow radix2 (-16) <= rdot d' n /\ at_least (-500) (vy d').
  Proof.
    destruct (floor_normal ss m w dp c o Hw Lw Hp Lp Hc Ho s d h r' Hs Hd Ld Hh Hpos Hfar) as ([Fx Ex] & [Fz Ez] & Fy & SQ). fold n in Fx, Ex, Fz, Ez, Fy, SQ.
    destruct (cosine_u a v n HT Ha Hv) as (Fd & Ud & _ & Nd).
    - split; [exact Fx|split; [exact Fy|exact Fz]].
    - unfold rdot. rewrite Ex, Ez, Rmult_0_r, Rplus_0_l, Rplus_0_r. eapply Rle_trans; [exact SQ|]. eapply Rle_trans; [|exact p40']. assert (Pu := u_pos). lra.
    - fold d' in Fd, Ud, Nd. split; [now apply near_of|]. split; [exact Nd|]. unfold rdot in Nd. rewrite Ex, Ez, !Rmult_0_r, Rplus_0_l, Rplus_0_r in Nd.
      unfold at_least. assert (P : bpow radix2 (-500) <= bpow radix2 (-17)) by (apply bpow_le; lia). assert (E17 : bpow radix2 (-16) = 2 * bpow radix2 (-17)) by (change (-16)%Z with (1 + -17)%Z; rewrite bpow_plus; reflexivity).
      assert (P' := bpow_gt_0 radix2 (-17)). assert (Pu := u_pos). assert (Hu := u_small). apply Rabs_le_inv in SQ.
      assert (YN : -2 <= B2R (vy n) <= 2) by (split; nra). eapply Rle_trans; [exact P|]. set (t := bpow radix2 (-17)) in *. set (y := B2R (vy d')) in *. set (k := B2R (vy n)) in *. clearbody t y k. rewrite E17 in Nd.
      unfold Rabs. destruct (Rcase_abs y); nra.
  Qed.
  Theorem scatter_floor : exists h', oIntersect o (Ray p d') = Val (h', Ray p d') /\ (hT h' = nofZ 0 \/ hT h' = nofZ (9 * 10 ^ 99)).
  Proof.
    destruct floor_dir as (A & B & C). assert (P := bpow_gt_0 radix2 (-16)).
    apply (floor_rays ss m w dp c o Hw Lw Hp Lp Hc Ho s d h r' d' Hs Hd Ld Hh Hpos Hfar A); [fold n; lra|exact C|now right].
  Qed.
End Floor.
