(** * Camera rays have length one in double precision (C134) *)
From Coq Require Import ZArith Reals Bool List Lra Lia Psatz.
From Flocq Require Import Core.
From Flocq Require IEEE754.BinarySingleNaN.
Import IEEE754.BinarySingleNaN.
From Verif Require Import Num NumLaws Outcome B64 GeomModel GeomSpec SeqModel ObjModel TreeModel SceneModel ParamProofs FloatSpec BoxFloat FloatErr SphereFloat NormFloat RectFloat CosFloat SceneSpec CheckModel CheckProofs CtxProofs TextureProofs TurnSpec RotFloat.
Import ListNotations.
Local Open Scope R_scope.

(** ** What a camera does, without the pool of rays *)
Section Run.
  Context {F G : Type} `{NF : Num F} `{NI : NumInf F} `{TF : Trig F}.
  Variable rand2 : G -> (F * F) * G.
  Definition base (k : camera0 F) (s : F * F) (u v : F) : ray F :=
    match k with
    | CProjective f fd a =>
      projectiveRay f fd (if nltb (nofZ 0) a then (let '(x, y) := uniformDisk (fst s) (snd s) in Vec (nadd (nofZ 0) (nmul x a)) (nadd (nofZ 0) (nmul y a)) (nofZ 0)) else vO) u v
    | CEnvMap => envMapRay u v
    | CIsometric size => isometricRay size u v
    end.
  Lemma write_run (c : ctx F G) i q0 q : nth_error (cHeap c) i = Some q0 ->
    exists c', writeRay i q c = Val (tt, c') /\ nth_error (cHeap c') i = Some q.
  Proof.
    intros H. unfold writeRay. rewrite H. eexists. split; [reflexivity|]. cbn.
    apply nth_setNth_eq. apply nth_error_Some. now rewrite H.
  Qed.
  Lemma fires_run (cam : camera F) u v (c : ctx F G) : pool_ok c ->
    fires rand2 cam u v c (camRay cam (base (camOrig cam) (fst (rand2 (cRng c))) u v)).
  Proof.
    intros Hp. unfold fires, rayFrom.
    destruct (new_ray_zero c Hp) as (i & c1 & E1 & _ & _ & Hz & _).
    assert (Hr1 : cRng c1 = cRng c).
    { revert E1. unfold newRay, mbind, writeRay, mret. destruct (cPool c); cbn [obind];
      match goal with |- context [nth_error ?h ?j] => destruct (nth_error h j) end; cbn [obind]; intros E1; try discriminate; injection E1 as <- <-; reflexivity. }
    assert (X : exists c2, rayFrom0 rand2 (camOrig cam) u v c = Val (i, c2) /\ nth_error (cHeap c2) i = Some (base (camOrig cam) (fst (rand2 (cRng c))) u v)).
    { unfold rayFrom0. unfold mbind at 1. rewrite E1. cbn [obind]. destruct (camOrig cam) as [f fd a| |size]; cbn [base].
      - destruct (nltb (nofZ 0) a).
        + unfold mbind, generateLens, pseudo2. cbn [obind]. rewrite Hr1. destruct (rand2 (cRng c)) as [uv g] eqn:Eg. cbn [obind fst].
          destruct (uniformDisk (fst uv) (snd uv)) as [x y]. cbn [mret obind].
          destruct (write_run (withRng c1 g) i zeroRay (projectiveRay f fd (Vec (nadd (nofZ 0) (nmul x a)) (nadd (nofZ 0) (nmul y a)) (nofZ 0)) u v)) as (c2 & E2 & H2); [exact Hz|].
          rewrite E2. cbn [obind]. exists c2. split; [reflexivity|exact H2].
        + unfold mbind, mret. cbn [obind].
          destruct (write_run c1 i zeroRay (projectiveRay f fd vO u v)) as (c2 & E2 & H2); [exact Hz|].
          rewrite E2. cbn [obind]. exists c2. split; [reflexivity|exact H2].
      - unfold mbind, mret. destruct (write_run c1 i zeroRay (envMapRay u v)) as (c2 & E2 & H2); [exact Hz|].
        rewrite E2. cbn [obind]. exists c2. auto.
      - unfold mbind, mret. destruct (write_run c1 i zeroRay (isometricRay size u v)) as (c2 & E2 & H2); [exact Hz|].
        rewrite E2. cbn [obind]. exists c2. auto. }
    destruct X as (c2 & E2 & H2). unfold mbind at 1. rewrite E2. cbn [obind].
    unfold mbind, readRay. rewrite H2. cbn [obind].
    destruct (write_run c2 i _ (camRay cam (base (camOrig cam) (fst (rand2 (cRng c))) u v)) H2) as (c3 & E3 & H3).
    rewrite E3. cbn [obind]. exists i, c3. split; [reflexivity|exact H3].
  Qed.
End Run.

(** ** Small tools *)
Lemma al_mul j k (x y : b64) : (-1000 <= j + k <= 1000)%Z -> is_finite x = true -> is_finite y = true -> Rabs (B2R x * B2R y) <= bpow radix2 1000 -> at_least j x -> at_least k y -> at_least (j + k) (nmul x y).
Proof.
  intros L Fx Fy B X Y. unfold at_least in *. destruct (bmul_correct x y Fx Fy) as [_ E]; [eapply Rle_trans; [exact B|apply bpow_big; lia]|].
  rewrite E. assert (P : bpow radix2 (j + k) <= Rabs (B2R x * B2R y)). { rewrite bpow_plus, Rabs_mult. apply Rmult_le_compat; try apply bpow_ge_0; assumption. }
  assert (Fm : fmt (bpow radix2 (j + k))) by (apply fmt_bpow; lia).
  destruct (Rle_lt_dec 0 (B2R x * B2R y)) as [S|S].
  - rewrite Rabs_pos_eq in P by exact S. rewrite Rabs_pos_eq; [now apply rnd_ge|]. now apply rnd_nonneg.
  - rewrite Rabs_left in P by exact S. assert (Q : rnd (B2R x * B2R y) <= - bpow radix2 (j + k)) by (apply rnd_le; [now apply fmt_opp|lra]).
    rewrite Rabs_left1; [lra|]. assert (H := bpow_ge_0 radix2 (j + k)). lra.
Qed.
Lemma al_half (t : b64) : at_most 100 t -> at_least (-100) t -> at_most 99 (ndiv (nQ 1 2) t) /\ at_least (-101) (ndiv (nQ 1 2) t).
Proof.
  intros [Ft M] L. unfold at_least in L. assert (V : val (nQ 1 2) (/ 2)).
  { destruct (Z_b 1 ltac:(cbv; discriminate)) as [F1 E1]. destruct (Z_b 2 ltac:(cbv; discriminate)) as [F2 E2]. destruct (bdiv_correct (nofZ 1) (nofZ 2) F1) as [A B]; [rewrite E2; lra|rewrite E1, E2, Rabs_pos_eq by lra; eapply Rle_trans; [|apply (bpow_big 1); lia]; change (bpow radix2 1) with 2; lra|].
    split; [exact A|]. unfold nQ. rewrite B, E1, E2. unfold Rdiv. rewrite Rmult_1_l. apply rnd_id. change (/ 2) with (bpow radix2 (-1)). apply fmt_bpow. lia. }
  destruct V as [Fh Eh]. assert (Lp : 0 < bpow radix2 (-100)) by apply bpow_gt_0. assert (T0 : B2R t <> 0) by (intros E; rewrite E, Rabs_R0 in L; lra). assert (Tp : 0 < Rabs (B2R t)) by lra.
  assert (A : Rabs (B2R (nQ 1 2 : b64) / B2R t) = / 2 / Rabs (B2R t)). { rewrite Eh. unfold Rdiv. rewrite Rabs_mult, (Rabs_pos_eq (/ 2)), Rabs_inv by lra. reflexivity. }
  assert (I1 : / Rabs (B2R t) <= bpow radix2 100). { change 100%Z with (- (-100))%Z. rewrite bpow_opp. apply Rinv_le; assumption. }
  assert (I2 : bpow radix2 (-100) <= / Rabs (B2R t)). { change (-100)%Z with (- (100))%Z. rewrite bpow_opp. apply Rinv_le; assumption. }
  assert (U : / 2 / Rabs (B2R t) <= bpow radix2 99). { change 99%Z with (-1 + 100)%Z. rewrite bpow_plus. change (bpow radix2 (-1)) with (/ 2). unfold Rdiv. apply Rmult_le_compat_l; [lra|exact I1]. }
  assert (W : bpow radix2 (-101) <= / 2 / Rabs (B2R t)). { change (-101)%Z with (-1 + -100)%Z. rewrite bpow_plus. change (bpow radix2 (-1)) with (/ 2). unfold Rdiv. apply Rmult_le_compat_l; [lra|exact I2]. }
  destruct (bdiv_correct (nQ 1 2) t Fh T0) as [F E]; [rewrite A; eapply Rle_trans; [exact U|apply bpow_big; lia]|].
  split; [split; [exact F|rewrite E; apply rnd_abs_le; [apply fmt_bpow; lia|now rewrite A]]|].
  unfold at_least. rewrite E. assert (Fm : fmt (bpow radix2 (-101))) by (apply fmt_bpow; lia). rewrite <- A in W.
  destruct (Rle_lt_dec 0 (B2R (nQ 1 2 : b64) / B2R t)) as [S|S].
  - rewrite Rabs_pos_eq in W by exact S. rewrite Rabs_pos_eq; [now apply rnd_ge|]. now apply rnd_nonneg.
  - rewrite Rabs_left in W by exact S. assert (Q : rnd (B2R (nQ 1 2 : b64) / B2R t) <= - bpow radix2 (-101)) by (apply rnd_le; [now apply fmt_opp|lra]).
    rewrite Rabs_left1; [lra|]. assert (H := bpow_ge_0 radix2 (-101)). lra.
Qed.
Lemma sub_null k (x y : b64) : (k <= 1000)%Z -> at_most k x -> null y -> is_finite (nsub x y) = true /\ B2R (nsub x y) = B2R x.
Proof.
  intros L H [F E]. assert (G := am_big k x L H). destruct H as [Fx _]. destruct (bsub_correct x y Fx F) as [A B]; [now rewrite E, Rminus_0_r|].
  split; [exact A|]. rewrite B, E, Rminus_0_r. apply rnd_id, fmt_B2R.
Qed.
Lemma half_am : at_most 0 (nQ 1 2 : b64).
Proof.
  destruct (Z_b 1 ltac:(cbv; discriminate)) as [F1 E1]. destruct (Z_b 2 ltac:(cbv; discriminate)) as [F2 E2]. destruct (bdiv_correct (nofZ 1) (nofZ 2) F1) as [A B]; [rewrite E2; lra|rewrite E1, E2, Rabs_pos_eq by lra; eapply Rle_trans; [|apply (bpow_big 1); lia]; change (bpow radix2 1) with 2; lra|].
  split; [exact A|]. unfold nQ. rewrite B, E1, E2. apply rnd_abs_le; [apply fmt_bpow; lia|]. change (bpow radix2 0) with 1. rewrite Rabs_pos_eq; lra.
Qed.
Lemma opp_am k (x : b64) : at_most k x -> at_most k (nopp x).
Proof. intros [F L]. destruct (opp_R x) as [A B]. split; [congruence|]. now rewrite B, Rabs_Ropp. Qed.

(** ** The rays of cameras that have not been moved *)
Definition straight (d : vec b64) : Prop := fin3' d /\ Rabs (rdot d d - 1) <= 100 * u.
Section Base.
  Context {T : Trig b64}.
  Hypothesis HT : accurate_trig T.
  Lemma pi_am : at_most 2 (npi : b64).
  Proof. destruct HT as ((F & R0) & _). split; [exact F|]. change (bpow radix2 2) with 4. apply Rabs_le. lra. Qed.
  Lemma two_am : at_most 1 (nofZ 2 : b64).
  Proof. destruct (Z_b 2 ltac:(cbv; discriminate)) as [F E]. split; [exact F|]. rewrite E. change (bpow radix2 1) with 2. rewrite Rabs_pos_eq; lra. Qed.
  Lemma env_straight (u0 v : b64) : at_most 2 u0 -> at_most 2 v -> straight (rDir (envMapRay u0 v)).
  Proof.
    intros U V. unfold envMapRay. cbv zeta. cbn [rDir]. set (phi := nmul (nmul (nopp u0) (nofZ 2)) npi). set (theta := nmul (nsub v (nQ 1 2)) npi).
    assert (Fp : is_finite phi = true). { apply (am_mul 3 2); [lia| |apply pi_am]. apply (am_mul 2 1); [lia|now apply opp_am|apply two_am]. }
    assert (Ft : is_finite theta = true). { apply (am_mul 3 2); [lia| |apply pi_am]. apply (am_sub 2); [lia|exact V|]. apply (am_mono 0); [apply half_am|lia]. }
    destruct HT as (_ & Tr & _). destruct (Tr phi Fp) as (F1 & F2 & L1 & L2 & Q1). destruct (Tr theta Ft) as (F3 & F4 & L3 & L4 & Q2). rewrite u50 in Q1, Q2.
    set (sp := nsin phi) in *. set (cp := ncos phi) in *. set (st := nsin theta) in *. set (ct := ncos theta) in *. clearbody sp cp st ct.
    assert (P1 := pb _ _ _ _ L1 L4). assert (P2 := pb _ _ _ _ L2 L4).
    destruct (mul_u 0 sp ct ltac:(lia) F1 F4) as (G1 & E1 & _); [change (bpow radix2 0) with 1; apply Rabs_le; lra|].
    destruct (mul_u 0 cp ct ltac:(lia) F2 F4) as (G2 & E2 & _); [change (bpow radix2 0) with 1; apply Rabs_le; lra|].
    change (bpow radix2 0) with 1 in E1, E2. rewrite Rmult_1_l in E1, E2. unfold straight, fin3', rdot. cbn [vx vy vz]. split; [now split|].
    set (x := B2R (nmul sp ct)) in *. set (z := B2R (nmul cp ct)) in *. clearbody x z. set (a := B2R sp) in *. set (b := B2R cp) in *. set (s := B2R st) in *. set (c := B2R ct) in *. clearbody a b s c.
    assert (Pu := u_pos). assert (Hu := u_small).
    assert (M : forall y p, - (1 * 1) <= p <= 1 * 1 -> Rabs (y - p) <= u -> - (3 * u) <= y * y - p * p <= 3 * u). { intros y p P Y. apply Rabs_le_inv in Y. nra. }
    assert (M1 := M _ _ P1 E1). assert (M2 := M _ _ P2 E2).
    assert (C2 : 0 <= c * c <= 1) by (apply Rabs_le_inv in L4; nra).
    assert (K : - (8 * u) <= c * c * (a * a + b * b - 1) <= 8 * u). { apply Rabs_le_inv in Q1. split; nra. }
    apply Rabs_le_inv in Q2. apply Rabs_le. replace (x * x + s * s + z * z - 1) with ((x * x - a * c * (a * c)) + (z * z - b * c * (b * c)) + c * c * (a * a + b * b - 1) + (s * s + c * c - 1)) by ring. lra.
  Qed.
  Lemma iso_straight (size u0 v : b64) : straight (rDir (isometricRay size u0 v)).
  Proof.
    unfold isometricRay. cbn [rDir]. unfold straight, fin3', rdot. cbn [vx vy vz]. destruct (Z_b 0 ltac:(cbv; discriminate)) as [F0 E0]. destruct (Z_b (-1) ltac:(cbv; discriminate)) as [F1 E1].
    split; [now split|]. rewrite E0, E1. assert (Pu := u_pos). apply Rabs_le. lra.
  Qed.
  Lemma disk_am (p q : b64) : FloatSpec.between 0 1 p -> FloatSpec.between 0 1 q -> let '(x, y) := uniformDisk p q in at_most 0 x /\ at_most 0 y.
  Proof.
    intros [Fp Rp] [Fq Rq]. unfold uniformDisk. set (theta := nmul (nmul (nofZ 2) npi) p).
    assert (Ft : is_finite theta = true). { apply (am_mul 3 0); [lia| |]. - apply (am_mul 1 2); [lia|apply two_am|apply pi_am]. - split; [exact Fp|]. change (bpow radix2 0) with 1. apply Rabs_le. lra. }
    destruct HT as (_ & Tr & _). destruct (Tr theta Ft) as (F1 & F2 & L1 & L2 & _).
    assert (S : at_most 0 (nsqrt q)). { destruct (sqrt_u 0 q ltac:(lia) Fq ltac:(lra)) as [(F & _ & B) _]; [|now split]. change (bpow radix2 0) with 1. rewrite <- sqrt_1. apply sqrt_le_1_alt. lra. }
    split; apply (am_mul 0 0); try lia; try exact S; split; assumption.
  Qed.
  Lemma proj_straight (f fd : b64) start (u0 v : b64) : at_most 99 f -> at_least (-101) f -> at_most 100 fd -> at_least (-100) fd \/ B2R fd = 0 ->
    at_most 102 (vx start) -> at_most 102 (vy start) -> null (vz start) -> at_most 2 u0 -> at_most 2 v ->
    straight (rDir (projectiveRay f fd start u0 v)).
  Proof.
    intros Mf Lf Md Ld SX SY SZ U V. unfold projectiveRay. cbv zeta. cbn [rDir].
    set (w := vsub _ start).
    assert (X : at_most 3 (nopp (nsub u0 (nQ 1 2)))). { apply opp_am, (am_sub 2); [lia|exact U|]. apply (am_mono 0); [apply half_am|lia]. }
    assert (Y : at_most 3 (nsub v (nQ 1 2))). { apply (am_sub 2); [lia|exact V|]. apply (am_mono 0); [apply half_am|lia]. }
    assert (W : all3 (at_most 400) w /\ at_least (-400) (vz w)).
    { unfold w. destruct (negb (neqb fd (nofZ 0))) eqn:E.
      - assert (Ld' : at_least (-100) fd). { destruct Ld as [L|L]; [exact L|]. exfalso. apply negb_true_iff in E. rewrite (proj2 (beqb_R fd (nofZ 0) (proj1 Md) (proj1 zero_null))) in E; [discriminate E|]. rewrite L. symmetry. apply zero_null. }
        assert (MZ : at_most 199 (nmul fd f)) by (apply (am_mul 100 99); [lia|assumption|assumption]).
        assert (LZ : at_least (-201) (nmul fd f)).
        { apply (al_mul (-100) (-101)); try assumption; try lia; try apply Mf; try apply Md. eapply Rle_trans; [|apply (bpow_le radix2 199); lia]. change 199%Z with (100 + 99)%Z. rewrite bpow_plus, Rabs_mult. apply Rmult_le_compat; try apply Rabs_pos; [apply Md|apply Mf]. }
        unfold vsub, vmul. cbn [vx vy vz]. destruct (sub_null 199 _ (vz start) ltac:(lia) MZ SZ) as [FZ EZ]. split; [|unfold at_least in *; rewrite EZ; eapply Rle_trans; [apply (bpow_le radix2 _ (-201)); lia|exact LZ]].
        unfold all3. cbn [vx vy vz]. split; [|split].
        + apply (am_mono 104); [|lia]. apply (am_sub 103); [lia| |apply (am_mono 102); [exact SX|lia]]. apply (am_mul 100 3); [lia|exact Md|exact X].
        + apply (am_mono 104); [|lia]. apply (am_sub 103); [lia| |apply (am_mono 102); [exact SY|lia]]. apply (am_mul 100 3); [lia|exact Md|exact Y].
        + apply (am_mono 199); [|lia]. split; [exact FZ|]. rewrite EZ. apply MZ.
      - unfold vsub. cbn [vx vy vz]. destruct (sub_null 99 _ (vz start) ltac:(lia) Mf SZ) as [FZ EZ]. split; [|unfold at_least in *; rewrite EZ; eapply Rle_trans; [apply (bpow_le radix2 _ (-101)); lia|exact Lf]].
        unfold all3. cbn [vx vy vz]. split; [|split].
        + apply (am_mono 104); [|lia]. apply (am_sub 103); [lia| |apply (am_mono 102); [exact SX|lia]]. apply (am_mono 3); [exact X|lia].
        + apply (am_mono 104); [|lia]. apply (am_sub 103); [lia| |apply (am_mono 102); [exact SY|lia]]. apply (am_mono 3); [exact Y|lia].
        + apply (am_mono 99); [|lia]. split; [exact FZ|]. rewrite EZ. apply Mf. }
    destruct W as [W0 W1]. destruct (normalized_float w W0 (or_intror (or_intror W1))) as (F & E & _). split; [exact F|]. rewrite u53. exact E.
  Qed.

  (** a camera that makes such rays, by itself and after it has been turned *)
  Lemma deg_fin (k : b64) : at_most 8 k -> is_finite (deg k) = true.
  Proof.
    intros K. destruct pi_am as [Fp Lp]. destruct (Z_b 180 ltac:(cbv; discriminate)) as [F E]. change (bpow radix2 2) with 4 in Lp. apply Rabs_le_inv in Lp.
    assert (B : Rabs (B2R (npi : b64) / 180) <= 1) by (apply Rabs_le; lra).
    destruct (bdiv_correct npi (nofZ 180) Fp) as [A C]; [rewrite E; lra|rewrite E; eapply Rle_trans; [exact B|apply (bpow_big 0); lia]|].
    unfold deg. apply (am_mul 8 0); [lia|exact K|]. split; [exact A|]. rewrite C, E. apply rnd_abs_le; [apply fmt_bpow; lia|exact B].
  Qed.
  Lemma Z_am k : (Z.abs k <= 256)%Z -> at_most 8 (nofZ k : b64).
  Proof. intros L. destruct (Z_b k ltac:(lia)) as [F E]. split; [exact F|]. rewrite E, <- abs_IZR. change (bpow radix2 8) with (IZR 256). now apply IZR_le. Qed.
  Lemma made_ok cam : made cam -> ortho (620 * u) (camMatrix cam) /\
    forall s u0 v, FloatSpec.between 0 1 (fst s) -> FloatSpec.between 0 1 (snd s) -> at_most 2 u0 -> at_most 2 v -> straight (rDir (base (camOrig cam) s u0 v)).
  Proof.
    assert (Z0 : is_finite (nofZ 0 : b64) = true) by reflexivity. assert (Pu := u_pos).
    intros [fov ap fd c E Mt Lt Ma Md Ld| |dir size c E].
    - unfold projectiveAperture, fovToFocalLen in E. destruct (nleb fov (nofZ 0) || nleb npi fov)%bool; [discriminate E|]. cbn [omap] in E.
      assert (E' := E). apply (f_equal (fun o => match o with Val x => x | _ => environmentMap end)) in E'. cbv beta iota in E'. subst c. clear E.
      unfold transform0. cbn [camMatrix camOrig]. split; [apply (ypr_ortho HT); [apply deg_fin, Z_am; lia|exact Z0|exact Z0]|].
      intros s u0 v S0 S1 U V. cbn [base]. destruct (al_half _ Mt Lt) as [Mf Lf].
      match goal with |- context [projectiveRay _ (if ?b then ?x else fd)] => set (fd' := if b then x else fd) end. assert (D : at_most 100 fd' /\ (at_least (-100) fd' \/ B2R fd' = 0)).
      { unfold fd'. destruct (_ && _)%bool; [|now split]. split; [apply (am_mono 8); [apply Z_am; lia|lia]|left]. unfold at_least. destruct (Z_b 1 ltac:(cbv; discriminate)) as [_ E]. rewrite E, Rabs_R1. change 1 with (bpow radix2 0). apply bpow_le. lia. }
      destruct D as [Md' Ld']. clearbody fd'.
      destruct (nltb (nofZ 0) ap).
      + assert (K := disk_am _ _ S0 S1). destruct (uniformDisk (fst s) (snd s)) as [x y]. destruct K as [KX KY]. apply proj_straight; cbn [vx vy vz]; try assumption; [| |apply zero_null].
        * apply (am_mono 101); [|lia]. apply (am_add 100); [lia|apply null_am, zero_null|]. apply (am_mul 0 100); [lia|exact KX|exact Ma].
        * apply (am_mono 101); [|lia]. apply (am_add 100); [lia|apply null_am, zero_null|]. apply (am_mul 0 100); [lia|exact KY|exact Ma].
      + apply proj_straight; unfold vO; cbn [vx vy vz]; try assumption; try (apply null_am; apply zero_null). apply zero_null.
    - unfold environmentMap, transform0. cbn [camMatrix camOrig]. split; [apply (ortho_mono 0); [lra|apply ortho_unital, unital_unit]|].
      intros s u0 v _ _ U V. cbn [base]. now apply env_straight.
    - assert (E' := E). apply (f_equal (fun o => match o with Val x => x | _ => environmentMap end)) in E'. revert E'. unfold isometric in *.
      destruct (dir =? 0)%Z; [|destruct (dir =? 1)%Z; [|destruct (dir =? 2)%Z; [|discriminate E]]]; cbv beta iota; intros <-; unfold transform0; cbn [camMatrix camOrig];
        (split; [apply (ypr_ortho HT); first [exact Z0|apply deg_fin, Z_am; lia]|intros s u0 v _ _ _ _; apply iso_straight]).
  Qed.

  Lemma camera_rays {G} {NI : NumInf b64} (rand2 : G -> (b64 * b64) * G) cam ms (u0 v : b64) (c : ctx b64 G) :
    made cam -> Forall finite_angles ms -> INR (rotations ms) <= 1000000000 -> (forall g, FloatSpec.between 0 1 (fst (fst (rand2 g))) /\ FloatSpec.between 0 1 (snd (fst (rand2 g)))) ->
    at_most 2 u0 -> at_most 2 v -> pool_ok c ->
    exists q, fires rand2 (fold_left handle ms cam) u0 v c q /\ near_unit (rDir q) /\ Rabs (rdot (rDir q) (rDir q) - 1) <= 6100 * bpow radix2 (-53) * (INR (rotations ms) + 1).
  Proof.
    intros Hc Fa L Hr U V Hp. destruct (made_ok cam Hc) as [Ho Hb]. assert (Pu := u_pos). assert (PI := pos_INR (rotations ms)). rewrite <- u53.
    assert (Ku : 6100 * u * (INR (rotations ms) + 1) <= / 1000). { rewrite u_val. lra. }
    set (n := INR (rotations ms)) in *. assert (Pn : 0 <= n * (2000 * u)) by (apply Rmult_le_pos; lra).
    destruct (handled_ortho HT ms cam (620 * u) Ho) as [Hm Ek]; [lra|fold n; lra|exact Fa|]. fold n in Hm.
    eexists. split; [apply fires_run; exact Hp|]. unfold camRay. cbn [rDir]. rewrite Ek.
    destruct (Hr (cRng c)) as [R1 R2]. destruct (Hb (fst (rand2 (cRng c))) u0 v R1 R2 U V) as [Fq Eq]. set (d := rDir _) in *. clearbody d. clearbody n.
    assert (He : 0 <= 620 * u + n * (2000 * u) <= / 1000) by lra.
    assert (Uq : unity d). { unfold unity. eapply Rle_trans; [exact Eq|]. rewrite u_val. lra. }
    assert (D := mulvec_dot _ _ He Hm d d Fq Fq Uq Uq). assert (F := mulvec_fin _ _ He Hm d Fq Uq). apply Rabs_le_inv in D, Eq.
    assert (B : Rabs (rdot (mmulvec (camMatrix (fold_left handle ms cam)) d) (mmulvec (camMatrix (fold_left handle ms cam)) d) - 1) <= 6100 * u * (n + 1)) by (apply Rabs_le; lra).
    split; [|exact B]. split; [exact F|]. lra.
  Qed.
  Lemma camera_checked {G} {NI : NumInf b64} (rand2 : G -> (b64 * b64) * G) cam ms (u0 v : b64) (c : ctx b64 G) :
    made cam -> Forall finite_angles ms -> (rotations ms <= 1000)%nat -> (forall g, FloatSpec.between 0 1 (fst (fst (rand2 g))) /\ FloatSpec.between 0 1 (snd (fst (rand2 g)))) ->
    at_most 2 u0 -> at_most 2 v -> pool_ok c ->
    exists q, fires rand2 (fold_left handle ms cam) u0 v c q /\ checkRay q = Val tt.
  Proof.
    intros Hc Fa L Hr U V Hp. apply le_INR in L. rewrite (INR_IZR_INZ 1000) in L. change (Z.of_nat 1000) with 1000%Z in L.
    destruct (camera_rays rand2 cam ms u0 v c Hc Fa) as (q & Hq & [Fq _] & Bq); try assumption; [lra|].
    exists q. split; [exact Hq|]. apply checkRay_accepts; [exact Fq|]. eapply Rle_trans; [exact Bq|]. rewrite <- u53, u_val. assert (PI := pos_INR (rotations ms)). lra.
  Qed.
End Base.
