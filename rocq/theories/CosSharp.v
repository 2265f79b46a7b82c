(** * Scattered directions close to the surface, with correctly rounded sines and cosines *)
From Coq Require Import ZArith Reals Bool List Lra Lia Psatz.
From Flocq Require Import Core.
From Flocq Require IEEE754.BinarySingleNaN.
Import IEEE754.BinarySingleNaN.
From Verif Require Import Num NumLaws Outcome B64 GeomModel GeomSpec SeqModel ObjModel TreeModel SceneModel ParamProofs FloatSpec BoxFloat FloatErr SphereFloat NormFloat RectFloat ScatterSpec CosFloat.
Local Open Scope R_scope.

Lemma u_b : u = bpow radix2 (-53). Proof. rewrite u_val. reflexivity. Qed.
Lemma ulp_lt x e : bpow radix2 (-1000) <= x < bpow radix2 e -> (-900 <= e)%Z -> ulp radix2 fexp64 x <= bpow radix2 (e - 53).
Proof.
  intros [L U] He. assert (P := bpow_gt_0 radix2 (-1000)). rewrite ulp_neq_0 by lra. apply bpow_le. unfold cexp, fexp64, SpecFloat.fexp, SpecFloat.emin.
  assert (mag radix2 x <= e)%Z by (apply mag_le_bpow; [lra|rewrite Rabs_pos_eq by lra; exact U]). lia.
Qed.
(** a number below 1, times c, is rounded to something below c *)
Lemma shrink c r : fmt c -> bpow radix2 (-800) <= c -> 0 <= r <= 1 - u -> rnd (r * c) <= c * (1 - u).
Proof.
  intros Fc Lc Hr. assert (P := bpow_gt_0 radix2 (-800)). assert (Pu := u_pos). assert (Hu := u_small).
  set (p := pred radix2 fexp64 c). assert (Fp : fmt p) by (apply generic_format_pred; [typeclasses eauto|exact Fc]).
  assert (Ep : p + ulp radix2 fexp64 p = c) by (apply pred_plus_ulp; first [exact Fc | lra | typeclasses eauto]).
  assert (Sp : succ radix2 fexp64 p = c) by (apply succ_pred; first [exact Fc | typeclasses eauto]).
  assert (Lp : p < c) by (apply pred_lt_id; apply Rgt_not_eq; lra).
  assert (L9 : bpow radix2 (-801) <= p).
  { apply pred_ge_gt; [typeclasses eauto|apply fmt_bpow; lia|exact Fc|]. eapply Rlt_le_trans; [|exact Lc]. apply bpow_lt. lia. }
  assert (P9 := bpow_gt_0 radix2 (-801)). clearbody p.
  apply Rle_trans with p.
  - apply round_N_le_midp; [typeclasses eauto|exact Fp|]. rewrite Sp.
    assert (HU : ulp radix2 fexp64 p < 2 * (u * c)).
    { set (e := mag radix2 c : Z). assert (B := bpow_mag_gt radix2 c). assert (B' := bpow_mag_le radix2 c ltac:(lra)). fold e in B, B'. rewrite Rabs_pos_eq in B, B' by lra.
      assert (He : (-800 < e)%Z). { apply (lt_bpow radix2). lra. }
      assert (E1 : 2 * bpow radix2 (-53) * bpow radix2 (e - 1) = bpow radix2 (e - 53)). { change 2 with (bpow radix2 1). rewrite <- !bpow_plus. f_equal. lia. }
      assert (L10 : bpow radix2 (-1000) <= p). { eapply Rle_trans; [|exact L9]. apply bpow_le. lia. }
      destruct (Req_dec c (bpow radix2 (e - 1))) as [EQ|NE].
      - assert (HP : p < bpow radix2 (e - 1)) by (rewrite <- EQ; exact Lp). assert (K := ulp_lt p (e - 1) (conj L10 HP) ltac:(lia)). eapply Rle_lt_trans; [exact K|]. rewrite u_b, EQ, <- Rmult_assoc, E1. apply bpow_lt. lia.
      - assert (HP : p < bpow radix2 e) by (eapply Rlt_trans; [exact Lp|exact B]). assert (K := ulp_lt p e (conj L10 HP) ltac:(lia)). eapply Rle_lt_trans; [exact K|]. rewrite <- E1, u_b. assert (Q := bpow_gt_0 radix2 (-53)). assert (bpow radix2 (e - 1) < c) by lra. set (k := bpow radix2 (-53)) in *. set (l := bpow radix2 (e - 1)) in *. clearbody k l. nra. }
    assert (r * c <= (1 - u) * c) by (apply Rmult_le_compat_r; lra). rewrite Rmult_minus_distr_r, Rmult_1_l in H. set (k := u * c) in *. lra.
  - assert (Q : c * u <= ulp radix2 fexp64 p); [|lra].
    rewrite ulp_neq_0, u_b by lra. assert (H := bpow_mag_gt radix2 p). rewrite Rabs_pos_eq in H by lra.
    assert (L10 : (-801 < mag radix2 p)%Z) by (apply (lt_bpow radix2); lra).
    assert (CB : c <= bpow radix2 (mag radix2 p)). { rewrite <- Sp. apply succ_le_lt; [typeclasses eauto|exact Fp|apply fmt_bpow; lia|exact H]. }
    apply Rle_trans with (bpow radix2 (mag radix2 p) * bpow radix2 (-53)). { apply Rmult_le_compat_r; [apply bpow_ge_0|exact CB]. }
    rewrite <- bpow_plus. apply bpow_le. unfold cexp, fexp64, SpecFloat.fexp, SpecFloat.emin. lia.
Qed.

Lemma fmt_pred1 : fmt (1 - u).
Proof.
  replace (1 - u) with (B2R (nsub (nofZ 1) (nQ 1 9007199254740992) : b64)); [apply fmt_B2R|]. rewrite u_val. vm_compute. lra.
Qed.
Lemma pred1 : pred radix2 fexp64 1 = 1 - u.
Proof. change 1 with (bpow radix2 0) at 1. rewrite pred_bpow, u_b. reflexivity. Qed.
Lemma below1 (v : b64) : B2R v < 1 -> B2R v <= 1 - u.
Proof. intros H. rewrite <- pred1. apply pred_ge_gt; [typeclasses eauto|apply fmt_B2R|apply (fmt_bpow 0); lia|exact H]. Qed.
Lemma root_below V : 0 <= V <= 1 - u -> rnd (sqrt V) <= 1 - u.
Proof.
  intros H. assert (Pu := u_pos). assert (Hu := u_small). apply round_N_le_midp; [typeclasses eauto|exact fmt_pred1|].
  rewrite <- pred1 at 2. rewrite succ_pred; [|typeclasses eauto|apply (fmt_bpow 0); lia].
  apply Rle_lt_trans with (sqrt (1 - u)); [apply sqrt_le_1_alt; lra|]. replace ((1 - u + 1) / 2) with (sqrt ((1 - u / 2) * (1 - u / 2))) by (rewrite sqrt_square by lra; lra).
  apply sqrt_lt_1_alt. split; [lra|]. nra.
Qed.
Lemma sq_below (r c : b64) : is_finite r = true -> is_finite c = true -> 0 <= B2R r <= 1 - u -> Rabs (B2R c) <= 1 ->
  let x := nmul r c in B2R (nmul x x) <= (1 - u) * (1 - u) * (1 + u) * (B2R c * B2R c) + bpow radix2 (-1000).
Proof.
  intros Fr Fc Hr Hc x. assert (Pu := u_pos). assert (Hu := u_small). assert (Q := Rabs_pos (B2R c)).
  destruct (mul_u 0 r c ltac:(lia) Fr Fc) as (Fx & _ & Bx). { change (bpow radix2 0) with 1. rewrite Rabs_mult, (Rabs_pos_eq (B2R r)) by lra. nra. }
  destruct (bmul_correct r c Fr Fc) as [_ Ex]. { eapply Rle_trans; [|apply (bpow_big 0); lia]. change (bpow radix2 0) with 1. rewrite Rabs_mult, (Rabs_pos_eq (B2R r)) by lra. nra. }
  fold x in Fx, Bx, Ex. change (bpow radix2 0) with 1 in Bx. assert (Q' := Rabs_pos (B2R x)).
  destruct (bmul_correct x x Fx Fx) as [_ Exx]. { eapply Rle_trans; [|apply (bpow_big 0); lia]. change (bpow radix2 0) with 1. rewrite Rabs_mult. nra. }
  rewrite Exx. clear Exx. assert (P := bpow_gt_0 radix2 (-1000)). assert (SQc : 0 <= B2R c * B2R c) by apply Rle_0_sqr.
  assert (SH : Rabs (B2R x) <= Rabs (B2R c) * (1 - u) \/ Rabs (B2R x) <= bpow radix2 (-800)).
  { assert (EA : Rabs (B2R x) = rnd (B2R r * Rabs (B2R c))). { rewrite Ex. unfold rnd. rewrite <- round_NE_abs by typeclasses eauto. now rewrite Rabs_mult, (Rabs_pos_eq (B2R r)) by lra. }
    destruct (Rle_or_lt (bpow radix2 (-800)) (Rabs (B2R c))) as [L|L].
    - left. rewrite EA. apply shrink; [apply generic_format_abs, fmt_B2R|exact L|exact Hr].
    - right. rewrite EA. rewrite <- (rnd_id (bpow radix2 (-800))) by (apply fmt_bpow; lia). apply rnd_mono. nra. }
  assert (E2 : B2R x * B2R x = Rabs (B2R x) * Rabs (B2R x)) by (rewrite <- Rabs_mult; symmetry; apply Rabs_pos_eq, Rle_0_sqr).
  assert (E3 : B2R c * B2R c = Rabs (B2R c) * Rabs (B2R c)) by (rewrite <- Rabs_mult; symmetry; apply Rabs_pos_eq, Rle_0_sqr).
  assert (RHS : 0 <= (1 - u) * (1 - u) * (1 + u) * (B2R c * B2R c)) by (apply Rmult_le_pos; [nra|exact SQc]).
  destruct (Rle_or_lt (bpow radix2 (-1000)) (B2R x * B2R x)) as [L|L].
  - destruct (rnd_rel (B2R x * B2R x)) as (e & He & ->); [rewrite Rabs_pos_eq by (apply Rle_0_sqr); exact L|]. apply Rabs_le_inv in He.
    destruct SH as [SH|SH].
    + assert (B2R x * B2R x <= (1 - u) * (1 - u) * (B2R c * B2R c)).
      { rewrite E2, E3. replace ((1 - u) * (1 - u) * (Rabs (B2R c) * Rabs (B2R c))) with ((Rabs (B2R c) * (1 - u)) * (Rabs (B2R c) * (1 - u))) by ring. apply Rmult_le_compat; lra. }
      assert (0 <= B2R x * B2R x) by apply Rle_0_sqr. set (X := B2R x * B2R x) in *. set (C := B2R c * B2R c) in *. clearbody X C. clear - H H0 He P Pu Hu SQc.
      assert (X * (1 + e) <= X * (1 + u)) by (apply Rmult_le_compat_l; lra). assert (X * (1 + u) <= (1 - u) * (1 - u) * C * (1 + u)) by (apply Rmult_le_compat_r; lra). lra.
    + exfalso. assert (B2R x * B2R x <= bpow radix2 (-800) * bpow radix2 (-800)) by (rewrite E2; apply Rmult_le_compat; lra). rewrite <- bpow_plus in H.
      assert (bpow radix2 (-800 + -800) < bpow radix2 (-1000)) by (apply bpow_lt; lia). lra.
  - assert (rnd (B2R x * B2R x) <= bpow radix2 (-1000)); [|lra]. rewrite <- (rnd_id (bpow radix2 (-1000))) by (apply fmt_bpow; lia). apply rnd_mono. lra.
Qed.
Lemma rnd_tie : rnd (1 + u) = 1.
Proof.
  destruct (badd_correct (nofZ 1) (nQ 1 9007199254740992)) as [_ E].
  - vm_compute; reflexivity.
  - vm_compute; reflexivity.
  - replace (B2R (nofZ 1 : b64)) with 1 by (vm_compute; lra). replace (B2R (nQ 1 9007199254740992 : b64)) with u by (rewrite u_val; vm_compute; lra).
    eapply Rle_trans; [|apply (bpow_big 1); lia]. change (bpow radix2 1) with 2. assert (Pu := u_pos). assert (Hu := u_small). apply Rabs_le. lra.
  - replace (B2R (nofZ 1 : b64)) with 1 in E by (vm_compute; lra). replace (B2R (nQ 1 9007199254740992 : b64)) with u in E by (rewrite u_val; vm_compute; lra).
    rewrite <- E. vm_compute. lra.
Qed.
Section Sharp.
  Context {T : Trig b64}.
  Hypothesis HT : sharp_trig T.
  Variables (a v : b64).
  Hypothesis Ha : is_finite a = true /\ 0 <= B2R a <= 1.
  Hypothesis Hv : is_finite v = true /\ 0 <= B2R v < 1.
  Let x := fst (uniformDisk a v).
  Let y := snd (uniformDisk a v).
  Lemma Hv' : is_finite v = true /\ 0 <= B2R v <= 1. Proof. destruct Hv as [F R]. split; [exact F|lra]. Qed.
  Lemma never_negative : 0 <= B2R (nsub (nofZ 1) (nadd (nmul x x) (nmul y y))).
  Proof.
    destruct HT as [HF HS]. destruct (disk_u HF a v Ha Hv') as (Fx & Fy & Bx & By & _). fold x in Fx, Bx. fold y in Fy, By.
    assert (FT := theta_fin HF a Ha). specialize (HS _ FT). destruct HF as (_ & HF). destruct (HF _ FT) as (Fs & Fc & Bs & Bc & _).
    destruct Hv as [Fv Rv]. assert (V1 := below1 v (proj2 Rv)). assert (Pu := u_pos). assert (Hu := u_small).
    destruct (sqrt_R v Fv (proj1 Rv)) as [Fr Er]. assert (RR : 0 <= B2R (nsqrt v) <= 1 - u). { rewrite Er. split; [apply rnd_nonneg, sqrt_pos|]. apply root_below. lra. }
    assert (SX := sq_below _ _ Fr Fc RR Bc). assert (SY := sq_below _ _ Fr Fs RR Bs). change (nmul (nsqrt v) (ncos _)) with x in SX. change (nmul (nsqrt v) (nsin _)) with y in SY. cbv zeta in SX, SY.
    set (s := nsin _) in *. set (c := ncos _) in *. clearbody s c x y. rewrite <- u_b in HS.
    assert (Q1 := pb _ _ 1 1 Bx Bx). assert (Q2 := pb _ _ 1 1 By By). rewrite Rmult_1_r in Q1, Q2.
    destruct (mul_u 0 x x ltac:(lia) Fx Fx) as (Fxx & _ & Bxx). { apply Rabs_le. exact Q1. }
    destruct (mul_u 0 y y ltac:(lia) Fy Fy) as (Fyy & _ & Byy). { apply Rabs_le. exact Q2. }
    change (bpow radix2 0) with 1 in Bxx, Byy. apply Rabs_le_inv in Bxx, Byy.
    assert (SUM : B2R (nmul x x) + B2R (nmul y y) <= 1 + u).
    { assert (P999 : bpow radix2 (-1000) + bpow radix2 (-1000) <= u * u). { rewrite u_b, <- bpow_plus. replace (bpow radix2 (-1000) + bpow radix2 (-1000)) with (bpow radix2 1 * bpow radix2 (-1000)) by (change (bpow radix2 1) with 2; ring). rewrite <- bpow_plus. apply bpow_le. lia. }
      set (t := bpow radix2 (-1000)) in *. set (X := B2R (nmul x x)) in *. set (Y := B2R (nmul y y)) in *. set (cc := B2R c * B2R c) in *. set (ss := B2R s * B2R s) in *. clearbody t X Y cc ss. clear - SX SY HS Pu Hu P999.
      set (g := (1 - u) * (1 - u) * (1 + u)) in *. assert (G0 : 0 <= g) by (unfold g; apply Rmult_le_pos; [apply Rmult_le_pos; lra|lra]).
      assert (K : g * (ss + cc) <= g * ((1 + u) * (1 + u))) by (apply Rmult_le_compat_l; assumption).
      assert (K2 : g * ((1 + u) * (1 + u)) <= 1 + u - u * u).
      { unfold g. replace ((1 - u) * (1 - u) * (1 + u) * ((1 + u) * (1 + u))) with ((1 - u * u) * (1 - u * u) * (1 + u)) by ring. assert (0 <= u * u <= / 1000) by nra. set (q := u * u) in *. clearbody q. nra. }
      lra. }
    destruct (badd_correct _ _ Fxx Fyy) as [Fq Eq]. { eapply Rle_trans; [|apply (bpow_big 1); lia]. change (bpow radix2 1) with 2. apply Rabs_le. lra. }
    assert (Q : -2 <= B2R (nadd (nmul x x) (nmul y y)) <= 1).
    { rewrite Eq. split; [|rewrite <- rnd_tie; apply rnd_mono; exact SUM]. rewrite <- (rnd_id (-2)); [apply rnd_mono; lra|]. change (-2) with (- (bpow radix2 1)). apply fmt_opp, fmt_bpow. lia. }
    set (q := nadd (nmul x x) (nmul y y)) in *. clearbody q. destruct (Z_b 1) as [F1 E1]; [discriminate|].
    destruct (bsub_correct (nofZ 1) q F1 Fq) as [_ Ew]. { rewrite E1. eapply Rle_trans; [|apply (bpow_big 2); lia]. change (bpow radix2 2) with 4. apply Rabs_le. lra. }
    rewrite Ew, E1. apply rnd_nonneg. lra.
  Qed.
End Sharp.
Theorem cosine_sharp {T : Trig b64} (a v : b64) (n : vec b64) : sharp_trig T -> between 0 1 a -> is_finite v = true -> 0 <= B2R v < 1 ->
  all3 (fun x => is_finite x = true) n -> Rabs (rdot n n - 1) <= bpow radix2 (-40) ->
  let d := cosineSphere a v n in
  all3 (fun x => is_finite x = true) d /\ Rabs (rdot d d - 1) <= bpow radix2 (-34) /\ Rabs (rdot d n - sqrt (1 - B2R v)) <= bpow radix2 (-19) /\ - bpow radix2 (-37) <= rdot d n.
Proof.
  intros HT [Fa Ra] Fv Rv Fn Un. assert (HF := proj1 HT). assert (P4 := p40). assert (Un' : Rabs (rdot n n - 1) <= em) by lra.
  assert (Rv1 : 0 <= B2R v <= 1) by lra. destruct (disk_u HF a v (conj Fa Ra) (conj Fv Rv1)) as (Fx & Fy & Bx & By & E).
  destruct (height_u HF a v (conj Fa Ra) (conj Fv Rv1) (never_negative HT a v (conj Fa Ra) (conj Fv Rv))) as (Fz & Bz & Ez). unfold cosineSphere. destruct (uniformDisk a v) as [x y]. cbn [fst snd] in *. set (z := nsqrt _) in *. clearbody z.
  assert (Hem := em_s). assert (U : Rabs (B2R x * B2R x + B2R y * B2R y + B2R z * B2R z - 1) <= 6 * em) by (apply Rabs_le_inv in E, Ez; apply Rabs_le; lra).
  assert (Bz' : Rabs (B2R z) <= 101 / 100) by (apply Rabs_le; lra).
  destruct (d_u n Fn Un' x y z (conj Fx Bx) (conj Fy By) (conj Fz Bz') U) as (Fd & Ud & Nd). cbv zeta.
  set (d := mmulvec _ _) in *. clearbody d. split; [exact Fd|].
  assert (EV := em_val). assert (V34 : bpow radix2 (-34) = / 17179869184) by reflexivity. assert (V19 : bpow radix2 (-19) = / 524288) by reflexivity. assert (V37 : bpow radix2 (-37) = / 137438953472) by reflexivity.
  split; [eapply Rle_trans; [exact Ud|]; rewrite V34, EV; lra|].
  assert (SL : 0 <= sqrt (1 - B2R v)) by apply sqrt_pos.
  assert (SQ : sqrt (1 - B2R v) * sqrt (1 - B2R v) = 1 - B2R v) by (apply sqrt_sqrt; lra). rewrite <- SQ in Ez. set (s := sqrt _) in *. clearbody s. apply Rabs_le_inv in Ez, Nd.
  rewrite EV in *. assert (ZS : - (18 / 10000000) <= B2R z - s <= 18 / 10000000) by (clear - Ez Bz SL; split; nra).
  rewrite V19, V37. split; [apply Rabs_le; lra|lra].
Qed.
Theorem scatter_ball_sharp {T : Trig b64} (M : Type) (m : option M) (diam : b64) (c s d : vec b64) (h : hit b64 M) (r' : ray b64) : sharp_trig T ->
  between 1 512 diam -> all3 (at_most 8) c -> all3 (at_most 8) s -> near_unit d ->
  oIntersect (sphere m diam c) (Ray s d) = Val (h, r') -> nltb (nofZ 0) (hT h) = true -> nltb (nofZ 0) (vdot (vnormalized (hNormal h)) d) = false ->
  let n := flipTowards (vnormalized (hNormal h)) d in let p := vmadd (vmadd (rayAt (Ray s d) (hT h)) tiny n) tiny n in
  forall a v, between 0 1 a -> is_finite v = true -> 0 <= B2R v < 1 ->
    oIntersect (sphere m diam c) (Ray p (cosineSphere a v n)) = Val (noHit, Ray p (cosineSphere a v n)).
Proof.
  intros HT Hr Hc Hs Hd Hh Ht Hf n p a v Ha Fv Rv. destruct (ball_normal m diam c s d h r' Hr Hc Hs Hd Hh Ht) as [Fn Un].
  assert (En : n = vnormalized (hNormal h)) by (unfold n, flipTowards; now rewrite Hf). unfold p. clear p. rewrite En. clear n En.
  destruct (cosine_sharp a v _ HT Ha Fv Rv Fn) as (Fd & Ud & _ & Nd). { eapply Rle_trans; [exact Un|exact p40']. }
  apply (no_acne m diam c s d h r' Hr Hc Hs Hd Hh Ht); [now apply near_of|]. eapply Rle_trans; [|exact Nd]. apply Ropp_le_contravar. apply bpow_le. lia.
Qed.

(** ** Witnesses *)
Definition fixedTrig (s c : b64) : Trig b64 := {| npi := nQ 31415927 10000000; nsin := fun _ => s; ncos := fun _ => c; ntan := fun x => x; nexp := fun x => x; nlog := fun x => x; npow := fun x _ => x |}.
Definition ulp1 : b64 := nQ 1 9007199254740992.
Lemma half_root : is_finite (nadd (nsqrt (nQ 1 2)) ulp1 : b64) = true /\ 0 <= B2R (nadd (nsqrt (nQ 1 2)) ulp1 : b64) <= 1 /\ 1 <= 2 * (B2R (nadd (nsqrt (nQ 1 2)) ulp1 : b64) * B2R (nadd (nsqrt (nQ 1 2)) ulp1 : b64)) <= 1 + bpow radix2 (-50).
Proof. split; [vm_compute; reflexivity|]. split; [vm_compute; lra|]. change (bpow radix2 (-50)) with (/ 1125899906842624). vm_compute. lra. Qed.
Lemma pi_ok : at_most 2 (nQ 31415927 10000000).
Proof. split; [vm_compute; reflexivity|]. change (bpow radix2 2) with 4. apply Rabs_le. vm_compute. lra. Qed.
Theorem nan_near_one : exists (T : Trig b64) (v : b64), fair_trig T /\ (forall x, B2R (nsin x) * B2R (nsin x) + B2R (ncos x) * B2R (ncos x) <= 1 + bpow radix2 (-50)) /\
  is_finite v = true /\ 0 <= B2R v < 1 /\ let d := cosineSphere (nofZ 0) v (Vec (nofZ 0) (nofZ 1) (nofZ 0)) in is_nan (vx d) = true /\ is_nan (vy d) = true /\ is_nan (vz d) = true.
Proof.
  destruct half_root as (F & R & S). exists (fixedTrig (nadd (nsqrt (nQ 1 2)) ulp1) (nadd (nsqrt (nQ 1 2)) ulp1)), (nsub (nofZ 1) ulp1).
  split; [|split; [|split; [vm_compute; reflexivity|split; [vm_compute; lra|repeat split; vm_compute; reflexivity]]]].
  - split; [exact pi_ok|]. intros x _. cbn [nsin ncos fixedTrig]. set (c := nadd (nsqrt (nQ 1 2)) ulp1) in *. clearbody c.
    assert (Q : Rabs (B2R c) <= 1) by (apply Rabs_le; lra). assert (P : bpow radix2 (-50) <= bpow radix2 (-40)) by (apply bpow_le; lia).
    split; [exact F|]. split; [exact F|]. split; [exact Q|]. split; [exact Q|]. apply Rabs_le. lra.
  - intros x. cbn [nsin ncos fixedTrig]. lra.
Qed.
Lemma sharp_345 : sharp_trig (fixedTrig (nQ 3 5) (nQ 4 5)).
Proof.
  assert (F3 : is_finite (nQ 3 5 : b64) = true) by (vm_compute; reflexivity). assert (F4 : is_finite (nQ 4 5 : b64) = true) by (vm_compute; reflexivity).
  assert (R3 : 0 <= B2R (nQ 3 5 : b64) <= 1) by (vm_compute; lra). assert (R4 : 0 <= B2R (nQ 4 5 : b64) <= 1) by (vm_compute; lra).
  assert (S : 1 - / 9007199254740992 <= B2R (nQ 3 5 : b64) * B2R (nQ 3 5 : b64) + B2R (nQ 4 5 : b64) * B2R (nQ 4 5 : b64) <= 1 + / 9007199254740992) by (vm_compute; lra).
  set (s := nQ 3 5 : b64) in *. set (c := nQ 4 5 : b64) in *. clearbody s c. split.
  - split; [exact pi_ok|]. intros x _. cbn [nsin ncos fixedTrig].
    split; [exact F3|]. split; [exact F4|]. split; [apply Rabs_le; lra|]. split; [apply Rabs_le; lra|]. change (bpow radix2 (-40)) with (/ 1099511627776). apply Rabs_le. lra.
  - intros x _. cbn [nsin ncos fixedTrig]. change (bpow radix2 (-53)) with (/ 9007199254740992). lra.
Qed.
Lemma scatter_345 : let d := cosineSphere (TF := fixedTrig (nQ 3 5) (nQ 4 5)) (nofZ 0) (nQ 36 100) (Vec (nofZ 0) (nofZ 1) (nofZ 0)) in
  nltb (nabs (nsub (vx d) (nQ (-36) 100))) (nQ 1 1000000000000) = true /\ nltb (nabs (nsub (vy d) (nQ 8 10))) (nQ 1 1000000000000) = true /\ nltb (nabs (nsub (vz d) (nQ 48 100))) (nQ 1 1000000000000) = true.
Proof. vm_compute. auto. Qed.
