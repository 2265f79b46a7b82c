(** * Colours stay within the range of double precision *)
From Coq Require Import ZArith Reals Bool List Lra Lia.
From Flocq Require Import Core Mult_error.
From Flocq Require IEEE754.BinarySingleNaN.
Import IEEE754.BinarySingleNaN.
From Verif Require Import Num NumLaws Outcome B64 GeomModel ColorModel ObjModel SamplerModel SamplerSpec SamplerProofs SamplerFacts SamplerNum SceneModel SceneSpec CtxProofs RenderModel RenderSpec RenderProofs FloatErr DullSpec.
Import ListNotations.
Local Open Scope R_scope.

(** ** Numbers *)
Lemma fmt_scale k x : (0 <= k)%Z -> fmt x -> fmt (bpow radix2 k * x).
Proof. intros K H. rewrite Rmult_comm. unfold fmt in *. rewrite fexp64_FLT in *. now apply mult_bpow_pos_exact_FLT. Qed.

Lemma rnd_top k x : (0 <= k)%Z -> x < bpow radix2 k * (1 + bpow radix2 (-53)) -> rnd x <= bpow radix2 k.
Proof.
  intros K H. apply round_N_le_midp; [typeclasses eauto|apply fmt_bpow; lia|].
  rewrite succ_eq_pos by apply bpow_ge_0. rewrite ulp_bpow. rewrite fexp64_FLT. unfold FLT_exp. rewrite Z.max_l by lia.
  replace (k + 1 - 53)%Z with (k + -52)%Z by lia. rewrite bpow_plus. pose proof (bpow_gt_0 radix2 k).
  assert (E : bpow radix2 (-52) = 2 * bpow radix2 (-53)) by (change 2 with (bpow radix2 1); rewrite <- bpow_plus; reflexivity). rewrite E. lra.
Qed.

Lemma rnd_rest x : 0 <= x <= 1 -> rnd x <= x + bpow radix2 (-54).
Proof.
  intros H. destruct (Req_dec x 1) as [->|N]. { rewrite rnd_id by (apply (fmt_Z 1); lia). pose proof (bpow_gt_0 radix2 (-54)). lra. }
  destruct (Req_dec x 0) as [->|N0]. { rewrite rnd_0. pose proof (bpow_gt_0 radix2 (-54)). lra. }
  pose proof (error_le_half_ulp radix2 fexp64 (fun n => negb (Z.even n)) x) as E. fold (rnd x) in E.
  assert (U : ulp radix2 fexp64 x <= bpow radix2 (-53)).
  { rewrite ulp_neq_0 by exact N0. apply bpow_le. unfold cexp. rewrite fexp64_FLT. unfold FLT_exp.
    assert (mag radix2 x <= 0)%Z by (apply mag_le_bpow; [exact N0|change (bpow radix2 0) with 1; rewrite Rabs_pos_eq by lra; lra]). lia. }
  apply Rabs_le_inv in E. replace (bpow radix2 (-53)) with (2 * bpow radix2 (-54)) in U by (change 2 with (bpow radix2 1); rewrite <- bpow_plus; reflexivity). lra.
Qed.

Section Range.
  Variable k : Z.
  Hypothesis K : (0 <= k <= 900)%Z.

  Lemma top_pos : 1 <= bpow radix2 k.
  Proof. apply (bpow_le radix2 0). lia. Qed.
  Lemma top_big x : Rabs x <= 2 * bpow radix2 k -> Rabs x <= big.
  Proof. intros H. eapply Rle_trans; [exact H|]. change 2 with (bpow radix2 1). rewrite <- bpow_plus. apply bpow_big. lia. Qed.

  Lemma from0_black : from0 k (nofZ 0).
  Proof. destruct (Z_b 0 ltac:(lia)) as [F E]. split; [exact F|]. rewrite E. pose proof top_pos. lra. Qed.
  Lemma from0_le j x : (j <= k)%Z -> from0 j x -> from0 k x.
  Proof. intros L [F B]. split; [exact F|]. pose proof (bpow_le radix2 j k L). lra. Qed.

  Lemma from0_mul w x : from0 0 w -> from0 k x -> from0 k (nmul w x) /\ B2R (nmul w x) <= bpow radix2 k * B2R w.
  Proof.
    intros [Fw Bw] [Fx Bx]. change (bpow radix2 0) with 1 in Bw. pose proof top_pos as T.
    assert (P : 0 <= B2R w * B2R x <= bpow radix2 k * B2R w). { split; [apply Rmult_le_pos; lra|]. rewrite Rmult_comm. apply Rmult_le_compat_r; lra. }
    assert (Q : bpow radix2 k * B2R w <= bpow radix2 k) by (rewrite <- (Rmult_1_r (bpow radix2 k)) at 2; apply Rmult_le_compat_l; lra).
    destruct (bmul_correct w x Fw Fx) as [F E]; [apply top_big; rewrite Rabs_pos_eq by lra; lra|].
    assert (U : rnd (B2R w * B2R x) <= bpow radix2 k * B2R w) by (apply rnd_le; [apply fmt_scale; [lia|apply fmt_B2R]|lra]).
    split; [split; [exact F|]; rewrite E; split; [apply rnd_nonneg; lra|lra]|rewrite E; exact U].
  Qed.
  Lemma from0_mul' w x : from0 0 w -> from0 k x -> from0 k (nmul x w).
  Proof.
    intros W X. destruct (from0_mul w x W X) as [[F B] _]. destruct W as [Fw Bw], X as [Fx Bx]. change (bpow radix2 0) with 1 in Bw. pose proof top_pos as T.
    assert (P : 0 <= B2R x * B2R w <= bpow radix2 k). { split; [apply Rmult_le_pos; lra|]. rewrite <- (Rmult_1_r (bpow radix2 k)). apply Rmult_le_compat; lra. }
    destruct (bmul_correct x w Fx Fw) as [F' E']; [apply top_big; rewrite Rabs_pos_eq by lra; lra|]. split; [exact F'|]. rewrite E'.
    split; [apply rnd_nonneg; lra|apply rnd_le; [apply fmt_bpow; lia|lra]].
  Qed.

  Lemma from0_mix a b x y : from0 0 a -> from0 0 b -> B2R a + B2R b <= 1 + bpow radix2 (-54) -> from0 k x -> from0 k y ->
    from0 k (nadd (nmul a x) (nmul b y)).
  Proof.
    intros A B S X Y. destruct (from0_mul a x A X) as [[F1 B1] U1]. destruct (from0_mul b y B Y) as [[F2 B2] U2]. pose proof top_pos as T.
    destruct (badd_correct _ _ F1 F2) as [F E]; [apply top_big; rewrite Rabs_pos_eq by lra; lra|]. split; [exact F|]. rewrite E. split; [apply rnd_nonneg; lra|].
    apply rnd_top; [lia|]. apply Rle_lt_trans with (bpow radix2 k * (B2R a + B2R b)); [lra|]. apply Rmult_lt_compat_l; [lra|].
    pose proof (bpow_lt radix2 (-54) (-53) ltac:(lia)). lra.
  Qed.
  Lemma from0_plus0 x : from0 k x -> from0 k (nadd (nofZ 0) x).
  Proof.
    intros [Fx Bx]. destruct (Z_b 0 ltac:(lia)) as [F0 E0]. pose proof top_pos.
    destruct (badd_correct _ _ F0 Fx) as [F E]; [apply top_big; rewrite E0, Rabs_pos_eq by lra; lra|]. split; [exact F|]. rewrite E, E0, Rplus_0_l, rnd_id by apply fmt_B2R. exact Bx.
  Qed.
End Range.

Lemma rest_weight a : from0 0 a -> from0 0 (nsub (nofZ 1) a) /\ B2R a + B2R (nsub (nofZ 1 : b64) a) <= 1 + bpow radix2 (-54).
Proof.
  intros [F B]. change (bpow radix2 0) with 1 in B. destruct (Z_b 1 ltac:(lia)) as [F1 E1].
  destruct (bsub_correct (nofZ 1) a F1 F) as [G E]; [rewrite E1; apply Rle_trans with (bpow radix2 0); [change (bpow radix2 0) with 1; apply Rabs_le; lra|apply bpow_big; lia]|].
  unfold from0. change (bpow radix2 0) with 1. rewrite E, E1. split; [split; [exact G|]; split; [apply rnd_nonneg; lra|apply rnd_le; [apply (fmt_Z 1); lia|lra]]|].
  pose proof (rnd_rest (1 - B2R a) ltac:(lra)). lra.
Qed.

(** ** Colours *)
Section Colours.
  Variable k : Z.
  Hypothesis K : (0 <= k <= 900)%Z.
  Lemma lit_black : lit k black.
  Proof. exact (conj (from0_black k K) (conj (from0_black k K) (from0_black k K))). Qed.
  Lemma lit_plus0 c : lit k c -> lit k (cladd black c).
  Proof. intros (A & B & C). exact (conj (from0_plus0 k K _ A) (conj (from0_plus0 k K _ B) (from0_plus0 k K _ C))). Qed.
  Lemma lit_filter c f : lit k c -> lit 0 f -> lit k (clmul3 c f).
  Proof. intros (A & B & C) (A' & B' & C'). exact (conj (from0_mul' k K _ _ A' A) (conj (from0_mul' k K _ _ B' B) (from0_mul' k K _ _ C' C))). Qed.
  Lemma lit_mix a b c d : from0 0 a -> from0 0 b -> B2R a + B2R b <= 1 + bpow radix2 (-54) -> lit k c -> lit k d -> lit k (clmadd (clmul c a) b d).
  Proof.
    intros A B S (X & Y & Z) (X' & Y' & Z').
    exact (conj (from0_mix k K _ _ _ _ A B S X X') (conj (from0_mix k K _ _ _ _ A B S Y Y') (from0_mix k K _ _ _ _ A B S Z Z'))).
  Qed.
End Colours.

(** ** Actions whose result, if any, has a property *)
Section Post.
  Context {F G : Type}.
  Definition yields {A} (a : act F G A) (Q : A -> Prop) : Prop := forall c x c', a c = Val (x, c') -> Q x.
  Lemma yields_ret {A} (x : A) (Q : A -> Prop) : Q x -> yields (mret x) Q.
  Proof. intros H c y c' E. injection E as <- _. exact H. Qed.
  Lemma yields_bind {A B} (a : act F G A) (P : A -> Prop) (f : A -> act F G B) (Q : B -> Prop) :
    yields a P -> (forall x, P x -> yields (f x) Q) -> yields (mbind a f) Q.
  Proof.
    intros Ha Hf c y c' E. unfold mbind in E. destruct (a c) as [[x c1]| |] eqn:Ea; cbn [obind] in E; try discriminate E. exact (Hf x (Ha _ _ _ Ea) _ _ _ E).
  Qed.
  Lemma yields_any {A B} (a : act F G A) (f : A -> act F G B) (Q : B -> Prop) : (forall x, yields (f x) Q) -> yields (mbind a f) Q.
  Proof. intros H. apply (yields_bind a (fun _ => True)); [intros c x c' _; exact I|intros x _; apply H]. Qed.
  Lemma yields_lift {A} (o : outcome A) (Q : A -> Prop) : (forall x, o = Val x -> Q x) -> yields (mlift (F := F) (G := G) o) Q.
  Proof. intros H c y c' E. unfold mlift in E. destruct o as [x| |]; cbn [omap] in E; try discriminate E. injection E as <- _. apply H. reflexivity. Qed.
End Post.

(** ** The evaluator *)
Section Glow.
  Context {G : Type} {NI : NumInf b64} {TF : Trig b64}.
  Variable rand2 : G -> (b64 * b64) * G.
  Variable k : Z.
  Hypothesis K : (0 <= k <= 900)%Z.
  Variable s : scene b64.
  Hypothesis Hs : glowing k s.

  Lemma front_dull objs r : Forall (dull_object k) objs -> forall f0, (forall m, hMat f0 = Some m -> dull k m) ->
    yields (frontLoop (G := G) objs r f0) (fun h => forall m, hMat h = Some m -> dull k m).
  Proof.
    induction objs as [|o objs IH]; intros H f0 H0; cbn [frontLoop]; [now apply yields_ret|]. inversion H as [|? ? Ho Hr]; subst.
    apply (yields_bind _ (fun h => forall m, hMat h = Some m -> dull k m)).
    - unfold intersectRay. apply yields_any. intros q. apply (yields_bind _ (fun p => forall m, hMat (fst p) = Some m -> dull k m)).
      + apply yields_lift. intros [h q'] E m M. exact (Ho q h q' m E M).
      + intros [h q'] P. apply yields_any. intros _. apply yields_ret. exact P.
    - intros h Hh. apply IH; [exact Hr|]. destruct (_ && _)%bool; assumption.
  Qed.

  Variable lf : who -> nat -> act b64 G (color b64).
  Hypothesis HL : forall w r, yields (lf w r) (lit k).

  Ltac any := apply yields_any; intros ?.

  Lemma shade_lit h : forall m r, dull k m -> yields (shade rand2 s lf m r h) (lit k).
  Proof.
    induction m as [|t|t|c|n m IH|n1 n2|t|a IHa b IHb|x a IHa y b IHb|t a IHa b IHb]; intros r D; cbn [shade dull] in *; try contradiction.
    - apply yields_ret, lit_black, K.
    - apply yields_lift. intros c E. exact (D _ _ E).
    - unfold matteShade. any. any. any. any. apply (yields_bind _ (fun acc => acc = black)).
      + destruct Hs as [-> _]. cbn [matteLights]. now apply yields_ret.
      + intros acc ->. any. apply yields_any. intros [u v]. any. apply (yields_bind _ (lit k)); [apply HL|]. intros ind Hi. any.
        apply (yields_bind _ (lit 0)); [apply yields_lift; intros f E; exact (D _ _ E)|]. intros f Hf. apply yields_ret. apply lit_filter; [exact K| |exact Hf]. now apply lit_plus0.
    - unfold reflectiveShade. any. any. any. any. any. apply (yields_bind _ (lit k)); [apply HL|]. intros b Hb. any. apply yields_ret. now apply lit_filter.
    - unfold transparentShade. any. any. any. any. any. apply (yields_bind _ (lit k)); [apply HL|]. intros b Hb.
      apply (yields_bind _ (lit 0)); [apply yields_lift; intros f E; exact (D _ _ E)|]. intros f Hf. any. apply yields_ret. now apply lit_filter.
    - destruct D as [Da Db]. any. destruct (nltb _ _); [apply IHa|apply IHb]; assumption.
    - destruct D as (X & Y & S & Da & Db). apply (yields_bind _ (lit k)); [now apply IHa|]. intros ca Ha. apply (yields_bind _ (lit k)); [now apply IHb|]. intros cb Hb.
      apply yields_ret. apply lit_mix; try assumption. pose proof (bpow_gt_0 radix2 (-54)). lra.
    - destruct D as (Dt & Da & Db). apply (yields_bind _ (lit 0)); [apply yields_lift; intros f E; exact (Dt _ _ E)|]. intros f Hf.
      destruct (rest_weight (cR f) (proj1 Hf)) as [W1 W2].
      apply (yields_bind _ (lit k)). { destruct (nltb _ _); [now apply IHa|apply yields_ret, lit_black, K]. } intros ca Ha.
      apply (yields_bind _ (lit k)). { destruct (nltb _ _); [now apply IHb|apply yields_ret, lit_black, K]. } intros cb Hb.
      apply yields_ret. apply lit_mix; try assumption. exact (proj1 Hf).
  Qed.
End Glow.

(** *** fog *)
Lemma positive_finite (x : b64) : is_finite x = true -> 0 < B2R x -> exists m e B, x = B754_finite false m e B.
Proof.
  destruct x as [[|]|[|]| |[|] m e B]; intros F P; try discriminate F; cbn [B2R] in P; try lra.
  - exfalso. pose proof (F2R_lt_0 radix2 (Float radix2 (Z.neg m) e) ltac:(reflexivity)) as H. exact (Rlt_asym _ _ P H).
  - now exists m, e, B.
Qed.
Lemma Bleb_0 (x : b64) : is_finite x = true -> B2R x <= 0 -> nleb x (nofZ 0) = true.
Proof. intros F H. destruct (Z_b 0 ltac:(lia)) as [F0 E0]. apply bleb_R; [exact F|exact F0|]. rewrite E0. exact H. Qed.
Lemma faded (len density : b64) : nleb (nofZ 0) len = true -> is_finite density = true -> 0 < B2R density -> nleb (nmul (nopp len) density) (nofZ 0) = true.
Proof.
  intros L Fd Pd. destruct (Z_b 0 ltac:(lia)) as [F0 E0]. destruct (positive_finite density Fd Pd) as (m & e & B & ->).
  destruct len as [sl|[|]| |sl ml el Bl]; [destruct sl; reflexivity|discriminate L|reflexivity|discriminate L|].
  assert (L' := L). apply bleb_R in L'; [|exact F0|reflexivity]. rewrite E0 in L'.
  assert (sl = false) as ->. { destruct sl; [|reflexivity]. exfalso. pose proof (F2R_lt_0 radix2 (Float radix2 (Z.neg ml) el) ltac:(reflexivity)) as H. exact (Rlt_not_le _ _ H L'). }
  set (x := B754_finite false ml el Bl : b64) in *. set (d := B754_finite false m e B : b64) in *.
  pose proof (Bmult_correct 53 1024 Hprec64 Hmax64 mode_NE (Bopp x) d) as C. destruct (Rlt_bool _ _) eqn:O.
  - destruct C as (E & F & _). apply Bleb_0; [exact F|]. refine (Rle_trans _ _ _ (Req_le _ _ E) _). apply (rnd_le _ 0 fmt_0). rewrite B2R_Bopp.
    assert (0 <= B2R x * B2R d) by (apply Rmult_le_pos; lra). lra.
  - change (Bleb (Bmult mode_NE (Bopp x) d) (nofZ 0) = true). unfold Bleb. rewrite C. reflexivity.
Qed.

Section Fog.
  Context {G : Type} {NI : NumInf b64} {TF : Trig b64}.
  Variable rand2 : G -> (b64 * b64) * G.
  Variable k : Z.
  Hypothesis K : (0 <= k <= 900)%Z.
  Variable s : scene b64.
  Hypothesis HE : damping TF.

  Lemma fog_lit ms r tMax : Forall (dull_fog k) ms -> forall b, lit k b -> yields (mediaLoop (G := G) rand2 s ms r tMax b) (lit k).
  Proof.
    induction ms as [|m ms IH]; intros H b Hb; cbn [mediaLoop]; [now apply yields_ret|]. inversion H as [|? ? Hm Hr]; subst.
    apply (yields_bind _ (lit k)); [|intros b' Hb'; now apply IH]. destruct m as [density ambient height|]; cbn [dull_fog] in Hm; [|contradiction]. destruct Hm as (Fd & Pd & Ha).
    cbn [mediumFilter]. apply yields_any. intros ini. destruct (negb ini); [now apply yields_ret|]. apply yields_any. intros q. destruct (fogInterval height tMax q) as [st en].
    apply yields_lift. intros c E. unfold expFogBlend in E. set (len := nsub en st) in *. clearbody len. destruct (nleb (nofZ 0) len) eqn:L; cbn [negb] in E; [|discriminate E].
    assert (W : from0 0 (nexp (nmul (nopp len) density))) by (apply HE, faded; assumption). set (w := nexp (nmul (nopp len) density)) in *. clearbody w.
    assert (E' : c = clmadd (clmul b w) (nsub (nofZ 1) w) ambient) by congruence. rewrite E'. destruct (rest_weight w W) as [W1 W2]. now apply lit_mix.
  Qed.
End Fog.

Theorem glow {G} {NI : NumInf b64} {TF : Trig b64} (rand2 : G -> (b64 * b64) * G) (k : Z) (s : scene b64) : (0 <= k <= 900)%Z -> glowing k s -> damping TF ->
  forall fuel w r (c c' : ctx b64 G) col, lightField rand2 fuel s w r c = Val (col, c') -> lit k col.
Proof.
  intros K Hs HE fuel. induction fuel as [|n IH]; intros w r.
  - intros c c' col E. discriminate E.
  - enough (Y : yields (lightField rand2 (S n) s w r) (lit k)) by (intros c c' col E; exact (Y c col c' E)).
    cbn [lightField]. apply yields_any. intros d. destruct (Z.eqb _ _); [apply yields_ret, lit_black, K|]. apply yields_any. intros _. apply yields_any. intros _.
    apply (yields_bind _ (fun h => forall m, hMat h = Some m -> dull k m)).
    + unfold intersectFrontmost. apply yields_any. intros q. apply front_dull; [|intros m E; injection E as <-; exact I].
      destruct Hs as (_ & H1 & H2 & _). destruct w; assumption.
    + intros front Hf. apply (yields_bind _ (lit k)).
      * destruct (hMat front) as [m|] eqn:M; cbn [shadeHit]; [|intros c x c' E; discriminate E].
        apply (shade_lit rand2 k K s Hs _ (fun w r c x c' E => IH w r c c' x E)). now apply Hf.
      * intros b Hb. apply (yields_bind _ (lit k)). { apply fog_lit; [exact K|exact HE| |exact Hb]. apply Hs. } intros b' Hb'. apply yields_any. intros d'. apply yields_any. intros _. now apply yields_ret.
Qed.

(** ** Pixels *)
Lemma rnd_strict x : bpow radix2 (-1000) <= x -> rnd x < x * (1 + bpow radix2 (-53)).
Proof.
  intros H. pose proof (bpow_gt_0 radix2 (-1000)) as P. pose proof (bpow_gt_0 radix2 (-53)) as P'. destruct (generic_format_EM radix2 fexp64 x) as [Fx|Nx].
  { rewrite rnd_id by exact Fx. assert (0 < x * bpow radix2 (-53)) by (apply Rmult_lt_0_compat; lra). lra. }
  pose proof (error_le_half_ulp radix2 fexp64 (fun n => negb (Z.even n)) x) as E. fold (rnd x) in E. apply Rabs_le_inv in E.
  assert (N0 : x <> 0) by lra. rewrite ulp_neq_0 in E by exact N0. unfold cexp in E. rewrite fexp64_FLT in E. unfold FLT_exp in E.
  pose proof (bpow_mag_le radix2 x N0) as H1. pose proof (bpow_mag_gt radix2 x) as H2. rewrite Rabs_pos_eq in H1, H2 by lra. assert (He : bpow radix2 (mag radix2 x - 1) <= x < bpow radix2 (mag radix2 x)) by (split; assumption). clear H1 H2. revert He E. generalize (mag_val radix2 x (mag radix2 x)). intros e He E.
  assert (-1000 < e)%Z by (apply (lt_bpow radix2); lra). rewrite Z.max_l in E by lia.
  assert (S : bpow radix2 (e - 1) < x). { destruct He as [[L|L] _]; [exact L|]. exfalso. apply Nx. rewrite <- L. apply fmt_bpow. lia. }
  replace (e - 53)%Z with ((e - 1) + -52)%Z in E by lia. rewrite bpow_plus in E. replace (bpow radix2 (-52)) with (2 * bpow radix2 (-53)) in E by (change 2 with (bpow radix2 1); rewrite <- bpow_plus; reflexivity).
  assert (bpow radix2 (e - 1) * bpow radix2 (-53) < x * bpow radix2 (-53)) by (apply Rmult_lt_compat_r; lra). lra.
Qed.

Section Pixels.
  Variable k : Z.
  Hypothesis K : (0 <= k <= 900)%Z.

  Definition upto (n : Z) (x : b64) : Prop := is_finite x = true /\ 0 <= B2R x <= IZR n * bpow radix2 k.
  Lemma upto_add n x y : (0 <= n < 2 ^ 53 - 1)%Z -> upto n x -> from0 k y -> upto (n + 1) (nadd x y).
  Proof.
    intros Hn [Fx Bx] [Fy By]. assert (F53 : IZR (n + 1) <= bpow radix2 53) by (apply (IZR_le _ (2 ^ 53)); lia). pose proof (top_pos k K) as T.
    assert (S : 0 <= B2R x + B2R y <= IZR (n + 1) * bpow radix2 k) by (rewrite plus_IZR; lra).
    assert (L : IZR (n + 1) * bpow radix2 k <= bpow radix2 (53 + k)) by (rewrite bpow_plus; apply Rmult_le_compat_r; lra).
    destruct (badd_correct x y Fx Fy) as [F E]; [apply Rle_trans with (bpow radix2 (53 + k)); [rewrite Rabs_pos_eq by lra; lra|apply bpow_big; lia]|].
    split; [exact F|]. rewrite E. split; [apply rnd_nonneg; lra|]. apply rnd_le; [apply fmt_F2R; lia|lra].
  Qed.
  Lemma not_nan x : from0 k x -> neqb x x = true.
  Proof. intros [F _]. destruct x as [| | |[|] m e B]; try discriminate F; [now destruct s| |]; cbn; unfold Beqb, SpecFloat.SFeqb; cbn; now rewrite Z.compare_refl, Pos.compare_cont_refl. Qed.
  Lemma lit_not_nan c : lit k c -> clisnan c = false.
  Proof. intros (A & B & C). unfold clisnan. now rewrite !not_nan by assumption. Qed.

  Definition sums (a : acc b64) : Prop := upto (aN a) (cR (aSum a)) /\ upto (aN a) (cG (aSum a)) /\ upto (aN a) (cB (aSum a)).
  Lemma sums_gain n : forall a b, gains (fun _ c => lit k c) n a b -> (0 <= aN a)%Z -> (aN a + Z.of_nat n < 2 ^ 53)%Z -> sums a -> sums b /\ aN b = (aN a + Z.of_nat n)%Z.
  Proof.
    induction n as [|n IH]; intros a b H P L (S1 & S2 & S3); inversion H as [a0|n0 a0 c0 b0 Hc Hg]; subst.
    - split; [exact (conj S1 (conj S2 S3))|lia].
    - destruct (IH _ _ Hg) as [Q E]; [cbn [aN add_sample]; lia|cbn [aN add_sample]; lia| |split; [exact Q|rewrite E; cbn [aN add_sample]; lia]].
      unfold sums, add_sample. rewrite (lit_not_nan c0 Hc). cbn [aN aSum cR cG cB]. destruct Hc as (A & B & C).
      split; [|split]; apply upto_add; try assumption; lia.
  Qed.

  Lemma mean_from0 n x : (0 < n < 2 ^ 53)%Z -> upto n x -> from0 k (nmul (ndiv (nofZ 1) (nofZ n)) x).
  Proof.
    intros Hn [Fx Bx]. destruct (Z_b 1 ltac:(lia)) as [F1 E1]. destruct (Z_b n ltac:(lia)) as [Fn En]. pose proof (top_pos k K) as T.
    assert (N1 : 1 <= IZR n) by (apply (IZR_le 1); lia). assert (F53 : IZR n <= bpow radix2 53) by (apply (IZR_le _ (2 ^ 53)); lia).
    assert (I1 : 0 < / IZR n <= 1) by (split; [apply Rinv_0_lt_compat; lra|rewrite <- Rinv_1; apply Rinv_le; lra]).
    assert (I2 : bpow radix2 (-1000) <= / IZR n). { apply Rle_trans with (bpow radix2 (-53)); [apply bpow_le; lia|]. change (-53)%Z with (- (53))%Z. rewrite bpow_opp. apply Rinv_le; lra. }
    destruct (bdiv_correct (nofZ 1) (nofZ n) F1) as [Fd Ed]; [rewrite En; lra|rewrite E1, En; apply Rle_trans with (bpow radix2 0); [change (bpow radix2 0) with 1; unfold Rdiv; rewrite Rmult_1_l, Rabs_pos_eq by lra; lra|apply bpow_big; lia]|].
    rewrite E1, En in Ed. unfold Rdiv in Ed. rewrite Rmult_1_l in Ed.
    assert (D := rnd_strict (/ IZR n) I2). assert (D0 : 0 <= rnd (/ IZR n)) by (apply rnd_nonneg; lra).
    set (q := ndiv (nofZ 1 : b64) (nofZ n)) in *. clearbody q. rewrite <- Ed in D, D0.
    assert (P : 0 <= B2R q * B2R x < bpow radix2 k * (1 + bpow radix2 (-53))).
    { split; [apply Rmult_le_pos; lra|]. apply Rle_lt_trans with (B2R q * (IZR n * bpow radix2 k)); [apply Rmult_le_compat_l; lra|].
      apply Rlt_le_trans with (/ IZR n * (1 + bpow radix2 (-53)) * (IZR n * bpow radix2 k)).
      - apply Rmult_lt_compat_r; [apply Rmult_lt_0_compat; lra|exact D].
      - right. field. lra. }
    assert (B53 : bpow radix2 (-53) <= 1) by (apply (bpow_le radix2 (-53) 0); lia).
    assert (Q : bpow radix2 k * (1 + bpow radix2 (-53)) <= bpow radix2 k * 2) by (apply Rmult_le_compat_l; lra).
    destruct (bmul_correct q x Fd Fx) as [F E]; [apply (top_big k K); rewrite Rabs_pos_eq by lra; lra|].
    split; [exact F|]. rewrite E. split; [apply rnd_nonneg; lra|]. apply rnd_top; [lia|lra].
  Qed.

  Lemma image_lit (m : mem b64) p n : (0 < Z.of_nat n < 2 ^ 53)%Z -> gains (fun _ c => lit k c) n (acc_at newMem p) (acc_at m p) -> lit k (imagef m p) /\ mN m p = Z.of_nat n.
  Proof.
    intros Hn H. destruct (Z_b 0 ltac:(lia)) as [F0 E0].
    assert (U0 : upto 0 (nofZ 0)) by (split; [exact F0|rewrite E0; lra]).
    destruct (sums_gain n _ _ H) as [(S1 & S2 & S3) E]; [cbn [acc_at newMem aN mN]; lia|cbn [acc_at newMem aN mN]; lia|exact (conj U0 (conj U0 U0))|].
    cbn [acc_at newMem aN mN aSum cR cG cB] in *. unfold imagef. rewrite E in *. cbn [Z.add] in *.
    split; [|reflexivity]. unfold lit, clmul. cbn [cR cG cB]. split; [|split]; apply mean_from0; assumption.
  Qed.
End Pixels.

Theorem glowing_images {G} {NI : NumInf b64} {TF : Trig b64} (rand2 : G -> (b64 * b64) * G) (k : Z) (s : scene b64) fuel cam aa shifts w h ns m : (0 <= k <= 900)%Z -> glowing k s -> damping TF ->
  (0 <= w <= 2 ^ 53)%Z -> (0 <= h <= 2 ^ 53)%Z -> Z.of_nat (length shifts) = (w * h)%Z ->
  Forall (fun n => 0 <= n)%Z ns -> (0 < total ns < 2 ^ 53)%Z -> renderCalls rand2 fuel s cam aa shifts w h ns newMem m ->
  forall p, in_image w h p -> lit k (imagef m p) /\ mN m p = total ns.
Proof.
  intros K Hs HE Hw Hh Hl Hn Ht H p Hp.
  pose proof (renders_result rand2 fuel s cam aa shifts w h (proj1 Hw) (proj1 Hh) (fun p k => sample_pos_b64 aa shifts w h p k (proj2 Hw) (proj2 Hh) Hl) (fun _ _ c => lit k c)) as X.
  specialize (fun HH => X HH ns newMem m Hn H p). rewrite (in_image_b w h p Hp) in X. rewrite <- (Z2Nat.id (total ns)) by lia. apply image_lit; [exact K|lia|]. apply X.
  intros p0 j q x y c _ _ _. unfold sceneFunc. destruct (imageFuncOf rand2 fuel s cam x y (withSeq c q)) as [[col c']| |] eqn:E; [|apply lit_black, K|apply lit_black, K]. cbn [fst].
  enough (Y : yields (imageFuncOf rand2 fuel s cam x y) (lit k)) by exact (Y _ _ _ E).
  unfold imageFuncOf. apply yields_any. intros r. apply (yields_bind _ (lit k)).
  - intros c1 c2 col1 E1. exact (glow rand2 k s K Hs HE fuel All r _ _ _ E1).
  - intros b Hb. apply yields_any. intros _. now apply yields_ret.
Qed.

(** ** A room *)
Lemma quadric_shows {M} (d : quadricData b64 M) q h q' : oIntersect (quadric d) q = Val (h, q') -> hMat h = qMat d \/ hMat h = None.
Proof.
  unfold quadric, simpleObj. cbn [oIntersect omap]. intros H. apply (f_equal (fun o => match o with Val x => hMat (fst x) | _ => None end)) in H. cbn [fst] in H. rewrite <- H. clear H.
  unfold quadricIntersect. destruct (quadricABC d q) as [[A B] C]. destruct (_ <? _)%num; [now right|].
  destruct (if (_ <? _)%num then _ else _) as [t1 t2].
  destruct (_ && _)%bool; [now left|]. destruct (_ && _)%bool; [now left|now right].
Qed.
Lemma quadric_dull k (d : quadricData b64 (material b64)) : (forall m, qMat d = Some m -> dull k m) -> dull_object k (quadric d).
Proof. intros D q h q' m H Hm. destruct (quadric_shows _ _ _ _ H) as [E|E]; rewrite E in Hm; [now apply D|discriminate]. Qed.
Lemma backdrop_dull k m : dull k m -> dull_object k (backdrop (Some m)).
Proof.
  intros D q h q' m' H Hm. apply (f_equal (fun o => match o with Val x => hMat (fst x) | _ => None end)) in H. cbn [backdrop simpleObj oIntersect omap fst hMat] in H.
  rewrite <- H in Hm. enough (m' = m) as -> by exact D. congruence.
Qed.

Lemma from0_1 k : (0 <= k)%Z -> from0 k (nofZ 1).
Proof. intros K. destruct (Z_b 1 ltac:(lia)) as [F E]. split; [exact F|]. rewrite E. pose proof (bpow_le radix2 0 k K) as B. change (bpow radix2 0) with 1 in B. lra. Qed.
Lemma from0_half : from0 0 (ndiv (nofZ 1) (nofZ 2)) /\ B2R (ndiv (nofZ 1) (nofZ 2) : b64) = / 2.
Proof.
  destruct (Z_b 1 ltac:(lia)) as [F1 E1]. destruct (Z_b 2 ltac:(lia)) as [F2 E2].
  assert (R : rnd (/ 2) = / 2). { change (/ 2) with (bpow radix2 (-1)). apply rnd_id, fmt_bpow. lia. }
  assert (E : is_finite (ndiv (nofZ 1) (nofZ 2) : b64) = true /\ B2R (ndiv (nofZ 1) (nofZ 2) : b64) = / 2).
  { destruct (bdiv_correct (nofZ 1) (nofZ 2)) as [A B].
    - exact F1.
    - rewrite E2. lra.
    - rewrite E1, E2. replace (1 / 2) with (/ 2) by lra. rewrite Rabs_pos_eq by lra. apply Rle_trans with (bpow radix2 0); [change (bpow radix2 0) with 1; lra|now apply bpow_big].
    - split; [exact A|]. rewrite B, E1, E2. replace (1 / 2) with (/ 2) by lra. exact R. }
  destruct E as [F E]. split; [split; [exact F|]|exact E]. rewrite E. change (bpow radix2 0) with 1. lra.
Qed.

(** a half mirror, half matte ball and a white sky in a mist *)
Definition half {F} `{Num F} : F := ndiv (nofZ 1) (nofZ 2).
Definition white1 {F} `{Num F} : color F := Color (nofZ 1) (nofZ 1) (nofZ 1).
Definition mistyRoom {NI : NumInf b64} : scene b64 := newScene 8 [MedExpFog (nofZ 1) white1 (nofZ 5)] nil
  [sphere (Some (MBlend half (MReflective white1) half (MMatte (fun _ => Val (Color half half half))))) (nofZ 2) vO;
   backdrop (Some (MFlat (fun _ => Val white1)))].
Lemma mistyRoom_glows {NI : NumInf b64} : glowing 0 mistyRoom.
Proof.
  destruct from0_half as [H0 Hh]. fold (half (F := b64)) in H0, Hh. pose proof (from0_1 0 ltac:(lia)) as O.
  assert (W : lit 0 white1) by exact (conj O (conj O O)).
  assert (D1 : dull_object 0 (sphere (Some (MBlend half (MReflective white1) half (MMatte (fun _ => Val (Color half half half))))) (nofZ 2) vO)).
  { apply quadric_dull. cbn [qMat sphereData]. intros m E. enough (m = MBlend half (MReflective white1) half (MMatte (fun _ => Val (Color half half half)))) as -> by
      (cbn [dull]; refine (conj H0 (conj H0 (conj _ (conj W _)))); [rewrite Hh; lra|]; intros p c E'; enough (c = Color half half half) as -> by exact (conj H0 (conj H0 H0)); congruence).
    congruence. }
  assert (D2 : dull_object 0 (backdrop (Some (MFlat (fun _ => Val white1))))).
  { apply backdrop_dull. cbn [dull]. intros p c E. enough (c = white1) as -> by exact W. congruence. }
  unfold glowing, mistyRoom, newScene. cbn [sLights sObjectsAndLights sObjectsMinusLights sMedia map app].
  assert (L : Forall (dull_object 0) [sphere (Some (MBlend half (MReflective white1) half (MMatte (fun _ => Val (Color half half half))))) (nofZ 2) vO; backdrop (Some (MFlat (fun _ => Val white1)))])
    by exact (Forall_cons _ D1 (Forall_cons _ D2 (Forall_nil _))).
  refine (conj eq_refl (conj L (conj L _))). refine (Forall_cons _ _ (Forall_nil _)). cbn [dull_fog].
  destruct (Z_b 1 ltac:(lia)) as [F1 E1]. refine (conj F1 (conj _ W)). rewrite E1. lra.
Qed.
Lemma mistyRoom_range {G} {NI : NumInf b64} {TF : Trig b64} (rand2 : G -> (b64 * b64) * G) fuel w r (c c' : ctx b64 G) col : damping TF ->
  lightField rand2 fuel mistyRoom w r c = Val (col, c') -> is_finite (cR col) = true /\ 0 <= B2R (cR col) <= 1.
Proof.
  intros HE H. pose proof (glow rand2 0 mistyRoom ltac:(lia) mistyRoom_glows HE fuel w r c c' col H) as L. destruct L as [[A B] _]. revert A B. generalize (cR col). clear.
  intros x A B. change (bpow radix2 0) with 1 in B. now split.
Qed.
