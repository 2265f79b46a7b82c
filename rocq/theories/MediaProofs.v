(** * Fog (C54-C56) *)
From Coq Require Import ZArith Reals Bool List Lra Lia Psatz.
From Flocq Require Import Core.
From Flocq Require IEEE754.BinarySingleNaN.
Import IEEE754.BinarySingleNaN.
From Verif Require Import Num NumLaws Outcome B64 GeomModel GeomSpec ColorModel SeqModel ObjModel TreeModel ObjSpec SceneModel SceneSpec SceneProofs ShadeProofs.
Import ListNotations.
Local Open Scope R_scope.

(** ** Double precision: the fogged length is never negative or NaN *)
Lemma bsign_R (x : b64) : is_finite x = true -> (Bsign x = true -> B2R x <= 0) /\ (Bsign x = false -> 0 <= B2R x).
Proof.
  destruct x as [s|s| |s m e p]; try discriminate; intros _; split; cbn [Bsign]; intros H; try subst s; cbn [B2R]; try lra.
  - left. apply F2R_lt_0. reflexivity.
  - left. apply F2R_gt_0. reflexivity.
Qed.

Lemma bsub_nonneg (x y : b64) : nltb x y = true -> nleb (nofZ 0) (nsub y x) = true.
Proof.
  intros H. cbn [nsub nleb NumB nofZ]. change (b64_of_Z 0) with (B754_zero false : b64).
  destruct (is_finite x) eqn:Fx, (is_finite y) eqn:Fy.
  - apply bltb_R in H; auto.
    generalize (Bminus_correct 53 1024 Hprec64 Hmax64 mode_NE y x Fy Fx).
    destruct (Rlt_bool_spec (Rabs (round radix2 fexp64 (round_mode mode_NE) (B2R y - B2R x))) (bpow radix2 1024)) as [L|L].
    + intros (A & B & _).
      assert (X : nleb (F:=b64) (B754_zero false) (Bminus mode_NE y x) = true); [|exact X].
      apply bleb_R; [reflexivity|exact B|]. rewrite A. cbn [B2R].
      change (round radix2 fexp64 (round_mode mode_NE) (B2R y - B2R x)) with (rnd (B2R y - B2R x)). apply rnd_nonneg. lra.
    + intros (A & B).
      assert (Sy : Bsign y = false).
      { destruct (Bsign y) eqn:Sy; [|reflexivity]. exfalso. symmetry in B. apply negb_true_iff in B.
        destruct (bsign_R y Fy) as [Y _]. destruct (bsign_R x Fx) as [_ X]. specialize (Y Sy). specialize (X B). lra. }
      rewrite Sy in A. destruct (Bminus mode_NE y x) as [s|s| |s m e p]; try discriminate A.
      cbn in A. injection A as ->. reflexivity.
  - destruct y as [sy|[]| |sy my ey py]; try discriminate Fy; destruct x as [sx|sx| |sx mx ex px]; try discriminate Fx; try discriminate H; reflexivity.
  - destruct x as [sx|[]| |sx mx ex px]; try discriminate Fx; destruct y as [sy|sy| |sy my ey py]; try discriminate Fy; try discriminate H; reflexivity.
  - destruct x as [sx|[]| |sx mx ex px]; try discriminate Fx; destruct y as [sy|[]| |sy my ey py]; try discriminate Fy; try discriminate H; reflexivity.
Qed.

Lemma fog_assertion (height tMax : b64) (q : ray b64) :
  nleb (nofZ 0) (nsub (snd (fogInterval height tMax q)) (fst (fogInterval height tMax q))) = true.
Proof.
  unfold fogInterval. destruct (intersectHalfSpace height q) as [a b]. unfold intersectIntervals.
  destruct (umin tMax b >? umax #0 a)%num eqn:E; cbn [negb fst snd].
  - now apply bsub_nonneg.
  - vm_compute. reflexivity.
Qed.

Lemma expfog_never_panics (TF : Trig b64) {G} (rand2 : G -> (b64 * b64) * G) s density ambient height r tMax orig (c : ctx b64 G) q :
  cDepth c <> 0%Z -> nth_error (cHeap c) r = Some q ->
  exists b, mediumFilter rand2 s (MedExpFog density ambient height) r tMax orig c = Val (b, c).
Proof.
  intros Hd Hq. cbn [mediumFilter]. unfold mbind at 1, isInitial.
  apply Z.eqb_neq in Hd. rewrite Hd. cbn [obind].
  destruct (cDepth c =? 1)%Z; cbn [negb]; [|now exists orig].
  unfold mbind, readRay. rewrite Hq. cbn [obind].
  generalize (fog_assertion height tMax q). destruct (fogInterval height tMax q) as [a b]. cbn [fst snd]. intros H.
  unfold mlift, expFogBlend. rewrite H. cbn [negb omap]. eexists. reflexivity.
Qed.

(** ** Exact arithmetic: a blend *)
Lemma expfog_blend {G} (NI : NumInf R) (rand2 : G -> (R * R) * G) s density ambient height r tMax orig (c c' : ctx R G) b :
  0 <= density -> mediumFilter rand2 s (MedExpFog density ambient height) r tMax orig c = Val (b, c') ->
  c' = c /\ exists k, 0 <= k <= 1 /\
    cR b = k * cR orig + (1 - k) * cR ambient /\ cG b = k * cG orig + (1 - k) * cG ambient /\ cB b = k * cB orig + (1 - k) * cB ambient /\
    (cDepth c <> 1%Z -> k = 1) /\
    (forall q, cDepth c = 1%Z -> nth_error (cHeap c) r = Some q ->
       k = exp (- ((snd (fogInterval height tMax q) - fst (fogInterval height tMax q)) * density))).
Proof.
  intros Hden. cbn [mediumFilter]. unfold mbind at 1, isInitial.
  destruct (Z.eqb_spec (cDepth c) 0) as [E0|E0]; cbn [obind]; [discriminate|].
  destruct (Z.eqb_spec (cDepth c) 1) as [E1|E1]; cbn [negb].
  - unfold mbind, readRay. destruct (nth_error (cHeap c) r) as [q|] eqn:Hq; cbn [obind]; [|discriminate].
    generalize (fogInterval_le height tMax q).
    destruct (fogInterval height tMax q) as [a e] eqn:Ef. cbn [fst snd]. intros Hle.
    unfold mlift, expFogBlend; rnum. destruct (Rleb_spec 0 (e - a)) as [L|L]; cbn [negb omap]; [|discriminate].
    intros H. injection H as <- <-. split; [reflexivity|].
    exists (exp (- ((e - a) * density))). split; [replace (- ((e - a) * density)) with (- (e - a) * density) by ring; now apply exp_frac|].
    replace (- (e - a) * density) with (- ((e - a) * density)) by ring.
    cbn. rnum. split; [ring|]. split; [ring|]. split; [ring|]. split; [congruence|].
    intros q' _ Hq'. injection Hq' as <-. rewrite Ef. reflexivity.
  - unfold mret. intros H. injection H as <- <-. split; [reflexivity|]. exists 1.
    split; [lra|]. split; [ring|]. split; [ring|]. split; [ring|]. split; [auto|]. congruence.
Qed.

(** ** Extended reals: the interval below the ceiling *)
Definition xbetween (a b : xr) (t : R) : Prop := xltb a (XF t) = true /\ xltb (XF t) b = true.

Lemma xinf_neg (y : R) : y < 0 -> over0 (XF (- y)) = XP.
Proof.
  intros H. unfold over0. cbn [nltb NumX xltb nofZ]. rewrite (proj2 (Rltb_true 0 (- y))) by lra. reflexivity.
Qed.
Lemma xinf_pos (y : R) : 0 < y -> over0 (XF (- y)) = XN.
Proof.
  intros H. unfold over0. cbn [nltb NumX xltb nofZ]. rewrite (proj2 (Rltb_false 0 (- y))), (proj2 (Rltb_true (- y) 0)) by lra. reflexivity.
Qed.
(** the quotient in double precision *)
Lemma over0_div (x : b64) : over0 x = ndiv x (nofZ 0).
Proof.
  unfold over0. destruct x as [[]|[]| |[] m e p]; try reflexivity.
Qed.

Lemma halfSpace_neg height (q : ray R) : vy (rDir q) < 0 ->
  intersectHalfSpace (XF height) (xray (rStart q) (rDir q)) = (XF ((height - vy (rStart q)) / vy (rDir q)), XP).
Proof.
  intros H. unfold intersectHalfSpace. cbn [rStart rDir xray xv vy].
  cbn [nopp NumX xopp ndiv]. rewrite xinf_neg by exact H.
  cbn [nsub NumX xsub xadd xopp xdiv]. destruct (Req_EM_T (vy (rDir q)) 0); [lra|]. cbn [nltb NumX xltb].
  f_equal. f_equal. field. lra.
Qed.
Lemma halfSpace_pos height (q : ray R) : 0 < vy (rDir q) ->
  intersectHalfSpace (XF height) (xray (rStart q) (rDir q)) = (XN, XF ((height - vy (rStart q)) / vy (rDir q))).
Proof.
  intros H. unfold intersectHalfSpace. cbn [rStart rDir xray xv vy].
  cbn [nopp NumX xopp ndiv]. rewrite xinf_pos by exact H.
  cbn [nsub NumX xsub xadd xopp xdiv]. destruct (Req_EM_T (vy (rDir q)) 0); [lra|]. cbn [nltb NumX xltb].
  f_equal. f_equal. field. lra.
Qed.

Lemma intersectIntervals_spec (e : xr) (a b : xr) (t : R) : xnan e = false -> xnan a = false -> xnan b = false ->
  let '(x, y) := intersectIntervals (F:=xr) (XF 0) e a b in
  xbetween x y t <-> (0 < t /\ xltb (XF t) e = true /\ xbetween a b t).
Proof.
  intros He Ha Hb. unfold intersectIntervals, umax, umin. cbn [nltb NumX].
  destruct (xltb a (XF 0)) eqn:A; destruct (xltb e b) eqn:B;
  match goal with |- context [negb (xltb ?u ?v)] => destruct (xltb u v) eqn:C; cbn [negb] end; unfold xbetween;
  change (nofZ 0 : xr) with (XF 0).
  all: split; [intros [P Q]|intros (P & Q & R1 & R2)].
  all: destruct e as [e| | |], a as [a| | |], b as [b| | |]; cbn in *; try discriminate; rewrite ?Rltb_true, ?Rltb_false in *;
       repeat split; auto; try lra; try discriminate.
Qed.

Lemma fog_interval_geometric height (q : ray R) (tMax : xr) (t : R) : vy (rDir q) <> 0 -> xnan tMax = false ->
  let '(x, y) := fogInterval (XF height) tMax (xray (rStart q) (rDir q)) in
  xbetween x y t <-> (0 < t /\ xltb (XF t) tMax = true /\ vy (along (rStart q) (rDir q) t) < height).
Proof.
  intros Hy Hn. unfold fogInterval.
  assert (B : 0 < vy (rDir q) \/ vy (rDir q) < 0) by lra. destruct B as [B|B].
  - rewrite (halfSpace_pos height q B). change (nofZ 0 : xr) with (XF 0).
    generalize (intersectIntervals_spec tMax XN (XF ((height - vy (rStart q)) / vy (rDir q))) t Hn eq_refl eq_refl).
    destruct (intersectIntervals _ _ _ _) as [x y]. intros ->.
    unfold xbetween. cbn [xltb]. rewrite Rltb_true. unfold along, plus3, scal3; cbn [vy].
    assert (X : t < (height - vy (rStart q)) / vy (rDir q) <-> vy (rStart q) + t * vy (rDir q) < height).
    { split; intros H.
      - apply (Rmult_lt_compat_r (vy (rDir q))) in H; [|exact B]. unfold Rdiv in H. rewrite Rmult_assoc, Rinv_l, Rmult_1_r in H by lra. lra.
      - apply (Rmult_lt_reg_r (vy (rDir q))); [exact B|]. unfold Rdiv. rewrite Rmult_assoc, Rinv_l, Rmult_1_r by lra. lra. }
    rewrite X. tauto.
  - rewrite (halfSpace_neg height q B). change (nofZ 0 : xr) with (XF 0).
    generalize (intersectIntervals_spec tMax (XF ((height - vy (rStart q)) / vy (rDir q))) XP t Hn eq_refl eq_refl).
    destruct (intersectIntervals _ _ _ _) as [x y]. intros ->.
    unfold xbetween. cbn [xltb]. rewrite Rltb_true. unfold along, plus3, scal3; cbn [vy].
    assert (X : (height - vy (rStart q)) / vy (rDir q) < t <-> vy (rStart q) + t * vy (rDir q) < height).
    { assert (E : (height - vy (rStart q)) / vy (rDir q) = (vy (rStart q) - height) / (- vy (rDir q))) by (field; lra). rewrite E.
      split; intros H.
      - apply (Rmult_lt_compat_r (- vy (rDir q))) in H; [|lra]. unfold Rdiv in H. rewrite Rmult_assoc, Rinv_l, Rmult_1_r in H by lra. lra.
      - apply (Rmult_lt_reg_r (- vy (rDir q))); [lra|]. unfold Rdiv. rewrite Rmult_assoc, Rinv_l, Rmult_1_r by lra. lra. }
    rewrite X. tauto.
Qed.

(** the start is finite and the end is not before it *)
Lemma fog_interval_ends height (q : ray R) (tMax : xr) : vy (rDir q) <> 0 -> xnan tMax = false ->
  exists a, fst (fogInterval (XF height) tMax (xray (rStart q) (rDir q))) = XF a /\ 0 <= a /\
    (snd (fogInterval (XF height) tMax (xray (rStart q) (rDir q))) = XP \/
     exists b, snd (fogInterval (XF height) tMax (xray (rStart q) (rDir q))) = XF b /\ a <= b).
Proof.
  intros Hy Hn. unfold fogInterval.
  assert (B : 0 < vy (rDir q) \/ vy (rDir q) < 0) by lra. destruct B as [B|B].
  - rewrite (halfSpace_pos height q B). set (k := (_ / _)). clearbody k.
    unfold intersectIntervals, umax, umin. cbn [nltb NumX]. change (nofZ 0 : xr) with (XF 0). cbn [xltb].
    destruct tMax as [T| | |]; try discriminate; cbn [xltb]; rcase; cbn [negb fst snd xltb]; rcase; cbn [negb fst snd xltb];
    exists 0; (split; [reflexivity|split; [lra|]]); auto; right; eexists; (split; [reflexivity|lra]).
  - rewrite (halfSpace_neg height q B). set (k := (_ / _)). clearbody k.
    unfold intersectIntervals, umax, umin. cbn [nltb NumX]. change (nofZ 0 : xr) with (XF 0). cbn [xltb].
    destruct tMax as [T| | |]; try discriminate; cbn [xltb]; rcase; cbn [negb fst snd xltb]; rcase; cbn [negb fst snd xltb];
    eexists; (split; [reflexivity|split; [lra|]]); auto; right; eexists; (split; [reflexivity|lra]).
Qed.

(** a horizontal ray is never fogged *)
Lemma fog_horizontal height (q : ray R) (tMax : xr) : vy (rDir q) = 0 ->
  fogInterval (XF height) tMax (xray (rStart q) (rDir q)) = (XF 0, XF 0).
Proof.
  intros H. unfold fogInterval, intersectHalfSpace. cbn [rStart rDir xray xv vy]. rewrite H.
  cbn [nopp NumX xopp ndiv].
  replace (over0 (XF (- 0))) with XNaN.
  2: { unfold over0. cbn [nltb NumX xltb nofZ]. rewrite (proj2 (Rltb_false 0 (- 0))), (proj2 (Rltb_false (- 0) 0)) by lra. cbn. destruct (Req_EM_T 0 0) as [_|N]; [|lra]. unfold Rsgn. rewrite Rcompare_Eq by lra. reflexivity. }
  cbn [nltb NumX xltb]. unfold intersectIntervals, umax, umin. cbn [nltb NumX].
  rewrite xltb_nan_r. rewrite xltb_nan_r. reflexivity.
Qed.

(** ** Scattering positions *)
Lemma exp_neg_lt1 x : 0 < x -> exp (- x) < 1.
Proof. intros H. rewrite <- exp_0. apply exp_increasing. lra. Qed.

Lemma scatter_spec u density mx : 0 <= u < 1 -> 0 < density -> 0 < mx ->
  let '(t, weight) := randExpInterval (F:=R) u density mx in
  0 <= t < mx /\ (1 - exp (- density * t)) / (1 - exp (- density * mx)) = u /\ weight = 1 - exp (- density * mx).
Proof.
  intros Hu Hd Hm. unfold randExpInterval; rnum.
  set (A := 1 - exp (- density * mx)).
  assert (HA : 0 < A < 1).
  { unfold A. replace (- density * mx) with (- (density * mx)) by ring.
    generalize (exp_neg_lt1 (density * mx)) (exp_pos (- (density * mx))). intros X Y. specialize (X ltac:(nra)). lra. }
  replace (1 - u / (1 / A)) with (1 - u * A) by (field; lra).
  assert (Hp : 0 < 1 - u * A) by nra.
  assert (Et : exp (- density * (-1 / density * ln (1 - u * A))) = 1 - u * A).
  { replace (- density * (-1 / density * ln (1 - u * A))) with (ln (1 - u * A)) by (field; lra). now apply exp_ln. }
  split; [|split].
  - assert (L0 : ln (1 - u * A) <= 0).
    { rewrite <- ln_1. destruct (Req_dec (u * A) 0) as [Z|Z]; [rewrite Z, Rminus_0_r; lra|]. left. apply ln_increasing; nra. }
    assert (L1 : - density * mx < ln (1 - u * A)).
    { rewrite <- (ln_exp (- density * mx)). apply ln_increasing; [apply exp_pos|]. unfold A in *. nra. }
    replace (-1 / density * ln (1 - u * A)) with (- ln (1 - u * A) / density) by (field; lra).
    split.
    + apply Rmult_le_pos; [lra|left; now apply Rinv_0_lt_compat].
    + apply (Rmult_lt_reg_r density); [exact Hd|]. unfold Rdiv. rewrite Rmult_assoc, Rinv_l, Rmult_1_r by lra. lra.
  - rewrite Et. fold A. field. lra.
  - field. lra.
Qed.
