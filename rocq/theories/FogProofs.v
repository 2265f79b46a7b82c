(** * What fog does to the light along a ray *)
From Coq Require Import ZArith Reals Bool List Lra Lia Psatz.
From Verif Require Import Num NumLaws Outcome GeomModel GeomSpec GeomProofs ColorModel SeqModel SeqProofs ObjModel TreeModel ObjSpec ObjProofs ParamProofs SceneModel SceneSpec SceneProofs CtxProofs ShadeProofs LightProofs LookSpec LookProofs MediaProofs FogSpec.
Import ListNotations.
Local Open Scope R_scope.

Lemma interval_below {NI : NumInf R} height tMax (q : ray R) : 0 < tMax <= ninf ->
  let '(a, b) := fogInterval height tMax q in below height q tMax a b.
Proof.
  intros HT. unfold fogInterval, intersectHalfSpace, over0; rnum.
  destruct q as [[sx sy sz] [dx dy dz]]. cbn [rStart rDir vx vy vz]. 
  unfold below. cbn [rStart rDir along plus3 scal3 vx vy vz].
  destruct (Rtotal_order dy 0) as [D|[D|D]].
  - (* down *)
    rewrite (proj2 (Rltb_true 0 (- dy))) by lra.
    assert (E : forall t, - (sy - height) / dy < t <-> sy + t * dy < height).
    { intros t. set (k := - (sy - height) / dy). assert (K : k * dy = height - sy) by (unfold k; field; lra). split; intros; nra. }
    set (k := - (sy - height) / dy) in *. clearbody k.
    destruct (Rltb_spec ninf k) as [L|L]; unfold intersectIntervals, umax, umin; rnum;
    repeat match goal with |- context [Rltb ?a ?b] => destruct (Rltb_spec a b) end; cbn [negb];
    (split; [lra|split; [lra|split; [intros; lra|intros _ t; rewrite <- E; lra]]]).
  - subst dy. rewrite (proj2 (Rltb_false 0 (- 0))), (proj2 (Rltb_false (- 0) 0)) by lra.
    assert (Z1 : - (sy - height) / 0 = 0) by (unfold Rdiv; rewrite Rinv_0; ring). assert (Z2 : - 0 / 0 = 0) by (unfold Rdiv; rewrite Rinv_0; ring).
    rewrite Z1, Z2, (proj2 (Rltb_false 0 0)) by lra. unfold intersectIntervals, umax, umin; rnum.
    repeat match goal with |- context [Rltb ?a ?b] => destruct (Rltb_spec a b) end; cbn [negb];
    (split; [lra|split; [lra|split; [intros; lra|intros N; lra]]]).
  - rewrite (proj2 (Rltb_false 0 (- dy))), (proj2 (Rltb_true (- dy) 0)) by lra.
    assert (E : forall t, t < - (sy - height) / dy <-> sy + t * dy < height).
    { intros t. set (k := - (sy - height) / dy). assert (K : k * dy = height - sy) by (unfold k; field; lra). split; intros; nra. }
    set (k := - (sy - height) / dy) in *. clearbody k.
    destruct (Rltb_spec (- ninf) k) as [L|L]; unfold intersectIntervals, umax, umin; rnum;
    repeat match goal with |- context [Rltb ?a ?b] => destruct (Rltb_spec a b) end; cbn [negb];
    (split; [lra|split; [lra|split; [intros; lra|intros _ t; rewrite <- E; lra]]]).
Qed.

Lemma clear_le1 density len : 0 <= density -> 0 <= len -> 0 < clear density len <= 1.
Proof.
  intros A B. unfold clear. split; [apply exp_pos|]. rewrite <- exp_0. destruct (Req_dec (density * len) 0) as [->|N]; [rewrite Ropp_0; lra|].
  left. apply exp_increasing. nra.
Qed.

Lemma ln_mono x y : 0 < x -> x <= y -> ln x <= ln y.
Proof. intros A [B|B]; [left; now apply ln_increasing|subst; lra]. Qed.

(** the sampled position is the quantile, [u = 1] and empty fog included *)
Lemma scatter_at u density len : 0 <= u <= 1 -> 0 < density -> 0 <= len ->
  let '(t, weight) := randExpInterval (F := R) u density len in
  0 <= t <= len /\ 1 - clear density t = u * (1 - clear density len) /\ weight = 1 - clear density len.
Proof.
  intros Hu Hd Hl. unfold randExpInterval; rnum. replace (- density * len) with (- (density * len)) by ring. fold (clear density len).
  pose proof (clear_le1 density len ltac:(lra) Hl) as HC. set (C := clear density len) in *.
  assert (EC : C = exp (- (density * len))) by reflexivity. clearbody C.
  assert (W : 1 / (1 / (1 - C)) = 1 - C).
  { destruct (Req_dec C 1) as [->|N]; [unfold Rdiv; rewrite !Rmult_1_l, Rminus_diag_eq, !Rinv_0 by reflexivity; reflexivity|field; lra]. }
  assert (Q : u / (1 / (1 - C)) = u * (1 - C)).
  { destruct (Req_dec C 1) as [->|N]; [unfold Rdiv; rewrite !Rmult_1_l, Rminus_diag_eq, !Rinv_0 by reflexivity; ring|field; lra]. }
  rewrite W, Q. set (y := 1 - u * (1 - C)). assert (Y : C <= y <= 1) by (unfold y; nra).
  assert (E : density * (-1 / density * ln y) = - ln y) by (field; lra).
  assert (X : clear density (-1 / density * ln y) = y) by (unfold clear; rewrite E, Ropp_involutive; apply exp_ln; lra).
  split; [|split; [rewrite X; unfold y; ring|reflexivity]].
  assert (LC : ln C = - (density * len)) by (rewrite EC; apply ln_exp).
  assert (L1 : ln y <= 0) by (rewrite <- ln_1; apply ln_mono; lra).
  assert (L2 : ln C <= ln y) by (apply ln_mono; lra).
  set (t := -1 / density * ln y) in *. clearbody t. split; nra.
Qed.

(** a light does not illuminate the point where it is *)
Definition apart {G} (rand2 : G -> (R * R) * G) (l : light R) : Prop :=
  forall p (c c' : ctx R G) lpos intens, lightSample rand2 l p c = Val ((lpos, intens), c') -> intens = no_light \/ lpos <> p.

Lemma pt_dec (a b : pt) : a = b \/ a <> b.
Proof.
  destruct a as [a1 a2 a3], b as [b1 b2 b3].
  destruct (Req_dec a1 b1) as [-> |N]; [|right; congruence]. destruct (Req_dec a2 b2) as [-> |N]; [|right; congruence].
  destruct (Req_dec a3 b3) as [-> |N]; [now left|right; congruence].
Qed.

Lemma honest_apart {G} (rand2 : G -> (R * R) * G) l : honest_light l -> apart rand2 l.
Proof.
  induction l as [pos power|w h center tp k o|fw iv l IH o]; intros H p c c' lpos intens; cbn [lightSample].
  - unfold mret. intros E. injection E as <- <- <-. destruct (pt_dec pos p) as [-> |N]; [left|now right].
    unfold pointIntensity, vlen2, vdot, vsub, clmul, no_light; rnum. cbn [vx vy vz].
    replace ((vx p - vx p) * (vx p - vx p) + (vy p - vy p) * (vy p - vy p) + (vz p - vz p) * (vz p - vz p)) with 0 by ring.
    unfold Rdiv. rewrite Rinv_0. f_equal; ring.
  - unfold mbind. destruct (generate2 rand2 c) as [[uv c1]| |]; cbn [obind]; try discriminate. unfold mret. intros E. injection E as <- <- <-.
    set (pos := planarPos w h center k uv). clearbody pos. destruct (pt_dec pos p) as [-> |N]; [left|now right].
    unfold planarIntensity, vlen2. set (x := vdot _ (vnormalized _)). clearbody x. unfold vdot, vsub, clmul, no_light; rnum. cbn [vx vy vz].
    replace ((vx p - vx p) * (vx p - vx p) + (vy p - vy p) * (vy p - vy p) + (vz p - vz p) * (vz p - vz p)) with 0 by ring.
    unfold Rdiv. rewrite Rinv_0, Rmult_0_r, Rmult_0_l. destruct (Rltb_spec 0 0); f_equal; ring.
  - destruct H as [H H']. unfold mbind. destruct (lightSample rand2 l (transformPoint iv p) c) as [[[tp b] c1]| |] eqn:E1; cbn [obind]; try discriminate.
    unfold mret. intros E. injection E as <- <- <-. destruct (IH H' _ _ _ _ _ E1) as [-> |N]; [now left|right].
    intros <-. apply N. now rewrite H.
Qed.

Section Fog.
  Context {G : Type} {NI : NumInf R}.
  Variable rand2 : G -> (R * R) * G.
  Variable s : scene R.
  Hypothesis objs_castable : castable (sObjects s).
  Hypothesis lights_apart : forall l, In l (sLights s) -> apart rand2 l.
  Variable d : Z.
  Hypothesis d_pos : d <> 0%Z.
  Variable sq : ctxseq R.
  Notation ctx := (ctx R G).
  Notation here := (drawing sq d).

  Lemma minus_nonzero (a b : pt) : a <> b -> minus3 a b <> zero3.
  Proof.
    intros H E. apply H. destruct a as [a1 a2 a3], b as [b1 b2 b3]. unfold minus3, zero3 in E; cbn [vx vy vz] in E.
    injection E as E1 E2 E3. f_equal; lra.
  Qed.

  Lemma madd_scaled (acc x : color R) w : clmadd acc w x = add_color acc (scaled w x).
  Proof. reflexivity. Qed.
  Lemma scaled_none w : scaled w no_light = no_light.
  Proof. unfold scaled, no_light; cbn [cR cG cB]. f_equal; ring. Qed.
  Lemma scaled_add w a b : scaled w (add_color a b) = add_color (scaled w a) (scaled w b).
  Proof. unfold scaled, add_color; cbn [cR cG cB]. f_equal; ring. Qed.

  Definition rest (n i : Z) (ls : list (light R)) : list (light R) := if (n <? i)%Z then ls else firstn (Z.to_nat (n - i)) ls.

  Lemma fogLights_lits (p : pt) wt sec n (c0 : ctx) : cDepth c0 = d -> cSeq c0 = sq -> random_ok rand2 (cSeq c0) ->
    forall ls, (forall l, In l ls -> apart rand2 l) -> forall i acc (c : ctx), inv c0 [sec] c -> (exists q, nth_error (cHeap c) sec = Some q) ->
    exists total c', lits rand2 here s p (rest n i ls) total /\
      fogLights rand2 s i ls n p wt sec acc c = Val (add_color acc (scaled wt total), c') /\ inv c0 [sec] c' /\
      (exists q, nth_error (cHeap c') sec = Some q).
  Proof.
    intros Hd Hsq Hr. induction ls as [|l ls IH]; intros HA i acc c Hi Hq; cbn [fogLights].
    - exists no_light, c. split; [unfold rest; destruct (n <? i)%Z; [constructor|rewrite firstn_nil; constructor]|]. split; [now rewrite scaled_none, add_none_r|]. auto.
    - destruct (Z.eqb_spec i n) as [->|Hin].
      { exists no_light, c. split; [unfold rest; rewrite Z.ltb_irrefl, Z.sub_diag; constructor|]. split; [now rewrite scaled_none, add_none_r|]. auto. }
      assert (Hrest : rest n i (l :: ls) = l :: rest n (i + 1) ls).
      { unfold rest. destruct (Z.ltb_spec n i), (Z.ltb_spec n (i + 1)); try lia; [reflexivity|].
        replace (Z.to_nat (n - i)) with (S (Z.to_nat (n - (i + 1)))) by lia. reflexivity. }
      rewrite Hrest.
      assert (HA' : forall l', In l' ls -> apart rand2 l') by (intros l' Hl'; apply HA; now right).
      assert (Hdc : cDepth c <> 0%Z) by (rewrite (inv_depth _ _ _ Hi), Hd; exact d_pos).
      assert (Hhc : here c) by (split; [rewrite (inv_seq _ _ _ Hi); exact Hsq|rewrite (inv_depth _ _ _ Hi); exact Hd]).
      assert (Hrc : random_ok rand2 (cSeq c)) by (rewrite (inv_seq _ _ _ Hi); exact Hr).
      destruct (lightSample_total rand2 l p c Hdc Hrc) as (lpos & intens & g & E).
      rewrite (mbind_run _ _ _ _ _ E).
      assert (Hi1 : inv c0 [sec] (withRng c g)) by now apply inv_rng.
      destruct (isBlack intens) eqn:Eb.
      { apply isBlack_eq in Eb. subst intens.
        destruct (IH HA' (i + 1)%Z acc (withRng c g) Hi1 Hq) as (total & c' & D & R & X). exists (add_color no_light total), c'.
        split; [constructor; [econstructor 1; [exact Hhc|exact E]|exact D]|]. rewrite add_none_l. auto. }
      destruct (HA l (or_introl eq_refl) p c _ lpos intens E) as [->|Hne].
      { exfalso. revert Eb. unfold isBlack, no_light; cbn [cR cG cB]; rnum. unfold Reqb. destruct (Req_EM_T 0 0); [discriminate|lra]. }
      assert (Hunit : norm2 (unit_of (minus3 lpos p)) = 1) by (apply unit_of_norm2, minus_nonzero, Hne).
      cbv zeta. rewrite vnormalized_unit_of. change (vsub lpos p) with (minus3 lpos p).
      destruct Hq as (q & Hq).
      destruct (held_setStart c0 (withRng c g) [sec] sec q p Hi1 (or_introl eq_refl) Hq) as (c1 & E1 & Hi1' & Hq1 & _).
      rewrite (mbind_run _ _ _ _ _ E1).
      destruct (held_setDir c0 c1 [sec] sec _ (unit_of (minus3 lpos p)) Hi1' (or_introl eq_refl) Hq1) as (c2 & E2 & Hi2 & Hq2 & _).
      rewrite (mbind_run _ _ _ _ _ E2). cbn [rStart] in Hq2.
      destruct (objs_castable (Ray p (unit_of (minus3 lpos p))) Hunit) as (hits & Hh & Hf).
      change (vlen (minus3 lpos p)) with (dist lpos p).
      unfold occlude.
      destruct (blocked_or_filtered (dist lpos p) hits Hf) as [B|(fs & B)].
      + rewrite (mbind_run _ _ _ _ _ (occlude_opaque (sObjects s) sec _ hits (dist lpos p) Hh (fun h Hin' B' T => Hf h Hin' (proj1 B') T) intens c2 Hq2 B)).
        destruct (IH HA' (i + 1)%Z (clmadd acc wt black) c2 Hi2 (ex_intro _ _ Hq2)) as (total & c' & D & R & X).
        exists (add_color no_light total), c'.
        split; [constructor; [econstructor 2; eauto|exact D]|]. split; [|exact X]. rewrite R. f_equal. f_equal.
        rewrite add_none_l, madd_scaled. change black with no_light. rewrite scaled_none, add_none_r. reflexivity.
      + rewrite (mbind_run _ _ _ _ _ (occlude_filters (sObjects s) sec _ hits (dist lpos p) Hh fs B intens c2 Hq2)).
        rewrite product3_app.
        destruct (IH HA' (i + 1)%Z (clmadd acc wt (product3 intens fs)) c2 Hi2 (ex_intro _ _ Hq2)) as (total & c' & D & R & X).
        exists (add_color (product3 intens fs) total), c'.
        split; [constructor; [econstructor 3; eauto|exact D]|]. split; [|exact X]. rewrite R. f_equal. f_equal.
        rewrite madd_scaled, scaled_add, add_assoc3. reflexivity.
  Qed.

  Lemma medium_veils m i q t orig (c0 : ctx) : d = 1%Z -> 0 < t <= ninf -> real_medium m -> pool_ok c0 -> in_use c0 i ->
    nth_error (cHeap c0) i = Some q -> cDepth c0 = d -> cSeq c0 = sq -> random_ok rand2 (cSeq c0) ->
    exists col c', mediumFilter rand2 s m i t orig c0 = Val (col, c') /\ veil rand2 here s q t orig m col /\ inv c0 nil c'.
  Proof.
    intros D1 Ht Hm Hp Hu Hq Hd Hsq Hr.
    assert (I : isInitial c0 = Val (true, c0)) by (unfold isInitial; rewrite Hd, D1; reflexivity).
    assert (Q : readRay i c0 = Val (q, c0)) by (unfold readRay; rewrite Hq; reflexivity).
    pose proof (interval_below (NI := NI)) as HB.
    destruct m as [density ambient height|density height n]; cbn [mediumFilter]; rewrite (mbind_run _ _ _ _ _ I); cbn [negb];
      rewrite (mbind_run _ _ _ _ _ Q); specialize (HB height t q Ht); destruct (fogInterval height t q) as [a b].
    - unfold mlift, expFogBlend. pose proof HB as ((B1 & B2) & _). replace (b - a >=? nofZ 0)%num with true by (symmetry; rnum; apply Rleb_true; lra).
      cbn [negb omap]. eexists. exists c0. split; [reflexivity|]. split; [|now apply inv_refl].
      replace (clmadd _ _ _) with (add_color (scaled (clear density (b - a)) orig) (scaled (1 - clear density (b - a)) ambient)); [now constructor|].
      unfold clear. replace (- (density * (b - a))) with (- (b - a) * density) by ring.
      unfold add_color, scaled, clmadd, clmul; rnum. f_equal; ring.
    - destruct (generate2_total rand2 c0 ltac:(lia) Hr) as (u & v & g & E & Hu1 & Hv1). rewrite (mbind_run _ _ _ _ _ E).
      pose proof HB as ((B1 & B2) & _). cbn [real_medium] in Hm.
      pose proof (scatter_at u density (b - a) Hu1 Hm ltac:(lra)) as HS. change (nsub b a) with (b - a).
      destruct (randExpInterval u density (b - a)) as [ts wt]. destruct HS as (HS1 & HS2 & ->).
      assert (K1 : inv c0 nil (withRng c0 g)) by (apply inv_rng, inv_refl, Hp).
      rewrite (mbind_run _ _ _ _ _ (held_read c0 (withRng c0 g) nil i q K1 Hu Hq)).
      destruct (inv_new _ _ _ K1) as (sec & c1 & E1 & K2 & Hz & _). rewrite (mbind_run _ _ _ _ _ E1).
      destruct (fogLights_lits (rayAt q (a + ts - tiny)%num) (1 - clear density (b - a)) sec n c0 Hd Hsq Hr (sLights s) lights_apart 0 black c1 K2 (ex_intro _ _ Hz))
        as (total & c2 & HL & EL & K3 & _).
      rewrite (mbind_run _ _ _ _ _ EL). unfold mbind, putRay, mret. cbn [obind].
      eexists. eexists. split; [reflexivity|]. split; [|apply inv_put; exact K3].
      replace (cladd _ _) with (add_color (scaled (clear density (b - a)) orig) (scaled (1 - clear density (b - a)) total)).
      + apply (V_fog rand2 here s q t orig density height n a b c0 _ u v (a + ts) total HB (conj Hsq Hd) E Hu1 ltac:(lra)).
        * replace (a + ts - a) with ts by ring. exact HS2.
        * unfold some_lights. unfold rest in HL. rewrite Z.sub_0_r, rayAt_along, tiny_eq in HL. exact HL.
      + unfold clear. replace (- (density * (b - a))) with (- (b - a) * density) by ring.
        unfold add_color, scaled, cladd, clmul, black; rnum. cbn [cR cG cB]. f_equal; ring.
  Qed.

  Lemma media_veils i q t (c0 : ctx) : d = 1%Z -> 0 < t <= ninf -> in_use c0 i ->
    nth_error (cHeap c0) i = Some q -> cDepth c0 = d -> cSeq c0 = sq -> random_ok rand2 (cSeq c0) ->
    forall ms, List.Forall real_medium ms -> forall orig c, inv c0 nil c ->
    exists col c', mediaLoop rand2 s ms i t orig c = Val (col, c') /\ veils rand2 here s q t ms orig col /\ inv c0 nil c'.
  Proof.
    intros D1 Ht Hu Hq Hd Hsq Hr. induction ms as [|m ms IH]; intros HF orig c K; cbn [mediaLoop].
    - exists orig, c. split; [reflexivity|]. split; [constructor|exact K].
    - inversion_clear HF as [|? ? HM HF']. 
      destruct (medium_veils m i q t orig c D1 Ht HM) as (col & c1 & E & V & K1).
      + apply K. + apply (inv_use _ _ _ K). now left. + rewrite (inv_heap _ _ _ K i Hu). exact Hq.
      + rewrite (inv_depth _ _ _ K). exact Hd. + rewrite (inv_seq _ _ _ K). exact Hsq. + rewrite (inv_seq _ _ _ K). exact Hr.
      + rewrite (mbind_run _ _ _ _ _ E). destruct (IH HF' col c1 (inv_trans _ _ _ _ K K1)) as (col' & c2 & E2 & V2 & K2).
        exists col', c2. split; [exact E2|]. split; [econstructor; eauto|exact K2].
  Qed.
End Fog.

Lemma lightField_foggy {G} {NI : NumInf R} (rand2 : G -> (R * R) * G) (s : scene R) sq k fuel w i q (c : ctx R G) :
  0 < @ninf R NI -> (forall o, In o (all_objects s) -> sound_object o) -> (forall l, In l (sLights s) -> honest_light l) ->
  List.Forall real_medium (sMedia s) -> (S k < fuel)%nat -> sRecursionDepth s = Z.of_nat (S k) ->
  pool_ok c -> in_use c i -> cDepth c = 0%Z -> cSeq c = sq -> random_ok rand2 sq -> nth_error (cHeap c) i = Some q -> norm2 (rDir q) = 1 ->
  exists col c' t orig, lightField rand2 fuel s w i c = Val (col, c') /\ surface_light rand2 s sq k w q t orig /\
    veils rand2 (drawing sq 1) s q t (sMedia s) orig col /\ same_rays c c' /\ cDepth c' = 0%Z /\ cSeq c' = sq.
Proof.
  intros Hinf Hsound Hl HF Hfu HR Hp Hu Hc Hsq Hr Hq Hn. destruct fuel as [|fuel]; [lia|].
  cbn [lightField]. unfold mbind at 1, getDepth. cbn [obind]. rewrite Hc.
  destruct (Z.eqb_spec (sRecursionDepth s) 0) as [X|_]; [lia|].
  unfold mbind at 1, countRay. cbn [obind]. unfold mbind at 1, setDepth. cbn [obind].
  set (c1 := withDepth _ _).
  destruct (surface_runs rand2 s Hinf Hsound sq k fuel 0 w i q c1) as (front & c1' & orig & c2 & E1 & E2 & HL & K & T1 & T2); try assumption; try reflexivity; try lia.
  { apply lightField_within; auto; try lia. }
  { subst sq. exact Hr. }
  rewrite (mbind_run _ _ _ _ _ E1). rewrite (mbind_run _ _ _ _ _ E2).
  destruct (media_veils rand2 s (scene_castable s Hsound) (fun l H => honest_apart rand2 l (Hl l H)) 1 ltac:(lia) sq i q (hT front) c1 eq_refl (conj T2 T1))
    with (ms := sMedia s) (orig := orig) (c := c2) as (col & c3 & E3 & V & K3); try assumption; try reflexivity.
  { subst sq. exact Hr. }
  rewrite (mbind_run _ _ _ _ _ E3). unfold mbind, mret, getDepth, setDepth. cbn [obind].
  exists col. eexists. exists (hT front), orig. split; [reflexivity|]. split; [exact HL|]. split; [exact V|].
  split; [|split].
  - destruct (inv_same _ _ K3) as (A & B & C). split; [exact A|]. split; [exact B|exact C].
  - cbn [cDepth withDepth]. rewrite (inv_depth _ _ _ K3). reflexivity.
  - cbn [cSeq withDepth]. rewrite (inv_seq _ _ _ K3). exact Hsq.
Qed.
