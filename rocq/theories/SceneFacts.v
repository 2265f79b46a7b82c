(** * Scenes: double precision, whole evaluations and counterexamples (C20-C23, C45, C80, C85) *)
From Coq Require Import ZArith Reals Bool List Permutation Lia Lra.
From Flocq Require Core.
From Flocq Require Import IEEE754.BinarySingleNaN.
From Verif Require Import Num NumLaws Outcome B64 GeomModel GeomSpec ColorModel SeqModel ObjModel TreeModel ObjSpec ObjProofs ParamProofs ObjFacts SceneModel SceneSpec SceneProofs CtxProofs CamProofs SeqProofs HaltonProofs LookSpec.
Import ListNotations.

(** ** Infinity in double precision *)
Lemma b64_inf_pos : nltb (nofZ 0) (@ninf b64 _) = true.
Proof. vm_compute. reflexivity. Qed.
Lemma b64_top (x : b64) : nltb (nofZ 0) x = true -> nleb x ninf = true.
Proof. destruct x as [[]|[]| |[] m e H]; intros; try reflexivity; discriminate. Qed.

Lemma frontmost_b64 {G} objs r q hits (c : ctx b64 G) : nth_error (cHeap c) r = Some q -> hits_of objs q hits ->
  (forall h, last_nearest hits h -> intersectFrontmost objs r c = Val (h, c)) /\
  (no_hit hits -> intersectFrontmost objs r c = Val (Hit ninf (rDir q) vO (Some MBlack), c)) /\
  ((exists h, last_nearest hits h) \/ no_hit hits).
Proof. intros Hr Hh. exact (intersectFrontmost_hits objs r q hits c b64_inf_pos (fun h _ Hp => b64_top (hT h) Hp) Hr Hh). Qed.

Section Flat.
  Context {TF : Trig b64} {G : Type}.
  Variable rand2 : G -> (b64 * b64) * G.
  Variable s : scene b64.
  Hypothesis no_media : sMedia s = nil.

  Lemma one_level n w r q (c : ctx b64 G) front col : cDepth c <> sRecursionDepth s ->
    nth_error (cHeap c) r = Some q ->
    (forall c1 : ctx b64 G, cHeap c1 = cHeap c -> intersectFrontmost (whoObjects s w) r c1 = Val (front, c1)) ->
    (forall h (c1 : ctx b64 G), hcLocal h = hLocal front -> shadeHit rand2 s (lightField rand2 n s) (hMat front) r h c1 = Val (col, c1)) ->
    lightField rand2 (S n) s w r c = Val (col, withNumRays c (cNumRays c + 1)%Z).
  Proof.
    intros Hd Hr Hf Hs. cbn [lightField]. unfold mbind at 1, getDepth. cbn [obind].
    destruct (Z.eqb_spec (sRecursionDepth s) (cDepth c)) as [X|_]; [now destruct Hd|].
    unfold mbind at 1, countRay. cbn [obind]. unfold mbind at 1, setDepth. cbn [obind].
    set (c1 := withDepth _ _). rewrite (mbind_run _ _ _ _ _ (Hf c1 eq_refl)).
    rewrite (mbind_run _ _ _ _ _ (Hs (HitCoords (hT front) (vnormalized (hNormal front)) (hLocal front)) c1 eq_refl)). rewrite no_media. cbn [mediaLoop].
    unfold mbind, mret, getDepth, setDepth. cbn [obind]. unfold c1, withDepth, withNumRays. cbn [cDepth cSeq cRng cPool cHeap cNumRays].
    repeat f_equal. lia.
  Qed.

  Lemma flat_light n w r q hits (c : ctx b64 G) h t col : cDepth c <> sRecursionDepth s ->
    nth_error (cHeap c) r = Some q -> hits_of (whoObjects s w) q hits -> last_nearest hits h ->
    hMat h = Some (MFlat t) -> t (hLocal h) = Val col ->
    lightField rand2 (S n) s w r c = Val (col, withNumRays c (cNumRays c + 1)%Z).
  Proof.
    intros Hd Hr Hh Hl Hm Ht. apply (one_level n w r q c h); auto.
    - intros c1 E. apply (frontmost_b64 _ r q hits c1); auto. now rewrite E.
    - intros hc c1 E. rewrite Hm. cbn [shadeHit shade]. unfold mlift. rewrite E, Ht. reflexivity.
  Qed.
  Lemma empty_light n w r q hits (c : ctx b64 G) : cDepth c <> sRecursionDepth s ->
    nth_error (cHeap c) r = Some q -> hits_of (whoObjects s w) q hits -> no_hit hits ->
    lightField rand2 (S n) s w r c = Val (black, withNumRays c (cNumRays c + 1)%Z).
  Proof.
    intros Hd Hr Hh Hl. apply (one_level n w r q c (Hit ninf (rDir q) vO (Some MBlack))); auto.
    intros c1 E. apply (frontmost_b64 _ r q hits c1); auto. now rewrite E.
  Qed.
End Flat.

(** ** A negative recursion depth is no limit *)
Definition mirrorWorld {TF : Trig b64} : scene b64 :=
  newScene (-1) nil nil [backdrop (Some (MReflective (Color (nofZ 1) (nofZ 1) (nofZ 1))))].
Lemma negative_depth {TF : Trig b64} {G} (rand2 : G -> (b64 * b64) * G) fuel : forall w r (c : ctx b64 G),
  (0 <= cDepth c)%Z -> pool_ok c -> in_use c r -> lightField rand2 fuel mirrorWorld w r c = NoFuel.
Proof.
  induction fuel as [|n IH]; intros w r c Hd Hp Hu; [reflexivity|].
  cbn [lightField]. unfold mbind at 1, getDepth. cbn [obind].
  destruct (Z.eqb_spec (sRecursionDepth mirrorWorld) (cDepth c)) as [X|_]; [cbn in X; lia|].
  unfold mbind at 1, countRay. cbn [obind]. unfold mbind at 1, setDepth. cbn [obind].
  set (c1 := withDepth _ _). assert (P1 : pool_ok c1) by exact Hp. assert (U1 : in_use c1 r) by exact Hu.
  destruct (nth_error (cHeap c1) r) as [q|] eqn:Hq; [|apply nth_error_None in Hq; destruct U1; lia].
  set (h := Hit (nofZ (10 ^ 99)) (rDir q) (rDir q) (Some (MReflective (Color (nofZ 1) (nofZ 1) (nofZ 1)))) : hit b64 (material b64)).
  assert (Hh : hits_of (whoObjects mirrorWorld w) q [h]) by (destruct w; constructor; [reflexivity|constructor|reflexivity|constructor]).
  assert (Hl : last_nearest [h] h).
  { exists nil, nil. split; [reflexivity|]. split; [unfold positive; vm_compute; reflexivity|]. split; intros ? []. }
  destruct (frontmost_b64 _ r q [h] c1 Hq Hh) as (Hf & _). rewrite (mbind_run _ _ _ _ _ (Hf h Hl)).
  cbn [hMat h shadeHit shade]. unfold mbind at 1. unfold reflectiveShade at 1.
  assert (R1 : forall c' : ctx b64 G, cHeap c' = cHeap c1 -> readRay r c' = Val (q, c')) by (intros c' E; unfold readRay; now rewrite E, Hq).
  rewrite (mbind_run _ _ _ _ _ (R1 c1 eq_refl)).
  destruct (new_ray_zero c1 P1) as (i & c2 & E & Hni & Hi & Hz & P2 & Hother).
  rewrite (mbind_run _ _ _ _ _ E).
  assert (D2 : cDepth c2 = cDepth c1).
  { clear -E. unfold newRay, mbind in E. destruct (cPool c1) as [|j p]; cbn [obind] in E; unfold writeRay in E; cbn [cHeap withPool] in E;
    (destruct (nth_error _ _); [|discriminate]); cbn [obind mret] in E; injection E as <- <-; reflexivity. }
  unfold setStart at 1. unfold setDir at 1.
  assert (W : forall (c' : ctx b64 G) x, nth_error (cHeap c') i <> None -> writeRay i x c' = Val (tt, withPool c' (cPool c') (setNth (cHeap c') i x))).
  { intros c' x Hx. unfold writeRay. destruct (nth_error (cHeap c') i); congruence. }
  assert (Rd : forall (c' : ctx b64 G) x, nth_error (cHeap c') i = Some x -> readRay i c' = Val (x, c')).
  { intros c' x Hx. unfold readRay. now rewrite Hx. }
  assert (Ir : i <> r) by (intros ->; contradiction).
  erewrite (mbind_run _ _ c2); [|rewrite (mbind_run _ _ _ _ _ (Rd c2 _ Hz)); apply W; rewrite Hz; discriminate].
  set (c3 := withPool c2 _ _).
  assert (Hi3 : exists x, nth_error (cHeap c3) i = Some x).
  { cbn [c3 cHeap withPool]. eexists. apply nth_setNth_eq. destruct Hi. lia. }
  destruct Hi3 as [x3 Hx3].
  assert (Hr3 : nth_error (cHeap c3) r = Some q).
  { cbn [c3 cHeap withPool]. rewrite nth_setNth_ne by exact Ir. destruct (Hother r U1) as [_ ->]. exact Hq. }
  erewrite (mbind_run (readRay r) _ c3); [|unfold readRay; now rewrite Hr3].
  erewrite (mbind_run _ _ c3); [|rewrite (mbind_run _ _ _ _ _ (Rd c3 _ Hx3)); apply W; rewrite Hx3; discriminate].
  set (c4 := withPool c3 _ _). unfold mbind at 1.
  rewrite IH; [reflexivity| | |].
  - cbn [c4 c3 withPool cDepth]. rewrite D2. cbn [c1 cDepth withDepth]. lia.
  - destruct P2 as [A B]. split; [exact A|]. intros j Hj. cbn [c4 c3 cHeap withPool]. rewrite !setNth_length. now apply B.
  - destruct Hi as [A B]. split; [|exact B]. cbn [c4 c3 cHeap withPool]. rewrite !setNth_length. exact A.
Qed.

(** ** A ray past the members of a tree *)
Lemma phantom_crash {TF : Trig b64} {G} (rand2 : G -> (b64 * b64) * G) sortSlice (m : option (material b64)) :
  exists o, tree to32b sortSlice [ball m] = Val o /\
    forall fuel rd media r (c : ctx b64 G), (0 <= cDepth c < rd)%Z -> nth_error (cHeap c) r = Some cornerRay ->
      lightField rand2 (S fuel) (newScene rd media nil [o]) All r c = Panic.
Proof.
  destruct (ball_tree_phantom m sortSlice) as (o & Ho & Hi). exists o. split; [exact Ho|].
  intros fuel rd media r c Hd Hr. cbn [lightField]. unfold mbind at 1, getDepth. cbn [obind].
  destruct (Z.eqb_spec (sRecursionDepth (newScene rd media nil [o])) (cDepth c)) as [X|_]; [cbn in X; lia|].
  unfold mbind at 1, countRay. cbn [obind]. unfold mbind at 1, setDepth. cbn [obind].
  set (c1 := withDepth _ _). assert (Hq : nth_error (cHeap c1) r = Some cornerRay) by exact Hr.
  assert (Hh : hits_of (whoObjects (newScene rd media nil [o]) All) cornerRay [farHit]) by (constructor; [exact Hi|constructor]).
  destruct (frontmost_b64 _ r cornerRay [farHit] c1 Hq Hh) as (Hf & _).
  rewrite (mbind_run _ _ _ _ _ (Hf farHit ltac:(exists nil, nil; split; [reflexivity|]; split; [unfold positive; vm_compute; reflexivity|]; split; intros ? []))).
  reflexivity.
Qed.

(** ** Rays through different points of the lens meet in one plane only *)
Lemma two_lens_rays {G} {NI : NumInf R} (rand2 : G -> (R * R) * G) fov aperture fd :
  (forall g, 0 <= snd (fst (rand2 g)) <= 1)%R -> (0 < fov < PI)%R -> (0 < aperture)%R -> (0 < fd)%R -> (2 * tan (fov / 2) <> 1)%R ->
  exists cam, projectiveAperture fov aperture fd = Val cam /\
  forall u v (c1 c2 : ctx R G) q1 q2, pool_ok c1 -> pool_ok c2 -> shoots rand2 cam u v c1 q1 -> shoots rand2 cam u v c2 q2 ->
    rStart q1 <> rStart q2 ->
    forall t1 t2, vz (along (rStart q1) (rDir q1) t1) = (- fd)%R -> along (rStart q1) (rDir q1) t1 <> along (rStart q2) (rDir q2) t2.
Proof.
  intros Hg Hf Ha Hd Hne. destruct (lens_focus rand2 fov aperture fd Hg Hf Ha Hd) as (cam & Hc & Hp).
  exists cam. split; [exact Hc|]. intros u v c1 c2 q1 q2 P1 P2 S1 S2 Hs t1 t2 Hz Heq.
  destruct (Hp u v) as (p & Hpz & Hall).
  destruct (Hall c1 P1) as (q1' & S1' & _ & Z1 & _ & k1 & K1 & E1). rewrite <- (shoots_fun _ _ _ _ _ _ _ S1 S1') in *.
  destruct (Hall c2 P2) as (q2' & S2' & _ & Z2 & _ & k2 & K2 & E2). rewrite <- (shoots_fun _ _ _ _ _ _ _ S2 S2') in *.
  clear S1' S2' Hall Hp. assert (T := tan_half_pos fov Hf). set (T2 := tan (fov / 2)) in *.
  apply Hs. destruct q1 as [[x1 y1 z1] [a1 b1 d1]], q2 as [[x2 y2 z2] [a2 b2 d2]], p as [px py pz].
  unfold along, plus3, scal3 in *. cbn [rStart rDir vx vy vz] in *. subst z1 z2.
  injection E1 as A1 A2 A3. injection E2 as B1 B2 B3. injection Heq as C1 C2 C3.
  assert (D1 : d1 <> 0%R) by (intros ->; assert (0 < fd / (2 * T2))%R by (apply Rdiv_lt_0_compat; lra); lra).
  assert (D2 : d2 <> 0%R) by (intros ->; assert (0 < fd / (2 * T2))%R by (apply Rdiv_lt_0_compat; lra); lra).
  (* both parameters in proportion m to the focus *)
  assert (M : exists m, t1 = (m * k1)%R /\ t2 = (m * k2)%R /\ m <> 1%R).
  { assert (P : pz <> 0%R) by (assert (0 < fd / (2 * T2))%R by (apply Rdiv_lt_0_compat; lra); lra).
    exists (t1 / k1)%R. split; [field; lra|]. split.
    - apply (Rmult_eq_reg_r d2); [|exact D2]. replace (t1 / k1 * k2 * d2)%R with (t1 / k1 * (0 + k2 * d2))%R by ring.
      rewrite B3, <- A3. replace (t1 / k1 * (0 + k1 * d1))%R with (0 + t1 * d1)%R by (field; lra). lra.
    - intros M. assert (t1 = k1) by (rewrite <- (Rmult_1_l k1), <- M; field; lra). subst t1.
      apply Hne. rewrite A3 in Hz. rewrite Hz in Hpz.
      assert (X : (fd = fd / (2 * T2))%R) by lra. apply (Rmult_eq_reg_l fd); [|lra]. rewrite X at 1. field. lra. }
  destruct M as (m & -> & -> & M).
  assert (Q : forall x1 x2 a1 a2 p : R, (x1 + k1 * a1 = p)%R -> (x2 + k2 * a2 = p)%R -> (x1 + m * k1 * a1 = x2 + m * k2 * a2)%R -> x1 = x2).
  { intros u1 u2 w1 w2 w U V W. apply (Rmult_eq_reg_l (1 - m)); [|lra].
    replace ((1 - m) * u1)%R with (u1 + m * k1 * w1 - m * (u1 + k1 * w1))%R by ring.
    replace ((1 - m) * u2)%R with (u2 + m * k2 * w2 - m * (u2 + k2 * w2))%R by ring. rewrite U, V, W. reflexivity. }
  f_equal; [now apply (Q x1 x2 a1 a2 px)|now apply (Q y1 y2 b1 b2 py)].
Qed.

(** ** A small scene in double precision, for the examples *)
Definition toyTrig : Trig b64 :=
  {| npi := nQ 314159 100000; nsin := fun x => x; ncos := fun x => nsub (nofZ 1) x; ntan := fun x => x;
     nexp := fun x => ndiv (nofZ 1) (nsub (nofZ 1) x); nlog := fun x => nsub x (nofZ 1); npow := fun x _ => x |}.
#[local] Existing Instance toyTrig.
Definition grey : color b64 := Color (nQ 1 2) (nQ 1 2) (nQ 1 2).
Definition toyRand (g : Z) : (b64 * b64) * Z := ((nQ 1 4, nQ 1 2), (g + 1)%Z).
Definition toyBall (m : material b64) (z : Z) : object b64 (material b64) := sphere (Some m) (nofZ 2) (Vec (nofZ 0) (nofZ 0) (nofZ z)).
(** a matte ball in front of a mirror ball, a light, and grey light everywhere else *)
Definition toyScene (rd : Z) : scene b64 :=
  newScene rd nil [pointLight (Color (nofZ 100) (nofZ 100) (nofZ 100)) (Vec (nofZ 0) (nofZ 5) (nofZ 0))]
    [toyBall (MMatte (fun _ => Val grey)) (-5); toyBall (MReflective grey) (-9); backdrop (Some (MFlat (fun _ => Val grey)))].
Definition toyCtx : ctx b64 Z :=
  Ctx 0 (newCtxSeq [(nQ 1 3, nQ 2 3)]) 7%Z nil [Ray (Vec (nofZ 0) (nofZ 0) (nofZ 0)) (Vec (nofZ 0) (nofZ 0) (nofZ (-1)))] 0.

(** ** Sequences of an initialised context *)
Lemma init_seq {F} `{NF : Num F} shifts pixel pass (q : ctxseq F) : ctxseq_init (newCtxSeq shifts) pixel pass = Val q ->
  exists su sv, cs_1 q = HSeq 2 3 pass su sv shifts /\ cs_2 q = HSeq 5 7 pass su sv shifts.
Proof.
  unfold ctxseq_init, newCtxSeq, hseq_init, newHalton. cbn [cs_1 cs_2 cs_L cs_AA hs_shifts hs_baseU hs_baseV].
  destruct (nth_error shifts pixel) as [[su sv]|]; cbn [obind]; [|discriminate]. intros H. injection H as <-. exists su, sv. split; reflexivity.
Qed.
Lemma init_finishing shifts pixel pass (q : ctxseq b64) : (0 <= pass < 2 ^ 53 - 1)%Z ->
  ctxseq_init (newCtxSeq shifts) pixel pass = Val q -> seq_finishing q.
Proof.
  intros Hp H. destruct (init_seq _ _ _ _ H) as (su & sv & E1 & E2). unfold seq_finishing. rewrite E1, E2. unfold hseq_generate2.
  cbn [hs_baseU hs_baseV hs_index hs_shiftU hs_shiftV].
  destruct (halton_b64_finite 2 pass ltac:(lia) Hp) as (r2 & -> & _), (halton_b64_finite 3 pass ltac:(lia) Hp) as (r3 & -> & _),
    (halton_b64_finite 5 pass ltac:(lia) Hp) as (r5 & -> & _), (halton_b64_finite 7 pass ltac:(lia) Hp) as (r7 & -> & _).
  split; discriminate.
Qed.
Lemma frac_R (x : R) : (0 <= frac x <= 1)%R.
Proof. unfold frac. cbn [nsub nfloor NumR]. generalize (Raux.Zfloor_lb x) (Raux.Zfloor_ub x). lra. Qed.
Lemma init_random {G} (rand2 : G -> (R * R) * G) shifts pixel pass (q : ctxseq R) :
  (forall g, 0 <= fst (fst (rand2 g)) <= 1 /\ 0 <= snd (fst (rand2 g)) <= 1)%R -> (0 <= pass)%Z ->
  ctxseq_init (newCtxSeq shifts) pixel pass = Val q -> random_ok rand2 q.
Proof.
  intros Hg Hp H. destruct (init_seq _ _ _ _ H) as (su & sv & E1 & E2). unfold random_ok. rewrite E1, E2. unfold hseq_generate2.
  cbn [hs_baseU hs_baseV hs_index hs_shiftU hs_shiftV].
  destruct (halton_R_val 2 pass ltac:(lia) Hp) as (r2 & -> & _), (halton_R_val 3 pass ltac:(lia) Hp) as (r3 & -> & _),
    (halton_R_val 5 pass ltac:(lia) Hp) as (r5 & -> & _), (halton_R_val 7 pass ltac:(lia) Hp) as (r7 & -> & _).
  cbn [obind]. split; [exact Hg|]. split; eexists _, _; (split; [reflexivity|]); split; apply frac_R.
Qed.
