(** * What area lights look like, in exact arithmetic with infinities (C125) *)
From Coq Require Import ZArith Reals Bool List Lra Lia.
From Verif Require Import Num NumLaws Outcome GeomModel GeomSpec GeomProofs ColorModel SeqModel ObjModel TreeModel SceneModel ObjSpec ObjProofs
  BoxProofs PrimProofs TreeProofs MeshSpec MeshProofs MeshHits ShapeProofs RectProofs CsgProofs DiskProofs SceneSpec SceneProofs.
Import ListNotations.
Local Open Scope R_scope.

(** a rectangle restricted to the inside of [o] *)
Section Restricted.
  Context {M : Type}.
  Variable sortSlice : (object xr M -> object xr M -> bool) -> list (object xr M) -> list (object xr M).
  Variables (m : option M) (w dp : R) (c s d : pt) (o : object xr M) (P : pt -> Prop).
  Hypothesis Hw : 0 < w.
  Hypothesis Hdp : 0 < dp.
  Hypothesis Hd : vy d <> 0.
  Hypothesis HO : forall p, vy p = vy c -> (oInside o (xv p) = Val true /\ P p) \/ (oInside o (xv p) = Val false /\ ~ P p).
  Notation id32 := (fun x : xr => x).
  Notation tR := (tRect c s d).

  Lemma restricted_exact : clear_start (vx c - w / 2) (vx c + w / 2) (vx s) (vx d) ->
    clear_start (vz c - dp / 2) (vz c + dp / 2) (vz s) (vz d) -> tR < horizon ->
    exists ob, rectangle id32 sortSlice m (XF w) (XF dp) (xv c) = Val ob /\
      ((0 < tR /\ in_rect w dp c (along s d tR) /\ P (along s d tR) /\ oIntersect (cRestrict ob o) (xray s d) = Val (rectHit m w dp c s d, xray s d)) \/
       ((forall t, 0 < t -> in_rect w dp c (along s d t) -> ~ P (along s d t)) /\ oIntersect (cRestrict ob o) (xray s d) = Val (noHit, xray s d))).
  Proof.
    intros Cx Cz HB. generalize (@tiny_pos); intros TP.
    destruct (rect_exact sortSlice m w dp c s d Hw Hdp Hd Cx Cz HB) as (ob & E & D).
    exists ob. split; [exact E|].
    cbn [cRestrict oIntersect]. unfold andMarch, march.
    destruct D as [(T & IR & Eh)|(NH & Eh)]; rewrite Eh; cbn [obind].
    - cbn [marchLoop]. cbn [rectHit hT nltb NumX xltb nofZ ninf NumInfX].
      assert (Rltb 0 tR = true) as -> by now apply Rltb_true. cbn [andb].
      rewrite rayAt_xray.
      destruct (HO (along s d tR)) as [(EI & HP)|(EI & HP)]; [apply IR| |]; rewrite EI; cbn [obind].
      + left. repeat split; auto; try apply IR.
        cbn [omap xray rDir rStart]. unfold rectHit. cbn [hNormal hLocal hMat nadd NumX xadd nofZ]. rewrite Rplus_0_r. reflexivity.
      + right. split.
        * intros t Ht IR'. pose proof (rect_only w dp c s d Hd _ IR') as Et. unfold tRect in HP. rewrite <- Et in HP. exact HP.
        * rewrite tiny_xr. cbn [nadd NumX xadd]. rewrite xray_step.
          set (t' := tR + tiny). set (s' := along s d t').
          assert (tRect c s' d = - tiny) as Es'.
          { unfold tRect, s', t', along, plus3, scal3. cbn [vy]. unfold tRect. field. auto. }
          destruct (rect_exact sortSlice m w dp c s' d Hw Hdp Hd) as (ob' & E' & D').
          { apply (clear_step _ _ _ _ vx); auto. }
          { apply (clear_step _ _ _ _ vz); auto. }
          { rewrite Es'. assert (0 < horizon) by (apply IZR_lt; reflexivity). lra. }
          rewrite E in E'. injection E' as <-.
          destruct D' as [(T' & _)|(_ & Eh')]; [exfalso; lra|].
          rewrite Eh'. cbn [obind marchLoop hT nltb NumX xltb nofZ]. assert (Rltb 0 0 = false) as -> by (apply Rltb_false; lra). reflexivity.
    - right. split; [intros t Ht ID; now destruct (NH t Ht)|].
      cbn [marchLoop hT nltb NumX xltb nofZ]. assert (Rltb 0 0 = false) as -> by (apply Rltb_false; lra). reflexivity.
  Qed.
End Restricted.

(** a cylinder without ends *)
Lemma endless_inside {M} (m : option M) diam (c p : pt) : 0 < diam ->
  (oInside (cylinder m (XF diam) ninf (xv c)) (xv p) = Val true /\ radial2 p c < (diam / 2)²) \/
  (oInside (cylinder m (XF diam) ninf (xv c)) (xv p) = Val false /\ ~ radial2 p c < (diam / 2)²).
Proof.
  intros Hd.
  assert (oInside (cylinder m (XF diam) ninf (xv c)) (xv p) = Val true <-> radial2 p c < (diam / 2)²) as I.
  { unfold cylinder, cylinderData, bbWithMargin, bbTranslated, vadd. cbn [quadric simpleObj oInside bMin bMax]. rewrite tiny_xr.
    generalize (@tiny_pos); intros TP.
    assert (xdiv XP (XF 2) = XP) as EP by (cbn [xdiv]; destruct (Rle_dec 0 2); [reflexivity|lra]).
    assert (xdiv XN (XF 2) = XN) as EN by (cbn [xdiv]; destruct (Rle_dec 0 2); [reflexivity|lra]).
    cbn [nofZ NumX ndiv nopp xopp ninf NumInfX]. rewrite !xdiv_XF, EP, EN by lra.
    unfold quadricInside, bbInside, mul3, vdot, vsub, xv. cbn [qBounds qOrigin qa qb bMin bMax vx vy vz].
    cbn [nadd nmul nsub nopp nltb NumX xadd xsub xopp xmul xltb].
    assert (forall x, Val x = Val true <-> x = true) as V by (intros x; split; [intros E; injection E; auto|congruence]).
    rewrite V. clear V. unfold radial2, Rsqr.
    destruct p as [x y z], c as [cx cy cz]. cbn [vx vy vz].
    match goal with |- context [if ?b then _ else false] => destruct b eqn:EB end.
    - rewrite Rltb_true. lra.
    - split; [discriminate|]. intros Q. exfalso.
      destruct (sum_sq_bounds (x - cx) 0 (z - cz) (diam / 2)) as (X & _ & Z); [lra|lra|].
      rewrite <- not_true_iff_false in EB. apply EB. rewrite !andb_true_iff, !Rltb_true. repeat split; lra. }
  destruct (oInside (cylinder m (XF diam) ninf (xv c)) (xv p)) as [[|]| |] eqn:E; try discriminate.
  - left. split; [reflexivity|]. now apply I.
  - right. split; [reflexivity|]. intros Q. apply I in Q. discriminate.
Qed.

Section Seen.
  Context {TF : Trig xr} {G : Type}.
  Variable rand2 : G -> (xr * xr) * G.
  Variable sortSlice : (object xr (material xr) -> object xr (material xr) -> bool) -> list (object xr (material xr)) -> list (object xr (material xr)).
  Notation id32 := (fun x : xr => x).

  (** the colour of the side of a lamp that a ray with direction [d] runs into: light is sent downwards *)
  Definition lamp_side (b : color xr) (d : pt) : color xr := if Rltb 0 (vy d) then b else black.
  Definition lampMat (b : color xr) : material xr := MTwoSided (MFlat (fun _ => Val b)) (MFlat (fun _ => Val black)).

  (** a scene with one light only *)
  Lemma alone l h s d n k w (c : ctx xr G) r : nth_error (cHeap c) r = Some (xray s d) -> cDepth c <> k ->
    oIntersect (lightObject l) (xray s d) = Val (h, xray s d) ->
    let seen col := lightField rand2 (S n) (newScene k nil [l] nil) w r c = Val (col, withNumRays c (cNumRays c + 1)%Z) in
    (hT h = XF 0 -> seen black) /\
    (forall t b, hT h = XF t -> 0 < t -> hNormal h = xv (Vec 0 1 0) -> hMat h = Some (lampMat b) ->
      seen (match w with All => lamp_side b d | MinusLights => black end)).
  Proof.
    intros Hr Hk Hi seen.
    assert (forall front, (forall c1 : ctx xr G, cHeap c1 = cHeap c -> intersectFrontmost (whoObjects (newScene k nil [l] nil) w) r c1 = Val (front, c1)) ->
      forall col, (forall c1 lf, cHeap c1 = cHeap c -> shadeHit rand2 (newScene k nil [l] nil) lf (hMat front) r (HitCoords (hT front) (vnormalized (hNormal front)) (hLocal front)) c1 = Val (col, c1)) ->
      seen col) as One.
    { intros front Hf col Hs. unfold seen. cbn [lightField]. unfold mbind at 1, getDepth. cbn [obind].
      cbn [newScene sRecursionDepth sMedia].
      destruct (Z.eqb_spec k (cDepth c)) as [X|_]; [now destruct Hk|].
      unfold mbind at 1, countRay. cbn [obind]. unfold mbind at 1, setDepth. cbn [obind].
      set (c1 := withDepth _ _). rewrite (mbind_run _ _ _ _ _ (Hf c1 eq_refl)).
      rewrite (mbind_run _ _ _ _ _ (Hs c1 _ eq_refl)). cbn [mediaLoop].
      unfold mbind, mret, getDepth, setDepth. cbn [obind]. unfold c1, withDepth, withNumRays. cbn [cDepth cSeq cRng cPool cHeap cNumRays].
      repeat f_equal. lia. }
    assert (forall o h' (c1 : ctx xr G), cHeap c1 = cHeap c -> oIntersect o (xray s d) = Val (h', xray s d) ->
      intersectFrontmost [o] r c1 = Val (if (nltb (nofZ 0) (hT h') && nleb (hT h') XP)%bool then h' else front0 (rDir (xray s d)), c1)) as Front.
    { intros o h' c1 E Eo. assert (nth_error (cHeap c1) r = Some (xray s d)) as Hr1 by now rewrite E.
      unfold intersectFrontmost. unfold readRay, mbind at 1. rewrite Hr1. cbn [obind frontLoop].
      rewrite (mbind_run _ _ _ _ _ (intersectRay_run _ _ _ _ _ Hr1 Eo)). reflexivity. }
    split.
    - intros E0. apply (One (front0 (rDir (xray s d)))); [|reflexivity].
      intros c1 E. destruct w; cbn [newScene whoObjects sObjectsAndLights sObjectsMinusLights map app].
      + rewrite (Front _ h c1 E Hi), E0. cbn [nltb NumX xltb nofZ]. assert (Rltb 0 0 = false) as -> by (apply Rltb_false; lra). reflexivity.
      + rewrite (Front _ (Hit (hT h) (hNormal h) (hLocal h) (Some MBlack)) c1 E) by (unfold blackened, plainObject; cbn [oIntersect]; now rewrite Hi).
        cbn [hT]. rewrite E0. cbn [nltb NumX xltb nofZ]. assert (Rltb 0 0 = false) as -> by (apply Rltb_false; lra). reflexivity.
    - intros t b Et Ht En Em.
      assert ((nltb (nofZ 0) (XF t) && nleb (XF t) XP)%bool = true) as Pos.
      { cbn [nltb nleb NumX xltb nofZ]. unfold xleb. cbn [xltb orb]. assert (Rltb 0 t = true) as -> by now apply Rltb_true. reflexivity. }
      destruct w.
      + apply (One h).
        * intros c1 E. cbn [newScene whoObjects sObjectsAndLights sObjectsMinusLights map app]. rewrite (Front _ h c1 E Hi), Et, Pos. reflexivity.
        * intros c1 lf E. rewrite Em, En. unfold lampMat. cbn [shadeHit shade hcNormal hcLocal].
          assert (nth_error (cHeap c1) r = Some (xray s d)) as Hr1 by now rewrite E.
          unfold mbind, readRay. rewrite Hr1. cbn [obind].
          rewrite vnormalized_xv by (unfold norm2, dot3; cbn [vx vy vz]; lra).
          assert (unit_of (Vec 0 1 0) = Vec 0 1 0) as ->.
          { unfold unit_of, norm, norm2, dot3, scal3. cbn [vx vy vz]. replace (0 * 0 + 1 * 1 + 0 * 0) with 1 by ring. rewrite sqrt_1. f_equal; lra. }
          replace (nltb (nofZ 0) (vdot (rDir (xray s d)) (xv (Vec 0 1 0)))) with (Rltb 0 (vy d)).
          2:{ unfold xray, vdot, xv. cbn [rDir vx vy vz nadd nmul NumX xadd xmul nltb xltb nofZ]. f_equal. ring. }
          unfold lamp_side. destruct (Rltb 0 (vy d)); reflexivity.
      + apply (One (Hit (hT h) (hNormal h) (hLocal h) (Some MBlack))); [|reflexivity].
        intros c1 E. cbn [newScene whoObjects sObjectsAndLights sObjectsMinusLights map app].
        rewrite (Front _ (Hit (hT h) (hNormal h) (hLocal h) (Some MBlack)) c1 E) by (unfold blackened, plainObject; cbn [oIntersect]; now rewrite Hi).
        cbn [hT]. rewrite Et, Pos. reflexivity.
  Qed.

  Lemma rect_lamp (b : color xr) w dp c s d k : 0 < w -> 0 < dp -> vy d <> 0 ->
    clear_start (vx c - w / 2) (vx c + w / 2) (vx s) (vx d) -> clear_start (vz c - dp / 2) (vz c + dp / 2) (vz s) (vz d) ->
    tRect c s d < horizon ->
    exists l, rectangleLight id32 sortSlice b (XF w) (XF dp) (xv c) = Val l /\
      forall n who (cx : ctx xr G) r, nth_error (cHeap cx) r = Some (xray s d) -> cDepth cx <> k ->
        exists col, lightField rand2 (S n) (newScene k nil [l] nil) who r cx = Val (col, withNumRays cx (cNumRays cx + 1)%Z) /\
          ((exists t, 0 < t /\ in_rect w dp c (along s d t)) -> col = match who with All => lamp_side b d | MinusLights => black end) /\
          (~ (exists t, 0 < t /\ in_rect w dp c (along s d t)) -> col = black).
  Proof.
    intros Hw Hdp Hd Cx Cz HB.
    destruct (restricted_exact sortSlice (Some (lampMat b)) w dp c s d allSpace (fun _ => True) Hw Hdp Hd) as (ob & Er & D); auto.
    eexists. split. { unfold rectangleLight, planarLight. fold (lampMat b). rewrite Er. cbn [omap]. reflexivity. }
    intros n who cx r Hr Hk. destruct D as [(T & IR & _ & Ei)|(NR & Ei)].
    - edestruct (alone (LPlanar (XF w) (XF dp) (xv c) (clmul b (nmul (nmul (XF w) (XF dp)) (nofZ 1))) KRect (cRestrict ob allSpace))) as (_ & A); [exact Hr|exact Hk|exact Ei|].
      eexists. split; [eapply A; [reflexivity|exact T|reflexivity|reflexivity]|].
      split; [auto|]. intros N. destruct N. exists (tRect c s d). auto.
    - edestruct (alone (LPlanar (XF w) (XF dp) (xv c) (clmul b (nmul (nmul (XF w) (XF dp)) (nofZ 1))) KRect (cRestrict ob allSpace))) as (A & _); [exact Hr|exact Hk|exact Ei|].
      eexists. split; [apply A; reflexivity|]. split; [|auto].
      intros (t & Ht & IR). now destruct (NR t Ht IR).
  Qed.

  Lemma disk_lamp (b : color xr) diam c s d k : 0 < diam -> vy d <> 0 ->
    clear_start (vx c - diam / 2) (vx c + diam / 2) (vx s) (vx d) -> clear_start (vz c - diam / 2) (vz c + diam / 2) (vz s) (vz d) ->
    tRect c s d < horizon ->
    exists l, diskLight id32 sortSlice b (XF diam) (xv c) = Val l /\
      forall n who (cx : ctx xr G) r, nth_error (cHeap cx) r = Some (xray s d) -> cDepth cx <> k ->
        exists col, lightField rand2 (S n) (newScene k nil [l] nil) who r cx = Val (col, withNumRays cx (cNumRays cx + 1)%Z) /\
          ((exists t, 0 < t /\ in_disk diam c (along s d t)) -> col = match who with All => lamp_side b d | MinusLights => black end) /\
          (~ (exists t, 0 < t /\ in_disk diam c (along s d t)) -> col = black).
  Proof.
    intros Hw Hd Cx Cz HB.
    destruct (restricted_exact sortSlice (Some (lampMat b)) diam diam c s d (cylinder None (XF diam) ninf (xv c)) (fun p => radial2 p c < (diam / 2)²) Hw Hw Hd) as (ob & Er & D); auto.
    { intros p _. now apply endless_inside. }
    eexists. split. { unfold diskLight, planarLight. fold (lampMat b). rewrite Er. cbn [omap]. reflexivity. }
    intros n who cx r Hr Hk. destruct D as [(T & IR & Q & Ei)|(NR & Ei)].
    - edestruct (alone (LPlanar (XF diam) (XF diam) (xv c) (clmul b (nmul (nmul (XF diam) (XF diam)) (ndiv npi (nofZ 4)))) KDisk (cRestrict ob (cylinder None (XF diam) ninf (xv c))))) as (_ & A); [exact Hr|exact Hk|exact Ei|].
      eexists. split; [eapply A; [reflexivity|exact T|reflexivity|reflexivity]|].
      split; [auto|]. intros N. destruct N. exists (tRect c s d). split; auto. split; [apply IR|exact Q].
    - edestruct (alone (LPlanar (XF diam) (XF diam) (xv c) (clmul b (nmul (nmul (XF diam) (XF diam)) (ndiv npi (nofZ 4)))) KDisk (cRestrict ob (cylinder None (XF diam) ninf (xv c))))) as (A & _); [exact Hr|exact Hk|exact Ei|].
      eexists. split; [apply A; reflexivity|]. split; [|auto].
      intros (t & Ht & ID). exfalso. apply (NR t Ht); [now apply in_disk_rect|apply ID].
  Qed.
End Seen.
