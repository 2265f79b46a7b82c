(** * Solids cut out of balls and blocks: rays see their surface *)
From Coq Require Import ZArith Reals Bool List Lra Lia Classical.
From Verif Require Import Num NumLaws Outcome GeomModel GeomSpec GeomProofs ObjModel TreeModel ObjSpec ObjProofs BoxProofs PrimProofs CsgProofs SolidProofs CappedProofs CrossProofs PlaceSpec PlaceProofs TransfProofs MovedProofs CsgSpec.
Import ListNotations.
Local Open Scope R_scope.

Section Reports.
  Context {M : Type}.
  Implicit Types a b : object R M.

  (** from its start, and from any point that is not one of [X], the next crossing of the half line with
      the surface [G] is reported, with its material *)
  Definition reports (X : list R) a (s d : pt) (G : R -> option M -> Prop) : Prop :=
    forall t0, 0 <= t0 -> t0 = 0 \/ ~ In t0 X -> exists h,
      oIntersect a (Ray (along s d t0) d) = Val (h, Ray (along s d t0) d) /\
      ((exists c, G c (hMat h) /\ t0 < c /\ (forall c' m', G c' m' -> t0 < c' -> c <= c') /\ hT h = c - t0) \/
       ((forall c m', G c m' -> c <= t0) /\ hT h <= 0)).

  Section March.
    Variables (keep : bool -> bool) (a b : object R M) (s d : pt) (X : list R) (G : R -> option M -> Prop) (ins : R -> bool).
    Hypothesis Ca : reports X a s d G.
    Hypothesis GX : forall c m, G c m -> In c X.
    Hypothesis Sep : separated X.
    Hypothesis Ins : forall c, oInside b (along s d c) = Val (ins c).

    Lemma loop_reports : forall ttl mx off h,
      0 <= off -> (ahead off X <= ttl)%nat ->
      oIntersect a (Ray (along s d off) d) = Val (h, Ray (along s d off) d) ->
      ((exists c, G c (hMat h) /\ off < c /\ (forall c' m', G c' m' -> off < c' -> c <= c') /\ hT h = c - off) \/
       ((forall c m', G c m' -> c <= off) /\ hT h <= 0)) ->
      exists h' r', marchLoop keep a b ttl mx off h (Ray (along s d off) d) = Val (h', r') /\ rDir r' = d /\
        ((exists c, G c (hMat h') /\ off < c /\ keep (ins c) = true /\ hT h' = c /\
            forall c' m', G c' m' -> off < c' < c -> keep (ins c') = false) \/
         (h' = noHit /\ forall c m', G c m' -> off < c -> keep (ins c) = true -> mx <= c)).
    Proof.
      induction ttl as [|n IH]; intros mx off h Hoff Hcnt Ha Hh; cbn [marchLoop].
      - eexists _, _. split; [reflexivity|]. split; [try reflexivity; auto|]. right. split; auto.
        intros c m' Hc L _. assert (c <= off) by (apply (ahead_zero X off); [lia|eauto]). lra.
      - destruct Hh as [(c & Hc & Lc & Nx & HT)|[None_ HT]].
        + destruct (nltb (nofZ 0) (hT h) && nltb (hT h) mx)%bool eqn:E.
          * rewrite rayAt_along, along_along, HT. replace (off + (c - off)) with c by ring.
            rewrite Ins. cbn [obind].
            destruct (keep (ins c)) eqn:K.
            -- eexists _, _. split; [reflexivity|]. split; [try reflexivity; auto|]. left. exists c. cbn [hT hMat]. rnum. repeat split; auto; [ring|].
               intros c' m' Hc' [L1 L2]. specialize (Nx c' m' Hc' L1). lra.
            -- cbv zeta. rnum. replace (rDir (Ray (along s d off) d)) with d by reflexivity.
               rewrite rayAt_along, along_along.
               replace (off + (c - off + tiny)) with (c + tiny) by ring.
               generalize tiny_pos; intros TP.
               destruct (Ca (c + tiny)) as (h2 & E2 & H2); [lra|right; intros IC; specialize (Sep c (c + tiny) (GX _ _ Hc) IC); lra|]. rewrite E2. cbn [obind].
               destruct (IH mx (c + tiny) h2) as (h' & r' & E' & D' & H'); auto.
               { lra. }
               { assert (ahead (c + tiny) X < ahead off X)%nat by (apply (ahead_decreases X off _ c); [eauto|lra|lra|lra]). lia. }
               rewrite E'. eexists _, _. split; [reflexivity|]. split; [try reflexivity; auto|].
               destruct H' as [(c1 & I1 & L1 & K1 & T1 & N1)|[-> N1]].
               ++ left. exists c1. repeat split; auto; [lra|]. intros c' m' Hc' [A B].
                  specialize (Nx c' m' Hc' A). destruct (Req_EM_T c' c) as [->|Ne]; auto.
                  apply (N1 c' m'); auto. split; auto. apply Sep; eauto. lra.
               ++ right. split; auto. intros c' m' Hc' A K'.
                  specialize (Nx c' m' Hc' A). destruct (Req_EM_T c' c) as [->|Ne]; [congruence|].
                  apply (N1 c' m'); auto. apply Sep; eauto. lra.
          * eexists _, _. split; [reflexivity|]. split; [try reflexivity; auto|]. right. split; auto.
            intros c' m' Hc' L' _. specialize (Nx c' m' Hc' L'). apply andb_false_iff in E. rnum.
            destruct E as [E|E]; apply Rltb_false in E; lra.
        + rnum. rewrite (proj2 (Rltb_false 0 (hT h))) by auto. cbn [andb].
          eexists _, _. split; [reflexivity|]. split; [try reflexivity; auto|]. right. split; auto.
          intros c m' Hc L _. specialize (None_ c m' Hc). lra.
    Qed.

    Hypothesis Few : (length X <= 100)%nat.
    Lemma march_reports mx : exists h', march keep a b (Ray s d) mx = Val (h', Ray s d) /\
        ((exists c, G c (hMat h') /\ 0 < c /\ keep (ins c) = true /\ hT h' = c /\
            forall c' m', G c' m' -> 0 < c' < c -> keep (ins c') = false) \/
         (h' = noHit /\ forall c m', G c m' -> 0 < c -> keep (ins c) = true -> mx <= c)).
    Proof.
      destruct (Ca 0 (Rle_refl 0) (or_introl eq_refl)) as (h & E & H). unfold march. rewrite along_zero in E. rewrite E. cbn [obind].
      rewrite <- (along_zero s d) in E.
      destruct (loop_reports 100 mx 0 h (Rle_refl 0)) as (h' & r' & E' & D' & H'); auto.
      { generalize (ahead_length X 0). lia. }
      rewrite along_zero in E'. cbn [rStart]. change (nofZ 0) with 0. rewrite E'. cbn [omap].
      rewrite D'. exists h'. split; auto.
    Qed.
  End March.

  Context {NI : NumInf R}.

  Section Both.
    Variables (keep : bool -> bool) (a b : object R M) (X : list R).
    Hypothesis Sep : separated X.
    Hypothesis Few : (length X <= 100)%nat.

    (** what the two marches together find from the start of the ray *)
    Lemma both_start s d Ga Gb insA insB : (forall c, In c X -> c < ninf) -> reports X a s d Ga -> reports X b s d Gb ->
      (forall c m, Ga c m -> In c X) -> (forall c m, Gb c m -> In c X) ->
      (forall c, oInside b (along s d c) = Val (insB c)) -> (forall c, oInside a (along s d c) = Val (insA c)) ->
      let V c m := Ga c m /\ keep (insB c) = true \/ Gb c m /\ keep (insA c) = true in
      exists h, marchBoth keep a b (Ray s d) = Val (h, Ray s d) /\
      ((V (hT h) (hMat h) /\ 0 < hT h /\ forall c m, V c m -> 0 < c -> hT h <= c) \/ (hT h = 0 /\ forall c m, V c m -> c <= 0)).
    Proof.
      intros Fin Ca Cb XA XB InsB InsA V. unfold marchBoth.
      destruct (march_reports keep a b s d X Ga insB Ca XA Sep InsB Few ninf) as (ha & Ea & Ha).
      rewrite Ea. cbn [obind].
      set (mx := if nltb (nofZ 0) (hT ha) then hT ha else ninf).
      destruct (march_reports keep b a s d X Gb insA Cb XB Sep InsA Few mx) as (hb & Eb & Hb).
      rewrite Eb. cbn [omap]. exists (frontmost ha hb). split; auto.
      rewrite frontmost_R. unfold mx in Hb. clear Eb mx. rnum.
      destruct Ha as [(c & Ic & Pc & Kc & Tc & Mc)|[Ta Na]].
      - rewrite Tc in *. rewrite (proj2 (Rltb_true 0 c)) in Hb by auto.
        assert (forall c0 m0, Ga c0 m0 -> 0 < c0 -> keep (insB c0) = true -> c <= c0) as MinA.
        { intros c0 m0 I0 P0 K0. destruct (Rle_or_lt c c0); auto. rewrite (Mc c0 m0) in K0; auto; discriminate. }
        destruct Hb as [(c2 & Ic2 & Pc2 & Kc2 & Tc2 & Mc2)|[Tb Nb]].
        + assert (forall c0 m0, Gb c0 m0 -> 0 < c0 -> keep (insA c0) = true -> c2 <= c0) as MinB.
          { intros c0 m0 I0 P0 K0. destruct (Rle_or_lt c2 c0); auto. rewrite (Mc2 c0 m0) in K0; auto; discriminate. }
          rewrite Tc2. rewrite !(proj2 (Rltb_true 0 _)) by auto. left.
          destruct (Rltb_spec c2 c); rewrite ?Tc, ?Tc2; (split; [unfold V; auto|]); (split; [assumption|]);
            intros c0 m0 [[I0 K0]|[I0 K0]] P0;
            try (specialize (MinA c0 m0 I0 P0 K0)); try (specialize (MinB c0 m0 I0 P0 K0)); lra.
        + rewrite Tb. cbn [hT noHit]. rnum. rewrite (proj2 (Rltb_true 0 c)) by auto.
          rewrite (proj2 (Rltb_false 0 0)) by lra. left.
          rewrite Tc.
          split; [unfold V; auto|]. split; [assumption|]. intros c0 m0 [[I0 K0]|[I0 K0]] P0; eauto.
      - rewrite Ta in *. cbn [hT noHit] in *. rnum. rewrite (proj2 (Rltb_false 0 0)) in * by lra.
        assert (forall c0 m0, Ga c0 m0 -> 0 < c0 -> keep (insB c0) = true -> False) as NoA.
        { intros c0 m0 I0 P0 K0. specialize (Na c0 m0 I0 P0 K0). specialize (Fin c0 (XA _ _ I0)). lra. }
        destruct Hb as [(c2 & Ic2 & Pc2 & Kc2 & Tc2 & Mc2)|[Tb Nb]].
        + rewrite Tc2. rewrite (proj2 (Rltb_true 0 c2)) by auto. rewrite (proj2 (Rltb_false c2 0)) by lra. left.
          rewrite Tc2. split; [unfold V; auto|]. split; [assumption|]. intros c0 m0 [[I0 K0]|[I0 K0]] P0.
          * exfalso; eauto.
          * destruct (Rle_or_lt c2 c0); auto. rewrite (Mc2 c0 m0) in K0; auto; discriminate.
        + right. rewrite Tb. cbn [hT noHit]. rnum. rewrite (proj2 (Rltb_false 0 0)) by lra. split; [reflexivity|].
          intros c0 m0 H0. destruct (Rle_or_lt c0 0) as [L|P0]; [exact L|exfalso]. destruct H0 as [[I0 K0]|[I0 K0]]; [eauto|].
          specialize (Nb c0 m0 I0 P0 K0). specialize (Fin c0 (XB _ _ I0)). lra.
    Qed.
  End Both.

  Lemma in_shift t0 X c : In c (map (fun x => x - t0) X) <-> In (t0 + c) X.
  Proof. rewrite in_map_iff. split; [intros (x & <- & I); replace (t0 + (x - t0)) with x by ring; exact I|intros I; exists (t0 + c); split; [ring|exact I]]. Qed.

  Lemma reports_shift X a s d G t0 : 0 <= t0 -> t0 = 0 \/ ~ In t0 X -> reports X a s d G ->
    reports (map (fun x => x - t0) X) a (along s d t0) d (fun c m => G (t0 + c) m).
  Proof.
    intros T0 H0 R0 t T H. destruct (R0 (t0 + t)) as (h & E & K); [lra| |].
    { destruct H as [-> |H]; [rewrite Rplus_0_r; exact H0|]. right. rewrite <- in_shift. exact H. }
    exists h. rewrite along_along. split; [exact E|]. destruct K as [(c & A & B & C & D)|(A & B)]; [left|right].
    - exists (c - t0). replace (t0 + (c - t0)) with c by ring. split; [exact A|]. split; [lra|]. split; [|lra].
      intros c' m' I L. specialize (C _ _ I). lra.
    - split; [|exact B]. intros c m' I. specialize (A _ _ I). lra.
  Qed.

  Lemma both_reports keep a b X s d Ga Gb insA insB : separated X -> (length X <= 100)%nat -> (forall c, In c X -> c < ninf) ->
    reports X a s d Ga -> reports X b s d Gb -> (forall c m, Ga c m -> In c X) -> (forall c m, Gb c m -> In c X) ->
    (forall c, oInside b (along s d c) = Val (insB c)) -> (forall c, oInside a (along s d c) = Val (insA c)) ->
    forall t0, 0 <= t0 -> t0 = 0 \/ ~ In t0 X -> exists h,
      marchBoth keep a b (Ray (along s d t0) d) = Val (h, Ray (along s d t0) d) /\
      let V c m := Ga c m /\ keep (insB c) = true \/ Gb c m /\ keep (insA c) = true in
      ((exists c, V c (hMat h) /\ t0 < c /\ (forall c' m', V c' m' -> t0 < c' -> c <= c') /\ hT h = c - t0) \/
       ((forall c m', V c m' -> c <= t0) /\ hT h <= 0)).
  Proof.
    intros Sep Few Fin Ra Rb XA XB IB IA t0 T0 H0.
    destruct (both_start keep a b (map (fun x => x - t0) X)) with (s := along s d t0) (d := d) (Ga := fun c m => Ga (t0 + c) m) (Gb := fun c m => Gb (t0 + c) m)
      (insA := fun c => insA (t0 + c)) (insB := fun c => insB (t0 + c)) as (h & E & K).
    - intros x y I J L. rewrite in_shift in I, J. specialize (Sep _ _ I J). lra.
    - rewrite map_length. exact Few.
    - intros c I. rewrite in_shift in I. specialize (Fin _ I). lra.
    - now apply reports_shift.
    - now apply reports_shift.
    - intros c m I. rewrite in_shift. eauto.
    - intros c m I. rewrite in_shift. eauto.
    - intros c. rewrite along_along. apply IB.
    - intros c. rewrite along_along. apply IA.
    - exists h. split; [exact E|]. cbv zeta in *. destruct K as [(A & B & C)|(A & B)]; [left|right].
      + exists (t0 + hT h). split; [exact A|]. split; [lra|]. split; [|lra].
        intros c' m' I L. specialize (C (c' - t0) m'). replace (t0 + (c' - t0)) with c' in C by ring. specialize (C I). lra.
      + split; [|lra]. intros c m' I. specialize (B (c - t0) m'). replace (t0 + (c - t0)) with c in B by ring. specialize (B I). lra.
  Qed.
End Reports.

(** ** Solids *)
Section Build.
  Context {M : Type} {NI : NumInf R}.
  Implicit Types a b : solid M.

  Fixpoint build a : object R M :=
    match a with
    | Ball m diam c => sphere m diam c
    | Block m lo hi => boxWithBounds m lo hi
    | Moved t a => match transformed (build a) t with Val o => o | _ => build a end
    | Meet a b => cAnd (build a) (build b)
    | Join a b => cOr (build a) (build b)
    | Minus a b => cDifference (build a) (build b)
    end.

  (** *** Transformed parts *)
  Definition pull (t : affine R) (p : pt) : pt := transformPoint (ainverse t) p.
  Definition pulld (t : affine R) (p : pt) : pt := transformDir (ainverse t) p.
  Lemma image_iff t (P : pt -> Prop) p : det3 (afA t) <> 0 -> (exists q, p = transformPoint t q /\ P q) <-> P (pull t p).
  Proof.
    intros D. split.
    - intros (q & -> & H). unfold pull. now rewrite ainverse_point_l.
    - intros H. exists (pull t p). split; [|exact H]. unfold pull. now rewrite ainverse_point_r.
  Qed.
  Lemma pull_along t s d k : pull t (along s d k) = along (pull t s) (pulld t d) k.
  Proof. apply affine_along. Qed.

  Lemma extent_ordered a : simple a -> proper a -> ordered (fst (extent a)) (snd (extent a)).
  Proof.
    pose proof tiny_pos. destruct a; cbn [simple proper extent fst snd]; try tauto. intros _ P.
    unfold ordered, minus3, plus3. cbn [vx vy vz]. repeat split; lra.
  Qed.
  Lemma extent_bounds a : simple a -> oBounds (build a) = Val (BBox (fst (extent a)) (snd (extent a))).
  Proof.
    destruct a as [m diam c|m lo hi|t a|a b|a b|a b]; cbn [simple build extent fst snd]; try tauto; intros _.
    unfold sphere, quadric, simpleObj, sphereData, bbWithMargin, bbTranslated, vadd, minus3, plus3. cbn [oBounds qBounds bMin bMax vx vy vz]. rnum.
    do 3 f_equal; ring.
  Qed.
  Lemma moved_build t a : simple a -> proper a -> build (Moved t a) = transformedWith (build a) t (BBox (hullLo t a) (hullHi t a)).
  Proof.
    intros S P. cbn [build]. rewrite transformed_base by (destruct a; try destruct S; reflexivity).
    rewrite (extent_bounds a S). cbn [obind]. rewrite moved_box by (now apply extent_ordered). cbn [omap obind].
    unfold hullLo, hullHi. destruct (extent a). reflexivity.
  Qed.
  Lemma hull_ordered t a : simple a -> proper a -> ordered (hullLo t a) (hullHi t a).
  Proof. intros S P. pose proof (extent_ordered a S P) as O. unfold hullLo, hullHi. destruct (extent a). now apply moved_ordered. Qed.
  Lemma skin_hull t a p : det3 (afA t) <> 0 -> simple a -> proper a -> skin a (pull t p) -> in_closed_box (hullLo t a) (hullHi t a) p.
  Proof.
    intros D S P K. pose proof (extent_ordered a S P) as O.
    assert (C : in_closed_box (fst (extent a)) (snd (extent a)) (pull t p)).
    { pose proof tiny_pos as TP. destruct a as [m diam c|m lo hi|u a|a b|a b|a b]; cbn [simple] in S; try tauto; cbn [skin extent fst snd] in *; [|exact (proj1 K)].
      cbn [proper] in P. set (q := pull t p) in *. unfold dist2, norm2, dot3, minus3 in K. cbn [vx vy vz] in K.
      assert (AB : forall x e, 0 <= e -> x * x <= e² -> - e <= x <= e) by (intros x e E L; split; [now apply Rsqr_neg_pos_le_0|now apply Rsqr_incr_0_var]).
      unfold in_closed_box, minus3, plus3. cbn [vx vy vz].
      pose proof (Rle_0_sqr (vx q - vx c)) as G1. pose proof (Rle_0_sqr (vy q - vy c)) as G2. pose proof (Rle_0_sqr (vz q - vz c)) as G3. unfold Rsqr in G1, G2, G3.
      assert (A1 := AB (vx q - vx c) (diam / 2) ltac:(lra) ltac:(lra)). assert (A2 := AB (vy q - vy c) (diam / 2) ltac:(lra) ltac:(lra)). assert (A3 := AB (vz q - vz c) (diam / 2) ltac:(lra) ltac:(lra)).
      repeat split; lra. }
    replace p with (transformPoint t (pull t p)) at 1 by (unfold pull; now rewrite ainverse_point_r).
    unfold hullLo, hullHi. destruct (extent a) as [lo hi]. now apply moved_encloses.
  Qed.

  Theorem build_inside a p : proper a -> exists i, oInside (build a) p = Val i /\ (i = true <-> within a p).
  Proof.
    revert p. induction a as [m diam c|m lo hi|u a IHa|a IHa b IHb|a IHa b IHb|a IHa b IHb]; intros p; cbn [build proper within].
    - intros H. exists (quadricInside (sphereData m diam c) p). split; [reflexivity|]. rewrite <- (sphere_inside m diam c p H). cbn [oInside sphere quadric simpleObj]. split; congruence.
    - intros H. exists (bbInside (BBox lo hi) p). split; [reflexivity|]. apply (box_inside m lo hi p _ eq_refl).
    - intros (D & S & P). change (exists i, oInside (build (Moved u a)) p = Val i /\ (i = true <-> exists q, p = transformPoint u q /\ within a q)). rewrite (moved_build u a S P). cbn [oInside transformedWith].
      destruct (IHa (pull u p) P) as (i & E & Q). exists i. split; [exact E|]. rewrite image_iff by exact D. exact Q.
    - intros [Ha Hb]. destruct (IHa p Ha) as (i & Ea & Ia). destruct (IHb p Hb) as (j & Eb & Ib). cbn [oInside cAnd]. rewrite Ea. unfold oand. cbn [obind].
      exists (i && j)%bool. split; [destruct i; [exact Eb|reflexivity]|]. rewrite andb_true_iff. tauto.
    - intros [Ha Hb]. destruct (IHa p Ha) as (i & Ea & Ia). destruct (IHb p Hb) as (j & Eb & Ib). cbn [oInside cOr]. rewrite Ea. unfold oor. cbn [obind].
      exists (i || j)%bool. split; [destruct i; [reflexivity|exact Eb]|]. rewrite orb_true_iff. tauto.
    - intros [Ha Hb]. destruct (IHa p Ha) as (i & Ea & Ia). destruct (IHb p Hb) as (j & Eb & Ib). unfold cDifference. cbn [oInside cAnd cNot]. rewrite Ea, Eb. unfold oand. cbn [obind omap].
      exists (i && negb j)%bool. split; [destruct i; reflexivity|]. rewrite andb_true_iff, negb_true_iff, <- Ia, <- Ib. destruct i, j; intuition congruence.
  Qed.

  Lemma face_skin a p m : face a p m -> skin a p.
  Proof. revert p. induction a as [| |u a IHa| | |]; intros p; cbn [face skin]; [tauto|tauto| |firstorder|firstorder|firstorder]. intros (q & E & F). left. eauto. Qed.

  Lemma fair_slanted a d : fair a d -> slanted d.
  Proof. induction a; cbn [fair]; tauto. Qed.
  Lemma slanted_nz d : slanted d -> d <> zero3.
  Proof. intros (X & _) ->. apply X. reflexivity. Qed.
  Lemma fair_pulled t a d : det3 (afA t) <> 0 -> fair (Moved t a) d -> slanted (pulld t d).
  Proof. intros D [_ H]. apply H. unfold pulld. symmetry. now apply ainverse_dir_r. Qed.
  Lemma simple_fair a d : simple a -> slanted d -> fair a d.
  Proof. destruct a; cbn [simple fair]; tauto. Qed.
  Lemma simple_parts a : simple a -> parts a = 1%nat.
  Proof. destruct a; cbn [simple parts]; tauto. Qed.
  Lemma simple_face a p : simple a -> skin a p -> exists m, face a p m.
  Proof. destruct a as [m ? ?|m ? ?| | | |]; cbn [simple skin face]; try tauto; intros _ K; exists m; auto. Qed.

  (** the crossings of the parts, as a list *)
  Lemma skin_list a s d : proper a -> fair a d -> ~ skin a s -> exists X, (length X <= 2 * parts a)%nat /\ forall t, In t X <-> skin a (along s d t).
  Proof.
    revert s d. induction a as [m diam c|m lo hi|u a IHa|a IHa b IHb|a IHa b IHb|a IHa b IHb]; intros s d; cbn [proper skin parts].
    - intros P SD _. destruct (ball_crossings m diam c s d P (slanted_nz d SD)) as (X & L & _ & I). exists X. split; [lia|exact I].
    - intros P SD N. destruct (box_crossings m lo hi s d P SD N) as (X & L & _ & I). exists X. split; [lia|exact I].
    - intros (D & S & P) FD N. assert (SP := fair_pulled u a d D FD). rewrite image_iff in N by exact D.
      destruct (IHa (pull u s) (pulld u d) P (simple_fair a _ S SP)) as (X & L & I); [tauto|]. rewrite (simple_parts a S) in L.
      destruct (box_crossings (@None M) (hullLo u a) (hullHi u a) s d (hull_ordered u a S P) (proj1 FD) ltac:(tauto)) as (Y & L' & _ & J).
      exists (X ++ Y). rewrite app_length. split; [lia|]. intros t. rewrite in_app_iff, I, J, image_iff, pull_along by exact D. tauto.
    - intros [Pa Pb] [Fa Fb] N. destruct (IHa s d Pa Fa) as (X & L & I); [tauto|]. destruct (IHb s d Pb Fb) as (Y & L' & J); [tauto|].
      exists (X ++ Y). rewrite app_length. split; [lia|]. intros t. rewrite in_app_iff, I, J. tauto.
    - intros [Pa Pb] [Fa Fb] N. destruct (IHa s d Pa Fa) as (X & L & I); [tauto|]. destruct (IHb s d Pb Fb) as (Y & L' & J); [tauto|].
      exists (X ++ Y). rewrite app_length. split; [lia|]. intros t. rewrite in_app_iff, I, J. tauto.
    - intros [Pa Pb] [Fa Fb] N. destruct (IHa s d Pa Fa) as (X & L & I); [tauto|]. destruct (IHb s d Pb Fb) as (Y & L' & J); [tauto|].
      exists (X ++ Y). rewrite app_length. split; [lia|]. intros t. rewrite in_app_iff, I, J. tauto.
  Qed.

  Lemma reports_ext X (o : object R M) s d G H : (forall c m, G c m <-> H c m) -> reports X o s d G -> reports X o s d H.
  Proof.
    intros E R0 t0 T0 H0. destruct (R0 t0 T0 H0) as (h & A & B). exists h. split; [exact A|]. destruct B as [(c & B1 & B2 & B3 & B4)|(B1 & B2)]; [left|right].
    - exists c. split; [now apply E|]. split; [exact B2|]. split; [|exact B4]. intros c' m' I. apply (B3 c' m'). now apply E.
    - split; [|exact B2]. intros c m' I. apply (B1 c m'). now apply E.
  Qed.

  Lemma reports_leaf X (o : object R M) s d cs (P : R -> Prop) m : crossings o s d cs -> (forall t, In t cs <-> P t) -> (forall t, P t -> In t X) ->
    (forall r h r', oIntersect o r = Val (h, r') -> 0 < hT h -> hMat h = m) -> reports X o s d (fun c m' => P c /\ m' = m).
  Proof.
    intros C I PX HM t0 T0 H0. destruct (C t0 T0) as (h & A & B). { destruct H0 as [-> |H0]; [auto|right]. rewrite I. intros K. auto. }
    exists h. split; [exact A|]. destruct B as [(c & B1 & B2 & B3 & B4)|(B1 & B2)]; [left|right].
    - exists c. split; [split; [now apply I|apply (HM _ _ _ A); lra]|]. split; [exact B2|]. split; [|exact B4]. intros c' m' [K _]. apply B3. now apply I.
    - split; [|exact B2]. intros c m' [K _]. apply B1. now apply I.
  Qed.

  Lemma reports_not X (o : object R M) s d G : reports X o s d G -> reports X (cNot o) s d G.
  Proof.
    intros R0 t0 T0 H0. destruct (R0 t0 T0 H0) as (h & A & B). cbn [oIntersect cNot]. rewrite A. cbn [omap obind]. eexists. split; [reflexivity|]. exact B.
  Qed.

  Lemma simple_reports a s d X : simple a -> proper a -> slanted d -> ~ skin a s -> (forall t, skin a (along s d t) -> In t X) ->
    reports X (build a) s d (fun c m => face a (along s d c) m).
  Proof.
    destruct a as [m diam c|m lo hi|u a|a b|a b|a b]; cbn [simple]; try tauto; intros _; cbn [proper skin face build]; intros P SD N SX.
    - destruct (ball_crossings m diam c s d P (slanted_nz d SD)) as (cs & L & C & I). apply (reports_leaf X _ s d cs _ m C I SX).
      intros r h r' E Hp. cbn [oIntersect sphere quadric simpleObj omap obind] in E. injection E as <- _. revert Hp. unfold quadricIntersect. destruct (quadricABC _ _) as [[A B] C'].
      cbv zeta. destruct (nltb _ _); [cbn; rnum; lra|]. destruct (if nltb _ _ then _ else _) as [t1 t2].
      destruct (_ && _)%bool; [reflexivity|]. destruct (_ && _)%bool; [reflexivity|]. cbn; rnum; lra.
    - destruct (box_crossings m lo hi s d P SD N) as (cs & L & C & I). apply (reports_leaf X _ s d cs _ m C I SX).
      intros r h r' E Hp. cbn [oIntersect boxWithBounds simpleObj] in E. apply omap_val in E. destruct E as (h0 & E & E'). injection E' as -> _. unfold boxIntersect in E. cbv zeta in E.
      destruct (negb _); [injection E as <-; cbn in Hp; rnum; lra|]. apply omap_val in E. destruct E as (n & _ & ->). reflexivity.
  Qed.

  Lemma moved_reports u a s d X : det3 (afA u) <> 0 -> simple a -> proper a -> fair (Moved u a) d -> ~ skin (Moved u a) s -> (forall t, skin (Moved u a) (along s d t) -> In t X) ->
    reports X (build (Moved u a)) s d (fun c m => face (Moved u a) (along s d c) m).
  Proof.
    intros D S P FD N SX. assert (SP := fair_pulled u a d D FD). rewrite (moved_build u a S P).
    assert (SX1 : forall t, skin a (along (pull u s) (pulld u d) t) -> In t X).
    { intros t K. apply SX. cbn [skin]. left. apply image_iff; [exact D|]. now rewrite pull_along. }
    assert (N1 : ~ skin a (pull u s)). { intros K. apply N. cbn [skin]. left. now apply image_iff. }
    apply (reports_ext X _ s d (fun c m => face a (along (pull u s) (pulld u d) c) m)).
    { intros c m. cbn [face]. rewrite (image_iff u (fun q => face a q m)) by exact D. now rewrite pull_along. }
    intros t0 T0 H0. destruct (simple_reports a _ _ X S P SP N1 SX1 t0 T0 H0) as (h & E & K).
    destruct (slab_line (hullLo u a) (hullHi u a) s d (hull_ordered u a S P) (proj1 FD)) as (ten & tex & IN & _ & PE & _ & BB).
    cbn [oIntersect transformedWith]. destruct (bbIntersects (BBox (hullLo u a) (hullHi u a)) (Ray (along s d t0) d)) eqn:B.
    - cbv zeta. cbn [rStart rDir]. fold (pull u (along s d t0)). fold (pulld u d). rewrite pull_along, E. cbn [omap obind]. eexists. split; [reflexivity|]. exact K.
    - eexists. split; [reflexivity|]. right. split; [|cbn [hT noHit]; rnum; lra].
      intros c m F. apply Rnot_lt_le. intros G. apply face_skin in F. rewrite <- pull_along in F. apply (skin_hull u a _ D S P) in F. apply IN in F.
      assert (NE : ten <> t0).
      { intros ->. assert (Q : skin (Moved u a) (along s d t0)) by (cbn [skin]; right; apply on_plane_surface; [exact PE|apply IN; lra]).
        destruct H0 as [-> |H0]; [rewrite along_zero in Q; contradiction|]. apply H0, SX, Q. }
      unfold bbIntersects in B. rewrite (BB t0) in B. rewrite (proj2 (Rltb_false (tex - t0) (ten - t0))) in B by lra. rnum.
      destruct (Rltb_spec (ten - t0) 0); apply Rltb_false in B; lra.
  Qed.

  Theorem build_reports a s d X : proper a -> fair a d -> ~ skin a s -> separated X -> (length X <= 100)%nat -> (forall c, In c X -> c < ninf) ->
    (forall t, skin a (along s d t) -> In t X) -> reports X (build a) s d (fun c m => face a (along s d c) m).
  Proof.
    intros P SD N Sep Few Fin. revert P SD N.
    assert (TWO : forall keep (A B : object R M) a b (ok : pt -> Prop) (ok' : pt -> Prop), proper a -> proper b ->
      reports X A s d (fun c m => face a (along s d c) m) -> reports X B s d (fun c m => face b (along s d c) m) ->
      (forall t, skin a (along s d t) -> In t X) -> (forall t, skin b (along s d t) -> In t X) ->
      (forall p, exists i, oInside B p = Val i /\ (keep i = true <-> ok p)) -> (forall p, exists i, oInside A p = Val i /\ (keep i = true <-> ok' p)) ->
      forall t0, 0 <= t0 -> t0 = 0 \/ ~ In t0 X -> exists h,
      marchBoth keep A B (Ray (along s d t0) d) = Val (h, Ray (along s d t0) d) /\
      let V c m := face a (along s d c) m /\ ok (along s d c) \/ face b (along s d c) m /\ ok' (along s d c) in
      ((exists c, V c (hMat h) /\ t0 < c /\ (forall c' m', V c' m' -> t0 < c' -> c <= c') /\ hT h = c - t0) \/
       ((forall c m', V c m' -> c <= t0) /\ hT h <= 0))).
    { intros keep A B a' b' ok ok' Pa Pb Ra Rb Xa Xb IB IA t0 T0 H0.
      set (insB := fun c => match oInside B (along s d c) with Val i => i | _ => false end).
      set (insA := fun c => match oInside A (along s d c) with Val i => i | _ => false end).
      destruct (both_reports keep A B X s d _ _ insA insB Sep Few Fin Ra Rb) with (t0 := t0) as (h & E & K); auto.
      - intros c m F. apply Xa. exact (face_skin _ _ _ F).
      - intros c m F. apply Xb. exact (face_skin _ _ _ F).
      - intros c. unfold insB. destruct (IB (along s d c)) as (i & -> & _). reflexivity.
      - intros c. unfold insA. destruct (IA (along s d c)) as (i & -> & _). reflexivity.
      - exists h. split; [exact E|]. cbv zeta in *.
        assert (OB : forall c, keep (insB c) = true <-> ok (along s d c)) by (intros c; unfold insB; destruct (IB (along s d c)) as (i & -> & Q); exact Q).
        assert (OA : forall c, keep (insA c) = true <-> ok' (along s d c)) by (intros c; unfold insA; destruct (IA (along s d c)) as (i & -> & Q); exact Q).
        destruct K as [(c & K1 & K2 & K3 & K4)|(K1 & K2)]; [left|right].
        + exists c. rewrite <- OB, <- OA. split; [exact K1|]. split; [exact K2|]. split; [|exact K4]. intros c' m' V. rewrite <- OB, <- OA in V. exact (K3 c' m' V).
        + split; [|exact K2]. intros c m' V. rewrite <- OB, <- OA in V. exact (K1 c m' V). }
    induction a as [m diam c|m lo hi|u a IHa|a IHa b IHb|a IHa b IHb|a IHa b IHb]; intros P SD N SX.
    - exact (simple_reports (Ball m diam c) s d X I P SD N SX).
    - exact (simple_reports (Block m lo hi) s d X I P SD N SX).
    - destruct P as (D & S & P). exact (moved_reports u a s d X D S P SD N SX).
    - cbn [proper skin face build fair] in *. destruct P as [Pa Pb]. destruct SD as [Fa Fb]. assert (Sa : forall t, skin a (along s d t) -> In t X) by auto. assert (Sb : forall t, skin b (along s d t) -> In t X) by auto.
      assert (Ra := IHa Pa Fa ltac:(tauto) Sa). assert (Rb := IHb Pb Fb ltac:(tauto) Sb).
      intros t0 T0 H0. apply (TWO (fun x => x) (build a) (build b) a b (within b) (within a)); auto; intros p; apply build_inside; auto.
    - cbn [proper skin face build fair] in *. destruct P as [Pa Pb]. destruct SD as [Fa Fb]. assert (Sa : forall t, skin a (along s d t) -> In t X) by auto. assert (Sb : forall t, skin b (along s d t) -> In t X) by auto.
      assert (Ra := IHa Pa Fa ltac:(tauto) Sa). assert (Rb := IHb Pb Fb ltac:(tauto) Sb).
      intros t0 T0 H0. apply (TWO negb (build a) (build b) a b (fun p => ~ within b p) (fun p => ~ within a p)); auto;
      intros p; [destruct (build_inside b p Pb) as (i & E & Q)|destruct (build_inside a p Pa) as (i & E & Q)]; exists i; (split; [exact E|]); rewrite <- Q; destruct i; cbn; intuition congruence.
    - cbn [proper skin face build fair] in *. destruct P as [Pa Pb]. destruct SD as [Fa Fb]. assert (Sa : forall t, skin a (along s d t) -> In t X) by auto. assert (Sb : forall t, skin b (along s d t) -> In t X) by auto.
      assert (Ra := IHa Pa Fa ltac:(tauto) Sa). assert (Rb := IHb Pb Fb ltac:(tauto) Sb).
      intros t0 T0 H0. apply (TWO (fun x => x) (build a) (cNot (build b)) a b (fun p => ~ within b p) (within a)); auto; [now apply reports_not| |intros p; apply build_inside; auto].
      intros p. destruct (build_inside b p Pb) as (i & E & Q). exists (negb i). cbn [oInside cNot]. rewrite E. split; [reflexivity|]. rewrite <- Q. destruct i; cbn; intuition congruence.
  Qed.

  (** *** Nothing is passed unseen *)
  Lemma within_same a s d t1 t2 : proper a -> fair a d -> t1 <= t2 -> (forall t, t1 <= t <= t2 -> ~ skin a (along s d t)) ->
    within a (along s d t1) <-> within a (along s d t2).
  Proof.
    intros P SD L. revert s d P SD. induction a as [m diam c|m lo hi|u a IHa|a IHa b IHb|a IHa b IHb|a IHa b IHb]; intros s d; cbn [proper skin within fair].
    - intros _ _ N. set (f := fun t => dist2 (along s d t) c - (diam / 2)²).
      assert (CF : continuity f). { unfold f, dist2, norm2, dot3, along, plus3, scal3, minus3, Rsqr. cbn [vx vy vz]. reg. }
      destruct (Rle_dec (f t1 * f t2) 0) as [G|G].
      + destruct (IVT_cor f t1 t2 CF L G) as (z & Hz & E). exfalso. apply (N z Hz). unfold f in E. lra.
      + apply Rnot_le_lt in G. assert (S1 : dist2 (along s d t1) c - (diam / 2)² = f t1) by reflexivity. assert (S2 : dist2 (along s d t2) c - (diam / 2)² = f t2) by reflexivity.
        split; intros H; nra.
    - intros O SD N. destruct (slab_line lo hi s d O SD) as (ten & tex & IN & OP & PE & PX & _).
      assert (CL : forall t, in_open_box lo hi (along s d t) -> in_closed_box lo hi (along s d t)) by (unfold in_open_box, in_closed_box; intros; lra).
      assert (OPEN : forall t, t1 <= t <= t2 -> in_closed_box lo hi (along s d t) -> in_open_box lo hi (along s d t)).
      { intros t T C. destruct (classic (in_open_box lo hi (along s d t))) as [H|H]; [exact H|]. exfalso. apply (N t T). split; assumption. }
      assert (SE : forall t, t1 <= t <= t2 -> on_plane lo hi (along s d t) -> ~ in_closed_box lo hi (along s d t)).
      { intros t T ON C. apply (N t T). now apply on_plane_surface. }
      split; intros H; apply CL, IN in H; apply OPEN; try lra; apply IN.
      + split; [lra|]. destruct (Rle_dec t2 tex) as [Q|Q]; [exact Q|exfalso]. apply (SE tex); [lra|exact PX|apply IN; lra].
      + split; [|lra]. destruct (Rle_dec ten t1) as [Q|Q]; [exact Q|exfalso]. apply (SE ten); [lra|exact PE|apply IN; lra].
    - intros (D & S & P) FD N. rewrite !image_iff, !pull_along by exact D. apply IHa; [exact P|apply simple_fair; [exact S|exact (fair_pulled u a d D FD)]|].
      intros t T K. apply (N t T). left. apply image_iff; [exact D|]. now rewrite pull_along.
    - intros [Pa Pb] [Fa Fb] N. rewrite (IHa s d Pa Fa), (IHb s d Pb Fb); [tauto| |]; intros t T; specialize (N t T); tauto.
    - intros [Pa Pb] [Fa Fb] N. rewrite (IHa s d Pa Fa), (IHb s d Pb Fb); [tauto| |]; intros t T; specialize (N t T); tauto.
    - intros [Pa Pb] [Fa Fb] N. rewrite (IHa s d Pa Fa), (IHb s d Pb Fb); [tauto| |]; intros t T; specialize (N t T); tauto.
  Qed.

  Lemma within_once a s d t1 t2 c : proper a -> fair a d -> apart a s d -> 0 <= t1 -> t1 <= c <= t2 ->
    (forall t, t1 <= t <= t2 -> skin a (along s d t) -> t = c) ->
    (within a (along s d t1) <-> within a (along s d t2)) \/ exists m, face a (along s d c) m.
  Proof.
    intros P SD AP T1 TC. revert P SD AP.
    assert (LEAF : forall a, proper a -> fair a d -> (forall t, t1 <= t <= t2 -> skin a (along s d t) -> t = c) -> ~ skin a (along s d c) ->
      forall t t', t1 <= t <= t2 -> t1 <= t' <= t2 -> within a (along s d t) <-> within a (along s d t')).
    { intros a0 P F0 ONE N. assert (NN : forall t, t1 <= t <= t2 -> ~ skin a0 (along s d t)) by (intros t T K; pose proof (ONE t T K); subst t; contradiction).
      intros t t' T T'. destruct (Rle_dec t t').
      - apply within_same; auto; try lra. intros u U. apply NN. lra.
      - symmetry. apply within_same; auto; try lra. intros u U. apply NN. lra. }
    induction a as [m diam c0|m lo hi|u a IHa|a IHa b IHb|a IHa b IHb|a IHa b IHb]; intros P SD AP ONE.
    - destruct (classic (skin (Ball m diam c0) (along s d c))) as [K|K]; [right; exists m; split; [exact K|reflexivity]|left]. apply (LEAF _ P SD ONE K); lra.
    - destruct (classic (skin (Block m lo hi) (along s d c))) as [K|K]; [right; exists m; split; [exact K|reflexivity]|left]. apply (LEAF _ P SD ONE K); lra.
    - destruct P as (D & S & P). assert (FP := simple_fair a _ S (fair_pulled u a d D SD)).
      destruct (classic (skin a (pull u (along s d c)))) as [K|K].
      + right. destruct (simple_face a _ S K) as (m & F). exists m. cbn [face]. now apply (image_iff u (fun q => face a q m)).
      + left. cbn [within]. rewrite !image_iff, !pull_along by exact D. apply within_same; [exact P|exact FP|lra|].
        intros t T Q. rewrite <- pull_along in Q. assert (t = c); [|subst t; contradiction]. apply (ONE t T). cbn [skin]. left. now apply image_iff.
    - cbn [proper apart within face skin fair] in *. destruct P as [Pa Pb]. destruct SD as [Fa Fb]. destruct AP as (APa & APb & NO). specialize (NO c ltac:(lra)).
      assert (Oa : forall t, t1 <= t <= t2 -> skin a (along s d t) -> t = c) by (intros; apply ONE; auto). assert (Ob : forall t, t1 <= t <= t2 -> skin b (along s d t) -> t = c) by (intros; apply ONE; auto).
      destruct (classic (skin a (along s d c))) as [K|K].
      + assert (B1 := LEAF b Pb Fb Ob ltac:(tauto) t1 c ltac:(lra) ltac:(lra)). assert (B2 := LEAF b Pb Fb Ob ltac:(tauto) t2 c ltac:(lra) ltac:(lra)).
        destruct (IHa Pa Fa APa Oa) as [S|(m & F)]; [left; tauto|]. destruct (classic (within b (along s d c))); [right; exists m; tauto|left; tauto].
      + assert (A1 := LEAF a Pa Fa Oa K t1 c ltac:(lra) ltac:(lra)). assert (A2 := LEAF a Pa Fa Oa K t2 c ltac:(lra) ltac:(lra)).
        destruct (IHb Pb Fb APb Ob) as [S|(m & F)]; [left; tauto|]. destruct (classic (within a (along s d c))); [right; exists m; tauto|left; tauto].
    - cbn [proper apart within face skin fair] in *. destruct P as [Pa Pb]. destruct SD as [Fa Fb]. destruct AP as (APa & APb & NO). specialize (NO c ltac:(lra)).
      assert (Oa : forall t, t1 <= t <= t2 -> skin a (along s d t) -> t = c) by (intros; apply ONE; auto). assert (Ob : forall t, t1 <= t <= t2 -> skin b (along s d t) -> t = c) by (intros; apply ONE; auto).
      destruct (classic (skin a (along s d c))) as [K|K].
      + assert (B1 := LEAF b Pb Fb Ob ltac:(tauto) t1 c ltac:(lra) ltac:(lra)). assert (B2 := LEAF b Pb Fb Ob ltac:(tauto) t2 c ltac:(lra) ltac:(lra)).
        destruct (IHa Pa Fa APa Oa) as [S|(m & F)]; [left; tauto|]. destruct (classic (within b (along s d c))); [left; tauto|right; exists m; tauto].
      + assert (A1 := LEAF a Pa Fa Oa K t1 c ltac:(lra) ltac:(lra)). assert (A2 := LEAF a Pa Fa Oa K t2 c ltac:(lra) ltac:(lra)).
        destruct (IHb Pb Fb APb Ob) as [S|(m & F)]; [left; tauto|]. destruct (classic (within a (along s d c))); [left; tauto|right; exists m; tauto].
    - cbn [proper apart within face skin fair] in *. destruct P as [Pa Pb]. destruct SD as [Fa Fb]. destruct AP as (APa & APb & NO). specialize (NO c ltac:(lra)).
      assert (Oa : forall t, t1 <= t <= t2 -> skin a (along s d t) -> t = c) by (intros; apply ONE; auto). assert (Ob : forall t, t1 <= t <= t2 -> skin b (along s d t) -> t = c) by (intros; apply ONE; auto).
      destruct (classic (skin a (along s d c))) as [K|K].
      + assert (B1 := LEAF b Pb Fb Ob ltac:(tauto) t1 c ltac:(lra) ltac:(lra)). assert (B2 := LEAF b Pb Fb Ob ltac:(tauto) t2 c ltac:(lra) ltac:(lra)).
        destruct (IHa Pa Fa APa Oa) as [S|(m & F)]; [left; tauto|]. destruct (classic (within b (along s d c))); [left; tauto|right; exists m; tauto].
      + assert (A1 := LEAF a Pa Fa Oa K t1 c ltac:(lra) ltac:(lra)). assert (A2 := LEAF a Pa Fa Oa K t2 c ltac:(lra) ltac:(lra)).
        destruct (IHb Pb Fb APb Ob) as [S|(m & F)]; [left; tauto|]. destruct (classic (within a (along s d c))); [right; exists m; tauto|left; tauto].
  Qed.

  Lemma first_after (X : list R) t1 : (exists c, In c X /\ t1 < c /\ forall c', In c' X -> t1 < c' -> c <= c') \/ (forall c, In c X -> c <= t1).
  Proof.
    induction X as [|x X IH]; [right; intros c []|]. destruct (Rlt_dec t1 x) as [L|L].
    - left. destruct IH as [(c & I & T & F)|F].
      + destruct (Rle_dec x c) as [G|G].
        * exists x. split; [left; reflexivity|]. split; [exact L|]. intros c' [<-|I'] T'; [lra|]. specialize (F c' I' T'). lra.
        * exists c. split; [right; exact I|]. split; [exact T|]. intros c' [<-|I'] T'; [lra|]. apply F; auto.
      + exists x. split; [left; reflexivity|]. split; [exact L|]. intros c' [<-|I'] T'; [lra|]. specialize (F c' I'). lra.
    - destruct IH as [(c & I & T & F)|F]; [left|right].
      + exists c. split; [right; exact I|]. split; [exact T|]. intros c' [<-|I'] T'; [lra|auto].
      + intros c' [<-|I']; [lra|auto].
  Qed.

  Lemma within_chain a s d X : proper a -> fair a d -> apart a s d -> separated X -> (forall t, In t X <-> skin a (along s d t)) ->
    forall n t1 t2, (ahead t1 X <= n)%nat -> 0 <= t1 <= t2 -> ~ In t1 X -> (forall t m, t1 < t <= t2 -> ~ face a (along s d t) m) ->
    within a (along s d t1) <-> within a (along s d t2).
  Proof.
    intros P SD AP Sep IX. pose proof tiny_pos as TP. induction n as [|n IH]; intros t1 t2 LE T N1 NF.
    - assert (NX := ahead_zero X t1 ltac:(lia)). apply within_same; auto; try lra. intros t Ht K. apply IX in K. assert (K' := NX t K). assert (t = t1) by lra. subst t. contradiction.
    - destruct (first_after X t1) as [(c & I & L & F)|NX].
      2:{ apply within_same; auto; try lra. intros t Ht K. apply IX in K. assert (K' := NX t K). assert (t = t1) by lra. subst t. contradiction. }
      destruct (Rle_dec c t2) as [LC|LC].
      2:{ apply within_same; auto; try lra. intros t Ht K. apply IX in K. destruct (Req_dec t t1) as [-> |Q]; [contradiction|]. specialize (F t K). lra. }
      assert (STEP : forall t', c <= t' -> t' <= c + tiny -> t' <= t2 -> within a (along s d t1) <-> within a (along s d t')).
      { intros t' G1 G2 G3. destruct (within_once a s d t1 t' c P SD AP) as [S|(m & FA)]; [lra|lra| |exact S|exfalso; apply (NF c m); [lra|exact FA]].
        intros t Ht K. apply IX in K. destruct (Req_dec t t1) as [-> |Q]; [contradiction|]. assert (c <= t) by (apply F; [exact K|lra]). destruct (Req_dec t c) as [E|E]; [exact E|exfalso]. specialize (Sep c t I K). lra. }
      destruct (Rle_dec t2 (c + tiny)) as [G|G]; [apply STEP; lra|].
      rewrite (STEP (c + tiny)) by lra. apply IH.
      + assert (ahead (c + tiny) X < ahead t1 X)%nat by (apply (ahead_decreases X t1 _ c); auto; lra). lia.
      + lra.
      + intros K. specialize (Sep c (c + tiny) I K). lra.
      + intros t m Ht. apply NF. lra.
  Qed.

  (** *** What is seen *)
  Section Seen.
    Variables (a : solid M) (s d : pt).
    Hypothesis P : proper a.
    Hypothesis SD : fair a d.
    Hypothesis N : ~ skin a s.
    Hypothesis Few : (parts a <= 50)%nat.
    Hypothesis Gap : forall t t', skin a (along s d t) -> skin a (along s d t') -> t < t' -> t + tiny < t'.
    Hypothesis Fin : forall t, skin a (along s d t) -> t < ninf.

    Theorem solid_seen : exists h, oIntersect (build a) (Ray s d) = Val (h, Ray s d) /\
      ((0 < hT h /\ face a (along s d (hT h)) (hMat h) /\ forall t m, 0 < t -> face a (along s d t) m -> hT h <= t) \/
       (hT h <= 0 /\ forall t m, 0 < t -> ~ face a (along s d t) m)).
    Proof.
      destruct (skin_list a s d P SD N) as (X & L & I).
      destruct (build_reports a s d X P SD N) with (t0 := 0) as (h & E & K); try lra; try lia; auto.
      - intros c c' C C'. apply Gap; now apply I.
      - intros c C. apply Fin. now apply I.
      - intros t. apply I.
      - rewrite along_zero in E. exists h. split; [exact E|]. destruct K as [(c & K1 & K2 & K3 & K4)|(K1 & K2)]; [left|right].
        + replace (hT h) with c by lra. split; [exact K2|]. split; [exact K1|]. intros t m T F. exact (K3 t m F T).
        + split; [exact K2|]. intros t m T F. specialize (K1 t m F). lra.
    Qed.

    Theorem solid_not_missed : apart a s d -> exists h, oIntersect (build a) (Ray s d) = Val (h, Ray s d) /\
      forall t, 0 < t -> ~ (within a (along s d t) <-> within a s) -> 0 < hT h <= t /\ face a (along s d (hT h)) (hMat h).
    Proof.
      intros AP. destruct solid_seen as (h & E & H). exists h. split; [exact E|]. intros t T D.
      destruct (skin_list a s d P SD N) as (X & L & I).
      assert (EX : exists t' m, 0 < t' <= t /\ face a (along s d t') m).
      { apply NNPP. intros NE. apply D. symmetry. rewrite <- (along_zero s d) at 1. apply (within_chain a s d X P SD AP) with (n := ahead 0 X); auto; try lra.
        - intros c c' C C'. apply Gap; now apply I.
        - rewrite I, along_zero. exact N.
        - intros t' m T' F. apply NE. eauto. }
      destruct EX as (t' & m & T' & F). destruct H as [(H1 & H2 & H3)|(H1 & H2)].
      - specialize (H3 t' m (proj1 T') F). split; [lra|exact H2].
      - exfalso. exact (H2 t' m (proj1 T') F).
    Qed.
  End Seen.
End Build.

(** a ball cut with itself has no surface *)
Theorem twin_unseen {M : Type} {NI : NumInf R} (m m' : option M) diam c s d :
  0 <= diam -> slanted d -> dist2 s c <> (diam / 2)² ->
  (forall t t', dist2 (along s d t) c = (diam / 2)² -> dist2 (along s d t') c = (diam / 2)² -> t < t' -> t + tiny < t') ->
  (forall t, dist2 (along s d t) c = (diam / 2)² -> t < ninf) ->
  exists h, oIntersect (build (Meet (Ball m diam c) (Ball m' diam c))) (Ray s d) = Val (h, Ray s d) /\ hT h <= 0.
Proof.
  intros P SD N G F. destruct (solid_seen (Meet (Ball m diam c) (Ball m' diam c)) s d) as (h & E & H); cbn [proper skin parts fair]; auto.
  - tauto.
  - lia.
  - intros t t' [A|A] [B|B]; auto.
  - intros t [A|A]; auto.
  - exists h. split; [exact E|]. destruct H as [(_ & H & _)|(H & _)]; [|exact H]. cbn [face within] in H. lra.
Qed.

(** ** An example: a ball of radius 3, cut with a cube, with a hollow inside *)
Section Shell.
  Context {NI : NumInf R}.
  Definition shell : solid nat :=
    Minus (Meet (Ball (Some 1%nat) 6 (Vec 0 0 0)) (Block (Some 2%nat) (Vec (-(3/2)) (-(3/2)) (-(3/2))) (Vec (3/2) (3/2) (3/2)))) (Ball (Some 3%nat) 3 (Vec 0 0 0)).

  Lemma shell_ball r t : 0 <= r -> dist2 (along (Vec (-5) (-10) (-10)) (Vec 1 2 2) t) (Vec 0 0 0) = (6 * r / 2)² -> t = 5 - r \/ t = 5 + r.
  Proof.
    intros Hr H. unfold dist2, norm2, dot3, along, plus3, scal3, minus3, Rsqr in H. cbn [vx vy vz] in H.
    assert (E : (t - (5 - r)) * (t - (5 + r)) = 0) by nra. apply Rmult_integral in E. lra.
  Qed.
  Lemma shell_skin t : skin shell (along (Vec (-5) (-10) (-10)) (Vec 1 2 2) t) -> t = 4 \/ t = 6 \/ t = 17/4 \/ t = 23/4 \/ t = 9/2 \/ t = 11/2.
  Proof.
    cbn [skin shell]. intros [[H|[C N]]|H].
    - replace 6 with (6 * 1) in H by ring. apply shell_ball in H; lra.
    - unfold in_closed_box in C. unfold in_open_box in N. unfold along, plus3, scal3 in C, N. cbn [vx vy vz] in C, N.
      destruct (Req_dec t (17/4)); [auto|]. destruct (Req_dec t (23/4)); [auto|]. exfalso. apply N. lra.
    - replace 3 with (6 * (1/2)) in H by lra. apply shell_ball in H; lra.
  Qed.

  Theorem shell_example : 6 < ninf -> exists h,
    oIntersect (build shell) (Ray (Vec (-5) (-10) (-10)) (Vec 1 2 2)) = Val (h, Ray (Vec (-5) (-10) (-10)) (Vec 1 2 2)) /\
    hT h = 17/4 /\ hMat h = Some 2%nat.
  Proof.
    intros I. assert (TN : (tiny : R) < / 10) by (unfold tiny, nQ; rnum; change (1204 * 1024)%Z with 1232896%Z; lra).
    destruct (solid_seen shell (Vec (-5) (-10) (-10)) (Vec 1 2 2)) as (h & E & H).
    - cbn [proper shell]. unfold ordered. cbn [vx vy vz]. repeat split; lra.
    - cbn [fair shell]. unfold slanted. cbn [vx vy vz]. repeat split; lra.
    - intros K. rewrite <- (along_zero _ (Vec 1 2 2)) in K. apply shell_skin in K. lra.
    - cbn. lia.
    - intros t t' A B L. apply shell_skin in A. apply shell_skin in B.
      destruct A as [-> |[-> |[-> |[-> |[-> | ->]]]]]; destruct B as [-> |[-> |[-> |[-> |[-> | ->]]]]]; lra.
    - intros t K. apply shell_skin in K. lra.
    - exists h. split; [exact E|].
      assert (F0 : face shell (along (Vec (-5) (-10) (-10)) (Vec 1 2 2) (17/4)) (Some 2%nat)).
      { cbn [face shell within]. left. split; [right; split; [split; [split|reflexivity]|]|];
          unfold in_closed_box, in_open_box, dist2, norm2, dot3, along, plus3, scal3, minus3, Rsqr; cbn [vx vy vz]; lra. }
      destruct H as [(H1 & H2 & H3)|(H1 & H2)]; [|exfalso; apply (H2 (17/4) (Some 2%nat)); [lra|exact F0]].
      specialize (H3 (17/4) (Some 2%nat) ltac:(lra) F0). assert (K := shell_skin _ (face_skin _ _ _ H2)).
      assert (Q : hT h = 4 \/ hT h = 17/4) by lra. cbn [face shell within] in H2. unfold on_box_surface, in_closed_box, in_open_box, dist2, norm2, dot3, along, plus3, scal3, minus3, Rsqr in H2. cbn [vx vy vz] in H2.
      destruct Q as [Q|Q]; rewrite Q in H2.
      + exfalso. destruct H2 as [[[[_ H2]|[[H2 _] _]] _]|[[H2 _] _]]; lra.
      + split; [exact Q|]. destruct H2 as [[[[[H2 _] _]|[[_ H2] _]] _]|[[H2 _] _]]; try lra. exact H2.
  Qed.
End Shell.

(** ** Another: a ball stretched into an egg, with its end cut off *)
Section Egg.
  Context {NI : NumInf R}.
  Definition stretch : affine R := Affine (Matrix (Vec (1/2) 0 0) (Vec 0 1 0) (Vec 0 0 2)) (Vec 0 0 0).
  Definition egg : solid nat :=
    Minus (Moved stretch (Ball (Some 1%nat) 6 (Vec 0 0 0))) (Block (Some 2%nat) (Vec (-9) (-9) (-9)) (Vec 9 9 (-1))).
  Lemma stretch_pre p q : p = transformPoint stretch q <-> q = Vec (2 * vx p) (vy p) (vz p / 2).
  Proof.
    unfold transformPoint, stretch, vadd, mmulvec. cbn [afA afB m0 m1 m2 vx vy vz]. rnum. split.
    - intros ->. cbn [vx vy vz]. apply vec_eq; cbn [vx vy vz]; lra.
    - intros ->. apply vec_eq; cbn [vx vy vz]; lra.
  Qed.
  Lemma stretch_image (P : pt -> Prop) p : (exists q, p = transformPoint stretch q /\ P q) <-> P (Vec (2 * vx p) (vy p) (vz p / 2)).
  Proof.
    split; [intros (q & E & H); apply stretch_pre in E; now subst q|]. intros H. eexists. split; [now apply stretch_pre|exact H].
  Qed.
  Lemma egg_hull : hullLo stretch (Ball (Some 1%nat) 6 (Vec 0 0 0)) = Vec (- (3 + tiny) / 2) (- (3 + tiny)) (- (2 * (3 + tiny))) /\
    hullHi stretch (Ball (Some 1%nat) 6 (Vec 0 0 0)) = Vec ((3 + tiny) / 2) (3 + tiny) (2 * (3 + tiny)).
  Proof.
    pose proof tiny_pos as TP. unfold hullLo, hullHi. cbn [extent]. unfold mid, half, spread, transformPoint, stretch, vadd, mmulvec, minus3, plus3, scal3.
    cbn [afA afB m0 m1 m2 vx vy vz]. rnum. rewrite !Rabs_R0, Rabs_R1, (Rabs_pos_eq (1/2)), (Rabs_pos_eq 2) by lra.
    split; apply vec_eq; cbn [vx vy vz]; lra.
  Qed.
  Lemma egg_skin t : skin egg (along (Vec (-5) (-10) (-10)) (Vec 1 2 2) t) ->
    t = 4 \/ t = 6 \/ t = 7/2 - tiny/2 \/ t = 13/2 + tiny/2 \/ t = 1/2 \/ t = 9/2.
  Proof.
    pose proof tiny_pos as TP. cbn [skin egg]. rewrite stretch_image. destruct egg_hull as [-> ->]. unfold on_box_surface, in_closed_box, in_open_box, dist2, norm2, dot3, along, plus3, scal3, minus3, Rsqr. cbn [vx vy vz].
    intros [[H|[C N]]|[C N]].
    - assert (E : (t - 4) * (t - 6) = 0) by lra. apply Rmult_integral in E. lra.
    - destruct (Req_dec t (7/2 - tiny/2)) as [E|E]; [auto|]. destruct (Req_dec t (13/2 + tiny/2)) as [G|G]; [auto|]. exfalso. apply N.
      assert (7/2 - tiny/2 < t) by lra. assert (t < 13/2 + tiny/2) by lra. repeat split; lra.
    - destruct (Req_dec t (1/2)) as [E|E]; [tauto|]. destruct (Req_dec t (9/2)) as [G|G]; [tauto|]. exfalso. apply N.
      assert (1/2 < t) by lra. assert (t < 9/2) by lra. repeat split; lra.
  Qed.

  Theorem egg_example : 7 < ninf -> exists h,
    oIntersect (build egg) (Ray (Vec (-5) (-10) (-10)) (Vec 1 2 2)) = Val (h, Ray (Vec (-5) (-10) (-10)) (Vec 1 2 2)) /\
    hT h = 9/2 /\ hMat h = Some 2%nat.
  Proof.
    intros I. pose proof tiny_pos as TP. assert (TN : (tiny : R) < / 10) by (unfold tiny, nQ; rnum; change (1204 * 1024)%Z with 1232896%Z; lra).
    destruct (solid_seen egg (Vec (-5) (-10) (-10)) (Vec 1 2 2)) as (h & E & H).
    - cbn [proper egg simple]. unfold ordered, det3, vol, dot3, cross3, stretch. cbn [afA m0 m1 m2 vx vy vz]. repeat split; lra.
    - cbn [fair egg]. unfold slanted. cbn [vx vy vz]. split; [split|]; [repeat split; lra| |repeat split; lra].
      intros d' D. unfold transformDir, stretch, mmulvec in D. cbn [afA m0 m1 m2 vx vy vz] in D. rnum.
      pose proof (f_equal vx D) as D1. pose proof (f_equal vy D) as D2. pose proof (f_equal vz D) as D3. cbn [vx vy vz] in D1, D2, D3. repeat split; lra.
    - intros K. rewrite <- (along_zero _ (Vec 1 2 2)) in K. apply egg_skin in K. lra.
    - cbn. lia.
    - intros t t' A B L. apply egg_skin in A. apply egg_skin in B.
      destruct A as [-> |[-> |[-> |[-> |[-> | ->]]]]]; destruct B as [-> |[-> |[-> |[-> |[-> | ->]]]]]; lra.
    - intros t K. apply egg_skin in K. lra.
    - exists h. split; [exact E|].
      assert (FE : forall t m, face egg (along (Vec (-5) (-10) (-10)) (Vec 1 2 2) t) m -> 0 < t -> t <= 9/2 -> t = 9/2 /\ m = Some 2%nat).
      { intros t m F T L. assert (K := egg_skin _ (face_skin _ _ _ F)). cbn [face egg within] in F. rewrite !stretch_image in F.
        unfold on_box_surface, in_closed_box, in_open_box, dist2, norm2, dot3, along, plus3, scal3, minus3, Rsqr in F. cbn [vx vy vz] in F.
        destruct F as [[[F _] G]|[[_ F] G]].
        - assert (Q : (t - 4) * (t - 6) = 0) by lra. apply Rmult_integral in Q. exfalso. apply G. lra.
        - split; [|exact F]. destruct K as [-> |[-> |[-> |[-> |[-> | ->]]]]]; nra. }
      assert (F0 : face egg (along (Vec (-5) (-10) (-10)) (Vec 1 2 2) (9/2)) (Some 2%nat)).
      { cbn [face egg within]. right. rewrite stretch_image. split; [split; [split|reflexivity]|];
          unfold in_closed_box, in_open_box, dist2, norm2, dot3, along, plus3, scal3, minus3, Rsqr; cbn [vx vy vz]; lra. }
      destruct H as [(H1 & H2 & H3)|(H1 & H2)]; [|exfalso; apply (H2 (9/2) (Some 2%nat)); [lra|exact F0]].
      specialize (H3 (9/2) (Some 2%nat) ltac:(lra) F0). exact (FE _ _ H2 H1 H3).
  Qed.
End Egg.
