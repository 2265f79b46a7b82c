(** * Constructive solid geometry along a ray (exact arithmetic) *)
From Coq Require Import ZArith Reals Bool List Lra Lia.
From Verif Require Import Num NumLaws Outcome GeomModel GeomSpec GeomProofs ObjModel TreeModel ObjSpec ObjProofs.
Import ListNotations.
Local Open Scope R_scope.

Lemma tiny_pos : 0 < (tiny : R).
Proof. unfold tiny, nQ; rnum. change (1204 * 1024)%Z with 1232896%Z. lra. Qed.

Lemma along_along s d a b : along (along s d a) d b = along s d (a + b).
Proof. unfold along, plus3, scal3. apply vec_eq; cbn; ring. Qed.
Lemma along_zero s d : along s d 0 = s.
Proof. unfold along, plus3, scal3. apply vec_eq; cbn; ring. Qed.
Lemma rayAt_along s d t : rayAt (Ray s d) t = along s d t.
Proof. reflexivity. Qed.

Section Csg.
  Context {M : Type}.
  Implicit Types a b : object R M.

  (** ** C32 *)
  Lemma marchLoop_sound keep a b s d : preserves a -> forall ttl mx off h h' r',
    0 <= off ->
    oIntersect a (Ray (along s d off) d) = Val (h, Ray (along s d off) d) ->
    marchLoop keep a b ttl mx off h (Ray (along s d off) d) = Val (h', r') ->
    h' = noHit \/
    (surface_hit a s d h' /\ exists ins, oInside b (along s d (hT h')) = Val ins /\ keep ins = true).
  Proof.
    intros Pa. induction ttl as [|n IH]; intros mx off h h' r' Hoff Ha H; cbn [marchLoop] in H.
    - left. congruence.
    - destruct (nltb (nofZ 0) (hT h) && nltb (hT h) mx)%bool eqn:E.
      2:{ left. congruence. }
      apply andb_true_iff in E. destruct E as [E _]. rnum. apply Rltb_true in E.
      apply obind_val in H. destruct H as (ins & Hins & H). rewrite rayAt_along, along_along in Hins.
      destruct (keep ins) eqn:K.
      + injection H as <- _. right. cbn [hT]. split.
        * exists off, h. repeat split; auto. cbn [hT]. ring.
        * exists ins. split; auto. rewrite <- Hins. do 2 f_equal. ring.
      + apply obind_val in H. destruct H as ([h2 r2] & E2 & H).
        rewrite rayAt_along in E2. cbn [rDir] in E2.
        assert (r2 = Ray (along (along s d off) d (hT h + tiny)) d) as -> by (eapply Pa; eauto).
        rewrite along_along in *. apply IH in H; auto. generalize tiny_pos; lra.
  Qed.

  Lemma march_sound keep a b s d mx h r' : preserves a ->
    march keep a b (Ray s d) mx = Val (h, r') ->
    h = noHit \/
    (surface_hit a s d h /\ exists ins, oInside b (along s d (hT h)) = Val ins /\ keep ins = true).
  Proof.
    intros Pa H. unfold march in H. apply obind_val in H. destruct H as ([h1 r1] & E1 & H).
    assert (r1 = Ray s d) as -> by (eapply Pa; eauto).
    apply omap_val in H. destruct H as ([h2 r2] & E2 & H). injection H as -> _.
    rewrite <- (along_zero s d) in E1, E2. eapply marchLoop_sound; eauto. lra.
  Qed.

  Lemma frontmost_R (x y : hit R M) : frontmost x y =
    if Rltb (hT y) (hT x) then (if Rltb 0 (hT y) then y else if Rltb 0 (hT x) then x else noHit)
    else (if Rltb 0 (hT x) then x else if Rltb 0 (hT y) then y else noHit).
  Proof. unfold frontmost; rnum. destruct (Rltb (hT y) (hT x)); reflexivity. Qed.

  Lemma frontmost_cases (x y : hit R M) : frontmost x y = x \/ frontmost x y = y \/ frontmost x y = noHit.
  Proof. rewrite frontmost_R. repeat destruct (Rltb _ _); auto. Qed.

  Context {NI : NumInf R}.

  Lemma marchBoth_sound keep a b s d h r' : preserves a -> preserves b ->
    marchBoth keep a b (Ray s d) = Val (h, r') -> 0 < hT h ->
    (surface_hit a s d h /\ exists ins, oInside b (along s d (hT h)) = Val ins /\ keep ins = true) \/
    (surface_hit b s d h /\ exists ins, oInside a (along s d (hT h)) = Val ins /\ keep ins = true).
  Proof.
    intros Pa Pb H Hpos. unfold marchBoth in H. apply obind_val in H. destruct H as ([h1 r1] & E1 & H).
    assert (r1 = Ray s d) as -> by (eapply (march_preserves keep a b Pa); eauto).
    apply omap_val in H. destruct H as ([h2 r2] & E2 & H). injection H as -> _.
    apply march_sound in E1; auto. apply march_sound in E2; auto.
    destruct (frontmost_cases h1 h2) as [E|[E|E]]; rewrite E in *.
    - destruct E1 as [->|E1]; [cbn in Hpos; lra|left; exact E1].
    - destruct E2 as [->|E2]; [cbn in Hpos; lra|right; exact E2].
    - cbn in Hpos. lra.
  Qed.

  Theorem and_sound a b s d h r' : preserves a -> preserves b ->
    oIntersect (cAnd a b) (Ray s d) = Val (h, r') -> 0 < hT h ->
    (surface_hit a s d h /\ oInside b (along s d (hT h)) = Val true) \/
    (surface_hit b s d h /\ oInside a (along s d (hT h)) = Val true).
  Proof.
    intros Pa Pb H Hp. destruct (marchBoth_sound _ _ _ _ _ _ _ Pa Pb H Hp) as [(A & i & B & C)|(A & i & B & C)];
      cbn in C; subst i; auto.
  Qed.
  Theorem or_sound a b s d h r' : preserves a -> preserves b ->
    oIntersect (cOr a b) (Ray s d) = Val (h, r') -> 0 < hT h ->
    (surface_hit a s d h /\ oInside b (along s d (hT h)) = Val false) \/
    (surface_hit b s d h /\ oInside a (along s d (hT h)) = Val false).
  Proof.
    intros Pa Pb H Hp. destruct (marchBoth_sound _ _ _ _ _ _ _ Pa Pb H Hp) as [(A & i & B & C)|(A & i & B & C)];
      apply negb_true_iff in C; subst i; auto.
  Qed.
  Theorem restrict_sound a b s d h r' : preserves a ->
    oIntersect (cRestrict a b) (Ray s d) = Val (h, r') -> 0 < hT h ->
    surface_hit a s d h /\ oInside b (along s d (hT h)) = Val true.
  Proof.
    intros Pa H Hp. cbn [oIntersect cRestrict] in H. unfold andMarch in H. apply march_sound in H; auto.
    destruct H as [->|(A & i & B & C)]; [cbn in Hp; lra|]. cbn in C; subst i; auto.
  Qed.

  Lemma surface_hit_not b s d h : surface_hit (cNot b) s d h ->
    surface_hit b s d (Hit (hT h) (scal3 (-1) (hNormal h)) (hLocal h) (hMat h)).
  Proof.
    intros (t0 & h0 & T0 & E & Hp & ET & EN & EL & EM). cbn [oIntersect cNot] in E.
    apply omap_val in E. destruct E as ([h1 r1] & E & E1). injection E1 as -> <-.
    exists t0, h1. cbn [hT hNormal hLocal hMat] in *. repeat split; auto.
    rewrite EN. unfold scal3, vmul. destruct (hNormal h1) as [x y z]. cbn. rnum. f_equal; ring.
  Qed.

  Theorem difference_sound a b s d h r' : preserves a -> preserves b ->
    oIntersect (cDifference a b) (Ray s d) = Val (h, r') -> 0 < hT h ->
    (surface_hit a s d h /\ oInside b (along s d (hT h)) = Val false) \/
    (surface_hit b s d (Hit (hT h) (scal3 (-1) (hNormal h)) (hLocal h) (hMat h)) /\ oInside a (along s d (hT h)) = Val true).
  Proof.
    intros Pa Pb H Hp. unfold cDifference in H.
    destruct (and_sound a (cNot b) s d h r' Pa (not_preserves b Pb) H Hp) as [[A B]|[A B]].
    - left. split; auto. cbn [oInside cNot] in B. apply omap_val in B. destruct B as (x & -> & E).
      destruct x; [discriminate|reflexivity].
    - right. split; auto. now apply surface_hit_not.
  Qed.

  (** ** C33 *)
  Definition ahead (off : R) (cs : list R) : nat := length (filter (fun c => Rltb off c) cs).

  Lemma ahead_decreases cs off off' c : In c cs -> off < c -> c <= off' -> off <= off' -> (ahead off' cs < ahead off cs)%nat.
  Proof.
    intros Hc H1 H2 H3. unfold ahead. revert Hc. induction cs as [|x cs IH]; cbn [In filter]; [tauto|].
    assert (length (filter (fun c0 => Rltb off' c0) cs) <= length (filter (fun c0 => Rltb off c0) cs))%nat as Mono.
    { clear IH. induction cs as [|y cs IH]; cbn; auto.
      destruct (Rltb_spec off' y), (Rltb_spec off y); cbn; try lia. lra. }
    intros [->|Hc].
    - rewrite (proj2 (Rltb_true off c)) by auto. rewrite (proj2 (Rltb_false off' c)) by auto. cbn. lia.
    - specialize (IH Hc). destruct (Rltb_spec off' x), (Rltb_spec off x); cbn; try lia. lra.
  Qed.
  Lemma ahead_zero cs off : ahead off cs = 0%nat -> forall c, In c cs -> c <= off.
  Proof.
    unfold ahead. intros H c Hc. destruct (Rltb_spec off c) as [L|L]; auto. exfalso.
    assert (In c (filter (fun c => Rltb off c) cs)) as I by (apply filter_In; split; auto; now apply Rltb_true).
    destruct (filter (fun c => Rltb off c) cs); [destruct I|discriminate].
  Qed.
  Lemma ahead_length cs off : (ahead off cs <= length cs)%nat.
  Proof. unfold ahead. induction cs as [|x cs IH]; cbn; auto. destruct (Rltb off x); cbn; lia. Qed.

  Section March.
    Variables (keep : bool -> bool) (a b : object R M) (s d : pt) (cs : list R) (ins : R -> bool).
    Hypothesis Ca : crossings a s d cs.
    Hypothesis Sep : separated cs.
    Hypothesis Ins : forall c, In c cs -> 0 < c -> oInside b (along s d c) = Val (ins c).

    Lemma marchLoop_complete : forall ttl mx off h,
      0 <= off -> (ahead off cs <= ttl)%nat ->
      oIntersect a (Ray (along s d off) d) = Val (h, Ray (along s d off) d) ->
      ((exists c, In c cs /\ off < c /\ (forall c', In c' cs -> off < c' -> c <= c') /\ hT h = c - off) \/
       ((forall c, In c cs -> c <= off) /\ hT h <= 0)) ->
      exists h' r', marchLoop keep a b ttl mx off h (Ray (along s d off) d) = Val (h', r') /\ rDir r' = d /\
        ((exists c, In c cs /\ off < c /\ keep (ins c) = true /\ hT h' = c /\
            forall c', In c' cs -> off < c' < c -> keep (ins c') = false) \/
         (h' = noHit /\ forall c, In c cs -> off < c -> keep (ins c) = true -> mx <= c)).
    Proof.
      induction ttl as [|n IH]; intros mx off h Hoff Hcnt Ha Hh; cbn [marchLoop].
      - eexists _, _. split; [reflexivity|]. split; [try reflexivity; auto|]. right. split; auto.
        intros c Hc L _. assert (c <= off) by (apply (ahead_zero cs off); auto; lia). lra.
      - destruct Hh as [(c & Hc & Lc & Nx & HT)|[None_ HT]].
        + destruct (nltb (nofZ 0) (hT h) && nltb (hT h) mx)%bool eqn:E.
          * rewrite rayAt_along, along_along, HT. replace (off + (c - off)) with c by ring.
            rewrite Ins by (auto; lra). cbn [obind].
            destruct (keep (ins c)) eqn:K.
            -- eexists _, _. split; [reflexivity|]. split; [try reflexivity; auto|]. left. exists c. cbn [hT]. rnum. repeat split; auto; [ring|].
               intros c' Hc' [L1 L2]. specialize (Nx c' Hc' L1). lra.
            -- cbv zeta. rnum. replace (rDir (Ray (along s d off) d)) with d by reflexivity.
               rewrite rayAt_along, along_along.
               replace (off + (c - off + tiny)) with (c + tiny) by ring.
               generalize tiny_pos; intros TP.
               destruct (Ca (c + tiny)) as (h2 & E2 & H2); [lra|right; intros IC; specialize (Sep c (c + tiny) Hc IC); lra|]. rewrite E2. cbn [obind].
               destruct (IH mx (c + tiny) h2) as (h' & r' & E' & D' & H'); auto.
               { lra. }
               { assert (ahead (c + tiny) cs < ahead off cs)%nat by (apply (ahead_decreases cs off _ c); auto; lra). lia. }
               rewrite E'. eexists _, _. split; [reflexivity|]. split; [try reflexivity; auto|].
               destruct H' as [(c1 & I1 & L1 & K1 & T1 & N1)|[-> N1]].
               ++ left. exists c1. repeat split; auto; [lra|]. intros c' Hc' [A B].
                  specialize (Nx c' Hc' A). destruct (Req_EM_T c' c) as [->|Ne]; auto.
                  apply N1; auto. split; auto. apply Sep; auto. lra.
               ++ right. split; auto. intros c' Hc' A K'.
                  specialize (Nx c' Hc' A). destruct (Req_EM_T c' c) as [->|Ne]; [congruence|].
                  apply N1; auto. apply Sep; auto. lra.
          * eexists _, _. split; [reflexivity|]. split; [try reflexivity; auto|]. right. split; auto.
            intros c' Hc' L' _. specialize (Nx c' Hc' L'). apply andb_false_iff in E. rnum.
            destruct E as [E|E]; apply Rltb_false in E; lra.
        + rnum. rewrite (proj2 (Rltb_false 0 (hT h))) by auto. cbn [andb].
          eexists _, _. split; [reflexivity|]. split; [try reflexivity; auto|]. right. split; auto.
          intros c Hc L _. specialize (None_ c Hc). lra.
    Qed.

    Hypothesis Few : (length cs <= 100)%nat.
    Lemma march_complete mx : exists h', march keep a b (Ray s d) mx = Val (h', Ray s d) /\
        ((exists c, In c cs /\ 0 < c /\ keep (ins c) = true /\ hT h' = c /\
            forall c', In c' cs -> 0 < c' < c -> keep (ins c') = false) \/
         (h' = noHit /\ forall c, In c cs -> 0 < c -> keep (ins c) = true -> mx <= c)).
    Proof.
      destruct (Ca 0 (Rle_refl 0) (or_introl eq_refl)) as (h & E & H). unfold march. rewrite along_zero in E. rewrite E. cbn [obind].
      rewrite <- (along_zero s d) in E.
      destruct (marchLoop_complete 100 mx 0 h (Rle_refl 0)) as (h' & r' & E' & D' & H'); auto.
      { generalize (ahead_length cs 0). lia. }
      rewrite along_zero in E'. cbn [rStart]. change (nofZ 0) with 0. rewrite E'. cbn [omap].
      rewrite D'. exists h'. split; auto.
    Qed.
  End March.

  Section Both.
    Variables (keep : bool -> bool) (a b : object R M) (s d : pt) (csa csb : list R) (insA insB : R -> bool).
    Hypothesis Ca : crossings a s d csa.
    Hypothesis Cb : crossings b s d csb.
    Hypothesis Sepa : separated csa.
    Hypothesis Sepb : separated csb.
    Hypothesis InsB : forall c, In c csa -> 0 < c -> oInside b (along s d c) = Val (insB c).
    Hypothesis InsA : forall c, In c csb -> 0 < c -> oInside a (along s d c) = Val (insA c).
    Hypothesis Fewa : (length csa <= 100)%nat.
    Hypothesis Fewb : (length csb <= 100)%nat.
    Hypothesis Fin : forall c, In c csa \/ In c csb -> c < ninf.

    Definition valid (c : R) : Prop :=
      0 < c /\ ((In c csa /\ keep (insB c) = true) \/ (In c csb /\ keep (insA c) = true)).

    Theorem marchBoth_complete : exists h, marchBoth keep a b (Ray s d) = Val (h, Ray s d) /\
      ((valid (hT h) /\ forall c, valid c -> hT h <= c) \/ (hT h = 0 /\ forall c, ~ valid c)).
    Proof.
      unfold marchBoth.
      destruct (march_complete keep a b s d csa insB Ca Sepa InsB Fewa ninf) as (ha & Ea & Ha).
      rewrite Ea. cbn [obind].
      set (mx := if nltb (nofZ 0) (hT ha) then hT ha else ninf).
      destruct (march_complete keep b a s d csb insA Cb Sepb InsA Fewb mx) as (hb & Eb & Hb).
      rewrite Eb. cbn [omap]. exists (frontmost ha hb). split; auto.
      rewrite frontmost_R. unfold mx in Hb. clear Eb mx. rnum.
      destruct Ha as [(c & Ic & Pc & Kc & Tc & Mc)|[Ta Na]].
      - rewrite Tc in *. rewrite (proj2 (Rltb_true 0 c)) in Hb by auto.
        assert (forall c0, In c0 csa -> 0 < c0 -> keep (insB c0) = true -> c <= c0) as MinA.
        { intros c0 I0 P0 K0. destruct (Rle_or_lt c c0); auto. rewrite Mc in K0; auto; discriminate. }
        destruct Hb as [(c2 & Ic2 & Pc2 & Kc2 & Tc2 & Mc2)|[Tb Nb]].
        + assert (forall c0, In c0 csb -> 0 < c0 -> keep (insA c0) = true -> c2 <= c0) as MinB.
          { intros c0 I0 P0 K0. destruct (Rle_or_lt c2 c0); auto. rewrite Mc2 in K0; auto; discriminate. }
          rewrite Tc2. rewrite !(proj2 (Rltb_true 0 _)) by auto. left.
          destruct (Rltb_spec c2 c); rewrite ?Tc, ?Tc2; (split; [unfold valid; auto|]);
            intros c0 (P0 & [[I0 K0]|[I0 K0]]);
            try (specialize (MinA c0 I0 P0 K0)); try (specialize (MinB c0 I0 P0 K0)); lra.
        + rewrite Tb. cbn [hT noHit]. rnum. rewrite (proj2 (Rltb_true 0 c)) by auto.
          rewrite (proj2 (Rltb_false 0 0)) by lra. left.
          rewrite Tc.
          split; [unfold valid; auto|]. intros c0 (P0 & [[I0 K0]|[I0 K0]]); auto.
      - rewrite Ta in *. cbn [hT noHit] in *. rnum. rewrite (proj2 (Rltb_false 0 0)) in * by lra.
        assert (forall c0, In c0 csa -> 0 < c0 -> keep (insB c0) = true -> False) as NoA.
        { intros c0 I0 P0 K0. specialize (Na c0 I0 P0 K0). specialize (Fin c0 (or_introl I0)). lra. }
        destruct Hb as [(c2 & Ic2 & Pc2 & Kc2 & Tc2 & Mc2)|[Tb Nb]].
        + rewrite Tc2. rewrite (proj2 (Rltb_true 0 c2)) by auto. rewrite (proj2 (Rltb_false c2 0)) by lra. left.
          rewrite Tc2. split; [unfold valid; auto|]. intros c0 (P0 & [[I0 K0]|[I0 K0]]).
          * exfalso; eauto.
          * destruct (Rle_or_lt c2 c0); auto. rewrite Mc2 in K0; auto; discriminate.
        + right. rewrite Tb. cbn [hT noHit]. rnum. rewrite (proj2 (Rltb_false 0 0)) by lra. split; [reflexivity|].
          intros c0 (P0 & [[I0 K0]|[I0 K0]]); [eauto|]. specialize (Nb c0 I0 P0 K0). specialize (Fin c0 (or_intror I0)). lra.
    Qed.
  End Both.
End Csg.
