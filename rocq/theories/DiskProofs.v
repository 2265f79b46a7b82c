(** * Disks in exact arithmetic *)
From Coq Require Import ZArith Reals Bool List Lra Lia.
From Verif Require Import Num NumLaws Outcome GeomModel GeomSpec GeomProofs ObjModel TreeModel ObjSpec ObjProofs BoxProofs PrimProofs TreeProofs MeshSpec MeshProofs MeshHits ShapeProofs RectProofs CsgProofs.
Import ListNotations.
Local Open Scope R_scope.

Lemma tiny_xr : (tiny : xr) = XF tiny.
Proof. unfold tiny, nQ. cbn [nofZ NumX NumR ndiv]. apply xdiv_XF. apply not_0_IZR. discriminate. Qed.

Lemma bbInside_xr lo hi p : bbInside (xbox lo hi) (xv p) = bbInside (BBox lo hi) p.
Proof. reflexivity. Qed.

Lemma quadricInside_xr {M} (o a : pt) b lo hi (m : option M) p :
  quadricInside (Quadric (xv o) (xv a) (XF b) (xbox lo hi) m) (xv p) = quadricInside (Quadric o a b (BBox lo hi) m) p.
Proof. reflexivity. Qed.

Lemma cylinderData_xr {M} (m : option M) diam height (c : pt) :
  cylinderData m (XF diam) (XF height) (xv c) =
  Quadric (xv c) (xv (Vec 1 0 1)) (XF ((diam / 2) * (diam / 2)))
    (xbox (Vec (vx c - diam / 2 - tiny) (vy c - height / 2 - tiny) (vz c - diam / 2 - tiny))
          (Vec (vx c + diam / 2 + tiny) (vy c + height / 2 + tiny) (vz c + diam / 2 + tiny))) m.
Proof.
  unfold cylinderData, bbWithMargin, bbTranslated, vadd. cbn [bMin bMax]. rewrite tiny_xr. cbn [nofZ NumX ndiv nopp xopp]. rewrite !xdiv_XF by lra. xfin.
  unfold xbox, xv. cbn [vx vy vz]. f_equal. f_equal; f_equal; f_equal; field.
Qed.

Lemma cylinder_inside {M} (m : option M) diam height (c p : pt) : 0 <= diam ->
  oInside (cylinder m (XF diam) (XF height) (xv c)) (xv p) = Val true <->
  radial2 p c < (diam / 2)² /\ Rabs (vy p - vy c) < height / 2 + tiny.
Proof.
  intros Hd. unfold cylinder. cbn [quadric simpleObj oInside]. rewrite cylinderData_xr, quadricInside_xr.
  assert (forall x, Val x = Val true <-> x = true) as V by (intros x; split; [intros E; injection E; auto|congruence]).
  rewrite V, quadricInside_exact. unfold in_open_box, quadratic, radial2, Rsqr. cbn [vx vy vz].
  generalize (@tiny_pos); intros TP. split.
  - intros ((X & Y & Z) & Q). split; [lra|]. apply Rabs_def1; lra.
  - intros (Q & Y). apply Rabs_def2 in Y.
    destruct (sum_sq_bounds (vx p - vx c) 0 (vz p - vz c) (diam / 2)) as (X & _ & Z); [lra|lra|].
    repeat split; lra.
Qed.

Section Disk.
  Context {M : Type}.
  Variable sortSlice : (object xr M -> object xr M -> bool) -> list (object xr M) -> list (object xr M).
  Variables (m : option M) (diam : R) (c s d : pt).
  Hypothesis Hdiam : 0 < diam.
  Hypothesis Hd : vy d <> 0.
  Notation id32 := (fun x : xr => x).
  Notation tR := (tRect c s d).

  Definition in_disk (p : pt) : Prop := vy p = vy c /\ radial2 p c < (diam / 2)².

  Lemma in_disk_rect p : in_disk p -> in_rect diam diam c p.
  Proof.
    intros (Y & Q). unfold radial2, Rsqr in Q. destruct (sum_sq_bounds (vx p - vx c) 0 (vz p - vz c) (diam / 2)) as (X & _ & Z); [lra|lra|].
    split; auto. split; apply Rabs_le; lra.
  Qed.

  Lemma xray_step t : Ray (rayAt (xray s d) (XF t)) (rDir (xray s d)) = xray (along s d t) d.
  Proof. rewrite rayAt_xray. reflexivity. Qed.

  Lemma clear_step lo hi (f : pt -> R) t : (forall s d t, f (along s d t) = f s + t * f d) ->
    clear_start lo hi (f s) (f d) -> clear_start lo hi (f (along s d t)) (f d).
  Proof.
    intros E C. unfold clear_start in *. destruct (Req_dec (f d) 0) as [Z|Z]; [|auto]. rewrite E, Z, Rmult_0_r, Rplus_0_r. tauto.
  Qed.

  Theorem disk_exact : clear_start (vx c - diam / 2) (vx c + diam / 2) (vx s) (vx d) ->
    clear_start (vz c - diam / 2) (vz c + diam / 2) (vz s) (vz d) -> tR < horizon ->
    exists ob, disk id32 sortSlice m (XF diam) (xv c) = Val ob /\
      ((0 < tR /\ in_disk (along s d tR) /\ oIntersect ob (xray s d) = Val (rectHit m diam diam c s d, xray s d)) \/
       ((forall t, 0 < t -> ~ in_disk (along s d t)) /\ oIntersect ob (xray s d) = Val (noHit, xray s d))).
  Proof.
    intros Cx Cz HB. generalize (@tiny_pos); intros TP.
    destruct (rect_exact sortSlice m diam diam c s d Hdiam Hdiam Hd Cx Cz HB) as (ob & E & D).
    assert (nmul (nofZ 8) tiny = XF (8 * tiny)) as E8 by (rewrite tiny_xr; reflexivity).
    unfold disk. rewrite E, E8. cbn [omap]. eexists. split; [reflexivity|].
    cbn [cRestrict oIntersect]. unfold andMarch, march.
    destruct D as [(T & IR & Eh)|(NH & Eh)]; rewrite Eh; cbn [obind].
    - cbn [marchLoop]. cbn [rectHit hT nltb NumX xltb nofZ ninf NumInfX].
      assert (Rltb 0 tR = true) as -> by now apply Rltb_true. cbn [andb].
      rewrite rayAt_xray.
      destruct (oInside (cylinder None (XF diam) (XF (8 * tiny)) (xv c)) (xv (along s d tR))) as [ins| |] eqn:EI; try discriminate.
      cbn [obind]. destruct ins.
      + left. apply cylinder_inside in EI; [|lra]. split; auto. split; [split; [apply IR|apply EI]|].
        cbn [omap xray rDir rStart]. unfold rectHit. cbn [hNormal hLocal hMat nadd NumX xadd nofZ]. rewrite Rplus_0_r. reflexivity.
      + right. assert (~ in_disk (along s d tR)) as ND.
        { intros (Y & Q). assert (oInside (cylinder (M := M) None (XF diam) (XF (8 * tiny)) (xv c)) (xv (along s d tR)) = Val true) as X.
          { apply cylinder_inside; [lra|]. split; auto. replace (vy (along s d tR) - vy c) with 0 by lra. rewrite Rabs_R0. lra. }
          congruence. }
        split.
        * intros t Ht ID. pose proof (in_disk_rect _ ID) as IR'. apply (rect_only diam diam c s d Hd) in IR'.
          apply ND. unfold tRect. rewrite <- IR'. exact ID.
        * rewrite tiny_xr. cbn [nadd NumX xadd]. rewrite xray_step.
          set (t' := tR + tiny). set (s' := along s d t').
          destruct (rect_exact sortSlice m diam diam c s' d Hdiam Hdiam Hd) as (ob' & E' & D').
          { apply (clear_step _ _ vx); auto. }
          { apply (clear_step _ _ vz); auto. }
          { assert (tRect c s' d = - tiny) as ->.
            { unfold tRect, s', t', along, plus3, scal3. cbn [vy]. unfold tRect. field. auto. }
            assert (0 < horizon) by (apply IZR_lt; reflexivity). lra. }
          rewrite E in E'. injection E' as <-.
          destruct D' as [(T' & _)|(_ & Eh')].
          { exfalso. assert (tRect c s' d = - tiny) as X.
            { unfold tRect, s', t', along, plus3, scal3. cbn [vy]. unfold tRect. field. auto. }
            lra. }
          rewrite Eh'. cbn [obind marchLoop hT nltb NumX xltb nofZ]. assert (Rltb 0 0 = false) as -> by (apply Rltb_false; lra). reflexivity.
    - right. split; [intros t Ht ID; apply (NH t Ht), in_disk_rect, ID|].
      cbn [marchLoop hT nltb NumX xltb nofZ]. assert (Rltb 0 0 = false) as -> by (apply Rltb_false; lra). reflexivity.
  Qed.
End Disk.
