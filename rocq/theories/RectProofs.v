(** * Rectangles and disks in exact arithmetic *)
From Coq Require Import ZArith Reals Bool List Lra Lia Permutation.
From Verif Require Import Num NumLaws Outcome GeomModel GeomSpec GeomProofs ObjModel TreeModel ObjSpec ObjProofs BoxProofs PrimProofs TreeProofs MeshSpec MeshProofs MeshHits ShapeProofs.
From Flocq Require Core.Raux.
Import ListNotations.
Local Open Scope R_scope.

Definition xOf (ps : list pt) (r : R) : Prop := exists p, In p ps /\ vx p = r.
Definition yOf (ps : list pt) (r : R) : Prop := exists p, In p ps /\ vy p = r.
Definition zOf (ps : list pt) (r : R) : Prop := exists p, In p ps /\ vz p = r.
Record from_pts (ps : list pt) (lo hi : pt) : Prop := FromPts {
  fp_xl : xOf ps (vx lo); fp_xh : xOf ps (vx hi);
  fp_yl : yOf ps (vy lo); fp_yh : yOf ps (vy hi);
  fp_zl : zOf ps (vz lo); fp_zh : zOf ps (vz hi) }.

Section Leaf.
  Context {M : Type}.
  Variable sortSlice : (object xr M -> object xr M -> bool) -> list (object xr M) -> list (object xr M).
  Variables (ps : list pt) (uv : list (R * R)) (N : Z -> vec xr).
  Notation fat := (faceAt ps uv N (M := M)).

  Lemma fat_bounds2 f : face_in_range ps f -> exists lo hi, oBounds (fat f) = Val (xbox lo hi) /\
    (forall w0 w1 w2 p, in_face ps f w0 w1 w2 p -> in_closed_box lo hi p) /\ from_pts ps lo hi.
  Proof.
    destruct f as [[i j] k]. intros (Hi & Hj & Hk). unfold faceAt. cbn [oBounds face simpleObj vtPos].
    destruct (hull_xbox [corner ps i; corner ps j; corner ps k]) as (lo & hi & E & I & X0 & Y0 & Z0 & X1 & Y1 & Z1); [discriminate|].
    exists lo, hi. split; [exact E|]. split.
    - intros w0 w1 w2 p (W0 & W1 & W2 & W & ->). apply box_convex; auto; apply I; cbn; auto.
    - assert (forall p, In p [corner ps i; corner ps j; corner ps k] -> In p ps) as SO.
      { intros p Hp. destruct Hp as [<-|[<-|[<-|[]]]]; apply corner_in; auto. }
      split; [destruct X0 as (p & ? & ?)|destruct X1 as (p & ? & ?)|destruct Y0 as (p & ? & ?)|destruct Y1 as (p & ? & ?)|destruct Z0 as (p & ? & ?)|destruct Z1 as (p & ? & ?)]; exists p; auto.
  Qed.

  Lemma hullOf_fats fs : (forall f, In f fs -> face_in_range ps f) ->
    exists l, hullOf (map fat fs) = Val (map xv l) /\ (fs <> nil -> l <> nil) /\
      (forall q, In q l -> xOf ps (vx q) /\ yOf ps (vy q) /\ zOf ps (vz q)) /\
      (forall f, In f fs -> exists lo hi, In lo l /\ In hi l /\ forall w0 w1 w2 p, in_face ps f w0 w1 w2 p -> in_closed_box lo hi p).
  Proof.
    induction fs as [|f fs IH]; intros HR.
    - exists nil. split; [reflexivity|]. split; [congruence|]. split; [intros q []|intros f []].
    - destruct IH as (l & E & Hne & A & B); [intros g Ig; apply HR; now right|].
      destruct (fat_bounds2 f) as (lo & hi & Eb & I & FP); [apply HR; now left|].
      cbn [map hullOf]. rewrite Eb, E. cbn [obind omap]. exists (lo :: hi :: l). split; [reflexivity|]. split; [discriminate|]. split.
      + intros q [<-|[<-|Iq]]; auto; destruct FP; auto.
      + intros g [<-|Ig]; [exists lo, hi; cbn; auto|]. destruct (B g Ig) as (lo' & hi' & ? & ? & ?). exists lo', hi'. cbn. auto.
  Qed.

  Lemma leaf_tree fs : fs <> nil -> (length fs <= 7)%nat -> (forall f, In f fs -> face_in_range ps f) ->
    exists lo hi, tree (fun x => x) sortSlice (map fat fs) = Val (treeOf (Leaf (xbox lo hi) (map fat fs))) /\
      (forall p, on_mesh ps fs p -> in_closed_box lo hi p) /\ from_pts ps lo hi.
  Proof.
    intros Hne L HR. unfold tree. cbn [buildTree].
    destruct (Nat.leb_spec (length (map fat fs)) maxFacePerLeaf) as [_|W]; [|rewrite map_length in W; unfold maxFacePerLeaf in W; lia].
    destruct (hullOf_fats fs HR) as (l & E & Hl & A & B). unfold makeBoundingBox. rewrite E. cbn [obind].
    destruct (hull_xbox l (Hl Hne)) as (lo & hi & -> & I & X0 & Y0 & Z0 & X1 & Y1 & Z1). cbn [omap].
    exists lo, hi. split; [reflexivity|]. split.
    - intros p (f & w0 & w1 & w2 & If & IF). destruct (B f If) as (lo' & hi' & I1 & I2 & H). specialize (H _ _ _ _ IF).
      apply I in I1. apply I in I2. unfold in_closed_box in *. lra.
    - split; [destruct X0 as (q & Iq & <-)|destruct X1 as (q & Iq & <-)|destruct Y0 as (q & Iq & <-)|destruct Y1 as (q & Iq & <-)|destruct Z0 as (q & Iq & <-)|destruct Z1 as (q & Iq & <-)]; apply A, Iq.
  Qed.
End Leaf.

Section Rect.
  Context {M : Type}.
  Variable sortSlice : (object xr M -> object xr M -> bool) -> list (object xr M) -> list (object xr M).
  Variables (m : option M) (w dp : R) (c s d : pt).
  Hypothesis Hw : 0 < w.
  Hypothesis Hdp : 0 < dp.
  Hypothesis Hd : vy d <> 0.
  Notation id32 := (fun x : xr => x).

  Let o := Vec (vx c - w / 2) (vy c) (vz c - dp / 2).
  Let a := Vec (vx c - w / 2) (vy c) (vz c + dp / 2).
  Let b := Vec (vx c + w / 2) (vy c) (vz c - dp / 2).
  Let ps := [o; a; plus3 a (minus3 b o); b].
  Let fs : list face3 := [(0, 1, 3); (2, 3, 1)]%Z.
  Let uv := [(0, 0); (1, 0); (1, 1); (0, 1)].

  Lemma rectangle_xr : rectangle id32 sortSlice m (XF w) (XF dp) (xv c) = rectangleWithVertices id32 sortSlice m (xv o) (xv a) (xv b).
  Proof.
    unfold rectangle. cbn [nofZ NumX ndiv nopp xopp]. rewrite !xdiv_XF by lra. unfold vadd. xfin.
    f_equal; unfold xv, o, a, b; cbn [vx vy vz]; f_equal; f_equal; field.
  Qed.

  Let n := cross3 (minus3 a o) (minus3 b o).
  Lemma rect_normal : n = Vec 0 (w * dp) 0.
  Proof. unfold n, cross3, minus3, a, b, o. cbn [vx vy vz]. f_equal; field. Qed.
  Lemma rect_n : n <> zero3.
  Proof. rewrite rect_normal. unfold zero3. intros E. injection E as E. nra. Qed.
  Lemma rect_nd : dot3 n d <> 0.
  Proof. rewrite rect_normal. unfold dot3. cbn [vx vy vz]. intros E. assert (w * dp * vy d = 0) as E' by lra. apply Rmult_integral in E'. destruct E' as [E'|]; [nra|auto]. Qed.
  Lemma rect_unit : unit_of n = Vec 0 1 0.
  Proof.
    rewrite rect_normal. replace (Vec 0 (w * dp) 0) with (scal3 (w * dp) (Vec 0 1 0)) by (unfold scal3; cbn [vx vy vz]; f_equal; ring).
    rewrite unit_scal by nra. apply unit_fixed. unfold norm2, dot3. cbn [vx vy vz]. ring.
  Qed.

  (** the points of the rectangle *)
  Definition in_rect (p : pt) : Prop := vy p = vy c /\ Rabs (vx p - vx c) <= w / 2 /\ Rabs (vz p - vz c) <= dp / 2.
  Lemma rect_para u v : para o a b u v = Vec (vx c - w / 2 + v * w) (vy c) (vz c - dp / 2 + u * dp).
  Proof. unfold para, plus3, scal3, minus3, o, a, b. cbn [vx vy vz]. f_equal; field. Qed.
  Lemma in_rect_para p : in_rect p <-> exists u v, 0 <= u <= 1 /\ 0 <= v <= 1 /\ p = para o a b u v.
  Proof.
    unfold in_rect. split.
    - intros (Y & X & Z). apply Core.Raux.Rabs_le_inv in X. apply Core.Raux.Rabs_le_inv in Z.
      exists ((vz p - vz c) / dp + 1 / 2), ((vx p - vx c) / w + 1 / 2).
      assert (forall e r, 0 < r -> - (r / 2) <= e <= r / 2 -> 0 <= e / r + 1 / 2 <= 1) as G.
      { intros e r R E. assert (e = e / r * r) as E' by (field; lra). rewrite E' in E. split; nra. }
      split; [apply G; auto|]. split; [apply G; auto|]. rewrite rect_para. destruct p as [x y z]. cbn [vx vy vz] in *. f_equal; try field; lra.
    - intros (u & v & U & V & ->). rewrite rect_para. cbn [vx vy vz]. split; [auto|].
      split; apply Rabs_le; nra.
  Qed.

  Lemma rect_only t : in_rect (along s d t) -> t = (vy c - vy s) / vy d.
  Proof. intros (Y & _). unfold along, plus3, scal3 in Y. cbn [vx vy vz] in Y. rewrite <- Y. field. auto. Qed.

  Definition tRect : R := (vy c - vy s) / vy d.
  Definition rectHit : hit xr M :=
    Hit (XF tRect) (xv (Vec 0 1 0))
      (xv (Vec ((vz (along s d tRect) - vz c) / dp + 1 / 2) ((vx (along s d tRect) - vx c) / w + 1 / 2) 0)) m.

  Lemma rect_corners p : In p ps -> vy p = vy c /\ (vx p = vx c - w / 2 \/ vx p = vx c + w / 2) /\ (vz p = vz c - dp / 2 \/ vz p = vz c + dp / 2).
  Proof.
    unfold ps, o, a, b, plus3, minus3. intros [<-|[<-|[<-|[<-|[]]]]]; cbn [vx vy vz]; repeat split; try lra; auto; (left; lra) || (right; lra).
  Qed.

  Theorem rect_exact : clear_start (vx c - w / 2) (vx c + w / 2) (vx s) (vx d) -> clear_start (vz c - dp / 2) (vz c + dp / 2) (vz s) (vz d) ->
    tRect < horizon ->
    exists ob, rectangle id32 sortSlice m (XF w) (XF dp) (xv c) = Val ob /\
      ((0 < tRect /\ in_rect (along s d tRect) /\ oIntersect ob (xray s d) = Val (rectHit, xray s d)) \/
       ((forall t, 0 < t -> ~ in_rect (along s d t)) /\ oIntersect ob (xray s d) = Val (Hit (XF 0) (xv zero3) (xv zero3) m, xray s d))).
  Proof.
    intros Cx Cz HB. assert (rectangle id32 sortSlice m (XF w) (XF dp) (xv c) = meshWithUV id32 sortSlice m (map xv ps) fs (Some (map xuv uv))) as -> by (rewrite rectangle_xr; reflexivity).
    assert (forall f, In f fs -> face_in_range ps f) as HR by apply para_range.
    assert (general_position ps fs d) as HG by (apply para_general; [exact rect_n|exact rect_nd]).
    destruct (meshWithUV_faces sortSlice ps uv fs m eq_refl HR) as (N & SN & E). rewrite E. clear E.
    destruct (leaf_tree sortSlice ps uv N fs ltac:(discriminate) ltac:(cbn; lia) HR) as (lo & hi & Et & IB & FP). rewrite Et. clear Et. cbn [omap].
    eexists. split; [reflexivity|].
    assert (forall p, on_mesh ps fs p <-> in_rect p) as OM.
    { intros p. rewrite in_rect_para. split; [apply (para_on_inv o a b d rect_n rect_nd)|]. intros (u & v & U & V & ->). apply (para_on o a b d rect_n rect_nd); auto. }
    (* the box *)
    assert (vx lo = vx c - w / 2 /\ vx hi = vx c + w / 2 /\ vy lo = vy c /\ vy hi = vy c /\ vz lo = vz c - dp / 2 /\ vz hi = vz c + dp / 2) as (L1 & H1 & L2 & H2 & L3 & H3).
    { destruct FP as [(p1 & P1 & E1) (p2 & P2 & E2) (p3 & P3 & E3) (p4 & P4 & E4) (p5 & P5 & E5) (p6 & P6 & E6)].
      apply rect_corners in P1, P2, P3, P4, P5, P6.
      assert (in_closed_box lo hi o) as (A1 & A2 & A3).
      { apply IB, OM, in_rect_para. exists 0, 0. rewrite rect_para. unfold o. repeat split; try lra. f_equal; ring. }
      assert (in_closed_box lo hi (para o a b 1 1)) as (B1 & B2 & B3).
      { apply IB, OM, in_rect_para. exists 1, 1. repeat split; lra. }
      rewrite rect_para in B1, B2, B3. unfold o in A1, A2, A3. cbn [vx vy vz] in *. lra. }
    assert (ordered lo hi) as OR by (unfold ordered; lra).
    destruct (flat_box lo hi s d OR ltac:(congruence) Hd ltac:(rewrite L1, H1; auto) ltac:(rewrite L3, H3; auto)) as [FB|FB]; cbv zeta in FB; rewrite ?L2 in FB; fold tRect in FB.
    - destruct FB as [InB EB].
      assert (in_rect (along s d tRect)) as IR.
      { destruct InB as (X & Y & Z). unfold in_rect. split; [lra|]. split; apply Rabs_le; lra. }
      cbn [withMaterial oIntersect treeOf]. destruct (Rlt_dec 0 tRect) as [T|T].
      + left. split; auto. split; auto.
        destruct (fat_hits (M := M) ps uv N s d fs HG) as (hits & HO & A & B).
        destruct (treeIntersect_spec far_pos_x (Leaf (xbox lo hi) (map (faceAt ps uv N) fs)) (xray s d) hits HO) as (h & Eh & D).
        { intros h Ih Ph. destruct (A h Ih Ph) as (f & t & w0 & w1 & w2 & If & T' & IF & ->).
          assert (t = tRect) as -> by (apply rect_only, OM; exists f, w0, w1, w2; auto).
          destruct f as [[i j] k]. cbn [faceHit hT nltb NumX xltb nofZ]. apply Rltb_true. exact HB. }
        { intros m' [<-|[]] o' h r' Io Eo Ph. cbn [nodeBox]. rewrite EB. cbn [nltb NumX xltb nofZ]. now apply Rltb_true. }
        cbn [treeOf oIntersect] in Eh. rewrite Eh. cbn [omap]. f_equal. f_equal.
        destruct D as [NE|(NH & _)].
        * destruct (nearest_in _ _ NE) as [Ih Ph]. destruct (A h Ih Ph) as (f & t & w0 & w1 & w2 & If & T' & IF & ->).
          assert (t = tRect) as -> by (apply rect_only, OM; exists f, w0, w1, w2; auto).
          destruct (para_face o a b d rect_n rect_nd f w0 w1 w2 _ If IF) as (U & V & P). cbv zeta in *.
          assert (mesh_hit ps uv fs m s d (let h := faceHit uv N f tRect w0 w1 w2 : hit xr M in Hit (hT h) (hNormal h) (hLocal h) m)) as MH.
          { exists f, tRect, w0, w1, w2. cbv zeta. cbn [hT hMat hLocal hNormal]. repeat (split; [assumption|]).
            split; [intros t' T'' On; right; symmetry; apply rect_only, OM, On|].
            split; [destruct f as [[i j] k]; reflexivity|]. split; [reflexivity|]. split; [destruct f as [[i j] k]; reflexivity|].
            intros HZ. rewrite <- (blend_normals ps fs N f w0 w1 w2 SN If (HR f If) HZ). destruct f as [[i j] k]. reflexivity. }
          apply (para_hit_of m o a b s d rect_n rect_nd) in MH. destruct MH as (t & u & v & T'' & U' & V' & P' & E').
          cbv zeta in E'. rewrite E'. fold n. rewrite rect_unit.
          assert (XF tRect = XF t) as Et.
          { apply (f_equal hT) in E'. cbn [hT] in E'. destruct f as [[i j] k]. exact E'. }
          injection Et as <-. unfold rectHit. rewrite P', rect_para. cbn [vx vy vz]. f_equal. f_equal. f_equal; field; lra.
        * exfalso. apply OM in IR. destruct IR as (f & w0 & w1 & w2 & If & IF). destruct (B f tRect w0 w1 w2 If T IF) as (h' & Ih' & Ph' & _). eapply NH; eauto.
      + right. split.
        * intros t T' IR'. apply rect_only in IR'. unfold tRect in T. lra.
        * unfold treeIntersect. cbn [nodeBox]. rewrite EB. cbn [nleb NumX nofZ].
          assert (xleb (XF tRect) (XF 0) = true) as -> by (apply xle_XF; lra). reflexivity.
    - destruct FB as [Out EB]. right. split.
      + intros t T IR. eapply Out. apply IB, OM, IR.
      + cbn [withMaterial oIntersect treeOf]. unfold treeIntersect. cbn [nodeBox]. rewrite EB. cbn [nleb NumX nofZ].
        rewrite xleb_refl by reflexivity. reflexivity.
  Qed.
End Rect.
