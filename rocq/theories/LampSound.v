(** * Where flat lamps are hit, in exact real arithmetic *)
From Coq Require Import ZArith Reals Bool List Lra Lia Psatz.
From Verif Require Import Num NumLaws Outcome GeomModel GeomSpec GeomProofs ColorModel SeqModel ObjModel TreeModel ObjSpec ObjProofs PrimProofs SceneModel SceneSpec SceneProofs
  LightProofs SceneMore LookSpec LampSpec LampProofs LitSpec.
Import ListNotations.
Local Open Scope R_scope.

Definition up : pt := Vec 0 1 0.
Definition addN (v : vertex R) (n : pt) : vertex R := Vertex (vtPos v) (vadd (vtNormal v) n) (vtU v) (vtV v).
Definition normN (v : vertex R) : vertex R := Vertex (vtPos v) (vnormalized (vtNormal v)) (vtU v) (vtV v).
Lemma add4_at (a b c d : vertex R) n :
  addNormal [a; b; c; d] 0 n = Val [addN a n; b; c; d] /\ addNormal [a; b; c; d] 1 n = Val [a; addN b n; c; d] /\
  addNormal [a; b; c; d] 2 n = Val [a; b; addN c n; d] /\ addNormal [a; b; c; d] 3 n = Val [a; b; c; addN d n].
Proof. repeat split. Qed.
Lemma norm4_at (a b c d : vertex R) :
  normalizeAt [a; b; c; d] 0 = Val [normN a; b; c; d] /\ normalizeAt [a; b; c; d] 1 = Val [a; normN b; c; d] /\
  normalizeAt [a; b; c; d] 2 = Val [a; b; normN c; d] /\ normalizeAt [a; b; c; d] 3 = Val [a; b; c; normN d].
Proof. repeat split. Qed.
Lemma up_normal (a b c : pt) (x z : R) : 0 < x -> 0 < z -> vcross (vsub b a) (vsub c a) = Vec 0 (x * z) 0 -> triangleNormal a b c = up.
Proof.
  intros Hx Hz E. unfold triangleNormal. rewrite E, vnormalized_unit_of. unfold unit_of.
  assert (0 < x * z) as P by (now apply Rmult_lt_0_compat).
  assert (norm (Vec 0 (x * z) 0) = x * z) as ->.
  { unfold norm, norm2, dot3; cbn [vx vy vz]. replace (0 * 0 + x * z * (x * z) + 0 * 0) with (Rsqr (x * z)) by (unfold Rsqr; ring). apply sqrt_Rsqr. lra. }
  unfold scal3, up; cbn [vx vy vz]. apply vec_eq; cbn [vx vy vz]; field; lra.
Qed.
Lemma up_scaled k : 0 < k -> vnormalized (Vec 0 k 0) = up.
Proof.
  intros Hk. rewrite vnormalized_unit_of. unfold unit_of.
  assert (norm (Vec 0 k 0) = k) as ->.
  { unfold norm, norm2, dot3; cbn [vx vy vz]. replace (0 * 0 + k * k + 0 * 0) with (Rsqr k) by (unfold Rsqr; ring). apply sqrt_Rsqr. lra. }
  unfold scal3, up; cbn [vx vy vz]. apply vec_eq; cbn [vx vy vz]; field; lra.
Qed.

Section Rect.
  Context {NI : NumInf R} {M : Type}.
  Hypothesis Hinf : 1 < ninf.
  Variables (to32 : R -> R) (ss : (object R M -> object R M -> bool) -> list (object R M) -> list (object R M)).
  Variables (m : option M) (w h : R) (c : pt).
  Hypothesis Hw : 0 < w.
  Hypothesis Hh : 0 < h.
  Definition corner (x z : R) : pt := Vec (vx c + x * (w / 2)) (vy c) (vz c + z * (h / 2)).
  Definition V00 : vertex R := Vertex (corner (-1) (-1)) up 0 0.
  Definition V01 : vertex R := Vertex (corner (-1) 1) up 1 0.
  Definition V11 : vertex R := Vertex (corner 1 1) up 1 1.
  Definition V10 : vertex R := Vertex (corner 1 (-1)) up 0 1.

  Lemma rect_R : exists box, rectangle to32 ss m w h c = Val (withMaterial m (treeOf (Leaf box [face V00 V01 V10; face V11 V10 V01]))).
  Proof.
    assert (IB : isBadVec up = false).
    { unfold isBadVec, isBad, up. cbn [vx vy vz]. rnum. unfold Reqb. repeat destruct (Req_EM_T _ _); try lra; reflexivity. }
    assert (C00 : vadd (Vec (- w / 2) 0 (- h / 2)) c = corner (-1) (-1)) by (unfold corner, vadd; cbn [vx vy vz]; apply vec_eq; cbn [vx vy vz]; rnum; field).
    assert (C01 : vadd (Vec (- w / 2) 0 (h / 2)) c = corner (-1) 1) by (unfold corner, vadd; cbn [vx vy vz]; apply vec_eq; cbn [vx vy vz]; rnum; field).
    assert (C10 : vadd (Vec (w / 2) 0 (- h / 2)) c = corner 1 (-1)) by (unfold corner, vadd; cbn [vx vy vz]; apply vec_eq; cbn [vx vy vz]; rnum; field).
    assert (C11 : vadd (corner (-1) 1) (vsub (corner 1 (-1)) (corner (-1) (-1))) = corner 1 1) by (unfold corner, vadd, vsub; cbn [vx vy vz]; apply vec_eq; cbn [vx vy vz]; rnum; field).
    unfold rectangle, rectangleWithVertices. rnum. rewrite C00, C01, C10, C11. unfold quadrilateral, meshWithUV.
    assert (N1 : triangleNormal (corner (-1) (-1)) (corner (-1) 1) (corner 1 (-1)) = up).
    { apply (up_normal _ _ _ w h); auto. unfold vcross, vsub, corner; cbn [vx vy vz]. rnum. apply vec_eq; cbn [vx vy vz]; field. }
    assert (N2 : triangleNormal (corner 1 1) (corner 1 (-1)) (corner (-1) 1) = up).
    { apply (up_normal _ _ _ w h); auto. unfold vcross, vsub, corner; cbn [vx vy vz]. rnum. apply vec_eq; cbn [vx vy vz]; field. }
    unfold V00, V01, V10, V11. generalize dependent (corner 1 1). generalize dependent (corner 1 (-1)). generalize dependent (corner (-1) 1). generalize dependent (corner (-1) (-1)).
    intros a1 _ a2 _ a3 _ N1 a4 _ N2.
    cbn [meshVertices omap obind].
    unfold mesh, calcNormals. cbn [sumNormals].
    set (n1 := faceNormal _ _). replace n1 with (Val (triangleNormal a1 a2 a3)) by reflexivity. clear n1. cbn [obind]. rewrite N1, IB.
    match goal with |- context [addNormal [?x1; ?x2; ?x3; ?x4] 0 up] => destruct (add4_at x1 x2 x3 x4 up) as (-> & _) end. cbn [obind].
    match goal with |- context [addNormal [?x1; ?x2; ?x3; ?x4] 1 up] => destruct (add4_at x1 x2 x3 x4 up) as (_ & -> & _) end. cbn [obind].
    match goal with |- context [addNormal [?x1; ?x2; ?x3; ?x4] 3 up] => destruct (add4_at x1 x2 x3 x4 up) as (_ & _ & _ & ->) end. cbn [obind].
    set (n1 := faceNormal _ _). replace n1 with (Val (triangleNormal a4 a3 a2)) by reflexivity. clear n1. cbn [obind]. rewrite N2, IB.
    match goal with |- context [addNormal [?x1; ?x2; ?x3; ?x4] 2 up] => destruct (add4_at x1 x2 x3 x4 up) as (_ & _ & -> & _) end. cbn [obind].
    match goal with |- context [addNormal [?x1; ?x2; ?x3; ?x4] 3 up] => destruct (add4_at x1 x2 x3 x4 up) as (_ & _ & _ & ->) end. cbn [obind].
    match goal with |- context [addNormal [?x1; ?x2; ?x3; ?x4] 1 up] => destruct (add4_at x1 x2 x3 x4 up) as (_ & -> & _) end. cbn [obind].
    cbn [normalizeAll].
    match goal with |- context [normalizeAt [?x1; ?x2; ?x3; ?x4] 0] => destruct (norm4_at x1 x2 x3 x4) as (-> & _) end. cbn [obind].
    match goal with |- context [normalizeAt [?x1; ?x2; ?x3; ?x4] 1] => destruct (norm4_at x1 x2 x3 x4) as (_ & -> & _) end. cbn [obind].
    match goal with |- context [normalizeAt [?x1; ?x2; ?x3; ?x4] 3] => destruct (norm4_at x1 x2 x3 x4) as (_ & _ & _ & ->) end. cbn [obind].
    match goal with |- context [normalizeAt [?x1; ?x2; ?x3; ?x4] 2] => destruct (norm4_at x1 x2 x3 x4) as (_ & _ & -> & _) end. cbn [obind].
    match goal with |- context [normalizeAt [?x1; ?x2; ?x3; ?x4] 3] => destruct (norm4_at x1 x2 x3 x4) as (_ & _ & _ & ->) end. cbn [obind].
    match goal with |- context [normalizeAt [?x1; ?x2; ?x3; ?x4] 1] => destruct (norm4_at x1 x2 x3 x4) as (_ & -> & _) end. cbn [obind].
    assert (U1 : forall v : vertex R, vtNormal v = vO -> normN (addN v up) = Vertex (vtPos v) up (vtU v) (vtV v)).
    { intros v E. unfold normN, addN. cbn [vtPos vtNormal vtU vtV]. rewrite E. f_equal.
      assert (vadd vO up = Vec 0 1 0) as -> by (unfold vadd, vO, up; cbn [vx vy vz]; apply vec_eq; cbn [vx vy vz]; rnum; ring). apply up_scaled. lra. }
    assert (U2 : forall v : vertex R, vtNormal v = vO -> normN (normN (addN (addN v up) up)) = Vertex (vtPos v) up (vtU v) (vtV v)).
    { intros v E. unfold normN, addN. cbn [vtPos vtNormal vtU vtV]. rewrite E. f_equal.
      assert (vadd (vadd vO up) up = Vec 0 2 0) as -> by (unfold vadd, vO, up; cbn [vx vy vz]; apply vec_eq; cbn [vx vy vz]; rnum; ring).
      rewrite (up_scaled 2) by lra. apply (up_scaled 1). lra. }
    repeat rewrite U2 by reflexivity. repeat rewrite U1 by reflexivity. cbn [vtPos vtU vtV].
    eexists. reflexivity.
  Qed.

  Definition lamp_hit (q : ray R) (a : hit R M) : Prop :=
    0 < hT a /\ hNormal a = up /\ on_rect w h c (along (rStart q) (rDir q) (hT a)).

  Lemma face_hits x0 z0 x1 z1 x2 z2 a0 b0 a1 b1 a2 b2 (q : ray R) :
    -1 <= x0 <= 1 -> -1 <= x1 <= 1 -> -1 <= x2 <= 1 -> -1 <= z0 <= 1 -> -1 <= z1 <= 1 -> -1 <= z2 <= 1 ->
    (z1 - z0) * (x2 - x0) - (x1 - x0) * (z2 - z0) <> 0 ->
    let a := faceIntersect (Vertex (corner x0 z0) up a0 b0) (Vertex (corner x1 z1) up a1 b1) (Vertex (corner x2 z2) up a2 b2) q : hit R M in
    a = noHit \/ lamp_hit q a.
  Proof.
    intros X0 X1 X2 Z0 Z1 Z2 Hne. cbv zeta. destruct q as [s d]. unfold lamp_hit. cbn [rStart rDir].
    set (v0 := corner x0 z0). set (v1 := corner x1 z1). set (v2 := corner x2 z2).
    assert (EN : cross3 (minus3 v1 v0) (minus3 v2 v0) = Vec 0 (((z1 - z0) * (x2 - x0) - (x1 - x0) * (z2 - z0)) * (w / 2 * (h / 2))) 0).
    { unfold cross3, minus3, v0, v1, v2, corner. cbn [vx vy vz]. apply vec_eq; cbn [vx vy vz]; field. }
    assert (K : ((z1 - z0) * (x2 - x0) - (x1 - x0) * (z2 - z0)) * (w / 2 * (h / 2)) <> 0).
    { apply Rmult_integral_contrapositive_currified; [exact Hne|]. nra. }
    set (k := ((z1 - z0) * (x2 - x0) - (x1 - x0) * (z2 - z0)) * (w / 2 * (h / 2))) in *. clearbody k.
    destruct (Req_dec (vy d) 0) as [Hd|Hd].
    - left. unfold faceIntersect. cbn [vtPos].
      assert (fgT (faceCoords v0 v1 v2 (Ray s d)) = 0) as ->.
      { unfold faceCoords. cbv zeta. cbn [fgT rStart rDir]. rnum.
        pose proof (f_equal vx EN) as E1. pose proof (f_equal vy EN) as E2. pose proof (f_equal vz EN) as E3.
        unfold cross3, minus3 in E1, E2, E3. cbn [vx vy vz] in E1, E2, E3. rewrite E1, E2, E3, Hd.
        replace (0 * vx d + k * 0 + 0 * vz d) with 0 by ring. unfold Rdiv. rewrite Rinv_0. ring. }
      rnum. replace (Rltb 0 0) with false by (symmetry; apply Rltb_false; lra). reflexivity.
    - assert (N1 : cross3 (minus3 v1 v0) (minus3 v2 v0) <> zero3) by (rewrite EN; intros E; apply (f_equal vy) in E; cbn in E; contradiction).
      assert (N2 : dot3 (cross3 (minus3 v1 v0) (minus3 v2 v0)) d <> 0).
      { rewrite EN. unfold dot3; cbn [vx vy vz]. replace (0 * vx d + k * vy d + 0 * vz d) with (k * vy d) by ring. now apply Rmult_integral_contrapositive_currified. }
      destruct (face_exact (M := M) v0 v1 v2 s d N1 N2 up up up a0 b0 a1 b1 a2 b2) as [(w0 & w1 & w2 & T & P0 & P1 & P2 & W & A & N & _)|(E & _)]; [right|left; exact E].
      split; [exact T|]. split; [rewrite N; unfold weighted, up, plus3, scal3; cbn [vx vy vz]; apply vec_eq; cbn [vx vy vz]; lra|].
      rewrite A. unfold on_rect, weighted, plus3, scal3, v0, v1, v2, corner; cbn [vx vy vz].
      assert (w2 = 1 - w0 - w1) as -> by lra.
      assert (B : forall e0 e1 e2 l o, 0 < l -> -1 <= e0 <= 1 -> -1 <= e1 <= 1 -> -1 <= e2 <= 1 ->
        Rabs (w0 * (o + e0 * l) + w1 * (o + e1 * l) + (1 - w0 - w1) * (o + e2 * l) - o) <= l).
      { intros e0 e1 e2 l o Hl E0 E1 E2.
        replace (w0 * (o + e0 * l) + w1 * (o + e1 * l) + (1 - w0 - w1) * (o + e2 * l) - o) with ((w0 * e0 + w1 * e1 + (1 - w0 - w1) * e2) * l) by ring.
        rewrite Rabs_mult, (Rabs_pos_eq l) by lra. assert (Rabs (w0 * e0 + w1 * e1 + (1 - w0 - w1) * e2) <= 1) by (apply Rabs_le; nra). nra. }
      split; [ring|]. split; apply B; lra.
  Qed.
  Lemma lamp_leafs q : exists a, leafLoop [face V00 V01 V10; face V11 V10 V01] farHit q = Val (a, q) /\ (a = farHit \/ lamp_hit q a).
  Proof.
    cbn [leafLoop]. unfold face at 1. cbn [simpleObj oIntersect omap obind].
    set (f1 := faceIntersect V00 V01 V10 q : hit R M).
    assert (H1 : f1 = noHit \/ lamp_hit q f1) by (apply face_hits; lra).
    match goal with |- context [if ?b then f1 else ?f] => set (fr := if b then f1 else f) end. assert (H2 : fr = farHit \/ lamp_hit q fr).
    { unfold fr. destruct (_ && _)%bool eqn:E; [|now left]. destruct H1 as [H1|H1]; [|now right].
      exfalso. rewrite H1 in E. cbn [noHit hT] in E. rnum. apply andb_true_iff in E. destruct E as [E _]. apply Rltb_true in E. lra. }
    clearbody fr. unfold face. cbn [simpleObj oIntersect omap obind].
    set (f2 := faceIntersect V11 V10 V01 q : hit R M).
    assert (H3 : f2 = noHit \/ lamp_hit q f2) by (apply face_hits; lra).
    eexists. split; [reflexivity|]. destruct (_ && _)%bool eqn:E; [|exact H2]. destruct H3 as [H3|H3]; [|now right].
    exfalso. rewrite H3 in E. cbn [noHit hT] in E. rnum. apply andb_true_iff in E. destruct E as [E _]. apply Rltb_true in E. lra.
  Qed.
  Lemma rect_hits rect : rectangle to32 ss m w h c = Val rect -> forall q, exists a, oIntersect rect q = Val (a, q) /\
    hMat a = m /\ (hT a <= 0 \/ 9 * 10 ^ 99 <= hT a \/ lamp_hit q a).
  Proof.
    intros H q. destruct rect_R as (box & E). rewrite E in H. injection H as <-. cbn [withMaterial oIntersect treeOf]. unfold treeIntersect.
    destruct (_ <=? _)%num.
    - eexists. split; [reflexivity|]. cbn [hMat hT noHit]. split; [reflexivity|]. left. rnum. lra.
    - cbn [nodeIntersect]. destruct (lamp_leafs q) as (a & -> & Ha). cbn [omap]. eexists. split; [reflexivity|]. cbn [hMat hT]. split; [reflexivity|]. right.
      destruct Ha as [-> |Ha]; [left|right].
      + cbn [hT farHit]. rnum. change (9 * 10 ^ 99)%Z with (9 * 10 ^ Z.of_nat 99)%Z. rewrite mult_IZR, <- pow_IZR. lra.
      + exact Ha.
  Qed.

  Lemma rayAt_along S d off t : rayAt (Ray (along S d off) d) t = along S d (off + t).
  Proof. unfold rayAt, along, vmadd, plus3, scal3. cbn [rStart rDir vx vy vz]. apply vec_eq; cbn [vx vy vz]; rnum; ring. Qed.
  Lemma along_along S d off t : along (along S d off) d t = along S d (off + t).
  Proof. unfold along, plus3, scal3. cbn [vx vy vz]. apply vec_eq; cbn [vx vy vz]; ring. Qed.
  Lemma lamp_march rect restr : rectangle to32 ss m w h c = Val rect -> (forall p, exists b, oInside restr p = Val b) -> ninf <= 9 * 10 ^ 99 ->
    forall S d ttl off a, 0 <= off -> oIntersect rect (Ray (along S d off) d) = Val (a, Ray (along S d off) d) ->
    exists a' r', marchLoop (fun b => b) rect restr ttl ninf off a (Ray (along S d off) d) = Val (a', r') /\ rDir r' = d /\
      (a' = noHit \/ (hMat a' = m /\ lamp_hit (Ray S d) a' /\ oInside restr (along S d (hT a')) = Val true)).
  Proof.
    intros HR HI Hfar S d. induction ttl as [|ttl IH]; intros off a Ho Ha; cbn [marchLoop].
    { eexists _, _. split; [reflexivity|]. split; [reflexivity|]. now left. }
    destruct (rect_hits rect HR (Ray (along S d off) d)) as (a0 & Ea & Hm & Hc). rewrite Ha in Ea. injection Ea as <-.
    rnum. destruct (Rltb 0 (hT a) && Rltb (hT a) ninf)%bool eqn:E.
    2:{ eexists _, _. split; [reflexivity|]. split; [reflexivity|]. now left. }
    apply andb_true_iff in E. destruct E as [E1 E2]. apply Rltb_true in E1. apply Rltb_true in E2.
    destruct Hc as [Hc|[Hc|Hc]]; [lra|lra|]. rewrite rayAt_along. destruct (HI (along S d (off + hT a))) as (b & Eb). rewrite Eb. cbn [obind].
    destruct b.
    - eexists _, _. split; [reflexivity|]. split; [reflexivity|]. right. cbn [hT hMat]. split; [exact Hm|]. rewrite (Rplus_comm (hT a) off). split; [|exact Eb].
      destruct Hc as (C1 & C2 & C3). unfold lamp_hit. cbn [hT hNormal rStart rDir] in *. split; [lra|]. split; [exact C2|]. rewrite along_along in C3. exact C3.
    - cbn [rDir]. rewrite rayAt_along. rewrite tiny_eq. assert (0 < tinyR) by (unfold tinyR; lra).
      destruct (rect_hits rect HR (Ray (along S d (off + (hT a + tinyR))) d)) as (a1 & Ea1 & _). rewrite Ea1. cbn [obind].
      apply (IH (off + (hT a + tinyR)) a1); [lra|exact Ea1].
  Qed.
  Lemma lamp_restricted rect restr : rectangle to32 ss m w h c = Val rect -> (forall p, exists b, oInside restr p = Val b) -> ninf <= 9 * 10 ^ 99 ->
    forall q, exists a, oIntersect (cRestrict rect restr) q = Val (a, q) /\
      (a = noHit \/ (hMat a = m /\ lamp_hit q a /\ oInside restr (along (rStart q) (rDir q) (hT a)) = Val true)).
  Proof.
    intros HR HI Hfar [S d]. cbn [cRestrict oIntersect rStart rDir]. unfold andMarch, march.
    destruct (rect_hits rect HR (Ray S d)) as (a & Ea & _). rewrite Ea. cbn [obind rStart].
    assert (ES : S = along S d 0) by (unfold along, plus3, scal3; apply vec_eq; cbn [vx vy vz]; ring).
    destruct (lamp_march rect restr HR HI Hfar S d 100 0 a ltac:(lra)) as (a' & r' & E & Er & H).
    { rewrite <- ES. exact Ea. }
    rewrite <- ES in E. change (nofZ 0) with 0. rewrite E. cbn [omap]. rewrite Er. exists a'. auto.
  Qed.
End Rect.

(** a flat lamp is a sound object: it is hit from both sides, in its plane *)
Section Lamps.
  Context {NI : NumInf R}.
  Hypothesis Hinf : 1 < ninf.
  Hypothesis Hfar : ninf <= 9 * 10 ^ 99.
  Variables (to32 : R -> R) (ss : (object R (material R) -> object R (material R) -> bool) -> list (object R (material R)) -> list (object R (material R))).
  Definition lampMat (b : color R) : material R := MTwoSided (MFlat (fun _ => Val b)) (MFlat (fun _ => Val black)).
  Definition lamp_at (o : object R (material R)) (b : color R) (S : pt -> Prop) : Prop :=
    forall q, exists a, oIntersect o q = Val (a, q) /\
      (a = noHit \/ (hMat a = Some (lampMat b) /\ 0 < hT a /\ hNormal a = up /\ S (along (rStart q) (rDir q) (hT a)))).
  Lemma rect_lamp b w h c l : 0 < w -> 0 < h -> rectangleLight to32 ss b w h c = Val l -> lamp_at (lightObject l) b (on_rect w h c).
  Proof.
    intros Hw Hh H q. unfold rectangleLight, planarLight in H. apply omap_val' in H. destruct H as (rect & HR & ->). cbn [lightObject].
    destruct (lamp_restricted Hinf to32 ss _ w h c Hw Hh rect allSpace HR ltac:(intros; eexists; reflexivity) Hfar q) as (a & E & H).
    exists a. split; [exact E|]. destruct H as [H|(H1 & (H2 & H3 & H4) & _)]; [now left|right; auto].
  Qed.
  Lemma disk_lamp b diam c l : 0 < diam -> diskLight to32 ss b diam c = Val l -> lamp_at (lightObject l) b (on_disk diam c).
  Proof.
    intros Hd H q. unfold diskLight, planarLight in H. apply omap_val' in H. destruct H as (rect & HR & ->). cbn [lightObject].
    destruct (lamp_restricted Hinf to32 ss _ diam diam c Hd Hd rect (cylinder None diam ninf c) HR ltac:(intros; eexists; reflexivity) Hfar q) as (a & E & H).
    exists a. split; [exact E|]. destruct H as [H|(H1 & (H2 & H3 & H4 & _) & H5)]; [now left|right].
    split; [exact H1|]. split; [exact H2|]. split; [exact H3|]. split; [exact H4|].
    cbn [cylinder quadric simpleObj oInside] in H5. injection H5 as H5. unfold quadricInside in H5. cbn [cylinderData qBounds qOrigin qa qb] in H5.
    destruct (bbInside _ _) in H5; [|discriminate]. unfold vdot, mul3, vsub in H5. cbn [vx vy vz] in H5. rnum. apply Rltb_true in H5. nra.
  Qed.
  Lemma lamp_sound o b S : lamp_at o b S -> sound_object o /\ sound_object (blackened o).
  Proof.
    intros H. split.
    - intros q _. destruct (H q) as (a & E & Ha). exists a. split; [exact E|]. intros Ht. destruct Ha as [-> |(H1 & H2 & H3 & H4)].
      + cbn [noHit hT] in Ht. rnum. lra.
      + split; [intros _; rewrite H3; intros Z; apply (f_equal vy) in Z; cbn in Z; lra|]. exists (lampMat b). split; [exact H1|]. cbn. split; eexists; reflexivity.
    - intros q _. destruct (H q) as (a & E & Ha). unfold blackened, plainObject. cbn [oIntersect]. rewrite E. cbn [omap]. eexists. split; [reflexivity|]. cbn [hT hNormal hMat hLocal]. intros Ht.
      destruct Ha as [-> |(H1 & H2 & H3 & H4)].
      + cbn [noHit hT] in Ht. rnum. lra.
      + split; [intros _; rewrite H3; intros Z; apply (f_equal vy) in Z; cbn in Z; lra|]. eexists. split; [reflexivity|]. exact I.
  Qed.
End Lamps.
