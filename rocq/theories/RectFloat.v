(** * Rectangles in double precision: their own rays do not meet them *)
From Coq Require Import ZArith Reals Bool List Lra Lia Psatz.
From Flocq Require Import Core.
From Flocq Require IEEE754.BinarySingleNaN.
Import IEEE754.BinarySingleNaN.
From Verif Require Import Num NumLaws Outcome B64 GeomModel GeomSpec ObjModel TreeModel SceneModel ParamProofs FloatSpec BoxFloat FloatErr SphereFloat NormFloat.
Import ListNotations.
Local Open Scope R_scope.

(** ** What a quadrilateral consists of *)
Section Shape.
  Context {F : Type} `{NF : Num F} `{NI : NumInf F} {M : Type}.
  Local Open Scope num_scope.
  Variable to32 : F -> F.
  Variable ss : (object F M -> object F M -> bool) -> list (object F M) -> list (object F M).
  Definition addN' (v : vertex F) (n : vec F) : vertex F := Vertex (vtPos v) (vadd (vtNormal v) n) (vtU v) (vtV v).
  Definition normN' (v : vertex F) : vertex F := Vertex (vtPos v) (vnormalized (vtNormal v)) (vtU v) (vtV v).
  Lemma add4_at' (a b c d : vertex F) n :
    addNormal [a; b; c; d] 0 n = Val [addN' a n; b; c; d] /\ addNormal [a; b; c; d] 1 n = Val [a; addN' b n; c; d] /\
    addNormal [a; b; c; d] 2 n = Val [a; b; addN' c n; d] /\ addNormal [a; b; c; d] 3 n = Val [a; b; c; addN' d n].
  Proof. repeat split. Qed.
  Lemma norm4_at' (a b c d : vertex F) :
    normalizeAt [a; b; c; d] 0 = Val [normN' a; b; c; d] /\ normalizeAt [a; b; c; d] 1 = Val [a; normN' b; c; d] /\
    normalizeAt [a; b; c; d] 2 = Val [a; b; normN' c; d] /\ normalizeAt [a; b; c; d] 3 = Val [a; b; c; normN' d].
  Proof. repeat split. Qed.
  Section Quad.
    Variables (m : option M) (p0 p1 p2 p3 : vec F).
    Definition quadN1 := triangleNormal p0 p1 p3.
    Definition quadN2 := triangleNormal p2 p3 p1.
    Definition quadV0 := Vertex p0 (vnormalized (vadd vO quadN1)) #0 #0.
    Definition quadV1 := Vertex p1 (vnormalized (vnormalized (vadd (vadd vO quadN1) quadN2))) #1 #0.
    Definition quadV2 := Vertex p2 (vnormalized (vadd vO quadN2)) #1 #1.
    Definition quadV3 := Vertex p3 (vnormalized (vnormalized (vadd (vadd vO quadN1) quadN2))) #0 #1.
    Definition quadFaces : list (object F M) := [face quadV0 quadV1 quadV3; face quadV2 quadV3 quadV1].
    Lemma quad_shape : isBadVec quadN1 = false -> isBadVec quadN2 = false ->
      quadrilateral to32 ss m p0 p1 p2 p3 = omap (fun bb => withMaterial m (treeOf (Leaf (boxTo32 to32 bb) quadFaces))) (makeBoundingBox quadFaces).
    Proof.
      intros B1 B2. unfold quadrilateral, meshWithUV. cbn [meshVertices omap obind].
      unfold mesh, calcNormals. cbn [sumNormals].
      set (n1 := faceNormal _ _). replace n1 with (Val quadN1) by reflexivity. clear n1. cbn [obind]. rewrite B1.
      match goal with |- context [addNormal [?x1; ?x2; ?x3; ?x4] 0 ?n] => destruct (add4_at' x1 x2 x3 x4 n) as (-> & _) end. cbn [obind].
      match goal with |- context [addNormal [?x1; ?x2; ?x3; ?x4] 1 ?n] => destruct (add4_at' x1 x2 x3 x4 n) as (_ & -> & _) end. cbn [obind].
      match goal with |- context [addNormal [?x1; ?x2; ?x3; ?x4] 3 ?n] => destruct (add4_at' x1 x2 x3 x4 n) as (_ & _ & _ & ->) end. cbn [obind].
      set (n1 := faceNormal _ _). replace n1 with (Val quadN2) by reflexivity. clear n1. cbn [obind]. rewrite B2.
      match goal with |- context [addNormal [?x1; ?x2; ?x3; ?x4] 2 ?n] => destruct (add4_at' x1 x2 x3 x4 n) as (_ & _ & -> & _) end. cbn [obind].
      match goal with |- context [addNormal [?x1; ?x2; ?x3; ?x4] 3 ?n] => destruct (add4_at' x1 x2 x3 x4 n) as (_ & _ & _ & ->) end. cbn [obind].
      match goal with |- context [addNormal [?x1; ?x2; ?x3; ?x4] 1 ?n] => destruct (add4_at' x1 x2 x3 x4 n) as (_ & -> & _) end. cbn [obind].
      cbn [normalizeAll].
      match goal with |- context [normalizeAt [?x1; ?x2; ?x3; ?x4] 0] => destruct (norm4_at' x1 x2 x3 x4) as (-> & _) end. cbn [obind].
      match goal with |- context [normalizeAt [?x1; ?x2; ?x3; ?x4] 1] => destruct (norm4_at' x1 x2 x3 x4) as (_ & -> & _) end. cbn [obind].
      match goal with |- context [normalizeAt [?x1; ?x2; ?x3; ?x4] 3] => destruct (norm4_at' x1 x2 x3 x4) as (_ & _ & _ & ->) end. cbn [obind].
      match goal with |- context [normalizeAt [?x1; ?x2; ?x3; ?x4] 2] => destruct (norm4_at' x1 x2 x3 x4) as (_ & _ & -> & _) end. cbn [obind].
      match goal with |- context [normalizeAt [?x1; ?x2; ?x3; ?x4] 3] => destruct (norm4_at' x1 x2 x3 x4) as (_ & _ & _ & ->) end. cbn [obind].
      match goal with |- context [normalizeAt [?x1; ?x2; ?x3; ?x4] 1] => destruct (norm4_at' x1 x2 x3 x4) as (_ & -> & _) end. cbn [obind].
      match goal with |- context [facesOf ?fs ?vs] => replace (facesOf fs vs) with (Val quadFaces) by reflexivity end. cbn [obind].
      match goal with |- context [facesOf ?fs ?vs] => set (x := facesOf fs vs) end.
      replace x with (Val [face (Vertex p0 vO #0 #0) (Vertex p1 vO #1 #0) (Vertex p3 vO #0 #1); face (Vertex p2 vO #1 #1) (Vertex p3 vO #0 #1) (Vertex p1 vO #1 #0)] : outcome (list (object F M))) by reflexivity.
      clear x. cbn [obind]. unfold tree. replace (buildTree to32 ss (S (length quadFaces)) quadFaces)
        with (omap (fun bb => Leaf (boxTo32 to32 bb) quadFaces) (makeBoundingBox quadFaces)) by reflexivity.
      destruct (makeBoundingBox quadFaces); reflexivity.
    Qed.
  End Quad.
End Shape.

(** ** Magnitudes and zeros *)
Lemma am_mono j k x : at_most j x -> (j <= k)%Z -> at_most k x.
Proof. intros [F H] L. split; [exact F|]. eapply Rle_trans; [exact H|]. now apply bpow_le. Qed.
Lemma am_add k (x y : b64) : (-900 <= k <= 998)%Z -> at_most k x -> at_most k y -> at_most (k + 1) (nadd x y).
Proof.
  intros Hk [Fx Hx] [Fy Hy]. destruct (add_u (k + 1) x y ltac:(lia) Fx Fy) as (F & _ & B).
  - rewrite bpow_plus. change (bpow radix2 1) with 2. eapply Rle_trans; [apply Rabs_triang|]. lra.
  - now split.
Qed.
Lemma am_sub k (x y : b64) : (-900 <= k <= 998)%Z -> at_most k x -> at_most k y -> at_most (k + 1) (nsub x y).
Proof.
  intros Hk [Fx Hx] [Fy Hy]. destruct (sub_u (k + 1) x y ltac:(lia) Fx Fy) as (F & _ & B).
  - rewrite bpow_plus. change (bpow radix2 1) with 2. unfold Rminus. eapply Rle_trans; [apply Rabs_triang|]. rewrite Rabs_Ropp. lra.
  - now split.
Qed.
Lemma am_mul j k (x y : b64) : (-900 <= j + k <= 998)%Z -> at_most j x -> at_most k y -> at_most (j + k) (nmul x y).
Proof.
  intros Hk [Fx Hx] [Fy Hy]. destruct (mul_u (j + k) x y ltac:(lia) Fx Fy) as (F & _ & B).
  - rewrite bpow_plus, Rabs_mult. apply Rmult_le_compat; auto using Rabs_pos.
  - now split.
Qed.
Definition null (x : b64) : Prop := is_finite x = true /\ B2R x = 0.
Lemma null_am k x : null x -> at_most k x.
Proof. intros [F E]. split; [exact F|]. rewrite E, Rabs_R0. apply bpow_ge_0. Qed.
Lemma big_0 : 0 <= big. Proof. eapply Rle_trans; [apply (bpow_ge_0 radix2 1000)|apply bpow_big; lia]. Qed.
Lemma null_mul_l x y : null x -> is_finite y = true -> null (nmul x y).
Proof. intros [F E] Fy. destruct (bmul_correct x y F Fy) as [A B]; [rewrite E, Rmult_0_l, Rabs_R0; exact big_0|]. split; [exact A|]. now rewrite B, E, Rmult_0_l, rnd_0. Qed.
Lemma null_mul_r (x y : b64) : is_finite x = true -> null y -> null (nmul x y).
Proof. intros Fx [F E]. destruct (bmul_correct x y Fx F) as [A B]; [rewrite E, Rmult_0_r, Rabs_R0; exact big_0|]. split; [exact A|]. now rewrite B, E, Rmult_0_r, rnd_0. Qed.
Lemma null_sub (x y : b64) : is_finite x = true -> is_finite y = true -> B2R x = B2R y -> null (nsub x y).
Proof.
  intros Fx Fy E. destruct (bsub_correct x y Fx Fy) as [A B]; [rewrite E; unfold Rminus; rewrite Rplus_opp_r, Rabs_R0; exact big_0|].
  split; [exact A|]. rewrite B, E. unfold Rminus. now rewrite Rplus_opp_r, rnd_0.
Qed.
Lemma null_sub0 x y : null x -> null y -> null (nsub x y).
Proof. intros [F E] [F' E']. apply null_sub; congruence. Qed.
Lemma am_big k x : (k <= 1000)%Z -> at_most k x -> Rabs (B2R x) <= big.
Proof. intros L [_ H]. eapply Rle_trans; [exact H|now apply bpow_big]. Qed.
Lemma null_add_l k x y : (k <= 1000)%Z -> null x -> at_most k y -> is_finite (nadd x y) = true /\ B2R (nadd x y) = B2R y.
Proof.
  intros L [F E] H. assert (G := am_big k y L H). destruct H as [Fy _]. destruct (badd_correct x y F Fy) as [A B]; [now rewrite E, Rplus_0_l|].
  split; [exact A|]. rewrite B, E, Rplus_0_l. apply rnd_id, fmt_B2R.
Qed.
Lemma null_add_r k x y : (k <= 1000)%Z -> at_most k x -> null y -> is_finite (nadd x y) = true /\ B2R (nadd x y) = B2R x.
Proof.
  intros L H [F E]. assert (G := am_big k x L H). destruct H as [Fx _]. destruct (badd_correct x y Fx F) as [A B]; [now rewrite E, Rplus_0_r|].
  split; [exact A|]. rewrite B, E, Rplus_0_r. apply rnd_id, fmt_B2R.
Qed.
Lemma null_mid k a b c : (k <= 1000)%Z -> null a -> at_most k b -> null c -> is_finite (nadd (nadd a b) c) = true /\ B2R (nadd (nadd a b) c) = B2R b.
Proof.
  intros L Ha Hb Hc. destruct (null_add_l k a b L Ha Hb) as [F E]. destruct (null_add_r k (nadd a b) c L) as [F' E'].
  - split; [exact F|]. rewrite E. apply Hb.
  - exact Hc.
  - split; [exact F'|congruence].
Qed.
Lemma rnd_pos x : bpow radix2 (-1074) <= x -> 0 < rnd x.
Proof. intros H. apply Rlt_le_trans with (bpow radix2 (-1074)); [apply bpow_gt_0|]. apply rnd_ge; [apply fmt_bpow; lia|exact H]. Qed.

(** ** A horizontal triangle *)
Section Flat.
  Variables (v0 v1 v2 : vec b64) (Y : R).
  Hypothesis H0 : all3 (at_most 12) v0.
  Hypothesis H1 : all3 (at_most 12) v1.
  Hypothesis H2 : all3 (at_most 12) v2.
  Hypothesis Y0 : B2R (vy v0) = Y.
  Hypothesis Y1 : B2R (vy v1) = Y.
  Hypothesis Y2 : B2R (vy v2) = Y.
  Let ax := nsub (vx v1) (vx v0). Let ay := nsub (vy v1) (vy v0). Let az := nsub (vz v1) (vz v0).
  Let bx := nsub (vx v2) (vx v0). Let by_ := nsub (vy v2) (vy v0). Let bz := nsub (vz v2) (vz v0).
  Definition flatN : b64 := nsub (nmul (nsub (vz v1) (vz v0)) (nsub (vx v2) (vx v0))) (nmul (nsub (vx v1) (vx v0)) (nsub (vz v2) (vz v0))).
  Let N := B2R flatN.
  Hypothesis HN : bpow radix2 (-60) <= N.
  Lemma edges : at_most 13 ax /\ at_most 13 az /\ at_most 13 bx /\ at_most 13 bz /\ null ay /\ null by_.
  Proof.
    destruct H0 as (A0 & A1 & A2), H1 as (B0 & B1 & B2), H2 as (C0 & C1 & C2).
    change 13%Z with (12 + 1)%Z. split; [apply am_sub; auto; lia|]. split; [apply am_sub; auto; lia|]. split; [apply am_sub; auto; lia|]. split; [apply am_sub; auto; lia|].
    split; apply null_sub; first [apply A1|apply B1|apply C1|congruence].
  Qed.
  Lemma flatN_am : at_most 27 flatN.
  Proof.
    destruct edges as (E1 & E2 & E3 & E4 & _). change 27%Z with (13 + 13 + 1)%Z. apply am_sub; [lia| |]; apply am_mul; auto; lia.
  Qed.
  Lemma cross_nulls : null (nsub (nmul ay bz) (nmul az by_)) /\ null (nsub (nmul ax by_) (nmul ay bx)).
  Proof.
    destruct edges as ([F1 _] & [F2 _] & [F3 _] & [F4 _] & N1 & N2).
    split; apply null_sub0; first [apply null_mul_l; assumption|apply null_mul_r; assumption].
  Qed.
  Section Ray1.
    Variables (s d : vec b64).
    Hypothesis Hsx : at_most 200 (vx s).
    Hypothesis Hsy : at_most 12 (vy s).
    Hypothesis Hsz : at_most 200 (vz s).
    Hypothesis Hd : all3 (at_most 1) d.
    Hypothesis Hdy : at_least (-500) (vy d).
    Let S := rnd (B2R (vy s) - Y).
    Let D := B2R (vy d).
    Let g := faceCoords v0 v1 v2 (Ray s d).
    Lemma start_am : at_most 201 (nsub (vx s) (vx v0)) /\ at_most 201 (nsub (vz s) (vz v0)) /\ at_most 13 (nsub (vy s) (vy v0)) /\ B2R (nsub (vy s) (vy v0)) = S.
    Proof.
      destruct H0 as (A0 & A1 & A2). change 201%Z with (200 + 1)%Z. split; [apply am_sub; [lia|exact Hsx|apply (am_mono 12); [exact A0|lia]]|].
      split; [apply am_sub; [lia|exact Hsz|apply (am_mono 12); [exact A2|lia]]|]. change 13%Z with (12 + 1)%Z. split; [apply am_sub; [lia|exact Hsy|exact A1]|].
      destruct Hsy as [F B]. destruct A1 as [F' B']. destruct (bsub_correct (vy s) (vy v0) F F') as [_ E].
      - eapply Rle_trans; [|apply (bpow_big 13); lia]. unfold Rminus. eapply Rle_trans; [apply Rabs_triang|]. rewrite Rabs_Ropp. change (bpow radix2 13) with 8192. change (bpow radix2 12) with 4096 in *. lra.
      - rewrite E, Y0. reflexivity.
    Qed.
    Lemma nd_R : bpow radix2 (-560) <= Rabs (N * D) <= bpow radix2 28.
    Proof.
      destruct flatN_am as [_ B]. fold N in B. assert (0 < N) by (eapply Rlt_le_trans; [apply bpow_gt_0|exact HN]). rewrite Rabs_mult. rewrite (Rabs_pos_eq N) in * by lra.
      destruct Hd as (_ & [_ D1] & _). fold D in D1. unfold at_least in Hdy. fold D in Hdy.
      change (-560)%Z with (-60 + -500)%Z. change 28%Z with (27 + 1)%Z. rewrite !bpow_plus. split; apply Rmult_le_compat; auto using bpow_ge_0, Rabs_pos; lra.
    Qed.
    Lemma nd_rnd : bpow radix2 (-560) <= Rabs (rnd (N * D)) <= bpow radix2 28 /\ 0 < rnd (N * D) * D.
    Proof.
      destruct nd_R as [L U]. assert (P : 0 < N) by (eapply Rlt_le_trans; [apply bpow_gt_0|exact HN]).
      assert (B := bpow_gt_0 radix2 (-560)).
      destruct (Rle_or_lt 0 D) as [HD|HD].
      - assert (D <> 0) by (intros E; rewrite E, Rmult_0_r, Rabs_R0 in L; lra). assert (0 < D) by lra. assert (0 < N * D) by (now apply Rmult_lt_0_compat).
        rewrite (Rabs_pos_eq (N * D)) in * by lra. assert (G := rnd_ge (N * D) _ (fmt_bpow (-560) ltac:(lia)) L).
        rewrite Rabs_pos_eq by lra. split; [split; [exact G|apply rnd_le; [apply fmt_bpow; lia|exact U]]|]. apply Rmult_lt_0_compat; lra.
      - assert (N * D < 0) by nra. rewrite (Rabs_left (N * D)) in * by assumption.
        assert (G := rnd_le (N * D) (- bpow radix2 (-560)) (fmt_opp _ (fmt_bpow (-560) ltac:(lia))) ltac:(lra)).
        assert (G' := rnd_ge (N * D) (- bpow radix2 28) (fmt_opp _ (fmt_bpow 28 ltac:(lia))) ltac:(lra)).
        rewrite Rabs_left by lra. split; [lra|]. replace (rnd (N * D) * D) with ((- rnd (N * D)) * (- D)) by ring. apply Rmult_lt_0_compat; lra.
    Qed.
    Lemma ns_R : Rabs (rnd (N * S)) <= bpow radix2 40.
    Proof.
      apply rnd_abs_le; [apply fmt_bpow; lia|]. destruct flatN_am as [_ B]. fold N in B. destruct start_am as (_ & _ & [_ B'] & E). rewrite E in B'.
      rewrite Rabs_mult. change 40%Z with (27 + 13)%Z. rewrite bpow_plus. apply Rmult_le_compat; auto using Rabs_pos.
    Qed.
    Lemma flat_T : at_most 600 (fgT g) /\ B2R (fgT g) = rnd (- rnd (N * S) / rnd (N * D)).
    Proof.
      destruct start_am as (S0 & S2 & S1 & ES). destruct cross_nulls as [C0 C2]. assert (Q := flatN_am).
      destruct Hd as (D0 & D1 & D2).
      unfold g, faceCoords. cbn [fgT rDir rStart vx vy vz]. fold ax ay az bx by_ bz.
      set (nx := nsub (nmul ay bz) (nmul az by_)) in *. set (nz := nsub (nmul ax by_) (nmul ay bx)) in *.
      change (nsub (nmul az bx) (nmul ax bz)) with flatN.
      destruct (null_mid 28 (nmul nx (vx d)) (nmul flatN (vy d)) (nmul nz (vz d))) as [FD ED]; [lia|apply null_mul_l; [exact C0|apply D0]|change 28%Z with (27 + 1)%Z; apply am_mul; auto; lia|apply null_mul_l; [exact C2|apply D2]|].
      destruct (null_mid 40 (nmul nx (nsub (vx s) (vx v0))) (nmul flatN (nsub (vy s) (vy v0))) (nmul nz (nsub (vz s) (vz v0)))) as [FS' ES'];
        [lia|apply null_mul_l; [exact C0|apply S0]|change 40%Z with (27 + 13)%Z; apply am_mul; auto; lia|apply null_mul_l; [exact C2|apply S2]|].
      assert (E1 : B2R (nmul flatN (vy d)) = rnd (N * D)).
      { apply bmul_correct; [apply Q|apply D1|]. eapply Rle_trans; [apply nd_R|apply bpow_big; lia]. }
      assert (E2 : B2R (nmul flatN (nsub (vy s) (vy v0))) = rnd (N * S)).
      { rewrite <- ES. apply bmul_correct; [apply Q|apply S1|]. rewrite ES, Rabs_mult. destruct Q as [_ Q]. destruct S1 as [_ S1]. rewrite ES in S1. fold N in Q.
        eapply Rle_trans; [|apply (bpow_big 40); lia]. change 40%Z with (27 + 13)%Z. rewrite bpow_plus. apply Rmult_le_compat; auto using Rabs_pos. }
      rewrite E1 in ED. rewrite E2 in ES'.
      set (nd := nadd (nadd _ _) (nmul nz (vz d))) in *. set (ns := nadd (nadd _ _) (nmul nz (nsub (vz s) (vz v0)))) in *. clearbody nd ns.
      destruct (opp_R ns) as [FO EO]. destruct nd_rnd as [[L U] _]. assert (B := ns_R).
      assert (P : 0 < Rabs (rnd (N * D))) by (eapply Rlt_le_trans; [apply bpow_gt_0|exact L]).
      assert (NZ : rnd (N * D) <> 0) by (intros Z0; rewrite Z0, Rabs_R0 in P; lra).
      assert (QB : Rabs (- rnd (N * S) / rnd (N * D)) <= bpow radix2 600).
      { unfold Rdiv. rewrite Rabs_mult, Rabs_Ropp, Rabs_inv. change 600%Z with (40 + 560)%Z. rewrite bpow_plus.
        apply Rmult_le_compat; [apply Rabs_pos|left; now apply Rinv_0_lt_compat|exact B|].
        change (bpow radix2 560) with (bpow radix2 (- (-560))). rewrite bpow_opp. apply Rinv_le; [apply bpow_gt_0|exact L]. }
      destruct (bdiv_correct (nopp ns) nd) as [F E].
      - now rewrite FO.
      - now rewrite ED.
      - rewrite EO, ES', ED. eapply Rle_trans; [exact QB|apply bpow_big; lia].
      - rewrite EO, ES', ED in E. split; [|exact E]. split; [exact F|]. rewrite E. apply rnd_abs_le; [apply fmt_bpow; lia|exact QB].
    Qed.
    (** rays that leave the plane *)
    Lemma flat_leaves : 0 < S * D -> B2R (fgT g) <= 0.
    Proof.
      intros P. destruct flat_T as [_ ->]. destruct nd_rnd as [_ Q]. rewrite <- rnd_0. apply rnd_mono.
      assert (PN : 0 < N) by (eapply Rlt_le_trans; [apply bpow_gt_0|exact HN]).
      assert (NZ : rnd (N * D) <> 0) by (intros Z0; rewrite Z0, Rmult_0_l in Q; lra).
      assert (W : 0 <= rnd (N * S) * D).
      { destruct (Rle_or_lt 0 D) as [HD|HD].
        - apply Rmult_le_pos; [|exact HD]. apply rnd_nonneg. assert (0 <= S) by nra. nra.
        - assert (S <= 0) by nra. assert (rnd (N * S) <= 0) by (rewrite <- rnd_0; apply rnd_mono; nra). nra. }
      unfold Rdiv. rewrite Ropp_mult_distr_l_reverse. apply Ropp_le_cancel. rewrite Ropp_0, Ropp_involutive.
      replace (rnd (N * S) * / rnd (N * D)) with (rnd (N * S) * D * / (rnd (N * D) * D)).
      - apply Rmult_le_pos; [exact W|]. left. now apply Rinv_0_lt_compat.
      - assert (NZD : D <> 0) by (intros Z0; rewrite Z0, Rmult_0_r in Q; lra). generalize dependent (rnd (N * D)). generalize dependent (rnd (N * S)). intros. field. split; assumption.
    Qed.
    Lemma flat_hits : 0 < B2R (fgT g) -> S * D < 0.
    Proof.
      intros P. destruct (Rlt_or_le (S * D) 0) as [H|H]; [exact H|exfalso].
      destruct (Rle_lt_or_eq_dec _ _ H) as [H'|H']; [apply flat_leaves in H'; lra|].
      destruct nd_rnd as [_ Q]. assert (D <> 0) by (intros Z0; rewrite Z0, Rmult_0_r in Q; lra).
      assert (S = 0) by (symmetry in H'; apply Rmult_integral in H'; tauto). destruct flat_T as [_ E]. rewrite E, H4, Rmult_0_r, rnd_0 in P.
      replace (- 0 / rnd (N * D)) with 0 in P by (unfold Rdiv; ring). rewrite rnd_0 in P. lra.
    Qed.

    (** the point of the ray lies on the plane, up to rounding *)
    Lemma flat_TD : Rabs (B2R (fgT g) * D + S) <= bpow radix2 (-36).
    Proof.
      destruct flat_T as [_ ->]. destruct nd_R as [L U]. destruct start_am as (_ & _ & [_ BS] & ES). rewrite ES in BS.
      assert (PN : 0 < N) by (eapply Rlt_le_trans; [apply bpow_gt_0|exact HN]).
      assert (ND : N * D <> 0) by (intros Z0; rewrite Z0, Rabs_R0 in L; assert (B := bpow_gt_0 radix2 (-560)); lra).
      assert (D0 : D <> 0) by (intros Z0; apply ND; rewrite Z0; ring).
      destruct Hd as (_ & [_ D1] & _). fold D in D1.
      destruct (rnd_eps (N * S)) as (e1 & n1 & B1 & C1 & ->).
      destruct (rnd_rel (N * D)) as (e2 & B2 & ->). { eapply Rle_trans; [|exact L]. apply bpow_le. lia. }
      destruct (rnd_eps (- (N * S * (1 + e1) + n1) / (N * D * (1 + e2)))) as (e3 & n3 & B3 & C3 & ->).
      rewrite <- u53 in B1, B3. assert (Hu := u_small). assert (Pu := u_pos).
      apply Rabs_le_inv in B1, B2, B3.
      assert (P2 : 0 < 1 + e2) by lra.
      replace ((- (N * S * (1 + e1) + n1) / (N * D * (1 + e2)) * (1 + e3) + n3) * D + S)
        with (S * (1 - (1 + e1) * ((1 + e3) / (1 + e2))) - n1 / N * ((1 + e3) / (1 + e2)) + n3 * D).
      2:{ field. repeat split; try assumption; lra. }
      set (k := (1 + e3) / (1 + e2)).
      assert (K : 1 - 3 * u <= k <= 1 + 3 * u).
      { unfold k. split; [apply Rmult_le_reg_r with (1 + e2); [exact P2|]|apply Rmult_le_reg_r with (1 + e2); [exact P2|]];
          unfold Rdiv; rewrite Rmult_assoc, Rinv_l, Rmult_1_r by lra; nra. }
      clearbody k. assert (K' : Rabs (1 - (1 + e1) * k) <= 5 * u) by (apply Rabs_le; nra).
      assert (Bn : Rabs (n1 / N) <= bpow radix2 (-1015)).
      { unfold Rdiv. rewrite Rabs_mult, Rabs_inv, (Rabs_pos_eq N) by lra. change (-1015)%Z with (-1075 + 60)%Z. rewrite bpow_plus.
        apply Rmult_le_compat; [apply Rabs_pos|left; now apply Rinv_0_lt_compat|exact C1|].
        change (bpow radix2 60) with (bpow radix2 (- (-60))). rewrite bpow_opp. apply Rinv_le; [apply bpow_gt_0|exact HN]. }
      assert (T1 : bpow radix2 (-1015) <= bpow radix2 (-60)) by (apply bpow_le; lia).
      assert (T2 : bpow radix2 (-1075) <= bpow radix2 (-60)) by (apply bpow_le; lia).
      assert (E60 : bpow radix2 (-60) = u / 128) by (rewrite u_val; change (/ 1152921504606846976 = / 9007199254740992 / 128); lra).
      assert (E36 : bpow radix2 (-36) = u * 131072) by (rewrite u_val; change (/ 68719476736 = / 9007199254740992 * 131072); lra).
      change (bpow radix2 13) with 8192 in BS. change (bpow radix2 1) with 2 in D1.
      eapply Rle_trans; [apply Rabs_triang|]. eapply Rle_trans; [apply Rplus_le_compat_r; unfold Rminus at 1; apply Rabs_triang|].
      rewrite Rabs_Ropp, !Rabs_mult.
      assert (X1 : Rabs S * Rabs (1 - (1 + e1) * k) <= 8192 * (5 * u)) by (apply Rmult_le_compat; auto using Rabs_pos).
      assert (X2 : Rabs (n1 / N) * Rabs k <= u / 128 * 2).
      { apply Rmult_le_compat; auto using Rabs_pos; [lra|]. apply Rabs_le. lra. }
      assert (X3 : Rabs n3 * Rabs D <= u / 128 * 2) by (apply Rmult_le_compat; auto using Rabs_pos; lra).
      lra.
    Qed.
    Lemma flat_y : at_most 14 (nadd (vy s) (nmul (fgT g) (vy d))) /\ Rabs (B2R (nadd (vy s) (nmul (fgT g) (vy d))) - Y) <= bpow radix2 (-35).
    Proof.
      destruct flat_T as [[FT _] _]. assert (H := flat_TD). set (t := fgT g) in *. clearbody t. destruct start_am as (_ & _ & [_ BS] & ES). rewrite ES in BS.
      change (bpow radix2 13) with 8192 in BS. apply Rabs_le_inv in BS.
      assert (L36 : bpow radix2 (-36) <= 1) by (cbn; lra). apply Rabs_le_inv in H.
      destruct Hd as (_ & [Fd D1] & _). destruct Hsy as [Fs BY]. change (bpow radix2 12) with 4096 in BY. apply Rabs_le_inv in BY.
      assert (HY : Rabs Y <= 4096) by (rewrite <- Y0; apply H0). apply Rabs_le_inv in HY.
      destruct (mul_u 14 t (vy d) ltac:(lia) FT Fd) as (F1 & E1 & _). { change (bpow radix2 14) with 16384. fold D. apply Rabs_le. lra. }
      change (bpow radix2 14) with 16384 in E1. fold D in E1.
      assert (Hu := u_small). assert (Pu := u_pos).
      assert (ESr : Rabs (S - (B2R (vy s) - Y)) <= 8192 * u).
      { change 8192 with (bpow radix2 13). apply rnd_u; [lia|]. change (bpow radix2 13) with 8192. apply Rabs_le. lra. }
      apply Rabs_le_inv in E1, ESr.
      assert (E36 : bpow radix2 (-36) = u * 131072) by (rewrite u_val; change (/ 68719476736 = / 9007199254740992 * 131072); lra).
      assert (E35 : bpow radix2 (-35) = u * 262144) by (rewrite u_val; change (/ 34359738368 = / 9007199254740992 * 262144); lra).
      rewrite E36 in *.
      destruct (add_u 14 (vy s) (nmul t (vy d)) ltac:(lia) Fs F1) as (F2 & E2 & B2).
      { change (bpow radix2 14) with 16384. apply Rabs_le. lra. }
      change (bpow radix2 14) with 16384 in E2. apply Rabs_le_inv in E2.
      split; [split; [exact F2|exact B2]|]. rewrite E35. apply Rabs_le. lra.
    Qed.
    (** for rays that are not too flat *)
    Hypothesis Hdy' : at_least (-100) (vy d).
    Lemma flat_T_am : at_most 114 (fgT g).
    Proof.
      destruct flat_T as [[F _] _]. split; [exact F|]. assert (H := flat_TD). destruct start_am as (_ & _ & [_ BS] & ES). rewrite ES in BS.
      change (bpow radix2 13) with 8192 in BS. assert (L36 : bpow radix2 (-36) <= 1) by (cbn; lra). apply Rabs_le_inv in H, BS.
      assert (HT : Rabs (B2R (fgT g) * D) <= bpow radix2 14) by (change (bpow radix2 14) with 16384; apply Rabs_le; lra).
      rewrite Rabs_mult in HT. unfold at_least in Hdy'. fold D in Hdy'. assert (P := bpow_gt_0 radix2 (-100)).
      apply Rmult_le_reg_r with (bpow radix2 (-100)); [exact P|]. rewrite <- bpow_plus. change (114 + -100)%Z with 14%Z.
      eapply Rle_trans; [|exact HT]. apply Rmult_le_compat_l; [apply Rabs_pos|exact Hdy'].
    Qed.
    (** weights *)
    Lemma n2_R : let n2 := nadd (nadd (nmul (nsub (nmul ay bz) (nmul az by_)) (nsub (nmul ay bz) (nmul az by_))) (nmul flatN flatN)) (nmul (nsub (nmul ax by_) (nmul ay bx)) (nsub (nmul ax by_) (nmul ay bx))) in
      is_finite n2 = true /\ bpow radix2 (-120) <= B2R n2.
    Proof.
      destruct cross_nulls as [C0 C2]. assert (Q := flatN_am). cbv zeta.
      set (nx := nsub (nmul ay bz) (nmul az by_)) in *. set (nz := nsub (nmul ax by_) (nmul ay bx)) in *.
      assert (QQ : at_most 54 (nmul flatN flatN)) by (change 54%Z with (27 + 27)%Z; apply am_mul; auto; lia).
      destruct (null_mid 54 (nmul nx nx) (nmul flatN flatN) (nmul nz nz)) as [F E]; [lia|apply null_mul_l; [exact C0|apply C0]|exact QQ|apply null_mul_l; [exact C2|apply C2]|].
      split; [exact F|]. rewrite E. destruct Q as [FQ BQ]. fold N in BQ. assert (P := bpow_gt_0 radix2 (-60)).
      assert (EM : B2R (nmul flatN flatN) = rnd (N * N)).
      { apply bmul_correct; auto. fold N. eapply Rle_trans; [|apply (bpow_big 54); lia]. rewrite Rabs_mult. change 54%Z with (27 + 27)%Z. rewrite bpow_plus. apply Rmult_le_compat; auto using Rabs_pos. }
      rewrite EM. apply rnd_ge; [apply fmt_bpow; lia|]. change (-120)%Z with (-60 + -60)%Z. rewrite bpow_plus. apply Rmult_le_compat; lra.
    Qed.
    Lemma weight_fin (x n2 : b64) : at_most 300 x -> is_finite n2 = true -> bpow radix2 (-120) <= B2R n2 -> at_most 420 (ndiv x n2).
    Proof.
      intros [F B] F2 L. assert (P := bpow_gt_0 radix2 (-120)). destruct (div_u 420 x n2) as (F' & _ & B'); auto; try lia; [lra| |now split].
      unfold Rdiv. rewrite Rabs_mult, Rabs_inv, (Rabs_pos_eq (B2R n2)) by lra. change 420%Z with (300 + 120)%Z. rewrite bpow_plus.
      apply Rmult_le_compat; [apply Rabs_pos|left; apply Rinv_0_lt_compat; lra|exact B|]. change 120%Z with (- (-120))%Z at 1. rewrite bpow_opp. apply Rinv_le; [exact P|exact L].
    Qed.
    Lemma flat_weights : at_most 420 (fg1 g) /\ at_most 420 (fg3 g) /\ fg2 g = nsub (nsub (nofZ 1) (fg1 g)) (fg3 g).
    Proof.
      assert (HT := flat_T_am). unfold g in HT |- *. unfold faceCoords in *. cbn [fgT fg1 fg2 fg3 rDir rStart vx vy vz] in *. fold ax ay az bx by_ bz in HT |- *.
      destruct start_am as (S0 & S2 & S1 & _). destruct cross_nulls as [C0 C2]. assert (Q := flatN_am). destruct edges as (E1 & E2 & E3 & E4 & N1 & N2).
      destruct Hd as (D0 & D1 & D2). destruct n2_R as [F2 L2].
      change (nsub (nmul az bx) (nmul ax bz)) with flatN in *.
      set (nx := nsub (nmul ay bz) (nmul az by_)) in *. set (nz := nsub (nmul ax by_) (nmul ay bx)) in *.
      set (n2 := nadd (nadd (nmul nx nx) (nmul flatN flatN)) (nmul nz nz)) in *. set (t := ndiv _ _) in *. clearbody t n2.
      assert (PX : forall a b, at_most 201 a -> at_most 1 b -> at_most 202 (nadd a (nmul t b))).
      { intros a b Ha Hb. change 202%Z with (201 + 1)%Z. apply am_add; [lia|exact Ha|]. apply (am_mono 115); [|lia]. change 115%Z with (114 + 1)%Z. apply am_mul; auto; lia. }
      assert (P0 := PX _ _ S0 D0). assert (P1 := PX _ _ (am_mono 13 201 _ S1 ltac:(lia)) D1). assert (P2 := PX _ _ S2 D2).
      set (px := nadd (nsub (vx s) (vx v0)) (nmul t (vx d))) in *. set (py := nadd (nsub (vy s) (vy v0)) (nmul t (vy d))) in *. set (pz := nadd (nsub (vz s) (vz v0)) (nmul t (vz d))) in *.
      assert (CR : forall j k a b c e, (0 <= j <= 20)%Z -> (0 <= k <= 210)%Z -> at_most j a -> at_most k b -> at_most j c -> at_most k e -> at_most (j + k + 1) (nsub (nmul a b) (nmul c e))).
      { intros j k a b c e Hj Hk A B C E. apply am_sub; [lia| |]; apply am_mul; auto; lia. }
      assert (P13 : forall x, at_most 13 x -> at_most 202 x) by (intros x Hx; apply (am_mono 13); [exact Hx|lia]).
      assert (NA := null_am 13 ay N1). assert (NB := null_am 13 by_ N2).
      assert (PA : forall x y, at_most 202 x -> at_most 13 y -> at_most 203 (nsub x y)) by (intros x y Hx Hy; change 203%Z with (202 + 1)%Z; apply am_sub; [lia|exact Hx|auto]).
      assert (BA : forall x y, at_most 13 x -> at_most 13 y -> at_most 14 (nsub x y)) by (intros x y Hx Hy; change 14%Z with (13 + 1)%Z; apply am_sub; [lia|exact Hx|auto]).
      assert (WF : forall a b c, is_finite a = true -> at_most 260 b -> is_finite c = true -> at_most 420 (ndiv (nadd (nadd (nmul nx a) (nmul flatN b)) (nmul nz c)) n2)).
      { intros a b c Fa Hb Fc. apply weight_fin; [|exact F2|exact L2]. destruct (null_mid 300 (nmul nx a) (nmul flatN b) (nmul nz c)) as [F E]; [lia|now apply null_mul_l| |now apply null_mul_l|].
        - apply (am_mono 287); [|lia]. change 287%Z with (27 + 260)%Z. apply am_mul; auto; lia.
        - split; [exact F|]. rewrite E. apply (am_mono 287 300); [|lia]. change 287%Z with (27 + 260)%Z. apply am_mul; auto; lia. }
      split; [|split; [|reflexivity]].
      - apply WF.
        + apply (CR 14%Z 203%Z); auto; try lia; apply PA; auto.
        + apply (am_mono 218); [|lia]. change 218%Z with (14 + 203 + 1)%Z. apply CR; auto; try lia; apply PA; auto.
        + apply (CR 14%Z 203%Z); auto; try lia; apply PA; auto.
      - apply WF.
        + apply (CR 13%Z 202%Z); auto; lia.
        + apply (am_mono 216); [|lia]. change 216%Z with (13 + 202 + 1)%Z. apply CR; auto; lia.
        + apply (CR 13%Z 202%Z); auto; lia.
    Qed.
  End Ray1.
End Flat.

(** ** Upright normals *)
Definition up (v : vec b64) : Prop := null (vx v) /\ null (vz v) /\ is_finite (vy v) = true /\ Rabs (B2R (vy v) - 1) <= 8 * u.
Lemma up_norm w : null (vx w) -> null (vz w) -> is_finite (vy w) = true -> bpow radix2 (-300) <= B2R (vy w) <= bpow radix2 300 -> up (vnormalized w).
Proof.
  intros [Fx Ex] [Fz Ez] Fy [L U]. assert (P := bpow_gt_0 radix2 (-300)). assert (P' := bpow_gt_0 radix2 400).
  assert (U' : bpow radix2 300 <= bpow radix2 400) by (apply bpow_le; lia).
  assert (Fw : is_finite (vx w) = true /\ is_finite (vy w) = true /\ is_finite (vz w) = true) by auto.
  assert (Hi : Rabs (B2R (vx w)) <= bpow radix2 400 /\ Rabs (B2R (vy w)) <= bpow radix2 400 /\ Rabs (B2R (vz w)) <= bpow radix2 400).
  { rewrite Ex, Ez, Rabs_R0, (Rabs_pos_eq (B2R (vy w))) by lra. repeat split; lra. }
  assert (Lo : bpow radix2 (-800) <= B2R (vx w) * B2R (vx w) + B2R (vy w) * B2R (vy w) + B2R (vz w) * B2R (vz w)).
  { rewrite Ex, Ez, !Rmult_0_r, Rplus_0_l, Rplus_0_r. apply Rle_trans with (bpow radix2 (-300) * bpow radix2 (-300)); [rewrite <- bpow_plus; apply bpow_le; lia|]. apply Rmult_le_compat; lra. }
  destruct (norm_u w Fw Hi Lo) as (_ & (Fn & En & _) & _). destruct (inv_len w Fw Hi Lo) as [Fs _].
  split; [apply null_mul_l; [now split|exact Fs]|]. split; [apply null_mul_l; [now split|exact Fs]|]. split; [exact Fn|].
  replace (B2R (vy w) / sqrt (B2R (vx w) * B2R (vx w) + B2R (vy w) * B2R (vy w) + B2R (vz w) * B2R (vz w))) with 1 in En; [exact En|].
  rewrite Ex, Ez, !Rmult_0_r, Rplus_0_l, Rplus_0_r, sqrt_square by lra. field. lra.
Qed.
Lemma up_range v : up v -> is_finite (vy v) = true /\ 999 / 1000 <= B2R (vy v) <= 1001 / 1000.
Proof. intros (_ & _ & F & H). split; [exact F|]. assert (Hu := u_small). apply Rabs_le_inv in H. lra. Qed.
Lemma range_pow x : 1 / 4 <= x <= 4 -> bpow radix2 (-300) <= x <= bpow radix2 300.
Proof.
  intros H. assert (A : bpow radix2 (-300) <= bpow radix2 (-2)) by (apply bpow_le; lia). assert (B : bpow radix2 2 <= bpow radix2 300) by (apply bpow_le; lia).
  change (bpow radix2 (-2)) with (/ 4) in A. change (bpow radix2 2) with 4 in B. lra.
Qed.
Lemma null_add x y : null x -> null y -> null (nadd x y).
Proof. intros Hx Hy. destruct (null_add_l 0 x y ltac:(lia) Hx (null_am 0 y Hy)) as [F E]. split; [exact F|]. rewrite E. apply Hy. Qed.
Lemma zero_null : null (nofZ 0). Proof. split; reflexivity. Qed.
Lemma up_first n : up n -> up (vnormalized (vadd vO n)).
Proof.
  intros H. assert (R := up_range n H). destruct R as [F R]. destruct H as (X & Z & _).
  assert (A : is_finite (nadd (nofZ 0) (vy n)) = true /\ B2R (nadd (nofZ 0) (vy n)) = B2R (vy n)).
  { apply (null_add_l 1); [lia|exact zero_null|]. split; [exact F|]. change (bpow radix2 1) with 2. apply Rabs_le. lra. }
  destruct A as [FA EA]. apply up_norm; unfold vadd, vO; cbn [vx vy vz].
  - apply null_add; [exact zero_null|exact X].
  - apply null_add; [exact zero_null|exact Z].
  - exact FA.
  - rewrite EA. apply range_pow. lra.
Qed.
Lemma up_second n1 n2 : up n1 -> up n2 -> up (vnormalized (vnormalized (vadd (vadd vO n1) n2))).
Proof.
  intros H H'. destruct (up_range n1 H) as [F R]. destruct (up_range n2 H') as [F' R']. destruct H as (X & Z & _). destruct H' as (X' & Z' & _).
  assert (A : is_finite (nadd (nofZ 0) (vy n1)) = true /\ B2R (nadd (nofZ 0) (vy n1)) = B2R (vy n1)).
  { apply (null_add_l 1); [lia|exact zero_null|]. split; [exact F|]. change (bpow radix2 1) with 2. apply Rabs_le. lra. }
  destruct A as [FA EA].
  destruct (add_u 2 (nadd (nofZ 0) (vy n1)) (vy n2) ltac:(lia) FA F') as (FB & EB & _). { rewrite EA. change (bpow radix2 2) with 4. apply Rabs_le. lra. }
  rewrite EA in EB. apply Rabs_le_inv in EB. change (bpow radix2 2) with 4 in EB. assert (Hu := u_small). assert (Pu := u_pos).
  assert (G : up (vnormalized (vadd (vadd vO n1) n2))).
  { apply up_norm; unfold vadd, vO; cbn [vx vy vz].
    - apply null_add; [apply null_add; [exact zero_null|exact X]|exact X'].
    - apply null_add; [apply null_add; [exact zero_null|exact Z]|exact Z'].
    - exact FB.
    - apply range_pow. lra. }
  assert (G' := up_range _ G). destruct G' as [FG RG]. destruct G as (X3 & Z3 & _). apply up_norm; auto. apply range_pow. lra.
Qed.
Lemma finite_ok (x : b64) : is_finite x = true -> isBad x = false.
Proof.
  intros F. unfold isBad. destruct x as [s|s| |s m e p]; try exact (False_ind _ (diff_false_true F)).
  - destruct s; reflexivity.
  - destruct s; reflexivity.
Qed.
Lemma up_ok n : up n -> isBadVec n = false.
Proof. intros ([F1 _] & [F2 _] & F3 & _). unfold isBadVec. now rewrite !finite_ok by assumption. Qed.

(** the interpolated normal *)
Lemma weights_sum (l1 l3 : b64) : at_most 420 l1 -> at_most 420 l3 -> let l2 := nsub (nsub (nofZ 1) l1) l3 in
  nltb l1 (nofZ 0) = false -> nltb l2 (nofZ 0) = false -> nltb l3 (nofZ 0) = false ->
  is_finite l2 = true /\ 0 <= B2R l1 <= 2 /\ 0 <= B2R l2 <= 2 /\ 0 <= B2R l3 <= 2 /\ Rabs (B2R l1 + B2R l2 + B2R l3 - 1) <= 16 * u.
Proof.
  intros H1 H3 l2 P1 P2 P3. destruct one_b as [Fo Eo].
  assert (W : at_most 421 (nsub (nofZ 1) l1)).
  { change 421%Z with (420 + 1)%Z. apply am_sub; [lia| |exact H1]. split; [exact Fo|]. rewrite Eo, Rabs_R1. change 1 with (bpow radix2 0). apply bpow_le. lia. }
  assert (W2 : at_most 422 l2). { change 422%Z with (421 + 1)%Z. apply am_sub; [lia|exact W|apply (am_mono 420); [exact H3|lia]]. }
  assert (Q1 := P1). assert (Q2 := P2). assert (Q3 := P3).
  rewrite bltb_eq in Q1, Q2, Q3 by (apply H1 || apply H3 || apply W2 || reflexivity).
  change (B2R (nofZ 0 : b64)) with 0 in Q1, Q2, Q3. apply Rltb_false in Q1, Q2, Q3.
  assert (E1 : B2R (nsub (nofZ 1) l1) = rnd (1 - B2R l1)).
  { rewrite <- Eo. apply bsub_correct; [exact Fo|apply H1|]. eapply Rle_trans; [|apply (bpow_big 421); lia]. unfold Rminus. eapply Rle_trans; [apply Rabs_triang|].
    rewrite Rabs_Ropp. change 421%Z with (420 + 1)%Z. rewrite bpow_plus. change (bpow radix2 1) with 2. destruct H1 as [_ H1].
    assert (1 <= bpow radix2 420) by (change 1 with (bpow radix2 0); apply bpow_le; lia). rewrite Eo, Rabs_R1. lra. }
  assert (E2 : B2R l2 = rnd (rnd (1 - B2R l1) - B2R l3)).
  { rewrite <- E1. apply bsub_correct; [apply W|apply H3|]. eapply Rle_trans; [|apply (bpow_big 422); lia]. unfold Rminus. eapply Rle_trans; [apply Rabs_triang|].
    rewrite Rabs_Ropp. change 422%Z with (421 + 1)%Z. rewrite bpow_plus. change (bpow radix2 1) with 2. destruct H3 as [_ H3]. destruct W as [_ W].
    assert (bpow radix2 420 <= bpow radix2 421) by (apply bpow_le; lia). lra. }
  set (a := B2R l1) in *. set (c := B2R l3) in *. set (b := B2R l2) in *.
  assert (K : - 1 / 4 <= rnd (1 - a) - c).
  { apply Rnot_lt_le. intros C. assert (G := rnd_le (rnd (1 - a) - c) (- bpow radix2 (-2)) (fmt_opp _ (fmt_bpow (-2) ltac:(lia)))). change (bpow radix2 (-2)) with (/ 4) in G.
    specialize (G ltac:(lra)). lra. }
  assert (K1 : - 1 / 2 <= 1 - a).
  { apply Rnot_lt_le. intros C. assert (G := rnd_le (1 - a) (- bpow radix2 (-1)) (fmt_opp _ (fmt_bpow (-1) ltac:(lia)))). change (bpow radix2 (-1)) with (/ 2) in G.
    specialize (G ltac:(lra)). lra. }
  destruct (rnd_u (1 - a) 0 ltac:(lia)) as [G1 _]. { change (bpow radix2 0) with 1. apply Rabs_le. lra. }
  change (bpow radix2 0) with 1 in G1. apply Rabs_le_inv in G1. assert (Hu := u_small). assert (Pu := u_pos).
  destruct (rnd_u (rnd (1 - a) - c) 1 ltac:(lia)) as [G2 _]. { change (bpow radix2 1) with 2. apply Rabs_le. lra. }
  change (bpow radix2 1) with 2 in G2. rewrite <- E2 in G2. apply Rabs_le_inv in G2.
  split; [apply W2|]. repeat split; try lra. apply Rabs_le. lra.
Qed.
Lemma blend_up (n1 n2 n3 : vec b64) (l1 l2 l3 : b64) : up n1 -> up n2 -> up n3 -> is_finite l1 = true -> is_finite l2 = true -> is_finite l3 = true ->
  0 <= B2R l1 <= 2 -> 0 <= B2R l2 <= 2 -> 0 <= B2R l3 <= 2 -> Rabs (B2R l1 + B2R l2 + B2R l3 - 1) <= 16 * u ->
  up (vnormalized (vadd (vadd (vmul n1 l1) (vmul n2 l2)) (vmul n3 l3))).
Proof.
  intros U1 U2 U3 F1 F2 F3 R1 R2 R3 HS. destruct (up_range _ U1) as [G1 A1]. destruct (up_range _ U2) as [G2 A2]. destruct (up_range _ U3) as [G3 A3].
  destruct U1 as (X1 & Z1 & _). destruct U2 as (X2 & Z2 & _). destruct U3 as (X3 & Z3 & _).
  assert (Hu := u_small). assert (Pu := u_pos). apply Rabs_le_inv in HS.
  assert (MU : forall l n : b64, is_finite l = true -> is_finite n = true -> 0 <= B2R l <= 2 -> 999 / 1000 <= B2R n <= 1001 / 1000 ->
    is_finite (nmul l n : b64) = true /\ 998 / 1000 * B2R l - 4 * u <= B2R (nmul l n : b64) <= 1002 / 1000 * B2R l + 4 * u).
  { intros l n Fl Fn Rl Rn. destruct (mul_u 2 l n ltac:(lia) Fl Fn) as (F & E & _). { change (bpow radix2 2) with 4. apply Rabs_le. nra. }
    change (bpow radix2 2) with 4 in E. apply Rabs_le_inv in E. split; [exact F|]. assert (999 / 1000 * B2R l <= B2R l * B2R n <= 1001 / 1000 * B2R l) by (clear - Rl Rn; nra). lra. }
  destruct (MU _ _ F1 G1 R1 A1) as [M1 B1]. destruct (MU _ _ F2 G2 R2 A2) as [M2 B2]. destruct (MU _ _ F3 G3 R3 A3) as [M3 B3].
  destruct (add_u 3 _ _ ltac:(lia) M1 M2) as (F4 & E4 & _). { change (bpow radix2 3) with 8. apply Rabs_le. lra. }
  change (bpow radix2 3) with 8 in E4. apply Rabs_le_inv in E4.
  destruct (add_u 3 _ _ ltac:(lia) F4 M3) as (F5 & E5 & _). { change (bpow radix2 3) with 8. apply Rabs_le. lra. }
  change (bpow radix2 3) with 8 in E5. apply Rabs_le_inv in E5.
  apply up_norm; unfold vadd, vmul; cbn [vx vy vz].
  - apply null_add; [apply null_add|]; apply null_mul_r; assumption.
  - apply null_add; [apply null_add|]; apply null_mul_r; assumption.
  - exact F5.
  - apply range_pow. lra.
Qed.

(** flipped towards the viewer *)
Lemma flip_up (n d : vec b64) : up n -> all3 (at_most 1) d -> at_least (-100) (vy d) ->
  let f := flipTowards n d in null (vx f) /\ null (vz f) /\ is_finite (vy f) = true /\ Rabs (B2R (vy f)) <= 1001 / 1000 /\
  (B2R (vy d) < 0 -> 999 / 1000 <= B2R (vy f)) /\ (0 < B2R (vy d) -> B2R (vy f) <= - (999 / 1000)) /\ Rabs (B2R (vy f) * B2R (vy f) - 1) <= 20 * u.
Proof.
  intros H (D0 & D1 & D2) L f. destruct (up_range n H) as [F R]. destruct H as (X & Z & _ & UY).
  assert (SQ : Rabs (B2R (vy n) * B2R (vy n) - 1) <= 20 * u). { apply Rabs_le_inv in UY. assert (Hu := u_small). assert (Pu := u_pos). apply Rabs_le. replace (B2R (vy n) * B2R (vy n) - 1) with ((B2R (vy n) - 1) * (B2R (vy n) + 1)) by ring. set (k := B2R (vy n) - 1) in *. assert (1999 / 1000 <= B2R (vy n) + 1 <= 2001 / 1000) by lra. set (l := B2R (vy n) + 1) in *. clearbody k l. nra. }
  assert (HM : at_most 2 (nmul (vy n) (vy d))). { change 2%Z with (1 + 1)%Z. apply am_mul; [lia| |exact D1]. split; [exact F|]. change (bpow radix2 1) with 2. apply Rabs_le. lra. }
  destruct (null_mid 2 (nmul (vx n) (vx d)) (nmul (vy n) (vy d)) (nmul (vz n) (vz d))) as [FD ED]; [lia|apply null_mul_l; [exact X|apply D0]|exact HM|apply null_mul_l; [exact Z|apply D2]|].
  assert (EM : B2R (nmul (vy n) (vy d)) = rnd (B2R (vy n) * B2R (vy d))).
  { apply bmul_correct; [exact F|apply D1|]. eapply Rle_trans; [|apply (bpow_big 2); lia]. change (bpow radix2 2) with 4. destruct D1 as [_ D1]. change (bpow radix2 1) with 2 in D1. apply Rabs_le_inv in D1. apply Rabs_le. nra. }
  assert (V : vdot n d = nadd (nadd (nmul (vx n) (vx d)) (nmul (vy n) (vy d))) (nmul (vz n) (vz d))) by reflexivity.
  unfold f, flipTowards. rewrite V. rewrite bltb_eq by (reflexivity || exact FD). rewrite ED, EM. change (B2R (nofZ 0 : b64)) with 0.
  unfold at_least in L. assert (P := bpow_gt_0 radix2 (-100)).
  destruct (Rltb 0 (rnd (B2R (vy n) * B2R (vy d)))) eqn:E.
  - apply Rltb_true in E. assert (DP : 0 < B2R (vy d)).
    { apply Rnot_le_lt. intros C. assert (rnd (B2R (vy n) * B2R (vy d)) <= 0) by (rewrite <- rnd_0; apply rnd_mono; nra). lra. }
    assert (FM : is_finite (nofZ (-1) : b64) = true /\ B2R (nofZ (-1) : b64) = -1) by (apply Z_b; lia). destruct FM as [FM EO].
    assert (EY : is_finite (nmul (nofZ (-1)) (vy n)) = true /\ B2R (nmul (nofZ (-1)) (vy n)) = - B2R (vy n)).
    { destruct (bmul_correct (nofZ (-1)) (vy n) FM F) as [FF EE].
      - rewrite EO. eapply Rle_trans; [|apply (bpow_big 2); lia]. change (bpow radix2 2) with 4. apply Rabs_le. lra.
      - split; [exact FF|]. rewrite EE, EO. replace (-1 * B2R (vy n)) with (- B2R (vy n)) by ring. apply rnd_id, fmt_opp, fmt_B2R. }
    destruct EY as [FY EY]. unfold vmul; cbn [vx vy vz]. rewrite EY.
    split; [now apply null_mul_r|]. split; [now apply null_mul_r|]. split; [exact FY|]. split; [apply Rabs_le; lra|]. split; [lra|]. split; [lra|]. rewrite Rmult_opp_opp. exact SQ.
  - apply Rltb_false in E. split; [exact X|]. split; [exact Z|]. split; [exact F|]. split; [apply Rabs_le; lra|]. split; [lra|]. split; [|exact SQ].
    intros DP. exfalso. rewrite Rabs_pos_eq in L by lra. assert (0 < rnd (B2R (vy n) * B2R (vy d))); [|lra].
    apply rnd_pos. apply Rle_trans with (bpow radix2 (-101)); [apply bpow_le; lia|]. change (-101)%Z with (-1 + -100)%Z. rewrite bpow_plus. change (bpow radix2 (-1)) with (/ 2). apply Rmult_le_compat; lra.
Qed.

(** ** Bounds in single precision *)
Definition fexp32 : Z -> Z := SpecFloat.fexp 24 128.
Lemma valid32 : Valid_exp fexp32. Proof. apply (fexp_correct 24 128); reflexivity. Qed.
Lemma to32_R (x : b64) (k : Z) : (-100 <= k <= 100)%Z -> at_most k x ->
  at_most k (to32b x) /\ B2R (to32b x) = round radix2 fexp32 (round_mode mode_NE) (B2R x).
Proof.
  intros Hk [Fx Hx]. assert (Vx := valid32). destruct x as [s|s| |s m e p]; try discriminate.
  - split; [split; [reflexivity|exact Hx]|]. change (B2R (B754_zero s : b64)) with 0. symmetry. apply round_0. apply valid_rnd_round_mode.
  - unfold to32b.
    pose proof (binary_normalize_correct 24 128 eq_refl eq_refl mode_NE (SpecFloat.cond_Zopp s (Z.pos m)) e s) as A. cbv zeta in A.
    change (F2R {| Fnum := SpecFloat.cond_Zopp s (Z.pos m); Fexp := e |}) with (B2R (B754_finite s m e p)) in A.
    set (v := B2R (B754_finite s m e p)) in *. fold fexp32 in A.
    assert (Rabs (round radix2 fexp32 (round_mode mode_NE) v) <= bpow radix2 k) as R1.
    { apply abs_round_le_generic; [exact Vx|apply valid_rnd_round_mode| |exact Hx].
      apply generic_format_bpow. unfold fexp32, SpecFloat.fexp, SpecFloat.emin. lia. }
    rewrite Rlt_bool_true in A; [|apply Rle_lt_trans with (1 := R1); apply bpow_lt; lia].
    destruct A as (A & B & _). set (z := binary_normalize 24 128 _ _ _ _ _ _) in *. rewrite <- A in R1 |- *. clearbody z.
    destruct z as [s'|s'| |s' m' e' p']; try discriminate.
    + split; [split; [reflexivity|]|reflexivity]. cbn [B2R]. rewrite Rabs_R0. apply bpow_ge_0.
    + pose proof (binary_normalize_correct 53 1024 Hprec64 Hmax64 mode_NE (SpecFloat.cond_Zopp s' (Z.pos m')) e' s') as C. cbv zeta in C.
      change (F2R {| Fnum := SpecFloat.cond_Zopp s' (Z.pos m'); Fexp := e' |}) with (B2R (B754_finite s' m' e' p')) in C.
      assert (G := generic_format_B2R _ _ (B754_finite s' m' e' p')). set (y := B2R (B754_finite s' m' e' p')) in *.
      assert (fmt y) as Fy.
      { revert G. apply generic_inclusion_mag. intros _. unfold fexp64, SpecFloat.fexp, SpecFloat.emin. lia. }
      assert (rnd y = y) as Ey by (apply rnd_id; exact Fy).
      change (round radix2 (SpecFloat.fexp 53 1024) (round_mode mode_NE) y) with (rnd y) in C. rewrite Ey in C.
      rewrite Rlt_bool_true in C; [|apply Rle_lt_trans with (1 := R1); apply bpow_lt; lia].
      destruct C as (C & D & _). split; [split; [exact D|]|exact C]. rewrite C. exact R1.
Qed.
Lemma to32_near (x : b64) (k : Z) : (-100 <= k <= 100)%Z -> at_most k x -> at_most k (to32b x) /\ Rabs (B2R (to32b x) - B2R x) <= bpow radix2 (k - 25).
Proof.
  intros Hk H. destruct (to32_R x k Hk H) as [A E]. split; [exact A|]. rewrite E. destruct H as [_ H]. assert (Vx := valid32).
  destruct (Req_dec (B2R x) 0) as [Z0|Z0].
  { rewrite Z0, round_0 by apply valid_rnd_round_mode. unfold Rminus. rewrite Ropp_0, Rplus_0_r, Rabs_R0. apply bpow_ge_0. }
  destruct (Rle_lt_or_eq_dec _ _ H) as [L|Q].
  - eapply Rle_trans; [apply error_le_half_ulp; exact Vx|].
    assert (ulp radix2 fexp32 (B2R x) <= bpow radix2 (k - 24)).
    { rewrite ulp_neq_0 by exact Z0. apply bpow_le. unfold cexp. assert (mag radix2 (B2R x) <= k)%Z by (now apply mag_le_bpow). unfold fexp32, SpecFloat.fexp, SpecFloat.emin. lia. }
    replace (k - 24)%Z with (k + -24)%Z in H0 by lia. replace (k - 25)%Z with (k + -24 + -1)%Z by lia. rewrite bpow_plus. change (bpow radix2 (-1)) with (/ 2). lra.
  - rewrite round_generic; [|apply valid_rnd_round_mode|].
    + unfold Rminus. rewrite Rplus_opp_r, Rabs_R0. apply bpow_ge_0.
    + unfold Rabs in Q. destruct (Rcase_abs (B2R x)).
      * replace (B2R x) with (- bpow radix2 k) by lra. apply generic_format_opp, generic_format_bpow. unfold fexp32, SpecFloat.fexp, SpecFloat.emin. lia.
      * rewrite Q. apply generic_format_bpow. unfold fexp32, SpecFloat.fexp, SpecFloat.emin. lia.
Qed.

(** ** Boxes of horizontal faces *)
Section Hull.
  Context {F : Type} `{NF : Num F} {M : Type}.
  Variables P Q : F -> Prop.
  Definition sits (v : vec F) : Prop := P (vx v) /\ Q (vy v) /\ P (vz v).
  Lemma hull_sits (hull : list (vec F)) : forall mn mx mn' mx', List.Forall sits hull -> sits mn -> sits mx -> hullLoop hull mn mx = Val (mn', mx') -> sits mn' /\ sits mx'.
  Proof.
    induction hull as [|v rest IH]; intros mn mx mn' mx' HF H1 H2 E; cbn [hullLoop] in E.
    - injection E as <- <-. now split.
    - destruct (checkNaNVec v) as [[]| |]; try discriminate. cbn [obind] in E. inversion HF as [|v' r' Hv Hr]; subst.
      apply IH in E; auto.
      + destruct v as [x y z], mn as [x' y' z']. destruct Hv as (A & B & C), H1 as (A' & B' & C'). unfold sits, vmap2, minStep in *. cbn [vx vy vz] in *.
        repeat split; match goal with |- context [if ?b then _ else _] => destruct b; assumption end.
      + destruct v as [x y z], mx as [x' y' z']. destruct Hv as (A & B & C), H2 as (A' & B' & C'). unfold sits, vmap2, maxStep in *. cbn [vx vy vz] in *.
        repeat split; match goal with |- context [if ?b then _ else _] => destruct b; assumption end.
  Qed.
  Lemma box_sits (hull : list (vec F)) bb : List.Forall sits hull -> boundingBoxFromHull hull = Val bb -> sits (bMin bb) /\ sits (bMax bb).
  Proof.
    destruct hull as [|h rest]; [discriminate|]. intros HF E. unfold boundingBoxFromHull in E.
    destruct (hullLoop (h :: rest) h h) as [[mn mx]| |] eqn:EL; try discriminate. cbn [obind] in E.
    destruct (checkNaNVec mn) as [[]| |]; try discriminate. cbn [obind] in E. destruct (checkNaNVec mx) as [[]| |]; try discriminate. cbn [obind] in E. injection E as <-.
    inversion HF as [|v' r' Hv Hr]; subst. exact (hull_sits (h :: rest) h h mn mx HF Hv Hv EL).
  Qed.
  Lemma faces_sit (a b c a' b' c' : vertex F) bb : sits (vtPos a) -> sits (vtPos b) -> sits (vtPos c) -> sits (vtPos a') -> sits (vtPos b') -> sits (vtPos c') ->
    makeBoundingBox (M := M) [face a b c; face a' b' c'] = Val bb -> sits (bMin bb) /\ sits (bMax bb).
  Proof.
    intros A B C A' B' C' E. unfold makeBoundingBox in E. cbn [hullOf] in E. unfold face in E; cbn [oBounds simpleObj] in E.
    destruct (boundingBoxFromHull [vtPos a; vtPos b; vtPos c]) as [b1| |] eqn:E1; try discriminate.
    destruct (boundingBoxFromHull [vtPos a'; vtPos b'; vtPos c']) as [b2| |] eqn:E2; try discriminate. cbn [obind omap] in E.
    apply box_sits in E1; [|repeat constructor; apply A || apply B || apply C]. apply box_sits in E2; [|repeat constructor; apply A' || apply B' || apply C'].
    destruct E1 as [X1 X2], E2 as [X3 X4]. apply box_sits in E; [exact E|]. repeat constructor; apply X1 || apply X2 || apply X3 || apply X4.
  Qed.
End Hull.

(** a ray away from a flat box *)
Lemma away (lo hi s d : vec b64) : all3 (at_most 200) lo -> all3 (at_most 200) hi -> all3 (at_most 200) s -> all3 (at_most 1) d -> all3 (at_least (-500)) d ->
  (B2R (vy lo) - B2R (vy s)) * B2R (vy d) < 0 -> (B2R (vy hi) - B2R (vy s)) * B2R (vy d) < 0 ->
  bpow radix2 (-100) <= Rabs (B2R (vy lo) - B2R (vy s)) -> bpow radix2 (-100) <= Rabs (B2R (vy hi) - B2R (vy s)) ->
  nleb (bbIntersect (BBox lo hi) (Ray s d)) (nofZ 0) = true.
Proof.
  intros (L0 & L1 & L2) (U0 & U1 & U2) (S0 & S1 & S2) (D0 & D1 & D2) (M0 & M1 & M2) N1 N2 W1 W2.
  assert (Fin : forall b x d, at_most 200 b -> at_most 200 x -> at_most 1 d -> at_least (-500) d -> is_finite (nmul (nsub b x) (ndiv (nofZ 1) d)) = true).
  { intros b x e Hb Hx He Le. destruct one_b as [Fo Eo]. assert (P := bpow_gt_0 radix2 (-500)). unfold at_least in Le.
    assert (NZ : B2R e <> 0) by (intros Z0; rewrite Z0, Rabs_R0 in Le; lra).
    assert (I : at_most 500 (ndiv (nofZ 1) e)).
    { destruct (div_u 500 (nofZ 1) e ltac:(lia) Fo NZ) as (F & _ & B); [|now split]. rewrite Eo. unfold Rdiv. rewrite Rmult_1_l, Rabs_inv. change 500%Z with (- (-500))%Z. rewrite bpow_opp. now apply Rinv_le. }
    apply (am_mul 201 500); [lia|apply (am_sub 200); auto; lia|exact I]. }
  assert (Neg : forall b, at_most 200 b -> (B2R b - B2R (vy s)) * B2R (vy d) < 0 -> bpow radix2 (-100) <= Rabs (B2R b - B2R (vy s)) ->
    B2R (nmul (nsub b (vy s)) (ndiv (nofZ 1) (vy d))) < 0).
  { intros b Hb HN HW. destruct one_b as [Fo Eo]. assert (P := bpow_gt_0 radix2 (-500)). unfold at_least in M1. destruct D1 as [FD BD]. change (bpow radix2 1) with 2 in BD.
    assert (NZ : B2R (vy d) <> 0) by (intros Z0; rewrite Z0, Rabs_R0 in M1; lra).
    assert (QI : Rabs (1 / B2R (vy d)) <= bpow radix2 500).
    { unfold Rdiv. rewrite Rmult_1_l, Rabs_inv. change 500%Z with (- (-500))%Z. rewrite bpow_opp. now apply Rinv_le. }
    destruct (bdiv_correct (nofZ 1) (vy d) Fo NZ) as [FI EI]. { rewrite Eo. eapply Rle_trans; [exact QI|apply bpow_big; lia]. } rewrite Eo in EI.
    destruct Hb as [Fb Bb]. destruct S1 as [Fs Bs].
    destruct (bsub_correct b (vy s) Fb Fs) as [FS ES]. { eapply Rle_trans; [|apply (bpow_big 201); lia]. unfold Rminus. eapply Rle_trans; [apply Rabs_triang|]. rewrite Rabs_Ropp. change 201%Z with (200 + 1)%Z. rewrite bpow_plus. change (bpow radix2 1) with 2. lra. }
    destruct (mul_inv _ _ (Fin b (vy s) (vy d) (conj Fb Bb) (conj Fs Bs) (conj FD BD) M1)) as (_ & _ & EM). rewrite EM, ES, EI.
    assert (P1 := bpow_gt_0 radix2 (-100)).
    assert (SI : forall x k, (-1000 <= k)%Z -> 0 < x -> bpow radix2 k <= Rabs x -> bpow radix2 k <= rnd x).
    { intros x k Hk Px HX. rewrite Rabs_pos_eq in HX by lra. apply rnd_ge; [apply fmt_bpow; lia|exact HX]. }
    assert (SN : forall x k, (-1000 <= k)%Z -> x < 0 -> bpow radix2 k <= Rabs x -> rnd x <= - bpow radix2 k).
    { intros x k Hk Px HX. rewrite Rabs_left in HX by lra. apply rnd_le; [apply fmt_opp, fmt_bpow; lia|lra]. }
    assert (HI : bpow radix2 (-1) <= Rabs (1 / B2R (vy d))).
    { change (bpow radix2 (-1)) with (/ 2). unfold Rdiv. rewrite Rmult_1_l, Rabs_inv. apply Rinv_le; [|exact BD]. now apply Rabs_pos_lt. }
    assert (EE : bpow radix2 (-101) = bpow radix2 (-100) * / 2) by (change (-101)%Z with (-100 + -1)%Z; rewrite bpow_plus; reflexivity).
    change (bpow radix2 (-1)) with (/ 2) in *.
    apply Rle_lt_trans with (- bpow radix2 (-101)); [|assert (B := bpow_gt_0 radix2 (-101)); lra].
    apply rnd_le; [apply fmt_opp, fmt_bpow; lia|]. rewrite EE.
    destruct (Rdichotomy _ _ NZ) as [HD|HD].
    - assert (0 < B2R b - B2R (vy s)) by nra. assert (1 / B2R (vy d) < 0) by (unfold Rdiv; rewrite Rmult_1_l; now apply Rinv_lt_0_compat).
      assert (X1 := SI _ (-100)%Z ltac:(lia) H HW). assert (X2 := SN _ (-1)%Z ltac:(lia) H0 HI). change (bpow radix2 (-1)) with (/ 2) in X2. nra.
    - assert (B2R b - B2R (vy s) < 0) by nra. assert (0 < 1 / B2R (vy d)) by (unfold Rdiv; rewrite Rmult_1_l; now apply Rinv_0_lt_compat).
      assert (X1 := SN _ (-100)%Z ltac:(lia) H HW). assert (X2 := SI _ (-1)%Z ltac:(lia) H0 HI). change (bpow radix2 (-1)) with (/ 2) in X2. nra. }
  assert (A1 := Neg _ L1 N1 W1). assert (A2 := Neg _ U1 N2 W2).
  assert (F1 := Fin _ _ _ L0 S0 D0 M0). assert (F2 := Fin _ _ _ U0 S0 D0 M0). assert (F3 := Fin _ _ _ L1 S1 D1 M1). assert (F4 := Fin _ _ _ U1 S1 D1 M1).
  assert (F5 := Fin _ _ _ L2 S2 D2 M2). assert (F6 := Fin _ _ _ U2 S2 D2 M2).
  unfold bbIntersect, bbEnterExit. cbn [bMin bMax rStart rDir].
  set (t1 := nmul (nsub (vx lo) _) _) in *. set (t2 := nmul (nsub (vx hi) _) _) in *. set (t3 := nmul (nsub (vy lo) _) _) in *. set (t4 := nmul (nsub (vy hi) _) _) in *.
  set (t5 := nmul (nsub (vz lo) _) _) in *. set (t6 := nmul (nsub (vz hi) _) _) in *. clearbody t1 t2 t3 t4 t5 t6.
  assert (G1 := pick_finite _ _ F1 F2). assert (G2 := pick_finite _ _ F3 F4). assert (G3 := pick_finite _ _ F5 F6).
  assert (A3 : B2R (umax t3 t4) < 0) by (destruct (umax_in t3 t4) as [-> | ->]; assumption).
  assert (PM : forall x y : b64, is_finite x = true -> is_finite y = true -> is_finite (umin x y : b64) = true) by (intros x y X Y; destruct (umin_in x y) as [-> | ->]; assumption).
  assert (K1 := PM _ _ F1 F2). assert (K2 := PM _ _ F3 F4). assert (K3 := PM _ _ F5 F6).
  set (x1 := umax t1 t2) in *. set (x2 := umax t3 t4) in *. set (x3 := umax t5 t6) in *. set (y1 := umin t1 t2) in *. set (y2 := umin t3 t4) in *. set (y3 := umin t5 t6) in *.
  clearbody x1 x2 x3 y1 y2 y3.
  destruct (min3_le x1 x2 x3 (finite_nan _ G1)) as (_ & _ & LE & _). specialize (LE (finite_nan _ G2)).
  assert (FM : is_finite (min3 x1 x2 x3) = true) by (destruct (min3_in x1 x2 x3) as [-> |[-> | ->]]; assumption).
  assert (FX : is_finite (max3 y1 y2 y3) = true) by (destruct (max3_in y1 y2 y3) as [-> |[-> | ->]]; assumption).
  apply bleb_R in LE; [|exact FM|exact G2]. set (ex := min3 x1 x2 x3) in *. set (en := max3 y1 y2 y3) in *. clearbody ex en.
  destruct (nltb ex en) eqn:E1; [reflexivity|]. rewrite bltb_eq in E1 by assumption. apply Rltb_false in E1.
  destruct (nltb en (nofZ 0)) eqn:E2.
  - apply bleb_R; [exact FM|reflexivity|]. change (B2R (nofZ 0 : b64)) with 0. lra.
  - rewrite bltb_eq in E2 by (assumption || reflexivity). apply Rltb_false in E2. change (B2R (nofZ 0 : b64)) with 0 in E2. lra.
Qed.

(** ** Rectangles are quadrilaterals *)
Section RectShape.
  Context {F : Type} `{NF : Num F} `{NI : NumInf F} {M : Type}.
  Local Open Scope num_scope.
  Lemma rect_shape (to32 : F -> F) (ss : (object F M -> object F M -> bool) -> list (object F M) -> list (object F M)) m (w dp : F) (c : vec F) :
    rectangle to32 ss m w dp c =
    let l := - w / #2 + vx c in let r := w / #2 + vx c in let f := - dp / #2 + vz c in let b := dp / #2 + vz c in let y := #0 + vy c in
    quadrilateral to32 ss m (Vec l y f) (Vec l y b) (Vec (l + (r - l)) (y + (y - y)) (b + (f - f))) (Vec r y f).
  Proof. reflexivity. Qed.
End RectShape.

(** ** Two faces with a material *)
Section Two.
  Context {F : Type} `{NF : Num F} {M : Type}.
  Local Open Scope num_scope.
  Definition nearer (front frag : hit F M) : hit F M := if ((hT frag >? #0) && (hT frag <? hT front))%bool then frag else front.
  Lemma two_faces (m : option M) bb (a b c a' b' c' : vertex F) (r : ray F) :
    oIntersect (withMaterial m (treeOf (Leaf bb [face a b c; face a' b' c']))) r =
    Val (let h := if bbIntersect bb r <=? #0 then noHit else nearer (nearer TreeModel.farHit (faceIntersect a b c r)) (faceIntersect a' b' c' r) in Hit (hT h) (hNormal h) (hLocal h) m, r).
  Proof.
    cbn [withMaterial oIntersect treeOf]. unfold treeIntersect. cbn [nodeBox]. destruct (bbIntersect bb r <=? #0); [reflexivity|].
    cbn [nodeIntersect leafLoop]. unfold face, simpleObj. cbn [oIntersect omap obind]. reflexivity.
  Qed.
  Lemma nearer_in front frag : nearer front frag = front \/ (nearer front frag = frag /\ hT frag >? #0 = true).
  Proof. unfold nearer. destruct (hT frag >? #0) eqn:E; [|now left]. destruct (hT frag <? hT front); [right|left]; auto. Qed.
  Lemma face_parts (a b c : vertex F) (r : ray F) : let g := faceCoords (vtPos a) (vtPos b) (vtPos c) r in let h := faceIntersect (M := M) a b c r in
    h = noHit \/ (fg1 g <? #0 = false /\ fg2 g <? #0 = false /\ fg3 g <? #0 = false /\ hT h = fgT g /\
      hNormal h = vadd (vadd (vmul (vtNormal a) (fg1 g)) (vmul (vtNormal b) (fg2 g))) (vmul (vtNormal c) (fg3 g))).
  Proof.
    intros g h. unfold h, faceIntersect. fold g. cbv zeta. destruct (negb (fgT g >? #0)); [now left|].
    destruct (fg1 g <? #0); [now left|]. destruct (fg2 g <? #0); [now left|]. destruct (fg3 g <? #0); [now left|]. right. cbn [orb hT hNormal]. auto.
  Qed.
  Lemma nearer_none front : (#0 >? #0) = false -> nearer front noHit = front.
  Proof. unfold nearer. cbn [noHit hT]. now intros ->. Qed.
End Two.
Lemma zero_zero : nltb (nofZ 0 : b64) (nofZ 0) = false. Proof. reflexivity. Qed.

Section Own.
  Context {M : Type}.
  Variable ss : (object b64 M -> object b64 M -> bool) -> list (object b64 M) -> list (object b64 M).
  Variables (m : option M) (p0 p1 p2 p3 : vec b64) (Y : R) (o : object b64 M).
  Hypothesis H0 : all3 (at_most 10) p0.
  Hypothesis H1 : all3 (at_most 10) p1.
  Hypothesis H2 : all3 (at_most 10) p2.
  Hypothesis H3 : all3 (at_most 10) p3.
  Hypothesis Y0 : B2R (vy p0) = Y.
  Hypothesis Y1 : B2R (vy p1) = Y.
  Hypothesis Y2 : B2R (vy p2) = Y.
  Hypothesis Y3 : B2R (vy p3) = Y.
  Hypothesis HN1 : bpow radix2 (-60) <= B2R (flatN p0 p1 p3).
  Hypothesis HN2 : bpow radix2 (-60) <= B2R (flatN p2 p3 p1).
  Hypothesis Ho : quadrilateral to32b ss m p0 p1 p2 p3 = Val o.
  Lemma ten12 v : all3 (at_most 10) v -> all3 (at_most 12) v.
  Proof. intros (A & B & C). repeat split; (apply A || apply B || apply C || idtac); eapply Rle_trans; try (apply A || apply B || apply C); apply bpow_le; lia. Qed.
  Lemma face_up v0 v1 v2 : all3 (at_most 10) v0 -> all3 (at_most 10) v1 -> all3 (at_most 10) v2 -> B2R (vy v0) = Y -> B2R (vy v1) = Y -> B2R (vy v2) = Y ->
    bpow radix2 (-60) <= B2R (flatN v0 v1 v2) -> up (triangleNormal v0 v1 v2).
  Proof.
    intros A B C EA EB EC HN. assert (A' := ten12 _ A). assert (B' := ten12 _ B). assert (C' := ten12 _ C).
    destruct (cross_nulls v0 v1 v2 Y A' B' C' EA EB EC) as [X Z]. assert (Q := flatN_am v0 v1 v2 Y A' B' C' EA EB EC).
    unfold triangleNormal. apply up_norm.
    - exact X.
    - exact Z.
    - apply Q.
    - change (vy (vcross (vsub v1 v0) (vsub v2 v0))) with (flatN v0 v1 v2). destruct Q as [_ Q]. assert (P := bpow_gt_0 radix2 (-60)). rewrite Rabs_pos_eq in Q by lra.
      split; [eapply Rle_trans; [|exact HN]; apply bpow_le; lia|eapply Rle_trans; [exact Q|apply bpow_le; lia]].
  Qed.
  Lemma up1 : up (quadN1 p0 p1 p3). Proof. apply face_up; assumption. Qed.
  Lemma up2 : up (quadN2 p1 p2 p3). Proof. apply face_up; assumption. Qed.
  Notation level := (sits (at_most 12) (fun y => at_most 12 y /\ B2R y = Y)).
  Lemma level_of v : all3 (at_most 10) v -> B2R (vy v) = Y -> level v.
  Proof. intros A E. destruct (ten12 v A) as (X & X' & X''). split; [exact X|]. split; [split; [exact X'|exact E]|exact X'']. Qed.
  Lemma quad_is : exists bb, o = withMaterial m (treeOf (Leaf (boxTo32 to32b bb) (quadFaces p0 p1 p2 p3))) /\ level (bMin bb) /\ level (bMax bb).
  Proof.
    rewrite (quad_shape to32b ss m p0 p1 p2 p3 (up_ok _ up1) (up_ok _ up2)) in Ho.
    destruct (makeBoundingBox (quadFaces p0 p1 p2 p3)) as [bb| |] eqn:E; try discriminate. exists bb.
    split; [injection Ho as <-; reflexivity|]. unfold quadFaces in E. apply (faces_sit (at_most 12) (fun y => at_most 12 y /\ B2R y = Y)) in E; [exact E| | | | | |];
      unfold quadV0, quadV1, quadV2, quadV3; cbn [vtPos]; apply level_of; assumption.
  Qed.
  Section Hit.
    Variables (s d : vec b64).
    Hypothesis Hs : all3 (at_most 10) s.
    Hypothesis Hd : all3 (at_most 1) d.
    Hypothesis Ld : at_least (-100) (vy d).
    Lemma Ld' : at_least (-500) (vy d). Proof. unfold at_least in *. eapply Rle_trans; [|exact Ld]. apply bpow_le. lia. Qed.
    Lemma s200 : at_most 200 (vx s) /\ at_most 12 (vy s) /\ at_most 200 (vz s).
    Proof. destruct Hs as (A & B & C). split; [apply (am_mono 10); [exact A|lia]|]. split; [apply (am_mono 10); [exact B|lia]|apply (am_mono 10); [exact C|lia]]. Qed.
    (** the point of a hit, lifted *)
    Definition own_at (t : b64) (N : vec b64) : Prop :=
      let f := flipTowards N d in let p := vmadd (rayAt (Ray s d) t) tiny f in
      null (vx f) /\ null (vz f) /\ at_most 200 (vx p) /\ at_most 12 (vy p) /\ at_most 200 (vz p) /\
      79 / 100000000 <= Rabs (B2R (vy p) - Y) <= 83 / 100000000 /\ 0 < B2R (vy f) * (B2R (vy p) - Y) /\
      is_finite (vy f) = true /\ Rabs (B2R (vy f)) <= 1001 / 1000 /\ (999 / 1000 <= B2R (vy f) \/ B2R (vy f) <= - (999 / 1000)) /\ Rabs (B2R (vy f) * B2R (vy f) - 1) <= 20 * u.
    Lemma lift_up (t : b64) (N : vec b64) : at_most 114 t -> at_most 14 (nadd (vy s) (nmul t (vy d))) -> Rabs (B2R (nadd (vy s) (nmul t (vy d))) - Y) <= bpow radix2 (-35) -> up N -> own_at t N.
    Proof.
      intros TA YA YE UN. destruct s200 as (S0 & S1 & S2). unfold own_at.
      destruct (flip_up _ d UN Hd Ld) as (X & Z & F & RF & DN & DP & SQ).
      set (f := flipTowards _ d) in *. clearbody f. assert (HST : B2R (vy d) <> 0). { unfold at_least in Ld. intros Z0. rewrite Z0, Rabs_R0 in Ld. assert (P := bpow_gt_0 radix2 (-100)). lra. }
      destruct tiny_u as [Ft Bt]. destruct Hd as (D0 & D1 & D2).
      assert (PX : forall x e n, at_most 200 x -> at_most 1 e -> (x = vx s \/ x = vz s) -> null n -> at_most 200 (nadd (nadd x (nmul t e)) (nmul tiny n))).
      { intros x e n Hx He Hxs Hn. assert (Hx' : at_most 10 x) by (destruct Hs as (Q0 & _ & Q2); destruct Hxs as [-> | ->]; assumption).
        assert (HM : at_most 116 (nadd x (nmul t e))).
        { change 116%Z with (115 + 1)%Z. apply am_add; [lia|apply (am_mono 10); [exact Hx'|lia]|]. change 115%Z with (114 + 1)%Z. apply am_mul; auto; lia. }
        apply (am_mono 117); [|lia]. change 117%Z with (116 + 1)%Z. apply am_add; [lia|exact HM|]. apply null_am. now apply null_mul_r. }
      split; [exact X|]. split; [exact Z|]. unfold vmadd, rayAt; cbn [vx vy vz rStart rDir].
      split; [apply PX; auto|]. set (yy := nadd (vy s) (nmul t (vy d))) in *. clearbody yy.
      assert (BY : Rabs Y <= 1024) by (rewrite <- Y0; apply H0). apply Rabs_le_inv in BY.
      assert (Q35 : bpow radix2 (-35) <= / 10000000000) by (change (/ 34359738368 <= / 10000000000); lra). apply Rabs_le_inv in YE.
      assert (RF' := Rabs_le_inv _ _ RF).
      destruct (mul_u 0 tiny (vy f) ltac:(lia) Ft F) as (FM & EM & _). { change (bpow radix2 0) with 1. apply Rabs_le. nra. }
      change (bpow radix2 0) with 1 in EM. apply Rabs_le_inv in EM. assert (Hu := u_small). assert (Pu := u_pos).
      destruct (add_u 12 yy (nmul tiny (vy f)) ltac:(lia) (proj1 YA) FM) as (FP & EP & BP). { change (bpow radix2 12) with 4096. apply Rabs_le. assert (- 1 <= B2R (tiny : b64) * B2R (vy f) <= 1) by nra. lra. }
      change (bpow radix2 12) with 4096 in EP. apply Rabs_le_inv in EP.
      split; [split; [exact FP|exact BP]|]. split; [apply PX; auto|].
      destruct (Rdichotomy _ _ HST) as [HD|HD].
      - specialize (DN HD). assert (8091 / 10000000000 <= B2R (tiny : b64) * B2R (vy f) <= 8210 / 10000000000) by nra.
        assert (79 / 100000000 <= B2R (nadd yy (nmul tiny (vy f))) - Y <= 83 / 100000000) by lra.
        rewrite Rabs_pos_eq by lra. split; [lra|]. split; [nra|]. split; [exact F|]. split; [exact RF|]. split; [left; lra|exact SQ].
      - specialize (DP HD). assert (- (8210 / 10000000000) <= B2R (tiny : b64) * B2R (vy f) <= - (8091 / 10000000000)) by nra.
        assert (- (83 / 100000000) <= B2R (nadd yy (nmul tiny (vy f))) - Y <= - (79 / 100000000)) by lra.
        rewrite Rabs_left by lra. split; [lra|]. split; [nra|]. split; [exact F|]. split; [exact RF|]. split; [right; lra|exact SQ].
    Qed.
    Definition lifted (h : hit b64 M) : vec b64 := vmadd (rayAt (Ray s d) (hT h)) tiny (flipTowards (vnormalized (hNormal h)) d).
    Definition own_point (h : hit b64 M) : Prop := own_at (hT h) (vnormalized (hNormal h)).
    Lemma face_own (a b c : vertex b64) : all3 (at_most 10) (vtPos a) -> all3 (at_most 10) (vtPos b) -> all3 (at_most 10) (vtPos c) ->
      B2R (vy (vtPos a)) = Y -> B2R (vy (vtPos b)) = Y -> B2R (vy (vtPos c)) = Y -> bpow radix2 (-60) <= B2R (flatN (vtPos a) (vtPos b) (vtPos c)) ->
      up (vtNormal a) -> up (vtNormal b) -> up (vtNormal c) ->
      nltb (nofZ 0) (hT (faceIntersect (M := M) a b c (Ray s d))) = true -> own_point (faceIntersect a b c (Ray s d)).
    Proof.
      intros A B C EA EB EC HN UA UB UC HT. assert (A' := ten12 _ A). assert (B' := ten12 _ B). assert (C' := ten12 _ C).
      destruct s200 as (S0 & S1 & S2). assert (L5 := Ld').
      destruct (flat_T _ _ _ Y A' B' C' EA EB EC HN s d S0 S1 S2 Hd L5) as [_ _].
      assert (TA := flat_T_am _ _ _ Y A' B' C' EA EB EC HN s d S0 S1 S2 Hd L5 Ld).
      destruct (flat_y _ _ _ Y A' B' C' EA EB EC HN s d S0 S1 S2 Hd L5) as [YA YE].
      destruct (flat_weights _ _ _ Y A' B' C' EA EB EC HN s d S0 S1 S2 Hd L5 Ld) as (W1 & W3 & W2).
      destruct (face_parts (M := M) a b c (Ray s d)) as [Q|(E1 & E2 & E3 & QT & QN)]; [rewrite Q in HT; cbn [noHit hT] in HT; rewrite zero_zero in HT; exact (False_ind _ (diff_false_true HT))|].
      clear HT. unfold own_point. rewrite QT, QN. clear QT QN. set (g := faceCoords (vtPos a) (vtPos b) (vtPos c) (Ray s d)) in *.
      rewrite W2 in E2. destruct (weights_sum _ _ W1 W3 E1 E2 E3) as (F2 & R1 & R2 & R3 & RS). rewrite <- W2 in F2, R2, RS.
      assert (UN := blend_up _ _ _ _ _ _ UA UB UC (proj1 W1) F2 (proj1 W3) R1 R2 R3 RS).
      apply lift_up; assumption.
    Qed.
    Variables (h : hit b64 M) (r' : ray b64).
    Hypothesis Hh : oIntersect o (Ray s d) = Val (h, r').
    Hypothesis Hpos : nltb (nofZ 0) (hT h) = true.
    Hypothesis Hfar : nltb (hT h) (nofZ (10 ^ 98)) = true.
    Lemma hit_own : own_point h.
    Proof.
      destruct quad_is as (bb & E & _). rewrite E in Hh. unfold quadFaces in Hh. rewrite two_faces in Hh.
      set (f1 := faceIntersect (quadV0 p0 p1 p3) (quadV1 p0 p1 p2 p3) (quadV3 p0 p1 p2 p3) (Ray s d)) in *.
      set (f2 := faceIntersect (quadV2 p1 p2 p3) (quadV3 p0 p1 p2 p3) (quadV1 p0 p1 p2 p3) (Ray s d)) in *.
      assert (G : forall k, own_point k -> own_point (Hit (hT k) (hNormal k) (hLocal k) m)) by (intros k HK; exact HK).
      assert (O1 : nltb (nofZ 0) (hT f1) = true -> own_point f1).
      { apply face_own; unfold quadV0, quadV1, quadV3; cbn [vtPos vtNormal]; auto using up_first, up_second, up1, up2. }
      assert (O2 : nltb (nofZ 0) (hT f2) = true -> own_point f2).
      { apply face_own; unfold quadV2, quadV1, quadV3; cbn [vtPos vtNormal]; auto using up_first, up_second, up1, up2. }
      clearbody f1 f2.
      pose (fin := fun k : hit b64 M => Hit (hT k) (hNormal k) (hLocal k) m). assert (HC : h = fin noHit \/ h = fin TreeModel.farHit \/
        (exists k, h = Hit (hT k) (hNormal k) (hLocal k) m /\ own_point k)).
      { assert (EH : h = fst (h, r')) by reflexivity. apply (f_equal (fun x => match x with Val y => fst y | _ => h end)) in Hh. cbn [fst] in Hh. rewrite <- Hh. clear EH Hh Hpos Hfar.
        destruct (nleb (bbIntersect (boxTo32 to32b bb) (Ray s d)) (nofZ 0)); [now left|]. right.
        destruct (nearer_in (nearer TreeModel.farHit f1) f2) as [-> |[-> P2]]; [|right; exists f2; auto].
        destruct (nearer_in TreeModel.farHit f1) as [-> |[-> P1]]; [now left|right; exists f1; auto]. }
      destruct HC as [-> |[-> |(k & -> & K)]].
      - unfold fin in Hpos. cbn [hT noHit] in Hpos. rewrite zero_zero in Hpos. exact (False_ind _ (diff_false_true Hpos)).
      - unfold fin in Hfar. cbn [hT TreeModel.farHit] in Hfar. assert (X : nltb (nofZ (9 * 10 ^ 99) : b64) (nofZ (10 ^ 98)) = false) by (vm_compute; reflexivity). rewrite X in Hfar. exact (False_ind _ (diff_false_true Hfar)).
      - exact K.
    Qed.
    Variable d' : vec b64.
    Hypothesis Hd1 : all3 (at_most 1) d'.
    Hypothesis Hdy : at_least (-500) (vy d').
    Hypothesis Hout : 0 < rdot d' (flipTowards (vnormalized (hNormal h)) d).
    Let f := flipTowards (vnormalized (hNormal h)) d.
    Lemma hit_own' : let p := lifted h in null (vx f) /\ null (vz f) /\ at_most 200 (vx p) /\ at_most 12 (vy p) /\ at_most 200 (vz p) /\
      79 / 100000000 <= Rabs (B2R (vy p) - Y) <= 83 / 100000000 /\ 0 < B2R (vy f) * (B2R (vy p) - Y) /\
      is_finite (vy f) = true /\ Rabs (B2R (vy f)) <= 1001 / 1000 /\ (999 / 1000 <= B2R (vy f) \/ B2R (vy f) <= - (999 / 1000)) /\ Rabs (B2R (vy f) * B2R (vy f) - 1) <= 20 * u.
    Proof. exact hit_own. Qed.
    (** lifted once or twice *)
    Variables (p : vec b64) (e : R).
    Definition lift_at : Prop := (p = lifted h /\ e = 79 / 100000000) \/ (p = vmadd (lifted h) tiny f /\ e = 158 / 100000000).
    Hypothesis Hp : lift_at.
    Lemma p_own : null (vx f) /\ null (vz f) /\ at_most 200 (vx p) /\ at_most 12 (vy p) /\ at_most 200 (vz p) /\
      e <= Rabs (B2R (vy p) - Y) <= 166 / 100000000 /\ 79 / 100000000 <= e /\ 0 < B2R (vy f) * (B2R (vy p) - Y).
    Proof.
      destruct hit_own' as (NX & NZ & P0 & P1 & P2 & PA & PS & FF & RF & RD & _). assert (BY : Rabs Y <= 1024) by (rewrite <- Y0; apply H0).
      destruct Hp as [[-> ->]|[-> ->]].
      - split; [exact NX|]. split; [exact NZ|]. split; [exact P0|]. split; [exact P1|]. split; [exact P2|]. split; [split; [apply PA|eapply Rle_trans; [apply PA|lra]]|]. split; [lra|exact PS].
      - set (q := lifted h) in *. clearbody q.
        destruct tiny_u as [Ft Bt]. assert (Hu := u_small). assert (Pu := u_pos). assert (RF' := Rabs_le_inv _ _ RF). apply Rabs_le_inv in BY.
        assert (PX : forall x n, at_most 200 x -> null n -> at_most 200 (nadd x (nmul tiny n))).
        { intros x n Hx Hn. assert (Hm : null (nmul tiny n)) by (now apply null_mul_r). destruct (null_add_r 200 x _ ltac:(lia) Hx Hm) as [F E]. split; [exact F|]. rewrite E. apply Hx. }
        unfold vmadd; cbn [vx vy vz].
        destruct (mul_u 0 tiny (vy f) ltac:(lia) Ft FF) as (FM & EM & _). { change (bpow radix2 0) with 1. apply Rabs_le. nra. }
        change (bpow radix2 0) with 1 in EM. apply Rabs_le_inv in EM.
        assert (BQ : Rabs (B2R (vy q)) <= 1025). { apply Rabs_le. unfold Rabs in PA. destruct (Rcase_abs (B2R (vy q) - Y)); lra. }
        apply Rabs_le_inv in BQ.
        destruct (add_u 12 (vy q) (nmul tiny (vy f)) ltac:(lia) (proj1 P1) FM) as (FP & EP & BP). { change (bpow radix2 12) with 4096. apply Rabs_le. assert (- 1 <= B2R (tiny : b64) * B2R (vy f) <= 1) by nra. lra. }
        change (bpow radix2 12) with 4096 in EP. apply Rabs_le_inv in EP.
        split; [exact NX|]. split; [exact NZ|]. split; [now apply PX|]. split; [split; [exact FP|exact BP]|]. split; [now apply PX|].
        set (z := B2R (nadd (vy q) (nmul tiny (vy f)))) in *. set (y := B2R (vy q)) in *. set (g := B2R (vy f)) in *. set (ti := B2R (tiny : b64)) in *. set (mm := B2R (nmul tiny (vy f))) in *. clearbody z y g ti mm.
        destruct RD as [RD|RD].
        + assert (8091 / 10000000000 <= ti * g <= 8210 / 10000000000) by nra.
          assert (0 < y - Y) by nra. rewrite (Rabs_pos_eq (y - Y)) in PA by lra.
          assert (1580 / 1000000000 <= z - Y <= 1660 / 1000000000) by lra.
          rewrite Rabs_pos_eq by lra. split; [lra|]. split; [lra|]. nra.
        + assert (- (8210 / 10000000000) <= ti * g <= - (8091 / 10000000000)) by nra.
          assert (y - Y < 0) by nra. rewrite (Rabs_left (y - Y)) in PA by lra.
          assert (- (1660 / 1000000000) <= z - Y <= - (1580 / 1000000000)) by lra.
          rewrite Rabs_left by lra. split; [lra|]. split; [lra|]. nra.
    Qed.
    Lemma out_sign : 0 < (B2R (vy p) - Y) * B2R (vy d').
    Proof.
      destruct p_own as ([_ X] & [_ Z] & _ & _ & _ & _ & _ & P). unfold rdot in Hout. fold f in Hout. rewrite X, Z, !Rmult_0_r, Rplus_0_l, Rplus_0_r in Hout. 
      set (a := B2R (vy p) - Y) in *. set (b := B2R (vy f)) in *. set (c := B2R (vy d')) in *. clearbody a b c. nra.
    Qed.
    Lemma miss_face (a b c : vertex b64) : all3 (at_most 10) (vtPos a) -> all3 (at_most 10) (vtPos b) -> all3 (at_most 10) (vtPos c) ->
      B2R (vy (vtPos a)) = Y -> B2R (vy (vtPos b)) = Y -> B2R (vy (vtPos c)) = Y -> bpow radix2 (-60) <= B2R (flatN (vtPos a) (vtPos b) (vtPos c)) ->
      faceIntersect (M := M) a b c (Ray p d') = noHit.
    Proof.
      intros A B C EA EB EC HN. assert (A' := ten12 _ A). assert (B' := ten12 _ B). assert (C' := ten12 _ C).
      destruct p_own as (_ & _ & P0 & P1 & P2 & PA & PE & _). assert (SG := out_sign).
      assert (L := Hdy).
      assert (TF := flat_T _ _ _ Y A' B' C' EA EB EC HN p d' P0 P1 P2 Hd1 L). destruct TF as [[FT _] _].
      assert (G : 0 < rnd (B2R (vy p) - Y) * B2R (vy d')).
      { assert (T : bpow radix2 (-1074) <= 79 / 100000000). { eapply Rle_trans; [apply (bpow_le radix2 (-1074) (-21)); lia|]. change (/ 2097152 <= 79 / 100000000). lra. }
        destruct (Rle_or_lt 0 (B2R (vy p) - Y)) as [Q|Q].
        - rewrite Rabs_pos_eq in PA by exact Q. assert (0 < rnd (B2R (vy p) - Y)) by (apply rnd_pos; lra). assert (0 < B2R (vy d')) by nra. now apply Rmult_lt_0_compat.
        - rewrite Rabs_left in PA by exact Q.
          assert (R := rnd_le (B2R (vy p) - Y) (- bpow radix2 (-1074)) (fmt_opp _ (fmt_bpow (-1074) ltac:(lia))) ltac:(lra)). assert (P := bpow_gt_0 radix2 (-1074)).
          assert (B2R (vy d') < 0) by nra. assert (rnd (B2R (vy p) - Y) < 0) by lra. nra. }
      assert (L' := flat_leaves _ _ _ Y A' B' C' EA EB EC HN p d' P0 P1 P2 Hd1 L G).
      unfold faceIntersect. rewrite bltb_eq by (exact FT || reflexivity). change (B2R (nofZ 0 : b64)) with 0.
      destruct (Rltb 0 _) eqn:E; [apply Rltb_true in E; lra|reflexivity].
    Qed.
    Lemma own_rays : exists h', oIntersect o (Ray p d') = Val (h', Ray p d') /\ (hT h' = nofZ 0 \/ hT h' = nofZ (9 * 10 ^ 99)).
    Proof.
      destruct quad_is as (bb & E & _). rewrite E. unfold quadFaces. rewrite two_faces.
      rewrite (miss_face (quadV0 p0 p1 p3) (quadV1 p0 p1 p2 p3) (quadV3 p0 p1 p2 p3)) by (unfold quadV0, quadV1, quadV3; cbn [vtPos]; assumption).
      rewrite (miss_face (quadV2 p1 p2 p3) (quadV3 p0 p1 p2 p3) (quadV1 p0 p1 p2 p3)) by (unfold quadV2, quadV1, quadV3; cbn [vtPos]; assumption).
      rewrite !nearer_none by exact zero_zero. eexists. split; [reflexivity|].
      destruct (nleb (bbIntersect (boxTo32 to32b bb) (Ray p d')) (nofZ 0)); cbn [hT noHit TreeModel.farHit]; auto.
    Qed.
    Lemma own_rays_low : all3 (at_least (-500)) d' -> Rabs Y <= 16 \/ (e = 158 / 100000000 /\ Rabs Y <= 32) -> oIntersect o (Ray p d') = Val (Hit (nofZ 0) vO vO m, Ray p d').
    Proof.
      intros Hd2 HY. destruct quad_is as (bb & E & (BX & [BY BE] & BZ) & (CX & [CY CE] & CZ)). rewrite E. unfold quadFaces. rewrite two_faces.
      assert (K : nleb (bbIntersect (boxTo32 to32b bb) (Ray p d')) (nofZ 0) = true).
      { destruct p_own as (_ & _ & P0 & P1 & P2 & PA & PE & _). assert (SG := out_sign).
        assert (T : forall x, at_most 12 x -> at_most 200 (to32b x)) by (intros x Hx; apply (am_mono 12); [apply (to32_near x 12); [lia|exact Hx]|lia]).
        assert (TY : forall x, at_most 12 x -> B2R x = Y -> Rabs (B2R (to32b x) - Y) <= e - / 100000000).
        { intros x [Fx _] Ex. destruct HY as [HY|[He HY]]; [|destruct (to32_near x 5) as [_ N]; [lia|split; [exact Fx|rewrite Ex; exact HY]|]; rewrite Ex in N; eapply Rle_trans; [exact N|]; change (bpow radix2 (5 - 25)) with (/ 1048576); lra].
          destruct (to32_near x 4) as [_ N]; [lia|split; [exact Fx|rewrite Ex; exact HY]|]. rewrite Ex in N. eapply Rle_trans; [exact N|]. change (bpow radix2 (4 - 25)) with (/ 2097152). lra. }
        assert (T1 := TY _ BY BE). assert (T2 := TY _ CY CE). apply Rabs_le_inv in T1, T2.
        assert (W : bpow radix2 (-100) <= / 100000000). { eapply Rle_trans; [apply (bpow_le radix2 (-100) (-30)); lia|]. change (/ 1073741824 <= / 100000000). lra. }
        unfold boxTo32. apply away; cbn [vx vy vz].
        - split; [now apply T|]. split; now apply T.
        - split; [now apply T|]. split; now apply T.
        - split; [exact P0|]. split; [apply (am_mono 12); [exact P1|lia]|exact P2].
        - exact Hd1.
        - exact Hd2.
        - set (q := B2R (vy p)) in *. set (dy := B2R (vy d')) in *. unfold Rabs in PA. destruct (Rcase_abs (q - Y)); nra.
        - set (q := B2R (vy p)) in *. set (dy := B2R (vy d')) in *. unfold Rabs in PA. destruct (Rcase_abs (q - Y)); nra.
        - unfold Rabs in PA. destruct (Rcase_abs (B2R (vy p) - Y)); [rewrite Rabs_pos_eq by lra|rewrite Rabs_left by lra]; lra.
        - unfold Rabs in PA. destruct (Rcase_abs (B2R (vy p) - Y)); [rewrite Rabs_pos_eq by lra|rewrite Rabs_left by lra]; lra. }
      rewrite K. reflexivity.
    Qed.
  End Hit.
End Own.

(** ** Rectangles *)
Lemma unit_am d : near_unit d -> all3 (at_most 1) d.
Proof.
  intros [(A & B & C) H]. unfold rdot in H. apply Rabs_le_inv in H. set (x := B2R (vx d)) in *. set (y := B2R (vy d)) in *. set (z := B2R (vz d)) in *.
  assert (G : forall q w v, q * q + w * w + v * v <= 2 -> Rabs q <= 2). { intros q w v Q. apply Rabs_le. split; nra. }
  split; [split; [exact A|]|split; [split; [exact B|]|split; [exact C|]]]; change (bpow radix2 1) with 2; fold x y z; [apply (G x y z)|apply (G y z x)|apply (G z x y)]; lra.
Qed.
Section Side.
  Variables (w c : b64).
  Hypothesis Hw : at_most 8 w.
  Hypothesis Lw : bpow radix2 (-20) <= B2R w.
  Hypothesis Hc : at_most 7 c.
  Definition lowS : b64 := nadd (ndiv (nopp w) (nofZ 2)) c.
  Definition highS : b64 := nadd (ndiv w (nofZ 2)) c.
  Definition farS : b64 := nadd lowS (nsub highS lowS).
  Lemma side_R : at_most 8 lowS /\ at_most 8 highS /\ Rabs (B2R lowS - (B2R c - B2R w / 2)) <= 384 * u /\ Rabs (B2R highS - (B2R c + B2R w / 2)) <= 384 * u.
  Proof.
    destruct Hw as [Fw Bw]. destruct Hc as [Fc Bc]. change (bpow radix2 8) with 256 in *. change (bpow radix2 7) with 128 in *. destruct (Z_b 2 ltac:(lia)) as [F2 E2].
    assert (N2 : B2R (nofZ 2 : b64) <> 0) by (rewrite E2; lra). apply Rabs_le_inv in Bw. apply Rabs_le_inv in Bc.
    assert (Fo : is_finite (nopp w) = true) by (clear - Fw; destruct w; exact Fw).
    destruct (div_u 7 (nopp w) (nofZ 2) ltac:(lia) Fo N2) as (FA & EA & BA). { rewrite (proj2 (opp_R w)), E2. change (bpow radix2 7) with 128. apply Rabs_le. lra. }
    destruct (div_u 7 w (nofZ 2) ltac:(lia) Fw N2) as (FB & EB & BB). { rewrite E2. change (bpow radix2 7) with 128. apply Rabs_le. lra. }
    rewrite (proj2 (opp_R w)), E2 in EA. rewrite E2 in EB. change (bpow radix2 7) with 128 in *. apply Rabs_le_inv in EA, EB, BA, BB.
    destruct (add_u 8 _ _ ltac:(lia) FA Fc) as (FL & EL & BL). { change (bpow radix2 8) with 256. apply Rabs_le. lra. }
    destruct (add_u 8 _ _ ltac:(lia) FB Fc) as (FH & EH & BH). { change (bpow radix2 8) with 256. apply Rabs_le. lra. }
    fold lowS in FL, EL, BL. fold highS in FH, EH, BH. change (bpow radix2 8) with 256 in *. apply Rabs_le_inv in EL. apply Rabs_le_inv in EH.
    split; [split; assumption|]. split; [split; assumption|]. split; apply Rabs_le; lra.
  Qed.
  Lemma side_gap : bpow radix2 (-21) <= B2R (nsub highS lowS) /\ at_most 9 (nsub highS lowS) /\ at_most 10 farS /\ bpow radix2 (-21) <= B2R (nsub farS lowS).
  Proof.
    destruct side_R as (L & H & EL & EH). apply Rabs_le_inv in EL, EH. destruct Hw as [Fw Bw]. apply Rabs_le_inv in Bw. change (bpow radix2 8) with 256 in Bw.
    assert (Hu : u <= / 9007199254740992) by (rewrite u_val; lra). assert (Pu := u_pos).
    change (bpow radix2 (-20)) with (/ 1048576) in Lw. change (bpow radix2 (-21)) with (/ 2097152).
    destruct (sub_u 9 highS lowS ltac:(lia) (proj1 H) (proj1 L)) as (FG & EG & BG). { change (bpow radix2 9) with 512. apply Rabs_le. lra. }
    change (bpow radix2 9) with 512 in EG. apply Rabs_le_inv in EG. split; [lra|]. split; [split; assumption|].
    assert (BF : at_most 10 farS). { unfold farS. change 10%Z with (9 + 1)%Z. apply am_add; [lia|apply (am_mono 8); [exact L|lia]|split; assumption]. }
    split; [exact BF|].
    destruct (add_u 10 lowS (nsub highS lowS) ltac:(lia) (proj1 L) FG) as (_ & EF & _). { change (bpow radix2 10) with 1024. destruct L as [_ L]. apply Rabs_le_inv in L. change (bpow radix2 8) with 256 in L. apply Rabs_le. lra. }
    fold farS in EF. change (bpow radix2 10) with 1024 in EF. apply Rabs_le_inv in EF.
    destruct (sub_u 10 farS lowS ltac:(lia) (proj1 BF) (proj1 L)) as (_ & ED & _). { change (bpow radix2 10) with 1024. apply Rabs_le. lra. }
    change (bpow radix2 10) with 1024 in ED. apply Rabs_le_inv in ED. lra.
  Qed.
End Side.

Section Rect.
  Context {M : Type}.
  Variable ss : (object b64 M -> object b64 M -> bool) -> list (object b64 M) -> list (object b64 M).
  Variables (m : option M) (w dp : b64) (c : vec b64) (o : object b64 M).
  Hypothesis Hw : at_most 8 w.
  Hypothesis Lw : bpow radix2 (-20) <= B2R w.
  Hypothesis Hp : at_most 8 dp.
  Hypothesis Lp : bpow radix2 (-20) <= B2R dp.
  Hypothesis Hc : all3 (at_most 7) c.
  Hypothesis Ho : rectangle to32b ss m w dp c = Val o.
  Let cy := nadd (nofZ 0) (vy c) : b64.
  Let p0 := Vec (lowS w (vx c)) cy (lowS dp (vz c)).
  Let p1 := Vec (lowS w (vx c)) cy (highS dp (vz c)).
  Let p3 := Vec (highS w (vx c)) cy (lowS dp (vz c)).
  Let p2 := Vec (farS w (vx c)) (nadd cy (nsub cy cy)) (nadd (highS dp (vz c)) (nsub (lowS dp (vz c)) (lowS dp (vz c)))).
  Lemma rect_quad : quadrilateral to32b ss m p0 p1 p2 p3 = Val o. Proof. rewrite <- Ho, rect_shape. reflexivity. Qed.
  Lemma cy_R : at_most 7 cy /\ B2R cy = B2R (vy c).
  Proof.
    destruct Hc as (_ & C & _). destruct (null_add_l 7 (nofZ 0) (vy c) ltac:(lia) zero_null C) as [F E]. fold cy in F, E. split; [split; [exact F|rewrite E; apply C]|exact E].
  Qed.
  Lemma cy2_R : at_most 7 (nadd cy (nsub cy cy)) /\ B2R (nadd cy (nsub cy cy)) = B2R (vy c).
  Proof.
    destruct cy_R as [A E]. assert (Z := null_sub cy cy (proj1 A) (proj1 A) eq_refl). destruct (null_add_r 7 cy _ ltac:(lia) A Z) as [F E']. rewrite E' , E. split; [split; [exact F|rewrite E'; apply A]|reflexivity].
  Qed.
  Lemma z2_R : at_most 8 (vz p2) /\ B2R (vz p2) = B2R (highS dp (vz c)).
  Proof.
    destruct Hc as (_ & _ & C). destruct (side_R dp (vz c) Hp C) as (L & H & _). unfold p2; cbn [vz].
    assert (Z := null_sub _ _ (proj1 L) (proj1 L) eq_refl). destruct (null_add_r 8 (highS dp (vz c)) _ ltac:(lia) H Z) as [F E']. rewrite E'. split; [split; [exact F|rewrite E'; apply H]|reflexivity].
  Qed.
  Lemma corners_am : all3 (at_most 10) p0 /\ all3 (at_most 10) p1 /\ all3 (at_most 10) p2 /\ all3 (at_most 10) p3.
  Proof.
    destruct Hc as (CX & _ & CZ). destruct (side_R w (vx c) Hw CX) as (A & B & _). destruct (side_R dp (vz c) Hp CZ) as (A' & B' & _).
    destruct (side_gap w (vx c) Hw Lw CX) as (_ & _ & FF & _). destruct cy_R as [Y _]. destruct cy2_R as [Y' _]. destruct z2_R as [Z' _].
    assert (T7 : forall x, at_most 7 x -> at_most 10 x) by (intros x X; apply (am_mono 7); [exact X|lia]).
    assert (T8 : forall x, at_most 8 x -> at_most 10 x) by (intros x X; apply (am_mono 8); [exact X|lia]).
    unfold p0, p1, p2, p3, all3. cbn [vx vy vz]. unfold p2 in Z'; cbn [vz] in Z'. auto 20.
  Qed.
  Lemma prod_low (x y a b : b64) : at_most 11 x -> at_most 11 y -> bpow radix2 (-42) <= B2R x * B2R y -> null a -> is_finite b = true ->
    bpow radix2 (-60) <= B2R (nsub (nmul x y) (nmul a b)) /\ bpow radix2 (-60) <= B2R (nsub (nmul x y) (nmul b a)).
  Proof.
    intros X Y H A B. destruct (bmul_correct x y (proj1 X) (proj1 Y)) as [F E].
    { rewrite Rabs_mult. destruct X as [_ X]. destruct Y as [_ Y]. eapply Rle_trans; [apply Rmult_le_compat; try apply Rabs_pos; [exact X|exact Y]|]. rewrite <- bpow_plus. apply bpow_big. lia. }
    assert (XY := am_mul 11 11 x y ltac:(lia) X Y).
    assert (G : bpow radix2 (-42) <= B2R (nmul x y)). { rewrite E. apply rnd_ge; [apply fmt_bpow; lia|exact H]. }
    assert (K : forall z, null z -> bpow radix2 (-60) <= B2R (nsub (nmul x y) z)).
    { intros z [Fz Ez]. destruct (bsub_correct (nmul x y) z (proj1 XY) Fz) as [_ Q]. { rewrite Ez, Rminus_0_r. eapply Rle_trans; [apply XY|apply bpow_big; lia]. }
      rewrite Q, Ez, Rminus_0_r, rnd_id by apply fmt_B2R. eapply Rle_trans; [|exact G]. apply bpow_le. lia. }
    split; apply K; [now apply null_mul_l|now apply null_mul_r].
  Qed.
  Lemma opp_gap (x y : b64) k : (-900 <= k <= 998)%Z -> at_most k x -> at_most k y -> B2R (nsub y x) = - B2R (nsub x y).
  Proof.
    intros Hk X Y. assert (XB : Rabs (B2R x - B2R y) <= big). { destruct X as [_ X], Y as [_ Y]. eapply Rle_trans; [|apply (bpow_big (k + 1)); lia]. rewrite bpow_plus. change (bpow radix2 1) with 2. apply Rabs_le. apply Rabs_le_inv in X. apply Rabs_le_inv in Y. lra. }
    destruct (bsub_correct x y (proj1 X) (proj1 Y) XB) as [_ E1]. rewrite Rabs_minus_sym in XB. destruct (bsub_correct y x (proj1 Y) (proj1 X) XB) as [_ E2].
    rewrite E1, E2. replace (B2R y - B2R x) with (- (B2R x - B2R y)) by ring. apply round_NE_opp.
  Qed.
  Lemma areas : bpow radix2 (-60) <= B2R (flatN p0 p1 p3) /\ bpow radix2 (-60) <= B2R (flatN p2 p3 p1).
  Proof.
    destruct Hc as (CX & _ & CZ). destruct (side_R w (vx c) Hw CX) as (A & B & _). destruct (side_R dp (vz c) Hp CZ) as (A' & B' & _).
    destruct (side_gap w (vx c) Hw Lw CX) as (G1 & GA & FF & G2). destruct (side_gap dp (vz c) Hp Lp CZ) as (G1' & GA' & FF' & G2'). destruct z2_R as [Z' EZ].
    assert (T9 : forall x, at_most 9 x -> at_most 11 x) by (intros x X; apply (am_mono 9); [exact X|lia]).
    assert (P42 : forall x y, bpow radix2 (-21) <= x -> bpow radix2 (-21) <= y -> bpow radix2 (-42) <= x * y).
    { intros x y X Y. change (-42)%Z with (-21 + -21)%Z. rewrite bpow_plus. apply Rmult_le_compat; auto using bpow_ge_0. }
    assert (T10 : forall x, at_most 8 x -> at_most 10 x) by (intros x X; apply (am_mono 8); [exact X|lia]).
    unfold flatN. split.
    - unfold p0, p1, p3; cbn [vx vz]. refine (proj1 (prod_low _ _ _ _ _ _ _ _ _)); [auto|auto|now apply P42|apply null_sub; [apply A|apply A|reflexivity]|].
      apply (am_sub 8 (lowS dp (vz c)) (lowS dp (vz c)) ltac:(lia) A' A').
    - change (vx p2) with (farS w (vx c)). unfold p3, p1; cbn [vx vz].
      assert (E1 := opp_gap (vz p2) (lowS dp (vz c)) 10 ltac:(lia) (T10 _ Z') (T10 _ A')). assert (E2 := opp_gap (farS w (vx c)) (lowS w (vx c)) 10 ltac:(lia) FF (T10 _ A)).
      assert (E3 : B2R (nsub (vz p2) (lowS dp (vz c))) = B2R (nsub (highS dp (vz c)) (lowS dp (vz c)))).
      { assert (Q : forall x y : b64, at_most 8 x -> at_most 8 y -> Rabs (B2R x - B2R y) <= big).
        { intros x y [_ X] [_ Y]. eapply Rle_trans; [|apply (bpow_big 9); lia]. change 9%Z with (8 + 1)%Z. rewrite bpow_plus. change (bpow radix2 1) with 2. apply Rabs_le. apply Rabs_le_inv in X. apply Rabs_le_inv in Y. lra. }
        destruct (bsub_correct (vz p2) (lowS dp (vz c)) (proj1 Z') (proj1 A') (Q _ _ Z' A')) as [_ X1].
        destruct (bsub_correct (highS dp (vz c)) (lowS dp (vz c)) (proj1 B') (proj1 A') (Q _ _ B' A')) as [_ X2].
        rewrite X1, X2, EZ. reflexivity. }
      refine (proj2 (prod_low _ _ _ _ _ _ _ _ _)).
      + apply (am_mono 9); [|lia]. change 9%Z with (8 + 1)%Z. apply am_sub; [lia|exact A'|exact Z'].
      + change 11%Z with (10 + 1)%Z. apply am_sub; [lia|now apply T10|exact FF].
      + rewrite E1, E2, E3. replace (- B2R (nsub (highS dp (vz c)) (lowS dp (vz c))) * - B2R (nsub (farS w (vx c)) (lowS w (vx c)))) with (B2R (nsub (highS dp (vz c)) (lowS dp (vz c))) * B2R (nsub (farS w (vx c)) (lowS w (vx c)))) by ring. now apply P42.
      + apply null_sub; [apply B'|apply Z'|now rewrite EZ].
      + apply (am_sub 10 (highS w (vx c)) (farS w (vx c)) ltac:(lia) (T10 _ B) FF).
  Qed.
  Lemma corners_level : B2R (vy p0) = B2R (vy c) /\ B2R (vy p1) = B2R (vy c) /\ B2R (vy p2) = B2R (vy c) /\ B2R (vy p3) = B2R (vy c).
  Proof. destruct cy_R as [_ E]. destruct cy2_R as [_ E']. unfold p0, p1, p2, p3; cbn [vy]. auto. Qed.
  Variables (s d : vec b64) (h : hit b64 M) (r' : ray b64) (d' : vec b64).
  Hypothesis Hs : all3 (at_most 10) s.
  Hypothesis Hd : near_unit d.
  Hypothesis Ld : at_least (-100) (vy d).
  Hypothesis Hh : oIntersect o (Ray s d) = Val (h, r').
  Hypothesis Hpos : nltb (nofZ 0) (hT h) = true.
  Hypothesis Hfar : nltb (hT h) (nofZ (10 ^ 98)) = true.
  Hypothesis Hd' : near_unit d'.
  Let n := flipTowards (vnormalized (hNormal h)) d.
  Let q := vmadd (rayAt (Ray s d) (hT h)) tiny n.
  Hypothesis Hout : 0 < rdot d' n.
  Lemma floor_at (p : vec b64) (e : R) : lift_at s d h p e -> e <= Rabs (B2R (vy p) - B2R (vy c)) <= 166 / 100000000 /\ 0 < B2R (vy d') * (B2R (vy p) - B2R (vy c)) /\
    (at_least (-500) (vy d') -> exists h', oIntersect o (Ray p d') = Val (h', Ray p d') /\ (hT h' = nofZ 0 \/ hT h' = nofZ (9 * 10 ^ 99))) /\
    (all3 (at_least (-500)) d' -> Rabs (B2R (vy c)) <= 16 \/ (e = 158 / 100000000 /\ Rabs (B2R (vy c)) <= 32) -> oIntersect o (Ray p d') = Val (Hit (nofZ 0) vO vO m, Ray p d')).
  Proof.
    intros HL. destruct corners_am as (A0 & A1 & A2 & A3). destruct corners_level as (Y0 & Y1 & Y2 & Y3). destruct areas as [N1 N2].
    destruct (p_own ss m p0 p1 p2 p3 _ o A0 A1 A2 A3 Y0 Y1 Y2 Y3 N1 N2 rect_quad s d Hs (unit_am d Hd) Ld h r' Hh Hpos Hfar p e HL) as (_ & _ & _ & _ & _ & Q & _).
    assert (G := out_sign ss m p0 p1 p2 p3 _ o A0 A1 A2 A3 Y0 Y1 Y2 Y3 N1 N2 rect_quad s d Hs (unit_am d Hd) Ld h r' Hh Hpos Hfar d' Hout p e HL).
    split; [exact Q|]. split; [rewrite Rmult_comm; exact G|]. split; intros Hdy.
    - exact (own_rays ss m p0 p1 p2 p3 _ o A0 A1 A2 A3 Y0 Y1 Y2 Y3 N1 N2 rect_quad s d Hs (unit_am d Hd) Ld h r' Hh Hpos Hfar d' (unit_am d' Hd') Hdy Hout p e HL).
    - exact (own_rays_low ss m p0 p1 p2 p3 _ o A0 A1 A2 A3 Y0 Y1 Y2 Y3 N1 N2 rect_quad s d Hs (unit_am d Hd) Ld h r' Hh Hpos Hfar d' (unit_am d' Hd') Hout p e HL Hdy).
  Qed.
  Let q2 := vmadd q tiny n.
  Lemma floor_normal : null (vx n) /\ null (vz n) /\ is_finite (vy n) = true /\ Rabs (B2R (vy n) * B2R (vy n) - 1) <= 20 * u.
  Proof.
    destruct corners_am as (A0 & A1 & A2 & A3). destruct corners_level as (Y0 & Y1 & Y2 & Y3). destruct areas as [N1 N2].
    destruct (hit_own ss m p0 p1 p2 p3 _ o A0 A1 A2 A3 Y0 Y1 Y2 Y3 N1 N2 rect_quad s d Hs (unit_am d Hd) Ld h r' Hh Hpos Hfar) as (X & Z & _ & _ & _ & _ & _ & F & _ & _ & SQ). exact (conj X (conj Z (conj F SQ))).
  Qed.
  Lemma once : lift_at s d h q (79 / 100000000). Proof. left. split; reflexivity. Qed.
  Lemma twice : lift_at s d h q2 (158 / 100000000). Proof. right. split; reflexivity. Qed.
  Theorem floor_lift : 79 / 100000000 <= Rabs (B2R (vy q) - B2R (vy c)) <= 166 / 100000000 /\ 0 < B2R (vy d') * (B2R (vy q) - B2R (vy c)) /\
    158 / 100000000 <= Rabs (B2R (vy q2) - B2R (vy c)) <= 166 / 100000000 /\ 0 < B2R (vy d') * (B2R (vy q2) - B2R (vy c)).
  Proof. destruct (floor_at _ _ once) as (A & B & _). destruct (floor_at _ _ twice) as (A' & B' & _). auto. Qed.
  Theorem floor_rays : at_least (-500) (vy d') -> forall p, p = q \/ p = q2 -> exists h', oIntersect o (Ray p d') = Val (h', Ray p d') /\ (hT h' = nofZ 0 \/ hT h' = nofZ (9 * 10 ^ 99)).
  Proof. intros Hy p [-> | ->]; [apply (floor_at _ _ once)|apply (floor_at _ _ twice)]; exact Hy. Qed.
  Theorem low_floor_rays : all3 (at_least (-500)) d' ->
    (Rabs (B2R (vy c)) <= 16 -> oIntersect o (Ray q d') = Val (Hit (nofZ 0) vO vO m, Ray q d')) /\
    (Rabs (B2R (vy c)) <= 32 -> oIntersect o (Ray q2 d') = Val (Hit (nofZ 0) vO vO m, Ray q2 d')).
  Proof. intros Hy. split; intros Hc'; [apply (floor_at _ _ once)|apply (floor_at _ _ twice)]; auto. Qed.
End Rect.

(** ** A high floor, and a low one *)
Section High.
  Context {M : Type}.
  Variable ss : (object b64 M -> object b64 M -> bool) -> list (object b64 M) -> list (object b64 M).
  Definition straightDown : vec b64 := Vec (nofZ 0) (nofZ (-1)) (nofZ 0).
  Definition outward : vec b64 := Vec (nQ 2 3) (nQ 2 3) (nQ 1 3).
  Definition off (s : vec b64) (h : hit b64 M) : vec b64 := vmadd (rayAt (Ray s straightDown) (hT h)) tiny (flipTowards (vnormalized (hNormal h)) straightDown).
  Definition off2 (s : vec b64) (h : hit b64 M) : vec b64 := vmadd (off s h) tiny (flipTowards (vnormalized (hNormal h)) straightDown).
  Definition tryFloor (m : option M) (y sy : b64) : bool * bool * bool * bool * option M * bool :=
    match rectangle to32b ss m (nofZ 10) (nofZ 10) (Vec (nofZ 0) y (nofZ 0)) with
    | Val o => match oIntersect o (Ray (Vec (nofZ 1) sy (nofZ 2)) straightDown) with
      | Val (h, _) => match oIntersect o (Ray (off2 (Vec (nofZ 1) sy (nofZ 2)) h) outward) with
        | Val (h', _) => (nltb (nofZ 0) (hT h), nltb (hT h) (nofZ 10), nltb y (vy (off2 (Vec (nofZ 1) sy (nofZ 2)) h)), nltb (nofZ (10 ^ 98)) (hT h'), hMat h', neqb (hT h') (nofZ 0))
        | _ => (false, false, false, false, None, false) end
      | _ => (false, false, false, false, None, false) end
    | _ => (false, false, false, false, None, false) end.
  Lemma high_compute m : tryFloor m (nQ 703 10) (nofZ 75) = (true, true, true, true, m, false).
  Proof. vm_compute. reflexivity. Qed.
  Lemma low_compute m : tryFloor m (nQ 7 10) (nofZ 5) = (true, true, true, false, m, true).
  Proof. vm_compute. reflexivity. Qed.
  Lemma outward_up : nltb (nofZ 0) (vy outward) = true. Proof. vm_compute. reflexivity. Qed.
  Theorem high_floor (m : option M) : exists (w dp : b64) (c s d d' : vec b64) (o : object b64 M) (h h' : hit b64 M) (r r' : ray b64),
    rectangle to32b ss m w dp c = Val o /\ oIntersect o (Ray s d) = Val (h, r) /\ nltb (nofZ 0) (hT h) = true /\ nltb (hT h) (nofZ 10) = true /\
    let n := flipTowards (vnormalized (hNormal h)) d in let p := vmadd (vmadd (rayAt (Ray s d) (hT h)) tiny n) tiny n in
    nltb (vy c) (vy p) = true /\ nltb (nofZ 0) (vy d') = true /\
    oIntersect o (Ray p d') = Val (h', r') /\ nltb (nofZ (10 ^ 98)) (hT h') = true /\ hMat h' = m.
  Proof.
    assert (P := high_compute m). unfold tryFloor in P. exists (nofZ 10), (nofZ 10), (Vec (nofZ 0) (nQ 703 10) (nofZ 0)), (Vec (nofZ 1) (nofZ 75) (nofZ 2)), straightDown, outward.
    assert (X : forall a b : option M, (false, false, false, false, a, false) = (true, true, true, true, b, false) -> False) by (intros a b Q; discriminate Q).
    destruct (rectangle to32b ss m (nofZ 10) (nofZ 10) (Vec (nofZ 0) (nQ 703 10) (nofZ 0))) as [o| |] eqn:E; [|destruct (X _ _ P)..]. exists o.
    destruct (oIntersect o (Ray (Vec (nofZ 1) (nofZ 75) (nofZ 2)) straightDown)) as [[h r]| |] eqn:E'; [|destruct (X _ _ P)..]. exists h.
    destruct (oIntersect o (Ray (off2 (Vec (nofZ 1) (nofZ 75) (nofZ 2)) h) outward)) as [[h' r']| |] eqn:E2; [|destruct (X _ _ P)..]. exists h', r, r'.
    assert (P0 := f_equal (fun x => fst (fst (fst (fst (fst x))))) P). assert (P1 := f_equal (fun x => snd (fst (fst (fst (fst x))))) P). assert (P2 := f_equal (fun x => snd (fst (fst (fst x)))) P).
    assert (P3 := f_equal (fun x => snd (fst (fst x))) P). assert (P4 := f_equal (fun x => snd (fst x)) P). cbn [fst snd] in P0, P1, P2, P3, P4.
    split; [reflexivity|]. split; [first [exact E'|reflexivity]|]. split; [exact P0|]. split; [exact P1|]. cbv zeta. split; [exact P2|]. split; [exact outward_up|]. split; [first [exact E2|reflexivity]|]. split; [exact P3|exact P4].
  Qed.
  Lemma low_floor (m : option M) : exists (o : object b64 M) (h h' : hit b64 M) (r r' : ray b64),
    let s := Vec (nofZ 1) (nofZ 5) (nofZ 2) in let d := Vec (nofZ 0) (nofZ (-1)) (nofZ 0) in
    rectangle to32b ss m (nofZ 10) (nofZ 10) (Vec (nofZ 0) (nQ 7 10) (nofZ 0)) = Val o /\ oIntersect o (Ray s d) = Val (h, r) /\ nltb (nofZ 0) (hT h) = true /\
    oIntersect o (Ray (vmadd (vmadd (rayAt (Ray s d) (hT h)) tiny (flipTowards (vnormalized (hNormal h)) d)) tiny (flipTowards (vnormalized (hNormal h)) d)) (Vec (nQ 2 3) (nQ 2 3) (nQ 1 3))) = Val (h', r') /\ neqb (hT h') (nofZ 0) = true.
  Proof.
    assert (P := low_compute m). unfold tryFloor in P.
    assert (X : forall a b : option M, (false, false, false, false, a, false) = (true, true, true, false, b, true) -> False) by (intros a b Q; discriminate Q).
    destruct (rectangle to32b ss m (nofZ 10) (nofZ 10) (Vec (nofZ 0) (nQ 7 10) (nofZ 0))) as [o| |] eqn:E; [|destruct (X _ _ P)..]. exists o.
    destruct (oIntersect o (Ray (Vec (nofZ 1) (nofZ 5) (nofZ 2)) straightDown)) as [[h r]| |] eqn:E'; [|destruct (X _ _ P)..]. exists h.
    destruct (oIntersect o (Ray (off2 (Vec (nofZ 1) (nofZ 5) (nofZ 2)) h) outward)) as [[h' r']| |] eqn:E2; [|destruct (X _ _ P)..]. exists h', r, r'.
    assert (P0 := f_equal (fun x => fst (fst (fst (fst (fst x))))) P). assert (P5 := f_equal (fun x => snd x) P). cbn [fst snd] in P0, P5.
    cbv zeta. split; [reflexivity|]. split; [first [exact E'|reflexivity]|]. split; [exact P0|]. split; [first [exact E2|reflexivity]|exact P5].
  Qed.
End High.
