(** * Meshes, parallelograms, rectangles and disks in exact arithmetic *)
From Coq Require Import ZArith Reals Bool List Lra Lia Permutation.
From Verif Require Import Num NumLaws Outcome GeomModel GeomSpec GeomProofs ObjModel TreeModel ObjSpec ObjProofs BoxProofs PrimProofs TreeProofs MeshSpec MeshProofs MeshHits.
Import ListNotations.
Local Open Scope R_scope.

Ltac znat := change (Z.to_nat 0) with 0%nat; change (Z.to_nat 1) with 1%nat; change (Z.to_nat 2) with 2%nat; change (Z.to_nat 3) with 3%nat.

Section Shapes.
  Context {M : Type}.
  Variable sortSlice : (object xr M -> object xr M -> bool) -> list (object xr M) -> list (object xr M).
  Hypothesis SP : reorders sortSlice.
  Notation id32 := (fun x : xr => x).

  Lemma general_dir ps fs d : fs <> nil -> general_position ps fs d -> d <> zero3.
  Proof.
    intros Hne G. destruct fs as [|f fs]; [congruence|]. destruct (G f) as [_ H]; [now left|].
    intros ->. apply H. unfold dot3, zero3. cbn [vx vy vz]. ring.
  Qed.

  Lemma blend_normals ps fs N f w0 w1 w2 : shading ps fs N -> In f fs -> face_in_range ps f ->
    (forall i, (0 < corner_count f i)%nat -> normal_sum ps fs i <> zero3) ->
    (let '(i, j, k) := f in vadd (vadd (vmul (N i) (XF w0)) (vmul (N j) (XF w1))) (vmul (N k) (XF w2))) =
    xv (blend3 f w0 w1 w2 (fun i => unit_of (normal_sum ps fs i))).
  Proof.
    intros SN If HR HZ. destruct f as [[i j] k]. destruct HR as (Hi & Hj & Hk).
    assert (forall l, (0 < corner_count (i, j, k) l)%nat -> in_range ps l -> N l = xv (unit_of (normal_sum ps fs l))) as E.
    { intros l Hl Rl. destruct (SN l Rl) as (_ & H & _). apply H; auto. exists (i, j, k). auto. }
    rewrite (E i), (E j), (E k); auto; try (unfold corner_count; rewrite Z.eqb_refl; lia).
  Qed.

  Definition mesh_hit (ps : list pt) (uv : list (R * R)) (fs : list face3) (m : option M) (s d : pt) (h : hit xr M) : Prop :=
    exists f t w0 w1 w2, In f fs /\ 0 < t /\ in_face ps f w0 w1 w2 (along s d t) /\
      (forall t', 0 < t' -> on_mesh ps fs (along s d t') -> t <= t') /\
      hT h = XF t /\ hMat h = m /\
      hLocal h = xv (Vec (blend f w0 w1 w2 (fun i => fst (nth (Z.to_nat i) uv (0, 0)))) (blend f w0 w1 w2 (fun i => snd (nth (Z.to_nat i) uv (0, 0)))) 0) /\
      ((forall i, (0 < corner_count f i)%nat -> normal_sum ps fs i <> zero3) ->
         hNormal h = xv (blend3 f w0 w1 w2 (fun i => unit_of (normal_sum ps fs i)))).

  Theorem mesh_exact (m : option M) (ps : list pt) (uv : list (R * R)) (fs : list face3) (s d : pt) :
    length uv = length ps -> fs <> nil -> (forall f, In f fs -> face_in_range ps f) ->
    general_position ps fs d -> start_off ps s -> (forall t, 0 < t -> on_mesh ps fs (along s d t) -> t < horizon) ->
    exists o h, meshWithUV id32 sortSlice m (map xv ps) fs (Some (map xuv uv)) = Val o /\
      oIntersect o (xray s d) = Val (h, xray s d) /\
      (mesh_hit ps uv fs m s d h \/
       ((forall t, 0 < t -> ~ on_mesh ps fs (along s d t)) /\ (hT h = XF 0 \/ (hT h = XF horizon /\ (length fs <= 7)%nat)))).
  Proof.
    intros L Hne HR HG SO HB. destruct (meshWithUV_faces sortSlice ps uv fs m L HR) as (N & SN & E).
    destruct (mesh_tree_exact sortSlice SP ps uv N s d fs Hne HR HG SO (general_dir _ _ _ Hne HG) HB) as (o & h & Et & Eh & D).
    rewrite E, Et. cbn [omap]. exists (withMaterial m o). eexists. split; [reflexivity|]. cbn [withMaterial oIntersect]. rewrite Eh. cbn [omap].
    split; [reflexivity|]. destruct D as [(f & t & w0 & w1 & w2 & If & T & IF & NM & ->)|(NH & D)].
    - left. exists f, t, w0, w1, w2. cbn [hT hMat hLocal hNormal]. repeat (split; [assumption|]).
      split; [destruct f as [[i j] k]; reflexivity|]. split; [reflexivity|]. split; [destruct f as [[i j] k]; reflexivity|].
      intros HZ. rewrite <- (blend_normals ps fs N f w0 w1 w2 SN If (HR f If) HZ). destruct f as [[i j] k]. reflexivity.
    - right. split; auto. cbn [hT]. destruct D as [->|[-> D]]; [left|right]; auto.
  Qed.

  (** ** Parallelograms *)
  Section Para.
    Variables (m : option M) (o a b s d : pt).
    Let n := cross3 (minus3 a o) (minus3 b o).
    Let ps := [o; a; plus3 a (minus3 b o); b].
    Let fs : list face3 := [(0, 1, 3); (2, 3, 1)]%Z.
    Let uv := [(0, 0); (1, 0); (1, 1); (0, 1)].
    Hypothesis Hn : n <> zero3.
    Hypothesis Hnd : dot3 n d <> 0.

    Lemma para_mesh : rectangleWithVertices id32 sortSlice m (xv o) (xv a) (xv b) =
      meshWithUV id32 sortSlice m (map xv ps) fs (Some (map xuv uv)).
    Proof. reflexivity. Qed.
    Lemma para_range f : In f fs -> face_in_range ps f.
    Proof. intros [<-|[<-|[]]]; cbn; unfold in_range; cbn; lia. Qed.
    Lemma para_normal f : In f fs -> area_normal ps f = n.
    Proof.
      unfold n. intros [<-|[<-|[]]]; unfold area_normal, corner, ps; znat; cbn [nth]; [reflexivity|].
      destruct o as [o1 o2 o3], a as [a1 a2 a3], b as [b1 b2 b3]. unfold cross3, minus3, plus3. cbn [vx vy vz]. f_equal; ring.
    Qed.
    Lemma para_general : general_position ps fs d.
    Proof. intros f If. rewrite (para_normal f If). auto. Qed.
    Lemma para_unit f : In f fs -> unit_normal ps f = unit_of n.
    Proof.
      intros If. unfold unit_normal. rewrite (para_normal f If). destruct (Req_EM_T (norm2 n) 0) as [E|]; auto.
      apply norm2_zero in E. contradiction.
    Qed.
    Lemma para_sum i : exists k, normal_sum ps fs i = scal3 (INR k) (unit_of n) /\ k = (corner_count (0%Z, 1%Z, 3%Z) i + corner_count (2%Z, 3%Z, 1%Z) i)%nat.
    Proof.
      eexists. split; [|reflexivity]. unfold fs. cbn [normal_sum]. rewrite !para_unit by (cbn; auto). rewrite plus_INR.
      destruct (unit_of n) as [x y z]. unfold plus3, scal3, zero3. cbn [vx vy vz]. f_equal; ring.
    Qed.
    Lemma unit_n_nonzero : norm2 (unit_of n) = 1.
    Proof. apply unit_norm2, norm2_nonzero, Hn. Qed.
    Lemma para_shade f i : In f fs -> (0 < corner_count f i)%nat -> normal_sum ps fs i <> zero3 /\ unit_of (normal_sum ps fs i) = unit_of n.
    Proof.
      intros If Hi. destruct (para_sum i) as (k & -> & Ek).
      assert (0 < k)%nat as K by (destruct If as [<-|[<-|[]]]; lia). apply lt_0_INR in K. split.
      - intros E. assert (norm2 (scal3 (INR k) (unit_of n)) = 0) as Z by (rewrite E; unfold norm2, dot3, zero3; cbn [vx vy vz]; ring).
        rewrite norm2_scal, unit_n_nonzero in Z. nra.
      - rewrite unit_scal by auto. apply unit_fixed, unit_n_nonzero.
    Qed.
    Lemma para_face f w0 w1 w2 p : In f fs -> in_face ps f w0 w1 w2 p ->
      let u := blend f w0 w1 w2 (fun i => fst (nth (Z.to_nat i) uv (0, 0))) in
      let v := blend f w0 w1 w2 (fun i => snd (nth (Z.to_nat i) uv (0, 0))) in
      0 <= u <= 1 /\ 0 <= v <= 1 /\ p = para o a b u v.
    Proof.
      unfold in_face, blend. intros [<-|[<-|[]]] (W0 & W1 & W2 & W & ->); unfold corner, ps, uv;
        znat; cbn [nth fst snd]; (split; [lra|split; [lra|]]);
        assert (w0 = 1 - w1 - w2) as -> by lra;
        destruct o as [o1 o2 o3], a as [a1 a2 a3], b as [b1 b2 b3]; unfold para, weighted, plus3, scal3, minus3; cbn [vx vy vz]; f_equal; ring.
    Qed.
    Lemma para_on u v : 0 <= u <= 1 -> 0 <= v <= 1 -> on_mesh ps fs (para o a b u v).
    Proof.
      intros U V. unfold on_mesh. destruct (Rle_dec (u + v) 1) as [L|L].
      - exists (0, 1, 3)%Z, (1 - u - v), u, v. split; [cbn; auto|]. unfold in_face, corner, ps. znat; cbn [nth].
        repeat split; try lra. destruct o as [o1 o2 o3], a as [a1 a2 a3], b as [b1 b2 b3]; unfold para, weighted, plus3, scal3, minus3; cbn [vx vy vz]; f_equal; ring.
      - exists (2, 3, 1)%Z, (u + v - 1), (1 - u), (1 - v). split; [cbn; auto|]. unfold in_face, corner, ps. znat; cbn [nth].
        repeat split; try lra. destruct o as [o1 o2 o3], a as [a1 a2 a3], b as [b1 b2 b3]; unfold para, weighted, plus3, scal3, minus3; cbn [vx vy vz]; f_equal; ring.
    Qed.
    Lemma para_on_inv p : on_mesh ps fs p -> exists u v, 0 <= u <= 1 /\ 0 <= v <= 1 /\ p = para o a b u v.
    Proof. intros (f & w0 & w1 & w2 & If & IF). destruct (para_face f w0 w1 w2 p If IF) as (U & V & E). eauto. Qed.

    Definition para_hit (h : hit xr M) : Prop :=
      exists t u v, 0 < t /\ 0 <= u <= 1 /\ 0 <= v <= 1 /\ along s d t = para o a b u v /\
        h = Hit (XF t) (xv (unit_of n)) (xv (Vec u v 0)) m.

    Lemma blend3_const f w0 w1 w2 p q : In f fs -> in_face ps f w0 w1 w2 p ->
      blend3 f w0 w1 w2 (fun i => unit_of (normal_sum ps fs i)) = q -> unit_of n = q.
    Proof.
      intros If IF <-. assert (forall i, (0 < corner_count f i)%nat -> unit_of (normal_sum ps fs i) = unit_of n) as E by (intros i Hi; apply (para_shade f i If Hi)).
      destruct f as [[i j] k]. unfold blend3. rewrite (E i), (E j), (E k); try (unfold corner_count; rewrite Z.eqb_refl; lia).
      destruct IF as (_ & _ & _ & W & _). assert (w0 = 1 - w1 - w2) as -> by lra.
      destruct (unit_of n) as [x y z]. unfold weighted, plus3, scal3. cbn [vx vy vz]. f_equal; ring.
    Qed.

    Lemma para_hit_of h : mesh_hit ps uv fs m s d h -> para_hit h.
    Proof.
      intros (f & t & w0 & w1 & w2 & If & T & IF & _ & ET & EM & EL & EN).
      destruct (para_face f w0 w1 w2 _ If IF) as (U & V & P).
      exists t. eexists. eexists. split; [exact T|]. split; [exact U|]. split; [exact V|]. split; [exact P|].
      destruct h as [ht hn hl hm]. cbn [hT hMat hLocal hNormal] in *. subst ht hm hl. f_equal.
      rewrite EN by (intros i Hi; apply (para_shade f i If Hi)). f_equal. symmetry.
      eapply blend3_const; eauto.
    Qed.

    Theorem para_exact : start_off ps s ->
      (forall t u v, 0 < t -> 0 <= u <= 1 -> 0 <= v <= 1 -> along s d t = para o a b u v -> t < horizon) ->
      exists ob h, rectangleWithVertices id32 sortSlice m (xv o) (xv a) (xv b) = Val ob /\
        oIntersect ob (xray s d) = Val (h, xray s d) /\
        (para_hit h \/
         ((forall t u v, 0 < t -> 0 <= u <= 1 -> 0 <= v <= 1 -> along s d t <> para o a b u v) /\ (hT h = XF 0 \/ hT h = XF horizon))).
    Proof.
      intros SO HB. rewrite para_mesh.
      destruct (mesh_exact m ps uv fs s d eq_refl ltac:(discriminate) para_range para_general SO) as (ob & h & E & Eh & D).
      { intros t T On. destruct (para_on_inv _ On) as (u & v & U & V & P). apply (HB t u v T U V P). }
      exists ob, h. split; auto. split; auto. destruct D as [H|[NH D]]; [left; apply para_hit_of, H|right].
      split; [|destruct D as [D|[D _]]; auto]. intros t u v T U V P. apply (NH t T). rewrite P. apply para_on; auto.
    Qed.
  End Para.

  (** ** Rectangles: no condition on planes the ray actually crosses *)
  (** the slab test is defined: the ray is not inside a plane of the box *)
  Definition clear_start (lo hi s d : R) : Prop := d <> 0 \/ (s <> lo /\ s <> hi).
  Lemma slab_clear lo hi s d : lo <= hi -> clear_start lo hi s d ->
    xnan (slabEn lo hi s d) = false /\ xnan (slabEx lo hi s d) = false /\
    forall t, (lo <= s + t * d <= hi) <-> (xle (slabEn lo hi s d) (XF t) /\ xle (XF t) (slabEx lo hi s d)).
  Proof.
    intros O C. destruct (Req_dec d 0) as [Z|Z].
    - destruct C as [C|[C1 C2]]; [contradiction|]. apply slab_spec; auto.
    - destruct (slab_finite lo hi s d Z O) as (x & y & -> & -> & _ & _ & _ & H). split; [reflexivity|]. split; [reflexivity|].
      intros t. rewrite H, !xle_XF. reflexivity.
  Qed.

  Lemma flat_box lo hi s d : ordered lo hi -> vy lo = vy hi -> vy d <> 0 ->
    clear_start (vx lo) (vx hi) (vx s) (vx d) -> clear_start (vz lo) (vz hi) (vz s) (vz d) ->
    let t0 := (vy lo - vy s) / vy d in
    (in_closed_box lo hi (along s d t0) /\ bbIntersect (xbox lo hi) (xray s d) = XF t0) \/
    ((forall t, ~ in_closed_box lo hi (along s d t)) /\ bbIntersect (xbox lo hi) (xray s d) = XF 0).
  Proof.
    intros (O1 & O2 & O3) Fl Hd Cx Cz t0.
    destruct (slab_clear _ _ _ _ O1 Cx) as (A1 & B1 & C1).
    destruct (slab_finite (vy lo) (vy hi) (vy s) (vy d) Hd O2) as (p & q & Ep & Eq & _ & P & Q & C2).
    destruct (slab_clear _ _ _ _ O3 Cz) as (A3 & B3 & C3).
    assert (p = t0 /\ q = t0) as [-> ->].
    { rewrite <- Fl in P, Q. assert (vy s + p * vy d = vy lo) as P' by (destruct P; auto). assert (vy s + q * vy d = vy lo) as Q' by (destruct Q; auto).
      unfold t0. rewrite <- P' at 1. rewrite <- Q'. split; field; auto. }
    assert (xnan (slabEn (vy lo) (vy hi) (vy s) (vy d)) = false) as A2 by now rewrite Ep.
    assert (xnan (slabEx (vy lo) (vy hi) (vy s) (vy d)) = false) as B2 by now rewrite Eq.
    destruct (max3_upper _ _ _ A1 A2 A3) as (U1 & U2 & U3).
    destruct (min3_lower _ _ _ B1 B2 B3) as (L1 & L2 & L3).
    pose proof (ten_eq lo hi s d) as Ten. pose proof (tex_eq lo hi s d) as Tex. cbv zeta in Ten, Tex.
    assert (bbIntersect (xbox lo hi) (xray s d) =
      let ten := fst (bbEnterExit (xbox lo hi) (xray s d)) in let tex := snd (bbEnterExit (xbox lo hi) (xray s d)) in
      if xltb tex ten then XF 0 else if xltb ten (XF 0) then tex else ten) as EB by apply bbIntersect_eq.
    cbv zeta in EB. rewrite Ten, Tex in EB. rewrite EB. clear EB Ten Tex.
    assert (forall t, in_closed_box lo hi (along s d t) <->
       xle (max3 (slabEn (vx lo) (vx hi) (vx s) (vx d)) (slabEn (vy lo) (vy hi) (vy s) (vy d)) (slabEn (vz lo) (vz hi) (vz s) (vz d))) (XF t) /\
       xle (XF t) (min3 (slabEx (vx lo) (vx hi) (vx s) (vx d)) (slabEx (vy lo) (vy hi) (vy s) (vy d)) (slabEx (vz lo) (vz hi) (vz s) (vz d)))) as IB.
    { intros t. unfold in_closed_box, along, plus3, scal3. cbn [vx vy vz]. rewrite C1, C3, C2. rewrite <- !xle_XF. rewrite <- Ep at 1. rewrite <- Eq at 1.
      unfold xle in *. split.
      - intros ((X1 & X2) & (Y1 & Y2) & (Z1 & Z2)). split.
        + edestruct max3_cases as [E|[E|E]]; rewrite E; auto.
        + edestruct min3_cases as [E|[E|E]]; rewrite E; auto.
      - intros (X & Y). repeat split; eapply xle_trans; eauto. }
    set (ten := max3 _ _ _) in *. set (tex := min3 _ _ _) in *. rewrite Ep in U2. rewrite Eq in L2. clearbody ten tex.
    assert (forall t, in_closed_box lo hi (along s d t) -> t = t0) as Only.
    { intros t (_ & Y & _). unfold along, plus3, scal3 in Y. cbn [vx vy vz] in Y. apply C2 in Y. lra. }
    destruct (xleb ten (XF t0)) eqn:X, (xleb (XF t0) tex) eqn:Y.
    - left. split; [apply IB; auto|]. assert (ten = XF t0) as -> by (apply xle_antisym; auto). assert (tex = XF t0) as -> by (apply xle_antisym; auto).
      rewrite xltb_irrefl. now destruct (xltb (XF t0) (XF 0)).
    - right. split.
      + intros t In. pose proof (Only t In) as ->. apply IB in In. destruct In. unfold xle in *. congruence.
      + assert (xltb tex ten = true) as ->; auto. unfold xle in *.
        assert (xnan tex = false) by (apply xleb_not_nan in L2; tauto).
        rewrite xleb_ltb in Y by auto. apply negb_false_iff in Y. exact (xlt_le_trans _ _ _ Y U2).
    - right. split.
      + intros t In. pose proof (Only t In) as ->. apply IB in In. destruct In. unfold xle in *. congruence.
      + assert (xltb tex ten = true) as ->; auto. unfold xle in *.
        assert (xnan ten = false) by (apply xleb_not_nan in U2; tauto).
        rewrite xleb_ltb in X by auto. apply negb_false_iff in X. exact (xle_lt_trans _ _ _ L2 X).
    - right. split.
      + intros t In. pose proof (Only t In) as ->. apply IB in In. destruct In. unfold xle in *. congruence.
      + assert (xltb tex ten = true) as ->; auto. unfold xle in *.
        assert (xnan ten = false) by (apply xleb_not_nan in U2; tauto).
        rewrite xleb_ltb in X by auto. apply negb_false_iff in X. exact (xle_lt_trans _ _ _ L2 X).
  Qed.
End Shapes.
