(** * Meshes: intersection is exact *)
From Coq Require Import ZArith Reals Bool List Lra Lia Permutation.
From Verif Require Import Num NumLaws Outcome GeomModel GeomSpec GeomProofs ObjModel TreeModel ObjSpec ObjProofs BoxProofs PrimProofs TreeProofs MeshSpec MeshProofs.
Import ListNotations.
Local Open Scope R_scope.

(** ** One face *)
Section Face.
  Context {M : Type}.
  Variables v0 v1 v2 s d : pt.
  Let n := cross3 (minus3 v1 v0) (minus3 v2 v0).
  Hypothesis Hn : n <> zero3.
  Hypothesis Hnd : dot3 n d <> 0.

  Lemma faceCoords_xr : let g := faceCoords v0 v1 v2 (Ray s d) in
    faceCoords (xv v0) (xv v1) (xv v2) (xray s d) = FaceGeom (XF (fgT g)) (XF (fg1 g)) (XF (fg2 g)) (XF (fg3 g)).
  Proof.
    assert (norm2 n <> 0) as Hn2 by (apply norm2_nonzero, Hn).
    unfold n, norm2, dot3, cross3, minus3 in *. clear n Hn.
    destruct v0 as [a1 a2 a3], v1 as [b1 b2 b3], v2 as [c1 c2 c3], s as [s1 s2 s3], d as [d1 d2 d3].
    cbn [vx vy vz] in *. unfold faceCoords. cbv zeta. xfin.
    rewrite !xdiv_XF by (exact Hnd || (intros E; apply Hnd; rewrite <- E; ring)). xfin.
    rewrite !xdiv_XF by (exact Hn2 || (intros E; apply Hn2; rewrite <- E; ring)). xfin.
    cbn [fgT fg1 fg2 fg3]. rnum. f_equal.
  Qed.

  (** the same decision, and the same numbers, as in exact arithmetic; the normal is whatever the corner normals blend to *)
  Lemma face_xr (N0 N1 N2 : vec xr) (a0 b0 a1 b1 a2 b2 : R) :
    let h := faceIntersect (Vertex (xv v0) N0 (XF a0) (XF b0)) (Vertex (xv v1) N1 (XF a1) (XF b1)) (Vertex (xv v2) N2 (XF a2) (XF b2)) (xray s d) : hit xr M in
    (exists t w0 w1 w2, 0 < t /\ 0 <= w0 /\ 0 <= w1 /\ 0 <= w2 /\ w0 + w1 + w2 = 1 /\
       along s d t = weighted w0 w1 w2 v0 v1 v2 /\
       h = Hit (XF t) (vadd (vadd (vmul N0 (XF w0)) (vmul N1 (XF w1))) (vmul N2 (XF w2)))
             (Vec (XF (w0 * a0 + w1 * a1 + w2 * a2)) (XF (w0 * b0 + w1 * b1 + w2 * b2)) (XF 0)) None /\
       forall t', 0 < t' -> in_triangle v0 v1 v2 (along s d t') -> t' = t) \/
    (h = noHit /\ forall t, 0 < t -> ~ in_triangle v0 v1 v2 (along s d t)).
  Proof.
    cbv zeta. destruct (faceCoords_exact v0 v1 v2 s d Hn Hnd) as (S1 & P & U). cbv zeta in *.
    unfold faceIntersect. cbn [vtPos vtNormal vtU vtV]. rewrite faceCoords_xr.
    set (g := faceCoords v0 v1 v2 (Ray s d)) in *. cbn [fgT fg1 fg2 fg3 nltb NumX xltb nofZ].
    destruct (Rltb_spec 0 (fgT g)) as [T|T]; cbn [negb].
    - destruct (Rltb_spec (fg1 g) 0) as [L1|L1], (Rltb_spec (fg2 g) 0) as [L2|L2], (Rltb_spec (fg3 g) 0) as [L3|L3]; cbn [orb].
      8: { left. exists (fgT g), (fg1 g), (fg2 g), (fg3 g). repeat (split; [assumption|]).
           split; [cbn [nadd nmul NumX xadd xmul]; f_equal; [f_equal; f_equal; ring]|].
           intros t' _ (w0 & w1 & w2 & _ & _ & _ & W & E). destruct (U t' w0 w1 w2 W E) as (-> & _). reflexivity. }
      all: right; split; [reflexivity|].
      all: intros t' _ (w0 & w1 & w2 & W0 & W1 & W2 & W & E); destruct (U t' w0 w1 w2 W E) as (-> & -> & -> & ->); lra.
    - right. split; [reflexivity|]. intros t' T' (w0 & w1 & w2 & _ & _ & _ & W & E). destruct (U t' w0 w1 w2 W E) as (-> & _). lra.
  Qed.
End Face.

(** ** Boxes of finite points *)
Lemma hull_xbox (l : list pt) : l <> nil ->
  exists lo hi, boundingBoxFromHull (map xv l) = Val (xbox lo hi) /\
    (forall p, In p l -> in_closed_box lo hi p) /\
    (exists p, In p l /\ vx p = vx lo) /\ (exists p, In p l /\ vy p = vy lo) /\ (exists p, In p l /\ vz p = vz lo) /\
    (exists p, In p l /\ vx p = vx hi) /\ (exists p, In p l /\ vy p = vy hi) /\ (exists p, In p l /\ vz p = vz hi).
Proof.
  intros Hne. destruct (boundingBoxFromHull_spec (map xv l)) as [[N _]|(_ & b & E & (I & X0 & X1 & Y0 & Y1 & Z0 & Z1))].
  - destruct l; [congruence|discriminate].
  - exfalso. apply existsb_exists in N. destruct N as (p & Hp & N). apply in_map_iff in Hp. destruct Hp as (q & <- & _). discriminate.
  - assert (forall (f : vec xr -> xr) (g : pt -> R) c, (forall v, f (xv v) = XF (g v)) -> (exists p, In p (map xv l) /\ f p = c) ->
      exists r, c = XF r /\ exists p, In p l /\ g p = r) as G.
    { intros f g c Hf (p & Hp & Ec). apply in_map_iff in Hp. destruct Hp as (q & <- & Hq). rewrite Hf in Ec. eauto. }
    destruct b as [[x0 y0 z0] [x1 y1 z1]]. cbn [bMin bMax vx vy vz] in *.
    destruct (G vx vx x0) as (rx0 & -> & ?); auto. destruct (G vx vx x1) as (rx1 & -> & ?); auto.
    destruct (G vy vy y0) as (ry0 & -> & ?); auto. destruct (G vy vy y1) as (ry1 & -> & ?); auto.
    destruct (G vz vz z0) as (rz0 & -> & ?); auto. destruct (G vz vz z1) as (rz1 & -> & ?); auto.
    exists (Vec rx0 ry0 rz0), (Vec rx1 ry1 rz1). split; [exact E|]. split; [|cbn [vx vy vz]; repeat split; auto].
    intros p Hp. destruct (I (xv p) (in_map xv l p Hp)) as (A & B & C & D & F & G').
    cbn [nleb NumX vx vy vz xv] in *.
    apply xle_XF in A, B, C, D, F, G'. unfold in_closed_box. cbn [vx vy vz]. auto.
Qed.

Lemma box_convex lo hi a b c w0 w1 w2 : in_closed_box lo hi a -> in_closed_box lo hi b -> in_closed_box lo hi c ->
  0 <= w0 -> 0 <= w1 -> 0 <= w2 -> w0 + w1 + w2 = 1 -> in_closed_box lo hi (weighted w0 w1 w2 a b c).
Proof.
  intros (A1 & A2 & A3) (B1 & B2 & B3) (C1 & C2 & C3) H0 H1 H2 S. assert (w2 = 1 - w0 - w1) by lra.
  unfold in_closed_box, weighted, plus3, scal3. cbn [vx vy vz]. subst w2. repeat split; nra.
Qed.

Section Mesh.
  Context {M : Type}.
  Variable sortSlice : (object xr M -> object xr M -> bool) -> list (object xr M) -> list (object xr M).
  Hypothesis SP : reorders sortSlice.
  Variables (ps : list pt) (uv : list (R * R)) (N : Z -> vec xr) (s d : pt).
  Notation fat := (faceAt ps uv N (M := M)).
  Definition uAt (i : Z) : R := fst (nth (Z.to_nat i) uv (0, 0)).
  Definition vAt (i : Z) : R := snd (nth (Z.to_nat i) uv (0, 0)).

  (** the hit reported by a face for a point with the given weights *)
  Definition faceHit (f : face3) (t w0 w1 w2 : R) : hit xr M :=
    let '(i, j, k) := f in
    Hit (XF t) (vadd (vadd (vmul (N i) (XF w0)) (vmul (N j) (XF w1))) (vmul (N k) (XF w2)))
      (Vec (XF (blend f w0 w1 w2 uAt)) (XF (blend f w0 w1 w2 vAt)) (XF 0)) None.

  Lemma corner_in i : in_range ps i -> In (corner ps i) ps.
  Proof. intros [H1 H2]. apply nth_In. lia. Qed.

  Lemma fat_spec f : area_normal ps f <> zero3 -> dot3 (area_normal ps f) d <> 0 ->
    (exists t w0 w1 w2, 0 < t /\ in_face ps f w0 w1 w2 (along s d t) /\
       oIntersect (fat f) (xray s d) = Val (faceHit f t w0 w1 w2, xray s d) /\
       forall t' u0 u1 u2, 0 < t' -> in_face ps f u0 u1 u2 (along s d t') -> t' = t) \/
    (oIntersect (fat f) (xray s d) = Val (noHit, xray s d) /\ forall t w0 w1 w2, 0 < t -> ~ in_face ps f w0 w1 w2 (along s d t)).
  Proof.
    destruct f as [[i j] k]. intros H1 H2. cbn [area_normal] in *.
    unfold faceAt. cbn [oIntersect face simpleObj omap].
    destruct (face_xr (M := M) (corner ps i) (corner ps j) (corner ps k) s d H1 H2 (N i) (N j) (N k) (uAt i) (vAt i) (uAt j) (vAt j) (uAt k) (vAt k))
      as [(t & w0 & w1 & w2 & T & W0 & W1 & W2 & W & P & E & U)|[E U]]; unfold uAt, vAt in E; rewrite E.
    - left. exists t, w0, w1, w2. split; auto. split; [repeat split; auto|]. split; [reflexivity|].
      intros t' u0 u1 u2 T' (V0 & V1 & V2 & V & E'). apply U; auto. exists u0, u1, u2. auto.
    - right. split; [reflexivity|]. intros t w0 w1 w2 T (V0 & V1 & V2 & V & E'). eapply U; eauto. exists w0, w1, w2. auto.
  Qed.

  Lemma fat_bounds f : face_in_range ps f -> exists lo hi, oBounds (fat f : object xr M) = Val (xbox lo hi) /\
    (forall w0 w1 w2 p, in_face ps f w0 w1 w2 p -> in_closed_box lo hi p) /\
    (start_off ps s -> off_planes lo hi s).
  Proof.
    destruct f as [[i j] k]. intros (Hi & Hj & Hk). unfold faceAt. cbn [oBounds face simpleObj vtPos].
    destruct (hull_xbox [corner ps i; corner ps j; corner ps k]) as (lo & hi & E & I & X0 & Y0 & Z0 & X1 & Y1 & Z1); [discriminate|].
    exists lo, hi. split; [exact E|]. split.
    - intros w0 w1 w2 p (W0 & W1 & W2 & W & ->). apply box_convex; auto; apply I; cbn; auto.
    - intros SO. assert (forall p, In p [corner ps i; corner ps j; corner ps k] -> vx s <> vx p /\ vy s <> vy p /\ vz s <> vz p) as SO'.
      { intros p Hp. apply SO. destruct Hp as [<-|[<-|[<-|[]]]]; apply corner_in; auto. }
      unfold off_planes. repeat split.
      + destruct X0 as (p & Hp & <-). apply SO', Hp.
      + destruct X1 as (p & Hp & <-). apply SO', Hp.
      + destruct Y0 as (p & Hp & <-). apply SO', Hp.
      + destruct Y1 as (p & Hp & <-). apply SO', Hp.
      + destruct Z0 as (p & Hp & <-). apply SO', Hp.
      + destruct Z1 as (p & Hp & <-). apply SO', Hp.
  Qed.

  Variable fs : list face3.
  Hypothesis Hne : fs <> nil.
  Hypothesis HR : forall f, In f fs -> face_in_range ps f.
  Hypothesis HG : general_position ps fs d.

  Lemma fat_well_boxed f : In f fs -> start_off ps s -> well_boxed s d (fat f : object xr M).
  Proof.
    intros If SO. destruct (fat_bounds f (HR f If)) as (lo & hi & E & I & O). exists lo, hi. split; auto.
    destruct (HG f If) as [G1 G2].
    assert (ordered lo hi) as OR.
    { assert (in_closed_box lo hi (let '(i, j, k) := f in corner ps i)) as (A & B & C); [|unfold ordered; lra].
      apply (I 1 0 0). destruct f as [[i j] k]. repeat split; try lra. destruct (corner ps i) as [x y z], (corner ps j), (corner ps k).
      unfold weighted, plus3, scal3. cbn [GeomModel.vx GeomModel.vy GeomModel.vz]. f_equal; ring. }
    split; [exact OR|]. split; [|auto].
    intros h r' Eh Ph. destruct (fat_spec f G1 G2) as [(t & w0 & w1 & w2 & T & IF & E' & _)|[E' _]]; rewrite E' in Eh; injection Eh as <- <-.
    - exists t. split; [destruct f as [[i j] k]; reflexivity|]. eapply I; eauto.
    - cbn in Ph. apply Rltb_true in Ph. lra.
  Qed.

  Definition nearest_on_mesh (t : R) : Prop := forall t', 0 < t' -> on_mesh ps fs (along s d t') -> t <= t'.

  (** the hits of all faces *)
  Lemma fat_hits : exists hits, hits_of (map fat fs) (xray s d) hits /\
    (forall h, In h hits -> positive h -> exists f t w0 w1 w2, In f fs /\ 0 < t /\ in_face ps f w0 w1 w2 (along s d t) /\ h = faceHit f t w0 w1 w2) /\
    (forall f t w0 w1 w2, In f fs -> 0 < t -> in_face ps f w0 w1 w2 (along s d t) -> exists h, In h hits /\ positive h /\ hT h = XF t).
  Proof.
    clear Hne HR. revert HG. induction fs as [|f l IH]; intros G.
    - exists nil. split; [constructor|]. split; [intros h []|intros f t w0 w1 w2 []].
    - destruct IH as (hits & HO & A & B); [intros g Ig; apply G; now right|].
      destruct (G f) as [G1 G2]; [now left|].
      destruct (fat_spec f G1 G2) as [(t & w0 & w1 & w2 & T & IF & E & U)|[E U]].
      + exists (faceHit f t w0 w1 w2 :: hits). split; [constructor; auto|]. split.
        * intros h [<-|Ih] Ph; [exists f, t, w0, w1, w2; cbn; auto|].
          destruct (A h Ih Ph) as (g & t' & x0 & x1 & x2 & Ig & R). exists g, t', x0, x1, x2. cbn. auto.
        * intros g t' x0 x1 x2 [<-|Ig] T' IF'.
          -- exists (faceHit f t w0 w1 w2). rewrite (U t' x0 x1 x2 T' IF'). destruct f as [[i j] k]. cbn. split; auto. split; auto.
             unfold positive. cbn. now apply Rltb_true.
          -- destruct (B g t' x0 x1 x2 Ig T' IF') as (h & Ih & R). exists h. cbn. auto.
      + exists (noHit :: hits). split; [constructor; auto|]. split.
        * intros h [<-|Ih] Ph; [unfold positive in Ph; cbn in Ph; apply Rltb_true in Ph; lra|].
          destruct (A h Ih Ph) as (g & t' & x0 & x1 & x2 & Ig & R). exists g, t', x0, x1, x2. cbn. auto.
        * intros g t' x0 x1 x2 [<-|Ig] T' IF'; [exfalso; eapply U; eauto|].
          destruct (B g t' x0 x1 x2 Ig T' IF') as (h & Ih & R). exists h. cbn. auto.
  Qed.

  Lemma fat_tree_builds : exists n, tree (fun x => x) sortSlice (map fat fs) = Val (treeOf n) /\
     Permutation (members n) (map fat fs) /\
      (forall bb l, In (Leaf bb l) (nodes n) -> l <> nil /\ length l <= 7)%nat /\
      (depth n = 0 \/ 7 * 2 ^ (depth n - 1) < length fs)%nat.
  Proof.
    rewrite <- (map_length fat fs).
    apply tree_builds; auto; [destruct fs; [congruence|discriminate]|].
    intros o Ho. apply in_map_iff in Ho. destruct Ho as (f & <- & If). destruct (fat_bounds f (HR f If)) as (lo & hi & E & _).
    exists (xbox lo hi). auto.
  Qed.

  (** exactly the nearest point of the mesh is reported *)
  Theorem mesh_tree_exact : start_off ps s -> d <> zero3 ->
    (forall t, 0 < t -> on_mesh ps fs (along s d t) -> t < horizon) ->
    exists o h, tree (fun x => x) sortSlice (map fat fs) = Val o /\ oIntersect o (xray s d) = Val (h, xray s d) /\
      ((exists f t w0 w1 w2, In f fs /\ 0 < t /\ in_face ps f w0 w1 w2 (along s d t) /\ nearest_on_mesh t /\ h = faceHit f t w0 w1 w2) \/
       ((forall t, 0 < t -> ~ on_mesh ps fs (along s d t)) /\ (h = noHit \/ (h = farHit /\ (length fs <= 7)%nat)))).
  Proof.
    intros SO Hd HB. destruct fat_tree_builds as (n & En & _). destruct fat_hits as (hits & HO & A & B).
    assert (map fat fs <> nil) as Hne' by (destruct fs; [congruence|discriminate]).
    destruct (tree_exact sortSlice SP s d (map fat fs) (treeOf n) hits Hne' Hd) as (h & E & D); auto.
    { intros o Ho. apply in_map_iff in Ho. destruct Ho as (f & <- & If). apply fat_well_boxed; auto. }
    { intros h Ih Ph. destruct (A h Ih Ph) as (f & t & w0 & w1 & w2 & If & T & IF & ->).
      destruct f as [[i j] k]. cbn [faceHit hT nltb NumX xltb]. apply Rltb_true. apply HB; auto. exists (i, j, k), w0, w1, w2. auto. }
    exists (treeOf n), h. split; auto. split; auto. destruct D as [(Ih & Ph & Mi)|(NH & D)].
    - left. destruct (A h Ih Ph) as (f & t & w0 & w1 & w2 & If & T & IF & ->). exists f, t, w0, w1, w2.
      repeat (split; [assumption|]). split; [|reflexivity].
      intros t' T' (g & u0 & u1 & u2 & Ig & IG). destruct (B g t' u0 u1 u2 Ig T' IG) as (h' & Ih' & Ph' & E').
      specialize (Mi h' Ih' Ph'). rewrite E' in Mi. destruct f as [[i j] k]. cbn [faceHit hT nleb NumX] in Mi. now apply xle_XF in Mi.
    - right. split; [|rewrite map_length in D; exact D].
      intros t T (g & u0 & u1 & u2 & Ig & IG). destruct (B g t u0 u1 u2 Ig T IG) as (h' & Ih' & Ph' & E'). eapply NH; eauto.
  Qed.
End Mesh.
