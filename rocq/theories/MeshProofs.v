(** * Meshes: shading normals and intersection *)
From Coq Require Import ZArith Reals Bool List Lra Lia Permutation.
From Verif Require Import Num NumLaws Outcome GeomModel GeomSpec GeomProofs ObjModel TreeModel ObjSpec ObjProofs BoxProofs PrimProofs TreeProofs MeshSpec.
Import ListNotations.
Local Open Scope R_scope.

Lemma xdiv_XF a b : b <> 0 -> xdiv (XF a) (XF b) = XF (a / b).
Proof. intros H. cbn. destruct (Req_EM_T b 0); [contradiction|reflexivity]. Qed.
Lemma xsqrt_XF a : 0 <= a -> xsqrt (XF a) = XF (sqrt a).
Proof. intros H. cbn. destruct (Rlt_dec a 0); [lra|reflexivity]. Qed.

Ltac xfin := cbn [nadd nsub nmul nopp ndiv nofZ nsqrt NumX xadd xsub xopp xmul vx vy vz xv xray rStart rDir].

(** ** Vectors *)
Lemma norm2_pos p : 0 <= norm2 p.
Proof. unfold norm2, dot3. nra. Qed.
Lemma norm2_zero p : norm2 p = 0 -> p = zero3.
Proof. destruct p as [x y z]. unfold norm2, dot3, zero3. cbn [vx vy vz]. intros. f_equal; nra. Qed.
Lemma norm2_nonzero p : p <> zero3 -> norm2 p <> 0.
Proof. intros H E. apply H, norm2_zero, E. Qed.
Lemma norm_nonzero p : norm2 p <> 0 -> norm p <> 0.
Proof. intros H E. unfold norm in E. apply sqrt_eq_0 in E; auto using norm2_pos. Qed.
Lemma norm_pos p : norm2 p <> 0 -> 0 < norm p.
Proof. intros H. unfold norm. apply sqrt_lt_R0. generalize (norm2_pos p). lra. Qed.
Lemma norm_sq p : norm p * norm p = norm2 p.
Proof. apply sqrt_sqrt, norm2_pos. Qed.
Lemma norm2_scal k p : norm2 (scal3 k p) = k * k * norm2 p.
Proof. unfold norm2, dot3, scal3. cbn [vx vy vz]. ring. Qed.
Lemma unit_norm2 p : norm2 p <> 0 -> norm2 (unit_of p) = 1.
Proof.
  intros H. unfold unit_of. rewrite norm2_scal, <- norm_sq. field. apply norm_nonzero, H.
Qed.
Lemma unit_fixed p : norm2 p = 1 -> unit_of p = p.
Proof.
  intros H. unfold unit_of, norm. rewrite H, sqrt_1. destruct p as [x y z]. unfold scal3. cbn [vx vy vz]. f_equal; field.
Qed.
Lemma unit_scal k p : 0 < k -> unit_of (scal3 k p) = unit_of p.
Proof.
  intros K. unfold unit_of, norm. rewrite norm2_scal, sqrt_mult_alt, sqrt_square by nra.
  destruct (Req_dec (norm2 p) 0) as [E|E].
  - apply norm2_zero in E. subst p. unfold scal3, zero3. cbn [vx vy vz]. f_equal; ring.
  - assert (sqrt (norm2 p) <> 0) by (apply (norm_nonzero p), E).
    destruct p as [x y z]. unfold scal3. cbn [vx vy vz]. f_equal; field; lra.
Qed.

Definition nanv : vec xr := Vec XNaN XNaN XNaN.

Lemma vnormalized_xv p : norm2 p <> 0 -> vnormalized (xv p) = xv (unit_of p).
Proof.
  intros H. unfold vnormalized. destruct p as [x y z]. xfin.
  change (x * x + y * y + z * z) with (norm2 (Vec x y z)).
  rewrite xsqrt_XF by apply norm2_pos. change (sqrt (norm2 (Vec x y z))) with (norm (Vec x y z)).
  rewrite xdiv_XF by (apply norm_nonzero, H). xfin. unfold unit_of, xv, scal3. cbn [vx vy vz].
  f_equal; f_equal; field; apply norm_nonzero, H.
Qed.
Lemma vnormalized_zero : vnormalized (xv zero3) = nanv.
Proof.
  unfold vnormalized, zero3. xfin. rewrite Rmult_0_l, !Rplus_0_l, xsqrt_XF, sqrt_0 by lra.
  rewrite xdiv1_0. cbn. unfold Rsgn. rewrite Raux.Rcompare_Eq by lra. reflexivity.
Qed.
Lemma vnormalized_nan : vnormalized nanv = nanv.
Proof. reflexivity. Qed.
Lemma vnormalized_twice p : vnormalized (vnormalized (xv p)) = vnormalized (xv p).
Proof.
  destruct (Req_dec (norm2 p) 0) as [E|E].
  - apply norm2_zero in E. subst p. now rewrite vnormalized_zero.
  - rewrite (vnormalized_xv p) by auto. rewrite vnormalized_xv by (rewrite unit_norm2; lra || auto).
    rewrite unit_fixed; auto using unit_norm2.
Qed.

(** ** Vertex arrays *)
Section Arrays.
  Context {A : Type}.
  Lemma getZ_val (l : list A) i a : getZ l i = Val a <-> (0 <= i)%Z /\ nth_error l (Z.to_nat i) = Some a.
  Proof.
    unfold getZ. destruct (Z.ltb_spec i 0); [split; [discriminate|lia]|].
    destruct (nth_error l (Z.to_nat i)); split; try discriminate; [intros E; injection E as ->; auto|intros [_ E]; congruence|intros [_ E]; congruence].
  Qed.
  Lemma setZ_val (l : list A) i a : in_range l i -> setZ l i a = Val (setNth l (Z.to_nat i) a).
  Proof.
    unfold in_range, setZ. intros [H1 H2]. destruct (Z.ltb_spec i 0); [lia|]. destruct (Z.leb_spec (Z.of_nat (length l)) i); [lia|]. reflexivity.
  Qed.
  Lemma setNth_length (l : list A) i a : length (setNth l i a) = length l.
  Proof. revert i. induction l as [|x l IH]; intros [|i]; cbn; auto. Qed.
  Lemma setNth_nth (l : list A) i a j : (i < length l)%nat ->
    nth_error (setNth l i a) j = if Nat.eqb j i then Some a else nth_error l j.
  Proof.
    revert i j. induction l as [|x l IH]; intros [|i] [|j] H; cbn [setNth nth_error Nat.eqb length] in *; try lia; auto.
    apply IH. lia.
  Qed.
End Arrays.

Section Normals.
  Variable ps : list pt.
  Variable uv : list (R * R).

  (** the vertex array holds the points, their texture coordinates, and normals [N] *)
  Definition holds (vs : list (vertex xr)) (N : Z -> vec xr) : Prop :=
    length vs = length ps /\
    forall i, in_range ps i -> nth_error vs (Z.to_nat i) =
      Some (Vertex (xv (corner ps i)) (N i) (XF (fst (nth (Z.to_nat i) uv (0, 0)))) (XF (snd (nth (Z.to_nat i) uv (0, 0))))).

  Lemma holds_ext vs N N' : holds vs N -> (forall i, in_range ps i -> N i = N' i) -> holds vs N'.
  Proof. intros [L H] E. split; auto. intros i Hi. rewrite <- E by auto. auto. Qed.

  Lemma holds_get vs N i : holds vs N -> in_range ps i ->
    getZ vs i = Val (Vertex (xv (corner ps i)) (N i) (XF (fst (nth (Z.to_nat i) uv (0, 0)))) (XF (snd (nth (Z.to_nat i) uv (0, 0))))).
  Proof. intros [L H] Hi. apply getZ_val. split; [destruct Hi; lia|auto]. Qed.

  Lemma holds_set vs N i n : holds vs N -> in_range ps i ->
    exists vs', setZ vs i (Vertex (xv (corner ps i)) n (XF (fst (nth (Z.to_nat i) uv (0, 0)))) (XF (snd (nth (Z.to_nat i) uv (0, 0))))) = Val vs' /\
      holds vs' (fun j => if Z.eqb j i then n else N j).
  Proof.
    intros [L H] Hi. eexists. split; [apply setZ_val; unfold in_range in *; lia|]. split; [now rewrite setNth_length|].
    intros j Hj. rewrite setNth_nth by (destruct Hi; lia).
    destruct (Z.eqb_spec j i) as [->|E].
    - now rewrite Nat.eqb_refl.
    - destruct (Nat.eqb_spec (Z.to_nat j) (Z.to_nat i)) as [E'|_]; [exfalso; destruct Hi, Hj; lia|]. auto.
  Qed.

  Lemma holds_add vs N i n : holds vs N -> in_range ps i ->
    exists vs', addNormal vs i n = Val vs' /\ holds vs' (fun j => if Z.eqb j i then vadd (N j) n else N j).
  Proof.
    intros H Hi. unfold addNormal. rewrite (holds_get _ _ _ H Hi). cbn [obind vtPos vtNormal vtU vtV].
    destruct (holds_set vs N i (vadd (N i) n) H Hi) as (vs' & E & H'). exists vs'. split; auto.
    eapply holds_ext; [exact H'|]. intros j _. cbv beta. destruct (Z.eqb_spec j i) as [->|]; auto.
  Qed.
  Lemma holds_norm vs N i : holds vs N -> in_range ps i ->
    exists vs', normalizeAt vs i = Val vs' /\ holds vs' (fun j => if Z.eqb j i then vnormalized (N j) else N j).
  Proof.
    intros H Hi. unfold normalizeAt. rewrite (holds_get _ _ _ H Hi). cbn [obind vtPos vtNormal vtU vtV].
    destruct (holds_set vs N i (vnormalized (N i)) H Hi) as (vs' & E & H'). exists vs'. split; auto.
    eapply holds_ext; [exact H'|]. intros j _. cbv beta. destruct (Z.eqb_spec j i) as [->|]; auto.
  Qed.

  Lemma triangleNormal_xv a b c : triangleNormal (xv a) (xv b) (xv c) = vnormalized (xv (cross3 (minus3 b a) (minus3 c a))).
  Proof. reflexivity. Qed.

  Lemma isBad_xv p : isBadVec (xv p) = false.
  Proof. reflexivity. Qed.

  (** adding up *)
  Lemma sumNormals_ok : forall fs vs (S : Z -> pt), (forall f, In f fs -> face_in_range ps f) ->
    holds vs (fun i => xv (S i)) ->
    exists vs', sumNormals fs vs = Val vs' /\ holds vs' (fun i => xv (plus3 (S i) (normal_sum ps fs i))).
  Proof.
    induction fs as [|[[i j] k] fs IH]; intros vs S HR HS.
    - exists vs. split; auto. eapply holds_ext; [exact HS|]. intros i _. cbn [normal_sum].
      destruct (S i) as [x y z]. unfold plus3, zero3. cbn [vx vy vz]. now rewrite !Rplus_0_r.
    - destruct (HR (i, j, k)) as (Hi & Hj & Hk); [now left|].
      cbn [sumNormals faceNormal]. rewrite (holds_get _ _ _ HS Hi), (holds_get _ _ _ HS Hj), (holds_get _ _ _ HS Hk).
      cbn [obind omap vtPos]. rewrite triangleNormal_xv.
      fold (area_normal ps (i, j, k)).
      change (cross3 (minus3 (corner ps j) (corner ps i)) (minus3 (corner ps k) (corner ps i))) with (area_normal ps (i, j, k)).
      destruct (Req_dec (norm2 (area_normal ps (i, j, k))) 0) as [E|E].
      + apply norm2_zero in E. rewrite E, vnormalized_zero. change (isBadVec nanv) with true. cbv iota.
        destruct (IH vs S) as (vs' & E' & H'); [intros f If; apply HR; now right|auto|].
        exists vs'. split; auto. eapply holds_ext; [exact H'|]. intros l _. cbv beta. f_equal. cbn [normal_sum].
        unfold unit_normal. rewrite E. destruct (Req_EM_T (norm2 zero3) 0) as [_|N].
        * destruct (normal_sum ps fs l) as [x y z], (S l) as [x1 y1 z1]. unfold plus3, scal3, zero3. cbn [vx vy vz]. f_equal; ring.
        * exfalso. apply N. unfold norm2, dot3, zero3. cbn [vx vy vz]. ring.
      + rewrite vnormalized_xv by auto. rewrite isBad_xv. cbv iota.
        set (u := unit_of (area_normal ps (i, j, k))).
        destruct (holds_add vs _ i (xv u) HS Hi) as (v1 & -> & H1). cbn [obind].
        destruct (holds_add v1 _ j (xv u) H1 Hj) as (v2 & -> & H2). cbn [obind].
        destruct (holds_add v2 _ k (xv u) H2 Hk) as (v3 & -> & H3). cbn [obind].
        destruct (IH v3 (fun l => plus3 (S l) (scal3 (INR (corner_count (i, j, k) l)) u))) as (vs' & E' & H').
        { intros f If; apply HR; now right. }
        { eapply holds_ext; [exact H3|]. intros l _. cbv beta. unfold corner_count.
          rewrite (Z.eqb_sym i l), (Z.eqb_sym j l), (Z.eqb_sym k l).
          destruct (S l) as [x y z], u as [u1 u2 u3].
          destruct (Z.eqb l k), (Z.eqb l j), (Z.eqb l i); unfold vadd, xv, plus3, scal3; xfin; cbn [Nat.add INR]; f_equal; f_equal; ring. }
        exists vs'. split; auto. eapply holds_ext; [exact H'|]. intros l _. cbv beta. f_equal. cbn [normal_sum].
        assert (unit_normal ps (i, j, k) = u) as ->.
        { unfold unit_normal, u. destruct (Req_EM_T (norm2 (area_normal ps (i, j, k))) 0); [contradiction|reflexivity]. }
        destruct (S l) as [x y z], (normal_sum ps fs l) as [x' y' z']; clearbody u; destruct u as [u1 u2 u3]. unfold plus3, scal3. cbn [vx vy vz]. f_equal; ring.
  Qed.

  Lemma touched_nil i : ~ touched nil i.
  Proof. intros (f & [] & _). Qed.
  Lemma touched_dec fs i : touched fs i \/ ~ touched fs i.
  Proof.
    induction fs as [|f fs IH]; [right; apply touched_nil|].
    destruct IH as [(g & Ig & Hg)|N]; [left; exists g; cbn; auto|].
    destruct (corner_count f i) as [|c] eqn:E.
    - right. intros (g & [<-|Ig] & Hg); [lia|]. apply N. exists g; auto.
    - left. exists f. cbn. split; auto. lia.
  Qed.

  (** normalising *)
  Lemma normalizeAll_ok : forall fs vs (N : Z -> vec xr), (forall f, In f fs -> face_in_range ps f) ->
    (forall i, vnormalized (vnormalized (N i)) = vnormalized (N i)) ->
    holds vs N ->
    exists vs' N', normalizeAll fs vs = Val vs' /\ holds vs' N' /\
      (forall i, touched fs i -> N' i = vnormalized (N i)) /\ (forall i, ~ touched fs i -> N' i = N i).
  Proof.
    induction fs as [|[[i j] k] fs IH]; intros vs N HR HI HN.
    - exists vs, N. cbn [normalizeAll]. repeat split; try apply HN; auto. intros i H. destruct (touched_nil _ H).
    - destruct (HR (i, j, k)) as (Hi & Hj & Hk); [now left|]. cbn [normalizeAll].
      destruct (holds_norm vs _ i HN Hi) as (v1 & -> & H1). cbn [obind].
      destruct (holds_norm v1 _ j H1 Hj) as (v2 & -> & H2). cbn [obind].
      destruct (holds_norm v2 _ k H2 Hk) as (v3 & -> & H3). cbn [obind].
      set (N3 := fun l => if (0 <? corner_count (i, j, k) l)%nat then vnormalized (N l) else N l).
      destruct (IH v3 N3) as (vs' & N' & E' & H' & T & U).
      { intros f If; apply HR; now right. }
      { intros l. unfold N3. destruct (0 <? corner_count (i, j, k) l)%nat; rewrite ?HI; auto. }
      { eapply holds_ext; [exact H3|]. intros l _. unfold N3, corner_count.
        rewrite (Z.eqb_sym i l), (Z.eqb_sym j l), (Z.eqb_sym k l).
        destruct (Z.eqb l k), (Z.eqb l j), (Z.eqb l i); cbn; rewrite ?HI; reflexivity. }
      exists vs', N'. split; [exact E'|]. split; [exact H'|]. split; intros l Hl.
      + destruct (touched_dec fs l) as [W|W].
        * rewrite T by auto. unfold N3. destruct (0 <? corner_count (i, j, k) l)%nat; rewrite ?HI; auto.
        * rewrite U by auto. destruct Hl as (f & [<-|If] & Hf); [|destruct W; exists f; auto].
          unfold N3. apply Nat.ltb_lt in Hf. now rewrite Hf.
      + assert (~ touched fs l) as W by (intros (f & If & Hf); apply Hl; exists f; cbn; auto).
        rewrite U by auto. unfold N3. destruct (Nat.ltb_spec 0 (corner_count (i, j, k) l)) as [L|L]; auto.
        destruct Hl. exists (i, j, k). cbn [In]. auto.
  Qed.

  (** the shading normal of point [i] *)
  Definition shading (fs : list face3) (N : Z -> vec xr) : Prop :=
    forall i, in_range ps i ->
      (~ touched fs i -> N i = xv zero3) /\
      (touched fs i -> normal_sum ps fs i <> zero3 -> N i = xv (unit_of (normal_sum ps fs i))) /\
      (touched fs i -> normal_sum ps fs i = zero3 -> N i = nanv).

  Lemma normal_sum_untouched fs i : ~ touched fs i -> normal_sum ps fs i = zero3.
  Proof.
    induction fs as [|f fs IH]; intros H; [reflexivity|]. cbn [normal_sum]. rewrite IH.
    - destruct (corner_count f i) eqn:E; [|exfalso; apply H; exists f; cbn; split; auto; lia].
      cbn [INR]. unfold plus3, scal3, zero3. cbn [vx vy vz]. f_equal; ring.
    - intros (g & Ig & Hg). apply H. exists g; cbn; auto.
  Qed.

  Theorem calcNormals_ok fs vs : (forall f, In f fs -> face_in_range ps f) -> holds vs (fun _ => xv zero3) ->
    exists vs' N, calcNormals fs vs = Val vs' /\ holds vs' N /\ shading fs N.
  Proof.
    intros HR H0. unfold calcNormals.
    destruct (sumNormals_ok fs vs (fun _ => zero3) HR H0) as (v1 & -> & H1). cbn [obind].
    set (S := fun i => normal_sum ps fs i).
    assert (holds v1 (fun i => xv (S i))) as H1'.
    { eapply holds_ext; [exact H1|]. intros i _. f_equal. unfold S. destruct (normal_sum ps fs i) as [x y z].
      unfold plus3, zero3. cbn [vx vy vz]. now rewrite !Rplus_0_l. }
    destruct (normalizeAll_ok fs v1 _ HR (fun i => vnormalized_twice (S i)) H1') as (v2 & N & -> & H2 & T & U).
    exists v2, N. split; auto. split; auto. intros i Hi. split; [|split]; intros W.
    - rewrite U by auto. unfold S. now rewrite normal_sum_untouched.
    - intros Z. rewrite T by auto. apply vnormalized_xv, norm2_nonzero, Z.
    - intros Z. rewrite T by auto. unfold S. rewrite Z. apply vnormalized_zero.
  Qed.

  Definition faceAt (N : Z -> vec xr) {M} (f : face3) : object xr M :=
    let '(i, j, k) := f in
    let w l := Vertex (xv (corner ps l)) (N l) (XF (fst (nth (Z.to_nat l) uv (0, 0)))) (XF (snd (nth (Z.to_nat l) uv (0, 0)))) in
    face (w i) (w j) (w k).
  Lemma facesOf_ok {M} fs vs N : (forall f, In f fs -> face_in_range ps f) -> holds vs N ->
    facesOf (M := M) fs vs = Val (map (faceAt N) fs).
  Proof.
    intros HR H. induction fs as [|[[i j] k] fs IH]; [reflexivity|]. cbn [facesOf map].
    destruct (HR (i, j, k)) as (Hi & Hj & Hk); [now left|].
    rewrite (holds_get _ _ _ H Hi), (holds_get _ _ _ H Hj), (holds_get _ _ _ H Hk). cbn [obind].
    rewrite IH by (intros f If; apply HR; now right). reflexivity.
  Qed.
End Normals.

Lemma meshVertices_ok : forall (ps : list pt) (uv : list (R * R)), length uv = length ps ->
  exists vs, meshVertices (map xv ps) (Some (map xuv uv)) = Val vs /\ holds ps uv vs (fun _ => xv zero3).
Proof.
  induction ps as [|p ps IH]; intros [|[u v] uv] L; cbn [length] in L; try lia.
  - exists nil. split; [reflexivity|]. split; auto. intros i [H1 H2]. cbn in H2. lia.
  - destruct (IH uv) as (vs & E & [Lv H]); [lia|]. cbn [map meshVertices xuv fst snd]. rewrite E. cbn [omap].
    eexists. split; [reflexivity|]. split; [cbn [length]; lia|]. intros i [H1 H2]. cbn [length] in H2.
    unfold corner. destruct (Z.to_nat i) as [|n] eqn:En; [reflexivity|].
    cbn [nth_error nth]. specialize (H (Z.of_nat n)). unfold corner in H. rewrite Nat2Z.id in H. apply H. split; lia.
Qed.
Lemma meshVertices_none : forall (ps : list pt),
  exists vs, meshVertices (map xv ps) None = Val vs /\ holds ps (map (fun _ => (0, 0)) ps) vs (fun _ => xv zero3).
Proof.
  induction ps as [|p ps (vs & E & [Lv H])].
  - exists nil. split; [reflexivity|]. split; auto. intros i [H1 H2]. cbn in H2. lia.
  - cbn [map meshVertices]. rewrite E. cbn [omap].
    eexists. split; [reflexivity|]. split; [cbn [length]; lia|]. intros i [H1 H2]. cbn [length] in H2.
    unfold corner. destruct (Z.to_nat i) as [|n] eqn:En; [reflexivity|].
    cbn [nth_error nth]. specialize (H (Z.of_nat n)). unfold corner in H. rewrite Nat2Z.id in H. apply H. split; lia.
Qed.

Section MeshTree.
  Context {M : Type}.
  Variable sortSlice : (object xr M -> object xr M -> bool) -> list (object xr M) -> list (object xr M).

  Lemma meshWithUV_faces (ps : list pt) (uv : list (R * R)) fs (m : option M) : length uv = length ps ->
    (forall f, In f fs -> face_in_range ps f) ->
    exists N, shading ps fs N /\
      meshWithUV (fun x => x) sortSlice m (map xv ps) fs (Some (map xuv uv)) =
      omap (withMaterial m) (tree (fun x => x) sortSlice (map (faceAt ps uv N) fs)).
  Proof.
    intros L HR. unfold meshWithUV, mesh. destruct (meshVertices_ok ps uv L) as (vs & -> & H). cbn [obind].
    rewrite (facesOf_ok ps uv fs vs _ HR H). cbn [obind].
    destruct (calcNormals_ok ps uv fs vs HR H) as (vs' & N & -> & H' & SN). cbn [obind].
    rewrite (facesOf_ok ps uv fs vs' _ HR H'). cbn [obind]. exists N. split; [exact SN|reflexivity].
  Qed.
End MeshTree.
