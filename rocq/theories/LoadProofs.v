(** * Mesh files as objects *)
From Coq Require Import ZArith Reals Bool List Lra Lia Permutation.
From Verif Require Import Num NumLaws Outcome GeomModel GeomSpec GeomProofs ObjModel TreeModel ObjSpec ObjProofs BoxProofs PrimProofs
  TreeProofs TransfProofs MeshSpec MeshProofs MeshHits ShapeProofs LoadSpec NestProofs ParseModel ParseSpec ParseProofs.
Import ListNotations.
Local Open Scope R_scope.

Notation id32 := (fun x : xr => x).

(** ** One mesh *)
Section Mesh.
  Context {M : Type}.
  Variable sortSlice : (object xr M -> object xr M -> bool) -> list (object xr M) -> list (object xr M).
  Hypothesis SP : reorders sortSlice.

  Definition noUV (ps : list pt) : list (R * R) := map (fun _ => (0, 0)) ps.
  Lemma noUV_nth ps n : nth n (noUV ps) (0, 0) = (0, 0).
  Proof. revert n. induction ps as [|p ps IH]; intros [|n]; cbn; auto. Qed.

  Lemma meshNoUV_faces (ps : list pt) fs (m : option M) :
    (forall f, In f fs -> face_in_range ps f) ->
    exists N, shading ps fs N /\
      meshNoUV id32 sortSlice m (map xv ps) fs = omap (withMaterial m) (tree id32 sortSlice (map (faceAt ps (noUV ps) N) fs)).
  Proof.
    intros HR. unfold meshNoUV, meshWithUV, mesh. destruct (meshVertices_none ps) as (vs & -> & H). cbn [obind].
    rewrite (facesOf_ok ps (noUV ps) fs vs _ HR H). cbn [obind].
    destruct (calcNormals_ok ps (noUV ps) fs vs HR H) as (vs' & N & -> & H' & SN). cbn [obind].
    rewrite (facesOf_ok ps (noUV ps) fs vs' _ HR H'). cbn [obind]. exists N. split; [exact SN|reflexivity].
  Qed.

  Theorem mesh_near (m : option M) (ps : list pt) (fs : list face3) (s d : pt) :
    fs <> nil -> (forall f, In f fs -> face_in_range ps f) ->
    general_position ps fs d -> start_off ps s -> (forall t, 0 < t -> on_mesh ps fs (along s d t) -> t < horizon) ->
    exists o h, meshNoUV id32 sortSlice m (map xv ps) fs = Val o /\ near_boxed s d o /\
      oIntersect o (xray s d) = Val (h, xray s d) /\
      (file_hit ps fs m s d h \/
       ((forall t, 0 < t -> ~ on_mesh ps fs (along s d t)) /\ (hT h = XF 0 \/ (hT h = XF horizon /\ (length fs <= 7)%nat)))).
  Proof.
    intros Hne HR HG SO HB. destruct (meshNoUV_faces ps fs m HR) as (N & SN & E).
    pose proof (general_dir _ _ _ Hne HG) as Hd.
    destruct (fat_hits (M := M) ps (noUV ps) N s d fs HG) as (hits & HO & A & B).
    assert (map (faceAt (M := M) ps (noUV ps) N) fs <> nil) as Hne' by (destruct fs; [congruence|discriminate]).
    assert (W : forall o, In o (map (faceAt (M := M) ps (noUV ps) N) fs) -> near_boxed s d o).
    { intros o Ho. apply in_map_iff in Ho. destruct Ho as (f & <- & If). apply well_boxed_near. eapply fat_well_boxed; eauto. }
    destruct (tree_near sortSlice SP s d _ Hne' Hd W hits HO) as (o & h & Et & NB & Eh & _).
    destruct (mesh_tree_exact sortSlice SP ps (noUV ps) N s d fs Hne HR HG SO Hd HB) as (o' & h' & Et' & Eh' & D).
    rewrite Et in Et'. injection Et' as <-. rewrite Eh in Eh'. injection Eh' as <-.
    rewrite E, Et. cbn [omap]. exists (withMaterial m o). eexists. split; [reflexivity|]. split.
    { destruct NB as (lo & hi & Eb & OR & OP & RB). exists lo, hi. split; [exact Eb|]. split; [exact OR|]. split; [exact OP|].
      intros h0 r0 E0. cbn [withMaterial oIntersect] in E0. rewrite Eh in E0. cbn [omap] in E0. injection E0 as <- _. cbn [hT].
      apply (RB h (xray s d) Eh). }
    cbn [withMaterial oIntersect]. rewrite Eh. cbn [omap].
    split; [reflexivity|]. destruct D as [(f & t & w0 & w1 & w2 & If & T & IF & NM & ->)|(NH & D)].
    - left. exists f, t, w0, w1, w2. cbn [hT hMat hLocal hNormal]. repeat (split; [assumption|]).
      split; [destruct f as [[i j] k]; reflexivity|]. split; [reflexivity|]. split.
      { destruct f as [[i j] k]. unfold faceHit, uAt, vAt, blend. cbn [hLocal]. rewrite !noUV_nth. cbn [fst snd].
        unfold xv, zero3. cbn [vx vy vz]. f_equal; f_equal; ring. }
      intros HZ. rewrite <- (blend_normals ps fs N f w0 w1 w2 SN If (HR f If) HZ). destruct f as [[i j] k]. reflexivity.
    - right. split; auto. cbn [hT]. destruct D as [->|[-> D]]; [left|right]; auto.
  Qed.
End Mesh.

(** ** Transforms *)
Lemma composeLR_xaff ts : composeLR (map xaff ts) = xaff (composeLR ts).
Proof.
  unfold composeLR. change (unitTransform (F := xr)) with (xaff unitTransform). generalize (unitTransform (F := R)) as t0.
  induction ts as [|t ts IH]; intros t0; cbn [map fold_left]; [reflexivity|]. now rewrite xbefore, IH.
Qed.
Lemma placed_moved ts vs : placed (map xaff ts) (map xv vs) = map xv (map (moved ts) vs).
Proof.
  unfold placed. destruct ts as [|t ts]; [cbn [map moved fold_left]; now rewrite map_id|]. cbn [map].
  change (xaff t :: map xaff ts) with (map xaff (t :: ts)). rewrite composeLR_xaff, !map_map.
  apply map_ext. intros p. rewrite xpoint, composeLR_point. reflexivity.
Qed.

Lemma placed_length {F} {NF : Num F} (ts : list (affine F)) vs : length (placed ts vs) = length vs.
Proof. unfold placed. destruct ts; [reflexivity|]. apply map_length. Qed.

(** ** Indices out of range *)
Section Bad.
  Context {F : Type} {NF : Num F} {NI : NumInf F} {M : Type}.
  Variable to32 : F -> F.
  Variable sortSlice : (object F M -> object F M -> bool) -> list (object F M) -> list (object F M).

  Lemma getZ_range {A} (l : list A) i : (in_range l i /\ exists a, getZ l i = Val a) \/ (~ in_range l i /\ getZ l i = Panic).
  Proof.
    unfold getZ, in_range. destruct (Z.ltb_spec i 0) as [H|H]; [right; split; [lia|reflexivity]|].
    destruct (nth_error l (Z.to_nat i)) as [a|] eqn:E.
    - left. split; [|eauto]. assert (Z.to_nat i < length l)%nat by (apply nth_error_Some; congruence). lia.
    - right. split; [|reflexivity]. apply nth_error_None in E. lia.
  Qed.
  Lemma facesOf_bad fs (vs : list (vertex F)) f : In f fs -> ~ face_in_range vs f -> facesOf (M := M) fs vs = Panic.
  Proof.
    intros I B. induction fs as [|[[i j] k] fs IH]; [destruct I|]. cbn [facesOf].
    destruct (getZ_range vs i) as [[Ri (a & ->)]|[_ ->]]; [cbn [obind]|reflexivity].
    destruct (getZ_range vs j) as [[Rj (b & ->)]|[_ ->]]; [cbn [obind]|reflexivity].
    destruct (getZ_range vs k) as [[Rk (c & ->)]|[_ ->]]; [cbn [obind]|reflexivity].
    destruct I as [<-|I]; [destruct B; cbn; auto|]. rewrite (IH I). reflexivity.
  Qed.
  Lemma meshVertices_plain (ps : list (vec F)) : exists vs, meshVertices ps None = Val vs /\ length vs = length ps.
  Proof.
    induction ps as [|p ps (vs & E & L)]; cbn [meshVertices]; [exists nil; auto|]. rewrite E. cbn [omap]. eexists. split; [reflexivity|]. cbn [length]. lia.
  Qed.
  Lemma mesh_bad m ps fs f : In f fs -> ~ face_in_range ps f -> meshNoUV to32 sortSlice m ps fs = Panic.
  Proof.
    intros I B. unfold meshNoUV, meshWithUV. destruct (meshVertices_plain ps) as (vs & -> & L). cbn [obind].
    rewrite (facesOf_bad fs vs f I); [reflexivity|]. destruct f as [[i j] k]. unfold face_in_range, in_range in *. rewrite L. exact B.
  Qed.
  Lemma mesh_empty m ps : meshNoUV to32 sortSlice m ps nil = Panic.
  Proof.
    unfold meshNoUV, meshWithUV. destruct (meshVertices_plain ps) as (vs & -> & L). reflexivity.
  Qed.

  Lemma splitFaces_triangles fs : (forall f, In f fs -> (3 <= length f <= 4)%nat) -> splitFaces fs = Val (triangles fs).
  Proof.
    induction fs as [|f fs IH]; intros H; [reflexivity|].
    assert (E : splitFaces fs = Val (triangles fs)) by (apply IH; intros g Ig; apply H; now right).
    specialize (H f (or_introl eq_refl)). destruct f as [|a [|b [|c [|d [|e f]]]]]; cbn [length] in H; try lia;
      cbn [splitFaces]; rewrite E; reflexivity.
  Qed.

  Variables parseFloat64 parseFloat32 : text -> option F.
  Variable fits : Z -> bool.

  Lemma plyFile_load m t transf nv nf vs fs : ply_file parseFloat64 t nv nf vs fs -> enough fits nv -> enough fits nf ->
    plyFile to32 sortSlice parseFloat64 fits m t transf = Loaded (meshNoUV to32 sortSlice m (placed transf vs) fs).
  Proof.
    intros H A B. unfold plyFile. assert (E : plyParse parseFloat64 fits t = POk (vs, fs)) by (apply plyParse_exact; eauto). now rewrite E.
  Qed.
  Theorem plyFile_bad_index m t transf nv nf vs fs f : ply_file parseFloat64 t nv nf vs fs -> enough fits nv -> enough fits nf ->
    In f fs -> ~ face_in_range vs f -> plyFile to32 sortSlice parseFloat64 fits m t transf = Loaded Panic.
  Proof.
    intros H A B I R. rewrite (plyFile_load m t transf nv nf vs fs H A B). f_equal. apply mesh_bad with (f := f); [exact I|].
    destruct f as [[i j] k]. unfold face_in_range, in_range in *. rewrite placed_length. exact R.
  Qed.
  Theorem plyFile_empty m t transf nv nf vs : ply_file parseFloat64 t nv nf vs nil -> enough fits nv -> enough fits nf ->
    plyFile to32 sortSlice parseFloat64 fits m t transf = Loaded Panic.
  Proof. intros H A B. rewrite (plyFile_load m t transf nv nf vs nil H A B). f_equal. apply mesh_empty. Qed.
  Theorem plyFile_malformed m t transf : (forall n, fits n = true) -> (forall nv nf vs fs, ~ ply_file parseFloat64 t nv nf vs fs) ->
    plyFile to32 sortSlice parseFloat64 fits m t transf = Fatal.
  Proof. intros A B. unfold plyFile. now rewrite plyParse_malformed. Qed.

  (** OBJ: what is shown has only defined materials and existing vertices *)
  Lemma objMeshes_val mats vs entries os : objMeshes to32 sortSlice mats vs entries = Some (Val os) ->
    forall name faces, In (name, faces) entries -> exists m fs o, mats name = Some m /\ splitFaces faces = Val fs /\
      meshNoUV to32 sortSlice m vs fs = Val o.
  Proof.
    revert os. induction entries as [|[n0 f0] entries IH]; intros os E name faces I; [destruct I|]. cbn [objMeshes] in E.
    destruct (mats n0) as [m|] eqn:Em; [|discriminate].
    destruct (splitFaces f0) as [fs| |] eqn:Es; cbn [obind] in E; try discriminate.
    destruct (meshNoUV to32 sortSlice m vs fs) as [o| |] eqn:Eo; try discriminate.
    destruct (objMeshes to32 sortSlice mats vs entries) as [[os'| |]|] eqn:Er; cbn [omap] in E; try discriminate.
    destruct I as [[= <- <-]|I]; [eauto 6|]. eapply IH; eauto.
  Qed.

  Lemma Forall2_len {A B} (P : A -> B -> Prop) l l' : Forall2 P l l' -> length l = length l'.
  Proof. induction 1; cbn; congruence. Qed.
  Lemma obj_faces_length (number : text -> option F) ls es : Forall2 (obj_line number) ls es ->
    forall m cur f, In f (obj_faces m cur es) -> (3 <= length f <= 4)%nat.
  Proof.
    induction 1 as [|l e ls es He _ IH]; intros m cur f I; [destruct I|]. cbn [obj_faces] in I. destruct e as [|v|g|m']; eauto.
    destruct (list_eq_dec Z.eq_dec cur m); [|eauto]. destruct I as [<-|I]; [|eauto].
    inversion He as [| | |ws is W L R|]; subst. rewrite <- (Forall2_len _ _ _ R). exact L.
  Qed.

  Theorem objFile_shown order mats t transf es o : (forall l, Permutation (order l) l) -> obj_file parseFloat32 t es ->
    objFile to32 sortSlice parseFloat32 order mats t transf = Loaded (Val o) ->
    forall name, obj_faces name nil es <> nil ->
      (exists m, mats name = Some m) /\
      forall f, In f (triangles (obj_faces name nil es)) -> face_in_range (obj_vertices es) f.
  Proof.
    intros PO HF E name Hn. destruct (objParse_complete parseFloat32 t es HF) as (tbl & Et & D & T).
    unfold objFile in E. rewrite Et in E.
    destruct (objMeshes to32 sortSlice mats (placed transf (obj_vertices es)) (order tbl)) as [[os| |]|] eqn:Em; try discriminate.
    assert (I : In (name, obj_faces name nil es) (order tbl)).
    { eapply Permutation_in; [apply Permutation_sym, PO|]. apply T. auto. }
    destruct (objMeshes_val _ _ _ _ Em _ _ I) as (m & fs & o' & Ema & Es & Eo). split; [eauto|].
    intros f If. destruct HF as (ls & _ & _ & HL).
    rewrite splitFaces_triangles in Es by (intros g Ig; eapply obj_faces_length; eauto). injection Es as <-.
    assert (Dec : face_in_range (obj_vertices es) f \/ ~ face_in_range (obj_vertices es) f).
    { destruct f as [[i j] k]. unfold face_in_range, in_range. lia. }
    destruct Dec as [R|R]; [exact R|]. exfalso. rewrite (mesh_bad m _ _ f If) in Eo; [discriminate|].
    destruct f as [[i j] k]. unfold face_in_range, in_range in *. rewrite placed_length. exact R.
  Qed.
  Theorem objFile_malformed order mats t transf : (forall es, ~ obj_file parseFloat32 t es) ->
    objFile to32 sortSlice parseFloat32 order mats t transf = Fatal.
  Proof. intros A. unfold objFile. now rewrite objParse_malformed. Qed.
End Bad.

(** ** What mesh files show *)
Section Shown.
  Context {M : Type}.
  Variable sortSlice : (object xr M -> object xr M -> bool) -> list (object xr M) -> list (object xr M).
  Hypothesis SP : reorders sortSlice.
  Variables parseFloat64 parseFloat32 : text -> option xr.
  Variable fits : Z -> bool.

  Theorem plyFile_exact (m : option M) t (transf : list (affine R)) nv nf (vs : list pt) (fs : list face3) (s d : pt) :
    ply_file parseFloat64 t nv nf (map xv vs) fs -> enough fits nv -> enough fits nf ->
    let ps := map (moved transf) vs in
    fs <> nil -> (forall f, In f fs -> face_in_range ps f) ->
    general_position ps fs d -> start_off ps s -> (forall t, 0 < t -> on_mesh ps fs (along s d t) -> t < horizon) ->
    exists o h, plyFile id32 sortSlice parseFloat64 fits m t (map xaff transf) = Loaded (Val o) /\
      oIntersect o (xray s d) = Val (h, xray s d) /\
      (file_hit ps fs m s d h \/
       ((forall t, 0 < t -> ~ on_mesh ps fs (along s d t)) /\ (hT h = XF 0 \/ (hT h = XF horizon /\ (length fs <= 7)%nat)))).
  Proof.
    intros H A B ps Hne HR HG SO HB. destruct (mesh_near sortSlice SP m ps fs s d Hne HR HG SO HB) as (o & h & E & _ & Eh & D).
    exists o, h. split; [|auto]. rewrite (plyFile_load id32 sortSlice parseFloat64 fits m t (map xaff transf) nv nf _ fs H A B).
    f_equal. rewrite placed_moved. exact E.
  Qed.

  Variable mats : text -> option (option M).

  Lemma objMeshes_exact ps (s d : pt) (entries : list (text * list (list Z))) (G : text -> list face3) :
    start_off ps s ->
    (forall name faces, In (name, faces) entries ->
       (exists m, mats name = Some m) /\ splitFaces faces = Val (G name) /\ G name <> nil /\
       (forall f, In f (G name) -> face_in_range ps f) /\ general_position ps (G name) d /\
       (forall t, 0 < t -> on_mesh ps (G name) (along s d t) -> t < horizon)) ->
    exists os hits, objMeshes id32 sortSlice mats (map xv ps) entries = Some (Val os) /\ length os = length entries /\
      (forall o, In o os -> near_boxed s d o) /\ hits_of os (xray s d) hits /\
      Forall2 (fun e h => exists m, mats (fst e) = Some m /\
        (file_hit ps (G (fst e)) m s d h \/
         ((forall t, 0 < t -> ~ on_mesh ps (G (fst e)) (along s d t)) /\ (hT h = XF 0 \/ hT h = XF horizon)))) entries hits.
  Proof.
    intros SO. induction entries as [|[name faces] entries IH]; intros H.
    - exists nil, nil. repeat split; try constructor. intros o [].
    - destruct IH as (os & hits & E & L & W & HO & FH); [intros; apply H; now right|].
      destruct (H name faces (or_introl eq_refl)) as ((m & Em) & Es & Hne & HR & HG & HB).
      destruct (mesh_near sortSlice SP m ps (G name) s d Hne HR HG SO HB) as (o & h & Eo & NB & Eh & D).
      exists (o :: os), (h :: hits). cbn [objMeshes]. rewrite Em, Es. cbn [obind]. rewrite Eo, E. cbn [omap].
      split; [reflexivity|]. split; [cbn [length]; lia|]. split; [intros o' [<-|I]; auto|]. split; [constructor; auto|].
      constructor; [|exact FH]. exists m. cbn [fst]. split; [exact Em|]. destruct D as [D|[D1 [D2|[D2 _]]]]; auto.
  Qed.

  Theorem objFile_exact order t (transf : list (affine R)) (es : list (effect xr)) (vs : list pt) (s d : pt) :
    (forall l, Permutation (order l) l) -> obj_file parseFloat32 t es -> obj_vertices es = map xv vs ->
    let ps := map (moved transf) vs in
    let fs name := triangles (obj_faces name nil es) in
    (exists name, obj_faces name nil es <> nil) ->
    (forall name, obj_faces name nil es <> nil -> exists m, mats name = Some m) ->
    (forall name f, In f (fs name) -> face_in_range ps f) ->
    (forall name, general_position ps (fs name) d) -> start_off ps s ->
    (forall name t, 0 < t -> on_mesh ps (fs name) (along s d t) -> t < horizon) ->
    exists o h, objFile id32 sortSlice parseFloat32 order mats t (map xaff transf) = Loaded (Val o) /\
      oIntersect o (xray s d) = Val (h, xray s d) /\
      ((exists name m, mats name = Some m /\ file_hit ps (fs name) m s d h /\
          forall name' t', 0 < t' -> on_mesh ps (fs name') (along s d t') -> nleb (hT h) (XF t') = true) \/
       ((forall name t, 0 < t -> ~ on_mesh ps (fs name) (along s d t)) /\ (hT h = XF 0 \/ hT h = XF horizon))).
  Proof.
    intros PO HF EV ps fs (name0 & Hn0) HM HR HG SO HB. destruct (objParse_complete parseFloat32 t es HF) as (tbl & Et & D & T).
    destruct HF as (ls & _ & _ & HL).
    assert (IT : forall e, In e (order tbl) <-> In e tbl).
    { intros e. split; intros I; eapply Permutation_in; [apply PO|exact I|apply Permutation_sym, PO|exact I]. }
    assert (LF : forall name g, In g (obj_faces name nil es) -> (3 <= length g <= 4)%nat)
      by (intros; eapply obj_faces_length; eauto).
    assert (NE : forall name, obj_faces name nil es <> nil -> fs name <> nil).
    { intros name Hn. unfold fs. specialize (LF name). destruct (obj_faces name nil es) as [|g r]; [congruence|].
      specialize (LF g (or_introl eq_refl)). destruct g as [|? [|? [|? [|? [|? ?]]]]]; cbn [length] in LF; try lia; discriminate. }
    destruct (objMeshes_exact ps s d (order tbl) fs SO) as (os & hits & E & L & W & HO & FH).
    { intros name faces I. apply IT, T in I. destruct I as [-> Hn]. split; [exact (HM name Hn)|]. split; [apply splitFaces_triangles; exact (LF name)|].
      split; [exact (NE name Hn)|]. split; [exact (HR name)|]. split; [exact (HG name)|exact (HB name)]. }
    assert (I0 : In (name0, obj_faces name0 nil es) (order tbl)) by (apply IT, T; auto).
    assert (Hne : os <> nil) by (destruct os; [destruct (order tbl); [destruct I0|discriminate]|discriminate]).
    assert (Hd : d <> zero3) by (eapply general_dir; [apply (NE name0 Hn0)|apply HG]).
    destruct (tree_near sortSlice SP s d os Hne Hd W hits HO) as (o & h & ET & _ & Eh & Dh).
    exists o, h. split; [unfold objFile; rewrite Et, EV, placed_moved; fold ps; rewrite E; cbn [obind]; now rewrite ET|].
    split; [exact Eh|].
    (** hits and entries correspond *)
    assert (F1 : forall x, In x hits -> exists name m, mats name = Some m /\
      (file_hit ps (fs name) m s d x \/ ((forall t, 0 < t -> ~ on_mesh ps (fs name) (along s d t)) /\ (hT x = XF 0 \/ hT x = XF horizon)))).
    { intros x Ix. clear -FH Ix. induction FH as [|e y en hs He _ IH]; [destruct Ix|]. destruct Ix as [<-|Ix]; [exists (fst e)|]; auto. }
    assert (F2 : forall name, obj_faces name nil es <> nil -> exists x m, In x hits /\ mats name = Some m /\
      (file_hit ps (fs name) m s d x \/ ((forall t, 0 < t -> ~ on_mesh ps (fs name) (along s d t)) /\ (hT x = XF 0 \/ hT x = XF horizon)))).
    { intros name Hn. assert (I : In (name, obj_faces name nil es) (order tbl)) by (apply IT, T; auto).
      clear -FH I. induction FH as [|e y en hs He _ IH]; [destruct I|]. destruct I as [->|I].
      - destruct He as (m & Em & He). exists y, m. cbn [fst] in *. split; [now left|]. split; auto.
      - destruct (IH I) as (x & m & Ix & Hx). exists x, m. split; [now right|exact Hx]. }
    assert (EM : forall name p, on_mesh ps (fs name) p -> obj_faces name nil es <> nil).
    { intros name p (f & w0 & w1 & w2 & If & _) E0. unfold fs in If. rewrite E0 in If. destruct If. }
    assert (ON : forall name (m : option M) (x : hit xr M), file_hit ps (fs name) m s d x -> exists t, hT x = XF t /\ 0 < t /\ on_mesh ps (fs name) (along s d t) /\
                   forall t', 0 < t' -> on_mesh ps (fs name) (along s d t') -> t <= t').
    { intros name m x (f & t' & w0 & w1 & w2 & If & T' & IF & NM & ET' & _). exists t'. repeat split; auto. exists f, w0, w1, w2. auto. }
    destruct Dh as [(Ih & Ph & Lh & Mi)|(NH & Dh)].
    - left. destruct (F1 h Ih) as (name & m & Em & Hh). exists name, m. split; [exact Em|].
      destruct Hh as [Hh|(_ & [Z0|Z0])].
      + split; [exact Hh|]. intros name' t' T' OM. destruct (F2 name' (EM _ _ OM)) as (x & m' & Ix & _ & Hx).
        destruct Hx as [Hx|(Nx & _)]; [|destruct (Nx t' T' OM)].
        destruct (ON _ _ _ Hx) as (tx & Ex & Px & Ox & Mx). specialize (Mi x Ix).
        assert (Pp : positive x) by (unfold positive; rewrite Ex; cbn; now apply Rltb_true).
        specialize (Mi Pp). eapply nleb_trans; [exact Mi|]. rewrite Ex. specialize (Mx t' T' OM). cbn [nleb NumX]. apply xle_XF. exact Mx.
      + exfalso. unfold positive in Ph. rewrite Z0 in Ph. cbn in Ph. rewrite Rltb_irrefl in Ph. discriminate.
      + exfalso. rewrite Z0 in Lh. cbn [nltb NumX xltb] in Lh. rewrite Rltb_irrefl in Lh. discriminate.
    - right. split; [|destruct Dh as [->|[-> _]]; auto].
      intros name t' T' OM. destruct (F2 name (EM _ _ OM)) as (x & m' & Ix & _ & Hx).
      destruct Hx as [Hx|(Nx & _)]; [|destruct (Nx t' T' OM)].
      destruct (ON _ _ _ Hx) as (tx & Ex & Px & Ox & Mx).
      assert (Pp : positive x) by (unfold positive; rewrite Ex; cbn; now apply Rltb_true).
      specialize (NH x Ix Pp). rewrite Ex in NH. cbn [nltb NumX xltb] in NH.
      assert (tx < horizon) by (eapply HB; eauto). apply Rltb_true in H. congruence.
  Qed.
End Shown.
