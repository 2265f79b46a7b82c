(** * Shading normals of meshes *)
From Coq Require Import ZArith Reals Bool List Permutation Lra Lia.
From Verif Require Import Num NumLaws Outcome B64 GeomModel GeomSpec ObjModel TreeModel ObjSpec MeshSpec MeshProofs MeshHits ShapeProofs ObjFacts.
Import ListNotations.
Local Open Scope R_scope.

Lemma shading_normals (ps : list pt) (fs : list face3) : (forall f, In f fs -> face_in_range ps f) ->
  exists vs, obind (meshVertices (map xv ps) None) (calcNormals fs) = Val vs /\ length vs = length ps /\
    forall i, in_range ps i -> exists v, nth_error vs (Z.to_nat i) = Some v /\ vtPos v = xv (corner ps i) /\
      (touched fs i -> normal_sum ps fs i <> zero3 -> vtNormal v = xv (unit_of (normal_sum ps fs i))).
Proof.
  intros HR. destruct (meshVertices_none ps) as (vs & -> & H0). cbn [obind].
  destruct (calcNormals_ok ps _ fs vs HR H0) as (vs' & N & E & (L & H) & S). exists vs'. split; [exact E|]. split; [exact L|].
  intros i Hi. eexists. split; [apply H, Hi|]. split; [reflexivity|]. cbn [vtNormal]. intros T Z. now apply (S i Hi).
Qed.

Lemma dot3_plus e p q : dot3 e (plus3 p q) = dot3 e p + dot3 e q.
Proof. destruct e as [a b c], p as [x y z], q as [u v w]. unfold dot3, plus3. cbn [vx vy vz]. ring. Qed.
Lemma dot3_scal e k p : dot3 e (scal3 k p) = k * dot3 e p.
Proof. destruct e as [a b c], p as [x y z]. unfold dot3, scal3. cbn [vx vy vz]. ring. Qed.

(** faces that all look to the same side have a normal that does *)
Lemma normal_sum_side (ps : list pt) (fs : list face3) e i : touched fs i ->
  (forall f, In f fs -> (0 < corner_count f i)%nat -> 0 < dot3 e (area_normal ps f)) ->
  0 < dot3 e (normal_sum ps fs i).
Proof.
  intros T H.
  assert (forall f, In f fs -> (0 < corner_count f i)%nat -> 0 < dot3 e (unit_normal ps f)) as HU.
  { intros f If Hf. specialize (H f If Hf). unfold unit_normal.
    destruct (Req_EM_T (norm2 (area_normal ps f)) 0) as [Z|Z].
    - apply norm2_zero in Z. rewrite Z in H. unfold dot3, zero3 in H. cbn in H. lra.
    - unfold unit_of. rewrite dot3_scal. apply Rmult_lt_0_compat; [|exact H].
      generalize (norm_pos _ Z). intros P. apply Rinv_0_lt_compat in P. try (unfold Rdiv; rewrite Rmult_1_l); auto. }
  clear H. revert T HU. induction fs as [|f fs IH]; intros T HU; [destruct T as (f & [] & _)|].
  cbn [normal_sum]. rewrite dot3_plus, dot3_scal.
  assert (0 <= dot3 e (normal_sum ps fs i)) as P.
  { destruct (touched_dec fs i) as [T'|T'].
    - left. apply IH; auto. intros g Ig. apply HU. now right.
    - right. rewrite (normal_sum_untouched ps fs i T'). unfold dot3, zero3. cbn. ring. }
  destruct (corner_count f i) as [|c] eqn:E.
  - destruct T as (g & [<-|Ig] & Hg); [lia|]. cbn [INR]. rewrite Rmult_0_l, Rplus_0_l. apply IH; [exists g; auto|].
    intros g' Ig'. apply HU. now right.
  - assert (0 < dot3 e (unit_normal ps f)) by (apply HU; [now left|lia]).
    assert (0 < INR (S c)) by (apply lt_0_INR; lia). nra.
Qed.

Lemma shading_side (ps : list pt) (fs : list face3) e i v vs : (forall f, In f fs -> face_in_range ps f) ->
  touched fs i -> (forall f, In f fs -> (0 < corner_count f i)%nat -> 0 < dot3 e (area_normal ps f)) ->
  in_range ps i -> obind (meshVertices (map xv ps) None) (calcNormals fs) = Val vs -> nth_error vs (Z.to_nat i) = Some v ->
  exists n, vtNormal v = xv n /\ norm2 n = 1 /\ 0 < dot3 e n.
Proof.
  intros HR T H Hi Ev En. destruct (shading_normals ps fs HR) as (vs' & E' & _ & S). rewrite Ev in E'. injection E' as <-.
  destruct (S i Hi) as (v' & Ev' & _ & N). rewrite En in Ev'. injection Ev' as <-.
  generalize (normal_sum_side ps fs e i T H). intros P.
  assert (norm2 (normal_sum ps fs i) <> 0) as NZ.
  { intros Z. apply norm2_zero in Z. rewrite Z in P. unfold dot3, zero3 in P. cbn in P. lra. }
  exists (unit_of (normal_sum ps fs i)). split; [apply N; auto; intros Z; apply NZ; rewrite Z; unfold norm2, dot3, zero3; cbn; ring|].
  split; [now apply unit_norm2|]. unfold unit_of. rewrite dot3_scal. apply Rmult_lt_0_compat; [|exact P].
  generalize (norm_pos _ NZ). intros Q. apply Rinv_0_lt_compat in Q. try (unfold Rdiv; rewrite Rmult_1_l); auto.
Qed.

(** a triangle with both orientations *)
Definition twoSided : outcome (object b64 unit) :=
  meshNoUV to32b (fun _ l => l) (Some tt) [Vec (nofZ 0) (nofZ 0) (nofZ 0); Vec (nofZ 4) (nofZ 0) (nofZ 0); Vec (nofZ 0) (nofZ 4) (nofZ 0)]
    [(0, 1, 2); (0, 2, 1)]%Z.
Definition twoSidedRay : ray b64 := Ray (Vec (nofZ 1) (nofZ 1) (nofZ 3)) (Vec (nofZ 0) (nofZ 0) (nofZ (-1))).
Definition seenTest {F} {NF : Num F} {M} (x : outcome (object F M)) (r : ray F) (test : hit F M -> bool) : bool :=
  match obind x (fun o => oIntersect o r) with Val (h, _) => test h | _ => false end.
Lemma seen_split {F} {NF : Num F} {M} (x : outcome (object F M)) (r : ray F) (test : hit F M -> bool) :
  seenTest x r test = true -> exists o h r', x = Val o /\ oIntersect o r = Val (h, r') /\ test h = true.
Proof.
  unfold seenTest. destruct x as [o| |]; cbn [obind]; try discriminate.
  destruct (oIntersect o r) as [[h r']| |] eqn:Ei; try discriminate. intros T. exists o, h, r'. auto.
Qed.
Definition nanAt3 (h : hit b64 unit) : bool := (neqb (hT h) (nofZ 3) && vnan (hNormal h))%bool.
Lemma twoSided_nan : seenTest twoSided twoSidedRay nanAt3 = true.
Proof. vm_compute. reflexivity. Qed.
Lemma two_sided_refutes : exists (o : object b64 unit) (r : ray b64) (h : hit b64 unit) (r' : ray b64),
  meshNoUV to32b (fun _ l => l) (Some tt)
    [Vec (nofZ 0) (nofZ 0) (nofZ 0); Vec (nofZ 4) (nofZ 0) (nofZ 0); Vec (nofZ 0) (nofZ 4) (nofZ 0)] [(0, 1, 2); (0, 2, 1)]%Z = Val o /\
  oIntersect o r = Val (h, r') /\ neqb (hT h) (nofZ 3) = true /\ vnan (hNormal h) = true.
Proof.
  destruct (seen_split twoSided twoSidedRay nanAt3 twoSided_nan) as (o & h & r' & E & Ei & T).
  apply andb_prop in T. destruct T as (A & B).
  exists o, twoSidedRay, h, r'. exact (conj E (conj Ei (conj A B))).
Qed.
Lemma cancelling_normals (ps : list pt) (fs : list face3) : (forall f, In f fs -> face_in_range ps f) ->
  exists vs, obind (meshVertices (map xv ps) None) (calcNormals fs) = Val vs /\
    forall i v, in_range ps i -> nth_error vs (Z.to_nat i) = Some v -> touched fs i -> normal_sum ps fs i = zero3 ->
      vtNormal v = Vec XNaN XNaN XNaN.
Proof.
  intros HR. destruct (meshVertices_none ps) as (vs & -> & H0). cbn [obind].
  destruct (calcNormals_ok ps _ fs vs HR H0) as (vs' & N & E & (L & H) & S). exists vs'. split; [exact E|].
  intros i v Hi Ev T Z. rewrite (H i Hi) in Ev. injection Ev as <-. cbn [vtNormal]. now apply (S i Hi).
Qed.
