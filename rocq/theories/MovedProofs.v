(** * Boxes of transformed boxes, and transformed rays, in exact arithmetic *)
From Coq Require Import ZArith Reals Bool List Lra Lia.
From Verif Require Import Num NumLaws Outcome GeomModel GeomSpec GeomProofs ObjModel TreeModel ObjSpec ObjProofs BoxProofs TransfProofs PlaceSpec PlaceProofs.
Import ListNotations.
Local Open Scope R_scope.

(** finite numbers compute alike with and without infinities *)
Lemma hullLoop_finite : forall l mn mx, hullLoop (map xv l) (xv mn) (xv mx) = omap (fun p => (xv (fst p), xv (snd p))) (hullLoop l mn mx).
Proof.
  assert (MN : forall v m, minStep (XF v) (XF m) = XF (minStep v m)) by (intros v m; unfold minStep; cbn; destruct (Rltb v m); reflexivity).
  assert (MX : forall v m, maxStep (XF v) (XF m) = XF (maxStep v m)) by (intros v m; unfold maxStep; cbn; destruct (Rltb m v); reflexivity).
  induction l as [|v l IH]; intros mn mx; cbn [map hullLoop]; [reflexivity|].
  unfold checkNaNVec. cbn [obind nisnan NumX NumR xv vx vy vz orb].
  replace (vmap2 minStep (xv v) (xv mn)) with (xv (vmap2 minStep v mn)) by (unfold vmap2, xv; cbn [vx vy vz]; now rewrite !MN).
  replace (vmap2 maxStep (xv v) (xv mx)) with (xv (vmap2 maxStep v mx)) by (unfold vmap2, xv; cbn [vx vy vz]; now rewrite !MX).
  apply IH.
Qed.

Lemma xv_inj p q : xv p = xv q -> p = q.
Proof. intros H. destruct p, q. unfold xv in H. cbn in H. congruence. Qed.

Theorem moved_box lo hi t : ordered lo hi ->
  transformBounds (BBox lo hi) t =
    Val (BBox (minus3 (transformPoint t (mid lo hi)) (spread (afA t) (half lo hi))) (plus3 (transformPoint t (mid lo hi)) (spread (afA t) (half lo hi)))).
Proof.
  intros O. pose proof (transformBounds_exact lo hi t O) as E. unfold around in E.
  unfold transformBounds, boundingBoxFromHull in *.
  set (L := map (transformPoint t) (bbHull (BBox lo hi))).
  assert (EL : map (transformPoint (xaff t)) (bbHull (xbox lo hi)) = map xv L) by reflexivity. rewrite EL in E. clear EL.
  assert (N : exists h l, L = h :: l) by (unfold L, bbHull; cbn [map]; eauto). destruct N as (h & l & EL). clearbody L. subst L. cbn [map] in E.
  change (xv h :: map xv l) with (map xv (h :: l)) in E. rewrite hullLoop_finite in E.
  destruct (hullLoop (h :: l) h h) as [[mn mx]| |]; cbn [omap obind fst snd] in *; try discriminate E.
  unfold checkNaNVec in *. cbn [obind nisnan NumX NumR xv vx vy vz orb] in *.
  unfold xbox in E. injection E as E1 E2 E3 E4 E5 E6. f_equal. f_equal; apply vec_eq; assumption.
Qed.

Lemma moved_ordered lo hi t : ordered lo hi ->
  ordered (minus3 (transformPoint t (mid lo hi)) (spread (afA t) (half lo hi))) (plus3 (transformPoint t (mid lo hi)) (spread (afA t) (half lo hi))).
Proof.
  intros (O1 & O2 & O3). assert (P : forall k x, 0 <= x -> 0 <= Rabs k * x) by (intros k x X; apply Rmult_le_pos; [apply Rabs_pos|exact X]).
  unfold ordered, minus3, plus3, spread, half, scal3. cbn [vx vy vz].
  assert (X1 : 0 <= 1 / 2 * (vx hi - vx lo)) by lra. assert (X2 : 0 <= 1 / 2 * (vy hi - vy lo)) by lra. assert (X3 : 0 <= 1 / 2 * (vz hi - vz lo)) by lra.
  repeat split; match goal with |- context [Rabs ?a * ?x + Rabs ?b * ?y + Rabs ?c * ?z] => pose proof (P a x X1); pose proof (P b y X2); pose proof (P c z X3) end; lra.
Qed.

Lemma moved_encloses lo hi t p : ordered lo hi -> in_closed_box lo hi p ->
  in_closed_box (minus3 (transformPoint t (mid lo hi)) (spread (afA t) (half lo hi))) (plus3 (transformPoint t (mid lo hi)) (spread (afA t) (half lo hi))) (transformPoint t p).
Proof.
  intros O I. destruct (transformBounds_encloses lo hi t) as (lo' & hi' & E & C). rewrite (transformBounds_exact lo hi t O) in E.
  unfold around, xbox in E.
  assert (A : xv (minus3 (transformPoint t (mid lo hi)) (spread (afA t) (half lo hi))) = xv lo') by congruence.
  assert (B : xv (plus3 (transformPoint t (mid lo hi)) (spread (afA t) (half lo hi))) = xv hi') by congruence.
  apply xv_inj in A. apply xv_inj in B. rewrite A, B. apply C, I.
Qed.

Lemma affine_along (u : affine R) s d k : transformPoint u (along s d k) = along (transformPoint u s) (transformDir u d) k.
Proof. unfold transformPoint, transformDir, along, plus3, scal3, vadd, mmulvec. apply vec_eq; cbn [vx vy vz]; rnum; cbn [vx vy vz]; ring. Qed.
