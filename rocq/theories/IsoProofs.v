(** * Height fields *)
From Coq Require Import ZArith Reals Bool List Lra Lia.
From Verif Require Import Num NumLaws Outcome GeomModel ObjModel TreeModel GeomSpec ObjSpec IsoSpec BoxProofs ParamProofs ShapeProofs DiskProofs MeshProofs CsgProofs.
Import ListNotations.
Local Open Scope R_scope.

(** ** bisection on the extended reals *)
Lemma bisectLoop_lift (g : R -> outcome R) (gx : xr -> outcome xr) : (forall t, gx (XF t) = omap XF (g t)) ->
  forall fuel a b, bisectLoop fuel gx (XF a) (XF b) = omap XF (bisectLoop fuel g a b).
Proof.
  intros H. induction fuel as [|n IH]; intros a b; [reflexivity|]. cbn [bisectLoop].
  assert (T : (isoTol : xr) = XF isoTol) by (unfold isoTol, nQ; cbn [ndiv nofZ NumX NumR]; apply xdiv_XF; apply not_0_IZR; lia).
  assert (E : nltb isoTol (nsub (XF b) (XF a)) = nltb isoTol (nsub b a)) by (rewrite T; reflexivity).
  rewrite E. destruct (nltb isoTol (nsub b a)); [|reflexivity].
  assert (D : ndiv (nadd (XF a) (XF b)) (nofZ 2) = XF (ndiv (nadd a b) (nofZ 2))).
  { cbn [nadd nofZ ndiv NumX NumR xadd]. apply xdiv_XF. lra. }
  rewrite D, H. destruct (g (ndiv (nadd a b) (nofZ 2))) as [v| |]; [|reflexivity|reflexivity]. cbn [omap obind].
  change (nltb (nofZ 0) (XF v)) with (nltb (nofZ 0) v). destruct (nltb (nofZ 0) v); apply IH.
Qed.
Lemma bisect_lift (g : R -> outcome R) (gx : xr -> outcome xr) : (forall t, gx (XF t) = omap XF (g t)) ->
  forall fuel a b, bisect fuel gx (XF a) (XF b) = omap XF (bisect fuel g a b).
Proof.
  intros H fuel a b. unfold bisect. rewrite !H. destruct (g a) as [x| |]; [|reflexivity|reflexivity]. destruct (g b) as [y| |]; [|reflexivity|reflexivity].
  cbn [omap obind]. change (nltb (nofZ 0) (nmul (XF x) (XF y))) with (nltb (nofZ 0) (nmul x y)). destruct (nltb (nofZ 0) (nmul x y)); [reflexivity|].
  cbn [obind]. change (nltb (nofZ 0) (XF x)) with (nltb (nofZ 0) x). destruct (nltb (nofZ 0) x); now apply bisectLoop_lift.
Qed.

Lemma nQ_xr a b : (0 < b)%Z -> (nQ a b : xr) = XF (IZR a / IZR b).
Proof. intros H. unfold nQ. cbn [ndiv nofZ NumX]. apply xdiv_XF. apply not_0_IZR. lia. Qed.

Section Iso.
  Context {M : Type} (m : option M) (dx dy dz : R) (f : R -> R -> R) (g : xr -> xr -> xr).
  Hypothesis Hx : 0 < dx.
  Hypothesis Hy : 0 < dy.
  Hypothesis Hz : 0 < dz.
  Hypothesis Hg : lifts f g.
  Notation iso fuel := (isoSurface m (XF dx) (XF dy) (XF dz) g fuel).
  Notation elev := (elevation dx dy dz f).

  Lemma uv_xr p : isoUV (XF dx) (XF dz) (xv p) = (XF (vx p / dx), XF (vz p / dz)).
  Proof. unfold isoUV, xv. cbn [vx vy vz ndiv NumX]. now rewrite !xdiv_XF by lra. Qed.

  Lemma height_xr u v : isoHeightUV (XF dy) g (XF u) (XF v) =
    if (Rltb (f u v) (-1 / 1024) || Rltb (1025 / 1024) (f u v))%bool then Panic else Val (XF (dy * f u v)).
  Proof.
    unfold isoHeightUV. cbv zeta. rewrite !Hg, !nQ_xr by reflexivity. cbn [nltb NumX xltb nmul xmul].
    destruct (_ || _)%bool; reflexivity.
  Qed.
  Lemma height_ok u v : 0 <= f u v <= 1 -> isoHeightUV (XF dy) g (XF u) (XF v) = Val (XF (dy * f u v)).
  Proof. intros H. rewrite height_xr. rewrite !(proj2 (Rltb_false _ _)) by lra. reflexivity. Qed.

  Lemma value_xr p : unit_heights f -> isoValueAt (XF dx) (XF dy) (XF dz) g (xv p) = Val (XF (elev p)).
  Proof. intros H. unfold isoValueAt, isoHeightAt. rewrite uv_xr, height_ok by apply H. reflexivity. Qed.

  Lemma normal_xr u v : unit_heights f -> isoNormalUV (XF dy) g (XF u) (XF v) =
    Val (xv (Vec (- slope dy (fun u => f u v) u) 1 (- slope dy (fun v => f u v) v))).
  Proof.
    intros H. unfold isoNormalUV. rewrite !nQ_xr by reflexivity. cbn [nadd nsub NumX xadd xsub xopp].
    change (u + - (1 / 8192)) with (u - 1 / 8192). change (v + - (1 / 8192)) with (v - 1 / 8192).
    rewrite !height_ok by apply H. cbn [obind]. unfold xv, slope. cbn [vx vy vz nopp nmul nofZ NumX xopp xmul nsub xsub xadd].
    do 3 f_equal; f_equal; lra.
  Qed.

  Section Ray.
    Variables (s d : pt) (t1 t2 : R).
    Hypothesis Hd : d <> zero3.
    Hypothesis Hoff : off_planes zero3 (Vec dx dy dz) s.
    Hypothesis Hc : crosses dx dy dz s d t1 t2.

    Lemma aabb2_xr : intersectAABB2 (isoBounds (XF dx) (XF dy) (XF dz)) (xray s d) = (XF t1, XF t2).
    Proof.
      change (isoBounds (XF dx) (XF dy) (XF dz)) with (xbox zero3 (Vec dx dy dz)).
      assert (O : ordered zero3 (Vec dx dy dz)) by (unfold ordered, zero3; cbn [vx vy vz]; lra).
      destruct Hc as [L C]. unfold intersectAABB2.
      destruct (line_cases zero3 (Vec dx dy dz) s d O Hoff Hd) as [[_ N]|(a & b & Ea & Eb & Hab & _ & _ & I)].
      - exfalso. apply (N t1). apply C. lra.
      - destruct (bbEnterExit _ _) as [ten tex]. cbn [fst snd] in Ea, Eb. subst ten tex.
        assert (A : a <= t1 <= b) by (apply I, C; lra). assert (B : a <= t2 <= b) by (apply I, C; lra).
        assert (A' : t1 <= a <= t2) by (apply C, I; lra). assert (B' : t1 <= b <= t2) by (apply C, I; lra).
        replace a with t1 by lra. replace b with t2 by lra. cbn [nltb NumX xltb]. now rewrite (proj2 (Rltb_false t2 t1)) by lra.
    Qed.

    Let val t := elev (along s d t).
    Lemma run fuel : unit_heights f -> 0 < t2 ->
      oIntersect (iso fuel) (xray s d) =
      obind (bisect fuel (fun t => Val (val t)) (t1 - tiny) (t2 + tiny)) (fun t =>
        if Reqb t 0 then Val (noHit, xray s d) else
        let p := along s d t in
        Val (Hit (XF t) (xv (Vec (- slope dy (fun u => f u (vz p / dz)) (vx p / dx)) 1 (- slope dy (fun v => f (vx p / dx) v) (vz p / dz))))
                 (xv (Vec (vx p / dx) (vz p / dz) 0)) m, xray s d)).
    Proof.
      intros H T. unfold isoSurface, simpleObj. cbn [oIntersect]. unfold isoIntersect. rewrite aabb2_xr.
      cbn [nltb NumX xltb nofZ]. rewrite (proj2 (Rltb_true 0 t2)) by exact T. cbn [negb].
      rewrite tiny_xr. cbn [nadd nsub NumX xadd xsub xopp]. change (t1 + - tiny) with (t1 - tiny).
      rewrite (bisect_lift (fun t => Val (val t))).
      2:{ intros t. change (rayAt (xray s d) (XF t)) with (xv (along s d t)). now rewrite value_xr. }
      destruct (bisect fuel _ _ _) as [t| |]; [|reflexivity|reflexivity]. cbn [omap obind].
      change (neqb (XF t) (XF 0)) with (Reqb t 0). destruct (Reqb t 0); [reflexivity|].
      change (rayAt (xray s d) (XF t)) with (xv (along s d t)). rewrite uv_xr, normal_xr by exact H. reflexivity.
    Qed.

    (** entering above the surface and leaving below it *)
    Theorem iso_hits fuel : unit_heights f -> tiny < t1 -> 0 < val (t1 - tiny) -> val (t2 + tiny) <= 0 ->
      t2 - t1 + 2 * tiny <= 1 / 1048576 * 2 ^ fuel ->
      exists t t', t1 - tiny <= t' <= t /\ t <= t2 + tiny /\ t - t' <= 1 / 1048576 /\ 0 < val t' /\ val t <= 0 /\
        let u := vx (along s d t) / dx in let v := vz (along s d t) / dz in
        oIntersect (iso (S fuel)) (xray s d) =
          Val (Hit (XF t) (xv (Vec (- slope dy (fun u => f u v) u) 1 (- slope dy (fun v => f u v) v))) (xv (Vec u v 0)) m, xray s d).
    Proof.
      intros H T A B W. destruct Hc as [L _]. pose proof tiny_pos as TP.
      destruct (bisect_R (fun t => Val (val t)) val (fun t => eq_refl) fuel (t1 - tiny) (t2 + tiny)) as (t & t' & E & I & J & K & P & Q); [lra|exact A|exact B|lra|].
      exists t, t'. repeat (split; [tauto|]). cbv zeta. rewrite run by (trivial; lra). rewrite E. cbn [obind].
      destruct (Reqb_spec t 0) as [Z|Z]; [lra|reflexivity].
    Qed.

    (** if the surface is continuous there is a point of it between the two *)
    Lemma crossing t t' : (forall u, continuity_pt val u) -> t' <= t -> 0 < val t' -> val t <= 0 -> exists t0, t' <= t0 <= t /\ val t0 = 0.
    Proof.
      intros C L P Q. destruct (Rle_lt_or_eq_dec t' t L) as [L'|L']; [|subst t'; lra].
      destruct (IVT_cor (fun u => - val u) t' t) as (t0 & I & E); [|lra|nra|exists t0; split; [exact I|lra]].
      intros u. apply continuity_pt_opp, C.
    Qed.

    (** both ends on the same side *)
    Theorem iso_misses fuel : unit_heights f -> 0 < t2 -> 0 < val (t1 - tiny) * val (t2 + tiny) ->
      oIntersect (iso fuel) (xray s d) = Val (noHit, xray s d).
    Proof.
      intros H T V. rewrite run by trivial. rewrite (bisect_same_sign (fun t => Val (val t)) val (fun t => eq_refl)) by exact V.
      cbn [obind]. destruct (Reqb_spec 0 0); [reflexivity|lra].
    Qed.

    (** entering below the surface and leaving above it *)
    Theorem iso_from_below fuel : unit_heights f -> 0 < t2 -> t1 <> tiny -> val (t1 - tiny) <= 0 -> 0 <= val (t2 + tiny) ->
      exists h, oIntersect (iso (S fuel)) (xray s d) = Val (h, xray s d) /\ hT h = XF (t1 - tiny) /\ hMat h = m.
    Proof.
      intros H T N A B. destruct Hc as [L _]. pose proof tiny_pos as TP. rewrite run by trivial.
      rewrite (bisect_below (fun t => Val (val t)) val (fun t => eq_refl)) by (trivial; lra).
      cbn [obind]. destruct (Reqb_spec (t1 - tiny) 0); [lra|]. eexists. split; [reflexivity|]. split; reflexivity.
    Qed.

    (** a bad height at the place of entry stops the program *)
    Theorem iso_bad_height fuel : 0 < t2 ->
      (let p := along s d (t1 - tiny) in let h := f (vx p / dx) (vz p / dz) in h < -1 / 1024 \/ 1025 / 1024 < h) ->
      oIntersect (iso fuel) (xray s d) = Panic.
    Proof.
      cbv zeta. intros T B. unfold isoSurface, simpleObj. cbn [oIntersect]. unfold isoIntersect. rewrite aabb2_xr.
      cbn [nltb NumX xltb nofZ]. rewrite (proj2 (Rltb_true 0 t2)) by exact T. cbn [negb].
      rewrite tiny_xr. cbn [nadd nsub NumX xadd xsub xopp]. change (t1 + - tiny) with (t1 - tiny).
      unfold bisect. change (rayAt (xray s d) (XF (t1 - tiny))) with (xv (along s d (t1 - tiny))).
      unfold isoValueAt at 1. unfold isoHeightAt. rewrite uv_xr, height_xr.
      replace (_ || _)%bool with true; [reflexivity|]. symmetry. apply orb_true_iff. destruct B as [B|B]; [left|right]; now apply Rltb_true.
    Qed.
  End Ray.

  Theorem iso_outside fuel s d : d <> zero3 -> off_planes zero3 (Vec dx dy dz) s -> (forall t, 0 < t -> ~ in_closed_box zero3 (Vec dx dy dz) (along s d t)) ->
    oIntersect (iso fuel) (xray s d) = Val (noHit, xray s d).
  Proof.
    intros Hd Hoff N. unfold isoSurface, simpleObj. cbn [oIntersect]. unfold isoIntersect, intersectAABB2.
    change (isoBounds (XF dx) (XF dy) (XF dz)) with (xbox zero3 (Vec dx dy dz)).
    assert (O : ordered zero3 (Vec dx dy dz)) by (unfold ordered, zero3; cbn [vx vy vz]; lra).
    destruct (line_cases zero3 (Vec dx dy dz) s d O Hoff Hd) as [[E _]|(a & b & Ea & Eb & Hab & _ & _ & I)].
    - destruct (bbEnterExit _ _) as [ten tex]. cbn [fst snd] in E. cbn [nltb NumX]. rewrite E.
      assert (Z : xltb (nofZ 0) (nofZ 0) = false) by (apply Rltb_false; lra). rewrite Z. reflexivity.
    - destruct (bbEnterExit _ _) as [ten tex]. cbn [fst snd] in Ea, Eb. subst ten tex. cbn [nltb NumX xltb nofZ].
      rewrite (proj2 (Rltb_false b a)) by lra. destruct (Rltb_spec 0 b) as [P|P]; [|reflexivity].
      exfalso. apply (N b P). apply I. lra.
  Qed.

  Theorem iso_inside fuel p : unit_heights f ->
    oInside (iso fuel) (xv p) = Val true <-> in_open_box zero3 (Vec dx dy dz) p /\ elev p < 0.
  Proof.
    intros H. unfold isoSurface, simpleObj. cbn [oInside]. unfold isoInside.
    assert (B : bbInside (isoBounds (XF dx) (XF dy) (XF dz)) (xv p) = true <-> in_open_box zero3 (Vec dx dy dz) p).
    { unfold bbInside, isoBounds, xv, in_open_box, zero3. cbn [vx vy vz bMin bMax vO nofZ nltb NumX xltb]. rewrite !andb_true_iff, !Rltb_true. tauto. }
    destruct (bbInside _ _); [|split; [discriminate|intros [C _]; apply B in C; discriminate]].
    unfold isoHeightAt. rewrite uv_xr, height_ok by apply H. cbn [omap obind]. unfold elevation.
    change (nltb (vy (xv p)) (XF (dy * f (vx p / dx) (vz p / dz)))) with (Rltb (vy p) (dy * f (vx p / dx) (vz p / dz))).
    destruct (Rltb_spec (vy p) (dy * f (vx p / dx) (vz p / dz))) as [L|L]; split; intros E; try easy.
    - split; [now apply B|lra].
    - destruct E. lra.
  Qed.
End Iso.

Theorem iso_hit_ok : forall (M : Type) (m : option M) (dx dy dz : R) (f : R -> R -> R) (g : xr -> xr -> xr), 0 < dx -> 0 < dy -> 0 < dz -> lifts f g -> unit_heights f ->
  forall (s d : pt) (t1 t2 : R), d <> zero3 -> off_planes zero3 (Vec dx dy dz) s -> crosses dx dy dz s d t1 t2 -> tiny < t1 ->
  let elev t := elevation dx dy dz f (along s d t) in
  (forall t, continuity_pt elev t) -> 0 < elev (t1 - tiny) -> elev (t2 + tiny) <= 0 ->
  forall fuel, t2 - t1 + 2 * tiny <= 1 / 1048576 * 2 ^ fuel ->
  exists t h, oIntersect (isoSurface m (XF dx) (XF dy) (XF dz) g (S fuel)) (xray s d) = Val (h, xray s d) /\ hT h = XF t /\ hMat h = m /\
    t1 - tiny <= t <= t2 + tiny /\
    (exists t0, t - 1 / 1048576 <= t0 <= t /\ elev t0 = 0 /\
       ((forall a b, t1 - tiny <= a <= b -> elev b <= elev a) -> forall a, t1 - tiny <= a -> elev a < 0 -> t0 <= a)) /\
    let u := vx (along s d t) / dx in let v := vz (along s d t) / dz in
    hLocal h = xv (Vec u v 0) /\ hNormal h = xv (Vec (- slope dy (fun u => f u v) u) 1 (- slope dy (fun v => f u v) v)).
Proof.
  intros M m dx dy dz f g X Y Z G H s d t1 t2 D O C T elev K A B fuel W.
  destruct (iso_hits m dx dy dz f g X Y Z G s d t1 t2 D O C fuel H T A B W) as (t & t' & I & J & L & P & Q & E).
  eexists t, _. split; [exact E|]. repeat (split; [reflexivity|]). split; [lra|]. split; [|split; reflexivity].
  destruct (crossing dx dy dz f s d t t' K) as (t0 & I0 & E0); [lra|exact P|exact Q|]. exists t0. split; [lra|]. split; [exact E0|].
  intros Mo a Ha N. destruct (Rle_or_lt t0 a) as [|F]; [assumption|]. specialize (Mo a t0 (conj Ha (Rlt_le _ _ F))). unfold elev in Mo, N. cbv beta in E0. lra.
Qed.

(** a ridge along z *)
Definition ridge (u v : R) : R := Rmax 0 (1 - (4 * u - 2) * (4 * u - 2)).
Definition ridgeX (u v : xr) : xr := match u with XF u => XF (ridge u 0) | _ => XNaN end.
Lemma ridge_lifts : lifts ridge ridgeX. Proof. intros u v. reflexivity. Qed.
Lemma ridge_unit : unit_heights ridge. Proof. intros u v. unfold ridge. pose proof (Rle_0_sqr (4 * u - 2)) as S. unfold Rsqr in S. unfold Rmax. destruct (Rle_dec _ _); lra. Qed.
Lemma ridge_crosses y : 0 < y < 1 -> crosses 1 1 1 (Vec (-1) y (1 / 2)) (Vec 1 0 0) 1 2.
Proof.
  intros Y. split; [lra|]. intros t. unfold in_closed_box, along, plus3, scal3, zero3. cbn [vx vy vz]. split; intros; lra.
Qed.
Lemma ridge_out u v : u <= 1 / 4 \/ 3 / 4 <= u -> ridge u v = 0.
Proof. intros H. unfold ridge. assert (1 <= (4 * u - 2) * (4 * u - 2)) by (destruct H; nra). unfold Rmax. destruct (Rle_dec _ _); lra. Qed.
Lemma tiny_less : (tiny : R) < 1 / 1000000.
Proof. unfold tiny, nQ; rnum. change (1204 * 1024)%Z with 1232896%Z. lra. Qed.

Theorem ridge_missed {M} (m : option M) fuel :
  let s := Vec (-1) (1 / 2) (1 / 2) in let d := Vec 1 0 0 in
  lifts ridge ridgeX /\ unit_heights ridge /\ crosses 1 1 1 s d 1 2 /\
  (forall t, 1 <= t <= 5 / 4 -> 0 < elevation 1 1 1 ridge (along s d t)) /\ elevation 1 1 1 ridge (along s d (3 / 2)) < 0 /\
  oIntersect (isoSurface m (XF 1) (XF 1) (XF 1) ridgeX fuel) (xray s d) = Val (noHit, xray s d).
Proof.
  cbv zeta. split; [exact ridge_lifts|]. split; [exact ridge_unit|]. split; [apply ridge_crosses; lra|].
  assert (V : forall t, t <= 5 / 4 \/ 7 / 4 <= t -> elevation 1 1 1 ridge (along (Vec (-1) (1 / 2) (1 / 2)) (Vec 1 0 0) t) = 1 / 2).
  { intros t H. unfold elevation, along, plus3, scal3. cbn [vx vy vz]. rewrite ridge_out by lra. lra. }
  split; [intros t H; rewrite V; lra|]. split.
  { unfold elevation, along, plus3, scal3, ridge, Rmax. cbn [vx vy vz]. destruct (Rle_dec _ _); lra. }
  pose proof tiny_less. pose proof tiny_pos.
  apply (iso_misses m 1 1 1 ridge ridgeX ltac:(lra) ltac:(lra) ltac:(lra) ridge_lifts _ _ 1 2).
  - intros E. apply (f_equal vx) in E. cbn in E. lra.
  - unfold off_planes, zero3. cbn [vx vy vz]. repeat split; lra.
  - apply ridge_crosses. lra.
  - exact ridge_unit.
  - lra.
  - rewrite !V by lra. lra.
Qed.
(** the same ray tilted down meets the ridge *)
Theorem ridge_hit {M} (m : option M) : exists h t,
  oIntersect (isoSurface m (XF 1) (XF 1) (XF 1) (fun _ _ => XF (1 / 2)) 41) (xray (Vec (1 / 2) 2 (1 / 2)) (Vec 0 (-1) 0)) = Val (h, xray (Vec (1 / 2) 2 (1 / 2)) (Vec 0 (-1) 0)) /\
  hT h = XF t /\ 3 / 2 <= t <= 3 / 2 + 1 / 1048576 /\ hNormal h = xv (Vec 0 1 0).
Proof.
  assert (E : forall t, elevation 1 1 1 (fun _ _ => 1 / 2) (along (Vec (1 / 2) 2 (1 / 2)) (Vec 0 (-1) 0) t) = 3 / 2 - t).
  { intros t. unfold elevation, along, plus3, scal3. cbn [vx vy vz]. lra. }
  pose proof tiny_less. pose proof tiny_pos.
  destruct (iso_hit_ok M m 1 1 1 (fun _ _ => 1 / 2) (fun _ _ => XF (1 / 2)) ltac:(lra) ltac:(lra) ltac:(lra)) with (s := Vec (1 / 2) 2 (1 / 2)) (d := Vec 0 (-1) 0) (t1 := 1) (t2 := 2) (fuel := 40%nat)
    as (t & h & I & T & _ & _ & (t0 & J & K & _) & _ & N).
  - intros u v. reflexivity.
  - intros u v. lra.
  - intros A. apply (f_equal vy) in A. cbn in A. lra.
  - unfold off_planes, zero3. cbn [vx vy vz]. repeat split; lra.
  - split; [lra|]. intros t. unfold in_closed_box, along, plus3, scal3, zero3. cbn [vx vy vz]. split; intros; lra.
  - lra.
  - intros t. change (continuity_pt (fun t => (2 + t * -1) - 1 * (1 / 2)) t). reg.
  - rewrite E. lra.
  - rewrite E. lra.
  - assert (1 <= 2 ^ 20) by (apply pow_R1_Rle; lra). replace (2 ^ 40) with (2 ^ 20 * 2 ^ 20) by (rewrite <- pow_add; reflexivity).
    replace (2 ^ 20) with 1048576 by (simpl; ring). lra.
  - exists h, t. split; [exact I|]. split; [exact T|]. rewrite E in K. split; [lra|]. rewrite N. unfold slope, xv. cbn [vx vy vz]. do 2 f_equal; lra.
Qed.

(** ** boxes of a given size about a centre *)
Theorem sized_box {M} (m : option M) (w h d : R) (c : pt) :
  box m (XF w) (XF h) (XF d) (xv c) =
  boxWithBounds m (xv (Vec (vx c - w / 2) (vy c - h / 2) (vz c - d / 2))) (xv (Vec (vx c + w / 2) (vy c + h / 2) (vz c + d / 2))).
Proof.
  unfold box, bbTranslated, vadd. cbn [bMin bMax vx vy vz nopp ndiv nofZ NumX xopp]. rewrite !xdiv_XF by lra. unfold xv. cbn [vx vy vz nadd NumX xadd].
  f_equal; f_equal; f_equal; lra.
Qed.
