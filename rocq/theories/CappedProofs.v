(** * Rays through a cylinder with caps see it, except along four lines *)
From Coq Require Import ZArith Reals Bool List Lra Lia.
From Verif Require Import Num NumLaws Outcome GeomModel GeomSpec GeomProofs ObjModel TreeModel ObjSpec ObjProofs BoxProofs PrimProofs CsgProofs SolidProofs.
Import ListNotations.
Local Open Scope R_scope.

Section Total.
  Context {M : Type} {NI : NumInf R}.
  Implicit Types a b : object R M.
  (** along a ray: always an answer, the ray untouched *)
  Definition answers_along a (s d : pt) : Prop := forall t0, exists h, oIntersect a (Ray (along s d t0) d) = Val (h, Ray (along s d t0) d).
  Definition answers_points a : Prop := forall p, exists x, oInside a p = Val x.

  Lemma marchLoop_total keep a b s d : answers_along a s d -> answers_points b -> forall ttl mx off h t0,
    exists h' r', marchLoop keep a b ttl mx off h (Ray (along s d t0) d) = Val (h', r') /\ rDir r' = d /\ (h' = noHit \/ 0 < hT h' \/ off < 0).
  Proof.
    intros Ha Hb. induction ttl as [|n IH]; intros mx off h t0; cbn [marchLoop]; [do 2 eexists; split; [reflexivity|split; [reflexivity|auto]]|].
    destruct (nltb (nofZ 0) (hT h) && nltb (hT h) mx)%bool eqn:E; [|do 2 eexists; split; [reflexivity|split; [reflexivity|auto]]].
    apply andb_true_iff in E. destruct E as [E _]. rnum. apply Rltb_true in E.
    destruct (Hb (rayAt (Ray (along s d t0) d) (hT h))) as (x & ->). cbn [obind]. destruct (keep x).
    - do 2 eexists. split; [reflexivity|]. split; [reflexivity|]. cbn [hT]. destruct (Rle_dec 0 off); [right; left; lra|right; right; lra].
    - rewrite rayAt_along, along_along. cbn [rDir]. destruct (Ha (t0 + (hT h + tiny))) as (h2 & ->). cbn [obind].
      destruct (IH mx (off + (hT h + tiny)) h2 (t0 + (hT h + tiny))) as (h' & r' & E1 & E2 & E3). exists h', r'. split; [exact E1|]. split; [exact E2|].
      destruct E3 as [E3|[E3|E3]]; auto. right; right. pose proof tiny_pos. lra.
  Qed.
  Lemma march_total keep a b s d mx : answers_along a s d -> answers_points b ->
    exists h, march keep a b (Ray s d) mx = Val (h, Ray s d) /\ (h = noHit \/ 0 < hT h).
  Proof.
    intros Ha Hb. unfold march. destruct (Ha 0) as (h1 & E1). rewrite along_zero in E1. rewrite E1. cbn [obind].
    destruct (marchLoop_total keep a b s d Ha Hb 100 mx (nofZ 0) h1 0) as (h' & r' & E & D & P). rewrite along_zero in E. rewrite E. cbn [omap obind rStart]. rewrite D.
    exists h'. split; [reflexivity|]. destruct P as [P|[P|P]]; auto. exfalso. revert P. rnum. lra.
  Qed.
  (** the first surface point is taken if it is on the right side of the other solid *)
  Lemma march_first keep a b s d mx h1 : oIntersect a (Ray s d) = Val (h1, Ray s d) -> 0 < hT h1 -> hT h1 < mx ->
    (exists x, oInside b (along s d (hT h1)) = Val x /\ keep x = true) ->
    exists h, march keep a b (Ray s d) mx = Val (h, Ray s d) /\ hT h = hT h1.
  Proof.
    intros E P L (x & I & K). unfold march. rewrite E. cbn [obind].
    change 100%nat with (S 99). cbn [marchLoop].
    assert (Q : (nltb (nofZ 0) (hT h1) && nltb (hT h1) mx)%bool = true) by (rnum; apply andb_true_iff; split; now apply Rltb_true). rewrite Q.
    rewrite rayAt_along, I. cbn [obind]. rewrite K. cbn [omap obind rStart rDir]. eexists. split; [reflexivity|]. cbn [hT]. rnum. lra.
  Qed.
End Total.

Section Capped.
  Context {M : Type} {NI : NumInf R}.
  Variables (m : option M) (diam height : R) (c s d : pt).
  Hypothesis Hdm : 0 < diam.
  Hypothesis Hht : 0 < height.
  Hypothesis SD : slanted d.
  Let lo : pt := Vec (vx c - diam / 2) (vy c - height / 2) (vz c - diam / 2).
  Let hi : pt := Vec (vx c + diam / 2) (vy c + height / 2) (vz c + diam / 2).
  Let cyl : object R M := cylinder m diam height c.
  Let bx : object R M := box m diam height diam c.

  Definition in_tin (p : pt) : Prop := radial2 p c < (diam / 2)² /\ Rabs (vy p - vy c) < height / 2.

  Lemma cyl_points : answers_points cyl. Proof. intros p. eexists. reflexivity. Qed.
  Lemma bx_points : answers_points bx. Proof. intros p. eexists. reflexivity. Qed.
  Lemma cyl_along : answers_along cyl s d. Proof. intros t. eexists. reflexivity. Qed.
  Lemma box_ordered : ordered lo hi. Proof. unfold ordered, lo, hi. cbn [vx vy vz]. lra. Qed.

  Lemma approx_self (x : R) : approx x x = true.
  Proof. unfold approx, nQ; rnum. change (10 ^ 8)%Z with 100000000%Z. apply Rltb_true. rewrite Rminus_diag_eq, Rabs_R0 by reflexivity. lra. Qed.
  Lemma normal_on_plane (p : pt) : on_plane lo hi p -> exists n, boxNormal (BBox lo hi) p = Val n.
  Proof.
    intros ON. unfold boxNormal. cbn [bMin bMax].
    destruct (approx (vx p) (vx lo)) eqn:E1; [eauto|]. destruct (approx (vx p) (vx hi)) eqn:E2; [eauto|].
    destruct (approx (vy p) (vy lo)) eqn:E3; [eauto|]. destruct (approx (vy p) (vy hi)) eqn:E4; [eauto|].
    destruct (approx (vz p) (vz lo)) eqn:E5; [eauto|]. destruct (approx (vz p) (vz hi)) eqn:E6; [eauto|].
    exfalso. unfold on_plane in ON. destruct ON as [[O|O]|[[O|O]|[O|O]]]; rewrite O, approx_self in *; discriminate.
  Qed.
  Lemma bx_hit (q : pt) : let t := bbIntersect (BBox lo hi) (Ray q d) in
    exists h, oIntersect bx (Ray q d) = Val (h, Ray q d) /\ (0 < t -> hT h = t).
  Proof.
    intros t. unfold bx. rewrite box_eq. fold lo hi. unfold boxWithBounds, simpleObj. cbn [oIntersect]. unfold boxIntersect. fold t.
    destruct (nltb (nofZ 0) t) eqn:Q; cbn [negb].
    - assert (P : 0 < t) by (revert Q; rnum; intros Q; now apply Rltb_true in Q).
      destruct (bbIntersect_R lo hi q d box_ordered SD P) as [_ ON]. fold t in ON. rewrite rayAt_along. destruct (normal_on_plane _ ON) as (n & ->). cbn [omap obind].
      eexists. split; [reflexivity|]. intros _. reflexivity.
    - cbn [omap obind]. eexists. split; [reflexivity|]. intros P. exfalso. revert Q. rnum. intros Q. apply Rltb_false in Q. lra.
  Qed.
  Lemma bx_along : answers_along bx s d.
  Proof. intros t. destruct (bx_hit (along s d t)) as (h & E & _). eauto. Qed.

  (** where the ray enters the box *)
  Lemma enter t1 : 0 < t1 -> in_open_box lo hi (along s d t1) -> ~ in_closed_box lo hi s ->
    let t := bbIntersect (BBox lo hi) (Ray s d) in 0 < t < t1 /\ in_closed_box lo hi (along s d t) /\ on_plane lo hi (along s d t) /\
    forall u, t < u <= t1 -> in_open_box lo hi (along s d u).
  Proof.
    intros T1 I1 O t.
    assert (BND : 0 < t <= t1).
    { subst t. destruct box_ordered as (O1 & O2 & O3). destruct SD as (D1 & D2 & D3). unfold bbIntersect, bbEnterExit. cbn [bMin bMax rStart rDir]. rewrite !umin_R, !umax_R. rnum.
      pose proof (slab_R _ _ (vx s) _ D1 O1) as (_ & _ & C1). pose proof (slab_R _ _ (vy s) _ D2 O2) as (_ & _ & C2). pose proof (slab_R _ _ (vz s) _ D3 O3) as (_ & _ & C3).
      assert (IN : forall l h' x dd, dd <> 0 -> l <= h' -> l < x + t1 * dd < h' -> Rmin ((l - x) * (1 / dd)) ((h' - x) * (1 / dd)) <= t1 <= Rmax ((l - x) * (1 / dd)) ((h' - x) * (1 / dd))).
      { clear. intros l h' x dd D L I. assert (P : (l - x) * (1 / dd) * dd = l - x) by (field; auto). assert (Q : (h' - x) * (1 / dd) * dd = h' - x) by (field; auto).
        set (p := (l - x) * (1 / dd)) in *. set (q := (h' - x) * (1 / dd)) in *. unfold Rmin, Rmax. destruct (Rlt_dec 0 dd).
        - assert (p < t1) by nra. assert (t1 < q) by nra. destruct (Rle_dec p q); lra.
        - assert (dd < 0) by lra. assert (t1 < p) by nra. assert (q < t1) by nra. destruct (Rle_dec p q); lra. }
      destruct I1 as (I1 & I2 & I3). unfold along, plus3, scal3 in I1, I2, I3. cbn [vx vy vz] in I1, I2, I3.
      pose proof (IN _ _ _ _ D1 O1 I1) as J1. pose proof (IN _ _ _ _ D2 O2 I2) as J2. pose proof (IN _ _ _ _ D3 O3 I3) as J3. clear IN. cbv zeta in *.
      set (p1 := Rmin ((vx lo - vx s) * (1 / vx d)) _) in *. set (q1 := Rmax ((vx lo - vx s) * (1 / vx d)) _) in *.
      set (p2 := Rmin ((vy lo - vy s) * (1 / vy d)) _) in *. set (q2 := Rmax ((vy lo - vy s) * (1 / vy d)) _) in *.
      set (p3 := Rmin ((vz lo - vz s) * (1 / vz d)) _) in *. set (q3 := Rmax ((vz lo - vz s) * (1 / vz d)) _) in *.
      destruct (max3_R p1 p2 p3) as ((U1 & U2 & U3) & U). destruct (min3_R q1 q2 q3) as ((V1 & V2 & V3) & V).
      set (ten := max3 p1 p2 p3) in *. set (tex := min3 q1 q2 q3) in *. cbn beta iota zeta.
      assert (ten <= t1) by (destruct U as [-> |[-> | ->]]; lra). assert (t1 <= tex) by (destruct V as [-> |[-> | ->]]; lra).
      assert (PT : 0 < ten). { destruct (Rlt_dec 0 ten) as [L|L]; [exact L|exfalso]. apply O. unfold in_closed_box.
        pose proof (C1 0 ltac:(lra)). pose proof (C2 0 ltac:(lra)). pose proof (C3 0 ltac:(lra)). lra. }
      destruct (Rltb tex ten) eqn:E; [apply Rltb_true in E; lra|]. destruct (Rltb ten 0) eqn:E2; [apply Rltb_true in E2; lra|]. lra. }
    destruct (bbIntersect_R lo hi s d box_ordered SD (proj1 BND)) as [IC ON]. fold t in IC, ON.
    assert (NE : t <> t1). { intros E. rewrite E in ON. unfold on_plane in ON. unfold in_open_box in I1. lra. }
    split; [lra|]. split; [exact IC|]. split; [exact ON|]. intros u U.
    assert (CV : forall l h' x y, l <= x + t * y <= h' -> l < x + t1 * y < h' -> l < x + u * y < h').
    { clear - U BND. intros l h' x y A B. assert (E : exists w, 0 < w <= 1 /\ u = t + w * (t1 - t)). { exists ((u - t) / (t1 - t)). split; [split; [apply Rdiv_lt_0_compat; lra|]|field; lra]. apply Rmult_le_reg_r with (t1 - t); [lra|]. unfold Rdiv. rewrite Rmult_assoc, Rinv_l by lra. lra. }
      destruct E as (w & W & ->). nra. }
    destruct IC as (A1 & A2 & A3), I1 as (B1 & B2 & B3). unfold along, plus3, scal3 in *. cbn [vx vy vz] in *. split; [|split]; apply CV; assumption.
  Qed.

  (** the squared distance from the axis along the ray *)
  Lemma radial_along t : radial2 (along s d t) c = ((vx d)² + (vz d)²) * t² + 2 * ((vx s - vx c) * vx d + (vz s - vz c) * vz d) * t + ((vx s - vx c)² + (vz s - vz c)²).
  Proof. unfold radial2, along, plus3, scal3, Rsqr. cbn [vx vy vz]. ring. Qed.
  Lemma mantle_between a b : a < b -> (diam / 2)² < radial2 (along s d a) c -> radial2 (along s d b) c < (diam / 2)² ->
    exists t, a < t < b /\ radial2 (along s d t) c = (diam / 2)² /\ forall u, u < t -> (diam / 2)² < radial2 (along s d u) c.
  Proof.
    intros L A B. set (f := fun t => (diam / 2)² - (((vx d)² + (vz d)²) * t² + 2 * ((vx s - vx c) * vx d + (vz s - vz c) * vz d) * t + ((vx s - vx c)² + (vz s - vz c)²))).
    assert (C : continuity f) by (unfold f, Rsqr; reg).
    destruct (IVT f a b C L) as (z & Z & E); [unfold f; rewrite <- radial_along; lra|unfold f; rewrite <- radial_along; lra|].
    unfold f in E. rewrite <- radial_along in E. assert (E' : radial2 (along s d z) c = (diam / 2)²) by lra.
    assert (a <> z) by (intros ->; lra). assert (b <> z) by (intros ->; lra).
    exists z. split; [lra|]. split; [exact E'|]. intros u U. rewrite radial_along in *. clear C E f A.
    assert (P : 0 < (vx d)² + (vz d)²). { destruct SD as (D & _ & _). apply Rsqr_pos_lt in D. pose proof (Rle_0_sqr (vz d)). lra. }
    set (k := (vx d)² + (vz d)²) in *. set (l := 2 * ((vx s - vx c) * vx d + (vz s - vz c) * vz d)) in *. set (w := (vx s - vx c)² + (vz s - vz c)²) in *. unfold Rsqr in *.
    (* q(b) < q(z): the slope of the secant is negative, and steeper further left *)
    assert (S : (k * (b + z) + l) * (b - z) < 0) by nra. assert (k * (b + z) + l < 0) by nra. assert (k * (u + z) + l < 0) by nra.
    assert ((k * (u + z) + l) * (u - z) > 0) by nra. nra.
  Qed.

  Lemma frontmost_le (x y : hit R M) t : (x = noHit \/ 0 < hT x) -> (y = noHit \/ 0 < hT y) -> (0 < hT x <= t \/ 0 < hT y <= t) -> 0 < hT (frontmost x y) <= t.
  Proof.
    assert (N : hT (noHit : hit R M) = 0) by reflexivity.
    intros X Y H. rewrite frontmost_R.
    destruct (Rltb (hT y) (hT x)) eqn:E1; [apply Rltb_true in E1|apply Rltb_false in E1]; destruct (Rltb 0 (hT y)) eqn:E2; [apply Rltb_true in E2|apply Rltb_false in E2|apply Rltb_true in E2|apply Rltb_false in E2];
      destruct (Rltb 0 (hT x)) eqn:E3; [apply Rltb_true in E3|apply Rltb_false in E3|apply Rltb_true in E3|apply Rltb_false in E3|apply Rltb_true in E3|apply Rltb_false in E3|apply Rltb_true in E3|apply Rltb_false in E3]; lra.
  Qed.

  Theorem capped_seen : ~ in_closed_box lo hi s ->
    (forall t, 0 < t -> radial2 (along s d t) c = (diam / 2)² -> vx (along s d t) <> vx c /\ vz (along s d t) <> vz c /\ Rabs (vy (along s d t) - vy c) <> height / 2) ->
    (exists t, 0 < t < ninf /\ in_tin (along s d t)) ->
    exists h, oIntersect (cylinderWithCaps m diam height c) (Ray s d) = Val (h, Ray s d) /\ 0 < hT h /\
      forall t, 0 < t < ninf -> in_tin (along s d t) -> hT h <= t.
  Proof.
    intros HO HG HI.
    assert (TOT : exists ha hb, march (fun x => x) cyl bx (Ray s d) ninf = Val (ha, Ray s d) /\ (ha = noHit \/ 0 < hT ha) /\
      march (fun x => x) bx cyl (Ray s d) (if Rltb 0 (hT ha) then hT ha else ninf) = Val (hb, Ray s d) /\ (hb = noHit \/ 0 < hT hb)).
    { destruct (march_total (fun x => x) cyl bx s d ninf cyl_along bx_points) as (ha & E1 & P1). exists ha.
      destruct (march_total (fun x => x) bx cyl s d (if Rltb 0 (hT ha) then hT ha else ninf) bx_along cyl_points) as (hb & E2 & P2). exists hb. auto. }
    destruct TOT as (ha & hb & E1 & P1 & E2 & P2).
    assert (EQ : oIntersect (cylinderWithCaps m diam height c) (Ray s d) = Val (frontmost ha hb, Ray s d)).
    { unfold cylinderWithCaps, cAnd. cbn [oIntersect]. unfold marchBoth. fold cyl bx. rewrite E1. cbn [obind]. rnum. rewrite E2. reflexivity. }
    assert (KEY : forall t1, 0 < t1 < ninf -> in_tin (along s d t1) -> 0 < hT (frontmost ha hb) <= t1).
    { intros t1 T1 (R1 & Y1). apply Rabs_def2 in Y1.
      assert (NX : forall a b r, 0 <= r -> a * a + b * b < r * r -> - r < a < r) by (clear; intros; nra).
      assert (NX2 : forall a b r, 0 <= r -> a * a + b * b = r * r -> b <> 0 -> - r < a < r) by (clear; intros a b r H H0 H1; assert (0 < b * b) by (destruct (Rlt_dec 0 b); [|assert (b < 0) by lra]; nra); nra).
      assert (I1 : in_open_box lo hi (along s d t1)).
      { unfold radial2, Rsqr in R1. pose proof (NX _ _ (diam / 2) ltac:(lra) R1). pose proof (NX (vz (along s d t1) - vz c) (vx (along s d t1) - vx c) (diam / 2) ltac:(lra) ltac:(lra)).
        unfold in_open_box, lo, hi. cbn [vx vy vz]. lra. }
      destruct (enter t1 (proj1 T1) I1 HO) as (TB & IC & ON & SEG). cbv zeta in TB. set (tb := bbIntersect (BBox lo hi) (Ray s d)) in *.
      apply frontmost_le; [exact P1|exact P2|].
      destruct (Rlt_dec (radial2 (along s d tb) c) (diam / 2)²) as [C|C].
      - (* through a lid *)
        destruct (bx_hit s) as (h1 & EH & HT). fold tb in HT. specialize (HT (proj1 TB)).
        destruct (cyl_points (along s d tb)) as (x & EX). assert (x = true) as ->.
        { apply (cylinder_inside m diam height c (along s d tb) x ltac:(lra) EX). split; [exact C|]. destruct IC as (_ & Y & _). unfold lo, hi in Y. cbn [vy] in Y. pose proof tiny_pos. apply Rabs_def1; lra. }
        destruct (Rltb 0 (hT ha)) eqn:EA.
        + apply Rltb_true in EA. destruct (Rlt_dec tb (hT ha)) as [L|L]; [|left; lra]. right.
          destruct (march_first (fun x => x) bx cyl s d (hT ha) h1 EH) as (h2 & E3 & T3); [lra|lra|exists true; rewrite HT; auto|].
          assert (h2 = hb) as -> by congruence. lra.
        + right. destruct (march_first (fun x => x) bx cyl s d ninf h1 EH) as (h2 & E3 & T3); [lra|lra|exists true; rewrite HT; auto|].
          assert (h2 = hb) as -> by congruence. lra.
      - (* through the mantle *)
        left. assert (C' : (diam / 2)² < radial2 (along s d tb) c).
        { destruct (Req_dec (radial2 (along s d tb) c) (diam / 2)²) as [E|E]; [exfalso|lra].
          destruct (HG tb (proj1 TB) E) as (GX & GZ & GY). unfold radial2, Rsqr in E. set (p := along s d tb) in *.
          pose proof (NX2 _ _ (diam / 2) ltac:(lra) E ltac:(lra)) as X. pose proof (NX2 (vz p - vz c) (vx p - vx c) (diam / 2) ltac:(lra) ltac:(lra) ltac:(lra)) as Z.
          unfold on_plane, lo, hi in ON. cbn [vx vy vz] in ON. destruct ON as [[O|O]|[[O|O]|[O|O]]]; try lra; apply GY; rewrite O; [rewrite Rabs_left1 by lra|rewrite Rabs_pos_eq by lra]; lra. }
        destruct (mantle_between tb t1 (proj2 TB) C' R1) as (tm & TM & EM & LEFT).
        assert (IM := SEG tm ltac:(lra)).
        assert (SURF : Rabs (vy (along s d tm) - vy c) < height / 2 + tiny). { destruct IM as (_ & Y & _). unfold lo, hi in Y. cbn [vy] in Y. pose proof tiny_pos. apply Rabs_def1; lra. }
        set (h1 := quadricIntersect (cylinderData m diam height c) (Ray s d)).
        assert (EH : oIntersect cyl (Ray s d) = Val (h1, Ray s d)) by reflexivity.
        destruct (cylinder_exact m diam height c s d ltac:(lra) (or_introl (proj1 SD))) as [(PH & (RH & _) & _ & _ & FIRST)|(_ & NONE)]; [fold h1 in PH, RH, FIRST|exfalso; apply (NONE tm ltac:(lra)); auto].
        assert (TH : hT h1 = tm). { destruct (Rtotal_order (hT h1) tm) as [L|[L|L]]; [exfalso; pose proof (LEFT _ L); lra|exact L|exfalso; apply (FIRST tm ltac:(lra)); auto]. }
        destruct (bx_points (along s d tm)) as (x & EX). assert (x = true) as ->. { unfold bx in EX. rewrite box_eq in EX. fold lo hi in EX. now apply (box_inside m lo hi _ x EX). }
        destruct (march_first (fun x => x) cyl bx s d ninf h1 EH) as (h2 & E3 & T3); [lra|lra|exists true; rewrite TH; auto|].
        assert (h2 = ha) as -> by congruence. lra. }
    exists (frontmost ha hb). split; [exact EQ|]. destruct HI as (t & T & I). split; [exact (proj1 (KEY t T I))|]. intros t' T' I'. exact (proj2 (KEY t' T' I')).
  Qed.
End Capped.

(** ** The lines where the mantle touches the box are transparent *)
Definition lidded : object b64 unit := cylinderWithCaps None (nofZ 2) (nofZ 6) vO.
Definition head_on : ray b64 := Ray (Vec (nofZ 5) (nofZ 0) (nofZ 0)) (Vec (nofZ (-1)) (nofZ 0) (nofZ 0)).
Lemma head_on_center : oInside lidded (rayAt head_on (nofZ 5)) = Val true.
Proof. vm_compute. reflexivity. Qed.
Lemma head_on_miss : match oIntersect lidded head_on with Val (h, _) => nltb (nofZ 0) (hT h) | _ => false end = false.
Proof. vm_compute. reflexivity. Qed.
Lemma lidded_holes : ~ (forall (m : option unit) (diam height : b64) (c : vec b64) (r : ray b64) (t : b64),
  nltb (nofZ 0) t = true -> bbInside (BBox (vadd c (Vec (nopp diam) (nopp height) (nopp diam))) (vadd c (Vec diam height diam))) (rStart r) = false ->
  oInside (cylinderWithCaps m diam height c) (rayAt r t) = Val true ->
  exists h r', oIntersect (cylinderWithCaps m diam height c) r = Val (h, r') /\ nltb (nofZ 0) (hT h) = true).
Proof.
  intros H. destruct (H None (nofZ 2) (nofZ 6) vO head_on (nofZ 5)) as (h & r' & E & P); [vm_compute; reflexivity|vm_compute; reflexivity|exact head_on_center|].
  pose proof head_on_miss as Q. unfold lidded in Q. rewrite E in Q. rewrite P in Q. discriminate Q.
Qed.
