(** * Balls and boxes report their crossings *)
From Coq Require Import ZArith Reals Bool List Lra Lia.
From Verif Require Import Num NumLaws Outcome GeomModel GeomSpec GeomProofs ObjModel TreeModel ObjSpec ObjProofs BoxProofs PrimProofs CsgProofs SolidProofs CappedProofs MeshProofs MeshHits ShapeProofs.
Import ListNotations.
Local Open Scope R_scope.

(** the zeros of a quadratic function, as a list *)
Lemma zeros_list k l w : k <> 0 -> exists cs, (length cs <= 2)%nat /\ forall t, In t cs <-> k * t² + l * t + w = 0.
Proof.
  intros K. set (D := l² - 4 * k * w).
  assert (SQ : forall t, 4 * k * (k * t² + l * t + w) = (2 * k * t + l)² - D) by (intros t; unfold D, Rsqr; ring).
  assert (IFF : forall t, k * t² + l * t + w = 0 <-> (2 * k * t + l)² = D).
  { intros t. specialize (SQ t). split; intros H; [rewrite H in SQ; lra|]. rewrite H in SQ. assert (4 * k <> 0) by lra. apply Rmult_eq_reg_l with (4 * k); [lra|assumption]. }
  destruct (Rlt_dec D 0) as [N|N].
  - exists []. split; [cbn; lia|]. intros t. rewrite IFF. split; [intros []|]. intros E. pose proof (Rle_0_sqr (2 * k * t + l)). lra.
  - exists [(- l + sqrt D) / (2 * k); (- l - sqrt D) / (2 * k)]. split; [cbn; lia|]. intros t. rewrite IFF. cbn [In].
    assert (S : (sqrt D)² = D) by (apply Rsqr_sqrt; lra). split.
    + intros [<-|[<-|[]]].
      * replace (2 * k * ((- l + sqrt D) / (2 * k)) + l) with (sqrt D) by (field; exact K). exact S.
      * replace (2 * k * ((- l - sqrt D) / (2 * k)) + l) with (- sqrt D) by (field; exact K). rewrite <- Rsqr_neg. exact S.
    + intros E. rewrite <- S in E. apply Rsqr_eq in E. destruct E as [E|E]; [left|right; left].
      * rewrite <- E. field. exact K.
      * replace (- l - sqrt D) with (- l + - sqrt D) by ring. rewrite <- E. field. exact K.
Qed.

Section Cross.
  Context {M : Type}.
  Implicit Types m : option M.

  Theorem ball_crossings m diam c s d : 0 <= diam -> d <> zero3 ->
    exists cs, (length cs <= 2)%nat /\ crossings (sphere m diam c) s d cs /\ forall t, In t cs <-> dist2 (along s d t) c = (diam / 2)².
  Proof.
    intros Hd Hz. set (w := minus3 s c).
    assert (Q : forall t, dist2 (along s d t) c - (diam / 2)² = norm2 d * t² + 2 * dot3 w d * t + (norm2 w - (diam / 2)²)).
    { intros t. unfold w, dist2, norm2, dot3, along, plus3, scal3, minus3, Rsqr. cbn [vx vy vz]. ring. }
    destruct (zeros_list (norm2 d) (2 * dot3 w d) (norm2 w - (diam / 2)²)) as (cs & L & Z); [apply norm2_nonzero, Hz|].
    assert (IFF : forall t, In t cs <-> dist2 (along s d t) c = (diam / 2)²) by (intros t; rewrite Z, <- Q; split; intros; lra).
    exists cs. split; [exact L|]. split; [|exact IFF]. intros t0 T0 _.
    set (h := quadricIntersect (sphereData m diam c) (Ray (along s d t0) d)).
    exists h. split; [reflexivity|].
    destruct (sphere_exact m diam c (along s d t0) d Hd Hz) as [(P & S & _ & _ & _ & F)|(E & F)].
    - fold h in P, S, F. left. exists (t0 + hT h). rewrite along_along in S. split; [apply IFF, S|]. split; [lra|]. split; [|lra].
      intros c' I L'. destruct (Rle_dec (t0 + hT h) c') as [G|G]; [exact G|exfalso]. apply (F (c' - t0)); [lra|]. rewrite along_along. replace (t0 + (c' - t0)) with c' by ring. now apply IFF.
    - fold h in E. right. split; [|rewrite E; cbn; lra]. intros c' I. destruct (Rle_dec c' t0) as [G|G]; [exact G|exfalso].
      apply (F (c' - t0)); [lra|]. rewrite along_along. replace (t0 + (c' - t0)) with c' by ring. now apply IFF.
  Qed.

  (** the slab test from any point of the ray *)
  Lemma slab_line lo hi s d : ordered lo hi -> slanted d -> exists ten tex,
    (forall t, in_closed_box lo hi (along s d t) <-> ten <= t <= tex) /\ (forall t, ten < t < tex -> in_open_box lo hi (along s d t)) /\
    on_plane lo hi (along s d ten) /\ on_plane lo hi (along s d tex) /\
    forall t0, bbIntersect (BBox lo hi) (Ray (along s d t0) d) = if Rltb (tex - t0) (ten - t0) then 0 else if Rltb (ten - t0) 0 then tex - t0 else ten - t0.
  Proof.
    intros (O1 & O2 & O3) (D1 & D2 & D3).
    assert (AX : forall l h x y, y <> 0 -> l <= h -> exists p q, (forall t, l <= x + t * y <= h <-> p <= t <= q) /\ (forall t, p < t < q -> l < x + t * y < h) /\
      (x + p * y = l \/ x + p * y = h) /\ (x + q * y = l \/ x + q * y = h) /\
      forall t0, Rmin ((l - (x + t0 * y)) * (1 / y)) ((h - (x + t0 * y)) * (1 / y)) = p - t0 /\ Rmax ((l - (x + t0 * y)) * (1 / y)) ((h - (x + t0 * y)) * (1 / y)) = q - t0).
    { clear. intros l h x y Y L. assert (S : forall z t0, (z - (x + t0 * y)) * (1 / y) = (z - x) * (1 / y) - t0) by (intros; field; exact Y).
      assert (P : (l - x) * (1 / y) * y = l - x) by (field; exact Y). assert (Q : (h - x) * (1 / y) * y = h - x) by (field; exact Y).
      set (p := (l - x) * (1 / y)) in *. set (q := (h - x) * (1 / y)) in *.
      destruct (Rlt_dec 0 y) as [G|G].
      - exists p, q. split; [intros t; split; intros; split; nra|]. split; [intros t T; split; nra|]. split; [left; lra|]. split; [right; lra|].
        intros t0. rewrite !S. fold p q. assert (p <= q) by nra. rewrite Rmin_left, Rmax_right by lra. auto.
      - assert (y < 0) by lra. exists q, p. split; [intros t; split; intros; split; nra|]. split; [intros t T; split; nra|]. split; [right; lra|]. split; [left; lra|].
        intros t0. rewrite !S. fold p q. assert (q <= p) by nra. rewrite Rmin_right, Rmax_left by lra. auto. }
    destruct (AX _ _ (vx s) _ D1 O1) as (p1 & q1 & A1 & B1 & P1 & Q1 & M1). destruct (AX _ _ (vy s) _ D2 O2) as (p2 & q2 & A2 & B2 & P2 & Q2 & M2). destruct (AX _ _ (vz s) _ D3 O3) as (p3 & q3 & A3 & B3 & P3 & Q3 & M3). clear AX.
    destruct (max3_R p1 p2 p3) as ((U1 & U2 & U3) & U). destruct (min3_R q1 q2 q3) as ((V1 & V2 & V3) & V).
    exists (max3 p1 p2 p3), (min3 q1 q2 q3). unfold in_closed_box, in_open_box, on_plane, along, plus3, scal3. cbn [vx vy vz].
    split. { intros t. rewrite A1, A2, A3. split; [|lra]. intros H. split; [destruct U as [-> |[-> | ->]]; lra|destruct V as [-> |[-> | ->]]; lra]. }
    split. { intros t T. split; [apply B1; lra|split; [apply B2; lra|apply B3; lra]]. }
    split. { destruct U as [-> |[-> | ->]]; auto. }
    split. { destruct V as [-> |[-> | ->]]; auto. }
    intros t0. unfold bbIntersect, bbEnterExit. cbn [bMin bMax rStart rDir vx vy vz]. rewrite !umin_R, !umax_R. rnum.
    rewrite (proj1 (M1 t0)), (proj2 (M1 t0)), (proj1 (M2 t0)), (proj2 (M2 t0)), (proj1 (M3 t0)), (proj2 (M3 t0)).
    assert (E1 : max3 (p1 - t0) (p2 - t0) (p3 - t0) = max3 p1 p2 p3 - t0).
    { destruct (max3_R (p1 - t0) (p2 - t0) (p3 - t0)) as ((X1 & X2 & X3) & X). destruct U as [U|[U|U]]; rewrite U in *; destruct X as [X|[X|X]]; rewrite X in *; lra. }
    assert (E2 : min3 (q1 - t0) (q2 - t0) (q3 - t0) = min3 q1 q2 q3 - t0).
    { destruct (min3_R (q1 - t0) (q2 - t0) (q3 - t0)) as ((X1 & X2 & X3) & X). destruct V as [V|[V|V]]; rewrite V in *; destruct X as [X|[X|X]]; rewrite X in *; lra. }
    rewrite E1, E2. reflexivity.
  Qed.

  Theorem box_crossings m lo hi s d : ordered lo hi -> slanted d -> ~ on_box_surface lo hi s ->
    exists cs, (length cs <= 2)%nat /\ crossings (boxWithBounds m lo hi) s d cs /\ forall t, In t cs <-> on_box_surface lo hi (along s d t).
  Proof.
    intros O SD NS. destruct (slab_line lo hi s d O SD) as (ten & tex & IN & OP & PE & PX & BB).
    assert (OPEN : forall p, in_open_box lo hi p -> ~ on_plane lo hi p) by (intros p (X & Y & Z) H; unfold on_plane in H; lra).
    destruct (Rle_dec ten tex) as [L|L].
    - assert (IFF : forall t, In t [ten; tex] <-> on_box_surface lo hi (along s d t)).
      { intros t. cbn [In]. split.
        - intros [<-|[<-|[]]]; apply on_plane_surface; auto; apply IN; lra.
        - intros [C N]. apply IN in C. destruct (Req_dec ten t); [auto|]. destruct (Req_dec tex t); [auto|]. exfalso. apply N, OP. lra. }
      exists [ten; tex]. split; [cbn; lia|]. split; [|exact IFF]. intros t0 T0 H0.
      assert (NI0 : ~ In t0 [ten; tex]). { destruct H0 as [-> |H0]; [|exact H0]. intros I. apply IFF in I. rewrite along_zero in I. contradiction. }
      assert (N1 : ten <> t0) by (intros ->; apply NI0; cbn; auto). assert (N2 : tex <> t0) by (intros ->; apply NI0; cbn; auto).
      specialize (BB t0). rewrite (proj2 (Rltb_false (tex - t0) (ten - t0))) in BB by lra.
      unfold boxWithBounds, simpleObj. cbn [oIntersect]. unfold boxIntersect.
      assert (HIT : forall t, bbIntersect (BBox lo hi) (Ray (along s d t0) d) = t - t0 -> t0 < t -> on_plane lo hi (along s d t) ->
        exists h, omap (fun h => (h, Ray (along s d t0) d)) (let t := bbIntersect (BBox lo hi) (Ray (along s d t0) d) in
           if negb (nltb (nofZ 0) t) then Val noHit else let p := rayAt (Ray (along s d t0) d) t in omap (fun n => Hit t n (vsub p (bMin (BBox lo hi))) m) (boxNormal (BBox lo hi) p)) = Val (h, Ray (along s d t0) d) /\ hT h = t - t0).
      { intros t E LT ON. cbv zeta. rewrite E. assert (P : nltb (nofZ 0) (t - t0) = true) by (rnum; apply Rltb_true; lra). rewrite P. cbn [negb]. rewrite rayAt_along, along_along.
        replace (t0 + (t - t0)) with t by ring.
        assert (NN : exists n, boxNormal (BBox lo hi) (along s d t) = Val n).
        { unfold boxNormal. cbn [bMin bMax]. set (p := along s d t) in *.
          destruct (approx (vx p) (vx lo)) eqn:E1; [eauto|]. destruct (approx (vx p) (vx hi)) eqn:E2; [eauto|].
          destruct (approx (vy p) (vy lo)) eqn:E3; [eauto|]. destruct (approx (vy p) (vy hi)) eqn:E4; [eauto|].
          destruct (approx (vz p) (vz lo)) eqn:E5; [eauto|]. destruct (approx (vz p) (vz hi)) eqn:E6; [eauto|].
          exfalso. unfold on_plane in ON. destruct ON as [[Q|Q]|[[Q|Q]|[Q|Q]]]; rewrite Q, approx_self in *; discriminate. }
        destruct NN as (n & ->). cbn [omap obind]. eexists. split; [reflexivity|]. reflexivity. }
      destruct (Rltb (ten - t0) 0) eqn:E; [apply Rltb_true in E|apply Rltb_false in E].
      + destruct (Rlt_dec t0 tex) as [G|G].
        * destruct (HIT tex BB G PX) as (h & EH & TH). exists h. split; [exact EH|]. left. exists tex. split; [cbn; auto|]. split; [lra|]. split; [|exact TH]. intros c' [<-|[<-|[]]] ?; lra.
        * cbv zeta. rewrite BB. assert (P : nltb (nofZ 0) (tex - t0) = false) by (rnum; apply Rltb_false; lra). rewrite P. cbn [negb omap obind]. eexists. split; [reflexivity|]. right. split; [intros c' [<-|[<-|[]]]; lra|cbn; lra].
      + destruct (HIT ten BB ltac:(lra) PE) as (h & EH & TH). exists h. split; [exact EH|]. left. exists ten. split; [cbn; auto|]. split; [lra|]. split; [|exact TH]. intros c' [<-|[<-|[]]] ?; lra.
    - exists []. split; [cbn; lia|]. split.
      + intros t0 _ _. specialize (BB t0). rewrite (proj2 (Rltb_true (tex - t0) (ten - t0))) in BB by lra.
        unfold boxWithBounds, simpleObj. cbn [oIntersect]. unfold boxIntersect. cbv zeta. rewrite BB. assert (P : nltb (nofZ 0) 0 = false) by (rnum; apply Rltb_false; lra). rewrite P. cbn [negb omap obind].
        eexists. split; [reflexivity|]. right. split; [intros c' []|cbn; lra].
      + intros t. split; [intros []|]. intros [C _]. apply IN in C. lra.
  Qed.
End Cross.

(** ** A ball cut with a box *)
Section Dice.
  Context {M : Type} {NI : NumInf R}.
  Variables (m m' : option M) (diam : R) (c lo hi s d : pt).
  Let ball : object R M := sphere m diam c.
  Let cube : object R M := boxWithBounds m' lo hi.
  Definition on_ball (t : R) : Prop := dist2 (along s d t) c = (diam / 2)².
  Definition on_cube (t : R) : Prop := on_box_surface lo hi (along s d t).

  Lemma gap_separated (P : R -> Prop) cs : (forall t, In t cs <-> P t) -> (forall t t', P t -> P t' -> t < t' -> t + tiny < t') -> separated cs.
  Proof. intros I H x y X Y L. apply H; auto; now apply I. Qed.

  Theorem dice_first : 0 <= diam -> d <> zero3 -> ordered lo hi -> slanted d -> ~ on_box_surface lo hi s ->
    (forall t t', on_ball t -> on_ball t' -> t < t' -> t + tiny < t') -> (forall t t', on_cube t -> on_cube t' -> t < t' -> t + tiny < t') ->
    (forall t, on_ball t \/ on_cube t -> t < ninf) ->
    let valid t := 0 < t /\ ((on_ball t /\ in_open_box lo hi (along s d t)) \/ (on_cube t /\ dist2 (along s d t) c < (diam / 2)²)) in
    exists h, oIntersect (cAnd ball cube) (Ray s d) = Val (h, Ray s d) /\
      ((valid (hT h) /\ forall t, valid t -> hT h <= t) \/ (hT h = 0 /\ forall t, ~ valid t)).
  Proof.
    intros Hd Hz O SD NS G1 G2 FIN valid.
    destruct (ball_crossings m diam c s d Hd Hz) as (ca & La & Ca & Ia). destruct (box_crossings m' lo hi s d O SD NS) as (cb & Lb & Cb & Ib).
    set (insB := fun t => bbInside (BBox lo hi) (along s d t)). set (insA := fun t => quadricInside (sphereData m diam c) (along s d t)).
    assert (EB : forall t, insB t = true <-> in_open_box lo hi (along s d t)) by (intros t; apply (box_inside m' lo hi (along s d t) (insB t) eq_refl)).
    assert (EA : forall t, insA t = true <-> dist2 (along s d t) c < (diam / 2)²).
    { intros t. rewrite <- (sphere_inside m diam c (along s d t) Hd). cbn [oInside sphere quadric simpleObj]. unfold insA. split; congruence. }
    destruct (marchBoth_complete (fun x => x) ball cube s d ca cb insA insB Ca Cb (gap_separated _ _ Ia G1) (gap_separated _ _ Ib G2)) as (h & E & H); try (intros; reflexivity); try lia.
    { intros t [I|I]; apply FIN; [left; now apply Ia|right; now apply Ib]. }
    exists h. split; [exact E|].
    assert (V : forall t, CsgProofs.valid (fun x => x) ca cb insA insB t <-> valid t).
    { intros t. unfold CsgProofs.valid, valid. rewrite Ia, Ib, EA, EB. unfold on_ball, on_cube. tauto. }
    destruct H as [[H1 H2]|[H1 H2]]; [left|right].
    - split; [now apply V|]. intros t T. apply H2. now apply V.
    - split; [exact H1|]. intros t T. apply (H2 t). now apply V.
  Qed.
End Dice.
