(** * Bounding boxes and boxes over the extended reals *)
From Coq Require Import ZArith Reals Bool List Lra Lia.
From Flocq Require Import Core.
From Verif Require Import Num NumLaws Outcome GeomModel GeomSpec GeomProofs ObjModel ObjSpec.
Local Open Scope R_scope.

(** order on extended reals as propositions *)
Definition xle (x y : xr) : Prop := xleb x y = true.
Definition xlt (x y : xr) : Prop := xltb x y = true.

Lemma xle_XF a b : xle (XF a) (XF b) <-> a <= b.
Proof. unfold xle, xleb; cbn. rewrite orb_true_iff, Rltb_true, Reqb_true. lra. Qed.
Lemma xlt_XF a b : xlt (XF a) (XF b) <-> a < b.
Proof. unfold xlt; cbn. apply Rltb_true. Qed.
Lemma Rsgn_pos a : 0 < a -> Rsgn a = Gt.
Proof. intros; unfold Rsgn. now apply Rcompare_Gt. Qed.
Lemma Rsgn_neg a : a < 0 -> Rsgn a = Lt.
Proof. intros; unfold Rsgn. now apply Rcompare_Lt. Qed.

(** one axis: entry and exit parameter of the slab lo <= x <= hi *)
Definition slabEn (lo hi s d : R) : xr :=
  umin (xmul (xsub (XF lo) (XF s)) (xdiv (XF 1) (XF d))) (xmul (xsub (XF hi) (XF s)) (xdiv (XF 1) (XF d))).
Definition slabEx (lo hi s d : R) : xr :=
  umax (xmul (xsub (XF lo) (XF s)) (xdiv (XF 1) (XF d))) (xmul (xsub (XF hi) (XF s)) (xdiv (XF 1) (XF d))).

Lemma xdiv1 d : d <> 0 -> xdiv (XF 1) (XF d) = XF (1 / d).
Proof. intros H; cbn. destruct (Req_EM_T d 0); [lra|reflexivity]. Qed.
Lemma xdiv1_0 : xdiv (XF 1) (XF 0) = XP.
Proof. cbn. destruct (Req_EM_T 0 0); [|lra]. rewrite Rsgn_pos by lra. reflexivity. Qed.

Lemma umin_XF a b : umin (XF a) (XF b) = XF (Rmin a b).
Proof. unfold umin; cbn. destruct (Rltb_spec a b); f_equal; [rewrite Rmin_left|rewrite Rmin_right]; auto; lra. Qed.
Lemma umax_XF a b : umax (XF a) (XF b) = XF (Rmax a b).
Proof. unfold umax; cbn. destruct (Rltb_spec b a); f_equal; [rewrite Rmax_left|rewrite Rmax_right]; auto; lra. Qed.

(** both ends are finite when the direction has a component along the axis *)
Lemma slab_finite lo hi s d : d <> 0 -> lo <= hi ->
  exists a b, slabEn lo hi s d = XF a /\ slabEx lo hi s d = XF b /\ a <= b /\
    (s + a * d = lo \/ s + a * d = hi) /\ (s + b * d = lo \/ s + b * d = hi) /\
    forall t, (lo <= s + t * d <= hi) <-> (a <= t <= b).
Proof.
  intros Hd Hl. unfold slabEn, slabEx. rewrite xdiv1 by auto. cbn [xsub xadd xopp xmul].
  rewrite umin_XF, umax_XF.
  set (p := (lo + - s) * (1 / d)). set (q := (hi + - s) * (1 / d)).
  assert (s + p * d = lo) as Hp by (unfold p; field; auto).
  assert (s + q * d = hi) as Hq by (unfold q; field; auto).
  exists (Rmin p q), (Rmax p q). split; auto. split; auto.
  assert (forall t, s + t * d - lo = (t - p) * d) as E1 by (intros; rewrite <- Hp; ring).
  assert (forall t, hi - (s + t * d) = (q - t) * d) as E2 by (intros; rewrite <- Hq; ring).
  assert (0 <= (q - p) * d) as Hpq by (generalize (E1 q); rewrite Hq; lra).
  destruct (Rlt_or_le 0 d) as [P|N].
  - assert (p <= q) by nra. rewrite Rmin_left, Rmax_right by lra. repeat split; auto; try tauto.
    + generalize (E1 t). nra.
    + generalize (E2 t). nra.
    + generalize (E1 t). nra.
    + generalize (E2 t). nra.
  - assert (d < 0) by lra. assert (q <= p) by nra. rewrite Rmin_right, Rmax_left by lra. repeat split; auto; try tauto.
    + generalize (E2 t). nra.
    + generalize (E1 t). nra.
    + generalize (E1 t). nra.
    + generalize (E2 t). nra.
Qed.

Lemma xmul_pos_P a : 0 < a -> xmul (XF a) XP = XP.
Proof. intros; cbn. rewrite Rsgn_pos; auto. Qed.
Lemma xmul_neg_P a : a < 0 -> xmul (XF a) XP = XN.
Proof. intros; cbn. rewrite Rsgn_neg; auto. Qed.

(** no component: the whole line is inside or outside; start off the planes *)
Lemma slab_parallel lo hi s : lo <= hi -> s <> lo -> s <> hi ->
  (lo < s < hi /\ slabEn lo hi s 0 = XN /\ slabEx lo hi s 0 = XP) \/
  (s < lo /\ slabEn lo hi s 0 = XP /\ slabEx lo hi s 0 = XP) \/
  (hi < s /\ slabEn lo hi s 0 = XN /\ slabEx lo hi s 0 = XN).
Proof.
  intros Hl H1 H2. unfold slabEn, slabEx. rewrite xdiv1_0. cbn [xsub xadd xopp].
  destruct (Rlt_or_le s lo) as [A|A]; [|destruct (Rlt_or_le hi s) as [B|B]].
  - right; left. rewrite !xmul_pos_P by lra. auto.
  - right; right. rewrite !xmul_neg_P by lra. auto.
  - left. rewrite xmul_neg_P, xmul_pos_P by lra. split; [lra|auto].
Qed.

(** a slab, in all cases: neither end is NaN and the slab is the interval of parameters *)
Lemma slab_spec lo hi s d : lo <= hi -> s <> lo -> s <> hi ->
  xnan (slabEn lo hi s d) = false /\ xnan (slabEx lo hi s d) = false /\
  forall t, (lo <= s + t * d <= hi) <-> (xle (slabEn lo hi s d) (XF t) /\ xle (XF t) (slabEx lo hi s d)).
Proof.
  intros Hl H1 H2. destruct (Req_EM_T d 0) as [->|Hd].
  - destruct (slab_parallel lo hi s Hl H1 H2) as [(A & -> & ->)|[(A & -> & ->)|(A & -> & ->)]];
      (split; [reflexivity|split; [reflexivity|]]); intros t; unfold xle, xleb; cbn; split; intros; auto; try lra;
      destruct H; congruence.
  - destruct (slab_finite lo hi s d Hd Hl) as (a & b & -> & -> & _ & _ & _ & H).
    split; [reflexivity|split; [reflexivity|]]. intros t. rewrite !xle_XF. apply H.
Qed.

Lemma max3_cases (x y z : xr) : max3 x y z = x \/ max3 x y z = y \/ max3 x y z = z.
Proof. unfold max3. destruct (nltb x y); destruct (nltb _ z); auto. Qed.
Lemma min3_cases (x y z : xr) : min3 x y z = x \/ min3 x y z = y \/ min3 x y z = z.
Proof. unfold min3. destruct (nltb y x); destruct (nltb z _); auto. Qed.

Lemma max3_upper (x y z : xr) : xnan x = false -> xnan y = false -> xnan z = false ->
  xle x (max3 x y z) /\ xle y (max3 x y z) /\ xle z (max3 x y z).
Proof.
  intros Hx Hy Hz. unfold max3, xle. cbn [nltb NumX].
  destruct (xltb x y) eqn:E1.
  - destruct (xltb y z) eqn:E2; repeat split; auto using xleb_refl, xltb_leb.
    + apply xltb_leb. eapply xltb_trans; eauto.
    + rewrite xleb_ltb by auto. now rewrite E2.
  - destruct (xltb x z) eqn:E2; repeat split; auto using xleb_refl, xltb_leb.
    + assert (xleb y x = true) by (rewrite xleb_ltb by auto; now rewrite E1).
      apply xltb_leb. eapply xle_lt_trans; eauto.
    + rewrite xleb_ltb by auto. now rewrite E1.
    + rewrite xleb_ltb by auto. now rewrite E2.
Qed.
Lemma min3_lower (x y z : xr) : xnan x = false -> xnan y = false -> xnan z = false ->
  xle (min3 x y z) x /\ xle (min3 x y z) y /\ xle (min3 x y z) z.
Proof.
  intros Hx Hy Hz. unfold min3, xle. cbn [nltb NumX].
  destruct (xltb y x) eqn:E1.
  - destruct (xltb z y) eqn:E2; repeat split; auto using xleb_refl, xltb_leb.
    + apply xltb_leb. eapply xltb_trans; eauto.
    + rewrite xleb_ltb by auto. now rewrite E2.
  - destruct (xltb z x) eqn:E2; repeat split; auto using xleb_refl, xltb_leb.
    + assert (xleb x y = true) by (rewrite xleb_ltb by auto; now rewrite E1).
      apply xltb_leb. eapply xlt_le_trans; eauto.
    + rewrite xleb_ltb by auto. now rewrite E1.
    + rewrite xleb_ltb by auto. now rewrite E2.
Qed.

Section Exact.
  Variables lo hi s d : pt.
  Hypothesis Hord : ordered lo hi.
  Hypothesis Hoff : off_planes lo hi s.
  Hypothesis Hd : d <> zero3.

  Let ten := fst (bbEnterExit (xbox lo hi) (xray s d)).
  Let tex := snd (bbEnterExit (xbox lo hi) (xray s d)).

  Lemma ten_eq : ten = max3 (slabEn (vx lo) (vx hi) (vx s) (vx d)) (slabEn (vy lo) (vy hi) (vy s) (vy d)) (slabEn (vz lo) (vz hi) (vz s) (vz d)).
  Proof. reflexivity. Qed.
  Lemma tex_eq : tex = min3 (slabEx (vx lo) (vx hi) (vx s) (vx d)) (slabEx (vy lo) (vy hi) (vy s) (vy d)) (slabEx (vz lo) (vz hi) (vz s) (vz d)).
  Proof. reflexivity. Qed.

  Lemma slab_notnan : xnan ten = false /\ xnan tex = false.
  Proof.
    destruct Hord as (O1 & O2 & O3), Hoff as (F1 & F2 & F3 & F4 & F5 & F6).
    destruct (slab_spec _ _ (vx s) (vx d) O1 F1 F2) as (A1 & B1 & C1).
    destruct (slab_spec _ _ (vy s) (vy d) O2 F3 F4) as (A2 & B2 & C2).
    destruct (slab_spec _ _ (vz s) (vz d) O3 F5 F6) as (A3 & B3 & C3).
    split.
    - rewrite ten_eq. destruct (max3_cases (slabEn (vx lo) (vx hi) (vx s) (vx d)) (slabEn (vy lo) (vy hi) (vy s) (vy d)) (slabEn (vz lo) (vz hi) (vz s) (vz d))) as [-> | [-> | ->]]; auto.
    - rewrite tex_eq. destruct (min3_cases (slabEx (vx lo) (vx hi) (vx s) (vx d)) (slabEx (vy lo) (vy hi) (vy s) (vy d)) (slabEx (vz lo) (vz hi) (vz s) (vz d))) as [-> | [-> | ->]]; auto.
  Qed.

  Lemma in_box_iff t : in_closed_box lo hi (along s d t) <-> (xle ten (XF t) /\ xle (XF t) tex).
  Proof.
    destruct Hord as (O1 & O2 & O3), Hoff as (F1 & F2 & F3 & F4 & F5 & F6).
    destruct (slab_spec _ _ (vx s) (vx d) O1 F1 F2) as (A1 & B1 & C1).
    destruct (slab_spec _ _ (vy s) (vy d) O2 F3 F4) as (A2 & B2 & C2).
    destruct (slab_spec _ _ (vz s) (vz d) O3 F5 F6) as (A3 & B3 & C3).
    destruct (max3_upper _ _ _ A1 A2 A3) as (U1 & U2 & U3).
    destruct (min3_lower _ _ _ B1 B2 B3) as (L1 & L2 & L3).
    rewrite <- ten_eq in U1, U2, U3. rewrite <- tex_eq in L1, L2, L3.
    unfold in_closed_box, along, plus3, scal3. cbn [vx vy vz]. rewrite C1, C2, C3. clear C1 C2 C3.
    unfold xle in *. split.
    - intros ((X1 & X2) & (Y1 & Y2) & (Z1 & Z2)). split.
      + rewrite ten_eq. edestruct max3_cases as [E|[E|E]]; rewrite E; auto.
      + rewrite tex_eq. edestruct min3_cases as [E|[E|E]]; rewrite E; auto.
    - intros (X & Y). repeat split; eapply xle_trans; eauto.
  Qed.

  (** some axis bounds both ends *)
  Lemma finite_axis : exists a b, xle (XF a) ten /\ xle tex (XF b).
  Proof.
    destruct Hord as (O1 & O2 & O3), Hoff as (F1 & F2 & F3 & F4 & F5 & F6).
    destruct (slab_spec _ _ (vx s) (vx d) O1 F1 F2) as (A1 & B1 & C1).
    destruct (slab_spec _ _ (vy s) (vy d) O2 F3 F4) as (A2 & B2 & C2).
    destruct (slab_spec _ _ (vz s) (vz d) O3 F5 F6) as (A3 & B3 & C3).
    destruct (max3_upper _ _ _ A1 A2 A3) as (U1 & U2 & U3).
    destruct (min3_lower _ _ _ B1 B2 B3) as (L1 & L2 & L3).
    rewrite <- ten_eq in U1, U2, U3. rewrite <- tex_eq in L1, L2, L3.
    assert (vx d <> 0 \/ vy d <> 0 \/ vz d <> 0) as [H|[H|H]].
    { destruct (Req_EM_T (vx d) 0) as [E1|]; auto. destruct (Req_EM_T (vy d) 0) as [E2|]; auto.
      destruct (Req_EM_T (vz d) 0) as [E3|]; auto. exfalso; apply Hd. now apply vec_eq. }
    - destruct (slab_finite _ _ (vx s) _ H O1) as (a & b & E & E' & _). rewrite E in U1. rewrite E' in L1. eauto.
    - destruct (slab_finite _ _ (vy s) _ H O2) as (a & b & E & E' & _). rewrite E in U2. rewrite E' in L2. eauto.
    - destruct (slab_finite _ _ (vz s) _ H O3) as (a & b & E & E' & _). rewrite E in U3. rewrite E' in L3. eauto.
  Qed.

  (** either the line misses the box, or it crosses it in a finite interval *)
  Lemma line_cases :
    (xltb tex ten = true /\ forall t, ~ in_closed_box lo hi (along s d t)) \/
    (exists a b, ten = XF a /\ tex = XF b /\ a <= b /\ a <> 0 /\ b <> 0 /\
       forall t, in_closed_box lo hi (along s d t) <-> a <= t <= b).
  Proof.
    destruct slab_notnan as [N1 N2]. destruct (xltb tex ten) eqn:E.
    - left. split; auto. intros t H. apply in_box_iff in H. destruct H as [H1 H2].
      generalize (xle_trans _ _ _ H1 H2). intros H. generalize (xle_lt_trans _ _ _ H E).
      now rewrite xltb_irrefl.
    - right. assert (xle ten tex) as L by (unfold xle; rewrite xleb_ltb by auto; now rewrite E).
      destruct finite_axis as (a0 & b0 & A & B). generalize in_box_iff. intros I.
      assert (exists a, ten = XF a) as (a & Ea).
      { destruct ten as [a| | |]; eauto; try discriminate.
        - exfalso. unfold xle in *. destruct tex; discriminate. }
      assert (exists b, tex = XF b) as (b & Eb).
      { destruct tex as [b| | |]; eauto; try discriminate.
        rewrite Ea in L. discriminate. }
      rewrite Ea, Eb in *. rewrite xle_XF in L. exists a, b.
      assert (forall t, in_closed_box lo hi (along s d t) <-> a <= t <= b) as I'
        by (intros t; rewrite I, !xle_XF; tauto).
      repeat split; auto; try (now apply I'); try (now apply I' in H); intros ->.
      + (* entering at parameter 0 means starting on a plane *)
        revert Ea. rewrite ten_eq. destruct Hord as (O1 & O2 & O3), Hoff as (F1 & F2 & F3 & F4 & F5 & F6).
        intros Ea. assert (forall lo hi s d, lo <= hi -> s <> lo -> s <> hi -> slabEn lo hi s d <> XF 0) as NZ.
        { clear. intros lo hi s d Hl H1 H2 E. destruct (Req_EM_T d 0) as [->|Hd].
          - destruct (slab_parallel lo hi s Hl H1 H2) as [(_ & E' & _)|[(_ & E' & _)|(_ & E' & _)]]; congruence.
          - destruct (slab_finite lo hi s d Hd Hl) as (a & b & E' & _ & _ & P & _).
            rewrite E in E'. injection E' as <-. lra. }
        edestruct max3_cases as [E0|[E0|E0]]; rewrite E0 in Ea; revert Ea; apply NZ; auto.
      + revert Eb. rewrite tex_eq. destruct Hord as (O1 & O2 & O3), Hoff as (F1 & F2 & F3 & F4 & F5 & F6).
        intros Eb. assert (forall lo hi s d, lo <= hi -> s <> lo -> s <> hi -> slabEx lo hi s d <> XF 0) as NZ.
        { clear. intros lo hi s d Hl H1 H2 E. destruct (Req_EM_T d 0) as [->|Hd].
          - destruct (slab_parallel lo hi s Hl H1 H2) as [(_ & _ & E')|[(_ & _ & E')|(_ & _ & E')]]; congruence.
          - destruct (slab_finite lo hi s d Hd Hl) as (a & b & _ & E' & _ & _ & P & _).
            rewrite E in E'. injection E' as <-. lra. }
        edestruct min3_cases as [E0|[E0|E0]]; rewrite E0 in Eb; revert Eb; apply NZ; auto.
  Qed.
End Exact.

(** the finite ends of the interval lie on one of the six planes *)
Lemma slabEn_plane lo hi s d a : lo <= hi -> s <> lo -> s <> hi -> slabEn lo hi s d = XF a ->
  s + a * d = lo \/ s + a * d = hi.
Proof.
  intros Hl H1 H2 E. destruct (Req_EM_T d 0) as [->|Hd].
  - destruct (slab_parallel lo hi s Hl H1 H2) as [(_ & E' & _)|[(_ & E' & _)|(_ & E' & _)]]; congruence.
  - destruct (slab_finite lo hi s d Hd Hl) as (a' & b & E' & _ & _ & P & _).
    rewrite E in E'. injection E' as <-. exact P.
Qed.
Lemma slabEx_plane lo hi s d a : lo <= hi -> s <> lo -> s <> hi -> slabEx lo hi s d = XF a ->
  s + a * d = lo \/ s + a * d = hi.
Proof.
  intros Hl H1 H2 E. destruct (Req_EM_T d 0) as [->|Hd].
  - destruct (slab_parallel lo hi s Hl H1 H2) as [(_ & _ & E')|[(_ & _ & E')|(_ & _ & E')]]; congruence.
  - destruct (slab_finite lo hi s d Hd Hl) as (a' & b & _ & E' & _ & _ & P & _).
    rewrite E in E'. injection E' as <-. exact P.
Qed.

Definition on_plane (lo hi p : pt) : Prop :=
  (vx p = vx lo \/ vx p = vx hi) \/ (vy p = vy lo \/ vy p = vy hi) \/ (vz p = vz lo \/ vz p = vz hi).

Lemma on_plane_surface lo hi p : on_plane lo hi p -> in_closed_box lo hi p -> on_box_surface lo hi p.
Proof. intros H C. split; auto. intros (A & B & D). unfold on_plane in H. lra. Qed.

Section Exact2.
  Variables lo hi s d : pt.
  Hypothesis Hord : ordered lo hi.
  Hypothesis Hoff : off_planes lo hi s.
  Hypothesis Hd : d <> zero3.

  Lemma ten_plane a : fst (bbEnterExit (xbox lo hi) (xray s d)) = XF a -> on_plane lo hi (along s d a).
  Proof.
    rewrite ten_eq. destruct Hord as (O1 & O2 & O3), Hoff as (F1 & F2 & F3 & F4 & F5 & F6).
    unfold on_plane, along, plus3, scal3; cbn [vx vy vz].
    edestruct max3_cases as [E|[E|E]]; rewrite E; intros H; apply slabEn_plane in H; auto.
  Qed.
  Lemma tex_plane a : snd (bbEnterExit (xbox lo hi) (xray s d)) = XF a -> on_plane lo hi (along s d a).
  Proof.
    rewrite tex_eq. destruct Hord as (O1 & O2 & O3), Hoff as (F1 & F2 & F3 & F4 & F5 & F6).
    unfold on_plane, along, plus3, scal3; cbn [vx vy vz].
    edestruct min3_cases as [E|[E|E]]; rewrite E; intros H; apply slabEx_plane in H; auto.
  Qed.

  Lemma along_0 : along s d 0 = s.
  Proof. unfold along, plus3, scal3. apply vec_eq; cbn; ring. Qed.

  Lemma bbIntersect_eq : bbIntersect (xbox lo hi) (xray s d) =
    let ten := fst (bbEnterExit (xbox lo hi) (xray s d)) in let tex := snd (bbEnterExit (xbox lo hi) (xray s d)) in
    if xltb tex ten then XF 0 else if xltb ten (XF 0) then tex else ten.
  Proof. unfold bbIntersect. destruct (bbEnterExit _ _); reflexivity. Qed.

  Lemma bbIntersect_exact :
    (exists t, bbIntersect (xbox lo hi) (xray s d) = XF t /\ first_crossing lo hi s d t /\ on_plane lo hi (along s d t)) \/
    (bbIntersects (xbox lo hi) (xray s d) = false /\ forall t, 0 < t -> ~ in_closed_box lo hi (along s d t)).
  Proof.
    unfold bbIntersects. generalize ten_plane tex_plane. rewrite bbIntersect_eq. cbv zeta.
    destruct (line_cases lo hi s d Hord Hoff Hd) as [[E H]|(a & b & Ea & Eb & Hab & Ha & Hb & H)].
    - intros _ _. right. rewrite E. split; [|auto]. cbn. apply Rltb_false; lra.
    - rewrite Ea, Eb. intros Pa Pb. cbn [xltb nltb nofZ NumX]. rewrite (proj2 (Rltb_false b a)) by lra.
      assert (in_closed_box lo hi s <-> a <= 0 <= b) as H0 by (rewrite <- along_0 at 1; apply H).
      destruct (Rltb_spec a 0) as [L|L].
      + destruct (Rlt_or_le 0 b) as [B|B].
        * left. exists b. split; auto. split; [|apply Pb; auto]. split; auto. split.
          -- apply on_plane_surface; [apply Pb; auto|]. apply H; lra.
          -- left. split; [apply H0; lra|]. split.
             ++ intros t' Ht'. apply H. lra.
             ++ intros t' Ht' C. apply H in C. lra.
        * right. split; [apply Rltb_false; lra|]. intros t Ht C. apply H in C. lra.
      + left. exists a. split; auto. split; [|apply Pa; auto]. split; [lra|]. split.
        * apply on_plane_surface; [apply Pa; auto|]. apply H; lra.
        * right. split; [intros C; apply H0 in C; lra|]. intros t' Ht' C. apply H in C. lra.
  Qed.

  Theorem bbIntersects_exact :
    bbIntersects (xbox lo hi) (xray s d) = true <-> exists t, 0 < t /\ in_closed_box lo hi (along s d t).
  Proof.
    unfold bbIntersects. destruct bbIntersect_exact as [(t & E & (Ht & S & _) & _)|[E N]].
    - rewrite E. cbn. rewrite Rltb_true. split; auto. intros _. exists t. split; auto. apply S.
    - unfold bbIntersects in E. rewrite E. split; [discriminate|]. intros (t & Ht & C). exfalso. exact (N t Ht C).
  Qed.

  Theorem bbIntersect_first :
    bbIntersects (xbox lo hi) (xray s d) = true ->
    exists t, bbIntersect (xbox lo hi) (xray s d) = XF t /\ first_crossing lo hi s d t.
  Proof.
    destruct bbIntersect_exact as [(t & E & C & _)|[E N]]; [eauto|congruence].
  Qed.

  (** *** the Box primitive *)
  Lemma rayAt_xray t : rayAt (xray s d) (XF t) = xv (along s d t).
  Proof. reflexivity. Qed.

  Lemma approx_XF a b : approx (XF a) (XF b) = Rltb (Rabs (a - b)) (1 / 100000000).
  Proof.
    unfold approx, nQ. cbn [nabs nsub ndiv nofZ nltb NumX].
    change (10 ^ 8)%Z with 100000000%Z.
    cbn [xdiv xsub xadd xopp xabs xltb]. destruct (Req_EM_T 100000000 0); [lra|]. reflexivity.
  Qed.

  Lemma boxNormal_plane p : on_plane lo hi p ->
    exists n, boxNormal (xbox lo hi) (xv p) = Val (xv n) /\ face_normal lo hi p n (1 / 100000000).
  Proof.
    intros P. unfold boxNormal. cbn [xbox xv bMin bMax vx vy vz]. rewrite !approx_XF.
    assert (forall x y z, Vec (XF x) (XF y) (XF z) = xv (Vec x y z)) as V by reflexivity.
    unfold vmul, vEx, vEy, vEz. cbn [vx vy vz nofZ nmul NumX xmul]. rewrite !V. unfold face_normal.
    assert (forall x : R, Rabs (x - x) < 1 / 100000000) as Z
      by (intros x; replace (x - x) with 0 by ring; rewrite Rabs_R0; lra).
    destruct (Rltb_spec (Rabs (vx p - vx lo)) (1 / 100000000)).
    { eexists; split; [reflexivity|]. left. split; auto. f_equal; ring. }
    destruct (Rltb_spec (Rabs (vx p - vx hi)) (1 / 100000000)).
    { eexists; split; [reflexivity|]. right; left. split; auto. }
    destruct (Rltb_spec (Rabs (vy p - vy lo)) (1 / 100000000)).
    { eexists; split; [reflexivity|]. do 2 right; left. split; auto. f_equal; ring. }
    destruct (Rltb_spec (Rabs (vy p - vy hi)) (1 / 100000000)).
    { eexists; split; [reflexivity|]. do 3 right; left. split; auto. }
    destruct (Rltb_spec (Rabs (vz p - vz lo)) (1 / 100000000)).
    { eexists; split; [reflexivity|]. do 4 right; left. split; auto. f_equal; ring. }
    destruct (Rltb_spec (Rabs (vz p - vz hi)) (1 / 100000000)).
    { eexists; split; [reflexivity|]. do 5 right. split; auto. }
    exfalso. destruct P as [[E|E]|[[E|E]|[E|E]]]; rewrite E in *;
      match goal with H : _ <= Rabs (?x - ?x) |- _ => specialize (Z x); lra end.
  Qed.

  Theorem boxIntersect_exact {M : Type} (m : option M) :
    ((exists t, 0 < t /\ in_closed_box lo hi (along s d t)) ->
      exists t n, boxIntersect (xbox lo hi) m (xray s d) =
          Val (Hit (XF t) (xv n) (xv (minus3 (along s d t) lo)) m) /\
        first_crossing lo hi s d t /\ face_normal lo hi (along s d t) n (1 / 100000000)) /\
    ((forall t, 0 < t -> ~ in_closed_box lo hi (along s d t)) ->
      boxIntersect (xbox lo hi) m (xray s d) = Val noHit).
  Proof.
    unfold boxIntersect. destruct bbIntersect_exact as [(t & E & C & P)|[E N]].
    - rewrite E. split.
      + intros _. cbn [nltb nofZ NumX xltb]. rewrite (proj2 (Rltb_true 0 t)) by apply C. cbn [negb].
        rewrite rayAt_xray. destruct (boxNormal_plane _ P) as (n & -> & Hn). exists t, n. split; auto.
      + intros N. exfalso. destruct C as (Ht & [C _] & _). exact (N t Ht C).
    - split.
      + intros (t & Ht & C). exfalso. exact (N t Ht C).
      + intros _. unfold bbIntersects in E. rewrite E. reflexivity.
  Qed.
End Exact2.

(** *** C26 *)
Lemma inside_never_pruned lo hi s d : d <> zero3 -> in_open_box lo hi s -> bbIntersects (xbox lo hi) (xray s d) = true.
Proof.
  intros Hd ((A1 & A2) & (B1 & B2) & (C1 & C2)).
  assert (forall lo hi s d, lo < s < hi -> exists e, 0 < e /\ forall t, 0 <= t <= e -> lo <= s + t * d <= hi) as SM.
  { clear. intros lo hi s d H. exists ((Rmin (s - lo) (hi - s)) / (Rabs d + 1)).
    assert (0 <= Rabs d) as P by apply Rabs_pos. assert (0 < Rmin (s - lo) (hi - s)) as Q by (apply Rmin_glb_lt; lra).
    generalize (Rmin_l (s - lo) (hi - s)) (Rmin_r (s - lo) (hi - s)). intros L1 L2. split.
    - apply Rdiv_lt_0_compat; lra.
    - intros t [T0 T1]. assert (t * (Rabs d + 1) <= Rmin (s - lo) (hi - s)) as T.
      { apply Rmult_le_compat_r with (r := Rabs d + 1) in T1; [|lra].
        unfold Rdiv in T1. rewrite Rmult_assoc, Rinv_l in T1 by lra. lra. }
      generalize (Rle_abs d) (Rle_abs (- d)). rewrite Rabs_Ropp. intros. nra. }
  destruct (SM (vx lo) (vx hi) (vx s) (vx d)) as (e1 & P1 & Q1); [lra|].
  destruct (SM (vy lo) (vy hi) (vy s) (vy d)) as (e2 & P2 & Q2); [lra|].
  destruct (SM (vz lo) (vz hi) (vz s) (vz d)) as (e3 & P3 & Q3); [lra|].
  apply bbIntersects_exact; auto.
  - unfold ordered. lra.
  - unfold off_planes. lra.
  - exists (Rmin e1 (Rmin e2 e3)).
    generalize (Rmin_l e1 (Rmin e2 e3)) (Rmin_r e1 (Rmin e2 e3)) (Rmin_l e2 e3) (Rmin_r e2 e3). intros.
    assert (0 < Rmin e1 (Rmin e2 e3)) by (repeat apply Rmin_glb_lt; lra).
    split; auto. unfold in_closed_box, along, plus3, scal3; cbn [vx vy vz].
    split; [apply Q1; lra|]. split; [apply Q2; lra|]. apply Q3; lra.
Qed.

Lemma slab_enters lo hi s d t1 : d <> 0 -> lo <= hi -> 0 < t1 -> (forall t, 0 < t < t1 -> lo < s + t * d < hi) ->
  exists a b, slabEn lo hi s d = XF a /\ slabEx lo hi s d = XF b /\ a <= 0 /\ 0 < b /\ ((s = lo \/ s = hi) -> a = 0).
Proof.
  intros Hd Hl H1 H. destruct (slab_finite lo hi s d Hd Hl) as (a & b & Ea & Eb & Hab & Pa & Pb & I).
  exists a, b. split; auto. split; auto.
  assert (a <= 0) as A.
  { destruct (Rle_or_lt a 0); auto. exfalso. assert (0 < Rmin a t1) by (apply Rmin_glb_lt; lra).
    generalize (Rmin_l a t1) (Rmin_r a t1); intros. specialize (H (Rmin a t1 / 2)).
    assert (lo <= s + Rmin a t1 / 2 * d <= hi) as J by (assert (0 < Rmin a t1 / 2 < t1) as X by lra; specialize (H X); lra).
    apply I in J. lra. }
  assert (t1 / 2 <= b) as B.
  { assert (lo <= s + t1 / 2 * d <= hi) as J by (specialize (H (t1 / 2)); lra). apply I in J. lra. }
  split; auto. split; [lra|]. intros S.
  destruct (Req_EM_T a 0) as [|Na]; auto. exfalso.
  (* both a < 0 and t1/2 > 0 lie in the slab, so s is strictly between the planes *)
  assert (lo <= s + a * d <= hi) as J by (apply I; lra).
  specialize (H (t1 / 2)). assert (0 < t1 / 2 < t1) as X by lra. specialize (H X).
  set (u := t1 / 2) in *. assert (0 < u) by (unfold u; lra).
  (* s is a convex combination *)
  assert ((s - lo) * (u - a) = (s + a * d - lo) * u + (s + u * d - lo) * (- a)) as E1 by ring.
  assert ((hi - s) * (u - a) = (hi - (s + a * d)) * u + (hi - (s + u * d)) * (- a)) as E2 by ring.
  assert (0 < (s - lo) * (u - a)) by (rewrite E1; nra).
  assert (0 < (hi - s) * (u - a)) by (rewrite E2; nra).
  destruct S as [-> | ->]; nra.
Qed.

Theorem surface_start_pruned lo hi s d : ordered lo hi -> on_box_surface lo hi s -> enters lo hi s d ->
  vx d <> 0 -> vy d <> 0 -> vz d <> 0 ->
  bbIntersect (xbox lo hi) (xray s d) = XF 0 /\ bbIntersects (xbox lo hi) (xray s d) = false.
Proof.
  intros (O1 & O2 & O3) [C NO] (t1 & H1 & H) Dx Dy Dz.
  destruct (slab_enters (vx lo) (vx hi) (vx s) (vx d) t1) as (a1 & b1 & A1 & B1 & L1 & U1 & Z1); auto; [intros t Ht; apply (H t Ht)|].
  destruct (slab_enters (vy lo) (vy hi) (vy s) (vy d) t1) as (a2 & b2 & A2 & B2 & L2 & U2 & Z2); auto; [intros t Ht; apply (H t Ht)|].
  destruct (slab_enters (vz lo) (vz hi) (vz s) (vz d) t1) as (a3 & b3 & A3 & B3 & L3 & U3 & Z3); auto; [intros t Ht; apply (H t Ht)|].
  assert (bbIntersect (xbox lo hi) (xray s d) = XF 0) as E.
  { rewrite bbIntersect_eq, ten_eq, tex_eq. cbv zeta. rewrite A1, A2, A3, B1, B2, B3.
    assert (max3 (XF a1) (XF a2) (XF a3) = XF 0) as ->.
    { assert (a1 = 0 \/ a2 = 0 \/ a3 = 0) as Z.
      { destruct (Req_EM_T a1 0); auto. destruct (Req_EM_T a2 0); auto. destruct (Req_EM_T a3 0); auto. exfalso. apply NO.
        destruct C as ((X1 & X2) & (Y1 & Y2) & (W1 & W2)).
        assert (~ (vx s = vx lo \/ vx s = vx hi)) by auto.
        assert (~ (vy s = vy lo \/ vy s = vy hi)) by auto.
        assert (~ (vz s = vz lo \/ vz s = vz hi)) by auto.
        unfold in_open_box. lra. }
      unfold max3. cbn [nltb NumX xltb].
      destruct (Rltb_spec a1 a2); cbn [xltb];
        [destruct (Rltb_spec a2 a3)|destruct (Rltb_spec a1 a3)]; f_equal; lra. }
    assert (exists b, min3 (XF b1) (XF b2) (XF b3) = XF b /\ 0 < b) as (b & -> & Hb).
    { destruct (min3_cases (XF b1) (XF b2) (XF b3)) as [-> | [-> | ->]]; eauto. }
    cbn [xltb]. rewrite (proj2 (Rltb_false b 0)), (proj2 (Rltb_false 0 0)) by lra. reflexivity. }
  split; auto. unfold bbIntersects. rewrite E. cbn. apply Rltb_false; lra.
Qed.

Theorem box_never_panics {M} (m : option M) lo hi s d : ordered lo hi -> off_planes lo hi s -> d <> zero3 ->
  exists h, oIntersect (boxWithBounds m (xv lo) (xv hi)) (xray s d) = Val (h, xray s d).
Proof.
  intros Ho Hp Hd. destruct (boxIntersect_exact lo hi s d Ho Hp Hd m) as [A B].
  cbn [oIntersect boxWithBounds simpleObj]. fold (xbox lo hi).
  destruct (bbIntersects (xbox lo hi) (xray s d)) eqn:E.
  - apply bbIntersects_exact in E; auto. destruct (A E) as (t & n & Eq & _). rewrite Eq. cbn. eauto.
  - rewrite B; [cbn; eauto|]. intros t Ht Hin. assert (bbIntersects (xbox lo hi) (xray s d) = true); [|congruence].
    apply bbIntersects_exact; eauto.
Qed.
