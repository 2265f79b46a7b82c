(** * Proofs about placing objects *)
From Coq Require Import ZArith Reals Bool List Lra Lia.
From Verif Require Import Num NumLaws Outcome GeomModel GeomSpec GeomProofs ObjModel TreeModel ObjSpec ObjProofs BoxProofs TransfProofs PlaceModel PlaceSpec.
Import ListNotations.
Local Open Scope R_scope.

(** ** The box of a transformed box *)
(** half sides of the box around the image of a box with half sides [e] *)
Definition spread (m : matrix R) (e : pt) : pt :=
  Vec (Rabs (vx (m0 m)) * vx e + Rabs (vx (m1 m)) * vy e + Rabs (vx (m2 m)) * vz e)
      (Rabs (vy (m0 m)) * vx e + Rabs (vy (m1 m)) * vy e + Rabs (vy (m2 m)) * vz e)
      (Rabs (vz (m0 m)) * vx e + Rabs (vz (m1 m)) * vy e + Rabs (vz (m2 m)) * vz e).
Definition half (lo hi : pt) : pt := scal3 (1 / 2) (minus3 hi lo).

Lemma abs_bounds (x y : R) : Rabs x <= y -> - y <= x <= y.
Proof. intros H. pose proof (Rle_abs x). pose proof (Rle_abs (- x)) as G. rewrite Rabs_Ropp in G. lra. Qed.

(** one term of a coordinate: extreme values over both ends of an interval *)
Lemma end_le (a lo hi x : R) : lo <= hi -> x = lo \/ x = hi -> Rabs (a * x - a * ((lo + hi) / 2)) <= Rabs a * ((hi - lo) / 2).
Proof.
  intros O [-> | ->].
  - replace (a * lo - a * ((lo + hi) / 2)) with (a * - ((hi - lo) / 2)) by field.
    rewrite Rabs_mult, Rabs_Ropp, (Rabs_right ((hi - lo) / 2)) by lra. lra.
  - replace (a * hi - a * ((lo + hi) / 2)) with (a * ((hi - lo) / 2)) by field.
    rewrite Rabs_mult, (Rabs_right ((hi - lo) / 2)) by lra. lra.
Qed.
Lemma end_up (a lo hi : R) : exists x, (x = lo \/ x = hi) /\ a * x = a * ((lo + hi) / 2) + Rabs a * ((hi - lo) / 2).
Proof.
  destruct (Rle_or_lt 0 a).
  - exists hi. split; auto. rewrite Rabs_right by lra. field.
  - exists lo. split; auto. rewrite Rabs_left by lra. field.
Qed.
Lemma end_down (a lo hi : R) : exists x, (x = lo \/ x = hi) /\ a * x = a * ((lo + hi) / 2) - Rabs a * ((hi - lo) / 2).
Proof.
  destruct (end_up (- a) lo hi) as (x & Hx & E). exists x. split; auto. rewrite Rabs_Ropp in E. lra.
Qed.

Lemma hull_corner lo hi p : In p (bbHull (xbox lo hi)) ->
  exists x y z, (x = vx lo \/ x = vx hi) /\ (y = vy lo \/ y = vy hi) /\ (z = vz lo \/ z = vz hi) /\ p = xv (Vec x y z).
Proof.
  unfold bbHull, xbox, xv; cbn [bMin bMax vx vy vz In]. intros H.
  repeat (destruct H as [<- | H]; [do 3 eexists; repeat split; eauto; fail|]). destruct H.
Qed.

Theorem transformBounds_exact lo hi t : ordered lo hi ->
  transformBounds (xbox lo hi) (xaff t) = Val (around (transformPoint t (mid lo hi)) (spread (afA t) (half lo hi))).
Proof.
  intros (Ox & Oy & Oz). unfold transformBounds. set (hull := map (transformPoint (xaff t)) (bbHull (xbox lo hi))).
  assert (hull <> nil) as Hne by (unfold hull, bbHull; discriminate).
  assert (forall p, In p hull -> exists x y z, (x = vx lo \/ x = vx hi) /\ (y = vy lo \/ y = vy hi) /\ (z = vz lo \/ z = vz hi) /\
    p = xv (transformPoint t (Vec x y z))) as Corner.
  { intros p Hp. unfold hull in Hp. apply in_map_iff in Hp. destruct Hp as (q & <- & Hq).
    apply hull_corner in Hq. destruct Hq as (x & y & z & Hx & Hy & Hz & ->). exists x, y, z. rewrite xpoint. auto. }
  destruct (boundingBoxFromHull_spec (F:=xr) hull Hne) as [[E _]|[_ (b & E & I & P1 & P2 & P3 & P4 & P5 & P6)]].
  { exfalso. apply existsb_exists in E. destruct E as (p & Hp & N).
    apply hull_finite in Hp. destruct Hp as (q & ->). discriminate. }
  rewrite E. f_equal.
  assert (forall x y z, (x = vx lo \/ x = vx hi) -> (y = vy lo \/ y = vy hi) -> (z = vz lo \/ z = vz hi) ->
    In (xv (transformPoint t (Vec x y z))) hull) as Mem.
  { intros x y z Hx Hy Hz. rewrite <- xpoint. apply in_map. apply in_hull; auto. }
  destruct b as [[b1 b2 b3] [b4 b5 b6]]. cbn [bMin bMax vx vy vz] in *.
  destruct t as [[[m11 m21 m31] [m12 m22 m32] [m13 m23 m33]] [d1 d2 d3]].
  destruct lo as [lx ly lz], hi as [hx hy hz]. cbn [vx vy vz] in *.
  unfold around, xbox, mid, half, spread, plus3, minus3, scal3, xv; cbn [vx vy vz afA afB m0 m1 m2].
  assert (forall a b c d (sel : pt -> R), (forall x y z, sel (transformPoint (Affine (Matrix (Vec m11 m21 m31) (Vec m12 m22 m32) (Vec m13 m23 m33)) (Vec d1 d2 d3)) (Vec x y z)) = a * x + b * y + c * z + d) ->
    let C := sel (transformPoint (Affine (Matrix (Vec m11 m21 m31) (Vec m12 m22 m32) (Vec m13 m23 m33)) (Vec d1 d2 d3))
               (Vec (1 / 2 * (lx + hx)) (1 / 2 * (ly + hy)) (1 / 2 * (lz + hz)))) in
    let E := Rabs a * (1 / 2 * (hx - lx)) + Rabs b * (1 / 2 * (hy - ly)) + Rabs c * (1 / 2 * (hz - lz)) in
    (forall q, In (xv q) hull -> C - E <= sel q <= C + E) /\
    (exists q, In (xv q) hull /\ sel q = C - E) /\ (exists q, In (xv q) hull /\ sel q = C + E)) as Key.
  { intros a b c d sel Hsel. cbv zeta. rewrite Hsel. repeat split.
    - destruct (Corner _ H) as (x & y & z & Hx & Hy & Hz & Eq).
      assert (q = transformPoint (Affine (Matrix (Vec m11 m21 m31) (Vec m12 m22 m32) (Vec m13 m23 m33)) (Vec d1 d2 d3)) (Vec x y z)) as ->.
      { destruct q as [q1 q2 q3]. unfold xv in Eq. cbn [vx vy vz] in Eq. injection Eq as -> -> ->. reflexivity. }
      rewrite Hsel. pose proof (end_le a lx hx x Ox Hx) as A1. pose proof (end_le b ly hy y Oy Hy) as A2. pose proof (end_le c lz hz z Oz Hz) as A3.
      apply abs_bounds in A1, A2, A3. lra.
    - destruct (Corner _ H) as (x & y & z & Hx & Hy & Hz & Eq).
      assert (q = transformPoint (Affine (Matrix (Vec m11 m21 m31) (Vec m12 m22 m32) (Vec m13 m23 m33)) (Vec d1 d2 d3)) (Vec x y z)) as ->.
      { destruct q as [q1 q2 q3]. unfold xv in Eq. cbn [vx vy vz] in Eq. injection Eq as -> -> ->. reflexivity. }
      rewrite Hsel. pose proof (end_le a lx hx x Ox Hx) as A1. pose proof (end_le b ly hy y Oy Hy) as A2. pose proof (end_le c lz hz z Oz Hz) as A3.
      apply abs_bounds in A1, A2, A3. lra.
    - destruct (end_down a lx hx) as (x & Hx & A1), (end_down b ly hy) as (y & Hy & A2), (end_down c lz hz) as (z & Hz & A3).
      eexists. split; [apply (Mem x y z Hx Hy Hz)|]. rewrite Hsel. lra.
    - destruct (end_up a lx hx) as (x & Hx & A1), (end_up b ly hy) as (y & Hy & A2), (end_up c lz hz) as (z & Hz & A3).
      eexists. split; [apply (Mem x y z Hx Hy Hz)|]. rewrite Hsel. lra. }
  assert (forall q, In (xv q) hull -> xleb b1 (XF (vx q)) = true /\ xleb (XF (vx q)) b4 = true /\
     xleb b2 (XF (vy q)) = true /\ xleb (XF (vy q)) b5 = true /\ xleb b3 (XF (vz q)) = true /\ xleb (XF (vz q)) b6 = true) as I'.
  { intros q Hq. apply I in Hq. cbn [nleb NumX] in Hq. exact Hq. }
  assert (forall (sel : pt -> R) (xsel : vec xr -> xr) (b : xr) C E, (forall q, xsel (xv q) = XF (sel q)) ->
     (forall q, In (xv q) hull -> C - E <= sel q <= C + E) -> (exists q, In (xv q) hull /\ sel q = C - E) ->
     (exists p, In p hull /\ xsel p = b) -> (forall q, In (xv q) hull -> xleb b (XF (sel q)) = true) -> b = XF (C - E)) as Low.
  { intros sel xsel b C E' Hs R1 (q & Hq & Eq) (p & Hp & <-) L.
    destruct (hull_finite _ _ _ _ Hp) as (p' & ->). rewrite Hs in *. f_equal.
    specialize (R1 _ Hp). specialize (L _ Hq). apply xle_XF in L. lra. }
  assert (forall (sel : pt -> R) (xsel : vec xr -> xr) (b : xr) C E, (forall q, xsel (xv q) = XF (sel q)) ->
     (forall q, In (xv q) hull -> C - E <= sel q <= C + E) -> (exists q, In (xv q) hull /\ sel q = C + E) ->
     (exists p, In p hull /\ xsel p = b) -> (forall q, In (xv q) hull -> xleb (XF (sel q)) b = true) -> b = XF (C + E)) as High.
  { intros sel xsel b C E' Hs R1 (q & Hq & Eq) (p & Hp & <-) L.
    destruct (hull_finite _ _ _ _ Hp) as (p' & ->). rewrite Hs in *. f_equal.
    specialize (R1 _ Hp). specialize (L _ Hq). apply xle_XF in L. lra. }
  destruct (Key m11 m12 m13 d1 (fun p => vx p)) as (KX1 & KX2 & KX3).
  { intros. geom_unfold. ring. }
  destruct (Key m21 m22 m23 d2 (fun p => vy p)) as (KY1 & KY2 & KY3).
  { intros. geom_unfold. ring. }
  destruct (Key m31 m32 m33 d3 (fun p => vz p)) as (KZ1 & KZ2 & KZ3).
  { intros. geom_unfold. ring. }
  cbv beta in *. f_equal; f_equal.
  - eapply (Low (fun p => vx p) (fun p => vx p)); [reflexivity|exact KX1|exact KX2|exact P1|]. intros q Hq. apply (I' q Hq).
  - eapply (Low (fun p => vy p) (fun p => vy p)); [reflexivity|exact KY1|exact KY2|exact P3|]. intros q Hq. apply (I' q Hq).
  - eapply (Low (fun p => vz p) (fun p => vz p)); [reflexivity|exact KZ1|exact KZ2|exact P5|]. intros q Hq. apply (I' q Hq).
  - eapply (High (fun p => vx p) (fun p => vx p)); [reflexivity|exact KX1|exact KX3|exact P2|]. intros q Hq. apply (I' q Hq).
  - eapply (High (fun p => vy p) (fun p => vy p)); [reflexivity|exact KY1|exact KY3|exact P4|]. intros q Hq. apply (I' q Hq).
  - eapply (High (fun p => vz p) (fun p => vz p)); [reflexivity|exact KZ1|exact KZ3|exact P6|]. intros q Hq. apply (I' q Hq).
Qed.

(** ** Placeable objects *)
Lemma value_inj {A} (x y : A) : Val x = Val y -> x = y.
Proof. congruence. Qed.
Lemma mid_around c e : mid (minus3 c e) (plus3 c e) = c.
Proof. unfold mid, plus3, minus3, scal3; cbn [vx vy vz]. apply vec_eq; cbn [vx vy vz]; field. Qed.
Lemma half_around c e : half (minus3 c e) (plus3 c e) = e.
Proof. unfold half, plus3, minus3, scal3; cbn [vx vy vz]. apply vec_eq; cbn [vx vy vz]; field. Qed.
Lemma around_mid lo hi : xbox lo hi = around (mid lo hi) (half lo hi).
Proof.
  destruct lo as [lx ly lz], hi as [hx hy hz].
  unfold around, xbox, xv, mid, half, plus3, minus3, scal3; cbn [vx vy vz]. f_equal; f_equal; f_equal; field.
Qed.
Lemma xv_inj p q : xv p = xv q -> p = q.
Proof. destruct p as [a b c], q as [a' b' c']. unfold xv; cbn [vx vy vz]. congruence. Qed.
Lemma xbox_inj a b c d : xbox a b = xbox c d -> a = c /\ b = d.
Proof. unfold xbox. intros E. injection E as E1 E2 E3 E4 E5 E6. split; apply vec_eq; congruence. Qed.
Lemma around_inj c e lo hi : xbox lo hi = around c e -> c = mid lo hi /\ e = half lo hi.
Proof.
  unfold around. intros E. apply xbox_inj in E. destruct E as [-> ->]. split; symmetry; [apply mid_around|apply half_around].
Qed.

Definition nonneg (e : pt) : Prop := 0 <= vx e /\ 0 <= vy e /\ 0 <= vz e.
Lemma half_nonneg lo hi : ordered lo hi -> nonneg (half lo hi).
Proof. unfold ordered, nonneg, half, scal3, minus3; cbn [vx vy vz]. lra. Qed.
Lemma nonneg_half lo hi : nonneg (half lo hi) -> ordered lo hi.
Proof. unfold ordered, nonneg, half, scal3, minus3; cbn [vx vy vz]. lra. Qed.
Lemma spread_nonneg m e : nonneg e -> nonneg (spread m e).
Proof.
  intros (A & B & C). unfold nonneg, spread; cbn [vx vy vz].
  repeat split; repeat apply Rplus_le_le_0_compat; apply Rmult_le_pos; auto; apply Rabs_pos.
Qed.

(** the shape of a placeable object: a base with centre [c] and half sides [e], and the transform so far *)
Inductive placed_by {M} (o base : object xr M) (t : affine R) (c e : pt) : Prop :=
| PB : oTransf base = None -> oBounds base = Val (around c e) -> nonneg e -> det3 (afA t) <> 0 ->
    oBounds o = Val (around (transformPoint t c) (spread (afA t) e)) ->
    (forall q, oInside o (xv (transformPoint t q)) = oInside base (xv q)) ->
    (forall s, transformed o (xaff s) = transformed base (xaff (before t s))) ->
    placed_by o base t c e.

Lemma unit_point (p : pt) : transformPoint unitTransform p = p.
Proof. destruct p as [x y z]. geom_unfold. f_equal; ring. Qed.
Lemma before_unit (s : affine R) : before unitTransform s = s.
Proof.
  destruct s as [[[a b c] [d e f] [g h i]] [j k l]]. geom_unfold. f_equal; [f_equal|]; f_equal; ring.
Qed.
Lemma spread_unit e : spread (afA unitTransform) e = e.
Proof.
  destruct e as [x y z]. unfold spread; geom_unfold. rewrite !Rabs_R1, !Rabs_R0. f_equal; ring.
Qed.
Lemma det_unit : det3 (afA unitTransform) <> 0.
Proof. unfold det3, vol, dot3, cross3. geom_unfold. lra. Qed.
Lemma det_before t s : det3 (afA (before t s)) = det3 (afA s) * det3 (afA t).
Proof. destruct t as [[[a b c] [d e f] [g h i]] [j k l]], s as [[[a' b' c'] [d' e' f'] [g' h' i']] [j' k' l']]. unfold det3, vol, dot3, cross3. geom_unfold. ring. Qed.
Lemma transformed_bounds {M} (base : object xr M) t c e :
  oTransf base = None -> oBounds base = Val (around c e) -> nonneg e -> det3 (afA t) <> 0 ->
  exists o, transformed base (xaff t) = Val o /\ placed_by o base t c e.
Proof.
  intros N B P D. rewrite transformed_base, B by auto. cbn [obind]. unfold around at 1.
  assert (ordered (minus3 c e) (plus3 c e)) as O by (apply nonneg_half; now rewrite half_around).
  rewrite transformBounds_exact, mid_around, half_around by auto. cbn [omap].
  eexists. split; [reflexivity|]. split; auto.
  - intros q. eapply transformed_inside with (t := t); auto.
    rewrite transformed_base, B by auto. cbn [obind]. unfold around at 1.
    rewrite transformBounds_exact, mid_around, half_around by auto. reflexivity.
Qed.
Lemma placeable_shape {M} (o : object xr M) : placeable o -> exists base t c e, placed_by o base t c e.
Proof.
  intros H. induction H as [o lo hi N B O|o t o' H IH D E].
  - exists o, unitTransform, (mid lo hi), (half lo hi). rewrite around_mid in B. split; auto.
    + now apply half_nonneg.
    + apply det_unit.
    + now rewrite unit_point, spread_unit.
    + intros q. now rewrite unit_point.
    + intros s. now rewrite before_unit.
  - destruct IH as (base & t0 & c & e & [N B P D0 Bo In Tr]). exists base, (before t0 t), c, e.
    rewrite Tr in E. destruct (transformed_bounds base (before t0 t) c e) as (o1 & E1 & Q); auto.
    { rewrite det_before. apply Rmult_integral_contrapositive. auto. }
    rewrite E in E1. injection E1 as <-. exact Q.
Qed.

Theorem placeable_moves {M} (o : object xr M) (t : affine R) lo hi :
  placeable o -> det3 (afA t) <> 0 -> oBounds o = Val (xbox lo hi) ->
  ordered lo hi /\
  exists o' lo' hi', transformed o (xaff t) = Val o' /\ placeable o' /\ oBounds o' = Val (xbox lo' hi') /\
    mid lo' hi' = transformPoint t (mid lo hi) /\
    (forall k, (forall v, transformDir t v = scal3 k v) -> half lo' hi' = scal3 (Rabs k) (half lo hi)) /\
    (forall q, oInside o' (xv (transformPoint t q)) = oInside o (xv q)).
Proof.
  intros H D B. destruct (placeable_shape o H) as (base & t0 & c & e & [N Bb P D0 Bo In Tr]).
  rewrite Bo in B. apply value_inj in B. symmetry in B.
  apply around_inj in B. destruct B as [Bc Be].
  split. { apply nonneg_half. rewrite <- Be. now apply spread_nonneg. }
  destruct (transformed_bounds base (before t0 t) c e) as (o1 & E1 & [_ _ _ D1 Bo1 In1 Tr1]); auto.
  { rewrite det_before. apply Rmult_integral_contrapositive. auto. }
  exists o1, (minus3 (transformPoint (before t0 t) c) (spread (afA (before t0 t)) e)), (plus3 (transformPoint (before t0 t) c) (spread (afA (before t0 t)) e)).
  assert (transformed o (xaff t) = Val o1) as T by now rewrite Tr.
  split; [exact T|]. split; [exact (P_move o t o1 H D T)|]. split; [exact Bo1|].
  rewrite mid_around, half_around. split; [|split].
  - rewrite <- Bc. now rewrite before_point.
  - intros k Hk. rewrite <- Be. clear - Hk.
    destruct t0 as [[[a1 b1 c1] [d1 e1 f1] [g1 h1 i1]] [j1 k1 l1]], t as [[[a b c] [d e0 f] [g h i]] [j k0 l]], e as [x y z].
    pose proof (Hk (Vec 1 0 0)) as X. pose proof (Hk (Vec 0 1 0)) as Y. pose proof (Hk (Vec 0 0 1)) as Z. clear Hk.
    unfold spread, scal3 in *. geom_unfold. injection X as X1 X2 X3. injection Y as Y1 Y2 Y3. injection Z as Z1 Z2 Z3.
    replace a with k by lra. replace b with 0 by lra. replace c with 0 by lra.
    replace d with 0 by lra. replace e0 with k by lra. replace f with 0 by lra.
    replace g with 0 by lra. replace h with 0 by lra. replace i with k by lra.
    apply vec_eq; cbn [vx vy vz]; rewrite ?Rmult_0_r, ?Rplus_0_l, ?Rplus_0_r, !Rabs_mult; ring.
  - intros q. pose proof (In (transformPoint (ainverse t0) q)) as X. pose proof (In1 (transformPoint (ainverse t0) q)) as Y.
    rewrite before_point in Y. rewrite ainverse_point_r in X, Y by auto. now rewrite X, Y.
Qed.

(** ** The methods of api.Object *)
Lemma bbCenter_xbox lo hi : bbCenter (xbox lo hi) = xv (mid lo hi).
Proof.
  destruct lo as [lx ly lz], hi as [hx hy hz].
  unfold bbCenter, safeAverage, safeCoord, xbox, xv, mid, scal3, plus3, vmul, vadd, nQ.
  cbn [bMin bMax vx vy vz nofZ nadd nmul ndiv nopp neqb NumX ninf NumInfX xopp xeqb andb].
  cbn [xadd xdiv xmul]. destruct (Req_EM_T 2 0) as [E|E]; [lra|]. cbn [xmul]. reflexivity.
Qed.
Lemma bbCenterBottom_xbox lo hi : bbCenterBottom (xbox lo hi) = xv (vset (mid lo hi) AY (vy lo)).
Proof. unfold bbCenterBottom. rewrite bbCenter_xbox. reflexivity. Qed.
Lemma bbCenterTop_xbox lo hi : bbCenterTop (xbox lo hi) = xv (vset (mid lo hi) AY (vy hi)).
Proof. unfold bbCenterTop. rewrite bbCenter_xbox. reflexivity. Qed.
Lemma bbCenterBack_xbox lo hi : bbCenterBack (xbox lo hi) = xv (vset (mid lo hi) AZ (vz lo)).
Proof. unfold bbCenterBack. rewrite bbCenter_xbox. reflexivity. Qed.
Lemma bbCenterFront_xbox lo hi : bbCenterFront (xbox lo hi) = xv (vset (mid lo hi) AZ (vz hi)).
Proof. unfold bbCenterFront. rewrite bbCenter_xbox. reflexivity. Qed.

Theorem centers {M} (o : object xr M) lo hi : oBounds o = Val (xbox lo hi) ->
  let c := mid lo hi in
  objCenter o = Val (xv c) /\
  objCenterBottom o = Val (xv (Vec (vx c) (vy lo) (vz c))) /\
  objCenterTop o = Val (xv (Vec (vx c) (vy hi) (vz c))) /\
  objCenterBack o = Val (xv (Vec (vx c) (vy c) (vz lo))) /\
  objCenterFront o = Val (xv (Vec (vx c) (vy c) (vz hi))).
Proof.
  intros B. unfold objCenter, objCenterBottom, objCenterTop, objCenterBack, objCenterFront. rewrite B. cbn [omap].
  rewrite bbCenter_xbox, bbCenterBottom_xbox, bbCenterTop_xbox, bbCenterBack_xbox, bbCenterFront_xbox. auto.
Qed.

Lemma xtranslate d : translate (xv d) = xaff (translate d).
Proof. reflexivity. Qed.
Lemma xvsub p q : vsub (xv p) (xv q) = xv (minus3 p q).
Proof. reflexivity. Qed.
Lemma det_translate d : det3 (afA (translate d)) <> 0.
Proof. unfold det3, vol, dot3, cross3. geom_unfold. lra. Qed.

Lemma box_of_mid_half lo hi : lo = minus3 (mid lo hi) (half lo hi) /\ hi = plus3 (mid lo hi) (half lo hi).
Proof.
  destruct lo as [lx ly lz], hi as [hx hy hz]. unfold mid, half, plus3, minus3, scal3; cbn [vx vy vz].
  split; f_equal; field.
Qed.

Lemma translated_places {M} (o : object xr M) lo hi d : placeable o -> oBounds o = Val (xbox lo hi) ->
  exists o', translated o (xv d) = Val o' /\ placeable o' /\ oBounds o' = Val (xbox (plus3 lo d) (plus3 hi d)) /\
    forall q, oInside o' (xv (plus3 q d)) = oInside o (xv q).
Proof.
  intros P B. unfold translated. rewrite xtranslate.
  destruct (placeable_moves o (translate d) lo hi P (det_translate d) B) as (_ & o' & lo' & hi' & T & P' & B' & Mi & Ha & In).
  exists o'. split; auto. split; auto. split.
  - rewrite B'. f_equal. assert (half lo' hi' = half lo hi) as Hh.
    { rewrite (Ha 1); [|intros v; rewrite translate_dir; destruct v as [x y z]; unfold scal3; cbn; f_equal; ring].
      rewrite Rabs_R1. destruct (half lo hi) as [x y z]. unfold scal3; cbn. f_equal; ring. }
    destruct (box_of_mid_half lo' hi') as [E1 E2]. rewrite Hh, Mi, translate_point in E1, E2.
    destruct (box_of_mid_half lo hi) as [E3 E4].
    f_equal; [rewrite E1|rewrite E2]; unfold mid, half, minus3, plus3, scal3; cbn [vx vy vz]; f_equal; field.
  - intros q. rewrite <- (translate_point d q). apply In.
Qed.

Theorem with_center {M} (o : object xr M) lo hi p : placeable o -> oBounds o = Val (xbox lo hi) ->
  let d := minus3 p (mid lo hi) in
  exists o', withCenter o (xv p) = Val o' /\ placeable o' /\ oBounds o' = Val (xbox (plus3 lo d) (plus3 hi d)) /\
    objCenter o' = Val (xv p) /\ forall q, oInside o' (xv (plus3 q d)) = oInside o (xv q).
Proof.
  intros P B d. unfold withCenter. destruct (centers o lo hi B) as (-> & _). cbn [obind]. rewrite xvsub. fold d.
  destruct (translated_places o lo hi d P B) as (o' & T & P' & B' & In). exists o'. repeat split; auto.
  destruct (centers o' _ _ B') as (-> & _). f_equal. f_equal.
  unfold d, mid, minus3, plus3, scal3; cbn [vx vy vz]. destruct p as [x y z]; cbn [vx vy vz]. f_equal; field.
Qed.
Theorem with_center_bottom {M} (o : object xr M) lo hi p : placeable o -> oBounds o = Val (xbox lo hi) ->
  let d := minus3 p (Vec (vx (mid lo hi)) (vy lo) (vz (mid lo hi))) in
  exists o', withCenterBottom o (xv p) = Val o' /\ placeable o' /\ oBounds o' = Val (xbox (plus3 lo d) (plus3 hi d)) /\
    objCenterBottom o' = Val (xv p) /\ forall q, oInside o' (xv (plus3 q d)) = oInside o (xv q).
Proof.
  intros P B d. unfold withCenterBottom. destruct (centers o lo hi B) as (_ & -> & _). cbn [obind]. rewrite xvsub. fold d.
  destruct (translated_places o lo hi d P B) as (o' & T & P' & B' & In). exists o'. repeat split; auto.
  destruct (centers o' _ _ B') as (_ & -> & _). f_equal. f_equal.
  unfold d, mid, minus3, plus3, scal3; cbn [vx vy vz]. destruct p as [x y z]; cbn [vx vy vz]. f_equal; field.
Qed.

Lemma xscale c s : scale (xv c) (XF s) = xaff (scale c s).
Proof. reflexivity. Qed.
Lemma columns (t : affine R) :
  transformDir t (Vec 1 0 0) = m0 (afA t) /\ transformDir t (Vec 0 1 0) = m1 (afA t) /\ transformDir t (Vec 0 0 1) = m2 (afA t).
Proof.
  destruct t as [[[x y z] [x' y' z'] [x2 y2 z2]] b]. unfold transformDir, mmulvec. cbn [afA m0 m1 m2 vx vy vz]. rnum.
  repeat split; f_equal; ring.
Qed.
Lemma det_by_columns t : det3 (afA t) = vol (transformDir t (Vec 1 0 0)) (transformDir t (Vec 0 1 0)) (transformDir t (Vec 0 0 1)).
Proof. destruct (columns t) as (-> & -> & ->). reflexivity. Qed.
Lemma scale_dir c s v : transformDir (scale c s) v = scal3 s v.
Proof.
  unfold scale. rewrite withOrigin_dir. destruct v as [a b d]. unfold transformDir, mmulvec, scal3.
  cbn [afA m0 m1 m2 vx vy vz]. rnum. f_equal; ring.
Qed.
Lemma det_scale c s : det3 (afA (scale c s)) = s * s * s.
Proof. rewrite det_by_columns, !scale_dir. unfold vol, dot3, cross3, scal3; cbn [vx vy vz]. ring. Qed.

Theorem scale_about_center {M} (o : object xr M) lo hi s : placeable o -> oBounds o = Val (xbox lo hi) -> s <> 0 ->
  let c := mid lo hi in
  exists o', scaleObj o (XF s) = Val o' /\ placeable o' /\ oBounds o' = Val (around c (scal3 (Rabs s / 2) (minus3 hi lo))) /\
    objCenter o' = objCenter o /\
    forall q, oInside o' (xv (plus3 c (scal3 s (minus3 q c)))) = oInside o (xv q).
Proof.
  intros P B S c. unfold scaleObj, scaleObjAt. destruct (centers o lo hi B) as (E & _). rewrite E. cbn [obind]. fold c. rewrite xscale.
  destruct (placeable_moves o (scale c s) lo hi P) as (_ & o' & lo' & hi' & T & P' & B' & Mi & Ha & In); auto.
  { rewrite det_scale. repeat apply Rmult_integral_contrapositive_currified; auto. }
  exists o'. split; auto. split; auto.
  assert (mid lo' hi' = c) as Mc by (rewrite Mi; apply scale_fix).
  split; [|split].
  - rewrite B'. rewrite around_mid, Mc, (Ha s) by (apply scale_dir). f_equal. f_equal.
    unfold half, scal3, minus3; cbn [vx vy vz]. f_equal; field.
  - destruct (centers o' _ _ B') as (-> & _). now rewrite Mc.
  - intros q. rewrite <- scale_point. apply In.
Qed.

Theorem scale_to_size {M} (o : object xr M) lo hi m : placeable o -> oBounds o = Val (xbox lo hi) -> vx lo < vx hi -> 0 < m ->
  exists o' lo' hi', scaleToSize o (XF m) = Val o' /\ placeable o' /\ oBounds o' = Val (xbox lo' hi') /\
    objCenter o' = objCenter o /\ vx hi' - vx lo' = m /\
    minus3 hi' lo' = scal3 (m / (vx hi - vx lo)) (minus3 hi lo).
Proof.
  intros P B L Pm. unfold scaleToSize. rewrite B. cbn [obind].
  assert (ndiv (XF m) (vx (bbSize (xbox lo hi))) = XF (m / (vx hi - vx lo))) as ->.
  { unfold bbSize, vsub. cbn [xbox xv bMin bMax vx vy vz nsub ndiv NumX]. unfold xsub. cbn [xopp xadd xdiv].
    destruct (Req_EM_T (vx hi + - vx lo) 0); [lra|]. reflexivity. }
  set (k := m / (vx hi - vx lo)).
  assert (0 < k) as K by (apply Rdiv_lt_0_compat; lra).
  destruct (scale_about_center o lo hi k P B) as (o' & T & P' & B' & C & _); [lra|].
  do 3 eexists. split; [exact T|]. split; auto. split; [exact B'|]. split; auto.
  rewrite Rabs_right by lra. unfold minus3, plus3, scal3; cbn [vx vy vz]. split.
  - unfold k. field. lra.
  - f_equal; field.
Qed.

(** ** Rotations *)
Lemma det_rotate o a th : a <> zero3 -> det3 (afA (rotate o a th)) <> 0.
Proof.
  intros H. rewrite det_by_columns, rotate_vol by auto. unfold vol, dot3, cross3; cbn [vx vy vz]. lra.
Qed.

Lemma norm_pos a : a <> zero3 -> 0 < norm a.
Proof.
  intros H. unfold norm. apply sqrt_lt_R0. destruct a as [x y z]. unfold norm2, dot3; cbn [vx vy vz].
  destruct (Req_dec x 0) as [-> |X]; [|pose proof (Rsqr_pos_lt x X); unfold Rsqr in *; nra].
  destruct (Req_dec y 0) as [-> |Y]; [|pose proof (Rsqr_pos_lt y Y); unfold Rsqr in *; nra].
  destruct (Req_dec z 0) as [-> |Z]; [|pose proof (Rsqr_pos_lt z Z); unfold Rsqr in *; nra].
  now exfalso.
Qed.
Lemma xnormalized a : a <> zero3 -> vnormalized (xv a) = xv (vnormalized a).
Proof.
  intros H. pose proof (norm_pos a H) as N. unfold norm, norm2, dot3 in N. destruct a as [x y z].
  unfold vnormalized, vlen, vmul, vdot, xv. cbn [vx vy vz] in *.
  cbn [nofZ nadd nmul ndiv nsqrt NumX NumR]. cbn [xmul xadd xsqrt].
  destruct (Rlt_dec (x * x + y * y + z * z) 0) as [L|L]; [exfalso; rewrite sqrt_neg_0 in N by lra; lra|].
  cbn [xdiv]. destruct (Req_EM_T (sqrt (x * x + y * y + z * z)) 0) as [E|E]; [lra|]. cbn [xmul]. reflexivity.
Qed.
Lemma xuSin th : uSin (TF := TrigX) (XF th) = XF (uSin th).
Proof.
  unfold uSin. cbn [npi nsin TrigX TrigR neqb nopp NumX NumR nofZ xopp xeqb xfun]. destruct (Reqb th PI || Reqb th (- PI))%bool; reflexivity.
Qed.
Lemma xuCos th : uCos (TF := TrigX) (XF th) = XF (uCos th).
Proof.
  unfold uCos. cbn [npi ncos TrigX TrigR neqb nopp ndiv NumX NumR nofZ xopp xdiv].
  destruct (Req_EM_T 2 0) as [E|E]; [lra|]. cbn [xeqb xopp xfun].
  destruct (Reqb th (PI / 2) || Reqb th (- PI / 2))%bool; reflexivity.
Qed.
Lemma xrotate c a th : a <> zero3 -> rotate (TF := TrigX) (xv c) (xv a) (XF th) = xaff (rotate c a th).
Proof.
  intros H. unfold rotate.
  assert (rotationMatrix (TF := TrigX) (xv a) (XF th) = xmat (rotationMatrix a th)) as ->.
  { unfold rotationMatrix. rewrite xnormalized, xuSin, xuCos by auto. reflexivity. }
  reflexivity.
Qed.

Theorem rotate_about_center {M} (o : object xr M) lo hi a th : placeable o -> oBounds o = Val (xbox lo hi) -> a <> zero3 ->
  let c := mid lo hi in
  exists o', rotateObj (TF := TrigX) o (xv a) (XF th) = Val o' /\ placeable o' /\ objCenter o' = objCenter o /\
    forall q, oInside o' (xv (transformPoint (rotate c a th) q)) = oInside o (xv q).
Proof.
  intros P B A c. unfold rotateObj, rotateObjAt. destruct (centers o lo hi B) as (E & _). rewrite E. cbn [obind]. fold c.
  rewrite xrotate by auto.
  destruct (placeable_moves o (rotate c a th) lo hi P) as (_ & o' & lo' & hi' & T & P' & B' & Mi & _ & In); auto.
  { now apply det_rotate. }
  exists o'. split; auto. split; auto. split; [|exact In].
  destruct (centers o' _ _ B') as (-> & _). rewrite Mi. f_equal. f_equal. fold c.
  replace c with (plus3 c (scal3 0 a)) at 2 by (destruct c as [x y z], a as [x' y' z']; unfold plus3, scal3; cbn [vx vy vz]; f_equal; ring).
  rewrite rotate_fixes_axis by auto. destruct c as [x y z], a as [x' y' z']; unfold plus3, scal3; cbn [vx vy vz]; f_equal; ring.
Qed.

(** ** Rigid motions do not inflate boxes *)
Lemma rigid_before t s : rigid t -> rigid s -> rigid (before t s).
Proof. intros T S p q. rewrite !before_point, S. apply T. Qed.
Lemma coord_le_dist (p q : pt) : Rabs (vx p - vx q) <= dist p q /\ Rabs (vy p - vy q) <= dist p q /\ Rabs (vz p - vz q) <= dist p q.
Proof.
  destruct p as [x y z], q as [x' y' z']. unfold dist, norm, norm2, dot3, minus3; cbn [vx vy vz].
  assert (forall u v, 0 <= v -> Rabs u <= sqrt (u * u + v)) as L.
  { intros u v V. rewrite <- sqrt_Rsqr_abs. apply sqrt_le_1_alt. unfold Rsqr. lra. }
  assert (forall u : R, 0 <= u * u) as Sq by (intros; nra).
  set (a := x - x'). set (b := y - y'). set (c := z - z'). repeat split.
  - replace (a * a + b * b + c * c) with (a * a + (b * b + c * c)) by ring. apply L. pose proof (Sq b). pose proof (Sq c). lra.
  - replace (a * a + b * b + c * c) with (b * b + (a * a + c * c)) by ring. apply L. pose proof (Sq a). pose proof (Sq c). lra.
  - replace (a * a + b * b + c * c) with (c * c + (a * a + b * b)) by ring. apply L. pose proof (Sq a). pose proof (Sq b). lra.
Qed.
Lemma spread_bound t lo hi : ordered lo hi -> rigid t ->
  let e := spread (afA t) (half lo hi) in 2 * vx e <= dist hi lo /\ 2 * vy e <= dist hi lo /\ 2 * vz e <= dist hi lo.
Proof.
  intros O Rg e.
  assert (forall (sel : pt -> R) (col : pt -> R), (forall x y z, sel (transformPoint t (Vec x y z)) =
      col (m0 (afA t)) * x + col (m1 (afA t)) * y + col (m2 (afA t)) * z + sel (afB t)) ->
    (forall p q, Rabs (sel p - sel q) <= dist p q) ->
    2 * (Rabs (col (m0 (afA t))) * vx (half lo hi) + Rabs (col (m1 (afA t))) * vy (half lo hi) + Rabs (col (m2 (afA t))) * vz (half lo hi)) <= dist hi lo) as Key.
  { intros sel col Hs Hd. unfold half, scal3, minus3; cbn [vx vy vz].
    set (a := col (m0 (afA t))) in *. set (b := col (m1 (afA t))) in *. set (c := col (m2 (afA t))) in *.
    assert (forall a lo hi : R, exists x x', (x = lo /\ x' = hi \/ x = hi /\ x' = lo) /\ a * x - a * x' = Rabs a * (hi - lo)) as Ends.
    { intros k l h. destruct (Rle_or_lt 0 k).
      - exists h, l. split; [auto|]. rewrite Rabs_right by lra. ring.
      - exists l, h. split; [auto|]. rewrite Rabs_left by lra. ring. }
    destruct (Ends a (vx lo) (vx hi)) as (x & x' & Hx & Ex), (Ends b (vy lo) (vy hi)) as (y & y' & Hy & Ey), (Ends c (vz lo) (vz hi)) as (z & z' & Hz & Ez).
    assert (dist (Vec x y z) (Vec x' y' z') = dist hi lo) as D.
    { unfold dist, norm. f_equal. unfold norm2, dot3, minus3; cbn [vx vy vz].
      destruct Hx as [[-> ->]|[-> ->]], Hy as [[-> ->]|[-> ->]], Hz as [[-> ->]|[-> ->]]; ring. }
    rewrite <- D, <- Rg. eapply Rle_trans; [|apply Hd]. rewrite !Hs. eapply Rle_trans; [|apply Rle_abs]. lra. }
  repeat split.
  - apply (Key (fun p => vx p) (fun p => vx p)); [|intros; apply coord_le_dist].
    intros. destruct t as [[[a b c] [d f g] [h i j]] [k l m]]. unfold transformPoint, vadd, mmulvec; cbn [afA afB m0 m1 m2 vx vy vz]; rnum. ring.
  - apply (Key (fun p => vy p) (fun p => vy p)); [|intros; apply coord_le_dist].
    intros. destruct t as [[[a b c] [d f g] [h i j]] [k l m]]. unfold transformPoint, vadd, mmulvec; cbn [afA afB m0 m1 m2 vx vy vz]; rnum. ring.
  - apply (Key (fun p => vz p) (fun p => vz p)); [|intros; apply coord_le_dist].
    intros. destruct t as [[[a b c] [d f g] [h i j]] [k l m]]. unfold transformPoint, vadd, mmulvec; cbn [afA afB m0 m1 m2 vx vy vz]; rnum. ring.
Qed.

Lemma rigid_det t : rigid t -> det3 (afA t) <> 0.
Proof.
  intros H.
  assert (forall p q, norm2 (minus3 (transformPoint t p) (transformPoint t q)) = norm2 (minus3 p q)) as N.
  { intros p q. specialize (H p q). unfold dist, norm in H. apply sqrt_inj; auto; apply norm2_nonneg. }
  pose proof (N (Vec 1 0 0) zero3) as Nx. pose proof (N (Vec 0 1 0) zero3) as Ny. pose proof (N (Vec 0 0 1) zero3) as Nz.
  pose proof (N (Vec 1 0 0) (Vec 0 1 0)) as Nxy. pose proof (N (Vec 0 1 0) (Vec 0 0 1)) as Nyz. pose proof (N (Vec 0 0 1) (Vec 1 0 0)) as Nzx.
  clear H N. destruct t as [[[a b c] [d e f] [g h i]] [j k l]].
  unfold transformPoint, vadd, mmulvec, norm2, dot3, minus3, zero3 in *; cbn [afA afB m0 m1 m2 vx vy vz] in *.
  unfold det3, vol, dot3, cross3; cbn [m0 m1 m2 vx vy vz]. rnum.
  assert (a * a + b * b + c * c = 1) as X by lra.
  assert (d * d + e * e + f * f = 1) as Y by lra.
  assert (g * g + h * h + i * i = 1) as Z by lra.
  assert (a * d + b * e + c * f = 0) as XY by lra.
  assert (d * g + e * h + f * i = 0) as YZ by lra.
  assert (g * a + h * b + i * c = 0) as ZX by lra.
  set (D := (_ + _)%R). intros D0.
  assert (D * D = (a * a + b * b + c * c) * ((d * d + e * e + f * f) * (g * g + h * h + i * i) - (d * g + e * h + f * i) * (d * g + e * h + f * i))
     - (a * d + b * e + c * f) * ((a * d + b * e + c * f) * (g * g + h * h + i * i) - (d * g + e * h + f * i) * (g * a + h * b + i * c))
     + (g * a + h * b + i * c) * ((a * d + b * e + c * f) * (d * g + e * h + f * i) - (d * d + e * e + f * f) * (g * a + h * b + i * c))) as G by (unfold D; ring).
  rewrite X, Y, Z, XY, YZ, ZX, D0 in G. lra.
Qed.

Theorem displaced_box {M} (base o : object xr M) lo hi : oTransf base = None -> oBounds base = Val (xbox lo hi) -> ordered lo hi ->
  displaced base o ->
  exists t lo' hi', rigid t /\ (forall q, oInside o (xv (transformPoint t q)) = oInside base (xv q)) /\
    oBounds o = Val (xbox lo' hi') /\ mid lo' hi' = transformPoint t (mid lo hi) /\
    vx hi' - vx lo' <= dist hi lo /\ vy hi' - vy lo' <= dist hi lo /\ vz hi' - vz lo' <= dist hi lo.
Proof.
  intros N B O D.
  assert (exists t, rigid t /\ placed_by o base t (mid lo hi) (half lo hi)) as (t & Rt & [_ _ _ _ Bo In _]).
  { induction D as [|o t o' D IH Rt E].
    - exists unitTransform. split; [intros p q; now rewrite !unit_point|]. rewrite around_mid in B. split; auto.
      + now apply half_nonneg.
      + apply det_unit.
      + now rewrite unit_point, spread_unit.
      + intros q. now rewrite unit_point.
      + intros s. now rewrite before_unit.
    - destruct IH as (t0 & R0 & [_ B1 P D0 B0 In T0]). exists (before t0 t). split; [now apply rigid_before|].
      rewrite T0 in E. destruct (transformed_bounds base (before t0 t) (mid lo hi) (half lo hi)) as (o1 & E1 & Q); auto.
      { rewrite det_before. apply Rmult_integral_contrapositive. split; auto. now apply rigid_det. }
      rewrite E in E1. injection E1 as <-. exact Q. }
  exists t. do 2 eexists. split; [auto|]. split; [exact In|]. split; [exact Bo|]. rewrite mid_around. split; [auto|].
  pose proof (spread_bound t lo hi O Rt) as (S1 & S2 & S3).
  set (e := spread (afA t) (half lo hi)) in *. set (c := transformPoint t (mid lo hi)).
  unfold plus3, minus3; cbn [vx vy vz]. lra.
Qed.

(** ** AndNot and Remove *)
Theorem and_not_remove_inside {F} `{NF : Num F} `{NI : NumInf F} {M} (o b : object F M) p x y :
  oInside o p = Val x -> oInside b p = Val y ->
  oInside (andNot o b) p = Val (x && negb y)%bool /\ oInside (remove o b) p = Val (x && negb y)%bool.
Proof.
  intros X Y. unfold andNot, remove. cbn [oInside cAnd cRestrict cNot]. rewrite X, Y. unfold oand. cbn [obind omap].
  destruct x; auto.
Qed.
