(** * Proofs about the minimal shapes and materials of package test *)
From Coq Require Import ZArith Reals Bool List Lra Lia Psatz.
From Flocq Require Import Core.
From Flocq Require IEEE754.BinarySingleNaN.
Import IEEE754.BinarySingleNaN.
From Verif Require Import Num NumLaws Outcome B64 GeomModel GeomSpec ColorModel ObjModel ObjSpec ObjProofs PrimProofs TestModel TestSpec.
Local Open Scope R_scope.

Section Shapes.
  Context {M : Type}.
  Lemma unit_checked (s d : pt) : norm2 d = 1 -> testCheckRay (Ray s d) = Val tt.
  Proof.
    intros U. unfold testCheckRay, vlen, nQ. cbn [rDir]. rnum. change (vx d * vx d + vy d * vy d + vz d * vz d) with (norm2 d). rewrite U, sqrt_1.
    replace (1 - 1) with 0 by ring. rewrite Rabs_R0. destruct (Rltb (1 / 1024) 0) eqn:E; [apply Rltb_true in E; lra|reflexivity].
  Qed.
  (** the first crossing ahead *)
  Definition first_on (on : pt -> Prop) (s d : pt) (t : R) : Prop := 0 < t /\ on (along s d t) /\ forall t', 0 < t' < t -> ~ on (along s d t').
  Lemma first_unique on s d t t' : first_on on s d t -> first_on on s d t' -> t = t'.
  Proof.
    intros (P & O & F) (P' & O' & F'). destruct (Rtotal_order t t') as [L|[E|L]]; [exfalso; apply (F' t); auto|exact E|exfalso; apply (F t'); auto].
  Qed.
  Lemma on_sphere (c s d : pt) (rad t : R) : norm2 d = 1 ->
    (norm2 (minus3 (along s d t) c) = rad² <-> (t + dot3 (minus3 s c) d)² = (dot3 (minus3 s c) d)² - (norm2 (minus3 s c) - rad²)).
  Proof.
    destruct c as [cx cy cz], s as [sx sy sz], d as [dx dy dz]. unfold norm2, dot3, minus3, along, plus3, scal3, Rsqr. cbn [vx vy vz]. intros U.
    assert (E : (sx + t * dx - cx) * (sx + t * dx - cx) + (sy + t * dy - cy) * (sy + t * dy - cy) + (sz + t * dz - cz) * (sz + t * dz - cz)
      = t * t * (dx * dx + dy * dy + dz * dz) + 2 * t * ((sx - cx) * dx + (sy - cy) * dy + (sz - cz) * dz) + ((sx - cx) * (sx - cx) + (sy - cy) * (sy - cy) + (sz - cz) * (sz - cz))) by ring.
    rewrite E, U. split; intros H; lra.
  Qed.
  Theorem testSphere_exact (m : option M) (diam : R) (c s d : pt) : norm2 d = 1 -> norm2 (minus3 s c) <> (diam / 2)² ->
    let on p := norm2 (minus3 p c) = (diam / 2)² in
    (exists t, first_on on s d t /\ testSphere m diam c (Ray s d) = Val (Hit t (minus3 (along s d t) c) (minus3 (along s d t) c) m)) \/
    ((forall t, 0 < t -> ~ on (along s d t)) /\ testSphere m diam c (Ray s d) = Val noHit).
  Proof.
    intros U NS on. unfold testSphere. rewrite (unit_checked s d U). cbn [obind rStart rDir].
    assert (ON : forall t, on (along s d t) <-> (t + dot3 (minus3 s c) d)² = (dot3 (minus3 s c) d)² - (norm2 (minus3 s c) - (diam / 2)²)) by (intros t; apply on_sphere; exact U).
    set (b := dot3 (minus3 s c) d) in *. set (k := norm2 (minus3 s c) - (diam / 2)²) in *. assert (K : k <> 0) by (unfold k; lra).
    change (vdot (vsub s c) d) with b. change (vlen2 (vsub s c)) with (norm2 (minus3 s c)).
    rnum. replace (b * b - (norm2 (minus3 s c) - diam / 2 * (diam / 2))) with (b² - k) by (unfold k, Rsqr; ring).
    clearbody b k. destruct (Rltb (b² - k) 0) eqn:E.
    - apply Rltb_true in E. right. split; [|reflexivity]. intros t _ O. apply ON in O. assert (P := Rle_0_sqr (t + b)). lra.
    - apply Rltb_false in E. set (q := sqrt (b² - k)). assert (Q0 : 0 <= q) by apply sqrt_pos. assert (Q : q * q = b² - k) by (apply sqrt_sqrt; lra). clearbody q.
      assert (RT : forall t, on (along s d t) <-> t = - b - q \/ t = - b + q).
      { intros t. rewrite ON, <- Q. unfold Rsqr. split; [|intros [-> | ->]; ring]. intros H.
        assert (Z : (t + b - q) * (t + b + q) = 0) by lra. apply Rmult_integral in Z. destruct Z; [right|left]; lra. }
      assert (Pk : (- b - q) * (- b + q) = k) by (unfold Rsqr in Q; lra).
      assert (AT : forall t, rayAt (Ray s d) t = along s d t) by reflexivity.
      destruct (Rltb (- b - q) 0) eqn:E1.
      + apply Rltb_true in E1. destruct (Rltb 0 (- b + q)) eqn:E2.
        * apply Rltb_true in E2. left. exists (- b + q). split; [|rewrite AT; reflexivity]. split; [exact E2|]. split; [apply RT; auto|]. intros t' H O. apply RT in O. lra.
        * apply Rltb_false in E2. right. split; [|reflexivity]. intros t P O. apply RT in O. lra.
      + apply Rltb_false in E1. assert (- b - q <> 0) by (intros Z; rewrite Z in Pk; lra).
        destruct (Rltb 0 (- b - q)) eqn:E2; [|apply Rltb_false in E2; lra]. apply Rltb_true in E2.
        left. exists (- b - q). split; [|rewrite AT; reflexivity]. split; [exact E2|]. split; [apply RT; auto|]. intros t' H' O. apply RT in O. lra.
  Qed.
  Lemma unit_nonzero (d : pt) : norm2 d = 1 -> d <> zero3.
  Proof. intros U ->. unfold norm2, dot3, zero3 in U. cbn [vx vy vz] in U. lra. Qed.
  Theorem testSphere_agrees (m : option M) (diam : R) (c s d : pt) : 0 <= diam -> norm2 d = 1 -> norm2 (minus3 s c) <> (diam / 2)² ->
    oIntersect (sphere m diam c) (Ray s d) = omap (fun h => (h, Ray s d)) (testSphere m diam c (Ray s d)).
  Proof.
    intros Hd U NS. cbn [sphere quadric simpleObj oIntersect omap].
    destruct (sphere_exact m diam c s d Hd (unit_nonzero d U)) as [(P & O & N & L & Mt & F)|(N & F)];
      destruct (testSphere_exact m diam c s d U NS) as [(t & Ft & ->)|(N' & ->)]; cbn [omap].
    - set (h := quadricIntersect (sphereData m diam c) (Ray s d)) in *.
      assert (E : hT h = t) by (apply (first_unique (fun p => norm2 (minus3 p c) = (diam / 2)²) s d); [split; [exact P|split; [exact O|exact F]]|exact Ft]).
      destruct h as [ht hn hl hm]. cbn [hT hNormal hLocal hMat] in *. subst. reflexivity.
    - exfalso. apply (N' _ P O).
    - exfalso. destruct Ft as (P & O & _). apply (F t P O).
    - rewrite N. reflexivity.
  Qed.
  (** a start on the sphere *)
  Theorem testSphere_misses_from_the_surface (m : option M) (diam : R) (c d : pt) : 0 < diam -> norm2 d = 1 ->
    let s := along c d (- (diam / 2)) in
    testSphere m diam c (Ray s d) = Val noHit /\
    exists h, oIntersect (sphere m diam c) (Ray s d) = Val (h, Ray s d) /\ hT h = diam.
  Proof.
    intros Hd U s. assert (B : dot3 (minus3 s c) d = - (diam / 2)).
    { unfold s, along, plus3, scal3, minus3, dot3. cbn [vx vy vz]. unfold norm2, dot3 in U.
      replace ((vx c + - (diam / 2) * vx d - vx c) * vx d + (vy c + - (diam / 2) * vy d - vy c) * vy d + (vz c + - (diam / 2) * vz d - vz c) * vz d)
        with (- (diam / 2) * (vx d * vx d + vy d * vy d + vz d * vz d)) by ring. rewrite U. ring. }
    assert (C : norm2 (minus3 s c) = (diam / 2)²).
    { unfold s, along, plus3, scal3, minus3, norm2, dot3, Rsqr. cbn [vx vy vz]. unfold norm2, dot3 in U.
      replace ((vx c + - (diam / 2) * vx d - vx c) * (vx c + - (diam / 2) * vx d - vx c) + (vy c + - (diam / 2) * vy d - vy c) * (vy c + - (diam / 2) * vy d - vy c) + (vz c + - (diam / 2) * vz d - vz c) * (vz c + - (diam / 2) * vz d - vz c))
        with (diam / 2 * (diam / 2) * (vx d * vx d + vy d * vy d + vz d * vz d)) by ring. rewrite U. ring. }
    assert (ON : forall t, norm2 (minus3 (along s d t) c) = (diam / 2)² <-> t = 0 \/ t = diam).
    { intros t. rewrite on_sphere by exact U. rewrite B, C. unfold Rsqr. split.
      - intros H. assert (Z : t * (t - diam) = 0) by lra. apply Rmult_integral in Z. destruct Z; [left|right]; lra.
      - intros [-> | ->]; field. }
    split.
    - unfold testSphere. rewrite (unit_checked s d U). cbn [obind rStart rDir]. change (vdot (vsub s c) d) with (dot3 (minus3 s c) d). change (vlen2 (vsub s c)) with (norm2 (minus3 s c)).
      rewrite B, C. rnum. unfold Rsqr. replace (- (diam / 2) * - (diam / 2) - (diam / 2 * (diam / 2) - diam / 2 * (diam / 2))) with (diam / 2 * (diam / 2)) by ring.
      destruct (Rltb (diam / 2 * (diam / 2)) 0) eqn:E; [apply Rltb_true in E; nra|]. rewrite sqrt_square by lra.
      destruct (Rltb (- - (diam / 2) - diam / 2) 0) eqn:E1; [apply Rltb_true in E1; lra|].
      destruct (Rltb 0 (- - (diam / 2) - diam / 2)) eqn:E2; [apply Rltb_true in E2; lra|]. reflexivity.
    - cbn [sphere quadric simpleObj oIntersect omap]. eexists. split; [reflexivity|].
      destruct (sphere_exact m diam c s d (Rlt_le _ _ Hd) (unit_nonzero d U)) as [(P & O & _)|(_ & F)].
      + apply ON in O. lra.
      + exfalso. apply (F diam Hd). apply ON. auto.
  Qed.

  (** ** Sheets *)
  Theorem testSheet_exact (m : option M) (height : R) (s d : pt) : vy d <> 0 ->
    let t := (height - vy s) / vy d in
    testSheet (fun _ => false) m height (Ray s d) = if Rlt_dec t 0 then noHit else Hit t (Vec 0 1 0) (Vec (vx (along s d t)) (vz (along s d t)) 0) m.
  Proof.
    intros N t. unfold testSheet. cbn [rStart rDir vsub vy]. rnum. replace (- (vy s - height) / vy d) with t by (unfold t; field; exact N).
    rewrite orb_false_r. destruct (Rltb t 0) eqn:E; [apply Rltb_true in E|apply Rltb_false in E]; destruct (Rlt_dec t 0); try lra; reflexivity.
  Qed.
  Theorem testSheet_nan (m : option M) : let isinf (x : b64) := neqb x (B754_infinity false) in
    nisnan (hT (testSheet isinf m (nofZ 1) (Ray (Vec (nofZ 0) (nofZ 1) (nofZ 0)) (Vec (nofZ 1) (nofZ 0) (nofZ 0))))) = true.
  Proof. vm_compute. reflexivity. Qed.

  (** ** The light *)
  Theorem testLight_clear (pos dst : pt) (l : R) : (101 / 1000)² <= norm2 (minus3 pos dst) -> 0 <= l <= 1 ->
    let p := testLightPos pos dst in (101 / 1000)² <= norm2 (minus3 (along dst (minus3 p dst) l) pos).
  Proof.
    intros H Hl p. assert (G := H). set (D := minus3 pos dst) in *. set (n := norm D).
    assert (N2 : n * n = norm2 D) by (unfold n, norm; apply sqrt_sqrt; unfold Rsqr in H; lra).
    assert (N0 : 101 / 1000 <= n).
    { destruct (Rle_lt_dec (101 / 1000) n) as [L|L]; [exact L|exfalso]. assert (0 <= n) by apply sqrt_pos. unfold Rsqr in H. nra. }
    assert (E : p = plus3 pos (scal3 (- (101 / 1000) / n) D)).
    { unfold p, testLightPos, nQ, vmadd, vnormalized, plus3, scal3, vmul. cbn [vx vy vz]. fold D. change (vsub pos dst) with D.
      change (vlen D) with n. rnum. cbn [vx vy vz]. change (sqrt (vx D * vx D + vy D * vy D + vz D * vz D)) with n. f_equal; field; lra. }
    assert (V : minus3 (along dst (minus3 p dst) l) pos = scal3 (l * (1 - 101 / 1000 / n) - 1) D).
    { rewrite E. unfold along, minus3, plus3, scal3, D, minus3. cbn [vx vy vz]. f_equal; field; lra. }
    rewrite V. unfold norm2, dot3, scal3. cbn [vx vy vz].
    replace ((l * (1 - 101 / 1000 / n) - 1) * vx D * ((l * (1 - 101 / 1000 / n) - 1) * vx D) + (l * (1 - 101 / 1000 / n) - 1) * vy D * ((l * (1 - 101 / 1000 / n) - 1) * vy D) + (l * (1 - 101 / 1000 / n) - 1) * vz D * ((l * (1 - 101 / 1000 / n) - 1) * vz D))
      with (((l * (1 - 101 / 1000 / n) - 1) * (l * (1 - 101 / 1000 / n) - 1)) * norm2 D) by (unfold norm2, dot3; ring).
    rewrite <- N2. replace ((l * (1 - 101 / 1000 / n) - 1) * (l * (1 - 101 / 1000 / n) - 1) * (n * n)) with ((l * (n - 101 / 1000) - n)²) by (unfold Rsqr; field; lra).
    replace ((l * (n - 101 / 1000) - n)²) with ((n - l * (n - 101 / 1000))²) by (unfold Rsqr; ring).
    apply Rsqr_incr_1; nra.
  Qed.

  (** ** Checkers *)
  Lemma trunc_shift u : -5000 <= u -> Ztrunc (u * 2 + 10000) = (Zfloor (2 * u) + 10000)%Z.
  Proof.
    intros H. rewrite Ztrunc_floor by lra. replace (u * 2 + 10000) with (2 * u + IZR 10000) by lra. apply Zfloor_imp.
    rewrite !plus_IZR. assert (A := Zfloor_lb (2 * u)). assert (B := Zfloor_ub (2 * u)). lra.
  Qed.
  Theorem testCheckers_squares (u v : R) : -5000 <= u -> -5000 <= v -> testCheckers u v = Z.even (Zfloor (2 * u) + Zfloor (2 * v)).
  Proof.
    intros Hu Hv. unfold testCheckers. rnum. rewrite !trunc_shift by assumption.
    replace (Zfloor (2 * u) + 10000 + (Zfloor (2 * v) + 10000))%Z with (Zfloor (2 * u) + Zfloor (2 * v) + 2 * 10000)%Z by ring.
    rewrite <- (Z.even_add_mul_2 (Zfloor (2 * u) + Zfloor (2 * v)) 10000). set (z := (_ + 2 * 10000)%Z).
    apply eq_true_iff_eq. rewrite Z.eqb_eq, Z.even_spec. split.
    - intros E. exists (z ÷ 2)%Z. assert (Q := Z.quot_rem' z 2). lia.
    - intros [k ->]. rewrite Z.mul_comm. apply Z.rem_mul. lia.
  Qed.
  Theorem testCheckers_far : testCheckers (F := R) (-5000 - 1 / 4) 0 = testCheckers (-5000 + 1 / 4) 0.
  Proof.
    unfold testCheckers. rnum. replace ((-5000 - 1 / 4) * 2 + 10000) with (- (1 / 2)) by lra. replace ((-5000 + 1 / 4) * 2 + 10000) with (1 / 2) by lra.
    rewrite Ztrunc_opp. replace (Ztrunc (1 / 2)) with 0%Z; [reflexivity|]. symmetry. rewrite Ztrunc_floor by lra. apply Zfloor_imp. cbn. lra.
  Qed.
End Shapes.

(** ** Normals *)
Lemma cos_bound (n d : pt) : norm2 n = 1 -> norm2 d = 1 -> -1 <= dot3 n d <= 1.
Proof.
  destruct n as [nx ny nz], d as [dx dy dz]. unfold norm2, dot3. cbn [vx vy vz]. intros Hn Hd.
  assert (A := Rle_0_sqr (nx - dx)). assert (B := Rle_0_sqr (ny - dy)). assert (C := Rle_0_sqr (nz - dz)).
  assert (A' := Rle_0_sqr (nx + dx)). assert (B' := Rle_0_sqr (ny + dy)). assert (C' := Rle_0_sqr (nz + dz)). unfold Rsqr in *. lra.
Qed.
Theorem testNormal_shows (c : color R) (s d n : pt) : norm2 d = 1 -> norm2 n = 1 ->
  exists k, 0 <= k <= 1 /\ (dot3 n d < 0 -> testNormal c (Ray s d) n = Val (Color (k * cR c) (k * cG c) (k * cB c)) /\ k = - dot3 n d) /\
    (0 <= dot3 n d -> testNormal c (Ray s d) n = Val (Color k 0 0) /\ k = dot3 n d).
Proof.
  intros Hd Hn. assert (B := cos_bound n d Hn Hd). exists (Rabs (dot3 n d)). split; [split; [apply Rabs_pos|apply Rabs_le; lra]|].
  unfold testNormal. rewrite (unit_checked s d Hd). cbn [obind rDir]. change (vdot n d) with (dot3 n d). rnum.
  split; intros H.
  - destruct (Rltb (dot3 n d) 0) eqn:E; [|apply Rltb_false in E; lra]. rewrite Rabs_left by exact H. split; reflexivity.
  - destruct (Rltb (dot3 n d) 0) eqn:E; [apply Rltb_true in E; lra|]. rewrite Rabs_pos_eq by exact H. split; [|reflexivity].
    unfold clmul. cbn [cR cG cB]. rnum. now rewrite Rmult_1_r, !Rmult_0_r.
Qed.
