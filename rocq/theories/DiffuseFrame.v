(** * The cosine-weighted average does not depend on the frame *)
From Coq Require Import ZArith Reals List Lra Lia Psatz.
From Coquelicot Require Import Coquelicot.
From Verif Require Import GeomModel GeomSpec GeomProofs ObjProofs DiffuseSpec DiffuseProofs.
Local Open Scope R_scope.

(** ** Frames *)
Lemma complete_frame ex ey n v : orthonormal ex ey n ->
  v = plus3 (plus3 (scal3 (dot3 v ex) ex) (scal3 (dot3 v ey) ey)) (scal3 (dot3 v n) n).
Proof.
  intros (A & B & C & D & E & F).
  set (e := minus3 v (plus3 (plus3 (scal3 (dot3 v ex) ex) (scal3 (dot3 v ey) ey)) (scal3 (dot3 v n) n))).
  assert (E1 : dot3 e ex = 0).
  { transitivity (dot3 v ex * (1 - norm2 ex) - dot3 v ey * dot3 ex ey - dot3 v n * dot3 ex n).
    - unfold e, minus3, plus3, scal3, norm2, dot3; cbn [vx vy vz]; ring.
    - rewrite A, D, E. ring. }
  assert (E2 : dot3 e ey = 0).
  { transitivity (dot3 v ey * (1 - norm2 ey) - dot3 v ex * dot3 ex ey - dot3 v n * dot3 ey n).
    - unfold e, minus3, plus3, scal3, norm2, dot3; cbn [vx vy vz]; ring.
    - rewrite B, D, F. ring. }
  assert (E3 : dot3 e n = 0).
  { transitivity (dot3 v n * (1 - norm2 n) - dot3 v ex * dot3 ex n - dot3 v ey * dot3 ey n).
    - unfold e, minus3, plus3, scal3, norm2, dot3; cbn [vx vy vz]; ring.
    - rewrite C, E, F. ring. }
  set (det := dot3 ex (cross3 ey n)).
  assert (Dt : det * det = 1).
  { transitivity (norm2 ex * (norm2 ey * norm2 n - dot3 ey n * dot3 ey n) - dot3 ex ey * (dot3 ex ey * norm2 n - dot3 ey n * dot3 ex n)
      + dot3 ex n * (dot3 ex ey * dot3 ey n - norm2 ey * dot3 ex n)).
    - unfold det, norm2, dot3, cross3; cbn [vx vy vz]; ring.
    - rewrite A, B, C, D, E, F. ring. }
  assert (Cr : scal3 det e = plus3 (plus3 (scal3 (dot3 e ex) (cross3 ey n)) (scal3 (dot3 e ey) (cross3 n ex))) (scal3 (dot3 e n) (cross3 ex ey))).
  { unfold det. clearbody e. destruct e as [e1 e2 e3]. unfold plus3, scal3, dot3, cross3; cbn [vx vy vz]. apply vec_eq; cbn [vx vy vz]; ring. }
  rewrite E1, E2, E3 in Cr.
  assert (Z : e = zero3).
  { assert (det <> 0) as Hd by (intros Z; rewrite Z in Dt; lra).
    assert (scal3 det e = zero3) as S by (rewrite Cr; unfold plus3, scal3, zero3; cbn [vx vy vz]; apply vec_eq; cbn [vx vy vz]; ring).
    clearbody e. destruct e as [e1 e2 e3]. unfold scal3, zero3 in S |- *. cbn [vx vy vz] in S. injection S as S1 S2 S3.
    f_equal; [destruct (Rmult_integral _ _ S1)|destruct (Rmult_integral _ _ S2)|destruct (Rmult_integral _ _ S3)]; try contradiction; assumption. }
  revert Z. unfold e. generalize (plus3 (plus3 (scal3 (dot3 v ex) ex) (scal3 (dot3 v ey) ey)) (scal3 (dot3 v n) n)).
  intros [p1 p2 p3]. clear. destruct v as [v1 v2 v3]. unfold minus3, zero3; cbn [vx vy vz]. intros H. injection H as H1 H2 H3. f_equal; lra.
Qed.

Lemma angle_of a b : a * a + b * b = 1 -> exists al, cos al = a /\ sin al = b.
Proof.
  intros H. assert (-1 <= a <= 1) as Ha by nra.
  assert (S : sqrt (1 - Rsqr a) = Rabs b).
  { replace (1 - Rsqr a) with (Rsqr b) by (unfold Rsqr; lra). apply sqrt_Rsqr_abs. }
  destruct (Rle_lt_dec 0 b) as [Hb|Hb].
  - exists (acos a). rewrite cos_acos, sin_acos by exact Ha. rewrite S. rewrite Rabs_right by lra. auto.
  - exists (- acos a). rewrite cos_neg, sin_neg, cos_acos, sin_acos by exact Ha. rewrite S. rewrite Rabs_left by lra. split; lra.
Qed.

(** any frame about [n] is another one turned, and possibly mirrored *)
Lemma frames_polar ex ey ex' ey' n : orthonormal ex ey n -> orthonormal ex' ey' n ->
  exists al, (forall th ph, polar ex' ey' n th ph = polar ex ey n th (1 * ph + al)) \/ (forall th ph, polar ex' ey' n th ph = polar ex ey n th (-1 * ph + al)).
Proof.
  intros H H'. assert (X := complete_frame ex ey n ex' H). assert (Y := complete_frame ex ey n ey' H).
  destruct H as (A & B & C & D & E & F). destruct H' as (A' & B' & C' & D' & E' & F').
  rewrite E' in X. rewrite F' in Y. set (a := dot3 ex' ex) in *. set (b := dot3 ex' ey) in *. set (c := dot3 ey' ex) in *. set (d := dot3 ey' ey) in *.
  clearbody a b c d.
  assert (K : forall p q r s, dot3 (plus3 (plus3 (scal3 p ex) (scal3 q ey)) (scal3 0 n)) (plus3 (plus3 (scal3 r ex) (scal3 s ey)) (scal3 0 n)) = p * r + q * s).
  { intros p q r s. transitivity (p * r * norm2 ex + q * s * norm2 ey + (p * s + q * r) * dot3 ex ey).
    - unfold norm2, dot3, plus3, scal3; cbn [vx vy vz]; ring.
    - rewrite A, B, D. ring. }
  assert (N1 : a * a + b * b = 1) by (rewrite <- K, <- X; exact A').
  assert (N2 : c * c + d * d = 1) by (rewrite <- K, <- Y; exact B').
  assert (N3 : a * c + b * d = 0) by (rewrite <- K, <- X, <- Y; exact D').
  destruct (angle_of a b N1) as (al & <- & <-). clear K. exists al.
  set (ca := cos al) in *. set (sa := sin al) in *.
  assert (CD : (c = - sa /\ d = ca) \/ (c = sa /\ d = - ca)).
  { assert (P : (ca * d - sa * c) * (ca * d - sa * c) = 1).
    { replace ((ca * d - sa * c) * (ca * d - sa * c)) with ((ca * ca + sa * sa) * (c * c + d * d) - (ca * c + sa * d) * (ca * c + sa * d)) by ring. rewrite N1, N2, N3. ring. }
    assert (Q : (ca * d - sa * c - 1) * (ca * d - sa * c + 1) = 0) by lra.
    destruct (Rmult_integral _ _ Q) as [Q1|Q1]; [left|right].
    - split.
      + replace c with (ca * (ca * c + sa * d) - sa * (ca * d - sa * c)) by (transitivity ((ca * ca + sa * sa) * c); [ring|rewrite N1; ring]). rewrite N3. replace (ca * d - sa * c) with 1 by lra. ring.
      + replace d with (sa * (ca * c + sa * d) + ca * (ca * d - sa * c)) by (transitivity ((ca * ca + sa * sa) * d); [ring|rewrite N1; ring]). rewrite N3. replace (ca * d - sa * c) with 1 by lra. ring.
    - split.
      + replace c with (ca * (ca * c + sa * d) - sa * (ca * d - sa * c)) by (transitivity ((ca * ca + sa * sa) * c); [ring|rewrite N1; ring]). rewrite N3. replace (ca * d - sa * c) with (-1) by lra. ring.
      + replace d with (sa * (ca * c + sa * d) + ca * (ca * d - sa * c)) by (transitivity ((ca * ca + sa * sa) * d); [ring|rewrite N1; ring]). rewrite N3. replace (ca * d - sa * c) with (-1) by lra. ring. }
  clear A B C D E F A' B' C' D' E' F' N1 N2 N3.
  destruct CD as [[-> ->]|[-> ->]]; [left|right]; intros th ph; rewrite X, Y; clear X Y.
  - rewrite Rmult_1_l. unfold polar. rewrite cos_plus, sin_plus. fold ca sa. unfold plus3, scal3; cbn [vx vy vz]. apply vec_eq; cbn [vx vy vz]; ring.
  - replace (-1 * ph + al) with (al - ph) by ring. unfold polar. rewrite cos_minus, sin_minus. fold ca sa. unfold plus3, scal3; cbn [vx vy vz]. apply vec_eq; cbn [vx vy vz]; ring.
Qed.

(** ** The integrals *)
Section Frame.
  Variables (ex ey n : pt) (L : pt -> R).
  Hypothesis HF : orthonormal ex ey n.
  Hypothesis HL : continuous_light L.

  Lemma polar_unit th ph : norm2 (polar ex ey n th ph) = 1.
  Proof.
    destruct HF as (A & B & C & D & E & F).
    transitivity (norm2 ex * ((sin th)² * (cos ph)²) + norm2 ey * ((sin th)² * (sin ph)²) + norm2 n * (cos th)²
      + 2 * (sin th * cos ph * (sin th * sin ph) * dot3 ex ey + sin th * cos ph * cos th * dot3 ex n + sin th * sin ph * cos th * dot3 ey n)).
    - unfold polar, norm2, dot3, plus3, scal3, Rsqr; cbn [vx vy vz]; ring.
    - rewrite A, B, C, D, E, F. generalize (sin2_cos2 th) (sin2_cos2 ph). intros P Q.
      transitivity ((sin th)² * ((sin ph)² + (cos ph)²) + (cos th)²); [ring|]. rewrite Q. lra.
  Qed.
  Lemma prod_lip a b a' b' x y : Rabs a <= 1 -> Rabs b' <= 1 -> Rabs (a - a') <= x -> Rabs (b - b') <= y -> Rabs (a * b - a' * b') <= x + y.
  Proof.
    intros Ha Hb Hx Hy. replace (a * b - a' * b') with (a * (b - b') + (a - a') * b') by ring.
    eapply Rle_trans; [apply Rabs_triang|]. rewrite !Rabs_mult.
    generalize (Rabs_pos a) (Rabs_pos b') (Rabs_pos (b - b')) (Rabs_pos (a - a')). nra.
  Qed.
  Lemma trig_1 x : Rabs (sin x) <= 1 /\ Rabs (cos x) <= 1.
  Proof. generalize (SIN_bound x) (COS_bound x). intros. split; apply Rabs_le; lra. Qed.
  Lemma polar_close th ph th' ph' : dist (polar ex ey n th ph) (polar ex ey n th' ph') <= 2 * (Rabs (th - th') + Rabs (ph - ph')).
  Proof.
    assert (D := combination_dist ex ey n (sin th * cos ph) (sin th * sin ph) (cos th) (sin th' * cos ph') (sin th' * sin ph') (cos th') HF).
    unfold dist, norm. fold (polar ex ey n th ph) in D. fold (polar ex ey n th' ph') in D. rewrite D. clear D.
    set (k := Rabs (th - th') + Rabs (ph - ph')). assert (Hk : 0 <= k) by (unfold k; generalize (Rabs_pos (th - th')) (Rabs_pos (ph - ph')); lra).
    assert (X : Rabs (sin th * cos ph - sin th' * cos ph') <= k) by (apply prod_lip; [apply trig_1|apply trig_1|apply sin_lip|apply cos_lip]).
    assert (Y : Rabs (sin th * sin ph - sin th' * sin ph') <= k) by (apply prod_lip; [apply trig_1|apply trig_1|apply sin_lip|apply sin_lip]).
    assert (Z : Rabs (cos th - cos th') <= k) by (eapply Rle_trans; [apply cos_lip|]; unfold k; generalize (Rabs_pos (ph - ph')); lra).
    assert (Q : forall a, Rabs a <= k -> a * a <= k * k).
    { intros a Ha. apply Rsqr_le_abs_1. now rewrite (Rabs_right k) by lra. }
    apply Q in X. apply Q in Y. apply Q in Z. rewrite <- (sqrt_square (2 * k)) by lra. apply sqrt_le_1_alt. nra.
  Qed.

  Definition slice (ph th : R) : R := L (polar ex ey n th ph) * cos th * sin th.
  Lemma light_polar_cont eps : 0 < eps -> exists del, 0 < del /\ forall th ph th' ph', Rabs (th - th') < del -> Rabs (ph - ph') < del ->
    Rabs (L (polar ex ey n th ph) - L (polar ex ey n th' ph')) < eps.
  Proof.
    intros He. destruct (HL eps He) as (del & Hd & H). exists (del / 4). split; [lra|]. intros th ph th' ph' H1 H2.
    apply H; [apply polar_unit|apply polar_unit|]. eapply Rle_lt_trans; [apply polar_close|]. lra.
  Qed.
  Lemma slice_cont ph th : continuous (slice ph) th.
  Proof.
    unfold slice. apply (continuous_mult (K := R_AbsRing)); [apply (continuous_mult (K := R_AbsRing))|].
    - apply filterlim_locally. intros eps. destruct (light_polar_cont eps (cond_pos eps)) as (del & Hd & H).
      exists (mkposreal del Hd). intros y Hy. apply H.
      + exact Hy.
      + rewrite Rminus_eq_0, Rabs_R0. exact Hd.
    - apply continuous_cos.
    - apply continuous_sin.
  Qed.
  Lemma slice_ex ph : ex_RInt (slice ph) 0 (PI / 2).
  Proof. apply (ex_RInt_continuous (V := R_CompleteNormedModule)). intros z _. apply slice_cont. Qed.
  Definition ring_light (ph : R) : R := RInt (slice ph) 0 (PI / 2).
  Lemma ring_cont ph : continuous ring_light ph.
  Proof.
    apply filterlim_locally. intros eps. assert (PP := PI_RGT_0).
    destruct (light_polar_cont (eps / 4)) as (del & Hd & H); [generalize (cond_pos eps); lra|].
    exists (mkposreal del Hd). intros y Hy. change (Rabs (ring_light y - ring_light ph) < eps). unfold ring_light.
    rewrite <- (RInt_minus (V := R_CompleteNormedModule)) by apply slice_ex.
    eapply Rle_lt_trans; [apply (abs_RInt_le_const (fun t => minus (slice y t) (slice ph t)) 0 (PI / 2) (eps / 4))|].
    - lra.
    - apply (ex_RInt_minus (V := R_NormedModule)); apply slice_ex.
    - intros t _. unfold slice. change (Rabs (L (polar ex ey n t y) * cos t * sin t - L (polar ex ey n t ph) * cos t * sin t) <= eps / 4).
      replace (L (polar ex ey n t y) * cos t * sin t - L (polar ex ey n t ph) * cos t * sin t) with
        ((L (polar ex ey n t y) - L (polar ex ey n t ph)) * (cos t * sin t)) by ring.
      rewrite Rabs_mult. assert (Rabs (cos t * sin t) <= 1) as T.
      { rewrite Rabs_mult. generalize (trig_1 t) (Rabs_pos (cos t)) (Rabs_pos (sin t)). nra. }
      assert (X := H t y t ph). rewrite Rminus_eq_0, Rabs_R0 in X. specialize (X Hd Hy).
      generalize (Rabs_pos (L (polar ex ey n t y) - L (polar ex ey n t ph))) (Rabs_pos (cos t * sin t)). nra.
    - assert (P4 := PI_4). generalize (cond_pos eps). intros Pe. nra.
  Qed.
  Lemma ring_ex a b : ex_RInt ring_light a b.
  Proof. apply (ex_RInt_continuous (V := R_CompleteNormedModule)). intros z _. apply ring_cont. Qed.
  Lemma ring_periodic ph : ring_light (ph + 2 * PI) = ring_light ph.
  Proof. unfold ring_light. apply RInt_ext. intros t _. unfold slice, polar. rewrite cos_plus, sin_plus, cos_2PI, sin_2PI. rewrite !Rmult_1_r, !Rmult_0_r, Rminus_0_r, Rplus_0_r. reflexivity. Qed.
  Lemma ring_shift a : RInt ring_light a (a + 2 * PI) = RInt ring_light 0 (2 * PI).
  Proof.
    assert (S : RInt ring_light (2 * PI) (a + 2 * PI) = RInt ring_light 0 a).
    { assert (X := RInt_comp_lin (V := R_CompleteNormedModule) ring_light 1 (2 * PI) 0 a (ring_ex _ _)).
      replace (1 * 0 + 2 * PI) with (2 * PI) in X by ring. replace (1 * a + 2 * PI) with (a + 2 * PI) in X by ring. rewrite <- X.
      apply RInt_ext. intros t _. change (1 * ring_light (1 * t + 2 * PI) = ring_light t). rewrite !Rmult_1_l. apply ring_periodic. }
    rewrite <- (RInt_Chasles (V := R_CompleteNormedModule) ring_light a 0 (a + 2 * PI)) by apply ring_ex.
    rewrite <- (RInt_Chasles (V := R_CompleteNormedModule) ring_light 0 (2 * PI) (a + 2 * PI)) by apply ring_ex.
    rewrite S. rewrite <- (opp_RInt_swap (V := R_CompleteNormedModule) ring_light 0 a) by apply ring_ex.
    change (- RInt ring_light 0 a + (RInt ring_light 0 (2 * PI) + RInt ring_light 0 a) = RInt ring_light 0 (2 * PI)). ring.
  Qed.

  Lemma turned al : RInt (fun ph => ring_light (1 * ph + al)) 0 (2 * PI) = RInt ring_light 0 (2 * PI).
  Proof.
    assert (X := RInt_comp_lin (V := R_CompleteNormedModule) ring_light 1 al 0 (2 * PI) (ring_ex _ _)).
    replace (1 * 0 + al) with al in X by ring. replace (1 * (2 * PI) + al) with (al + 2 * PI) in X by ring. rewrite ring_shift in X. rewrite <- X.
    apply RInt_ext. intros t _. change (ring_light (1 * t + al) = 1 * ring_light (1 * t + al)). ring.
  Qed.
  Lemma turned_back al : RInt (fun ph => ring_light (-1 * ph + al)) 0 (2 * PI) = RInt ring_light 0 (2 * PI).
  Proof.
    assert (X := RInt_comp_lin (V := R_CompleteNormedModule) ring_light (-1) al 0 (2 * PI) (ring_ex _ _)).
    replace (-1 * 0 + al) with al in X by ring. replace (-1 * (2 * PI) + al) with (al - 2 * PI) in X by ring.
    rewrite <- (opp_RInt_swap (V := R_CompleteNormedModule) ring_light (al - 2 * PI) al) in X by apply ring_ex.
    assert (Y := ring_shift (al - 2 * PI)). replace (al - 2 * PI + 2 * PI) with al in Y by ring. rewrite Y in X.
    rewrite (RInt_scal (V := R_CompleteNormedModule) (fun y => ring_light (-1 * y + al)) 0 (2 * PI) (-1)) in X.
    - change (-1 * RInt (fun y => ring_light (-1 * y + al)) 0 (2 * PI) = - RInt ring_light 0 (2 * PI)) in X. lra.
    - apply (ex_RInt_continuous (V := R_CompleteNormedModule)). intros z _. apply (continuous_comp (fun y => -1 * y + al) ring_light); [|apply ring_cont].
      apply (continuous_plus (V := R_NormedModule)); [|apply continuous_const]. apply (continuous_mult (K := R_AbsRing)); [apply continuous_const|apply continuous_id].
  Qed.
End Frame.

Theorem cosine_average_frame ex ey ex' ey' n L : orthonormal ex ey n -> orthonormal ex' ey' n -> continuous_light L ->
  cosine_average ex' ey' n L = cosine_average ex ey n L.
Proof.
  intros H H' HL. unfold cosine_average. f_equal. destruct (frames_polar ex ey ex' ey' n H H') as (al & [E|E]).
  - transitivity (RInt (fun ph => ring_light ex ey n L (1 * ph + al)) 0 (2 * PI)); [|now apply turned].
    apply RInt_ext. intros ph _. unfold ring_light. apply RInt_ext. intros th _. unfold slice. now rewrite E.
  - transitivity (RInt (fun ph => ring_light ex ey n L (-1 * ph + al)) 0 (2 * PI)); [|now apply turned_back].
    apply RInt_ext. intros ph _. unfold ring_light. apply RInt_ext. intros th _. unfold slice. now rewrite E.
Qed.
