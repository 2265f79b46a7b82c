(** * The mappings to the disk and the hemisphere preserve averages *)
From Coq Require Import ZArith Reals Bool List Lra Lia.
From Coquelicot Require Import Coquelicot.
From Verif Require Import Num NumLaws GeomModel GeomSpec GeomProofs SeqModel SeqProofs EquiSpec EquiIntSpec EquiInt DiffuseSpec.
Import ListNotations.
Local Open Scope R_scope.

Lemma sin_abs x : Rabs (sin x) <= Rabs x.
Proof.
  assert (forall y, 0 <= y -> Rabs (sin y) <= y) as H.
  { intros y Hy. destruct (Rle_lt_dec y 1) as [H1|H1].
    - destruct (Req_dec y 0) as [->|Hne]; [rewrite sin_0, Rabs_R0; lra|].
      assert (0 < sin y) by (apply sin_gt_0; [lra|generalize PI_RGT_0 PI2_1; lra]).
      rewrite Rabs_pos_eq by lra. left. apply sin_lt_x. lra.
    - apply Rle_trans with 1; [|lra]. generalize (SIN_bound y). intros. apply Rabs_le. lra. }
  destruct (Rle_lt_dec 0 x) as [Hx|Hx].
  - rewrite (Rabs_pos_eq x) by lra. auto.
  - rewrite (Rabs_left x) by lra. rewrite <- (Ropp_involutive x) at 1. rewrite sin_neg, Rabs_Ropp. apply H. lra.
Qed.
Lemma cos_lip a b : Rabs (cos a - cos b) <= Rabs (a - b).
Proof.
  rewrite form2. rewrite !Rabs_mult. generalize (sin_abs ((a - b) / 2)) (SIN_bound ((a + b) / 2)); intros H1 H2.
  assert (Rabs (sin ((a + b) / 2)) <= 1) as H3 by (apply Rabs_le; lra).
  assert (Rabs ((a - b) / 2) = Rabs (a - b) / 2) as E by (unfold Rdiv; rewrite Rabs_mult, (Rabs_pos_eq (/ 2)) by lra; reflexivity).
  assert (Rabs (-2) = 2) as E2 by (rewrite Rabs_left; lra).
  rewrite E2, E in *. generalize (Rabs_pos (sin ((a + b) / 2))) (Rabs_pos (sin ((a - b) / 2))). nra.
Qed.
Lemma sin_lip a b : Rabs (sin a - sin b) <= Rabs (a - b).
Proof.
  rewrite <- !cos_shift. apply Rle_trans with (1 := cos_lip _ _). right. replace (PI / 2 - a - (PI / 2 - b)) with (- (a - b)) by ring. apply Rabs_Ropp.
Qed.
Lemma sqrt_close a b del : 0 <= a -> 0 <= b -> 0 < del -> Rabs (a - b) < del * del -> Rabs (sqrt a - sqrt b) < del.
Proof.
  intros Ha Hb Hd H. generalize (sqrt_pos a) (sqrt_pos b) (sqrt_sqrt a Ha) (sqrt_sqrt b Hb).
  set (p := sqrt a) in *. set (q := sqrt b) in *. intros Hp Hq Ep Eq.
  apply Rnot_le_lt. intros HH. rewrite <- Ep, <- Eq in H.
  apply Rabs_def2 in H. unfold Rabs in HH. destruct Rcase_abs in HH; nra.
Qed.

(** substitution in one variable *)
Lemma subst_int g h dh b : 0 <= b -> modulus g -> (forall t, 0 <= t <= b -> 0 <= h t <= 1) -> h 0 = 0 -> h b = 1 ->
  (forall t, is_derive h t (dh t)) -> (forall t, continuous dh t) ->
  RInt g 0 1 = RInt (fun t => dh t * g (h t)) 0 b.
Proof.
  intros Hb Hg Hr H0 H1 Hd Hc.
  transitivity (RInt (fun y => g (clamp y)) (h 0) (h b)).
  - rewrite H0, H1. apply RInt_ext. rewrite Rmin_left, Rmax_right by lra. intros y Hy. now rewrite clamp_id by lra.
  - rewrite <- (RInt_comp (fun y => g (clamp y)) h dh 0 b).
    + apply RInt_ext. rewrite Rmin_left, Rmax_right by lra. intros t Ht. unfold scal; cbn; unfold mult; cbn. rewrite clamp_id; [reflexivity|]. apply Hr. lra.
    + intros t _. apply continuity_pt_filterlim. intros eps He. destruct (Hg eps He) as (del & Hdel & H). exists del. split; [exact Hdel|].
      intros y [_ Hy]. apply (H (clamp y) (clamp (h t))); try apply clamp_range. apply Rle_lt_trans with (1 := clamp_lip _ _). exact Hy.
    + intros t _. split; [apply Hd|apply Hc].
Qed.
Lemma scale_int H : modulus H -> RInt H 0 1 = / (2 * PI) * RInt (fun ph => H (ph / (2 * PI))) 0 (2 * PI).
Proof.
  intros HH. generalize PI_RGT_0; intros HP.
  assert (E := RInt_comp_lin H (/ (2 * PI)) 0 0 (2 * PI)). cbv beta in E.
  replace (/ (2 * PI) * 0 + 0) with 0 in E by ring. replace (/ (2 * PI) * (2 * PI) + 0) with 1 in E by (field; lra).
  specialize (E (modulus_ex_RInt H 0 1 HH ltac:(lra) ltac:(lra) ltac:(lra))).
  rewrite <- E. rewrite (RInt_ext _ (fun ph => scal (/ (2 * PI)) (H (ph / (2 * PI))))).
  - rewrite (RInt_scal (V := R_CompleteNormedModule)); [reflexivity|].
    assert (E' := ex_RInt_comp_lin H (/ (2 * PI)) 0 0 (2 * PI)).
    replace (/ (2 * PI) * 0 + 0) with 0 in E' by ring. replace (/ (2 * PI) * (2 * PI) + 0) with 1 in E' by (field; lra).
    specialize (E' (modulus_ex_RInt H 0 1 HH ltac:(lra) ltac:(lra) ltac:(lra))).
    apply (ex_RInt_ext (fun y => scal (2 * PI) (scal (/ (2 * PI)) (H (/ (2 * PI) * y + 0))))).
    + intros y _. unfold scal; cbn; unfold mult; cbn. replace (/ (2 * PI) * y + 0) with (y / (2 * PI)) by (unfold Rdiv; ring). field. lra.
    + now apply (ex_RInt_scal (V := R_NormedModule)).
  - intros y _. replace (/ (2 * PI) * y + 0) with (y / (2 * PI)) by (unfold Rdiv; ring). reflexivity.
Qed.

(** ** two variables *)
Section Two.
  Variable f : list R -> R.
  Hypothesis Hf : continuous_on_cube 2 f.
  Lemma inner_modulus u : 0 <= u <= 1 -> modulus (fun v => f [u; v]).
  Proof.
    intros Hu. assert (H := iterated_modulus 0 (fun l => f (u :: l)) (cont_slice 1 f u Hf Hu)). exact H.
  Qed.
  Lemma outer_modulus : modulus (fun u => RInt (fun v => f [u; v]) 0 1).
  Proof. exact (iterated_modulus 1 f Hf). Qed.

  Lemma two_subst h dh b (K : R -> R -> R) : 0 <= b -> (forall t, 0 <= t <= b -> 0 <= h t <= 1) -> h 0 = 0 -> h b = 1 ->
    (forall t, is_derive h t (dh t)) -> (forall t, continuous dh t) ->
    (forall ph t, 0 <= ph <= 2 * PI -> 0 <= t <= b -> dh t * f [ph / (2 * PI); h t] = 2 * K ph t) ->
    iterated 2 f = / PI * RInt (fun ph => RInt (K ph) 0 b) 0 (2 * PI).
  Proof.
    intros Hb Hr H0 H1 Hd Hc HK. generalize PI_RGT_0; intros HP. cbn [iterated].
    rewrite (scale_int _ outer_modulus).
    assert (HU : forall ph, 0 <= ph <= 2 * PI -> 0 <= ph / (2 * PI) <= 1).
    { intros ph Hph. assert (0 < / (2 * PI)) by (apply Rinv_0_lt_compat; lra). split; [unfold Rdiv; nra|].
      apply Rmult_le_reg_r with (2 * PI); [lra|]. unfold Rdiv. rewrite Rmult_assoc, Rinv_l; lra. }
    assert (HE : forall ph, 0 <= ph <= 2 * PI -> RInt (fun v => f [ph / (2 * PI); v]) 0 1 = scal 2 (RInt (K ph) 0 b)).
    { intros ph Hph. rewrite (subst_int _ h dh b Hb (inner_modulus _ (HU ph Hph)) Hr H0 H1 Hd Hc).
      destruct (Req_dec b 0) as [->|Hb0]; [rewrite !RInt_point; unfold scal; cbn; unfold mult, zero; cbn; ring|].
      rewrite <- (RInt_scal (V := R_CompleteNormedModule)).
      - apply RInt_ext. rewrite Rmin_left, Rmax_right by lra. intros t Ht. rewrite HK by lra. reflexivity.
      - apply (ex_RInt_ext (fun t => scal (/ 2) (dh t * f [ph / (2 * PI); clamp (h t)]))).
        + rewrite Rmin_left, Rmax_right by lra. intros t Ht. rewrite clamp_id by (apply Hr; lra). rewrite HK by lra. unfold scal; cbn; unfold mult; cbn. lra.
        + apply (ex_RInt_scal (V := R_NormedModule)). apply (ex_RInt_continuous (V := R_CompleteNormedModule)). intros t _.
          apply (continuous_mult (K := R_AbsRing) dh (fun t => f [ph / (2 * PI); clamp (h t)])); [apply Hc|].
          apply (continuous_comp h (fun y => f [ph / (2 * PI); clamp y])).
          * apply (ex_derive_continuous (K := R_AbsRing) (V := R_NormedModule) h t). exists (dh t). apply Hd.
          * apply continuity_pt_filterlim. intros eps He. destruct (inner_modulus _ (HU ph Hph) eps He) as (del & Hdel & H). exists del. split; [exact Hdel|].
            intros y [_ Hy]. apply (H (clamp y) (clamp (h t))); try apply clamp_range. apply Rle_lt_trans with (1 := clamp_lip _ _). exact Hy. }
    rewrite (RInt_ext _ (fun ph => scal 2 (RInt (K ph) 0 b))).
    - assert (EX : ex_RInt (fun ph => RInt (K ph) 0 b) 0 (2 * PI)).
      { apply (ex_RInt_ext (fun ph => scal (/ 2) (RInt (fun v => f [ph / (2 * PI); v]) 0 1))).
        - rewrite Rmin_left, Rmax_right by lra. intros ph Hph. rewrite HE by lra. unfold scal; cbn; unfold mult; cbn. field.
        - apply (ex_RInt_scal (V := R_NormedModule)).
          assert (E' := ex_RInt_comp_lin (fun u => RInt (fun v => f [u; v]) 0 1) (/ (2 * PI)) 0 0 (2 * PI)).
          replace (/ (2 * PI) * 0 + 0) with 0 in E' by ring. replace (/ (2 * PI) * (2 * PI) + 0) with 1 in E' by (field; lra).
          specialize (E' (modulus_ex_RInt _ 0 1 outer_modulus ltac:(lra) ltac:(lra) ltac:(lra))).
          apply (ex_RInt_ext (fun y => scal (2 * PI) (scal (/ (2 * PI)) (RInt (fun v => f [/ (2 * PI) * y + 0; v]) 0 1)))).
          + intros y _. unfold scal; cbn; unfold mult; cbn. replace (/ (2 * PI) * y + 0) with (y / (2 * PI)) by (unfold Rdiv; ring). field. lra.
          + now apply (ex_RInt_scal (V := R_NormedModule)). }
      rewrite (RInt_scal (V := R_CompleteNormedModule)) by exact EX. unfold scal; cbn; unfold mult; cbn. field. lra.
    - rewrite Rmin_left, Rmax_right by lra. intros ph Hph. apply HE. lra.
  Qed.
End Two.

(** ** the disk *)
Definition disk_fun (f : R -> R -> R) (l : list R) : R :=
  match l with [u; v] => let '(x, y) := uniformDisk u v in f x y | _ => 0 end.
Lemma disk_lip u v u' v' del : 0 <= v <= 1 -> 0 <= v' <= 1 -> 0 < del -> Rabs (u - u') < del / 16 -> Rabs (v - v') < (del / 2) * (del / 2) ->
  Rabs (fst (uniformDisk u v) - fst (uniformDisk u' v')) < del /\ Rabs (snd (uniformDisk u v) - snd (uniformDisk u' v')) < del.
Proof.
  intros Hv Hv' Hd Hu Hvv. unfold uniformDisk; rnum. cbn [fst snd].
  assert (Rabs (sqrt v - sqrt v') < del / 2) as S by (apply sqrt_close; lra).
  assert (0 <= sqrt v <= 1) as S1. { split; [apply sqrt_pos|]. rewrite <- sqrt_1. apply sqrt_le_1; lra. }
  assert (Rabs (2 * PI * u - 2 * PI * u') <= 8 * Rabs (u - u')) as A.
  { replace (2 * PI * u - 2 * PI * u') with (2 * PI * (u - u')) by ring. rewrite Rabs_mult, (Rabs_pos_eq (2 * PI)) by (generalize PI_RGT_0; lra).
    generalize (Rabs_pos (u - u')) PI_4. nra. }
  assert (G : forall c c', Rabs (c - c') <= Rabs (2 * PI * u - 2 * PI * u') -> -1 <= c' <= 1 -> Rabs (sqrt v * c - sqrt v' * c') < del / 2 + 8 * Rabs (u - u')).
  { intros c c' Hc Hc1. replace (sqrt v * c - sqrt v' * c') with (sqrt v * (c - c') + (sqrt v - sqrt v') * c') by ring.
    apply Rle_lt_trans with (1 := Rabs_triang _ _). rewrite !Rabs_mult, (Rabs_pos_eq (sqrt v)) by lra.
    assert (Rabs c' <= 1) by (apply Rabs_le; lra).
    generalize (Rabs_pos (c - c')) (Rabs_pos (sqrt v - sqrt v')) (Rabs_pos c'). nra. }
  split; (apply Rlt_trans with (del / 2 + 8 * Rabs (u - u')); [apply G|lra]).
  - apply cos_lip.
  - apply COS_bound.
  - apply sin_lip.
  - apply SIN_bound.
Qed.
Lemma disk_in u v : 0 <= v <= 1 -> fst (uniformDisk u v) * fst (uniformDisk u v) + snd (uniformDisk u v) * snd (uniformDisk u v) <= 1.
Proof. intros Hv. generalize (uniformDisk_spec u v (proj1 Hv)). destruct (uniformDisk u v) as [x y]. cbn [fst snd]. lra. Qed.
Lemma square_of l : in_cube 2 l -> exists u v, l = [u; v] /\ 0 <= u <= 1 /\ 0 <= v <= 1.
Proof.
  intros [Hl Hf]. destruct l as [|u [|v [|]]]; try discriminate. inversion_clear Hf as [|? ? Hu Hf']. inversion_clear Hf' as [|? ? Hv _].
  now exists u, v.
Qed.
Lemma delta_choice e : 0 < e -> exists d, 0 < d /\ d <= e / 16 /\ d <= (e / 2) * (e / 2).
Proof.
  intros He. exists (Rmin (e / 16) ((e / 2) * (e / 2))). split; [apply Rmin_pos; nra|]. split; [apply Rmin_l|apply Rmin_r].
Qed.
Lemma disk_fun_cont f : continuous_on_disk f -> continuous_on_cube 2 (disk_fun f).
Proof.
  intros Hf eps He. destruct (Hf eps He) as (e & He' & H). destruct (delta_choice e He') as (d & Hd & D1 & D2).
  exists d. split; [exact Hd|]. intros l l' Hl Hl' HF. apply square_of in Hl, Hl'.
  destruct Hl as (u & v & -> & Hu & Hv), Hl' as (u' & v' & -> & Hu' & Hv').
  inversion_clear HF as [|? ? ? ? F1 F2]. inversion_clear F2 as [|? ? ? ? F2' _].
  destruct (disk_lip u v u' v' e Hv Hv' He' ltac:(lra) ltac:(lra)) as [L1 L2].
  generalize (disk_in u v Hv) (disk_in u' v' Hv'). unfold disk_fun.
  destruct (uniformDisk u v) as [x y], (uniformDisk u' v') as [x' y']. cbn [fst snd] in *. intros I1 I2. now apply H.
Qed.
Theorem disk_preserves f : continuous_on_disk f -> iterated 2 (disk_fun f) = disk_average f.
Proof.
  intros Hf. generalize PI_RGT_0; intros HP. unfold disk_average.
  apply (two_subst (disk_fun f) (disk_fun_cont f Hf) (fun r => r * r) (fun r => 2 * r) 1); try lra.
  - intros t Ht. nra.
  - intros t. auto_derive; [trivial|ring].
  - intros t. apply (continuous_mult (K := R_AbsRing)); [apply continuous_const|apply continuous_id].
  - intros ph t Hph Ht. unfold disk_fun, uniformDisk; rnum. rewrite sqrt_square by lra.
    replace (2 * PI * (ph / (2 * PI))) with ph by (field; lra). ring.
Qed.

(** ** the hemisphere *)
Definition hemi_fun (L : pt -> R) (n : pt) (l : list R) : R := match l with [u; v] => L (cosineSphere u v n) | _ => 0 end.
Lemma cosineSphere_combination u v n : 0 <= v -> norm2 n = 1 ->
  cosineSphere u v n = plus3 (plus3 (scal3 (fst (uniformDisk u v)) (m0 (cosineFrame n))) (scal3 (snd (uniformDisk u v)) (m1 (cosineFrame n)))) (scal3 (sqrt (1 - v)) n).
Proof.
  intros Hv Hn. unfold cosineSphere. generalize (uniformDisk_spec u v Hv). destruct (uniformDisk u v) as [x y]. intros (_ & _ & Hxy). cbn [fst snd].
  generalize (proj1 (cosineFrame_orthonormal n Hn)). destruct (cosineFrame n) as [ex ey ez]. cbn [m0 m1 m2]. intros ->.
  cbn [nsqrt nsub nadd nmul nofZ NumR]. rewrite Hxy. destruct ex as [a0 a1 a2], ey as [b0 b1 b2], n as [c0 c1 c2]. geom_unfold. spec_unfold. f_equal; ring.
Qed.
Lemma combination_dist ex ey n x y z x' y' z' : orthonormal ex ey n ->
  norm2 (minus3 (plus3 (plus3 (scal3 x ex) (scal3 y ey)) (scal3 z n)) (plus3 (plus3 (scal3 x' ex) (scal3 y' ey)) (scal3 z' n))) =
  (x - x') * (x - x') + (y - y') * (y - y') + (z - z') * (z - z').
Proof.
  intros (N1 & N2 & N3 & D1 & D2 & D3).
  transitivity ((x - x') * (x - x') * norm2 ex + (y - y') * (y - y') * norm2 ey + (z - z') * (z - z') * norm2 n
    + 2 * (x - x') * (y - y') * dot3 ex ey + 2 * (x - x') * (z - z') * dot3 ex n + 2 * (y - y') * (z - z') * dot3 ey n).
  - destruct ex as [a0 a1 a2], ey as [b0 b1 b2], n as [c0 c1 c2]. spec_unfold. ring.
  - rewrite N1, N2, N3, D1, D2, D3. ring.
Qed.
Lemma frame_orthonormal n : norm2 n = 1 -> orthonormal (m0 (cosineFrame n)) (m1 (cosineFrame n)) n.
Proof.
  intros Hn. generalize (cosineFrame_orthonormal n Hn). cbv zeta. destruct (cosineFrame n) as [ex ey ez]. cbn [m0 m1 m2].
  intros (-> & H). unfold orthonormal. tauto.
Qed.
Lemma hemi_fun_cont L n : norm2 n = 1 -> continuous_light L -> continuous_on_cube 2 (hemi_fun L n).
Proof.
  intros Hn HL eps He. destruct (HL eps He) as (e & He' & H). destruct (delta_choice (e / 2) ltac:(lra)) as (d & Hd & D1 & D2).
  exists d. split; [exact Hd|]. intros l l' Hl Hl' HF. apply square_of in Hl, Hl'.
  destruct Hl as (u & v & -> & Hu & Hv), Hl' as (u' & v' & -> & Hu' & Hv').
  inversion_clear HF as [|? ? ? ? F1 F2]. inversion_clear F2 as [|? ? ? ? F2' _].
  destruct (disk_lip u v u' v' (e / 2) Hv Hv' ltac:(lra) ltac:(lra) ltac:(lra)) as [L1 L2].
  assert (Rabs (sqrt (1 - v) - sqrt (1 - v')) < e / 2) as L3.
  { apply Rlt_trans with (e / 2 / 2); [|lra]. apply sqrt_close; try lra. replace (1 - v - (1 - v')) with (- (v - v')) by ring. rewrite Rabs_Ropp. lra. }
  cbn [hemi_fun]. apply H; [now apply cosineSphere_spec|now apply cosineSphere_spec|].
  unfold dist, norm. rewrite !cosineSphere_combination, combination_dist by (lra || now apply frame_orthonormal).
  assert (forall a, Rabs a < e / 2 -> 0 <= a * a < e / 2 * (e / 2)) as Q by (intros a Ha; apply Rabs_def2 in Ha; nra).
  apply Q in L1, L2, L3. rewrite <- (sqrt_square e) by lra. apply sqrt_lt_1; nra.
Qed.
Theorem hemisphere_preserves L n : norm2 n = 1 -> continuous_light L ->
  iterated 2 (hemi_fun L n) = cosine_average (m0 (cosineFrame n)) (m1 (cosineFrame n)) n L.
Proof.
  intros Hn HL. generalize PI_RGT_0; intros HP. unfold cosine_average.
  apply (two_subst (hemi_fun L n) (hemi_fun_cont L n Hn HL) (fun t => sin t * sin t) (fun t => 2 * sin t * cos t) (PI / 2)); try lra.
  - intros t Ht. generalize (sin2_cos2 t) (Rle_0_sqr (cos t)) (Rle_0_sqr (sin t)). unfold Rsqr. lra.
  - rewrite sin_0. ring.
  - rewrite sin_PI2. ring.
  - intros t. auto_derive; [trivial|ring].
  - intros t. apply (continuous_mult (K := R_AbsRing)); [apply (continuous_mult (K := R_AbsRing)); [apply continuous_const|apply continuous_sin]|apply continuous_cos].
  - intros ph t Hph Ht. assert (0 <= sin t) as Hs by (apply sin_ge_0; lra). assert (0 <= cos t) as Hc by (apply cos_ge_0; lra).
    cbn [hemi_fun]. rewrite cosineSphere_combination by (nra || exact Hn).
    unfold uniformDisk; rnum. cbn [fst snd]. rewrite sqrt_square by lra.
    replace (2 * PI * (ph / (2 * PI))) with ph by (field; lra).
    replace (1 - sin t * sin t) with (cos t * cos t) by (generalize (sin2_cos2 t); unfold Rsqr; lra). rewrite sqrt_square by lra.
    fold (polar (m0 (cosineFrame n)) (m1 (cosineFrame n)) n t ph). ring.
Qed.
