(** * The light of a lamp as an integral over its area *)
From Coq Require Import ZArith Reals Bool List Lia Lra Psatz.
From Coquelicot Require Import Coquelicot.
From Verif Require Import Num NumLaws Outcome GeomModel GeomSpec GeomProofs ColorModel SeqModel ObjModel TreeModel ObjSpec SceneModel SceneSpec
  EquiSpec EquiMean EquiIntSpec EquiInt DiffuseSpec DiffuseProofs LightProofs LimitFacts EquiAdd LampSpec LampProofs LitSpec.
Import ListNotations.
Local Open Scope R_scope.

Lemma scale_RInt f u v : 0 < u -> ex_RInt (fun y => f (v + u * y)) 0 1 -> u * RInt (fun y => f (v + u * y)) 0 1 = RInt f v (v + u).
Proof.
  intros Hu He. symmetry. apply is_RInt_unique. apply RInt_correct in He. set (I := RInt _ 0 1) in *. clearbody I.
  assert (X := is_RInt_comp_lin (V := R_CompleteNormedModule) (fun y => f (v + u * y)) (/ u) (- v / u) v (v + u) I).
  replace (/ u * v + - v / u) with 0 in X by (field; lra). replace (/ u * (v + u) + - v / u) with 1 in X by (field; lra). specialize (X He).
  apply (is_RInt_scal (V := R_NormedModule) _ v (v + u) u) in X.
  eapply is_RInt_ext; [|exact X]. intros x _. unfold scal; cbn; unfold mult; cbn.
  replace (v + u * (/ u * x + - v / u)) with x by (field; lra). field. lra.
Qed.
Lemma iterated_scale_2 f k : continuous_on_cube 2 f -> iterated 2 (fun l => k * f l) = k * iterated 2 f.
Proof.
  intros Hf. cbn [iterated]. rewrite (RInt_ext (V := R_CompleteNormedModule) _ (fun u => scal k (RInt (fun v => f [u; v]) 0 1))).
  - rewrite (RInt_scal (V := R_CompleteNormedModule)); [reflexivity|]. apply modulus_ex_RInt; try lra. now apply outer_modulus.
  - rewrite Rmin_left, Rmax_right by lra. intros u Hu. rewrite <- (RInt_scal (V := R_CompleteNormedModule)); [reflexivity|].
    apply modulus_ex_RInt; try lra. apply inner_modulus; [assumption|lra].
Qed.
(** functions of two numbers, continuous everywhere *)
Definition cont2 (F : R -> R -> R) : Prop := forall a b, continuity_2d_pt F a b.
Lemma cont2_uniform F lo hi : cont2 F -> forall eps, 0 < eps -> exists del, 0 < del /\
  forall x y x' y', lo <= x <= hi -> lo <= y <= hi -> lo <= x' <= hi -> lo <= y' <= hi -> Rabs (x - x') < del -> Rabs (y - y') < del -> Rabs (F x y - F x' y') < eps.
Proof.
  intros HF eps He. destruct (uniform_continuity_2d F lo hi lo hi (fun x y _ _ => HF x y) (mkposreal eps He)) as (del & H).
  exists del. split; [apply cond_pos|]. intros x y x' y' X Y X' Y' D1 D2. apply (H x' y' x y); auto.
Qed.
Lemma cont2_square F : cont2 F -> continuous_on_cube 2 (fun l => match l with [u; v] => F u v | _ => 0 end).
Proof.
  intros HF eps He. destruct (cont2_uniform F 0 1 HF eps He) as (del & Hd & H). exists del. split; [exact Hd|].
  intros l l' Hl Hl' D. destruct (square_of l Hl) as (u & v & -> & Hu & Hv). destruct (square_of l' Hl') as (u' & v' & -> & Hu' & Hv').
  inversion D as [|? ? ? ? D1 D']; subst. inversion D' as [|? ? ? ? D2 _]; subst. apply H; auto.
Qed.
Lemma cont2_disk F : cont2 F -> continuous_on_disk F.
Proof.
  intros HF eps He. destruct (cont2_uniform F (-1) 1 HF eps He) as (del & Hd & H). exists del. split; [exact Hd|].
  intros x y x' y' D D'. apply H; nra.
Qed.
Lemma cont2_affine F a b c d : cont2 F -> cont2 (fun x y => F (a + b * x) (c + d * y)).
Proof.
  intros HF x y. apply continuity_2d_pt_filterlim.
  apply (filterlim_comp _ _ _ (fun z : R * R => (a + b * fst z, c + d * snd z)) (fun z => F (fst z) (snd z)) (locally (x, y)) (locally (a + b * x, c + d * y))).
  - apply filterlim_locally. intros eps.
    assert (Kb : 0 < Rabs b + 1) by (generalize (Rabs_pos b); lra). assert (Kd : 0 < Rabs d + 1) by (generalize (Rabs_pos d); lra).
    assert (E : 0 < Rmin (eps / (Rabs b + 1)) (eps / (Rabs d + 1))) by (apply Rmin_glb_lt; apply Rdiv_lt_0_compat; auto; apply cond_pos).
    exists (mkposreal _ E). intros [x' y'] [D1 D2]. cbn in D1, D2. split; cbn.
    + change (Rabs (x' - x) < Rmin (eps / (Rabs b + 1)) (eps / (Rabs d + 1))) in D1. change (Rabs (a + b * x' - (a + b * x)) < eps).
      replace (a + b * x' - (a + b * x)) with (b * (x' - x)) by ring. rewrite Rabs_mult.
      assert (Rabs (x' - x) < eps / (Rabs b + 1)) as D by (eapply Rlt_le_trans; [exact D1|apply Rmin_l]).
      apply (Rmult_lt_compat_r (Rabs b + 1)) in D; [|exact Kb]. unfold Rdiv in D. rewrite Rmult_assoc, Rinv_l, Rmult_1_r in D by lra. generalize (Rabs_pos (x' - x)). nra.
    + change (Rabs (y' - y) < Rmin (eps / (Rabs b + 1)) (eps / (Rabs d + 1))) in D2. change (Rabs (c + d * y' - (c + d * y)) < eps).
      replace (c + d * y' - (c + d * y)) with (d * (y' - y)) by ring. rewrite Rabs_mult.
      assert (Rabs (y' - y) < eps / (Rabs d + 1)) as D by (eapply Rlt_le_trans; [exact D2|apply Rmin_r]).
      apply (Rmult_lt_compat_r (Rabs d + 1)) in D; [|exact Kd]. unfold Rdiv in D. rewrite Rmult_assoc, Rinv_l, Rmult_1_r in D by lra. generalize (Rabs_pos (y' - y)). nra.
  - apply continuity_2d_pt_filterlim. apply HF.
Qed.

Lemma sent_eq x n p : sent x n p = Rmax 0 (dot3 (minus3 p x) n) * Rmax 0 (vy p - vy x) * / (PI * (norm2 (minus3 p x) * norm2 (minus3 p x))).
Proof.
  unfold sent. assert (PP := PI_RGT_0). rewrite <- !dist_sqr. destruct (Req_dec (dist p x) 0) as [-> |D].
  - unfold Rdiv. rewrite ?Rmult_0_l, ?Rmult_0_r, !Rinv_0. ring.
  - field. split; first [exact D|apply PI_neq0].
Qed.
Lemma sent_cont x n H : cont2 (fun a b => sent x n (Vec a H b)).
Proof.
  intros a b. destruct (Rle_lt_dec (H - vy x) 0) as [L|L].
  - apply (continuity_2d_pt_ext (fun _ _ => 0)).
    + intros a' b'. rewrite sent_eq. cbn [vy]. rewrite (Rmax_left 0 (H - vy x)) by exact L. ring.
    + apply continuity_2d_pt_const.
  - apply (continuity_2d_pt_ext (fun a b => (/ 2 * (((a - vx x) * vx n + ((H - vy x) * vy n + (b - vz x) * vz n)) + Rabs ((a - vx x) * vx n + ((H - vy x) * vy n + (b - vz x) * vz n))))
      * (H - vy x) * / (PI * (((a - vx x) * (a - vx x) + ((H - vy x) * (H - vy x) + (b - vz x) * (b - vz x))) * ((a - vx x) * (a - vx x) + ((H - vy x) * (H - vy x) + (b - vz x) * (b - vz x))))))).
    + intros a' b'. rewrite sent_eq. cbn [vy]. rewrite (Rmax_right 0 (H - vy x)) by lra. unfold norm2, dot3, minus3; cbn [vx vy vz].
      rewrite <- !Rplus_assoc. f_equal. f_equal.
      generalize ((a' - vx x) * vx n + (H - vy x) * vy n + (b' - vz x) * vz n). intros z. unfold Rmax, Rabs. destruct (Rle_dec 0 z), (Rcase_abs z); lra.
    + assert (Ca : forall k, continuity_2d_pt (fun a _ => a - k) a b) by (intros; apply continuity_2d_pt_minus; [apply continuity_2d_pt_id1|apply continuity_2d_pt_const]).
      assert (Cb : forall k, continuity_2d_pt (fun _ b => b - k) a b) by (intros; apply continuity_2d_pt_minus; [apply continuity_2d_pt_id2|apply continuity_2d_pt_const]).
      assert (Cd : continuity_2d_pt (fun a b => (a - vx x) * vx n + ((H - vy x) * vy n + (b - vz x) * vz n)) a b).
      { apply continuity_2d_pt_plus; [apply continuity_2d_pt_mult; [apply Ca|apply continuity_2d_pt_const]|].
        apply continuity_2d_pt_plus; [apply continuity_2d_pt_const|apply continuity_2d_pt_mult; [apply Cb|apply continuity_2d_pt_const]]. }
      assert (Cn : continuity_2d_pt (fun a b => (a - vx x) * (a - vx x) + ((H - vy x) * (H - vy x) + (b - vz x) * (b - vz x))) a b).
      { apply continuity_2d_pt_plus; [apply continuity_2d_pt_mult; apply Ca|].
        apply continuity_2d_pt_plus; [apply continuity_2d_pt_const|apply continuity_2d_pt_mult; apply Cb]. }
      apply continuity_2d_pt_mult; [apply continuity_2d_pt_mult; [|apply continuity_2d_pt_const]|].
      * apply continuity_2d_pt_mult; [apply continuity_2d_pt_const|]. apply continuity_2d_pt_plus; [exact Cd|].
        apply (continuity_1d_2d_pt_comp Rabs (fun a b => (a - vx x) * vx n + ((H - vy x) * vy n + (b - vz x) * vz n))); [apply Rcontinuity_abs|exact Cd].
      * apply continuity_2d_pt_inv.
        -- apply continuity_2d_pt_mult; [apply continuity_2d_pt_const|]. apply continuity_2d_pt_mult; exact Cn.
        -- assert (0 < (H - vy x) * (H - vy x)) by nra. assert (PP := PI_RGT_0). apply Rgt_not_eq. apply Rmult_lt_0_compat; [exact PP|].
           assert (0 < (a - vx x) * (a - vx x) + ((H - vy x) * (H - vy x) + (b - vz x) * (b - vz x))); [|now apply Rmult_lt_0_compat]. generalize (Rle_0_sqr (a - vx x)) (Rle_0_sqr (b - vz x)). unfold Rsqr. lra.
Qed.

Section Over.
  Variable F : R -> R -> R.
  Hypothesis HF : cont2 F.
  Lemma over_rectangle w h a b : 0 < w -> 0 < h ->
    cube_integral 2 (fun l => match l with [u; v] => F (a + w * u) (b + h * v) | _ => 0 end)
      (/ (w * h) * RInt (fun x => RInt (fun y => F x y) b (b + h)) a (a + w)).
  Proof.
    intros Hw Hh. set (f := fun l => match l with [u; v] => F (a + w * u) (b + h * v) | _ => 0 end).
    assert (Cf : continuous_on_cube 2 f) by (apply (cont2_square (fun u v => F (a + w * u) (b + h * v))); now apply cont2_affine).
    replace (/ (w * h) * RInt (fun x => RInt (fun y => F x y) b (b + h)) a (a + w)) with (iterated 2 f); [now apply continuous_integral|].
    assert (In : forall u, 0 <= u <= 1 -> h * RInt (fun v => f [u; v]) 0 1 = RInt (fun y => F (a + w * u) y) b (b + h)).
    { intros u Hu. apply (scale_RInt (fun y => F (a + w * u) y) h b Hh). apply (modulus_ex_RInt (fun v => f [u; v])); try lra. now apply inner_modulus. }
    assert (Out : ex_RInt (fun u => RInt (fun y => F (a + w * u) y) b (b + h)) 0 1).
    { apply (ex_RInt_ext (fun u => scal h (RInt (fun v => f [u; v]) 0 1))).
      - rewrite Rmin_left, Rmax_right by lra. intros u Hu. apply In. lra.
      - apply (ex_RInt_scal (V := R_NormedModule)). apply modulus_ex_RInt; try lra. now apply outer_modulus. }
    rewrite <- (scale_RInt (fun x => RInt (fun y => F x y) b (b + h)) w a Hw Out).
    rewrite (RInt_ext (V := R_CompleteNormedModule) (fun u => RInt (fun y => F (a + w * u) y) b (b + h)) (fun u => scal h (RInt (fun v => f [u; v]) 0 1))).
    2:{ rewrite Rmin_left, Rmax_right by lra. intros u Hu. symmetry. apply In. lra. }
    rewrite (RInt_scal (V := R_CompleteNormedModule)) by (apply modulus_ex_RInt; try lra; now apply outer_modulus).
    change (iterated 2 f = / (w * h) * (w * (h * iterated 2 f))). field. lra.
  Qed.
  Lemma over_circle r a b : 0 < r ->
    cube_integral 2 (fun l => match l with [u; v] => F (a + r * fst (uniformDisk u v)) (b + r * snd (uniformDisk u v)) | _ => 0 end)
      (/ (PI * (r * r)) * RInt (fun ph => RInt (fun q => F (a + q * cos ph) (b + q * sin ph) * q) 0 r) 0 (2 * PI)).
  Proof.
    intros Hr. set (f := disk_fun (fun x y => F (a + r * x) (b + r * y))).
    assert (Cf : continuous_on_cube 2 f) by (apply disk_fun_cont; apply cont2_disk; now apply cont2_affine).
    apply (cube_integral_ext 2 f).
    { intros l H2 _. destruct l as [|u [|v [|? ?]]]; try discriminate H2. reflexivity. }
    assert (PP := PI_RGT_0).
    replace (/ (PI * (r * r)) * RInt (fun ph => RInt (fun q => F (a + q * cos ph) (b + q * sin ph) * q) 0 r) 0 (2 * PI)) with (iterated 2 f); [now apply continuous_integral|].
    assert (Cs : continuous_on_cube 2 (fun l => (r * r) * f l)).
    { intros eps He. destruct (Cf (eps / (r * r))) as (del & Hd & HH); [apply Rdiv_lt_0_compat; nra|]. exists del. split; [exact Hd|].
      intros x y X Y D. specialize (HH x y X Y D). rewrite <- Rmult_minus_distr_l, Rabs_mult, (Rabs_pos_eq (r * r)) by nra.
      apply (Rmult_lt_compat_l (r * r)) in HH; [|nra]. replace (r * r * (eps / (r * r))) with eps in HH by (field; lra). exact HH. }
    assert (E := iterated_scale_2 f (r * r) Cf).
    rewrite (two_subst _ Cs (fun t => (t / r) * (t / r)) (fun t => 2 * t / (r * r)) r (fun ph q => F (a + q * cos ph) (b + q * sin ph) * q)) in E.
    - apply (Rmult_eq_reg_l (r * r)); [|nra]. rewrite <- E. field. lra.
    - lra.
    - intros t Ht. assert (0 <= t / r <= 1); [|nra]. assert (0 < / r) by now apply Rinv_0_lt_compat. split; [unfold Rdiv; nra|]. apply (Rmult_le_reg_r r); [lra|]. unfold Rdiv. rewrite Rmult_assoc, Rinv_l; lra.
    - field. lra.
    - field. lra.
    - intros t. auto_derive; [exact I|]. field. lra.
    - intros t. apply (ex_derive_continuous (K := R_AbsRing) (V := R_NormedModule)). auto_derive. exact I.
    - intros ph t Hph Ht. unfold f, disk_fun, uniformDisk. rnum.
      assert (sqrt (t / r * (t / r)) = t / r) as ->.
      { apply sqrt_square. assert (0 < / r) by now apply Rinv_0_lt_compat. unfold Rdiv. nra. }
      replace (2 * PI * (ph / (2 * PI))) with ph by (field; lra).
      replace (r * (t / r * cos ph)) with (t * cos ph) by (field; lra). replace (r * (t / r * sin ph)) with (t * sin ph) by (field; lra).
      field. lra.
  Qed.
End Over.
