(** * Texture lookups in real arithmetic *)
From Coq Require Import ZArith Reals Bool List Lia Lra.
From Flocq Require Import Core.
From Verif Require Import Num NumLaws Outcome GeomModel GeomSpec ColorModel SeqModel TreeModel SceneModel ImageModel ImageSpec ImageProofs PpmSpec PpmProofs TextureModel TextureSpec TextureProofs PostR.
Import ListNotations.
Local Open Scope R_scope.

Lemma floor_opp_frac x : x < 0 -> x - IZR (Zfloor x) = (let m := - (- x - IZR (Zfloor (- x))) in let m' := if Rltb m 0 then 1 + m else m in if Reqb m' 1 then 0 else m').
Proof.
  intros N. cbv zeta. pose proof (Zfloor_lb x) as A. pose proof (Zfloor_ub x) as B. pose proof (Zfloor_lb (- x)) as C. pose proof (Zfloor_ub (- x)) as D.
  destruct (Rltb_spec (- (- x - IZR (Zfloor (- x)))) 0) as [L|L].
  - assert (E : (Zfloor x = - Zfloor (- x) - 1)%Z). { apply Zfloor_imp. rewrite minus_IZR, plus_IZR, minus_IZR, opp_IZR. lra. }
    destruct (Reqb_spec (1 + - (- x - IZR (Zfloor (- x)))) 1); [lra|]. rewrite E, minus_IZR, opp_IZR. lra.
  - assert (E0 : - x = IZR (Zfloor (- x))) by lra.
    assert (E : (Zfloor x = - Zfloor (- x))%Z). { apply Zfloor_imp. rewrite plus_IZR, opp_IZR. lra. }
    destruct (Reqb_spec (- (- x - IZR (Zfloor (- x)))) 1); [lra|]. rewrite E, opp_IZR. lra.
Qed.
Lemma modfPos_R x : 0 <= x -> modfPos x = x - IZR (Zfloor x).
Proof.
  intros P. unfold modfPos. rnum. destruct (Rltb_spec x 1) as [L|L]; [|easy].
  replace (Zfloor x) with 0%Z; [lra|]. symmetry. apply Zfloor_imp. cbn. lra.
Qed.
Lemma warp_R (x : R) : warp x = x - IZR (Zfloor x).
Proof.
  unfold warp, modfFrac. rnum. cbv zeta. destruct (Rltb_spec x 0) as [N|N].
  - rewrite modfPos_R by lra. symmetry. apply (floor_opp_frac x N).
  - rewrite modfPos_R by easy. pose proof (Zfloor_lb x) as A. pose proof (Zfloor_ub x) as B.
    destruct (Rltb_spec (x - IZR (Zfloor x)) 0); [lra|]. destruct (Reqb_spec (x - IZR (Zfloor x)) 1); lra.
Qed.
Lemma warp_periodic (x : R) k : warp (x + IZR k) = warp x.
Proof.
  rewrite !warp_R. replace (Zfloor (x + IZR k)) with (Zfloor x + k)%Z; [rewrite plus_IZR; lra|].
  symmetry. apply Zfloor_imp. rewrite !plus_IZR. pose proof (Zfloor_lb x) as A. pose proof (Zfloor_ub x) as B. lra.
Qed.

Lemma convex2 a b s m M : 0 <= s <= 1 -> m <= a <= M -> m <= b <= M -> m <= (1 - s) * a + s * b <= M.
Proof. intros. split; nra. Qed.
Lemma convex4 a b c d s t : 0 <= s <= 1 -> 0 <= t <= 1 ->
  between4 a b c d ((1 - t) * ((1 - s) * a + s * b) + t * ((1 - s) * c + s * d)).
Proof.
  intros Hs Ht. unfold between4. set (m := Rmin (Rmin a b) (Rmin c d)). set (M := Rmax (Rmax a b) (Rmax c d)).
  assert (m <= a <= M /\ m <= b <= M /\ m <= c <= M /\ m <= d <= M) as (A & B & C & D).
  { unfold m, M. pose proof (Rmin_l (Rmin a b) (Rmin c d)). pose proof (Rmin_r (Rmin a b) (Rmin c d)). pose proof (Rmin_l a b). pose proof (Rmin_r a b).
    pose proof (Rmin_l c d). pose proof (Rmin_r c d). pose proof (Rmax_l (Rmax a b) (Rmax c d)). pose proof (Rmax_r (Rmax a b) (Rmax c d)).
    pose proof (Rmax_l a b). pose proof (Rmax_r a b). pose proof (Rmax_l c d). pose proof (Rmax_r c d). lra. }
  apply convex2; [easy|now apply convex2|now apply convex2].
Qed.

Theorem bilinear_value w (img : list (list (color R))) (u v : R) : rectangular w img -> (0 < w)%nat ->
  exists i j s t c, bilinearUV img u v = Val c /\
    (0 <= i < Z.of_nat w)%Z /\ (0 <= j < Z.of_nat (length img))%Z /\ 0 <= s < 1 /\ 0 <= t < 1 /\
    IZR i + s = (u - IZR (Zfloor u)) * IZR (Z.of_nat w - 1) /\
    IZR j + t = (v - IZR (Zfloor v)) * IZR (Z.of_nat (length img) - 1) /\
    interpolates (Z.of_nat w) (Z.of_nat (length img)) img i j s t c.
Proof.
  intros R W0. set (W := Z.of_nat w). set (H := Z.of_nat (length img)).
  assert (Pw : (1 <= W)%Z) by lia. assert (Ph : (1 <= H)%Z) by (destruct R as [N _]; unfold H; destruct img; [easy|cbn [length]; lia]).
  set (X := (u - IZR (Zfloor u)) * IZR (W - 1)). set (Y := (v - IZR (Zfloor v)) * IZR (H - 1)).
  assert (B : forall x n, (1 <= n)%Z -> 0 <= (x - IZR (Zfloor x)) * IZR (n - 1) < IZR n).
  { intros x n Hn. pose proof (Zfloor_lb x). pose proof (Zfloor_ub x). assert (0 <= IZR (n - 1)) by (apply IZR_le; lia).
    rewrite minus_IZR in *. split; [apply Rmult_le_pos; lra|]. nra. }
  assert (BX : 0 <= X < IZR W) by (now apply B). assert (BY : 0 <= Y < IZR H) by (now apply B).
  assert (I : forall x n, 0 <= x < IZR n -> (0 <= Zfloor x < n)%Z).
  { intros x n Hx. split; [apply Zfloor_lub; easy|]. apply lt_IZR. eapply Rle_lt_trans; [apply Zfloor_lb|easy]. }
  pose proof (I X W BX) as IX. pose proof (I Y H BY) as IY.
  assert (NX : (0 <= next W (Zfloor X) < W)%Z) by (unfold next; destruct (Z.leb_spec W (Zfloor X + 1)); lia).
  assert (NY : (0 <= next H (Zfloor Y) < H)%Z) by (unfold next; destruct (Z.leb_spec H (Zfloor Y + 1)); lia).
  destruct (pixelAt_some w img (Zfloor Y) (Zfloor X) R IX IY) as [c00 E00]. destruct (pixelAt_some w img (next H (Zfloor Y)) (Zfloor X) R IX NY) as [c01 E01].
  destruct (pixelAt_some w img (Zfloor Y) (next W (Zfloor X)) R NX IY) as [c10 E10]. destruct (pixelAt_some w img (next H (Zfloor Y)) (next W (Zfloor X)) R NX NY) as [c11 E11].
  assert (Fr : forall x, 0 <= x - IZR (Zfloor x) < 1) by (intros x; pose proof (Zfloor_lb x); pose proof (Zfloor_ub x); lra).
  eexists (Zfloor X), (Zfloor Y), (X - IZR (Zfloor X)), (Y - IZR (Zfloor Y)), _. split.
  - unfold bilinearUV. rewrite (rowsSize_rect w img R). fold W H. rnum.
    destruct (Reqb_spec u u); [|lra]. destruct (Reqb_spec v v); [|lra]. cbn [negb orb]. cbv zeta. rewrite !warp_R. fold X Y.
    rewrite !Ztrunc_floor by easy. fold (next W (Zfloor X)). fold (next H (Zfloor Y)).
    rewrite (atIndex_pixel img _ _ c00), (atIndex_pixel img _ _ c01), (atIndex_pixel img _ _ c10), (atIndex_pixel img _ _ c11) by (easy || lia).
    cbn [obind]. reflexivity.
  - split; [easy|]. split; [easy|]. split; [apply Fr|]. split; [apply Fr|]. split; [lra|]. split; [lra|].
    exists c00, c10, c01, c11. repeat (split; [easy|]). intros ch C.
    pose proof (Fr X) as FX. pose proof (Fr Y) as FY. unfold frac, bilin. rnum.
    set (s := X - IZR (Zfloor X)) in *. set (t := Y - IZR (Zfloor Y)) in *.
    assert (E : ch (Color (cR c00 * (1 - s) * (1 - t) + cR c10 * s * (1 - t) + cR c01 * (1 - s) * t + cR c11 * s * t)
                       (cG c00 * (1 - s) * (1 - t) + cG c10 * s * (1 - t) + cG c01 * (1 - s) * t + cG c11 * s * t)
                       (cB c00 * (1 - s) * (1 - t) + cB c10 * s * (1 - t) + cB c01 * (1 - s) * t + cB c11 * s * t)) =
        (1 - t) * ((1 - s) * ch c00 + s * ch c10) + t * ((1 - s) * ch c01 + s * ch c11)).
    { destruct C as [-> | [-> | ->]]; cbn [cR cG cB]; ring. }
    rewrite E. split; [reflexivity|]. apply convex4; lra.
Qed.

Theorem bilinear_periodic (img : list (list (color R))) (u v : R) k l :
  bilinearUV img (u + IZR k) (v + IZR l) = bilinearUV img u v.
Proof.
  unfold bilinearUV. destruct (rowsSize img) as [w h]. rewrite !warp_periodic. rnum.
  destruct (Reqb_spec (u + IZR k) (u + IZR k)); [|lra]. destruct (Reqb_spec (v + IZR l) (v + IZR l)); [|lra].
  destruct (Reqb_spec u u); [|lra]. destruct (Reqb_spec v v); [|lra]. reflexivity.
Qed.

Lemma color_eq (c d : color R) : (forall ch, channel ch -> ch c = ch d) -> c = d.
Proof.
  intros E. destruct c as [r g b], d as [r' g' b']. f_equal; [apply (E cR)|apply (E cG)|apply (E cB)]; unfold channel; auto.
Qed.

Theorem bilinear_at_pixels w (img : list (list (color R))) i j : rectangular w img -> (0 < w)%nat ->
  (0 <= i)%Z -> (i < Z.of_nat w - 1 \/ i = 0)%Z -> (0 <= j)%Z -> (j < Z.of_nat (length img) - 1 \/ j = 0)%Z ->
  exists c, pixelAt img j i = Some c /\ bilinearUV img (IZR i / IZR (Z.of_nat w - 1)) (IZR j / IZR (Z.of_nat (length img) - 1)) = Val c.
Proof.
  intros R W0 Hi Hi' Hj Hj'. set (W := Z.of_nat w) in *. set (H := Z.of_nat (length img)) in *.
  assert (Ph : (1 <= H)%Z) by (destruct R as [N _]; unfold H; destruct img; [easy|cbn [length]; lia]).
  destruct (bilinear_value w img (IZR i / IZR (W - 1)) (IZR j / IZR (H - 1)) R W0) as (a & b & s & t & c & E & Ia & Ib & Hs & Ht & Ea & Eb & c00 & c10 & c01 & c11 & E00 & E10 & E01 & E11 & V).
  fold W in Ea. fold H in Eb.
  assert (K : forall k n, (1 <= n)%Z -> (0 <= k)%Z -> (k < n - 1 \/ k = 0)%Z -> (IZR k / IZR (n - 1) - IZR (Zfloor (IZR k / IZR (n - 1)))) * IZR (n - 1) = IZR k).
  { intros k n Hn Hk D. destruct (Z.eq_dec k 0) as [->|Nk].
    - replace (0 / IZR (n - 1)) with 0 by (unfold Rdiv; lra). change 0 with (IZR 0). rewrite Zfloor_IZR. lra.
    - assert (P : 0 < IZR (n - 1)) by (apply IZR_lt; lia). assert (L : IZR k < IZR (n - 1)) by (apply IZR_lt; lia). assert (0 <= IZR k) by (apply IZR_le; lia).
      replace (Zfloor (IZR k / IZR (n - 1))) with 0%Z.
      + field. lra.
      + symmetry. apply Zfloor_imp. cbn [Z.add]. split; [apply Rmult_le_pos; [lra|]; left; now apply Rinv_0_lt_compat|].
        apply Rmult_lt_reg_r with (IZR (n - 1)); [easy|]. unfold Rdiv. rewrite Rmult_assoc, Rinv_l by lra. lra. }
  rewrite K in Ea by (easy || lia). rewrite K in Eb by (easy || lia).
  assert (Q : forall a i s, IZR a + s = IZR i -> 0 <= s < 1 -> a = i /\ s = 0).
  { clear. intros a i s E Hs. assert (A1 : IZR a <= IZR i) by lra. assert (A2 : IZR i < IZR (a + 1)) by (rewrite plus_IZR; lra).
    apply le_IZR in A1. apply lt_IZR in A2. assert (a = i) by lia. subst. split; [easy|lra]. }
  destruct (Q _ _ _ Ea Hs) as [-> ->]. destruct (Q _ _ _ Eb Ht) as [-> ->].
  exists c00. split; [easy|]. rewrite E. f_equal. apply color_eq. intros ch C. rewrite (proj1 (V ch C)). ring.
Qed.

(** nearest: the closest pixel *)
Theorem nearest_value w (img : list (list (color R))) (u v : R) : rectangular w img -> (0 < w)%nat -> 0 <= u <= 1 -> 0 <= v <= 1 ->
  exists i j c, nearestUV img u v = Val c /\ pixelAt img j i = Some c /\
    Rabs (IZR i - u * IZR (Z.of_nat w - 1)) <= 1 / 2 /\ Rabs (IZR j - v * IZR (Z.of_nat (length img) - 1)) <= 1 / 2.
Proof.
  intros R W0 Hu Hv. set (W := Z.of_nat w). set (H := Z.of_nat (length img)).
  assert (Ph : (1 <= H)%Z) by (destruct R as [N _]; unfold H; destruct img; [easy|cbn [length]; lia]).
  assert (B : forall x n, (1 <= n)%Z -> 0 <= x <= 1 -> let X := x * IZR (n - 1) + 1 / 2 in 0 <= X /\ (0 <= Zfloor X < n)%Z /\ Rabs (IZR (Zfloor X) - x * IZR (n - 1)) <= 1 / 2).
  { intros x n Hn Hx X. assert (0 <= IZR (n - 1)) by (apply IZR_le; lia). assert (0 <= x * IZR (n - 1) <= IZR (n - 1)) by (split; nra).
    pose proof (Zfloor_lb X). pose proof (Zfloor_ub X). unfold X in *. rewrite minus_IZR in *. split; [lra|]. split.
    - split; [apply Zfloor_lub; lra|]. apply lt_IZR. lra.
    - apply Rabs_le. lra. }
  destruct (B u W ltac:(lia) Hu) as (A1 & A2 & A3). destruct (B v H Ph Hv) as (B1 & B2 & B3).
  destruct (pixelAt_some w img _ _ R A2 B2) as [c E]. eexists _, _, c. split; [|split; [exact E|easy]].
  unfold nearestUV. rewrite (rowsSize_rect w img R). fold W H. unfold nQ. rnum. rewrite !Ztrunc_floor by easy. apply atIndex_pixel; [lia|lia|easy].
Qed.

(** ** Checkers *)
Lemma floor_plus x k : Zfloor (x + IZR k) = (Zfloor x + k)%Z.
Proof. apply Zfloor_imp. rewrite !plus_IZR. pose proof (Zfloor_lb x) as A. pose proof (Zfloor_ub x) as B. lra. Qed.
Lemma rem_even z : (Z.rem z 2 =? 0)%Z = Z.even z.
Proof.
  rewrite Zeven_mod. destruct (Z.eqb_spec (Z.rem z 2) 0) as [E|N].
  - apply Z.rem_divide in E; [|lia]. symmetry. apply Zeq_is_eq_bool || idtac. unfold Zeq_bool. apply Z.mod_divide in E; [|lia]. now rewrite E.
  - unfold Zeq_bool. destruct (Z.compare_spec (z mod 2) 0) as [E|E|E]; try easy. exfalso. apply N. apply Z.rem_divide; [lia|]. apply Z.mod_divide; [lia|easy].
Qed.

Theorem checkers_value (pU pV : R) (a b : texture R) u v z :
  checkers pU pV a b (Vec u v z) =
  if Z.even (Zfloor (2 * pU * u) + Zfloor (2 * pV * v)) then a (Vec u v 0) else b (Vec u v 0).
Proof.
  unfold checkers, floorInt. cbn [vx vy]. rnum. rewrite !Ztrunc_IZR, rem_even.
  replace (u * (pU * 2)) with (2 * pU * u) by ring. replace (v * (pV * 2)) with (2 * pV * v) by ring. reflexivity.
Qed.
Theorem checkers_shift (pU pV : R) ca cb u v z k l : pU <> 0 -> pV <> 0 ->
  checkers pU pV (constTexture ca) (constTexture cb) (Vec (u + IZR k / (2 * pU)) (v + IZR l / (2 * pV)) z) =
  if Z.even (k + l) then checkers pU pV (constTexture ca) (constTexture cb) (Vec u v z)
  else checkers pU pV (constTexture cb) (constTexture ca) (Vec u v z).
Proof.
  intros NU NV. rewrite !checkers_value. replace (2 * pU * (u + IZR k / (2 * pU))) with (2 * pU * u + IZR k) by (field; lra).
  replace (2 * pV * (v + IZR l / (2 * pV))) with (2 * pV * v + IZR l) by (field; lra). rewrite !floor_plus.
  set (i := Zfloor (2 * pU * u)). set (j := Zfloor (2 * pV * v)). replace (i + k + (j + l))%Z with ((i + j) + (k + l))%Z by lia. rewrite Z.even_add.
  destruct (Z.even (k + l)), (Z.even (i + j)); reflexivity.
Qed.

(** ** Loading *)
Theorem load_ok {F} `{NF : Num F} (H : heap (color F)) w h at_ (colorspace : F -> F) : (0 <= w)%Z -> (0 <= h)%Z ->
  exists img H', loadImage w h at_ colorspace H = Val (img, H') /\ keeps H H' /\
    shows H' img w h (fun y x => let '(r, g, b) := at_ x (h - 1 - y)%Z in
      (Color (colorspace (#r / #65535)) (colorspace (#g / #65535)) (colorspace (#b / #65535)))%num).
Proof.
  intros Hw Hh. unfold loadImage. destruct (makeImage_ok black w h H Hw Hh) as [EM HM].
  unfold hbind at 1. rewrite EM. cbn [obind]. set (H1 := appended H _) in *.
  set (f := fun y x => let '(r, g, b) := at_ x (h - 1 - y)%Z in (Color (colorspace (#r / #65535)) (colorspace (#g / #65535)) (colorspace (#b / #65535)))%num).
  assert (P : performs (length H) w h H1 (hloop h (fun y => hloop w (fun x =>
      let '(r, g, b) := at_ x y in
      setPix (rowsAt (length H) w h) (h - 1 - y)%Z x (Color (colorspace (#r / #65535)) (colorspace (#g / #65535)) (colorspace (#b / #65535)))%num)))
      (flat_map (fun y => flat_map (fun x => [((h - 1 - y)%Z, x, fun _ => f (h - 1 - y)%Z x)]) (zr 0 (Z.to_nat w))) (zr 0 (Z.to_nat h)))).
  { apply (performs_loop _ _ _ _ h _ (fun y => flat_map (fun x => [((h - 1 - y)%Z, x, fun _ => f (h - 1 - y)%Z x)]) (zr 0 (Z.to_nat w)))). intros y Hy.
    apply (performs_loop _ _ _ _ w _ (fun x => [((h - 1 - y)%Z, x, fun _ => f (h - 1 - y)%Z x)])). intros x Hx.
    assert (E : f (h - 1 - y)%Z x = let '(r, g, b) := at_ x y in (Color (colorspace (#r / #65535)) (colorspace (#g / #65535)) (colorspace (#b / #65535)))%num).
    { unfold f. replace (h - 1 - (h - 1 - y))%Z with y by lia. reflexivity. }
    rewrite E. destruct (at_ x y) as [[r g] b]. apply performs_set. unfold inside. lia. }
  destruct (P H1 _ HM (sameBut_refl _ _)) as (H2 & E & HH & SB). unfold hbind. rewrite E. cbn [obind hret].
  exists (rowsAt (length H) w h), H2. split; [reflexivity|]. split; [exact (proj2 (extends_new _ _ _ SB))|].
  apply holds_shows; [lia|lia|]. eapply holds_ext; [|exact HH]. intros y x I.
  set (L := flat_map _ _).
  assert (IN : In (y, x, fun _ => f y x) L).
  { unfold L. apply in_flat_map. exists (h - 1 - y)%Z. destruct I as [Iy Ix]. split; [apply zr_In; lia|]. apply in_flat_map. exists x. split; [apply zr_In; lia|].
    left. replace (h - 1 - (h - 1 - y))%Z with y by lia. reflexivity. }
  assert (AL : forall v u g, In (v, u, g) L -> g = fun _ => f v u).
  { intros v u g Q. unfold L in Q. apply in_flat_map in Q. destruct Q as (v' & _ & Q). apply in_flat_map in Q. destruct Q as (u' & _ & [Q|[]]).
    injection Q as <- <- <-. reflexivity. }
  clearbody L. revert AL IN. generalize (fun _ _ : Z => (black : color F)). clear.
  assert (St : forall M g, (forall v u q, In (v, u, q) M -> q = fun _ : color F => f v u) -> g y x = f y x -> applies M g y x = f y x).
  { induction M as [|[[v u] q] M IH]; intros g AL E; [exact E|]. unfold applies. cbn [fold_left]. apply IH; [intros; eapply AL; right; eauto|].
    cbn [apply1]. rewrite (AL v u q (or_introl eq_refl)). unfold upd. destruct (Z.eqb_spec y v) as [->|]; [destruct (Z.eqb_spec x u) as [->|]|]; cbn [andb]; easy. }
  induction L as [|[[v u] q] L IH]; intros g AL IN; [easy|]. unfold applies. cbn [fold_left]. destruct IN as [IN|IN].
  - injection IN as -> -> ->. apply St; [intros; eapply AL; right; eauto|]. cbn [apply1]. unfold upd. now rewrite !Z.eqb_refl.
  - apply IH; [intros; eapply AL; right; eauto|easy].
Qed.

(** ** Fisheye *)
Section Fisheye.
  (** the polar angle *)
  Variable atan2 : R -> R -> R.
  Hypothesis atan2_ok : forall y x, 0 < x * x + y * y ->
    x = sqrt (x * x + y * y) * cos (atan2 y x) /\ y = sqrt (x * x + y * y) * sin (atan2 y x).


  Lemma acos_half x : 0 <= x <= 1 -> 0 <= acos x <= PI / 2.
  Proof.
    intros H. pose proof (acos_bound x). split; [lra|]. destruct (Rle_lt_dec (acos x) (PI / 2)) as [L|L]; [easy|].
    pose proof (cos_lt_0 (acos x) L ltac:(pose proof PI_RGT_0; lra)). rewrite cos_acos in * by lra. lra.
  Qed.
  Lemma asin_of_acos y r : 0 <= y -> 0 <= r -> y * y + r * r = 1 -> asin r = acos y.
  Proof.
    intros Hy Hr E. assert (y <= 1) by nra. pose proof (acos_half y ltac:(lra)).
    rewrite <- (asin_sin (acos y)) by lra. rewrite sin_acos by lra. f_equal. symmetry. apply sqrt_lem_1; [|lra|unfold Rsqr; lra].
    unfold Rsqr. nra.
  Qed.

  Theorem fisheye_ok (d : vec R) : 0 < vx d * vx d + vz d * vz d ->
    let '(u, v) := fisheyeUV asin atan2 d in
    exists k, 0 < k /\ u - 1 / 2 = k * vx d /\ v - 1 / 2 = k * vz d /\
      PI * sqrt ((u - 1 / 2) * (u - 1 / 2) + (v - 1 / 2) * (v - 1 / 2)) =
        acos (Rabs (vy d) / sqrt (vx d * vx d + vy d * vy d + vz d * vz d)).
  Proof.
    destruct d as [x y z]. cbn [vx vy vz]. intros P. unfold fisheyeUV, vnormalized, nQ. cbn [vx vy vz]. rnum. cbv zeta. cbn [vx vy vz].
    set (N := sqrt (x * x + y * y + z * z)).
    assert (NP : 0 < N) by (apply sqrt_lt_R0; nra). assert (NN : N * N = x * x + y * y + z * z) by (apply sqrt_sqrt; nra).
    set (a := x * (1 / N)). set (c := z * (1 / N)). set (b := Rabs y / N).
    assert (AC : 0 < a * a + c * c).
    { replace (a * a + c * c) with ((x * x + z * z) * (1 / N * (1 / N))) by (unfold a, c; ring). apply Rmult_lt_0_compat; [lra|].
      assert (0 < 1 / N) by (apply Rdiv_lt_0_compat; lra). nra. }
    assert (B0 : 0 <= b) by (apply Rmult_le_pos; [apply Rabs_pos|left; now apply Rinv_0_lt_compat]).
    assert (YY : Rabs y * Rabs y = y * y) by (rewrite <- Rabs_mult; apply Rabs_pos_eq; nra).
    assert (U : b * b + (a * a + c * c) = 1).
    { unfold a, b, c. replace (Rabs y / N * (Rabs y / N)) with (Rabs y * Rabs y / (N * N)) by (field; lra). rewrite YY.
      replace (x * (1 / N) * (x * (1 / N)) + z * (1 / N) * (z * (1 / N))) with ((x * x + z * z) / (N * N)) by (field; lra).
      rewrite NN. field. nra. }
    replace (c * c + a * a) with (a * a + c * c) by ring. set (r := sqrt (a * a + c * c)) in *.
    assert (RP : 0 < r) by (apply sqrt_lt_R0; easy). assert (RR : r * r = a * a + c * c) by (apply sqrt_sqrt; lra).
    assert (AS : asin r = acos b) by (apply asin_of_acos; lra).
    destruct (atan2_ok c a ltac:(lra)) as [EC ES]. fold r in EC, ES. pose proof PI_RGT_0 as PP.
    assert (CO : cos (atan2 c a) = a / r) by (rewrite EC at 2; field; lra). assert (SI : sin (atan2 c a) = c / r) by (rewrite ES at 2; field; lra).
    rewrite CO, SI. assert (B1 : b < 1) by nra.
    assert (AP : 0 < asin r). { rewrite AS. pose proof (acos_bound b). destruct (Rle_lt_or_eq_dec 0 (acos b)) as [L|L]; [lra|easy|].
      pose proof (cos_acos b ltac:(lra)) as C1. rewrite <- L, cos_0 in C1. lra. }
    assert (Hu : 1 / 2 + asin r / (PI / 2) * (a / r) * (1 / 2) - 1 / 2 = asin r / (PI * r) * a) by (field; lra).
    assert (Hv : 1 / 2 + asin r / (PI / 2) * (c / r) * (1 / 2) - 1 / 2 = asin r / (PI * r) * c) by (field; lra).
    rewrite Hu, Hv. exists (asin r / (PI * r) * (1 / N)). split; [|split; [unfold a; ring|split; [unfold c; ring|]]].
    - apply Rmult_lt_0_compat; [|apply Rdiv_lt_0_compat; lra]. apply Rdiv_lt_0_compat; [easy|]. now apply Rmult_lt_0_compat.
    - rewrite <- AS. replace (asin r / (PI * r) * a * (asin r / (PI * r) * a) + asin r / (PI * r) * c * (asin r / (PI * r) * c)) with ((asin r / PI) * (asin r / PI)).
      + rewrite sqrt_square; [field; lra|]. left. now apply Rdiv_lt_0_compat.
      + replace (asin r / (PI * r) * a * (asin r / (PI * r) * a) + asin r / (PI * r) * c * (asin r / (PI * r) * c)) with ((asin r / PI) * (asin r / PI) * ((a * a + c * c) / (r * r))) by (field; lra).
        rewrite RR. field. lra.
  Qed.

  Theorem map_fisheye_ok (d : vec R) : 0 < vx d * vx d + vz d * vz d ->
    exists u v, (forall t : texture R, mapFisheye asin atan2 t d = t (Vec u v 0)) /\
      exists k, 0 < k /\ u - 1 / 2 = k * vx d /\ v - 1 / 2 = k * vz d /\
        PI * sqrt ((u - 1 / 2) * (u - 1 / 2) + (v - 1 / 2) * (v - 1 / 2)) =
          acos (Rabs (vy d) / sqrt (vx d * vx d + vy d * vy d + vz d * vz d)).
  Proof.
    intros P. pose proof (fisheye_ok d P) as H. destruct (fisheyeUV asin atan2 d) as [u v] eqn:E. exists u, v. split; [|exact H].
    intros t. unfold mapFisheye. now rewrite E.
  Qed.
End Fisheye.

(** such an atan2 exists *)
Definition atan2R (y x : R) : R := let a := acos (x / sqrt (x * x + y * y)) in if Rle_dec 0 y then a else - a.
Lemma atan2R_ok y x : 0 < x * x + y * y ->
  x = sqrt (x * x + y * y) * cos (atan2R y x) /\ y = sqrt (x * x + y * y) * sin (atan2R y x).
Proof.
  intros P. set (r := sqrt (x * x + y * y)). assert (RP : 0 < r) by (apply sqrt_lt_R0; easy). assert (RR : r * r = x * x + y * y) by (apply sqrt_sqrt; lra).
  assert (B : -1 <= x / r <= 1).
  { split; apply Rmult_le_reg_r with r; try easy; unfold Rdiv; rewrite Rmult_assoc, Rinv_l by lra; nra. }
  assert (C : cos (acos (x / r)) = x / r) by (apply cos_acos; lra).
  assert (S : sin (acos (x / r)) = Rabs y / r).
  { rewrite sin_acos by lra. apply sqrt_lem_1.
    - unfold Rsqr. nra.
    - apply Rmult_le_pos; [apply Rabs_pos|left; now apply Rinv_0_lt_compat].
    - unfold Rsqr. replace (Rabs y / r * (Rabs y / r)) with (Rabs y * Rabs y / (r * r)) by (field; lra).
      replace (Rabs y * Rabs y) with (y * y) by (rewrite <- Rabs_mult; symmetry; apply Rabs_pos_eq; nra).
      replace (x / r * (x / r)) with (x * x / (r * r)) by (field; lra). rewrite RR. field. lra. }
  unfold atan2R. fold r. destruct (Rle_dec 0 y) as [L|L].
  - rewrite C, S, Rabs_pos_eq by easy. split; field; lra.
  - rewrite cos_neg, sin_neg, C, S, Rabs_left by lra. split; field; lra.
Qed.
Lemma fisheye_example : fisheyeUV asin atan2R (Vec 1 1 0) = (3 / 4, 1 / 2).
Proof.
  pose proof (fisheye_ok atan2R atan2R_ok (Vec 1 1 0)) as H. cbn [vx vy vz] in H. specialize (H ltac:(lra)).
  destruct (fisheyeUV asin atan2R (Vec 1 1 0)) as [u v]. destruct H as (k & K & U & V & E).
  replace (v - 1 / 2) with 0 in E by lra. replace ((u - 1 / 2) * (u - 1 / 2) + 0 * 0) with ((u - 1 / 2) * (u - 1 / 2)) in E by ring.
  rewrite sqrt_square in E by lra. replace (1 * 1 + 1 * 1 + 0 * 0) with 2 in E by ring. rewrite Rabs_R1 in E.
  rewrite <- cos_PI4, acos_cos in E by (pose proof PI_RGT_0; lra). pose proof PI_RGT_0. f_equal; [|lra]. nra.
Qed.

(** ** Grids, shifts and stretches *)
Lemma line_test width p u : 0 < p -> (Rltb (frac (u * p)) (width * p) || Rltb (1 - width * p) (frac (u * p)))%bool = true <-> on_line width p u.
Proof.
  intros P. unfold frac; rnum. set (f := Zfloor (u * p)). assert (A := Zfloor_lb (u * p)). assert (B := Zfloor_ub (u * p)). fold f in A, B.
  assert (D : forall k, Rabs (u - IZR k / p) < width <-> Rabs (u * p - IZR k) < width * p).
  { intros k. replace (u * p - IZR k) with ((u - IZR k / p) * p) by (field; lra). rewrite Rabs_mult, (Rabs_pos_eq p) by lra.
    split; intros H; [now apply Rmult_lt_compat_r|now apply Rmult_lt_reg_r with p]. }
  rewrite orb_true_iff, !Rltb_true. split.
  - intros [H|H]; [exists f|exists (f + 1)%Z]; apply D; rewrite ?plus_IZR; unfold Rabs; destruct Rcase_abs; lra.
  - intros (k & H). apply D in H. destruct (Z_le_gt_dec k f) as [L|L].
    + left. apply IZR_le in L. revert H. unfold Rabs; destruct Rcase_abs; lra.
    + right. assert (L' : IZR (f + 1) <= IZR k) by (apply IZR_le; lia). rewrite plus_IZR in L'. revert H. unfold Rabs; destruct Rcase_abs; lra.
Qed.
Lemma grid_lines width pU pV (a b : texture R) u v z : 0 < pU -> 0 < pV ->
  (on_line width pU u \/ on_line width pV v -> grid width pU pV a b (Vec u v z) = b (Vec u v 0)) /\
  (~ on_line width pU u /\ ~ on_line width pV v -> grid width pU pV a b (Vec u v z) = a (Vec u v 0)).
Proof.
  intros HU HV. rewrite <- (line_test width pU u HU), <- (line_test width pV v HV). unfold grid. cbn [vx vy]. rnum.
  destruct (Rltb _ (width * pU)), (Rltb (1 - width * pU) _), (Rltb _ (width * pV)), (Rltb (1 - width * pV) _); cbn [orb];
    (split; [intros [H|H]|intros [H1 H2]]); try reflexivity; try discriminate; exfalso; auto.
Qed.
Lemma pan_moves (t : texture R) du dv u v z : pan t du dv (Vec (u + du) (v + dv) z) = t (Vec u v 0).
Proof. unfold pan, panned. cbn [vx vy]. rnum. do 2 f_equal; ring. Qed.
Lemma scale_stretches (t : texture R) su sv u v z : su <> 0 -> sv <> 0 -> scaleUV t su sv (Vec (u * su) (v * sv) z) = t (Vec u v 0).
Proof. intros A B. unfold scaleUV, panned. cbn [vx vy]. rnum. do 2 f_equal; field; assumption. Qed.
