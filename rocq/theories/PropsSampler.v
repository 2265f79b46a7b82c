(** * Properties C11-C19 and C79: the sampler *)
From Coq Require Import ZArith Reals Bool List Lra Lia.
From Verif Require Import Num NumLaws Outcome B64 ColorModel SeqModel SeqSpec SamplerModel SamplerSpec SamplerProofs PoolProofs SamplerNum SamplerFacts.
Import ListNotations.
Local Open Scope R_scope.

(** ** C11 *)
Theorem C11_tiles_partition_the_image :
  forall w h ts : Z, (0 <= w)%Z -> (0 <= h)%Z -> (1 <= ts)%Z ->
    exists q, tessellate w h ts = Val q /\ NoDup q /\
      (forall t, In t q -> (0 <= tx0 t < tx1 t)%Z /\ (tx1 t <= w)%Z /\ (0 <= ty0 t < ty1 t)%Z /\ (ty1 t <= h)%Z /\
         (tx1 t - tx0 t <= ts)%Z /\ (ty1 t - ty0 t <= ts)%Z) /\
      (forall p, in_image w h p -> exists t, In t q /\ in_tile t p /\ forall t', In t' q -> in_tile t' p -> t' = t).
Proof. exact tessellate_partition. Qed.
Print Assumptions C11_tiles_partition_the_image.

(** a 5 x 3 image in tiles of 4: a full tile column and a 1 pixel wide rest *)
Example C11_example : tessellate 5 3 4 = Val [Tile 0 0 4 3; Tile 4 0 5 3].
Proof. reflexivity. Qed.

(** ** C12 *)
Theorem C12_queueing_tiles_never_blocks :
  forall w h ts : Z, (0 <= w)%Z -> (0 <= h)%Z -> (1 <= ts)%Z ->
    exists q, tessellate w h ts = Val q /\ (Z.of_nat (length q) <= divUp w ts * divUp h ts)%Z.
Proof. exact tessellate_never_blocks. Qed.
Print Assumptions C12_queueing_tiles_never_blocks.

(** a channel that is one place too small does block; an empty image does not *)
Example C12_example : sendAll 1 nil [Tile 0 0 4 3; Tile 4 0 5 3] = NoFuel /\ tessellate 0 7 16 = Val nil.
Proof. split; reflexivity. Qed.

(** ** C13 *)
Theorem C13_every_schedule_renders_the_same_image :
  forall (G : Type) (f : imageFunc b64 G) (aa : bool) (shifts : list (b64 * b64)) (w h nPass : Z) (m : mem b64) (gs : list G) (q : list tile) (g0 : G),
    deterministic f -> (0 <= w <= 2 ^ 53)%Z -> (0 <= h <= 2 ^ 53)%Z -> Z.of_nat (length shifts) = (w * h)%Z ->
    gs <> nil -> tessellate w h 16 = Val q ->
    exists bound, forall k s, steps f aa w h (Z.to_nat nPass) k (initSys shifts gs q m) s ->
      (k <= bound)%nat /\
      (forall ws1 x ws2 y ws3 p, sWorkers s = ws1 ++ x :: ws2 ++ y :: ws3 -> pending x = Some p -> pending y <> Some p) /\
      (forall x p, In x (sWorkers s) -> pending x = Some p -> in_image w h p) /\
      (forall x, In x (sWorkers s) -> ~ crashed x) /\
      ((forall s', ~ step f aa w h (Z.to_nat nPass) s s') ->
        finished s /\ sQueue s = nil /\
        forall p, acc_at (sMem s) p = after_passes f aa shifts w h g0 nPass m p).
Proof.
  exact (fun G f aa shifts w h nPass m gs q g0 Hf Hw Hh Hs =>
    schedules f aa shifts w h Hf (proj1 Hw) (proj1 Hh) (fun p k => sample_pos_b64 aa shifts w h p k (proj2 Hw) (proj2 Hh) Hs) nPass m gs q g0).
Qed.
Print Assumptions C13_every_schedule_renders_the_same_image.

Theorem C13_two_renderings_agree :
  forall (G : Type) (f : imageFunc b64 G) (aa : bool) (shifts : list (b64 * b64)) (w h nPass : Z) (m m1 m2 : mem b64) (g0 : G),
    deterministic f -> (0 <= w <= 2 ^ 53)%Z -> (0 <= h <= 2 ^ 53)%Z -> Z.of_nat (length shifts) = (w * h)%Z ->
    sampleCall f aa shifts w h nPass m m1 -> sampleCall f aa shifts w h nPass m m2 ->
    forall p, acc_at m1 p = acc_at m2 p.
Proof.
  exact (fun G f aa shifts w h nPass m m1 m2 g0 Hf Hw Hh Hs H1 H2 p =>
    let R m' H := sampleCall_result f aa shifts w h g0 Hf (proj1 Hw) (proj1 Hh)
       (fun p k => sample_pos_b64 aa shifts w h p k (proj2 Hw) (proj2 Hh) Hs) nPass m m' H p in
    eq_trans (R m1 H1) (eq_sym (R m2 H2))).
Qed.
Print Assumptions C13_two_renderings_agree.

Theorem C13_rendering_completes :
  forall (G : Type) (f : imageFunc b64 G) (aa : bool) (shifts : list (b64 * b64)) (w h nPass : Z) (m : mem b64) (g0 : G) (gs : list G),
    deterministic f -> (0 <= w <= 2 ^ 53)%Z -> (0 <= h <= 2 ^ 53)%Z -> Z.of_nat (length shifts) = (w * h)%Z -> gs <> nil ->
    exists m', sampleCall f aa shifts w h nPass m m'.
Proof.
  exact (fun G f aa shifts w h nPass m g0 gs Hf Hw Hh Hs =>
    sampleCall_exists f aa shifts w h g0 Hf (proj1 Hw) (proj1 Hh)
       (fun p k => sample_pos_b64 aa shifts w h p k (proj2 Hw) (proj2 Hh) Hs) nPass m gs).
Qed.
Print Assumptions C13_rendering_completes.

(** two passes of the image function x + y + pass over a 2 x 1 image (exact arithmetic, no
    anti-aliasing): pixel (1,0) accumulates 3/4 + 1/2 + (0 + 1) over both passes *)
Definition sumfun : imageFunc R unit := fun c g x y => (gray (nadd (nadd x y) (nofZ (hs_index (cs_1 c)))), g).
Example C13_example : after_passes sumfun false [(0, 0); (0, 0)] 2 1 tt 2 newMem (1, 0)%Z =
  Acc 2 (gray (7 / 2)) (gray ((5 / 4) * (5 / 4) + (9 / 4) * (9 / 4))).
Proof.
  assert (forall k, sample_color sumfun false [(0, 0); (0, 0)] tt 2 1 (1, 0)%Z k = gray (5 / 4 + IZR k)) as E.
  { intros k. unfold sample_color, sample_pos. cbn [nofZ NumR fst snd]. rewrite indexToCam_R by (try lia; lra). cbn.
    change (Pos.to_nat 1) with 1%nat. cbn. unfold gray. f_equal; lra. }
  unfold after_passes. change (in_imageb 2 1 (1, 0)%Z) with true. cbv iota. change (Z.to_nat 2) with 2%nat. cbn [more_samples]. rewrite !E.
  unfold add_sample. rewrite !clisnan_R. cbn [aN aSum aSq acc_at newMem mN mF gray cR cG cB]. rnum. unfold gray.
  cbn. f_equal; f_equal; lra.
Qed.

(** ** C14 *)
Theorem C14_image_is_the_mean_of_all_passes :
  forall (G : Type) (f : imageFunc R G) aa shifts w h g0 ns m p,
    deterministic f -> (0 <= w)%Z -> (0 <= h)%Z -> Z.of_nat (length shifts) = (w * h)%Z ->
    Forall (fun n => 0 <= n)%Z ns -> sampleCalls f aa shifts w h ns newMem m -> in_image w h p ->
    let l := first_samples (sample_color f aa shifts g0 w h p) (Z.to_nat (total ns)) in
    imagef m p = Color (mean (map cR l)) (mean (map cG l)) (mean (map cB l)).
Proof. exact @calls_mean. Qed.
Print Assumptions C14_image_is_the_mean_of_all_passes.

(** bit for bit, in binary64 *)
Theorem C14_splitting_calls_does_not_matter :
  forall (G : Type) (f : imageFunc b64 G) aa shifts w h (g0 : G) ns m m1 m2 p,
    deterministic f -> (0 <= w <= 2 ^ 53)%Z -> (0 <= h <= 2 ^ 53)%Z -> Z.of_nat (length shifts) = (w * h)%Z ->
    Forall (fun n => 0 <= n)%Z ns ->
    sampleCalls f aa shifts w h ns m m1 -> sampleCall f aa shifts w h (total ns) m m2 -> acc_at m1 p = acc_at m2 p.
Proof.
  exact (fun G f aa shifts w h g0 ns m m1 m2 p Hf Hw Hh Hs =>
    split_calls f aa shifts w h g0 Hf (proj1 Hw) (proj1 Hh)
      (fun p k => sample_pos_b64 aa shifts w h p k (proj2 Hw) (proj2 Hh) Hs) ns m m1 m2 p).
Qed.
Print Assumptions C14_splitting_calls_does_not_matter.

(** passes 1 + 2 of the function above at pixel (0,0): mean of 1/4+1/2+k for k = 0,1,2 *)
Example C14_example : exists m, sampleCalls sumfun false [(0, 0); (0, 0)] 2 1 [1; 2]%Z newMem m /\
  imagef m (0, 0)%Z = gray (7 / 4).
Proof.
  assert (deterministic sumfun) as Hf by (intros c g g' x y; reflexivity).
  destruct (calls_exist sumfun false [(0, 0); (0, 0)] 2 1 tt Hf ltac:(lia) ltac:(lia)
     (fun p k => sample_pos_R false [(0, 0); (0, 0)] 2 1 p k eq_refl) [1; 2]%Z newMem) as (m & Hm).
  exists m. split; [exact Hm|].
  rewrite (calls_mean sumfun false [(0, 0); (0, 0)] 2 1 tt [1; 2]%Z m (0, 0)%Z Hf ltac:(lia) ltac:(lia) eq_refl) by (auto; repeat constructor; cbn; lia).
  assert (forall k, sample_color sumfun false [(0, 0); (0, 0)] tt 2 1 (0, 0)%Z k = gray (3 / 4 + IZR k)) as E.
  { intros k. unfold sample_color, sample_pos. cbn [nofZ NumR fst snd]. rewrite indexToCam_R by (try lia; lra). cbn.
    change (Pos.to_nat 1) with 1%nat. cbn. unfold gray. f_equal; lra. }
  change (Z.to_nat (total [1; 2]%Z)) with 3%nat. unfold first_samples. cbn [seq map]. rewrite !E.
  unfold mean, gray. cbn [cR cG cB Rsum length Z.of_nat]. f_equal; cbn; lra.
Qed.

(** ** C15: false; NaN samples are counted, so they act like black samples *)
Theorem C15_nan_samples_ignored_refuted :
  deterministic flaky /\
  clisnan (sample_color flaky false [(nofZ 0, nofZ 0)] tt 1 1 (0, 0)%Z 0) = true /\
  neqb (cR (sample_color flaky false [(nofZ 0, nofZ 0)] tt 1 1 (0, 0)%Z 1)) (nofZ 1) = true /\
  (exists m, sampleCall flaky false [(nofZ 0, nofZ 0)] 1 1 2 newMem m) /\
  forall m, sampleCall flaky false [(nofZ 0, nofZ 0)] 1 1 2 newMem m -> neqb (cR (imagef m (0, 0)%Z)) (nQ 1 2) = true.
Proof. exact nan_counts. Qed.
Print Assumptions C15_nan_samples_ignored_refuted.

(** what does hold: the sum is over the valid samples only, the divisor is the number of all samples *)
Theorem C15_sum_over_valid_samples_divided_by_all_partial :
  forall (G : Type) (f : imageFunc b64 G) aa shifts w h g0 nPass m p,
    deterministic f -> (0 <= w <= 2 ^ 53)%Z -> (0 <= h <= 2 ^ 53)%Z -> Z.of_nat (length shifts) = (w * h)%Z ->
    (0 <= nPass)%Z -> sampleCall f aa shifts w h nPass newMem m -> in_image w h p ->
    let all := map (fun k => sample_color f aa shifts g0 w h p (Z.of_nat k)) (seq 0 (Z.to_nat nPass)) in
    let valid := filter (fun c => negb (clisnan c)) all in
    imagef m p = clmul (fold_left cladd valid black) (ndiv (nofZ 1) (nofZ (Z.of_nat (length all)))).
Proof. exact @image_valid. Qed.
Print Assumptions C15_sum_over_valid_samples_divided_by_all_partial.

(** ** C16: false; all passes sample the same point *)
Theorem C16_positions_differ_between_passes_refuted :
  forall (aa : bool) (shifts : list (b64 * b64)) w h p k k' c c' xy xy',
    sample_pos aa shifts w h p k = Val (c, xy) -> sample_pos aa shifts w h p k' = Val (c', xy') -> xy = xy'.
Proof. exact (@pos_constant b64 NumB). Qed.
Print Assumptions C16_positions_differ_between_passes_refuted.

(** which point: the pixel centre moved down by a sixth of PixelSize *)
Theorem C16_sampled_point_partial :
  forall (shifts : list (R * R)) w h p k c x y,
    in_image w h p -> sample_pos true shifts w h p k = Val (c, (x, y)) ->
    exists u v, indexToCam w h (IZR (fst p)) (IZR (snd p)) = Val (u, v) /\ x = u /\ y = v - pixelSize w h / 6.
Proof. exact pos_R. Qed.
Print Assumptions C16_sampled_point_partial.

(** positions do exist, so the statements above are not vacuous *)
Theorem C16_positions_exist_partial :
  forall aa (shifts : list (b64 * b64)) w h p k, (w <= 2 ^ 53)%Z -> (h <= 2 ^ 53)%Z ->
    Z.of_nat (length shifts) = (w * h)%Z -> in_image w h p ->
    exists c (xy : b64 * b64), sample_pos aa shifts w h p k = Val (c, xy).
Proof. exact sample_pos_b64. Qed.
Print Assumptions C16_positions_exist_partial.

(** ** C17: the [0,1] range fails for portrait images, everything else holds *)
Theorem C17_portrait_leaves_unit_window_refuted :
  forall w h : Z, (1 <= w)%Z -> (w < h)%Z ->
    exists u v, indexToCam w h 0 (-1 / 2) = Val (u, v) /\ 1 < v.
Proof. exact portrait_outside. Qed.
Print Assumptions C17_portrait_leaves_unit_window_refuted.

Theorem C17_camera_window_partial :
  forall w h : Z, (1 <= w)%Z -> (1 <= h)%Z ->
    (forall ix iy, -1 / 2 <= ix <= IZR w - 1 / 2 -> -1 / 2 <= iy <= IZR h - 1 / 2 ->
      exists u v, indexToCam w h ix iy = Val (u, v) /\ 0 <= u <= 1 /\ ((h <= w)%Z -> 0 <= v <= 1)) /\
    (forall ix iy jx jy u v u' v', indexToCam w h ix iy = Val (u, v) -> indexToCam w h jx jy = Val (u', v') ->
      u' - u = (jx - ix) / IZR w /\ v' - v = - ((jy - iy) / IZR w)) /\
    indexToCam w h ((IZR w - 1) / 2) ((IZR h - 1) / 2) = Val (1 / 2, 1 / 2).
Proof. exact indexToCam_props. Qed.
Print Assumptions C17_camera_window_partial.

Theorem C17_no_panic_in_binary64 :
  forall w h p, (w <= 2 ^ 53)%Z -> (h <= 2 ^ 53)%Z -> in_image w h p ->
    exists u v : b64, indexToCam w h (nofZ (fst p)) (nofZ (snd p)) = Val (u, v).
Proof. exact indexToCam_b64. Qed.
Print Assumptions C17_no_panic_in_binary64.

(** lower right pixel of a 4 x 2 image *)
Example C17_example : indexToCam 4 2 3 1 = Val (7 / 8, 3 / 8).
Proof. rewrite indexToCam_R by (try lia; lra). f_equal. f_equal; lra. Qed.

(** ** C18 *)
Theorem C18_stddev_is_unbiased_sample_deviation :
  forall (G : Type) (f : imageFunc R G) aa shifts w h g0 ns m p,
    deterministic f -> (0 <= w)%Z -> (0 <= h)%Z -> Z.of_nat (length shifts) = (w * h)%Z ->
    Forall (fun n => 0 <= n)%Z ns -> (2 <= total ns)%Z -> sampleCalls f aa shifts w h ns newMem m -> in_image w h p ->
    let l := first_samples (sample_color f aa shifts g0 w h p) (Z.to_nat (total ns)) in
    variancef m p = Color (variance (map cR l)) (variance (map cG l)) (variance (map cB l)) /\
    stddevf m p = Color (sqrt (variance (map cR l))) (sqrt (variance (map cG l))) (sqrt (variance (map cB l))) /\
    0 <= variance (map cR l) /\ 0 <= variance (map cG l) /\ 0 <= variance (map cB l).
Proof. exact @calls_variance. Qed.
Print Assumptions C18_stddev_is_unbiased_sample_deviation.

Example C18_example : variance [1; 2; 6] = 7.
Proof. unfold variance, mean. cbn. lra. Qed.

(** ** C19: false for landscape images, true otherwise *)
Theorem C19_landscape_jitter_leaves_pixel_refuted :
  exists w h p a b u v, in_image w h p /\ 0 <= a < 1 /\ 0 <= b < 1 /\
    indexToCam w h (IZR (fst p)) (IZR (snd p)) = Val (u, v) /\
    u + pixelSize w h * (a - 1 / 2) < IZR (fst p) / IZR w.
Proof. exact landscape_jitter. Qed.
Print Assumptions C19_landscape_jitter_leaves_pixel_refuted.

(** the pixel is 1/w wide and high, centred at (u,v) *)
Theorem C19_jitter_inside_pixel_partial :
  forall w h p a b u v,
    in_image w h p -> (w <= h)%Z -> 0 <= a < 1 -> 0 <= b < 1 ->
    indexToCam w h (IZR (fst p)) (IZR (snd p)) = Val (u, v) ->
    Rabs (pixelSize w h * (a - 1 / 2)) <= 1 / IZR w / 2 /\ Rabs (pixelSize w h * (b - 1 / 2)) <= 1 / IZR w / 2 /\
    IZR (fst p) / IZR w <= u + pixelSize w h * (a - 1 / 2) <= (IZR (fst p) + 1) / IZR w.
Proof. exact jitter_inside. Qed.
Print Assumptions C19_jitter_inside_pixel_partial.

(** with the constant jitter actually used (b = 1/3, see C16) the sample leaves the pixel
    when the image is more than three times as wide as high *)
Theorem C19_actual_sample_leaves_pixel_refuted :
  forall (shifts : list (R * R)) w h p k c x y u v,
    in_image w h p -> (3 * h < w)%Z ->
    indexToCam w h (IZR (fst p)) (IZR (snd p)) = Val (u, v) ->
    sample_pos true shifts w h p k = Val (c, (x, y)) -> y < v - 1 / IZR w / 2.
Proof. exact actual_sample_outside. Qed.
Print Assumptions C19_actual_sample_leaves_pixel_refuted.

(** ** C79: false; the generator for deep recursion levels is seeded with the time *)
Theorem C79_rendering_is_reproducible_refuted :
  exists m1 m2,
    sampleCall noisy false [(nofZ 0, nofZ 0)] 1 1 1 newMem m1 /\
    sampleCall noisy false [(nofZ 0, nofZ 0)] 1 1 1 newMem m2 /\
    neqb (cR (imagef m1 (0, 0)%Z)) (cR (imagef m2 (0, 0)%Z)) = false.
Proof. exact not_reproducible. Qed.
Print Assumptions C79_rendering_is_reproducible_refuted.

Theorem C79_reproducible_without_deep_recursion_partial :
  forall (G : Type) (f : imageFunc b64 G) (aa : bool) (shifts : list (b64 * b64)) (w h nPass : Z) (m m1 m2 : mem b64) (g0 : G),
    deterministic f -> (0 <= w <= 2 ^ 53)%Z -> (0 <= h <= 2 ^ 53)%Z -> Z.of_nat (length shifts) = (w * h)%Z ->
    sampleCall f aa shifts w h nPass m m1 -> sampleCall f aa shifts w h nPass m m2 ->
    forall p, acc_at m1 p = acc_at m2 p.
Proof. exact C13_two_renderings_agree. Qed.
Print Assumptions C79_reproducible_without_deep_recursion_partial.
