(** * Properties C57-C64 and C86: images, encoding, post-processing *)
From Coq Require Import ZArith Reals Bool List Lra Lia.
From Verif Require Import Num NumLaws Outcome ColorModel ColorProofs ObjModel TreeModel ImageModel ImageSpec ImageProofs PpmSpec PpmProofs PostProofs PostR PostX TextureR SceneFacts.
Import ListNotations.
Local Open Scope R_scope.

(** ** C57 *)
Theorem C57_gamma_is_monotone_and_in_range :
  (forall c : R, 0 <= linearToSRGB c <= 1) /\
  (forall c d : R, c <= d -> linearToSRGB c <= linearToSRGB d) /\
  (forall c : R, 0 <= c <= 31308 / 10000000 -> linearToSRGB c = 1292 / 100 * c) /\
  (forall c : R, c <= 0 -> linearToSRGB c = 0) /\
  (forall c : R, 1 <= c -> linearToSRGB c = 1).
Proof. exact gamma_ok. Qed.
Print Assumptions C57_gamma_is_monotone_and_in_range.

Theorem C57_channels_fit_16_bits :
  forall (TF : Trig b64) (c : b64), (0 <= trunc16 c <= 65535)%Z.
Proof. exact (fun TF => @trunc16_range b64 _ TF). Qed.
Print Assumptions C57_channels_fit_16_bits.

Theorem C57_channels_are_the_scaled_encoding :
  forall c d : R,
    trunc16 c = Flocq.Core.Raux.Zfloor (65535 * linearToSRGB c) /\
    (c <= d -> (trunc16 c <= trunc16 d)%Z) /\
    (c <= 0 -> trunc16 c = 0%Z) /\ (1 <= c -> trunc16 c = 65535%Z).
Proof. exact (fun c d => conj (trunc16_R c) (conj (trunc16_R_mono c d) (trunc16_R_ends c))). Qed.
Print Assumptions C57_channels_are_the_scaled_encoding.

Theorem C57_both_encoders_use_the_same_channels :
  forall c : color R, rgba c = (trunc16 (cR c), trunc16 (cG c), trunc16 (cB c), 65535%Z).
Proof. exact rgba_R. Qed.
Print Assumptions C57_both_encoders_use_the_same_channels.

Example C57_example : map (@trunc16 b64 _ toyTrig) [nofZ 2; nofZ (-1); ndiv (nofZ 0) (nofZ 0); ndiv (nofZ 1) (nofZ 0); nQ 1 1000]
  = [65535; 0; 0; 65535; 846]%Z.
Proof. vm_compute. reflexivity. Qed.

(** ** C58 *)
Theorem C58_bright_colors_do_not_round_trip_refuted :
  0 <= 99 / 100 <= 1 /\ sRGBToLinear (linearToSRGB (99 / 100)) <> 99 / 100.
Proof. split; [lra|]. rewrite (proj2 round_trip_fails). lra. Qed.
Print Assumptions C58_bright_colors_do_not_round_trip_refuted.

Theorem C58_round_trip_partial :
  forall c : R, 0 <= c <= 1 ->
    (c <= 31308 / 10000000 -> sRGBToLinear (linearToSRGB c) = c) /\
    c <= sRGBToLinear (linearToSRGB c) <= c + 12 / 1055.
Proof. exact round_trip. Qed.
Print Assumptions C58_round_trip_partial.

Example C58_example : sRGBToLinear (linearToSRGB (3 / 1000)) = 3 / 1000.
Proof. apply C58_round_trip_partial; lra. Qed.

(** ** C59 *)
Theorem C59_ascii_decodes_to_the_image :
  forall (TF : Trig b64) (w : nat) (img : list (list (color b64))), rectangular w img ->
    exists bytes ws,
      encodeAscii16 collect img nil = (false, bytes) /\ Forall (fun b => is_white b = true) ws /\
      read_P3 bytes = Some (Netpbm (Z.of_nat w) (Z.of_nat (length img)) 65535 (samples img), ws).
Proof. exact (fun TF => @ascii_round_trip b64 _ TF). Qed.
Print Assumptions C59_ascii_decodes_to_the_image.

Definition grayb (n d : Z) : color b64 := Color (nQ n d) (nQ n d) (nQ n d).
Definition testImage : list (list (color b64)) :=
  [[grayb 1 1; grayb 0 1; Color (nQ 1 1000) (nofZ 5) (nofZ (-1))]; [grayb 1 2000; grayb 3 1; grayb 0 0]].
Example C59_example : match encodeAscii16 (TF := toyTrig) collect testImage nil with
  | (false, bytes) => read_P3 bytes
  | _ => None end = Some (Netpbm 3 2 65535 [65535; 65535; 65535; 0; 0; 0; 846; 65535; 0; 423; 423; 423; 65535; 65535; 65535; 0; 0; 0]%Z, [32; 10]%Z).
Proof. vm_compute. reflexivity. Qed.

(** ** C60 *)
Theorem C60_binary_decodes_to_the_image :
  forall (TF : Trig b64) (w : nat) (img : list (list (color b64))), rectangular w img ->
    exists bytes,
      encode48BE collect img nil = (false, bytes) /\
      read_P6 bytes = Some (Netpbm (Z.of_nat w) (Z.of_nat (length img)) 65535 (samples img), nil).
Proof. exact (fun TF => @binary_round_trip b64 _ TF). Qed.
Print Assumptions C60_binary_decodes_to_the_image.

Example C60_example : match encode48BE (TF := toyTrig) collect testImage nil with
  | (false, bytes) => read_P6 bytes
  | _ => None end = Some (Netpbm 3 2 65535 [65535; 65535; 65535; 0; 0; 0; 846; 65535; 0; 423; 423; 423; 65535; 65535; 65535; 0; 0; 0]%Z, nil).
Proof. vm_compute. reflexivity. Qed.

(** ** C61: the writer reports an error for each of the last three writes; the encoder returns none *)
Theorem C61_binary_encoder_drops_errors_refuted :
  forall (TF : Trig b64) (c : color b64), exists log,
    encode48BE (logged (full_after 3)) [[c]] (0%nat, nil) = (false, (6%nat, log)) /\
    map snd log = [false; false; false; true; true; true].
Proof. exact (fun TF => @binary_drops_errors b64 _ TF). Qed.
Print Assumptions C61_binary_encoder_drops_errors_refuted.

Theorem C61_ascii_encoder_reports_every_failure :
  forall (TF : Trig b64) (W : Type) (write : list Z -> W -> bool * W) (img : list (list (color b64))) (w w' : W) log e,
    encodeAscii16 (logged write) img (w, nil) = (e, (w', log)) ->
    (e = false <-> Forall (fun x => snd x = false) log) /\
    (e = false -> encodeAscii16 collect img nil = (false, concat (map fst log))).
Proof. exact (fun TF => @ascii_reports_errors b64 _ TF). Qed.
Print Assumptions C61_ascii_encoder_reports_every_failure.

Theorem C61_binary_encoder_partial :
  forall (TF : Trig b64) (W : Type) (write : list Z -> W -> bool * W) (img : list (list (color b64))) (w w' : W) log e,
    encode48BE (logged write) img (w, nil) = (e, (w', log)) ->
    (e = true -> exists x, In x log /\ snd x = true) /\
    (e = false -> encode48BE collect img nil = (false, concat (map fst log))).
Proof. exact (fun TF => @binary_errors_partial b64 _ TF). Qed.
Print Assumptions C61_binary_encoder_partial.

Example C61_example : fst (encodeAscii16 (TF := toyTrig) (logged (full_after 4)) testImage (0%nat, nil)) = true /\
  fst (encode48BE (TF := toyTrig) (logged (full_after 1)) testImage (0%nat, nil)) = true.
Proof. vm_compute. split; reflexivity. Qed.

(** ** C62 *)
Theorem C62_pixels_are_independent :
  forall (A : Type) (zero : A) (w h : Z) (H : heap A), (0 <= w)%Z -> (0 <= h)%Z ->
    exists img H1, makeImage zero w h H = Val (img, H1) /\ keeps H H1 /\
      shows H1 img w h (fun _ _ => zero) /\
      (forall l, (forall y x v, In (y, x, v) l -> inside w h y x) ->
        exists H2, writes img l H1 = Val (tt, H2) /\ keeps H H2 /\
          shows H2 img w h (fun y x => last_write l y x zero)) /\
      (forall y x v, ~ inside w h y x -> getPix img y x H1 = Panic /\ setPix img y x v H1 = Panic).
Proof. exact @new_image_ok. Qed.
Print Assumptions C62_pixels_are_independent.

Theorem C62_copies_share_nothing :
  forall (A : Type) (zero : A) (img : image) (w h : Z) (f : Z -> Z -> A) (H : heap A), (0 < w)%Z -> (0 < h)%Z -> shows H img w h f ->
    exists cpy H1, copyImage zero img H = Val (cpy, H1) /\ keeps H H1 /\
      shows H1 cpy w h f /\ shows H1 img w h f /\
      (forall l, (forall y x v, In (y, x, v) l -> inside w h y x) ->
        exists H2, writes cpy l H1 = Val (tt, H2) /\ keeps H H2 /\
          shows H2 cpy w h (fun y x => last_write l y x (f y x)) /\ shows H2 img w h f) /\
      (forall l H2, writes img l H1 = Val (tt, H2) -> shows H2 cpy w h f).
Proof. exact @copy_ok. Qed.
Print Assumptions C62_copies_share_nothing.

(** sizes below zero stop the program instead of making an image *)
Theorem C62_negative_sizes_stop_the_program :
  forall (A : Type) (zero : A) (w h : Z) (H : heap A), (h < 0 \/ w < 0 /\ 0 < h)%Z -> makeImage zero w h H = Panic.
Proof. exact @negative_image. Qed.
Print Assumptions C62_negative_sizes_stop_the_program.

Example C62_example :
  hbind (makeImage 0%Z 3 2) (fun img =>
  hbind (writes img [(1, 2, 5); (0, 2, 6); (1, 0, 7); (1, 2, 8)]%Z) (fun _ =>
  hbind (copyImage 0%Z img) (fun cpy =>
  hbind (writes img [(0, 0, 9)]%Z) (fun _ => hret tt)))) [[42%Z]]
  = Val (tt, [[42]; [9; 0; 6; 7; 0; 8]; [0; 0; 6; 7; 0; 8]]%Z).
Proof. vm_compute. reflexivity. Qed.

(** ** C63 *)
Theorem C63_convolution_adds_the_weighted_sum :
  forall (H : heap (color R)) d fd (w h : Z) src fs kern (kw kh : Z) fk (amplitude threshold : R),
    (0 < w)%Z -> (0 < h)%Z -> (0 < kw)%Z -> (0 < kh)%Z -> kernel_total kw kh fk <> 0 ->
    shows H d w h fd -> shows H src w h fs -> shows H kern kw kh fk ->
    exists dst H' f,
      hbind (copyImage black d) (fun dst => hbind (addConvolution dst src kern amplitude threshold) (fun _ => hret dst)) H = Val (dst, H') /\
      shows H' dst w h f /\
      (forall ch, channel ch -> forall y x, inside w h y x ->
        ch (f y x) = ch (fd y x) + convolved w h (fun y x => ch (fs y x)) threshold kw kh (fun y x => ch (fk y x)) amplitude (kernel_total kw kh fk) y x) /\
      keeps H H' /\ shows H' d w h fd /\ shows H' src w h fs /\ shows H' kern kw kh fk.
Proof. exact convolution_adds. Qed.
Print Assumptions C63_convolution_adds_the_weighted_sum.

Theorem C63_light_away_from_the_border_is_conserved :
  forall (w h : Z) (src : Z -> Z -> R) (threshold : R) (kw kh : Z) (kern : Z -> Z -> R) (amplitude total : R),
    (0 < w)%Z -> (0 < h)%Z -> (0 < kw)%Z -> (0 < kh)%Z ->
    (forall y x, inside w h y x -> threshold < src y x ->
       (kh / 2 <= y)%Z /\ (y - kh / 2 + kh <= h)%Z /\ (kw / 2 <= x)%Z /\ (x - kw / 2 + kw <= w)%Z) ->
    sum_pixels w h (convolved w h src threshold kw kh kern amplitude total) =
    sum_pixels w h (fun y x => above threshold (src y x)) * (amplitude * sum_pixels kw kh kern / total).
Proof. exact convolution_total. Qed.
Print Assumptions C63_light_away_from_the_border_is_conserved.

(** a pixel of brightness 5 in the middle of 3x3, threshold 1, amplitude 1/2, kernel row 1 2 1 *)
Definition bloomExample : hact (color b64) image :=
  hbind (makeImage black 3 3) (fun img =>
  hbind (setPix img 1 1 (grayb 5 1)) (fun _ =>
  hbind (makeImage black 3 1) (fun kern =>
  hbind (writes kern [(0, 0, grayb 1 1); (0, 1, grayb 2 1); (0, 2, grayb 1 1)]%Z) (fun _ =>
  bloomWith (hret kern) img (Bloom (nofZ 1) (nQ 1 2) (nofZ 1)))))).
Definition shown (w h : Z) (o : outcome (image * heap (color b64))) : list Z :=
  match o with
  | Val (img, H) => flat_map (fun y => map (fun x => match getPix img y x H with Val (c, _) => if clisnan c then (-1)%Z else ntrunc (nmul (cR c) (nofZ 100)) | _ => (-2)%Z end) (zr 0 (Z.to_nat w))) (zr 0 (Z.to_nat h))
  | _ => nil
  end.
Example C63_example : shown 3 3 (bloomExample nil) = [0; 0; 0; 50; 600; 50; 0; 0; 0]%Z.
Proof. vm_compute. reflexivity. Qed.

(** ** C64: a star of radius 1 pixel, on an image of a single white pixel *)
Definition whitePixel : heap (color b64) := [[grayb 1 1]].
Definition starParams : postParams b64 :=
  PostParams (Bloom (nofZ 0) (nofZ 0) (nofZ 0)) (Bloom (nofZ 0) (nofZ 0) (nofZ 0)) (Bloom (nofZ 1) (nofZ 1) (nQ 1 2)).
Theorem C64_small_stars_give_NaN_refuted :
  match getPix [Slice 0 0 1] 0 0 whitePixel with Val (c, _) => neqb (cR c) (nofZ 1) | _ => false end = true /\
  match applyTo (TF := toyTrig) (fun x => x) starParams [Slice 0 0 1] (nofZ 1) whitePixel with
  | Val (out, H) => match getPix out 0 0 H with Val (c, _) => clisnan c | _ => false end
  | _ => false
  end = true.
Proof. vm_compute. split; reflexivity. Qed.
Print Assumptions C64_small_stars_give_NaN_refuted.

Theorem C64_zero_radii_change_nothing :
  forall (TF : Trig b64) (bessel1 : b64 -> b64) (p : postParams b64) (img : image) (pixelSize : b64) (H : heap (color b64)),
    neqb (bpRadius (ppGaussian p)) (nofZ 0) = true -> neqb (bpRadius (ppAiry p)) (nofZ 0) = true -> neqb (bpRadius (ppStar p)) (nofZ 0) = true ->
    applyTo bessel1 p img pixelSize H = Val (img, H).
Proof. exact (fun TF => @applyTo_zero b64 _ TF). Qed.
Print Assumptions C64_zero_radii_change_nothing.

Theorem C64_the_input_is_left_alone :
  forall (TF : Trig b64) (bessel1 : b64 -> b64) (p : postParams b64) (img : image) (pixelSize : b64) (H H' : heap (color b64)) (out : image),
    applyTo bessel1 p img pixelSize H = Val (out, H') -> keeps H H'.
Proof. exact (fun TF => @applyTo_keeps b64 _ TF). Qed.
Print Assumptions C64_the_input_is_left_alone.

Theorem C64_finite_pixels_if_the_kernel_sum_is_not_zero_partial :
  forall (K : hact (color xr) image) (H H1 : heap (color xr)) img (w h : Z) f kern (kw kh : Z) fk (radius amplitude threshold : R),
    (0 < w)%Z -> (0 < h)%Z -> (0 < kw)%Z -> (0 < kh)%Z -> shows H img w h (injf f) ->
    K H = Val (kern, H1) -> keeps H H1 -> shows H1 kern kw kh (injf fk) -> kernel_total kw kh fk <> 0 ->
    exists out H2 g, bloomWith K img (Bloom (XF radius) (XF amplitude) (XF threshold)) H = Val (out, H2) /\
      shows H2 out w h (injf g) /\ keeps H H2 /\ shows H2 img w h (injf f).
Proof. exact bloom_finite. Qed.
Print Assumptions C64_finite_pixels_if_the_kernel_sum_is_not_zero_partial.

Theorem C64_kernel_sums_are_positive_except_for_small_stars :
  forall (bessel1 : R -> R) (H : heap (color R)) (pixels : Z) (width : R), (0 <= pixels < 2 ^ 61)%Z ->
    let n := (2 * pixels + 1)%Z in
    (exists k H' f, gaussian pixels width H = Val (k, H') /\ keeps H H' /\ shows H' k n n f /\ 0 < kernel_total n n f) /\
    (exists k H' f, airy bessel1 pixels width H = Val (k, H') /\ keeps H H' /\ shows H' k n n f /\ 0 < kernel_total n n f) /\
    ((4 <= pixels)%Z -> exists k H' f, starKernel pixels H = Val (k, H') /\ keeps H H' /\ shows H' k n n f /\ 0 < kernel_total n n f) /\
    ((pixels < 4)%Z -> exists k H' f, starKernel pixels H = Val (k, H') /\ keeps H H' /\ shows H' k n n f /\ kernel_total n n f = 0).
Proof.
  exact (fun bessel1 H pixels width Hp => conj (gaussian_ok H pixels width Hp) (conj (airy_ok bessel1 H pixels width Hp)
    (conj (fun G => star_ok H pixels (conj G (proj2 Hp))) (fun L => star_small H pixels (conj (proj1 Hp) L))))).
Qed.
Print Assumptions C64_kernel_sums_are_positive_except_for_small_stars.

(** a star of 4 pixels on a single white pixel: finite *)
Example C64_example : shown 1 1 (applyStarBloom [Slice 0 0 1] (nofZ 1) (Bloom (nofZ 4) (nofZ 1) (nQ 1 2)) whitePixel) = [100]%Z.
Proof. vm_compute. reflexivity. Qed.

(** ** C86 *)
Theorem C86_loading_flips_the_picture :
  forall (H : heap (color b64)) (w h : Z) (at_ : Z -> Z -> Z * Z * Z) (colorspace : b64 -> b64), (0 <= w)%Z -> (0 <= h)%Z ->
    exists img H', loadImage w h at_ colorspace H = Val (img, H') /\ keeps H H' /\
      shows H' img w h (fun y x => let '(r, g, b) := at_ x (h - 1 - y)%Z in
        (Color (colorspace (#r / #65535)) (colorspace (#g / #65535)) (colorspace (#b / #65535)))%num).
Proof. exact (@load_ok b64 _). Qed.
Print Assumptions C86_loading_flips_the_picture.

Example C86_example : shown 2 3 (loadImage 2 3 (fun x y => (x * 6554 + y * 13108, 0, 0)%Z) (fun c => c) nil) = [40; 50; 20; 30; 0; 10]%Z.
Proof. vm_compute. reflexivity. Qed.
