(** * Properties C65-C67 and C87: textures *)
From Coq Require Import ZArith Reals Bool List Lra Lia.
From Flocq Require Import Core BinarySingleNaN.
From Verif Require Import Num NumLaws Outcome GeomModel ColorModel SeqModel SceneModel ImageModel ImageSpec PpmSpec TextureModel TextureSpec TextureProofs TextureR SceneFacts.
Import ListNotations.
Local Open Scope R_scope.

(** ** C65 *)
Theorem C65_infinite_coordinates_panic_refuted :
  forall (s : bool) (img : list (list (color b64))) (v z : b64), img <> nil -> is_finite v = true ->
    bilinear img (Vec (B754_infinity s) v z) = Panic.
Proof. exact (fun s img v _ => bilinear_infinite s img v). Qed.
Print Assumptions C65_infinite_coordinates_panic_refuted.

Theorem C65_finite_coordinates_never_panic :
  forall (w : nat) (img : list (list (color b64))) (u v z : b64), rectangular w img -> (0 < w)%nat ->
    (Z.of_nat w <= 2 ^ 53)%Z -> (Z.of_nat (length img) <= 2 ^ 53)%Z -> is_finite u = true -> is_finite v = true ->
    exists c, bilinear img (Vec u v z) = Val c.
Proof. exact (fun w img u v _ => bilinear_safe w img u v). Qed.
Print Assumptions C65_finite_coordinates_never_panic.

Theorem C65_value_is_between_the_neighbours :
  forall (w : nat) (img : list (list (color R))) (u v z : R), rectangular w img -> (0 < w)%nat ->
    exists i j s t c, bilinear img (Vec u v z) = Val c /\
      (0 <= i < Z.of_nat w)%Z /\ (0 <= j < Z.of_nat (length img))%Z /\ 0 <= s < 1 /\ 0 <= t < 1 /\
      IZR i + s = (u - IZR (Zfloor u)) * IZR (Z.of_nat w - 1) /\
      IZR j + t = (v - IZR (Zfloor v)) * IZR (Z.of_nat (length img) - 1) /\
      interpolates (Z.of_nat w) (Z.of_nat (length img)) img i j s t c.
Proof. exact (fun w img u v _ => bilinear_value w img u v). Qed.
Print Assumptions C65_value_is_between_the_neighbours.

Theorem C65_lookup_is_periodic :
  forall (img : list (list (color R))) (u v z : R) (k l : Z), bilinear img (Vec (u + IZR k) (v + IZR l) z) = bilinear img (Vec u v z).
Proof. exact (fun img u v _ => bilinear_periodic img u v). Qed.
Print Assumptions C65_lookup_is_periodic.

(** the last column and row only occur as neighbours, as coordinate 1 wraps around to 0 *)
Theorem C65_stored_colour_at_pixels :
  forall (w : nat) (img : list (list (color R))) (i j : Z) (z : R), rectangular w img -> (0 < w)%nat ->
    (0 <= i)%Z -> (i < Z.of_nat w - 1 \/ i = 0)%Z -> (0 <= j)%Z -> (j < Z.of_nat (length img) - 1 \/ j = 0)%Z ->
    exists c, pixelAt img j i = Some c /\
      bilinear img (Vec (IZR i / IZR (Z.of_nat w - 1)) (IZR j / IZR (Z.of_nat (length img) - 1)) z) = Val c.
Proof. exact (fun w img i j _ => bilinear_at_pixels w img i j). Qed.
Print Assumptions C65_stored_colour_at_pixels.

Definition gr (n : Z) : color b64 := Color (nofZ n) (nofZ n) (nofZ n).
Definition strip : list (list (color b64)) := [[gr 10; gr 20; gr 40]; [gr 30; gr 60; gr 80]].
Definition red (o : outcome (color b64)) : Z := match o with Val c => ntrunc (cR c) | _ => (-1)%Z end.
(** between columns 1 and 2 the value nears the last column, but at u = 1 it is that of column 0 *)
Example C65_example :
  map (fun u => red (bilinearUV strip u (nQ 1 2))) [nofZ 0; nQ 1 4; nQ 1 2; nQ 3 4; nQ 1023 1024; nofZ 1; nQ (-1) 4; nQ 7 4; ndiv (nofZ 0) (nofZ 0); ninf]
  = [20; 30; 40; 50; 59; 20; 50; 50; 0; -1]%Z.
Proof. vm_compute. reflexivity. Qed.

(** ** C66 *)
Theorem C66_nearest_never_panics_on_the_unit_square :
  forall (w : nat) (img : list (list (color b64))) (u v z : b64), rectangular w img -> (0 < w)%nat ->
    (Z.of_nat w <= 2 ^ 52)%Z -> (Z.of_nat (length img) <= 2 ^ 52)%Z ->
    is_finite u = true -> 0 <= B2R u <= 1 -> is_finite v = true -> 0 <= B2R v <= 1 ->
    exists c, nearest img (Vec u v z) = Val c.
Proof. exact (fun w img u v _ => nearest_safe w img u v). Qed.
Print Assumptions C66_nearest_never_panics_on_the_unit_square.

Theorem C66_nearest_is_the_closest_pixel :
  forall (w : nat) (img : list (list (color R))) (u v z : R), rectangular w img -> (0 < w)%nat -> 0 <= u <= 1 -> 0 <= v <= 1 ->
    exists i j c, nearest img (Vec u v z) = Val c /\ pixelAt img j i = Some c /\
      Rabs (IZR i - u * IZR (Z.of_nat w - 1)) <= 1 / 2 /\ Rabs (IZR j - v * IZR (Z.of_nat (length img) - 1)) <= 1 / 2.
Proof. exact (fun w img u v _ => nearest_value w img u v). Qed.
Print Assumptions C66_nearest_is_the_closest_pixel.

Example C66_example : map (fun u => red (nearestUV strip u (nQ 3 4))) [nofZ 0; nQ 1 5; nQ 1 2; nQ 7 10; nQ 4 5; nofZ 1; nQ 3 2] = [30; 30; 60; 60; 80; 80; -1]%Z.
Proof. vm_compute. reflexivity. Qed.

(** ** C67 *)
Theorem C67_checkers_alternate :
  forall (pU pV : R) (ca cb : color R) (u v z : R) (k l : Z), pU <> 0 -> pV <> 0 ->
    checkers pU pV (constTexture ca) (constTexture cb) (Vec (u + IZR k / (2 * pU)) (v + IZR l / (2 * pV)) z) =
    if Z.even (k + l) then checkers pU pV (constTexture ca) (constTexture cb) (Vec u v z)
    else checkers pU pV (constTexture cb) (constTexture ca) (Vec u v z).
Proof. exact checkers_shift. Qed.
Print Assumptions C67_checkers_alternate.

Theorem C67_the_cell_decides :
  forall (pU pV : R) (a b : texture R) (u v z : R),
    checkers pU pV a b (Vec u v z) =
    if Z.even (Zfloor (2 * pU * u) + Zfloor (2 * pV * v)) then a (Vec u v 0) else b (Vec u v 0).
Proof. exact checkers_value. Qed.
Print Assumptions C67_the_cell_decides.

Example C67_example : map (fun '(u, v) => red (checkers (nofZ 1) (nofZ 1) (constTexture (gr 1)) (constTexture (gr 2)) (Vec (nQ u 4) (nQ v 4) (nofZ 0))))
  [(1, 1); (3, 1); (-1, 1); (-3, 1); (-1, -1); (-3, -1); (1, 3); (3, 3)]%Z = [1; 2; 2; 1; 1; 2; 2; 1]%Z.
Proof. vm_compute. reflexivity. Qed.

(** ** C87: for any atan2 that gives the polar angle. Directions above and below the horizon are
    mapped to the same place. *)
Theorem C87_fisheye_is_equidistant :
  forall (atan2 : R -> R -> R),
    (forall y x, 0 < x * x + y * y ->
       x = sqrt (x * x + y * y) * cos (atan2 y x) /\ y = sqrt (x * x + y * y) * sin (atan2 y x)) ->
    forall d : vec R, 0 < vx d * vx d + vz d * vz d ->
      exists u v, (forall t : texture R, mapFisheye asin atan2 t d = t (Vec u v 0)) /\
        exists k, 0 < k /\ u - 1 / 2 = k * vx d /\ v - 1 / 2 = k * vz d /\
          PI * sqrt ((u - 1 / 2) * (u - 1 / 2) + (v - 1 / 2) * (v - 1 / 2)) =
            acos (Rabs (vy d) / sqrt (vx d * vx d + vy d * vy d + vz d * vz d)).
Proof. exact map_fisheye_ok. Qed.
Print Assumptions C87_fisheye_is_equidistant.

(** halfway between the zenith and the horizon *)
Example C87_example : fisheyeUV asin atan2R (Vec 1 1 0) = (3 / 4, 1 / 2).
Proof. exact fisheye_example. Qed.

(** ** C122: grids, shifts and stretches *)
Theorem C122_grid_lines :
  forall width pU pV (a b : texture R) u v z, 0 < pU -> 0 < pV ->
    (on_line width pU u \/ on_line width pV v -> grid width pU pV a b (Vec u v z) = b (Vec u v 0)) /\
    (~ on_line width pU u /\ ~ on_line width pV v -> grid width pU pV a b (Vec u v z) = a (Vec u v 0)).
Proof. exact grid_lines. Qed.
Print Assumptions C122_grid_lines.

Theorem C122_pan_moves_the_picture :
  forall (t : texture R) du dv u v z, pan t du dv (Vec (u + du) (v + dv) z) = t (Vec u v 0).
Proof. exact pan_moves. Qed.
Print Assumptions C122_pan_moves_the_picture.

Theorem C122_scale_stretches_the_picture :
  forall (t : texture R) su sv u v z, su <> 0 -> sv <> 0 -> scaleUV t su sv (Vec (u * su) (v * sv) z) = t (Vec u v 0).
Proof. exact scale_stretches. Qed.
Print Assumptions C122_scale_stretches_the_picture.

Example C122_example : map (fun '(u, v) => red (scaleUV (pan (grid (nQ 1 8) (nofZ 1) (nofZ 2) (constTexture (gr 1)) (constTexture (gr 2))) (nQ 1 2) (nofZ 0)) (nofZ 3) (nofZ 1) (Vec (nQ u 4) (nQ v 8) (nofZ 0))))
  [(0, 2); (1, 2); (6, 2); (7, 2); (9, 2); (-6, 2); (2, 2); (2, 1); (2, 3); (2, 4)]%Z = [1; 1; 2; 2; 1; 2; 1; 1; 1; 2]%Z.
Proof. vm_compute. reflexivity. Qed.
