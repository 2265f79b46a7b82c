(** * Property theorems: mirrors and glass in double precision (C137, C138) *)
From Coq Require Import ZArith Reals List.
From Flocq Require Import Core.
From Flocq Require IEEE754.BinarySingleNaN.
Import IEEE754.BinarySingleNaN.
From Verif Require Import Num NumLaws Outcome B64 GeomModel ObjModel SceneModel FloatSpec CheckModel MirrorSpec MirrorFloat.
Import ListNotations.
Local Open Scope R_scope.

(** ** C137: one reflection keeps the length and turns the ray around *)
Theorem C137_mirrors_keep_length :
  forall (v w : vec b64), near_unit v -> usable w ->
  let n := vnormalized w in let r := reflect v n in
  all3 (fun x => is_finite x = true) r /\ Rabs (rdot r r - rdot v v) <= 2000 * bpow radix2 (-53) /\ Rabs (rdot r n + rdot v n) <= 500 * bpow radix2 (-53).
Proof. exact mirror_once. Qed.
Print Assumptions C137_mirrors_keep_length.

(** a hall of mirrors: errors add up, no faster *)
Theorem C137_mirror_chains_keep_length :
  forall (v : vec b64) (ws : list (vec b64)), all3 (fun x => is_finite x = true) v -> Rabs (rdot v v - 1) <= / 2000 -> Forall usable ws -> (Z.of_nat (length ws) <= 1000000000)%Z ->
  let r := fold_left (fun d w => reflect d (vnormalized w)) ws v in
  near_unit r /\ Rabs (rdot r r - 1) <= Rabs (rdot v v - 1) + 2000 * bpow radix2 (-53) * INR (length ws).
Proof. exact mirrors. Qed.
Print Assumptions C137_mirror_chains_keep_length.

(** so the check that the program runs on its rays does not stop it *)
Theorem C137_mirror_chains_are_accepted :
  forall (v : vec b64) (ws : list (vec b64)) (start : vec b64), all3 (fun x => is_finite x = true) v -> Rabs (rdot v v - 1) <= 2100 * bpow radix2 (-53) -> Forall usable ws -> (Z.of_nat (length ws) <= 4000)%Z ->
  checkRay (Ray start (fold_left (fun d w => reflect d (vnormalized w)) ws v)) = Val tt.
Proof. exact mirrors_accepted. Qed.
Print Assumptions C137_mirror_chains_are_accepted.

(** glass: the two rays that leave the surface have length one and lie on their own side of it *)
Theorem C137_glass_keeps_length :
  forall (n1 n2 : b64) (dir normal : vec b64), index n1 -> index n2 -> usable dir -> usable normal ->
  let f := refract n1 n2 dir normal in totalReflection f = false ->
  let t := transmitted f in let r := reflect (rfI f) (rfN f) in
  (all3 (fun x => is_finite x = true) t /\ Rabs (rdot t t - 1) <= 150000 * bpow radix2 (-53) /\ rdot t (rfN f) <= 3000 * bpow radix2 (-53)) /\
  (all3 (fun x => is_finite x = true) r /\ Rabs (rdot r r - 1) <= 2100 * bpow radix2 (-53) /\ - (600 * bpow radix2 (-53)) <= rdot r (rfN f)).
Proof. exact glass. Qed.
Print Assumptions C137_glass_keeps_length.

Theorem C137_glass_rays_are_accepted :
  forall (n1 n2 : b64) (dir normal start : vec b64), index n1 -> index n2 -> usable dir -> usable normal ->
  let f := refract n1 n2 dir normal in totalReflection f = false ->
  checkRay (Ray start (transmitted f)) = Val tt /\ checkRay (Ray start (reflect (rfI f) (rfN f))) = Val tt.
Proof. exact glass_accepted. Qed.
Print Assumptions C137_glass_rays_are_accepted.

(** a ray at 45 degrees enters glass, and does not get out again at a flat angle *)
Example C137_example :
  let f := refract (nofZ 1 : b64) (nQ 3 2) (Vec (nofZ 7) (nofZ (-7)) (nofZ 0)) (Vec (nofZ 0) (nofZ 5) (nofZ 0)) in
  let thousand x := ntrunc (nmul (nofZ 1000 : b64) x) in
  (totalReflection f, thousand (vx (transmitted f)), thousand (vy (transmitted f)), thousand (vx (reflect (rfI f) (rfN f))), thousand (vy (reflect (rfI f) (rfN f))))
    = (false, 471, -881, 707, 707)%Z /\
  totalReflection (refract (nofZ 1 : b64) (nQ 3 2) (Vec (nofZ 7) (nofZ 7) (nofZ 0)) (Vec (nofZ 0) (nofZ 5) (nofZ 0))) = true.
Proof. vm_compute. split; reflexivity. Qed.

(** ** C138: the reflected and the transmitted share of the light *)
Theorem C138_glass_shares_the_light :
  forall (n1 n2 : b64) (dir normal : vec b64), index n1 -> index n2 -> usable dir -> usable normal ->
  let f := refract n1 n2 dir normal in totalReflection f = false -> bpow radix2 (-1000) <= B2R (rfCosI f) ->
  let r := refractR f in let t := nsub (nofZ 1) r in
  weight r /\ weight t /\ Rabs (B2R r + B2R t - 1) <= bpow radix2 (-53).
Proof. exact glass_weights. Qed.
Print Assumptions C138_glass_shares_the_light.

Theorem C138_coatings_share_the_light :
  forall (n cosi : b64), FloatSpec.between 1 4 n -> is_finite cosi = true -> bpow radix2 (-1000) <= B2R cosi <= 1001 / 1000 ->
  let r := fresnelReflection (nofZ 1) n cosi in let t := nsub (nofZ 1) r in
  weight r /\ weight t /\ Rabs (B2R r + B2R t - 1) <= bpow radix2 (-53).
Proof. exact coat_weights. Qed.
Print Assumptions C138_coatings_share_the_light.

(** without the bound on the angle the shares need not be numbers: grazing rays at equal indices *)
Theorem C138_grazing_rays_share_the_light_refuted :
  exists (n1 n2 : b64) (dir normal : vec b64), index n1 /\ index n2 /\ usable dir /\ usable normal /\
    let f := refract n1 n2 dir normal in totalReflection f = false /\ B2R (rfCosI f) = 0 /\
    is_nan (refractR f) = true /\ is_nan (nsub (nofZ 1) (refractR f)) = true /\ is_nan (fresnelReflection n1 n2 (rfCosI f)) = true.
Proof. exact grazing_nan. Qed.
Print Assumptions C138_grazing_rays_share_the_light_refuted.

(** four per cent of the light comes back from a window pane seen straight on *)
Example C138_example :
  let f := refract (nofZ 1 : b64) (nQ 3 2) (Vec (nofZ 0) (nofZ (-7)) (nofZ 0)) (Vec (nofZ 0) (nofZ 5) (nofZ 0)) in
  (ntrunc (nmul (nofZ 100000 : b64) (refractR f)), ntrunc (nmul (nofZ 100000 : b64) (fresnelReflection (nofZ 1) (nQ 3 2) (nQ 1 2)))) = (4000, 8918)%Z.
Proof. vm_compute. reflexivity. Qed.
