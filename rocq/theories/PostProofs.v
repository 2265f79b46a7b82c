(** * Convolution and bloom *)
From Coq Require Import ZArith Reals Bool List Lia Lra.
From Verif Require Import Num Outcome ColorModel ObjModel TreeModel ImageModel ImageSpec ImageProofs.
Import ListNotations.
Local Open Scope Z_scope.

Section Generic.
  Context {F : Type} `{NF : Num F}.
  Notation heap := (heap (color F)).

  Definition foldPixels {S} (w h : Z) (step : Z -> Z -> S -> S) (s : S) : S :=
    fold_left (fun s y => fold_left (fun s x => step y x s) (zr 0 (Z.to_nat w)) s) (zr 0 (Z.to_nat h)) s.

  Lemma hfor_pure {S} (H : heap) n : forall i0 (body : Z -> S -> hact (color F) S) step s,
    (forall i s, i0 <= i < i0 + Z.of_nat n -> body i s H = Val (step i s, H)) ->
    hfor n i0 body s H = Val (fold_left (fun s i => step i s) (zr i0 n) s, H).
  Proof.
    induction n as [|n IH]; intros i0 body step s HB; [reflexivity|].
    cbn [hfor]. unfold hbind. rewrite HB by lia. cbn [obind]. rewrite zr_S. cbn [fold_left]. apply IH.
    intros i s' Hi. apply HB. lia.
  Qed.

  Lemma shows_row {A} (H : ImageModel.heap A) img w h f y : shows H img w h f -> 0 <= y < h ->
    exists row, getZ img y = Val row /\ slLen row = w.
  Proof.
    intros (L & LR & _) Hy. destruct (nth_error img (Z.to_nat y)) as [row|] eqn:E.
    - exists row. split; [apply getZ_some; [lia|easy]|]. rewrite Forall_forall in LR. apply LR. eapply nth_error_In; eauto.
    - apply nth_error_None in E. lia.
  Qed.

  Lemma overPixels_pure {S} (H : heap) img w h f (body : Z -> Z -> S -> hact (color F) S) step s : shows H img w h f ->
    (forall y x s, inside w h y x -> body y x s H = Val (step y x s, H)) ->
    overPixels img body s H = Val (foldPixels w h step s, H).
  Proof.
    intros HS HB. unfold overPixels, foldPixels. replace (length img) with (Z.to_nat h) by (destruct HS; lia).
    apply (hfor_pure H _ 0 _ (fun y s => fold_left (fun s x => step y x s) (zr 0 (Z.to_nat w)) s)). intros y s' Hy.
    destruct (shows_row H img w h f y HS ltac:(lia)) as (row & E & L). unfold hbind, hlift. rewrite E. cbn [omap obind]. rewrite L.
    apply (hfor_pure H _ 0 _ (fun x s => step y x s)). intros x s'' Hx. apply HB. unfold inside. lia.
  Qed.

  Definition grayStep (fk : Z -> Z -> color F) (y x : Z) (s : F) : F :=
    let c := fk y x in (s + (cR c + cG c + cB c) / #3)%num.
  Definition graySum (kw kh : Z) (fk : Z -> Z -> color F) : F := foldPixels kw kh (grayStep fk) (#0)%num.

  Lemma kernelSum_ok (H : heap) kern kw kh fk : shows H kern kw kh fk -> kernelSum kern H = Val (graySum kw kh fk, H).
  Proof.
    intros HS. unfold kernelSum. apply (overPixels_pure H kern kw kh fk _ (grayStep fk)); [easy|].
    intros y x s I. unfold hbind. destruct HS as (_ & _ & V). rewrite (V y x I). reflexivity.
  Qed.

  Lemma performs_overPixels a w h (H0 : heap) (body : Z -> Z -> hact (color F) unit) f : 0 <= w -> 0 <= h ->
    (forall y x, inside w h y x -> performs a w h H0 (body y x) [(y, x, f y x)]) ->
    performs a w h H0 (overPixels (rowsAt a w h) (fun y x _ => body y x) tt) (allPixels w h f).
  Proof.
    intros Hw Hh HB. unfold overPixels. replace (length (rowsAt a w h)) with (Z.to_nat h) by (pose proof (rowsAt_length a w h Hh); lia).
    apply (performs_for a w h H0 _ 0 (fun iy s => hbind (hlift (getZ (rowsAt a w h) iy)) (fun row => hfor (Z.to_nat (slLen row)) 0 (fun ix _ => body iy ix) s))
      (fun y => flat_map (fun x => [(y, x, f y x)]) (zr 0 (Z.to_nat w)))).
    intros y Hy H g HH HS. unfold hbind, hlift. rewrite rowsAt_get by lia. cbn [omap obind slLen].
    revert H g HH HS. apply (performs_for a w h H0 _ 0 (fun x _ => body y x) (fun x => [(y, x, f y x)])). intros x Hx. apply HB. unfold inside. lia.
  Qed.

  Lemma scaledKernel_ok (H : heap) kern kw kh fk factor : 0 < kw -> 0 < kh -> shows H kern kw kh fk ->
    exists H', scaledKernel kern factor H = Val (rowsAt (length H) kw kh, H') /\
      holds H' (length H) kw kh (fun y x => clmul (fk y x) factor) /\ extends H H'.
  Proof.
    intros Hw Hh HS. unfold scaledKernel. destruct (copyImage_ok black kern kw kh fk H Hw Hh HS) as (H1 & E1 & HH1 & X1).
    unfold hbind at 1. rewrite E1. cbn [obind].
    destruct (performs_overPixels (length H) kw kh H1 (fun iy ix => hbind (getPix (rowsAt (length H) kw kh) iy ix)
       (fun c => setPix (rowsAt (length H) kw kh) iy ix (clmul c factor))) (fun _ _ c => clmul c factor)
       ltac:(lia) ltac:(lia) ltac:(intros; now apply performs_modify) H1 fk HH1 (sameBut_refl _ _)) as (H2 & E2 & HH2 & SB).
    exists H2. unfold hbind at 1. rewrite E2. cbn [obind hret]. split; [reflexivity|]. split.
    - eapply holds_ext; [|exact HH2]. intros y x I. now rewrite applies_all.
    - destruct X1 as [L1 K1], SB as [L2 K2]. split; [congruence|]. intros b Hb. rewrite <- K2 by lia. now apply K1.
  Qed.

  (** *** The changes made by the convolution, in order *)
  Definition addend : Type := (Z * Z * color F)%type.
  Definition adding (u : addend) : change := let '(y, x, c) := u in (y, x, fun d => cladd d c).
  Definition outside (w i : Z) : bool := ((i <? 0) || (w <=? i))%bool.
  Definition splatAdds (w h kw kh kdx kdy iy ix : Z) (c : color F) (fk : Z -> Z -> color F) : list addend :=
    flat_map (fun iky => if outside h (iy + iky - kdy) then nil else
      flat_map (fun ikx => if outside w (ix + ikx - kdx) then nil else
        [(iy + iky - kdy, ix + ikx - kdx, clmul3 c (fk iky ikx))]) (zr 0 (Z.to_nat kw))) (zr 0 (Z.to_nat kh)).
  Definition excess (offset : F) (c : color F) : color F :=
    (Color (re (cR c - offset)) (re (cG c - offset)) (re (cB c - offset)))%num.
  Definition convAdds (w h kw kh : Z) (fs : Z -> Z -> color F) (offset : F) (fk : Z -> Z -> color F) : list addend :=
    flat_map (fun iy => flat_map (fun ix =>
      if (clmax (fs iy ix) <? offset)%num then nil else
      splatAdds w h kw kh (Z.quot kw 2) (Z.quot kh 2) iy ix (excess offset (fs iy ix)) fk) (zr 0 (Z.to_nat w))) (zr 0 (Z.to_nat h)).

  Lemma map_flat_map {A B C} (f : B -> C) (g : A -> list B) l : map f (flat_map g l) = flat_map (fun a => map f (g a)) l.
  Proof. induction l as [|a l IH]; [easy|]. cbn [flat_map]. now rewrite map_app, IH. Qed.

  Lemma splat_performs a w h (H0 : heap) k kw kh fk kdx kdy ix iy c : avoids a k -> shows H0 k kw kh fk ->
    performs a w h H0 (splat (rowsAt a w h) k w h kw kh kdx kdy ix iy c)
      (map adding (splatAdds w h kw kh kdx kdy iy ix c fk)).
  Proof.
    intros HA HS. unfold splat, splatAdds. rewrite map_flat_map.
    apply performs_loop. intros iky Hy. cbv zeta. unfold outside.
    destruct (Z.ltb_spec (iy + iky - kdy) 0); [apply performs_ret|].
    destruct (Z.leb_spec h (iy + iky - kdy)); [apply performs_ret|]. cbn [orb]. rewrite map_flat_map.
    apply performs_loop. intros ikx Hx.
    destruct (Z.ltb_spec (ix + ikx - kdx) 0); [apply performs_ret|].
    destruct (Z.leb_spec w (ix + ikx - kdx)); [apply performs_ret|]. cbn [orb map adding].
    intros G g HH SB. unfold hbind at 1. rewrite (rowsAt_load G a w h g _ _ HH) by (unfold inside; lia). cbn [obind].
    unfold hbind at 1. destruct HS as (_ & _ & V).
    rewrite (getPix_sameBut a k iky ikx _ H0 G HA SB (V iky ikx ltac:(unfold inside; lia))). cbn [obind].
    destruct (rowsAt_store G a w h g (iy + iky - kdy) (ix + ikx - kdx) (cladd (g (iy + iky - kdy) (ix + ikx - kdx)) (clmul3 c (fk iky ikx))) HH ltac:(unfold inside; lia)) as (H' & E & HH' & SB').
    exists H'. split; [exact E|]. split; [exact HH'|]. eapply sameBut_trans; eauto.
  Qed.

  Theorem addConvolution_ok (H : heap) a w h g src fs kern kw kh fk amplitude offset :
    0 < w -> 0 < h -> 0 < kw -> 0 < kh ->
    holds H a w h g -> shows H src w h fs -> avoids a src -> shows H kern kw kh fk ->
    exists H', addConvolution (rowsAt a w h) src kern amplitude offset H = Val (tt, H') /\
      holds H' a w h (applies (map adding (convAdds w h kw kh fs offset
         (fun y x => clmul (fk y x) (amplitude / graySum kw kh fk)%num))) g) /\
      forall b, (b < length H)%nat -> b <> a -> nth_error H' b = nth_error H b.
  Proof.
    intros Hw Hh Hkw Hkh HH HS HA HK. unfold addConvolution.
    rewrite (imgSize_shows H src w h fs Hh HS), (imgSize_shows H kern kw kh fk Hkh HK). cbv zeta.
    unfold hbind at 1. rewrite (kernelSum_ok H kern kw kh fk HK). cbn [obind].
    destruct (scaledKernel_ok H kern kw kh fk (amplitude / graySum kw kh fk)%num Hkw Hkh HK) as (H1 & E1 & HH1 & X1).
    unfold hbind at 1. rewrite E1. cbn [obind]. set (fk' := fun y x => clmul (fk y x) (amplitude / graySum kw kh fk)%num) in *.
    assert (LA : (a < length H)%nat). { destruct HH as (arr & N & _). apply nth_error_Some. congruence. }
    assert (HH' : holds H1 a w h g). { eapply holds_ext_heap; [|exact HH]. now apply (proj2 X1). }
    assert (AK : avoids a (rowsAt (length H) kw kh)).
    { unfold avoids, rowsAt. apply Forall_forall. intros r I. apply in_map_iff in I. destruct I as (? & <- & _). cbn. lia. }
    pose proof (holds_shows H1 (length H) kw kh fk' ltac:(lia) ltac:(lia) HH1) as SK.
    pose proof (shows_extends H H1 src w h fs Hw HS X1) as SS.
    match goal with |- exists H', ?p H1 = _ /\ _ => assert (P : performs a w h H1 p (map adding (convAdds w h kw kh fs offset fk'))) end.
    { unfold convAdds. rewrite map_flat_map. apply performs_loop. intros iy Hy. rewrite map_flat_map. apply performs_loop. intros ix Hx.
      apply (performs_read a w h H1 src iy ix (fs iy ix)); [easy|apply SS; unfold inside; lia|].
      destruct (clmax (fs iy ix) <? offset)%num; [apply performs_ret|]. now apply splat_performs. }
    destruct (P H1 g HH' (sameBut_refl _ _)) as (H2 & E2 & HH2 & SB). exists H2. split; [exact E2|]. split; [exact HH2|].
    intros b Hb Nb. rewrite <- (proj2 SB) by easy. now apply (proj2 X1).
  Qed.

  (** a copy is convolved into *)
  Theorem bloom_ok (H : heap) d fd w h src fs kern kw kh fk amplitude offset :
    0 < w -> 0 < h -> 0 < kw -> 0 < kh -> shows H d w h fd -> shows H src w h fs -> shows H kern kw kh fk ->
    exists H', hbind (copyImage black d) (fun dst => hbind (addConvolution dst src kern amplitude offset) (fun _ => hret dst)) H
        = Val (rowsAt (length H) w h, H') /\
      holds H' (length H) w h (applies (map adding (convAdds w h kw kh fs offset
         (fun y x => clmul (fk y x) (amplitude / graySum kw kh fk)%num))) fd) /\ keeps H H'.
  Proof.
    intros Hw Hh Hkw Hkh Hd HS HK. destruct (copyImage_ok black d w h fd H Hw Hh Hd) as (H1 & E1 & HH1 & X1).
    destruct (addConvolution_ok H1 (length H) w h fd src fs kern kw kh fk amplitude offset) as (H2 & E2 & HH2 & K); try easy.
    - eapply shows_extends; eauto.
    - now apply (readable_avoids src w h fs).
    - eapply shows_extends; eauto.
    - exists H2. unfold hbind at 1. rewrite E1. cbn [obind]. unfold hbind. rewrite E2. cbn [obind hret].
      split; [reflexivity|]. split; [exact HH2|]. intros b Hb. rewrite K by (destruct X1; lia). now apply (proj2 X1).
  Qed.
  Lemma keeps_shows (H H' : heap) img w h f : 0 < w -> keeps H H' -> shows H img w h f -> shows H' img w h f.
  Proof.
    intros Hw S HS. pose proof HS as (L1 & LR & V). split; [easy|]. split; [easy|]. intros y x I. specialize (V y x I).
    unfold getPix, hbind, hlift in *. destruct (getZ img y) as [row| |]; cbn [omap obind] in *; try easy.
    unfold loadAt in *. destruct ((x <? 0) || (slLen row <=? x))%bool; [easy|].
    destruct (nth_error H (slArr row)) as [ar|] eqn:N; [|easy].
    rewrite (S (slArr row)) by (apply nth_error_Some; congruence). rewrite N.
    destruct (getZ ar (slOff row + x)); cbn [omap] in *; [|easy|easy]. injection V as ->. reflexivity.
  Qed.
End Generic.
