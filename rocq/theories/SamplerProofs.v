(** * Proofs about the sampler: tiles and the worker pool *)
From Coq Require Import ZArith Reals Bool List Lia Permutation.
From Verif Require Import Num Outcome ColorModel SeqModel SamplerModel SamplerSpec.
Import ListNotations.

Lemma NoDup_app_intro {A} (l1 l2 : list A) : NoDup l1 -> NoDup l2 -> (forall x, In x l1 -> In x l2 -> False) -> NoDup (l1 ++ l2).
Proof.
  induction 1 as [|x l1 Hx H IH]; cbn; auto. intros H2 Hd. constructor.
  - rewrite in_app_iff. intros [?|?]; eauto.
  - apply IH; eauto.
Qed.

(** ** Tiles *)
Section TileProofs.
  Local Open Scope Z_scope.
  Ltac Zify.zify_post_hook ::= Z.div_mod_to_equations.

  Lemma loop_values_spec step : 1 <= step -> forall fuel x lim,
    (Z.to_nat (lim - x) < fuel)%nat ->
    exists xs, loop_values fuel x lim step = Val xs /\
      (forall v, In v xs <-> exists k, 0 <= k /\ v = x + k * step /\ v < lim) /\
      Z.of_nat (length xs) * step < Z.max (lim - x + step) 1 /\
      NoDup xs.
  Proof.
    intros Hs. induction fuel as [|n IH]; intros x lim Hf; [lia|].
    cbn [loop_values]. destruct (Z.ltb_spec x lim) as [H|H].
    - destruct (IH (x + step) lim) as (xs & E & HIn & HL & HN); [lia|].
      rewrite E. cbn [omap]. exists (x :: xs). split; [reflexivity|]. split; [|split].
      + intros v. cbn [In]. rewrite HIn. split.
        * intros [<-|(k & Hk & -> & Hv)]; [exists 0|exists (k + 1)]; repeat split; try lia.
        * intros (k & Hk & -> & Hv). destruct (Z.eq_dec k 0) as [->|]; [left; lia|].
          right. exists (k - 1). repeat split; lia.
      + cbn [length]. rewrite Nat2Z.inj_succ. lia.
      + constructor; auto. rewrite HIn. intros (k & Hk & E' & _). nia.
    - exists nil. split; [reflexivity|]. split; [|split].
      + intros v; split; [intros []|]. intros (k & Hk & -> & Hv). nia.
      + cbn. lia.
      + constructor.
  Qed.

  Lemma sendAll_ok cap ts : forall q, Z.of_nat (length q + length ts) <= cap -> sendAll cap q ts = Val (q ++ ts).
  Proof.
    induction ts as [|t ts IH]; intros q H; cbn [sendAll].
    - now rewrite app_nil_r.
    - cbn [length] in H. destruct (Z.ltb_spec (Z.of_nat (length q)) cap); [|lia].
      rewrite IH.
      + now rewrite <- app_assoc.
      + rewrite app_length. cbn. lia.
  Qed.

  Lemma divUp_pos x y : 1 <= y -> 1 <= x -> x <= divUp x y * y < x + y /\ 1 <= divUp x y.
  Proof. intros Hy Hx. unfold divUp. rewrite Z.quot_div_nonneg by lia. split; [|]; nia. Qed.
  Lemma divUp_0 y : 1 <= y -> 0 <= divUp 0 y <= 1.
  Proof. intros Hy. unfold divUp. replace (0 - 1) with (- (1)) by lia. rewrite Z.quot_opp_l by lia.
    rewrite Z.quot_div_nonneg by lia. destruct (Z.eq_dec y 1) as [->|]; [cbn; lia|]. rewrite Z.div_small by lia. lia. Qed.
  Lemma divUp_nonneg x y : 1 <= y -> 0 <= x -> 0 <= divUp x y.
  Proof. intros Hy Hx. destruct (Z.eq_dec x 0) as [->|]; [apply divUp_0; auto|]. generalize (divUp_pos x y Hy ltac:(lia)). lia. Qed.

  Definition the_tile (w h ts x0 y0 : Z) : tile := Tile x0 y0 (zmin (x0 + ts) w) (zmin (y0 + ts) h).

  Lemma zmin_min a b : zmin a b = Z.min a b.
  Proof. unfold zmin. destruct (Z.ltb_spec a b); lia. Qed.

  Lemma tessellate_spec w h ts : 0 <= w -> 0 <= h -> 1 <= ts ->
    exists xs ys, tessellate w h ts = Val (flat_map (fun x0 => map (the_tile w h ts x0) ys) xs) /\
      (forall v, In v xs <-> exists k, 0 <= k /\ v = k * ts /\ v < w) /\
      (forall v, In v ys <-> exists k, 0 <= k /\ v = k * ts /\ v < h) /\
      NoDup xs /\ NoDup ys /\
      Z.of_nat (length xs * length ys) <= divUp w ts * divUp h ts.
  Proof.
    intros Hw Hh Hts. unfold tessellate.
    destruct (Z.eqb_spec ts 0); [lia|].
    assert (0 <= divUp w ts) by (apply divUp_nonneg; lia).
    assert (0 <= divUp h ts) by (apply divUp_nonneg; lia).
    destruct (Z.ltb_spec (divUp w ts * divUp h ts) 0); [nia|].
    destruct (loop_values_spec ts Hts (loop_fuel w) 0 w) as (xs & Ex & Ix & Lx & Nx); [unfold loop_fuel; lia|].
    destruct (loop_values_spec ts Hts (loop_fuel h) 0 h) as (ys & Ey & Iy & Ly & Ny); [unfold loop_fuel; lia|].
    rewrite Ex, Ey. cbn [obind].
    assert (Z.of_nat (length xs) <= divUp w ts) as Bx.
    { destruct (Z.eq_dec w 0) as [->|].
      - destruct xs; [cbn; apply divUp_nonneg; lia|]. exfalso. destruct (proj1 (Ix z) (or_introl eq_refl)) as (k & ? & ? & ?). nia.
      - generalize (divUp_pos w ts Hts ltac:(lia)). intros [? ?]. nia. }
    assert (Z.of_nat (length ys) <= divUp h ts) as By.
    { destruct (Z.eq_dec h 0) as [->|].
      - destruct ys; [cbn; apply divUp_nonneg; lia|]. exfalso. destruct (proj1 (Iy z) (or_introl eq_refl)) as (k & ? & ? & ?). nia.
      - generalize (divUp_pos h ts Hts ltac:(lia)). intros [? ?]. nia. }
    exists xs, ys.
    assert (Z.of_nat (length xs * length ys) <= divUp w ts * divUp h ts) as B by (rewrite Nat2Z.inj_mul; nia).
    split; [|repeat split; auto].
    - rewrite sendAll_ok; [reflexivity|]. cbn [length Nat.add].
      assert (length (flat_map (fun x0 => map (fun y0 => Tile x0 y0 (zmin (x0 + ts) w) (zmin (y0 + ts) h)) ys) xs) = (length xs * length ys)%nat) as ->; [|exact B].
      clear. induction xs as [|x xs IH]; cbn; auto. rewrite app_length, map_length, IH. lia.
    - intros Hv. apply Ix in Hv. destruct Hv as (k & ? & ? & ?). exists k. lia.
    - intros (k & ? & ? & ?). apply Ix. exists k. lia.
    - intros Hv. apply Iy in Hv. destruct Hv as (k & ? & ? & ?). exists k. lia.
    - intros (k & ? & ? & ?). apply Iy. exists k. lia.
  Qed.

  (** tiles are the grid cells, cut to the image *)
  Lemma tessellate_partition w h ts : 0 <= w -> 0 <= h -> 1 <= ts ->
    exists q, tessellate w h ts = Val q /\
      NoDup q /\
      (forall t, In t q -> 0 <= tx0 t < tx1 t /\ tx1 t <= w /\ 0 <= ty0 t < ty1 t /\ ty1 t <= h /\
                           tx1 t - tx0 t <= ts /\ ty1 t - ty0 t <= ts) /\
      (forall p, in_image w h p -> exists t, In t q /\ in_tile t p /\ forall t', In t' q -> in_tile t' p -> t' = t).
  Proof.
    intros Hw Hh Hts. destruct (tessellate_spec w h ts Hw Hh Hts) as (xs & ys & E & Ix & Iy & Nx & Ny & _).
    exists (flat_map (fun x0 => map (the_tile w h ts x0) ys) xs). split; [exact E|]. clear E.
    assert (forall t, In t (flat_map (fun x0 => map (the_tile w h ts x0) ys) xs) <->
              exists x0 y0, In x0 xs /\ In y0 ys /\ t = the_tile w h ts x0 y0) as HIn.
    { intros t. rewrite in_flat_map. split.
      - intros (x0 & Hx & Ht). apply in_map_iff in Ht. destruct Ht as (y0 & <- & Hy). eauto.
      - intros (x0 & y0 & Hx & Hy & ->). exists x0. split; auto. apply in_map_iff. eauto. }
    split; [|split].
    - clear HIn Ix Iy. induction Nx as [|x xs Hx Nx IH]; cbn; [constructor|].
      apply NoDup_app_intro; [| exact IH |].
      + apply FinFun.Injective_map_NoDup; auto. intros a b Hab. unfold the_tile in Hab. injection Hab; auto.
      + intros t Ht Ht'. apply in_map_iff in Ht. destruct Ht as (y & <- & _).
        apply in_flat_map in Ht'. destruct Ht' as (x' & Hx' & Ht'). apply in_map_iff in Ht'. destruct Ht' as (y' & E & _).
        unfold the_tile in E. injection E; intros; subst. auto.
    - intros t Ht. apply HIn in Ht. destruct Ht as (x0 & y0 & Hx & Hy & ->).
      apply Ix in Hx. apply Iy in Hy. destruct Hx as (k & ? & ? & ?), Hy as (j & ? & ? & ?).
      unfold the_tile; cbn [tx0 tx1 ty0 ty1]. rewrite !zmin_min. nia.
    - intros [x y] [Hx Hy]. cbn [fst snd] in *.
      exists (the_tile w h ts (x / ts * ts) (y / ts * ts)). split; [|split].
      + apply HIn. do 2 eexists. split; [|split; [|reflexivity]].
        * apply Ix. exists (x / ts). nia.
        * apply Iy. exists (y / ts). nia.
      + unfold in_tile, the_tile; cbn [tx0 tx1 ty0 ty1 fst snd]. rewrite !zmin_min. nia.
      + intros t' Ht' [Hx' Hy']. apply HIn in Ht'. destruct Ht' as (x0 & y0 & Hx0 & Hy0 & ->).
        apply Ix in Hx0. apply Iy in Hy0. destruct Hx0 as (k & ? & ? & ?), Hy0 as (j & ? & ? & ?).
        unfold the_tile in Hx', Hy'; cbn [tx0 tx1 ty0 ty1 fst snd] in *. rewrite !zmin_min in *.
        assert (x / ts = k) as -> by nia. assert (y / ts = j) as -> by nia. now subst.
  Qed.
End TileProofs.
