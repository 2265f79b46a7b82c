(** * The convolution over the real numbers *)
From Coq Require Import ZArith Reals Bool List Lia Lra.
From Verif Require Import Num NumLaws Outcome ColorModel ObjModel TreeModel ImageModel ImageSpec ImageProofs PostProofs.
Import ListNotations.
Local Open Scope R_scope.

(** ** Sums *)
Lemma sum_to_ext n f g : (forall i, (0 <= i < Z.of_nat n)%Z -> f i = g i) -> sum_to n f = sum_to n g.
Proof.
  induction n as [|n IH]; intros H; [easy|]. cbn [sum_to]. rewrite IH by (intros; apply H; lia). rewrite H by lia. reflexivity.
Qed.
Lemma sum_to_0 n : sum_to n (fun _ => 0) = 0.
Proof. induction n as [|n IH]; [easy|]. cbn [sum_to]. rewrite IH. lra. Qed.
Lemma sum_to_zero n f : (forall i, (0 <= i < Z.of_nat n)%Z -> f i = 0) -> sum_to n f = 0.
Proof. intros H. rewrite (sum_to_ext n f (fun _ => 0)) by easy. apply sum_to_0. Qed.
Lemma sum_to_plus n f g : sum_to n (fun i => f i + g i) = sum_to n f + sum_to n g.
Proof. induction n as [|n IH]; cbn [sum_to]; [lra|]. rewrite IH. lra. Qed.
Lemma sum_to_scal n c f : sum_to n (fun i => c * f i) = c * sum_to n f.
Proof. induction n as [|n IH]; cbn [sum_to]; [lra|]. rewrite IH. lra. Qed.
Lemma sum_to_swap n m f : sum_to n (fun i => sum_to m (fun j => f i j)) = sum_to m (fun j => sum_to n (fun i => f i j)).
Proof.
  induction n as [|n IH]; cbn [sum_to]; [now rewrite sum_to_0|]. rewrite IH, sum_to_plus. reflexivity.
Qed.
Lemma sum_to_single n j f : sum_to n (fun i => if Z.eqb i j then f i else 0) = if ((0 <=? j) && (j <? Z.of_nat n))%Z%bool then f j else 0.
Proof.
  induction n as [|n IH].
  - cbn [sum_to]. destruct (Z.leb_spec 0 j); destruct (Z.ltb_spec j (Z.of_nat 0)); cbn [andb]; try easy. lia.
  - cbn [sum_to]. rewrite IH. destruct (Z.eqb_spec (Z.of_nat n) j) as [<-|N].
    + destruct (Z.leb_spec 0 (Z.of_nat n)); [|lia]. destruct (Z.ltb_spec (Z.of_nat n) (Z.of_nat n)); [lia|].
      destruct (Z.ltb_spec (Z.of_nat n) (Z.of_nat (S n))); [|lia]. cbn [andb]. lra.
    + destruct (Z.leb_spec 0 j); cbn [andb]; [|lra].
      destruct (Z.ltb_spec j (Z.of_nat n)); destruct (Z.ltb_spec j (Z.of_nat (S n))); try lra; lia.
Qed.

Lemma sum_pixels_ext w h f g : (forall y x, inside w h y x -> f y x = g y x) -> sum_pixels w h f = sum_pixels w h g.
Proof.
  intros H. unfold sum_pixels. apply sum_to_ext. intros y Hy. apply sum_to_ext. intros x Hx. apply H. unfold inside. lia.
Qed.
Lemma sum_pixels_plus w h f g : sum_pixels w h (fun y x => f y x + g y x) = sum_pixels w h f + sum_pixels w h g.
Proof. unfold sum_pixels. rewrite <- sum_to_plus. apply sum_to_ext. intros. apply sum_to_plus. Qed.
Lemma sum_pixels_scal w h c f : sum_pixels w h (fun y x => c * f y x) = c * sum_pixels w h f.
Proof. unfold sum_pixels. rewrite <- sum_to_scal. apply sum_to_ext. intros. apply sum_to_scal. Qed.
Lemma sum_pixels_swap w h w' h' f : sum_pixels w h (fun y x => sum_pixels w' h' (fun v u => f y x v u)) =
  sum_pixels w' h' (fun v u => sum_pixels w h (fun y x => f y x v u)).
Proof.
  unfold sum_pixels.
  transitivity (sum_to (Z.to_nat h) (fun y => sum_to (Z.to_nat h') (fun v => sum_to (Z.to_nat w) (fun x => sum_to (Z.to_nat w') (fun u => f y x v u))))).
  { apply sum_to_ext. intros y _. apply sum_to_swap. }
  rewrite sum_to_swap. apply sum_to_ext. intros v _.
  transitivity (sum_to (Z.to_nat h) (fun y => sum_to (Z.to_nat w') (fun u => sum_to (Z.to_nat w) (fun x => f y x v u)))).
  { apply sum_to_ext. intros y _. apply sum_to_swap. }
  apply sum_to_swap.
Qed.

Fixpoint lsum (l : list R) : R := match l with nil => 0 | a :: l => a + lsum l end.
Lemma lsum_app l l' : lsum (l ++ l') = lsum l + lsum l'.
Proof. induction l as [|a l IH]; cbn [lsum app]; [lra|]. rewrite IH. lra. Qed.
Lemma lsum_flat_map {A B} (f : B -> R) (g : A -> list B) l : lsum (map f (flat_map g l)) = lsum (map (fun a => lsum (map f (g a))) l).
Proof. induction l as [|a l IH]; [easy|]. cbn [flat_map map lsum]. rewrite map_app, lsum_app, IH. reflexivity. Qed.
Lemma zr_snoc i0 n : zr i0 (S n) = zr i0 n ++ [(i0 + Z.of_nat n)%Z].
Proof. unfold zr. rewrite seq_S, map_app. reflexivity. Qed.
Lemma lsum_zr f n : lsum (map f (zr 0 n)) = sum_to n f.
Proof.
  induction n as [|n IH]; [easy|]. rewrite zr_snoc, map_app, lsum_app, IH. cbn [map lsum sum_to Z.add].
  destruct n; cbn; lra.
Qed.

(** ** One channel *)
Lemma channel_add ch c d : channel ch -> ch (cladd c d) = ch c + ch d.
Proof. intros [-> | [-> | ->]]; reflexivity. Qed.
Lemma channel_mul3 ch c d : channel ch -> ch (clmul3 c d) = ch c * ch d.
Proof. intros [-> | [-> | ->]]; reflexivity. Qed.
Lemma channel_mul ch c s : channel ch -> ch (clmul c s) = s * ch c.
Proof. intros [-> | [-> | ->]]; unfold clmul; cbn [cR cG cB]; rnum; lra. Qed.
Lemma channel_excess ch off c : channel ch -> ch (excess off c) = above off (ch c).
Proof.
  assert (E : forall x, re (x - off)%num = above off x).
  { intros x. unfold re, umax, above. cbn. unfold Rltb. destruct (Rlt_dec 0 (x - off)); unfold Rmax; destruct (Rle_dec _ _); cbn in *; lra. }
  intros [-> | [-> | ->]]; unfold excess; cbn [cR cG cB]; apply E.
Qed.

Definition landing (ch : color R -> R) (y x : Z) (u : addend) : R :=
  let '(y', x', c) := u in if ((y' =? y) && (x' =? x))%Z%bool then ch c else 0.
Lemma applies_adding ch l y x : channel ch -> forall g, ch (applies (map adding l) g y x) = ch (g y x) + lsum (map (landing ch y x) l).
Proof.
  intros C. induction l as [|[[y' x'] c] l IH]; intros g; [cbn; lra|].
  cbn [map]. unfold applies. cbn [fold_left]. fold (applies (map adding l) (apply1 g (adding (y', x', c)))). rewrite IH.
  cbn [lsum adding apply1 landing]. unfold upd. rewrite (Z.eqb_sym y y'), (Z.eqb_sym x x').
  destruct (Z.eqb_spec y' y) as [->|]; [destruct (Z.eqb_spec x' x) as [->|]|]; cbn [andb]; [rewrite channel_add by easy|..]; lra.
Qed.

Lemma splat_sum ch w h kw kh kdx kdy iy ix c fk y x : channel ch -> inside w h y x -> (0 <= kw)%Z -> (0 <= kh)%Z ->
  lsum (map (landing ch y x) (splatAdds w h kw kh kdx kdy iy ix c fk)) =
  if insideb kw kh (y - iy + kdy) (x - ix + kdx) then ch c * ch (fk (y - iy + kdy)%Z (x - ix + kdx)%Z) else 0.
Proof.
  intros C [Iy Ix] Hkw Hkh. unfold splatAdds. rewrite lsum_flat_map, lsum_zr.
  rewrite (sum_to_ext _ _ (fun iky => if Z.eqb iky (y - iy + kdy) then
    sum_to (Z.to_nat kw) (fun ikx => if Z.eqb ikx (x - ix + kdx) then ch c * ch (fk iky ikx) else 0) else 0)).
  - rewrite sum_to_single, sum_to_single. unfold insideb. rewrite !Z2Nat.id by easy.
    destruct (0 <=? y - iy + kdy)%Z; destruct (y - iy + kdy <? kh)%Z; cbn [andb]; try reflexivity.
  - intros iky Hy. unfold outside.
    destruct (Z.ltb_spec (iy + iky - kdy) 0); cbn [orb].
    { destruct (Z.eqb_spec iky (y - iy + kdy)); [lia|easy]. }
    destruct (Z.leb_spec h (iy + iky - kdy)).
    { destruct (Z.eqb_spec iky (y - iy + kdy)); [lia|easy]. }
    rewrite lsum_flat_map, lsum_zr. destruct (Z.eqb_spec iky (y - iy + kdy)) as [E|N].
    + apply sum_to_ext. intros ikx Hx. destruct (Z.eqb_spec ikx (x - ix + kdx)) as [Ex|Nx].
      * destruct (Z.ltb_spec (ix + ikx - kdx) 0); [lia|]. destruct (Z.leb_spec w (ix + ikx - kdx)); [lia|]. cbn [orb map lsum landing].
        destruct (Z.eqb_spec (iy + iky - kdy) y); [|lia]. destruct (Z.eqb_spec (ix + ikx - kdx) x); [|lia]. cbn [andb].
        rewrite channel_mul3 by easy. lra.
      * destruct ((ix + ikx - kdx <? 0)%Z || (w <=? ix + ikx - kdx)%Z)%bool; [reflexivity|]. cbn [map lsum landing].
        destruct (Z.eqb_spec (ix + ikx - kdx) x); [lia|]. rewrite andb_false_r. lra.
    + apply sum_to_zero. intros ikx Hx. destruct ((ix + ikx - kdx <? 0)%Z || (w <=? ix + ikx - kdx)%Z)%bool; [reflexivity|]. cbn [map lsum landing].
      destruct (Z.eqb_spec (iy + iky - kdy) y); [lia|]. cbn [andb]. lra.
Qed.

Lemma clmax_below off (c : color R) ch : channel ch -> (clmax c <? off)%num = true -> above off (ch c) = 0.
Proof.
  intros C. unfold clmax, umax. rnum. intros H. unfold above.
  assert (ch c < off).
  { revert H. destruct (Rltb_spec (cR c) (cG c)); match goal with |- context[Rltb ?m (cB c)] => destruct (Rltb_spec m (cB c)) end;
      match goal with |- Rltb ?a ?b = true -> _ => destruct (Rltb_spec a b); [|easy] end; intros _; destruct C as [-> | [-> | ->]]; lra. }
  apply Rmax_right. lra.
Qed.

Lemma conv_sum ch w h kw kh fs off fk y x : channel ch -> inside w h y x -> (0 <= kw)%Z -> (0 <= kh)%Z ->
  lsum (map (landing ch y x) (convAdds w h kw kh fs off fk)) =
  sum_pixels w h (fun iy ix => if insideb kw kh (y - iy + kh / 2) (x - ix + kw / 2) then
    above off (ch (fs iy ix)) * ch (fk (y - iy + kh / 2)%Z (x - ix + kw / 2)%Z) else 0).
Proof.
  intros C I Hkw Hkh. unfold convAdds, sum_pixels. rewrite lsum_flat_map, lsum_zr. apply sum_to_ext. intros iy _.
  rewrite lsum_flat_map, lsum_zr. apply sum_to_ext. intros ix _.
  destruct (clmax (fs iy ix) <? off)%num eqn:E.
  - cbn [map lsum]. rewrite (clmax_below off _ ch C E). destruct (insideb _ _ _ _); lra.
  - rewrite splat_sum by easy. rewrite !Z.quot_div_nonneg by lia. rewrite channel_excess by easy. reflexivity.
Qed.

Lemma fold_gray_row fk y n s : fold_left (fun s x => grayStep fk y x s) (zr 0 n) s =
  s + sum_to n (fun x => (cR (fk y x) + cG (fk y x) + cB (fk y x)) / 3).
Proof.
  induction n as [|n IH]; [cbn; lra|]. rewrite zr_snoc, fold_left_app, IH. cbn [fold_left sum_to Z.add].
  replace (0 + Z.of_nat n)%Z with (Z.of_nat n) by lia. unfold grayStep. rnum. lra.
Qed.
Lemma graySum_R kw kh fk : graySum kw kh fk = kernel_total kw kh fk.
Proof.
  unfold graySum, foldPixels, kernel_total, sum_pixels. rnum. generalize (Z.to_nat kh). intros m.
  induction m as [|m IH]; [reflexivity|]. rewrite zr_snoc, fold_left_app, IH. cbn [fold_left sum_to]. rewrite fold_gray_row.
  replace (0 + Z.of_nat m)%Z with (Z.of_nat m) by lia. reflexivity.
Qed.

Theorem convolution_adds (H : heap (color R)) d fd w h src fs kern kw kh fk amplitude threshold :
  (0 < w)%Z -> (0 < h)%Z -> (0 < kw)%Z -> (0 < kh)%Z -> kernel_total kw kh fk <> 0 ->
  shows H d w h fd -> shows H src w h fs -> shows H kern kw kh fk ->
  exists dst H' f,
    hbind (copyImage black d) (fun dst => hbind (addConvolution dst src kern amplitude threshold) (fun _ => hret dst)) H = Val (dst, H') /\
    shows H' dst w h f /\
    (forall ch, channel ch -> forall y x, inside w h y x ->
      ch (f y x) = ch (fd y x) + convolved w h (fun y x => ch (fs y x)) threshold kw kh (fun y x => ch (fk y x)) amplitude (kernel_total kw kh fk) y x) /\
    keeps H H' /\ shows H' d w h fd /\ shows H' src w h fs /\ shows H' kern kw kh fk.
Proof.
  intros Hw Hh Hkw Hkh _ Hd HS HK.
  destruct (bloom_ok H d fd w h src fs kern kw kh fk amplitude threshold Hw Hh Hkw Hkh Hd HS HK) as (H' & E & HH & K).
  exists (rowsAt (length H) w h), H', (applies (map adding (convAdds w h kw kh fs threshold
         (fun y x => clmul (fk y x) (amplitude / graySum kw kh fk)%num))) fd).
  split; [exact E|]. split; [apply holds_shows; [lia|lia|exact HH]|]. split.
  - intros ch C y x I. rewrite applies_adding, conv_sum by (easy || lia). f_equal. unfold convolved. apply sum_pixels_ext. intros iy ix _. cbv zeta.
    destruct (insideb _ _ _ _); [|easy]. rewrite channel_mul, graySum_R by easy. rnum. lra.
  - split; [easy|]. split; [now apply (keeps_shows H)|]. split; now apply (keeps_shows H).
Qed.

(** ** The light added in total *)
Lemma sum_to_window n k s f : (0 <= s)%Z -> (s + Z.of_nat k <= Z.of_nat n)%Z ->
  sum_to n (fun i => if ((0 <=? i - s) && (i - s <? Z.of_nat k))%Z%bool then f (i - s)%Z else 0) = sum_to k f.
Proof.
  intros Hs. revert n. induction k as [|k IH]; intros n Hn.
  - cbn [sum_to]. apply sum_to_zero. intros i _. destruct (Z.leb_spec 0 (i - s)); destruct (Z.ltb_spec (i - s) (Z.of_nat 0)); cbn [andb]; try easy. lia.
  - cbn [sum_to]. rewrite <- (IH n) by lia.
    replace (f (Z.of_nat k)) with (sum_to n (fun i => if Z.eqb i (Z.of_nat k + s) then f (i - s)%Z else 0)).
    + rewrite <- sum_to_plus. apply sum_to_ext. intros i Hi.
      destruct (Z.eqb_spec i (Z.of_nat k + s)) as [->|N].
      * destruct (Z.leb_spec 0 (Z.of_nat k + s - s)); [|lia]. destruct (Z.ltb_spec (Z.of_nat k + s - s) (Z.of_nat (S k))); [|lia].
        destruct (Z.ltb_spec (Z.of_nat k + s - s) (Z.of_nat k)); [lia|]. cbn [andb]. lra.
      * destruct (Z.leb_spec 0 (i - s)); cbn [andb]; [|lra].
        destruct (Z.ltb_spec (i - s) (Z.of_nat (S k))); destruct (Z.ltb_spec (i - s) (Z.of_nat k)); try lra; lia.
    + rewrite sum_to_single. destruct (Z.leb_spec 0 (Z.of_nat k + s)); [|lia]. destruct (Z.ltb_spec (Z.of_nat k + s) (Z.of_nat n)); [|lia].
      cbn [andb]. f_equal. lia.
Qed.

Theorem convolution_total w h (src : Z -> Z -> R) threshold kw kh (kern : Z -> Z -> R) amplitude total :
  (0 < w)%Z -> (0 < h)%Z -> (0 < kw)%Z -> (0 < kh)%Z ->
  (forall y x, inside w h y x -> threshold < src y x ->
     (kh / 2 <= y)%Z /\ (y - kh / 2 + kh <= h)%Z /\ (kw / 2 <= x)%Z /\ (x - kw / 2 + kw <= w)%Z) ->
  sum_pixels w h (convolved w h src threshold kw kh kern amplitude total) =
  sum_pixels w h (fun y x => above threshold (src y x)) * (amplitude * sum_pixels kw kh kern / total).
Proof.
  intros Hw Hh Hkw Hkh HB. unfold convolved. rewrite sum_pixels_swap.
  rewrite (Rmult_comm (sum_pixels w h _)), <- sum_pixels_scal. apply sum_pixels_ext. intros iy ix I. cbv zeta.
  destruct (Rle_lt_dec (src iy ix) threshold) as [D|D].
  - replace (above threshold (src iy ix)) with 0 by (unfold above; symmetry; apply Rmax_right; lra).
    rewrite Rmult_0_r. unfold sum_pixels. apply sum_to_zero. intros y _. apply sum_to_zero. intros x _.
    destruct (insideb _ _ _ _); lra.
  - destruct (HB iy ix I D) as (B1 & B2 & B3 & B4). set (e := above threshold (src iy ix)).
    transitivity (e * (amplitude / total) * sum_pixels kw kh kern); [|unfold Rdiv; lra].
    unfold sum_pixels at 1 2. rewrite <- (sum_to_window (Z.to_nat h) (Z.to_nat kh) (iy - kh / 2)) by lia.
    rewrite <- sum_to_scal. apply sum_to_ext. intros y _. replace (y - (iy - kh / 2))%Z with (y - iy + kh / 2)%Z by lia.
    unfold insideb. rewrite Z2Nat.id by lia. destruct ((0 <=? y - iy + kh / 2) && (y - iy + kh / 2 <? kh))%Z%bool; cbn [andb].
    + rewrite <- (sum_to_window (Z.to_nat w) (Z.to_nat kw) (ix - kw / 2)) by lia.
      rewrite <- sum_to_scal. apply sum_to_ext. intros x _. replace (x - (ix - kw / 2))%Z with (x - ix + kw / 2)%Z by lia.
      rewrite Z2Nat.id by lia. destruct ((0 <=? x - ix + kw / 2) && (x - ix + kw / 2 <? kw))%Z%bool; lra.
    + rewrite Rmult_0_r. apply sum_to_0.
Qed.
