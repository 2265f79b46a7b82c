(** * Bloom as a function of distances in the picture *)
From Coq Require Import ZArith Reals Bool List Lia Lra.
From Flocq Require Import Core.
From Verif Require Import Num NumLaws Outcome ColorModel ObjModel TreeModel BoxProofs ImageModel ImageSpec ImageProofs PostProofs PostR PostX GlowSpec.
Import ListNotations.
Local Open Scope R_scope.

Lemma sum_to_ext n f g : (forall i, (0 <= i < Z.of_nat n)%Z -> f i = g i) -> sum_to n f = sum_to n g.
Proof. intros H. induction n as [|n IH]; [reflexivity|]. cbn [sum_to]. rewrite IH, H by (try intros; try apply H; lia). reflexivity. Qed.
Lemma sum_to_scale n c f : sum_to n (fun i => c * f i) = c * sum_to n f.
Proof. induction n as [|n IH]; cbn [sum_to]; [ring|]. rewrite IH. ring. Qed.
Lemma sum_pixels_ext w h f g : (forall y x, inside w h y x -> f y x = g y x) -> sum_pixels w h f = sum_pixels w h g.
Proof. intros H. unfold sum_pixels. apply sum_to_ext. intros y Hy. apply sum_to_ext. intros x Hx. apply H. unfold inside. lia. Qed.
Lemma sum_pixels_scale w h c f : sum_pixels w h (fun y x => c * f y x) = c * sum_pixels w h f.
Proof. unfold sum_pixels. rewrite <- sum_to_scale. apply sum_to_ext. intros y _. apply sum_to_scale. Qed.

Lemma convolved_spread w h n src threshold kern amplitude total y x : (0 <= n)%Z ->
  convolved w h src threshold (2 * n + 1) (2 * n + 1) kern amplitude total y x =
  spread w h n src threshold amplitude total (fun dy dx => kern (dy + n)%Z (dx + n)%Z) y x.
Proof.
  intros Hn. unfold convolved, spread. rewrite <- sum_pixels_scale. apply sum_pixels_ext. intros iy ix _.
  replace ((2 * n + 1) / 2)%Z with n by (apply Z.div_unique with 1%Z; lia).
  assert (E : insideb (2 * n + 1) (2 * n + 1) (y - iy + n) (x - ix + n) = ((Z.abs (y - iy) <=? n)%Z && (Z.abs (x - ix) <=? n)%Z)%bool).
  { apply eq_true_iff_eq. unfold insideb. rewrite !andb_true_iff, !Z.leb_le, !Z.ltb_lt. lia. }
  cbv zeta. rewrite E. destruct (_ && _)%bool; unfold Rdiv; ring.
Qed.

(** a kernel of known pixels *)
Lemma bloom_glows (K : hact (color R) image) H img w h f n kern H1 fk (k : Z -> Z -> color R) radius amplitude threshold :
  (0 < w)%Z -> (0 < h)%Z -> (0 <= n)%Z -> shows H img w h f -> K H = Val (kern, H1) -> keeps H H1 ->
  shows H1 kern (2 * n + 1) (2 * n + 1) fk -> (forall y x, inside (2 * n + 1) (2 * n + 1) y x -> fk y x = k (y - n)%Z (x - n)%Z) ->
  0 < kernel_total (2 * n + 1) (2 * n + 1) fk ->
  exists out H' g, bloomWith K img (Bloom radius amplitude threshold) H = Val (out, H') /\ shows H' out w h g /\ keeps H H' /\ shows H' img w h f /\
    glows w h n f g threshold amplitude k.
Proof.
  intros Hw Hh Hn S EK K1 SK Ek Tk.
  destruct (convolution_adds H1 img f w h img f kern (2 * n + 1) (2 * n + 1) fk amplitude threshold Hw Hh ltac:(lia) ltac:(lia) ltac:(lra)
    (keeps_shows _ _ _ _ _ _ Hw K1 S) (keeps_shows _ _ _ _ _ _ Hw K1 S) SK) as (out & H' & g & E & So & G & K2 & S2 & _ & _).
  exists out, H', g. split.
  { unfold bloomWith. unfold hbind at 1. rewrite EK. cbn [obind]. exact E. }
  split; [exact So|]. split; [eapply keeps_trans; eassumption|]. split; [exact S2|].
  assert (ET : sum_pixels (2 * n + 1) (2 * n + 1) (fun y x => mean3 (k (y - n)%Z (x - n)%Z)) = kernel_total (2 * n + 1) (2 * n + 1) fk).
  { unfold kernel_total. apply sum_pixels_ext. intros y x I. rewrite Ek by exact I. reflexivity. }
  unfold glows. cbv zeta. rewrite ET. split; [exact Tk|].
  intros ch C y x I. rewrite (G ch C y x I), convolved_spread by exact Hn. f_equal. unfold spread. f_equal. apply sum_pixels_ext. intros iy ix _.
  destruct ((Z.abs (y - iy) <=? n)%Z && (Z.abs (x - ix) <=? n)%Z)%bool eqn:B; [|reflexivity]. apply andb_true_iff in B. rewrite !Z.leb_le in B.
  rewrite Ek by (unfold inside; lia). replace (y - iy + n - n)%Z with (y - iy)%Z by lia. replace (x - ix + n - n)%Z with (x - ix)%Z by lia. reflexivity.
Qed.

Lemma trunc_pos x : 0 <= x -> IZR (Ztrunc x) <= x < IZR (Ztrunc x + 1) /\ (0 <= Ztrunc x)%Z.
Proof.
  intros Hx. rewrite Ztrunc_floor by exact Hx. split; [split; [apply Zfloor_lb|rewrite plus_IZR; apply Zfloor_ub]|]. apply Zfloor_lub. exact Hx.
Qed.
Lemma wrap_small z : (0 <= z < 2 ^ 61)%Z -> wrap64 z = z.
Proof. intros H. unfold wrap64. rewrite Z.mod_small; lia. Qed.

Lemma sq_nonneg_pair dy dx : 0 <= IZR dx * IZR dx + IZR dy * IZR dy.
Proof. assert (0 <= IZR dx * IZR dx) by apply Rle_0_sqr. assert (0 <= IZR dy * IZR dy) by apply Rle_0_sqr. lra. Qed.

Section Blooms.
  Variables (H : heap (color R)) (img : image) (w h : Z) (f : Z -> Z -> color R).
  Hypothesis Hw : (0 < w)%Z.
  Hypothesis Hh : (0 < h)%Z.
  Hypothesis S : shows H img w h f.
  Variables px radius amplitude threshold : R.
  Hypothesis Hp : 0 < px.
  Hypothesis Hr : 0 < radius.
  Let P0 : 0 < radius / px. Proof. apply Rdiv_lt_0_compat; assumption. Qed.

  Lemma reach_n m : 0 < m -> m * (radius / px) < IZR (2 ^ 60) -> exists n, wrap64 (Ztrunc (m * (radius / px)) + 1) = n /\ (0 <= n < 2 ^ 61)%Z /\ IZR (n - 1) <= m * (radius / px) < IZR n.
  Proof.
    intros Hm Hb. destruct (trunc_pos (m * (radius / px))) as [B N]; [apply Rlt_le, Rmult_lt_0_compat; assumption|].
    assert (L : (Ztrunc (m * (radius / px)) < 2 ^ 60)%Z) by (apply lt_IZR; lra). exists (Ztrunc (m * (radius / px)) + 1)%Z.
    split; [apply wrap_small; lia|]. split; [lia|]. replace (Ztrunc (m * (radius / px)) + 1 - 1)%Z with (Ztrunc (m * (radius / px))) by lia. exact B.
  Qed.

  Lemma gaussian_glows : 5 * (radius / px) < IZR (2 ^ 60) ->
    exists n out H' g, applyGaussianBloom img px (Bloom radius amplitude threshold) H = Val (out, H') /\ shows H' out w h g /\ keeps H H' /\ shows H' img w h f /\
      IZR (n - 1) <= 5 * (radius / px) < IZR n /\
      glows w h n f g threshold amplitude (fun dy dx => gray3 (bell (gap px dy dx / radius))).
  Proof.
    intros Hb. destruct (reach_n 5 ltac:(lra) Hb) as (n & En & Bn & In). exists n.
    destruct (kernel_ok H n (gaussianAt (radius / px)) Bn) as (k & H1 & E1 & K1 & S1).
    assert (Q : forall dy dx, gaussianAt (radius / px) (nofZ dx) (nofZ dy) = gray3 (bell (gap px dy dx / radius))).
    { intros dy dx. unfold gaussianAt, bell, gap. rnum. cbv zeta. unfold gray3.
      assert (E : (IZR dx * IZR dx + IZR dy * IZR dy) / (radius / px * (radius / px)) = px * sqrt (IZR dx * IZR dx + IZR dy * IZR dy) / radius * (px * sqrt (IZR dx * IZR dx + IZR dy * IZR dy) / radius)).
      { replace (px * sqrt (IZR dx * IZR dx + IZR dy * IZR dy) / radius * (px * sqrt (IZR dx * IZR dx + IZR dy * IZR dy) / radius)) with (px * px / (radius * radius) * (sqrt (IZR dx * IZR dx + IZR dy * IZR dy) * sqrt (IZR dx * IZR dx + IZR dy * IZR dy))) by (field; lra).
        rewrite sqrt_sqrt by apply sq_nonneg_pair. field. lra. }
      rewrite E. reflexivity. }
    destruct (bloom_glows (gaussian n (radius / px)) H img w h f n k H1 _ (fun dy dx => gray3 (bell (gap px dy dx / radius))) radius amplitude threshold Hw Hh ltac:(lia) S E1 K1 S1) as (out & H' & g & E & So & K & Si & G).
    - intros y x _. apply Q.
    - destruct (gaussian_ok H n (radius / px) Bn) as (k' & H1' & f' & E1' & _ & S1' & T). unfold gaussian in E1'. rewrite E1 in E1'. injection E1' as <- <-.
      replace (kernel_total (2 * n + 1) (2 * n + 1) _) with (kernel_total (2 * n + 1) (2 * n + 1) f'); [exact T|].
      unfold kernel_total. apply sum_pixels_ext. intros y x I. destruct S1 as (_ & _ & V1). destruct S1' as (_ & _ & V1'). specialize (V1 y x I). specialize (V1' y x I). rewrite V1 in V1'. injection V1' as <-. reflexivity.
    - exists out, H', g. split; [|split; [exact So|split; [exact K|split; [exact Si|split; [exact In|exact G]]]]].
      unfold applyGaussianBloom. rnum. cbn [bpRadius]. rewrite En. exact E.
  Qed.

  Lemma airy_glows (J1 : R -> R) : 8 * (radius / px) < IZR (2 ^ 60) ->
    exists n out H' g, applyAiryBloom J1 img px (Bloom radius amplitude threshold) H = Val (out, H') /\ shows H' out w h g /\ keeps H H' /\ shows H' img w h f /\
      IZR (n - 1) <= 8 * (radius / px) < IZR n /\
      glows w h n f g threshold amplitude (fun dy dx => Color (rings J1 (5 / 7 * (gap px dy dx / radius))) (rings J1 (gap px dy dx / radius)) (rings J1 (10 / 9 * (gap px dy dx / radius)))).
  Proof.
    intros Hb. destruct (reach_n 8 ltac:(lra) Hb) as (n & En & Bn & In). exists n.
    destruct (kernel_ok H n (airyAt J1 (radius / px)) Bn) as (k & H1 & E1 & K1 & S1).
    assert (Q : forall dy dx, airyAt J1 (radius / px) (nofZ dx) (nofZ dy) = Color (rings J1 (5 / 7 * (gap px dy dx / radius))) (rings J1 (gap px dy dx / radius)) (rings J1 (10 / 9 * (gap px dy dx / radius)))).
    { intros dy dx. unfold airyAt, airy1, nQ. rnum. cbv zeta. unfold rings, gap.
      replace (sqrt (IZR dx * IZR dx + IZR dy * IZR dy) / (radius / px)) with (px * sqrt (IZR dx * IZR dx + IZR dy * IZR dy) / radius) by (field; lra).
      set (r := px * sqrt (IZR dx * IZR dx + IZR dy * IZR dy) / radius). replace (500 / 700) with (5 / 7) by lra. replace (500 / 450) with (10 / 9) by lra. rewrite Rmult_1_l.
      unfold Reqb. destruct (Req_EM_T r 0) as [Z|Z].
      - rewrite Z. rewrite !Rmult_0_r. destruct (Req_EM_T 0 0) as [_|N]; [reflexivity|contradiction].
      - destruct (Req_EM_T (5 / 7 * r) 0) as [A|_]; [exfalso; apply Z; lra|]. destruct (Req_EM_T (10 / 9 * r) 0) as [A|_]; [exfalso; apply Z; lra|]. reflexivity. }
    destruct (bloom_glows (airy J1 n (radius / px)) H img w h f n k H1 _ (fun dy dx => Color (rings J1 (5 / 7 * (gap px dy dx / radius))) (rings J1 (gap px dy dx / radius)) (rings J1 (10 / 9 * (gap px dy dx / radius)))) radius amplitude threshold Hw Hh ltac:(lia) S E1 K1 S1) as (out & H' & g & E & So & K & Si & G).
    - intros y x _. apply Q.
    - destruct (airy_ok J1 H n (radius / px) Bn) as (k' & H1' & f' & E1' & _ & S1' & T). unfold airy in E1'. rewrite E1 in E1'. injection E1' as <- <-.
      replace (kernel_total (2 * n + 1) (2 * n + 1) _) with (kernel_total (2 * n + 1) (2 * n + 1) f'); [exact T|].
      unfold kernel_total. apply sum_pixels_ext. intros y x I. destruct S1 as (_ & _ & V1). destruct S1' as (_ & _ & V1'). specialize (V1 y x I). specialize (V1' y x I). rewrite V1 in V1'. injection V1' as <-. reflexivity.
    - exists out, H', g. split; [|split; [exact So|split; [exact K|split; [exact Si|split; [exact In|exact G]]]]].
      unfold applyAiryBloom. rnum. cbn [bpRadius]. rewrite En. exact E.
  Qed.

  (** what a list of stores leaves behind *)
  Lemma puts_other l (g : Z -> Z -> color R) y x : (forall v u c, In (v, u, c) l -> (v, u) <> (y, x)) -> applies (map putting l) g y x = g y x.
  Proof.
    revert g. induction l as [|[[v u] c] l IH]; intros g N; [reflexivity|]. cbn [map applies fold_left]. change (applies (map putting l) (apply1 g (putting (v, u, c))) y x = g y x).
    rewrite IH by (intros v' u' c' I; apply (N v' u' c'); now right). cbn [putting apply1]. unfold upd.
    destruct (Z.eqb_spec y v) as [->|]; [destruct (Z.eqb_spec x u) as [->|]|]; cbn [andb]; try reflexivity. exfalso. apply (N v u c); [now left|reflexivity].
  Qed.
  Lemma puts_same l (g : Z -> Z -> color R) y x a : (forall c, In (y, x, c) l -> c = a) -> (exists c, In (y, x, c) l) -> applies (map putting l) g y x = a.
  Proof.
    revert g. induction l as [|[[v u] c] l IH]; intros g A [c0 I]; [destruct I|]. cbn [map]. change (applies (map putting l) (apply1 g (putting (v, u, c))) y x = a).
    assert (D : (exists c, In (y, x, c) l) \/ ~ (exists c, In (y, x, c) l)).
    { clear. induction l as [|[[v u] c] l IH]; [right; intros [c []]|]. destruct IH as [[c' I]|N]; [left; exists c'; now right|].
      destruct (Z.eq_dec v y) as [->|Nv]; [destruct (Z.eq_dec u x) as [->|Nu]|].
      - left. exists c. now left.
      - right. intros [c' [E|I]]; [injection E as E1 E2; congruence|]. apply N. now exists c'.
      - right. intros [c' [E|I]]; [injection E as E1 E2; congruence|]. apply N. now exists c'. }
    destruct D as [D|N].
    - apply IH; [intros c' I'; apply A; now right|exact D].
    - rewrite puts_other by (intros v' u' c' I' E; injection E as -> ->; apply N; now exists c').
      destruct I as [I|I]; [|exfalso; apply N; now exists c0]. injection I as -> -> ->. cbn [putting apply1]. unfold upd. rewrite !Z.eqb_refl. cbn [andb]. apply A. now left.
  Qed.

  Lemma star_val n y x j (c : color R) : (4 <= n)%Z -> (2 <= j < n - 1)%Z -> In (y, x, c) (starPuts n j) ->
    j = Z.max (Z.abs (y - n)) (Z.abs (x - n)) /\ ((y - n = 0)%Z \/ (x - n = 0)%Z \/ Z.abs (y - n) = Z.abs (x - n)) /\ c = gray3 (star n (y - n) (x - n)).
  Proof.
    intros Hn Hj I. unfold starPuts in I. cbv zeta in I. unfold nQ, clmul in I. cbn [cR cG cB] in I.
    assert (A : forall a b, Z.max (Z.abs a) (Z.abs b) = j -> (a = 0)%Z \/ (b = 0)%Z -> Color (IZR (n - j) / IZR n * (IZR (n - j) / IZR n)) (IZR (n - j) / IZR n * (IZR (n - j) / IZR n)) (IZR (n - j) / IZR n * (IZR (n - j) / IZR n)) = gray3 (star n a b)).
    { intros a b E Z. unfold star. cbv zeta. rewrite E. replace (2 <=? j)%Z with true by lia. replace (j <? n - 1)%Z with true by lia. cbn [andb].
      replace ((a =? 0)%Z || (b =? 0)%Z)%bool with true by lia. unfold gray3. cbn [pow]. rewrite Rmult_1_r. reflexivity. }
    assert (B : forall a b, Z.abs a = j -> Z.abs b = j -> Color (sqrt (1 / 2) * (IZR (n - j) / IZR n * (IZR (n - j) / IZR n))) (sqrt (1 / 2) * (IZR (n - j) / IZR n * (IZR (n - j) / IZR n))) (sqrt (1 / 2) * (IZR (n - j) / IZR n * (IZR (n - j) / IZR n))) = gray3 (star n a b)).
    { intros a b E Z. unfold star. cbv zeta. rewrite E, Z, Z.max_id. replace (2 <=? j)%Z with true by lia. replace (j <? n - 1)%Z with true by lia. cbn [andb].
      replace ((a =? 0)%Z || (b =? 0)%Z)%bool with false by lia. rewrite Z.eqb_refl. unfold gray3. cbn [pow]. rewrite Rmult_1_r. reflexivity. }
    destruct I as [I|[I|[I|[I|[I|[I|[I|[I|I]]]]]]]]; [..|destruct I]; injection I as I1 I2 I3; (split; [lia|split; [lia|]]); rewrite <- I3; [apply A; lia|apply A; lia|apply A; lia|apply A; lia|apply B; lia|apply B; lia|apply B; lia|apply B; lia].
  Qed.
  Lemma star_in n y x : let i := Z.max (Z.abs (y - n)) (Z.abs (x - n)) in ((y - n = 0)%Z \/ (x - n = 0)%Z \/ Z.abs (y - n) = Z.abs (x - n)) ->
    exists c : color R, In (y, x, c) (starPuts n i).
  Proof.
    intros i C. unfold starPuts. cbv zeta. cbn [In].
    assert (K1 : (y - n = 0)%Z -> (x = n + i \/ x = n - i)%Z) by (unfold i; clear; lia).
    assert (K2 : (x - n = 0)%Z -> (y = n + i \/ y = n - i)%Z) by (unfold i; clear; lia).
    assert (K3 : Z.abs (y - n) = Z.abs (x - n) -> (y = n + i \/ y = n - i)%Z /\ (x = n + i \/ x = n - i)%Z) by (unfold i; clear; lia).
    clearbody i. destruct C as [C|[C|C]]; [assert (y = n) as E by (clear - C; lia)|assert (x = n) as E by (clear - C; lia)|].
    - destruct (K1 C) as [K|K]; rewrite E, K; eexists; [left; reflexivity|right; left; reflexivity].
    - destruct (K2 C) as [K|K]; rewrite E, K; eexists; [do 2 right; left; reflexivity|do 3 right; left; reflexivity].
    - destruct (K3 C) as [[Ky|Ky] [Kx|Kx]]; rewrite Ky, Kx; eexists; [do 4 right; left; reflexivity|do 6 right; left; reflexivity|do 7 right; left; reflexivity|do 5 right; left; reflexivity].
  Qed.
  Lemma star_at n y x : (4 <= n)%Z -> applies (map putting (flat_map (starPuts n) (zr 2 (Z.to_nat (n - 3))))) (fun _ _ => black) y x = gray3 (star n (y - n) (x - n)).
  Proof.
    intros Hn. set (l := flat_map _ _).
    assert (M : forall v u c, In (v, u, c) l <-> exists i, (2 <= i < n - 1)%Z /\ In (v, u, c) (starPuts n i)).
    { intros v u c. unfold l. rewrite in_flat_map. split; intros (i & I1 & I2); exists i; (split; [|exact I2]); [apply zr_In in I1; lia|apply zr_In; lia]. }
    clearbody l. set (i := Z.max (Z.abs (y - n)) (Z.abs (x - n))).
    assert (D : ((2 <= i < n - 1)%Z /\ ((y - n = 0)%Z \/ (x - n = 0)%Z \/ Z.abs (y - n) = Z.abs (x - n))) \/ ~ ((2 <= i < n - 1)%Z /\ ((y - n = 0)%Z \/ (x - n = 0)%Z \/ Z.abs (y - n) = Z.abs (x - n)))) by lia.
    destruct D as [[B C]|N].
    - apply puts_same.
      + intros c I. apply M in I. destruct I as (j & Hj & I). now apply (star_val n y x j c Hn Hj I).
      + destruct (star_in n y x C) as [c Ic]. exists c. apply M. exists i. split; [exact B|exact Ic].
    - rewrite puts_other.
      + unfold black, gray3, star. cbv zeta. fold i.
        destruct ((2 <=? i)%Z && (i <? n - 1)%Z)%bool eqn:B1; [|reflexivity].
        destruct ((y - n =? 0)%Z || (x - n =? 0)%Z)%bool eqn:B2; [exfalso; apply N; lia|]. destruct (Z.abs (y - n) =? Z.abs (x - n))%Z eqn:B3; [exfalso; apply N; lia|reflexivity].
      + intros v u c I E. injection E as -> ->. apply M in I. destruct I as (j & Hj & I). destruct (star_val n y x j c Hn Hj I) as (E & C & _). apply N. unfold i. rewrite <- E. split; assumption.
  Qed.

  Lemma star_glows : 4 <= radius / px < IZR (2 ^ 60) ->
    exists n out H' g, applyStarBloom img px (Bloom radius amplitude threshold) H = Val (out, H') /\ shows H' out w h g /\ keeps H H' /\ shows H' img w h f /\
      IZR n <= radius / px < IZR (n + 1) /\
      glows w h n f g threshold amplitude (fun dy dx => gray3 (star n dy dx)).
  Proof.
    intros Hb. destruct (trunc_pos (radius / px)) as [B N]; [lra|]. set (n := Ztrunc (radius / px)) in *. exists n.
    assert (Bn : (4 <= n < 2 ^ 61)%Z).
    { split; [assert (4 < n + 1)%Z by (apply lt_IZR; lra); lia|]. assert (n < 2 ^ 60)%Z by (apply lt_IZR; lra). lia. }
    destruct (starKernel_ok H n ltac:(lia)) as (k & H1 & E1 & K1 & S1).
    destruct (bloom_glows (starKernel n) H img w h f n k H1 _ (fun dy dx => gray3 (star n dy dx)) radius amplitude threshold Hw Hh ltac:(lia) S E1 K1 S1) as (out & H' & g & E & So & K & Si & G).
    - intros y x _. apply star_at. lia.
    - destruct (star_ok H n Bn) as (k' & H1' & f' & E1' & _ & S1' & T). rewrite E1 in E1'. injection E1' as <- <-.
      replace (kernel_total (2 * n + 1) (2 * n + 1) _) with (kernel_total (2 * n + 1) (2 * n + 1) f'); [exact T|].
      unfold kernel_total. apply sum_pixels_ext. intros y x I. destruct S1 as (_ & _ & V1). destruct S1' as (_ & _ & V1'). specialize (V1 y x I). specialize (V1' y x I). rewrite V1 in V1'. injection V1' as <-. reflexivity.
    - exists out, H', g. split; [|split; [exact So|split; [exact K|split; [exact Si|split; [exact B|exact G]]]]].
      unfold applyStarBloom. rnum. cbn [bpRadius]. exact E.
  Qed.
End Blooms.
