(** * Post-processing: finiteness, and what happens to the input *)
From Coq Require Import ZArith Reals Bool List Lia Lra.
From Verif Require Import Num NumLaws Outcome ColorModel ObjModel TreeModel BoxProofs ImageModel ImageSpec ImageProofs PostProofs PostR.
Import ListNotations.
Local Open Scope Z_scope.

(** ** Finite input gives finite output, unless the kernel sum is 0 *)

Lemma injc_add c d : cladd (injc c) (injc d) = injc (cladd c d).
Proof. reflexivity. Qed.
Lemma injc_mul3 c d : clmul3 (injc c) (injc d) = injc (clmul3 c d).
Proof. reflexivity. Qed.
Lemma injc_mul c s : clmul (injc c) (XF s) = injc (clmul c s).
Proof. reflexivity. Qed.
Lemma re_XF a : re (XF a) = XF (re a).
Proof. unfold re, umax. cbn. now destruct (Rltb 0 a). Qed.
Lemma injc_excess off c : excess (XF off) (injc c) = injc (excess off c).
Proof.
  unfold excess, injc. cbn [cR cG cB].
  change (XF (cR c) - XF off)%num with (XF (cR c - off)). change (XF (cG c) - XF off)%num with (XF (cG c - off)).
  change (XF (cB c) - XF off)%num with (XF (cB c - off)). rewrite !re_XF. reflexivity.
Qed.
Lemma injc_max c : clmax (injc c) = XF (clmax c).
Proof.
  unfold clmax, injc. cbn [cR cG cB nltb NumX NumR xltb]. destruct (Rltb (cR c) (cG c)); cbn [xltb]; destruct (Rltb _ (cB c)); reflexivity.
Qed.

Lemma graySum_X kw kh fk : graySum kw kh (injf fk) = XF (graySum kw kh fk).
Proof.
  assert (D : forall a, xdiv (XF a) (XF 3) = XF (a / 3)).
  { intros a. unfold xdiv. destruct (Req_EM_T 3 0); [lra|easy]. }
  assert (S : forall y x s, grayStep (injf fk) y x (XF s) = XF (grayStep fk y x s)).
  { intros y x s. unfold grayStep, injf, injc. cbn [cR cG cB]. cbn [nadd ndiv nofZ NumX NumR xadd]. rewrite D. reflexivity. }
  assert (Row : forall y l s, fold_left (fun s x => grayStep (injf fk) y x s) l (XF s) = XF (fold_left (fun s x => grayStep fk y x s) l s)).
  { intros y l. induction l as [|x l IH]; intros s; [easy|]. cbn [fold_left]. now rewrite S, IH. }
  unfold graySum, foldPixels. cbn [nofZ NumX NumR]. generalize (zr 0 (Z.to_nat kh)) as l. generalize (IZR 0) as s. intros s l. revert s.
  induction l as [|y l IH]; intros s; [easy|]. cbn [fold_left]. now rewrite Row, IH.
Qed.

Definition injAdd (u : @addend R) : @addend xr := let '(y, x, c) := u in (y, x, injc c).
Lemma splatAdds_X w h kw kh kdx kdy iy ix c fk :
  splatAdds w h kw kh kdx kdy iy ix (injc c) (injf fk) = map injAdd (splatAdds w h kw kh kdx kdy iy ix c fk).
Proof.
  unfold splatAdds. rewrite map_flat_map. apply flat_map_ext. intros iky. destruct (outside h (iy + iky - kdy)); [easy|].
  rewrite map_flat_map. apply flat_map_ext. intros ikx. destruct (outside w (ix + ikx - kdx)); [easy|].
  cbn [map injAdd]. unfold injf. now rewrite injc_mul3.
Qed.
Lemma convAdds_X w h kw kh fs off fk :
  convAdds w h kw kh (injf fs) (XF off) (injf fk) = map injAdd (convAdds w h kw kh fs off fk).
Proof.
  unfold convAdds. rewrite map_flat_map. apply flat_map_ext. intros iy. rewrite map_flat_map. apply flat_map_ext. intros ix.
  unfold injf at 1. rewrite injc_max. cbn [nltb NumX NumR xltb]. destruct (Rltb (clmax (fs iy ix)) off); [easy|].
  unfold injf at 1. rewrite injc_excess. apply splatAdds_X.
Qed.
Lemma applies_X l : forall g y x, applies (map adding (map injAdd l)) (injf g) y x = injc (applies (map adding l) g y x).
Proof.
  assert (E : forall l g g', (forall y x, g y x = g' y x) -> forall y x, applies (map (@adding xr NumX) l) g y x = applies (map adding l) g' y x).
  { clear. induction l as [|[[v u] c] l IH]; intros g g' H y x; [apply H|]. cbn [map]. unfold applies. cbn [fold_left].
    apply IH. intros y' x'. cbn [adding apply1]. unfold upd. now rewrite !H. }
  induction l as [|[[v u] c] l IH]; intros g y x; [reflexivity|].
  cbn [map]. unfold applies. cbn [fold_left]. fold (applies (map adding l) (apply1 g (adding (v, u, c)))). rewrite <- IH.
  apply E. intros y' x'. cbn [injAdd adding apply1]. unfold upd, injf. destruct ((y' =? v) && (x' =? u))%bool; [now rewrite injc_add|easy].
Qed.

(** any program [K] that makes the kernel *)
Theorem bloom_finite (K : hact (color xr) image) (H H1 : heap (color xr)) img w h f kern kw kh fk radius amplitude threshold :
  0 < w -> 0 < h -> 0 < kw -> 0 < kh -> shows H img w h (injf f) ->
  K H = Val (kern, H1) -> keeps H H1 -> shows H1 kern kw kh (injf fk) -> kernel_total kw kh fk <> 0%R ->
  exists out H2 g, bloomWith K img (Bloom (XF radius) (XF amplitude) (XF threshold)) H = Val (out, H2) /\
    shows H2 out w h (injf g) /\ keeps H H2 /\ shows H2 img w h (injf f).
Proof.
  intros Hw Hh Hkw Hkh HS EK K1 HK HT. unfold bloomWith. unfold hbind at 1. rewrite EK. cbn [obind bpAmplitude bpThreshold].
  assert (HS1 : shows H1 img w h (injf f)) by (now apply (keeps_shows H)).
  destruct (bloom_ok H1 img (injf f) w h img (injf f) kern kw kh (injf fk) (XF amplitude) (XF threshold) Hw Hh Hkw Hkh HS1 HS1 HK) as (H2 & E2 & HH2 & K2).
  exists (rowsAt (length H1) w h), H2, (applies (map adding (convAdds w h kw kh f threshold (fun y x => clmul (fk y x) (amplitude / graySum kw kh fk)%R))) f).
  assert (LH : (length H <= length H1)%nat).
  { destruct (Nat.le_gt_cases (length H) (length H1)) as [L|L]; [easy|]. specialize (K1 (length H1) L).
    rewrite (proj2 (nth_error_None H1 (length H1))) in K1 by lia. symmetry in K1. apply nth_error_None in K1. lia. }
  assert (K3 : keeps H H2). { intros b Hb. rewrite K2 by lia. now apply K1. }
  split; [exact E2|]. split; [|split; [easy|now apply (keeps_shows H)]].
  apply holds_shows; [lia|lia|]. eapply holds_ext; [|exact HH2]. intros y x I. unfold injf at 5. rewrite <- applies_X, <- convAdds_X.
  f_equal. f_equal. f_equal. rewrite graySum_X. cbn [ndiv NumX xdiv]. rewrite graySum_R.
  destruct (Req_EM_T (kernel_total kw kh fk) 0) as [E|N]; [easy|]. reflexivity.
Qed.

(** ** The input is left alone *)
Section Input.
  Context {F : Type} `{NF : Num F}.
  Notation heap := (heap (color F)).

  Lemma keeps_refl (H : heap) : keeps H H.
  Proof. intros b _. reflexivity. Qed.
  Lemma keeps_length (H H' : heap) : keeps H H' -> (length H <= length H')%nat.
  Proof.
    intros K. destruct (Nat.le_gt_cases (length H) (length H')) as [L|L]; [easy|]. specialize (K (length H') L).
    rewrite (proj2 (nth_error_None H' (length H'))) in K by lia. symmetry in K. apply nth_error_None in K. lia.
  Qed.
  Lemma keeps_trans (H1 H2 H3 : heap) : keeps H1 H2 -> keeps H2 H3 -> keeps H1 H3.
  Proof. intros K1 K2 b Hb. pose proof (keeps_length _ _ K1). rewrite K2 by lia. now apply K1. Qed.

  (** [p] only changes arrays numbered [n] and up, and its result satisfies [Q] *)
  Definition above_only (n : nat) {B} (p : hact (color F) B) (Q : B -> Prop) : Prop :=
    forall H b H', (n <= length H)%nat -> p H = Val (b, H') ->
      (length H <= length H')%nat /\ (forall i, (i < n)%nat -> nth_error H' i = nth_error H i) /\ Q b.
  Definition any {B} (_ : B) : Prop := True.

  Lemma above_ret n {B} (b : B) (Q : B -> Prop) : Q b -> above_only n (hret b) Q.
  Proof. intros HQ H b' H' L E. injection E as <- <-. easy. Qed.
  Lemma above_lift n {B} (o : outcome B) : above_only n (hlift o) any.
  Proof. intros H b' H' L E. unfold hlift in E. destruct o; cbn [omap] in E; try easy. injection E as -> ->. easy. Qed.
  Lemma above_bind n {B C} (p : hact (color F) B) (q : B -> hact (color F) C) Q R :
    above_only n p Q -> (forall b, Q b -> above_only n (q b) R) -> above_only n (hbind p q) R.
  Proof.
    intros HP HQ H c H' L E. unfold hbind in E. destruct (p H) as [[b H1]| |] eqn:E1; cbn [obind] in E; try easy.
    destruct (HP H b H1 L E1) as (L1 & K1 & Qb). destruct (HQ b Qb H1 c H' ltac:(lia) E) as (L2 & K2 & Rc). split; [lia|]. split; [|easy].
    intros i Hi. rewrite K2, K1 by easy. reflexivity.
  Qed.
  Lemma above_for n {S} m : forall i0 (body : Z -> S -> hact (color F) S) s, (forall i s, above_only n (body i s) any) -> above_only n (hfor m i0 body s) any.
  Proof.
    induction m as [|m IH]; intros i0 body s HB; [now apply above_ret|]. cbn [hfor]. eapply above_bind; [apply HB|]. intros b _. now apply IH.
  Qed.
  Lemma above_loop n m (body : Z -> hact (color F) unit) : (forall i, above_only n (body i) any) -> above_only n (hloop m body) any.
  Proof. intros HB. apply above_for. intros i _. apply HB. Qed.
  Lemma above_get n img y x : above_only n (getPix img y x : hact (color F) _) any.
  Proof.
    eapply above_bind; [apply above_lift|]. intros row _ H b H' L E. unfold loadAt in E.
    destruct ((x <? 0) || (slLen row <=? x))%bool; [easy|]. destruct (nth_error H (slArr row)); [|easy].
    destruct (getZ l (slOff row + x)); cbn [omap] in E; try easy. injection E as -> ->. easy.
  Qed.
  Definition all_above (n : nat) (img : image) : Prop := Forall (fun row => (n <= slArr row)%nat) img.
  Lemma above_set n img y x (v : color F) : all_above n img -> above_only n (setPix img y x v) any.
  Proof.
    intros HA H b H' L E. unfold setPix, hbind, hlift in E. destruct (getZ img y) as [row| |] eqn:G; cbn [omap obind] in E; try easy.
    destruct (getZ_inv _ _ _ G) as [_ NE]. apply nth_error_In in NE. unfold all_above in HA. rewrite Forall_forall in HA. specialize (HA row NE).
    destruct b. split; [rewrite (storeAt_length _ _ _ _ _ E); lia|]. split; [|easy]. intros i Hi. apply (storeAt_other _ _ _ _ _ _ E). lia.
  Qed.
  Lemma above_over n {S} img (body : Z -> Z -> S -> hact (color F) S) s : (forall y x s, above_only n (body y x s) any) -> above_only n (overPixels img body s) any.
  Proof.
    intros HB. apply above_for. intros y s'. eapply above_bind; [apply above_lift|]. intros row _. apply above_for. intros x s''. apply HB.
  Qed.

  Lemma rowsOf_arr s w n : forall i img, rowsOf s w n i = Val img -> Forall (fun row => slArr row = slArr s) img.
  Proof.
    induction n as [|n IH]; intros i img E; cbn [rowsOf] in E.
    - injection E as <-. constructor.
    - destruct (subslice s (i * w) ((i + 1) * w)) as [row| |] eqn:R; cbn [obind] in E; try easy.
      destruct (rowsOf s w n (i + 1)) as [rest| |] eqn:RR; cbn [omap] in E; try easy. injection E as <-.
      constructor; [|now apply (IH (i + 1))]. unfold subslice in R. destruct (_ && _)%bool in R; [|easy]. now injection R as <-.
  Qed.
  Lemma above_make n (zero : color F) w h : above_only n (makeImage zero w h) (all_above n).
  Proof.
    intros H img H1 L M.
    unfold makeImage, hbind, alloc in M. destruct (w * h <? 0); [easy|]. cbn [obind] in M. destruct (h <? 0); [easy|].
    unfold hlift in M. destruct (rowsOf _ _ _ _) as [im| |] eqn:R; cbn [omap] in M; try easy. injection M as -> <-.
    apply rowsOf_arr in R. cbn [slArr] in R. rewrite app_length. split; [lia|]. split.
    - intros i Hi. now rewrite nth_error_app1 by lia.
    - unfold all_above. eapply Forall_impl; [|exact R]. cbn. intros row ->. lia.
  Qed.
  Lemma above_copy n (img : image) : above_only n (copyImage (black : color F) img) (all_above n).
  Proof.
    unfold copyImage. destruct (imgSize img) as [w h]. eapply above_bind; [apply above_make|]. intros cpy HA.
    eapply above_bind.
    - apply above_loop. intros y. apply above_loop. intros x. eapply above_bind; [apply above_get|]. intros c _. now apply above_set.
    - intros _ _. now apply above_ret.
  Qed.
  Lemma above_scaled n kern factor : above_only n (scaledKernel kern factor : hact (color F) _) any.
  Proof.
    unfold scaledKernel. eapply above_bind; [apply above_copy|]. intros k HA. eapply above_bind.
    - apply above_over. intros y x _. eapply above_bind; [apply above_get|]. intros c _. now apply above_set.
    - intros _ _. now apply above_ret.
  Qed.
  Lemma above_splat n dst k w h kw kh kdx kdy ix iy (c : color F) : all_above n dst -> above_only n (splat dst k w h kw kh kdx kdy ix iy c) any.
  Proof.
    intros HA. apply above_loop. intros iky. cbv zeta. destruct (_ || _)%bool; [now apply above_ret|].
    apply above_loop. intros ikx. destruct (_ || _)%bool; [now apply above_ret|].
    eapply above_bind; [apply above_get|]. intros d _. eapply above_bind; [apply above_get|]. intros kc _. now apply above_set.
  Qed.
  Lemma above_conv n dst src kern (amplitude offset : F) : all_above n dst -> above_only n (addConvolution dst src kern amplitude offset) any.
  Proof.
    intros HA. unfold addConvolution. destruct (imgSize src) as [w h]. destruct (imgSize kern) as [kw kh]. cbv zeta.
    eapply above_bind.
    { apply above_over. intros y x s. eapply above_bind; [apply above_get|]. intros c _. now apply above_ret. }
    intros sum _. eapply above_bind; [apply above_scaled|]. intros k _. apply above_loop. intros y. apply above_loop. intros x.
    eapply above_bind; [apply above_get|]. intros c _. destruct (clmax c <? offset)%num; [now apply above_ret|]. now apply above_splat.
  Qed.
  Lemma above_bloom n K img (b : bloomParams F) : above_only n K any -> above_only n (bloomWith K img b) any.
  Proof.
    intros HK. unfold bloomWith. eapply above_bind; [exact HK|]. intros kern _. eapply above_bind; [apply above_copy|]. intros img2 HA.
    eapply above_bind; [now apply above_conv|]. intros _ _. now apply above_ret.
  Qed.
  Lemma above_kernel n pixels f : above_only n (kernel pixels f : hact (color F) _) any.
  Proof.
    unfold kernel. cbv zeta. eapply above_bind; [apply above_make|]. intros k HA. eapply above_bind.
    - apply above_loop. intros y. apply above_loop. intros x. now apply above_set.
    - intros _ _. now apply above_ret.
  Qed.
  Lemma above_star n pixels : above_only n (starKernel pixels : hact (color F) _) any.
  Proof.
    unfold starKernel. cbv zeta. eapply above_bind; [apply above_make|]. intros k HA. eapply above_bind.
    - apply above_for. intros i _. unfold starBody. cbv zeta.
      repeat (eapply above_bind; [now apply above_set|]; intros _ _). now apply above_set.
    - intros _ _. now apply above_ret.
  Qed.

  Context `{TF : Trig F}.
  Variable bessel1 : F -> F.
  Theorem applyTo_keeps (p : postParams F) img pixelSize (H H' : heap) out :
    applyTo bessel1 p img pixelSize H = Val (out, H') -> keeps H H'.
  Proof.
    assert (A : above_only (length H) (applyTo bessel1 p img pixelSize) any).
    { unfold applyTo. apply (above_bind _ _ _ any); [|intros img1 _; apply (above_bind _ _ _ any); [|intros img2 _]].
      - destruct (negb _); [|now apply above_ret]. unfold applyGaussianBloom. cbv zeta. apply above_bloom, above_kernel.
      - destruct (negb _); [|now apply above_ret]. unfold applyAiryBloom. cbv zeta. apply above_bloom, above_kernel.
      - destruct (negb _); [|now apply above_ret]. unfold applyStarBloom. apply above_bloom, above_star. }
    intros E. destruct (A H out H' ltac:(lia) E) as (_ & K & _). exact K.
  Qed.
  Theorem applyTo_zero (p : postParams F) img pixelSize (H : heap) :
    (bpRadius (ppGaussian p) =? #0)%num = true -> (bpRadius (ppAiry p) =? #0)%num = true -> (bpRadius (ppStar p) =? #0)%num = true ->
    applyTo bessel1 p img pixelSize H = Val (img, H).
  Proof. intros E1 E2 E3. unfold applyTo. rewrite E1, E2, E3. reflexivity. Qed.
End Input.

(** ** The kernels *)
Section Kernels.
  Context {F : Type} `{NF : Num F}.
  Notation heap := (heap (color F)).

  Lemma wrap64_small z : 0 <= z < 2 ^ 61 -> wrap64 (2 * z + 1) = 2 * z + 1.
  Proof. intros H. unfold wrap64. rewrite Z.mod_small; lia. Qed.

  Lemma kernel_ok (H : heap) pixels f : 0 <= pixels < 2 ^ 61 ->
    exists k H', kernel pixels f H = Val (k, H') /\ keeps H H' /\
      shows H' k (2 * pixels + 1) (2 * pixels + 1) (fun y x => f (nofZ (x - pixels)) (nofZ (y - pixels))).
  Proof.
    intros Hp. unfold kernel. rewrite wrap64_small by lia. cbv zeta.
    replace (Z.quot (2 * pixels + 1) 2) with pixels by (rewrite Z.quot_div_nonneg by lia; apply Z.div_unique with 1; lia).
    set (n := 2 * pixels + 1) in *. destruct (makeImage_ok black n n H ltac:(lia) ltac:(lia)) as [EM HM].
    unfold hbind at 1. rewrite EM. cbn [obind]. set (H1 := appended H _) in *.
    match goal with |- context[hbind ?p ?k H1] => assert (P : performs (length H) n n H1 p (allPixels n n (fun y x _ => f (nofZ (x - pixels)) (nofZ (y - pixels))))) end.
    { apply performs_all. intros y x I. now apply performs_set. }
    destruct (P H1 _ HM (sameBut_refl _ _)) as (H2 & E & HH & SB). unfold hbind. rewrite E. cbn [obind hret].
    exists (rowsAt (length H) n n), H2. split; [easy|]. split; [exact (proj2 (extends_new _ _ _ SB))|].
    apply holds_shows; [lia|lia|]. eapply holds_ext; [|exact HH]. intros y x I. now rewrite applies_all.
  Qed.

  (** changes that store given colors *)
  Definition putting (u : addend) : change := let '(y, x, c) := u in (y, x, fun _ : color F => c).
  Definition starPuts (p i : Z) : list addend :=
    let s := (#(p - i) / #p)%num in
    let v := (s * s)%num in
    let col := Color v v v in
    let dim := clmul col (nsqrt (nQ 1 2)) in
    [(p, p + i, col); (p, p - i, col); (p + i, p, col); (p - i, p, col);
     (p + i, p + i, dim); (p - i, p - i, dim); (p + i, p - i, dim); (p - i, p + i, dim)].
  Lemma starBody_performs a p (H0 : heap) i : 0 <= i <= p ->
    performs a (2 * p + 1) (2 * p + 1) H0 (starBody p (rowsAt a (2 * p + 1) (2 * p + 1)) i) (map putting (starPuts p i)).
  Proof.
    intros Hi. unfold starBody, starPuts. cbv zeta. cbn [map putting].
    do 7 (apply (performs_bind _ _ _ _ _ _ [_]); [apply performs_set; unfold inside; lia|]).
    apply performs_set. unfold inside. lia.
  Qed.
  Lemma starKernel_ok (H : heap) p : 0 <= p < 2 ^ 61 ->
    exists k H', starKernel p H = Val (k, H') /\ keeps H H' /\
      shows H' k (2 * p + 1) (2 * p + 1) (applies (map putting (flat_map (starPuts p) (zr 2 (Z.to_nat (p - 3))))) (fun _ _ => black)).
  Proof.
    intros Hp. unfold starKernel. rewrite wrap64_small by lia. cbv zeta.
    set (n := 2 * p + 1) in *. destruct (makeImage_ok black n n H ltac:(lia) ltac:(lia)) as [EM HM].
    unfold hbind at 1. rewrite EM. cbn [obind]. set (H1 := appended H _) in *.
    replace (p - 1 - 2) with (p - 3) by lia.
    match goal with |- context[hbind ?q ?k H1] => assert (P : performs (length H) n n H1 q (map putting (flat_map (starPuts p) (zr 2 (Z.to_nat (p - 3)))))) end.
    { rewrite map_flat_map. apply performs_for. intros i Hi. apply starBody_performs. lia. }
    destruct (P H1 _ HM (sameBut_refl _ _)) as (H2 & E & HH & SB). unfold hbind. rewrite E. cbn [obind hret].
    exists (rowsAt (length H) n n), H2. split; [easy|]. split; [exact (proj2 (extends_new _ _ _ SB))|].
    apply holds_shows; [lia|lia|exact HH].
  Qed.
End Kernels.

Local Open Scope R_scope.
Definition nonneg (c : color R) : Prop := 0 <= cR c /\ 0 <= cG c /\ 0 <= cB c.
Definition bright (c : color R) : Prop := 0 < cR c /\ 0 < cG c /\ 0 < cB c.
Lemma sum_to_nonneg n f : (forall i, (0 <= i < Z.of_nat n)%Z -> 0 <= f i) -> 0 <= sum_to n f.
Proof.
  induction n as [|n IH]; intros H; cbn [sum_to]; [lra|]. pose proof (H (Z.of_nat n) ltac:(lia)).
  pose proof (IH ltac:(intros; apply H; lia)). lra.
Qed.
Lemma sum_to_pos n f j : (forall i, (0 <= i < Z.of_nat n)%Z -> 0 <= f i) -> (0 <= j < Z.of_nat n)%Z -> 0 < f j -> 0 < sum_to n f.
Proof.
  induction n as [|n IH]; intros H Hj P; [lia|]. cbn [sum_to]. destruct (Z.eq_dec j (Z.of_nat n)) as [->|N].
  - pose proof (sum_to_nonneg n f ltac:(intros; apply H; lia)). lra.
  - pose proof (IH ltac:(intros; apply H; lia) ltac:(lia) P). pose proof (H (Z.of_nat n) ltac:(lia)). lra.
Qed.
Lemma kernel_total_pos w h f y x : (forall y x, inside w h y x -> nonneg (f y x)) -> inside w h y x -> bright (f y x) -> 0 < kernel_total w h f.
Proof.
  intros HN I B. unfold kernel_total, sum_pixels. apply (sum_to_pos _ _ y).
  - intros i Hi. apply sum_to_nonneg. intros j Hj. destruct (HN i j ltac:(unfold inside; lia)) as (A1 & A2 & A3). lra.
  - destruct I. lia.
  - apply (sum_to_pos _ _ x).
    + intros j Hj. destruct (HN y j) as (A1 & A2 & A3); [destruct I; unfold inside; lia|]. lra.
    + destruct I. lia.
    + destruct B as (B1 & B2 & B3). lra.
Qed.

Lemma gaussian_ok (H : heap (color R)) pixels width : (0 <= pixels < 2 ^ 61)%Z ->
  exists k H' f, gaussian pixels width H = Val (k, H') /\ keeps H H' /\ shows H' k (2 * pixels + 1) (2 * pixels + 1) f /\
    0 < kernel_total (2 * pixels + 1) (2 * pixels + 1) f.
Proof.
  intros Hp. destruct (kernel_ok H pixels (gaussianAt width) Hp) as (k & H' & E & K & S). exists k, H'. eexists. split; [exact E|].
  split; [exact K|]. split; [exact S|].
  assert (P : forall u v, bright (gaussianAt width u v)).
  { intros u v. unfold gaussianAt, bright. cbn [cR cG cB]. rnum. split; [|split]; apply exp_pos. }
  apply (kernel_total_pos _ _ _ 0%Z 0%Z).
  - intros y x _. destruct (P (nofZ (x - pixels)) (nofZ (y - pixels))) as (A1 & A2 & A3). split; [|split]; lra.
  - unfold inside. lia.
  - apply P.
Qed.
Lemma airy_ok bessel1 (H : heap (color R)) pixels width : (0 <= pixels < 2 ^ 61)%Z ->
  exists k H' f, airy bessel1 pixels width H = Val (k, H') /\ keeps H H' /\ shows H' k (2 * pixels + 1) (2 * pixels + 1) f /\
    0 < kernel_total (2 * pixels + 1) (2 * pixels + 1) f.
Proof.
  intros Hp. destruct (kernel_ok H pixels (airyAt bessel1 width) Hp) as (k & H' & E & K & S). exists k, H'. eexists. split; [exact E|].
  split; [exact K|]. split; [exact S|].
  assert (Sq : forall r, 0 <= airy1 bessel1 r).
  { intros r. unfold airy1. cbv zeta. rnum. apply Rle_0_sqr. }
  apply (kernel_total_pos _ _ _ pixels pixels).
  - intros y x _. unfold airyAt. cbv zeta. destruct (_ =? #0)%num; unfold nonneg; cbn [cR cG cB]; [rnum; lra|]. now split; [|split].
  - unfold inside. lia.
  - unfold airyAt. cbv zeta. rewrite Z.sub_diag. rnum.
    replace (R_sqrt.sqrt (0 * 0 + 0 * 0)) with 0 by (rewrite Rmult_0_l, Rplus_0_l; now rewrite sqrt_0).
    replace (0 / width) with 0 by (unfold Rdiv; lra). destruct (Reqb_spec 0 0); [|lra]. unfold bright. cbn [cR cG cB]. lra.
Qed.

Lemma applies_putting (P : color R -> Prop) l y x : (forall v u c, In (v, u, c) l -> P c) ->
  forall g, P (g y x) \/ (exists c, In (y, x, c) l) -> P (applies (map putting l) g y x).
Proof.
  induction l as [|[[v u] c] l IH]; intros HP g [Hg|[c' I]]; try easy.
  - cbn [map]. unfold applies. cbn [fold_left]. apply IH; [intros; eapply HP; right; eauto|]. left.
    cbn [putting apply1]. unfold upd. destruct (_ && _)%bool; [eapply HP; left; reflexivity|easy].
  - cbn [map]. unfold applies. cbn [fold_left]. apply IH; [intros; eapply HP; right; eauto|]. destruct I as [I|I].
    + left. injection I as -> -> ->. cbn [putting apply1]. unfold upd. rewrite !Z.eqb_refl. cbn [andb]. eapply HP. left. reflexivity.
    + right. now exists c'.
Qed.
Lemma starPuts_bright p i v u c : (2 <= i < p)%Z -> In (v, u, c) (starPuts p i) -> bright c.
Proof.
  intros Hi I. assert (S : 0 < IZR (p - i) / IZR p). { apply Rdiv_lt_0_compat; apply IZR_lt; lia. }
  assert (Q : 0 < R_sqrt.sqrt (1 / 2)). { apply sqrt_lt_R0. lra. }
  assert (S2 : 0 < IZR (p - i) / IZR p * (IZR (p - i) / IZR p)) by (apply Rmult_lt_0_compat; lra).
  assert (D : 0 < R_sqrt.sqrt (1 / 2) * (IZR (p - i) / IZR p * (IZR (p - i) / IZR p))) by (apply Rmult_lt_0_compat; lra).
  unfold starPuts, clmul, nQ in I. cbv zeta in I. cbn [cR cG cB] in I.
  repeat (destruct I as [I|I]; [injection I as <- <- <-; unfold bright; cbn [cR cG cB]; rnum; now split; [|split]|]). easy.
Qed.
Lemma star_ok (H : heap (color R)) p : (4 <= p < 2 ^ 61)%Z ->
  exists k H' f, starKernel p H = Val (k, H') /\ keeps H H' /\ shows H' k (2 * p + 1) (2 * p + 1) f /\
    0 < kernel_total (2 * p + 1) (2 * p + 1) f.
Proof.
  intros Hp. destruct (starKernel_ok H p ltac:(lia)) as (k & H' & E & K & S). exists k, H'. eexists. split; [exact E|].
  split; [exact K|]. split; [exact S|].
  assert (B : forall v u c, In (v, u, c) (flat_map (starPuts p) (zr 2 (Z.to_nat (p - 3)))) -> bright c).
  { intros v u c I. apply in_flat_map in I. destruct I as (i & I1 & I2). apply zr_In in I1. apply (starPuts_bright p i v u c); [lia|easy]. }
  apply (kernel_total_pos _ _ _ p (p + 2)%Z).
  - intros y x _. apply applies_putting.
    + intros v u c I. destruct (B v u c I) as (A1 & A2 & A3). split; [|split]; lra.
    + left. unfold nonneg, black. cbn [cR cG cB]. rnum. lra.
  - unfold inside. lia.
  - apply applies_putting; [exact B|]. right. eexists. apply in_flat_map. exists 2%Z. split; [apply zr_In; lia|]. left. reflexivity.
Qed.
Lemma star_small (H : heap (color R)) p : (0 <= p < 4)%Z ->
  exists k H' f, starKernel p H = Val (k, H') /\ keeps H H' /\ shows H' k (2 * p + 1) (2 * p + 1) f /\
    kernel_total (2 * p + 1) (2 * p + 1) f = 0.
Proof.
  intros Hp. destruct (starKernel_ok H p ltac:(lia)) as (k & H' & E & K & S). exists k, H'. eexists. split; [exact E|].
  split; [exact K|]. split; [exact S|]. replace (Z.to_nat (p - 3)) with 0%nat by lia. unfold kernel_total, sum_pixels.
  apply sum_to_zero. intros y _. apply sum_to_zero. intros x _. cbn [zr seq map flat_map]. unfold applies, fold_left, black. cbn [cR cG cB]. rnum. lra.
Qed.
