(** * Images in the heap *)
From Coq Require Import ZArith Reals Bool List Lia.
From Verif Require Import Num Outcome ColorModel ObjModel TreeModel ImageModel ImageSpec.
Import ListNotations.
Local Open Scope Z_scope.

Lemma getZ_some {A} (l : list A) i a : 0 <= i -> nth_error l (Z.to_nat i) = Some a -> getZ l i = Val a.
Proof. intros H E. unfold getZ. destruct (Z.ltb_spec i 0); [lia|]. now rewrite E. Qed.

Lemma setNth_length {A} (l : list A) : forall i a, length (setNth l i a) = length l.
Proof. induction l as [|b l IH]; intros [|i] a; cbn [setNth length]; [easy|easy|easy|now rewrite IH]. Qed.
Lemma setNth_same {A} (l : list A) : forall i a, (i < length l)%nat -> nth_error (setNth l i a) i = Some a.
Proof. induction l as [|b l IH]; intros [|i] a H; cbn [setNth length nth_error] in *; try lia; [easy|]. apply IH. lia. Qed.
Lemma setNth_other {A} (l : list A) : forall i j a, i <> j -> nth_error (setNth l i a) j = nth_error l j.
Proof.
  induction l as [|b l IH]; intros [|i] [|j] a H; cbn [setNth nth_error]; try easy. apply IH. lia.
Qed.

Definition zr (i0 : Z) (n : nat) : list Z := map (fun k => i0 + Z.of_nat k) (seq 0 n).
Lemma zr_S i0 n : zr i0 (S n) = i0 :: zr (i0 + 1) n.
Proof.
  unfold zr. cbn [seq map]. f_equal; [lia|]. rewrite <- seq_shift, map_map. apply map_ext. intros k. lia.
Qed.
Lemma zr_In i0 n i : In i (zr i0 n) <-> i0 <= i < i0 + Z.of_nat n.
Proof.
  unfold zr. rewrite in_map_iff. setoid_rewrite in_seq. split.
  - intros (k & <- & H). lia.
  - intros H. exists (Z.to_nat (i - i0)). split; lia.
Qed.

(** the rows of an image made by MakeImage *)
Definition rowsAt (a : nat) (w h : Z) : image := map (fun y => Slice a (y * w) w) (zr 0 (Z.to_nat h)).

Lemma rowsAt_get a w h y : 0 <= y < h -> getZ (rowsAt a w h) y = Val (Slice a (y * w) w).
Proof.
  intros H. apply getZ_some; [lia|]. unfold rowsAt, zr. rewrite map_map.
  rewrite nth_error_map.
  assert (E : nth_error (seq 0 (Z.to_nat h)) (Z.to_nat y) = Some (Z.to_nat y)).
  { rewrite (nth_error_nth' _ 0%nat) by (rewrite seq_length; lia). rewrite seq_nth by lia. reflexivity. }
  rewrite E. cbn [option_map]. do 2 f_equal. f_equal. lia.
Qed.
Lemma rowsAt_length a w h : 0 <= h -> Z.of_nat (length (rowsAt a w h)) = h.
Proof. intros. unfold rowsAt, zr. rewrite !map_length, seq_length. lia. Qed.
Lemma rowsAt_len a w h : Forall (fun row => slLen row = w) (rowsAt a w h).
Proof. unfold rowsAt. apply Forall_forall. intros r H. apply in_map_iff in H. destruct H as (y & <- & _). reflexivity. Qed.

Section Heap.
  Context {A : Type}.
  Notation heap := (heap A).
  Notation hact := (hact A).

  (** array [a] holds the pixels [g], row by row *)
  Definition holds (H : heap) (a : nat) (w h : Z) (g : Z -> Z -> A) : Prop :=
    exists arr, nth_error H a = Some arr /\ Z.of_nat (length arr) = w * h /\
      forall y x, inside w h y x -> nth_error arr (Z.to_nat (y * w + x)) = Some (g y x).
  (** only array [a] differs *)
  Definition sameBut (a : nat) (H H' : heap) : Prop :=
    length H = length H' /\ forall b, b <> a -> nth_error H b = nth_error H' b.

  Lemma sameBut_refl a H : sameBut a H H.
  Proof. split; easy. Qed.
  Lemma sameBut_trans a H1 H2 H3 : sameBut a H1 H2 -> sameBut a H2 H3 -> sameBut a H1 H3.
  Proof. intros [L1 S1] [L2 S2]. split; [congruence|]. intros b Hb. rewrite S1, S2; easy. Qed.

  Lemma inside_index w h y x : inside w h y x -> 0 <= y * w + x < w * h.
  Proof. unfold inside. intros [Hy Hx]. nia. Qed.
  Lemma index_inj w h y x y' x' : inside w h y x -> inside w h y' x' -> y * w + x = y' * w + x' -> y = y' /\ x = x'.
  Proof. unfold inside. intros [Hy Hx] [Hy' Hx'] E. assert (y = y') by nia. subst. split; lia. Qed.

  Lemma rowsAt_load H a w h g y x : holds H a w h g -> inside w h y x ->
    getPix (rowsAt a w h) y x H = Val (g y x, H).
  Proof.
    intros (arr & E & L & V) I. unfold getPix, hbind, hlift. rewrite rowsAt_get by apply I. cbn [omap obind].
    unfold loadAt. cbn [slLen slArr slOff]. rewrite E. destruct I as [Iy Ix].
    destruct (Z.ltb_spec x 0); [lia|]. destruct (Z.leb_spec w x); [lia|]. cbn [orb].
    rewrite (getZ_some arr (y * w + x) (g y x)); [reflexivity| |].
    - pose proof (inside_index w h y x (conj Iy Ix)). lia.
    - apply V. now split.
  Qed.

  Definition upd (g : Z -> Z -> A) (y x : Z) (f : A -> A) : Z -> Z -> A :=
    fun y' x' => if (y' =? y) && (x' =? x) then f (g y x) else g y' x'.

  Lemma rowsAt_store H a w h g y x v : holds H a w h g -> inside w h y x ->
    exists H', setPix (rowsAt a w h) y x v H = Val (tt, H') /\ holds H' a w h (upd g y x (fun _ => v)) /\ sameBut a H H'.
  Proof.
    intros (arr & E & L & V) I. unfold setPix, hbind, hlift. rewrite rowsAt_get by apply I. cbn [omap obind].
    unfold storeAt. cbn [slLen slArr slOff]. rewrite E. pose proof (inside_index w h y x I) as B.
    destruct I as [Iy Ix]. destruct (Z.ltb_spec x 0); [lia|]. destruct (Z.leb_spec w x); [lia|]. cbn [orb].
    unfold setZ. destruct (Z.ltb_spec (y * w + x) 0); [lia|]. destruct (Z.leb_spec (Z.of_nat (length arr)) (y * w + x)); [lia|].
    cbn [orb omap]. eexists. split; [reflexivity|].
    assert (LA : (a < length H)%nat) by (apply nth_error_Some; congruence).
    split; [|split].
    - exists (setNth arr (Z.to_nat (y * w + x)) v). split; [now apply setNth_same|]. split; [now rewrite setNth_length|].
      intros y' x' I'. unfold upd.
      destruct (Z.eqb_spec y' y) as [->|Ny]; [destruct (Z.eqb_spec x' x) as [->|Nx]|]; cbn [andb].
      + apply setNth_same. lia.
      + rewrite setNth_other; [now apply V|]. pose proof (inside_index w h y x' I'). lia.
      + rewrite setNth_other; [now apply V|]. pose proof (inside_index w h y' x' I') as B'.
        intros EQ. destruct (index_inj w h y x y' x' (conj Iy Ix) I') as [-> _]; [lia|easy].
    - now rewrite setNth_length.
    - intros b Hb. rewrite setNth_other by congruence. reflexivity.
  Qed.

  (** programs that only change one image, by modifying pixels in a given order *)
  Definition change : Type := (Z * Z * (A -> A))%type.
  Definition apply1 (g : Z -> Z -> A) (c : change) : Z -> Z -> A := let '(y, x, f) := c in upd g y x f.
  Definition applies (l : list change) (g : Z -> Z -> A) : Z -> Z -> A := fold_left apply1 l g.

  (** [H0] is the heap in which everything but array [a] is as it was *)
  Definition performs (a : nat) (w h : Z) (H0 : heap) (p : hact unit) (l : list change) : Prop :=
    forall H g, holds H a w h g -> sameBut a H0 H ->
      exists H', p H = Val (tt, H') /\ holds H' a w h (applies l g) /\ sameBut a H0 H'.

  Lemma performs_ret a w h H0 : performs a w h H0 (hret tt) nil.
  Proof. intros H g HH HS. exists H. split; [reflexivity|]. now split. Qed.
  Lemma performs_bind a w h H0 p q l1 l2 : performs a w h H0 p l1 -> performs a w h H0 q l2 ->
    performs a w h H0 (hbind p (fun _ => q)) (l1 ++ l2).
  Proof.
    intros P Q H g HH HS. destruct (P H g HH HS) as (H1 & E1 & HH1 & HS1). destruct (Q H1 _ HH1 HS1) as (H2 & E2 & HH2 & HS2).
    exists H2. unfold hbind. rewrite E1. cbn [obind]. split; [easy|]. split; [|easy].
    unfold applies. rewrite fold_left_app. exact HH2.
  Qed.
  Lemma performs_set a w h H0 y x v : inside w h y x -> performs a w h H0 (setPix (rowsAt a w h) y x v) [(y, x, fun _ => v)].
  Proof.
    intros I H g HH HS. destruct (rowsAt_store H a w h g y x v HH I) as (H' & E & HH' & HS').
    exists H'. split; [easy|]. split; [easy|]. eapply sameBut_trans; eauto.
  Qed.
  Lemma performs_modify a w h H0 y x f : inside w h y x ->
    performs a w h H0 (hbind (getPix (rowsAt a w h) y x) (fun c => setPix (rowsAt a w h) y x (f c))) [(y, x, f)].
  Proof.
    intros I H g HH HS. unfold hbind. rewrite (rowsAt_load H a w h g y x HH I). cbn [obind].
    destruct (rowsAt_store H a w h g y x (f (g y x)) HH I) as (H' & E & HH' & HS').
    exists H'. split; [easy|]. split; [|eapply sameBut_trans; eauto].
    unfold applies, fold_left, apply1. exact HH'.
  Qed.
  Lemma performs_for a w h H0 n i0 (body : Z -> unit -> hact unit) (l : Z -> list change) :
    (forall i, i0 <= i < i0 + Z.of_nat n -> performs a w h H0 (body i tt) (l i)) ->
    performs a w h H0 (hfor n i0 body tt) (flat_map l (zr i0 n)).
  Proof.
    revert i0. induction n as [|n IH]; intros i0 HB; [apply performs_ret|].
    cbn [hfor]. rewrite zr_S. cbn [flat_map].
    intros H g HH HS. destruct (HB i0 ltac:(lia) H g HH HS) as (H1 & E1 & HH1 & HS1).
    destruct (IH (i0 + 1) ltac:(intros i Hi; apply HB; lia) H1 _ HH1 HS1) as (H2 & E2 & HH2 & HS2).
    exists H2. unfold hbind. rewrite E1. cbn [obind]. split; [easy|]. split; [|easy].
    unfold applies. rewrite fold_left_app. exact HH2.
  Qed.
  Lemma performs_loop a w h H0 n (body : Z -> hact unit) (l : Z -> list change) :
    (forall i, 0 <= i < n -> performs a w h H0 (body i) (l i)) ->
    performs a w h H0 (hloop n body) (flat_map l (zr 0 (Z.to_nat n))).
  Proof. intros HB. unfold hloop. apply (performs_for a w h H0 _ 0 (fun i _ => body i)). intros i Hi. apply HB. lia. Qed.

  (** reading another image *)
  Definition avoids (a : nat) (img : image) : Prop := Forall (fun row => slArr row <> a) img.

  Lemma getZ_inv {B} (l : list B) i b : getZ l i = Val b -> 0 <= i /\ nth_error l (Z.to_nat i) = Some b.
  Proof.
    unfold getZ. destruct (Z.ltb_spec i 0); [easy|]. destruct (nth_error l (Z.to_nat i)) eqn:E; [|easy].
    intros EQ. injection EQ as <-. easy.
  Qed.
  Lemma getPix_sameBut a img y x v H H' : avoids a img -> sameBut a H H' -> getPix img y x H = Val (v, H) -> getPix img y x H' = Val (v, H').
  Proof.
    intros HA [L S] E. unfold getPix, hbind, hlift in *. destruct (getZ img y) as [row| |] eqn:G; cbn [omap obind] in *; try easy.
    destruct (getZ_inv _ _ _ G) as [_ NE]. apply nth_error_In in NE.
    unfold avoids in HA. rewrite Forall_forall in HA. specialize (HA row NE).
    unfold loadAt in *. destruct ((x <? 0) || (slLen row <=? x))%bool; [easy|].
    rewrite <- (S _ HA). destruct (nth_error H (slArr row)) as [arr|]; [|easy].
    destruct (getZ arr (slOff row + x)); cbn [omap] in *; [|easy|easy]. injection E as ->. reflexivity.
  Qed.
  Lemma performs_read a w h H0 img y x v (k : A -> hact unit) l : avoids a img -> getPix img y x H0 = Val (v, H0) ->
    performs a w h H0 (k v) l -> performs a w h H0 (hbind (getPix img y x) k) l.
  Proof.
    intros HA HG HP H g HH HS. unfold hbind. rewrite (getPix_sameBut a img y x v H0 H HA HS HG). cbn [obind]. now apply HP.
  Qed.

  (** *** New images *)
  Definition appended (H : heap) (arr : list A) : heap := H ++ [arr].

  Lemma rowsOf_rowsAt a w h n i : 0 <= w -> 0 <= i -> i + Z.of_nat n <= h ->
    rowsOf (Slice a 0 (w * h)) w n i = Val (map (fun y => Slice a (y * w) w) (zr i n)).
  Proof.
    revert i. induction n as [|n IH]; intros i Hw Hi Hn; [reflexivity|].
    cbn [rowsOf]. unfold subslice. cbn [slLen slArr slOff].
    destruct (Z.leb_spec 0 (i * w)); [|nia]. destruct (Z.leb_spec (i * w) ((i + 1) * w)); [|nia].
    destruct (Z.leb_spec ((i + 1) * w) (w * h)); [|nia]. cbn [andb obind].
    rewrite IH by lia. cbn [omap]. rewrite zr_S. cbn [map]. do 3 f_equal; lia.
  Qed.

  Lemma makeImage_ok zero w h H : 0 <= w -> 0 <= h ->
    makeImage zero w h H = Val (rowsAt (length H) w h, appended H (repeat zero (Z.to_nat (w * h)))) /\
    holds (appended H (repeat zero (Z.to_nat (w * h)))) (length H) w h (fun _ _ => zero).
  Proof.
    intros Hw Hh. split.
    - unfold makeImage, hbind, alloc. destruct (Z.ltb_spec (w * h) 0); [nia|]. cbn [obind].
      destruct (Z.ltb_spec h 0); [lia|]. unfold hlift. rewrite rowsOf_rowsAt by lia. reflexivity.
    - exists (repeat zero (Z.to_nat (w * h))). unfold appended. split; [|split].
      + rewrite nth_error_app2 by lia. now rewrite Nat.sub_diag.
      + rewrite repeat_length. nia.
      + intros y x I. pose proof (inside_index w h y x I). apply nth_error_repeat. lia.
  Qed.

  Lemma sameBut_appended H arr b : b <> length H -> nth_error (appended H arr) b = nth_error H b.
  Proof.
    intros N. unfold appended. destruct (lt_dec b (length H)).
    - now rewrite nth_error_app1.
    - rewrite nth_error_app2 by lia. replace (nth_error H b) with (@None (list A)) by (symmetry; apply nth_error_None; lia).
      destruct (b - length H)%nat eqn:E; [lia|]. now destruct n0.
  Qed.

  (** the heap after allocating and filling a new image *)
  Definition extends (H H' : heap) : Prop :=
    length H' = S (length H) /\ forall b, (b < length H)%nat -> nth_error H' b = nth_error H b.
  Lemma extends_new H arr H' : sameBut (length H) (appended H arr) H' -> extends H H'.
  Proof.
    intros [L S]. unfold appended in *. rewrite app_length in L. cbn in L. split; [lia|].
    intros b Hb. rewrite <- S by lia. now rewrite nth_error_app1.
  Qed.
  Lemma getPix_appended img y x v H arr : getPix img y x H = Val (v, H) -> getPix img y x (appended H arr) = Val (v, appended H arr).
  Proof.
    intros E. unfold getPix, hbind, hlift in *. destruct (getZ img y) as [row| |]; cbn [omap obind] in *; try easy.
    unfold loadAt in *. destruct ((x <? 0) || (slLen row <=? x))%bool; [easy|].
    destruct (nth_error H (slArr row)) as [ar|] eqn:N; [|easy].
    unfold appended. rewrite nth_error_app1 by (apply nth_error_Some; congruence). rewrite N.
    destruct (getZ ar (slOff row + x)); cbn [omap] in *; [|easy|easy]. injection E as ->. reflexivity.
  Qed.
  (** rows that can be read are in existing arrays *)
  Lemma readable_avoids img w h f (H : heap) : 0 < w -> shows H img w h f -> avoids (length H) img.
  Proof.
    intros Hw (L & LR & V). apply Forall_forall. intros row I. apply In_nth_error in I. destruct I as (n & E).
    assert (n < length img)%nat by (apply nth_error_Some; congruence).
    specialize (V (Z.of_nat n) 0 ltac:(unfold inside; lia)).
    unfold getPix, hbind, hlift in V. rewrite (getZ_some img (Z.of_nat n) row) in V; [|lia|now rewrite Nat2Z.id].
    cbn [omap obind] in V. unfold loadAt in V. destruct ((0 <? 0) || (slLen row <=? 0))%bool; [easy|].
    destruct (nth_error H (slArr row)) eqn:N; [|easy].
    assert (slArr row < length H)%nat by (apply nth_error_Some; congruence). lia.
  Qed.

  Lemma applies_nil_outside (l : list change) : forall g y x, (forall y' x' f, In (y', x', f) l -> y' = y /\ x' = x -> False) -> applies l g y x = g y x.
  Proof.
    induction l as [|[[y' x'] f] l IH]; intros g y x H; [reflexivity|].
    unfold applies. cbn [fold_left apply1]. fold (applies l (upd g y' x' f)). rewrite IH.
    - unfold upd. destruct (Z.eqb_spec y y') as [->|]; [destruct (Z.eqb_spec x x') as [->|]|]; cbn [andb]; try easy.
      exfalso. apply (H y' x' f); [now left|easy].
    - intros a b f' I. apply (H a b f'). now right.
  Qed.

  (** one change for every pixel of a row, and of an image *)
  Lemma applies_row (f : Z -> A -> A) y : forall n i0 g y' x', applies (flat_map (fun x => [(y, x, f x)]) (zr i0 n)) g y' x' =
    if (y' =? y) && ((i0 <=? x') && (x' <? i0 + Z.of_nat n)) then f x' (g y' x') else g y' x'.
  Proof.
    induction n as [|n IH]; intros i0 g y' x'.
    - unfold applies. cbn [zr seq map flat_map fold_left]. destruct (Z.eqb_spec y' y); [|easy].
      destruct (Z.leb_spec i0 x'); destruct (Z.ltb_spec x' (i0 + Z.of_nat 0)); cbn [andb]; try easy. lia.
    - rewrite zr_S. cbn [flat_map app]. unfold applies. cbn [fold_left apply1].
      fold (applies (flat_map (fun x => [(y, x, f x)]) (zr (i0 + 1) n)) (upd g y i0 (f i0))). rewrite IH. unfold upd.
      destruct (Z.eqb_spec y' y) as [->|]; cbn [andb]; [|easy].
      destruct (Z.eqb_spec x' i0) as [->|]; cbn [andb].
      + destruct (Z.leb_spec (i0 + 1) i0); [lia|]. cbn [andb]. destruct (Z.leb_spec i0 i0); [|lia].
        destruct (Z.ltb_spec i0 (i0 + Z.of_nat (S n))); [easy|lia].
      + destruct (Z.leb_spec (i0 + 1) x'); destruct (Z.ltb_spec x' (i0 + 1 + Z.of_nat n)); cbn [andb];
          destruct (Z.leb_spec i0 x'); destruct (Z.ltb_spec x' (i0 + Z.of_nat (S n))); cbn [andb]; try easy; lia.
  Qed.
  Lemma applies_rows (f : Z -> Z -> A -> A) w : forall n i0 g y x, applies (flat_map (fun y => flat_map (fun x => [(y, x, f y x)]) (zr 0 (Z.to_nat w))) (zr i0 n)) g y x =
    if ((i0 <=? y) && (y <? i0 + Z.of_nat n)) && ((0 <=? x) && (x <? w)) then f y x (g y x) else g y x.
  Proof.
    induction n as [|n IH]; intros i0 g y x.
    - unfold applies. cbn [zr seq map flat_map fold_left].
      destruct (Z.leb_spec i0 y); destruct (Z.ltb_spec y (i0 + Z.of_nat 0)); cbn [andb]; try easy. lia.
    - rewrite zr_S. cbn [flat_map]. unfold applies. rewrite fold_left_app.
      fold (applies (flat_map (fun x => [(i0, x, f i0 x)]) (zr 0 (Z.to_nat w))) g).
      match goal with |- fold_left apply1 ?l ?g' ?y ?x = _ => fold (applies l g') end. rewrite IH.
      rewrite applies_row.
      destruct (Z.eqb_spec y i0) as [->|N].
      + destruct (Z.leb_spec (i0 + 1) i0); [lia|]. destruct (Z.leb_spec i0 i0); [|lia].
        destruct (Z.ltb_spec i0 (i0 + Z.of_nat (S n))); [|lia]. cbn [andb].
        destruct (Z.leb_spec 0 x); cbn [andb]; [|easy].
        destruct (Z.ltb_spec x (0 + Z.of_nat (Z.to_nat w))), (Z.ltb_spec x w); try easy; lia.
      + cbn [andb]. replace (i0 <=? y) with (i0 + 1 <=? y) by (destruct (Z.leb_spec (i0+1) y), (Z.leb_spec i0 y); lia || easy).
        replace (y <? i0 + Z.of_nat (S n)) with (y <? i0 + 1 + Z.of_nat n) by (f_equal; lia). reflexivity.
  Qed.

  Definition allPixels (w h : Z) (f : Z -> Z -> A -> A) : list change :=
    flat_map (fun y => flat_map (fun x => [(y, x, f y x)]) (zr 0 (Z.to_nat w))) (zr 0 (Z.to_nat h)).
  Lemma applies_all w h f g y x : inside w h y x -> applies (allPixels w h f) g y x = f y x (g y x).
  Proof.
    intros [Iy Ix]. unfold allPixels. rewrite applies_rows.
    destruct (Z.leb_spec 0 y); [|lia]. destruct (Z.ltb_spec y (0 + Z.of_nat (Z.to_nat h))); [|lia].
    destruct (Z.leb_spec 0 x); [|lia]. destruct (Z.ltb_spec x w); [|lia]. reflexivity.
  Qed.
  Lemma performs_all a w h H0 (body : Z -> Z -> hact unit) f :
    (forall y x, inside w h y x -> performs a w h H0 (body y x) [(y, x, f y x)]) ->
    performs a w h H0 (hloop h (fun y => hloop w (fun x => body y x))) (allPixels w h f).
  Proof.
    intros HB. apply (performs_loop a w h H0 h _ (fun y => flat_map (fun x => [(y, x, f y x)]) (zr 0 (Z.to_nat w)))).
    intros y Hy. apply (performs_loop a w h H0 w _ (fun x => [(y, x, f y x)])). intros x Hx. apply HB. now split.
  Qed.

  Lemma holds_shows H a w h g : 0 <= w -> 0 <= h -> holds H a w h g -> shows H (rowsAt a w h) w h g.
  Proof.
    intros Hw Hh HH. split; [now apply rowsAt_length|]. split; [apply rowsAt_len|].
    intros y x I. now apply rowsAt_load.
  Qed.
  Lemma holds_ext H a w h g g' : (forall y x, inside w h y x -> g y x = g' y x) -> holds H a w h g -> holds H a w h g'.
  Proof.
    intros E (arr & N & L & V). exists arr. split; [easy|]. split; [easy|]. intros y x I. rewrite <- E by easy. now apply V.
  Qed.
  Lemma shows_extends (H H' : heap) img w h f : 0 < w -> shows H img w h f -> extends H H' -> shows H' img w h f.
  Proof.
    intros Hw HS [L S]. pose proof HS as (L1 & LR & V). split; [easy|]. split; [easy|]. intros y x I. specialize (V y x I).
    unfold getPix, hbind, hlift in *. destruct (getZ img y) as [row| |]; cbn [omap obind] in *; try easy.
    unfold loadAt in *. destruct ((x <? 0) || (slLen row <=? x))%bool; [easy|].
    destruct (nth_error H (slArr row)) as [ar|] eqn:N; [|easy].
    rewrite (S (slArr row)) by (apply nth_error_Some; congruence). rewrite N.
    destruct (getZ ar (slOff row + x)); cbn [omap] in *; [|easy|easy]. injection V as ->. reflexivity.
  Qed.

  Lemma imgSize_shows (H : heap) img w h f : 0 < h -> shows H img w h f -> imgSize img = (w, h).
  Proof.
    intros Hh (L & LR & _). destruct img as [|row img]; [cbn in L; lia|]. inversion LR; subst. cbn [imgSize]. reflexivity.
  Qed.

  Lemma copyImage_ok zero img w h f (H : heap) : 0 < w -> 0 < h -> shows H img w h f ->
    exists H', copyImage zero img H = Val (rowsAt (length H) w h, H') /\
      holds H' (length H) w h f /\ extends H H'.
  Proof.
    intros Hw Hh HS. unfold copyImage. rewrite (imgSize_shows H img w h f Hh HS).
    destruct (makeImage_ok zero w h H ltac:(lia) ltac:(lia)) as [EM HM]. unfold hbind at 1. rewrite EM. cbn [obind].
    set (H1 := appended H (repeat zero (Z.to_nat (w * h)))) in *.
    assert (P : performs (length H) w h H1
      (hloop h (fun iy => hloop w (fun ix => hbind (getPix img iy ix) (fun c => setPix (rowsAt (length H) w h) iy ix c))))
      (allPixels w h (fun y x _ => f y x))).
    { apply performs_all. intros y x I. apply (performs_read _ _ _ _ _ _ _ (f y x)).
      - now apply (readable_avoids img w h f).
      - apply getPix_appended. now apply HS.
      - now apply performs_set. }
    destruct (P H1 _ HM (sameBut_refl _ _)) as (H' & E & HH & SB).
    exists H'. unfold hbind at 1. rewrite E. cbn [obind hret]. split; [reflexivity|]. split.
    - eapply holds_ext; [|exact HH]. intros y x I. now rewrite applies_all.
    - eapply extends_new. exact SB.
  Qed.
End Heap.

(** ** C62 *)
Section Pixels.
  Context {A : Type}.

  Lemma writes_performs a w h (H0 : heap A) l : (forall y x v, In (y, x, v) l -> inside w h y x) ->
    performs a w h H0 (writes (rowsAt a w h) l) (map (fun '(y, x, v) => (y, x, fun _ => v)) l).
  Proof.
    induction l as [|[[y x] v] l IH]; intros HI; [apply performs_ret|].
    cbn [writes map]. apply (performs_bind a w h H0 _ _ [(y, x, fun _ => v)]).
    - apply performs_set. apply (HI y x v). now left.
    - apply IH. intros y' x' v' I. apply (HI y' x' v'). now right.
  Qed.
  Lemma applies_writes (l : list (Z * Z * A)) : forall g y x,
    applies (map (fun '(y, x, v) => (y, x, fun _ => v)) l) g y x = last_write l y x (g y x).
  Proof.
    induction l as [|[[y' x'] v] l IH]; intros g y x; [reflexivity|].
    cbn [map last_write]. unfold applies. cbn [fold_left apply1].
    fold (applies (map (fun '(y, x, v) => (y, x, fun _ : A => v)) l) (upd g y' x' (fun _ => v))). rewrite IH.
    f_equal. unfold upd. rewrite (Z.eqb_sym y y'), (Z.eqb_sym x x'). reflexivity.
  Qed.

  (** writes to a new image only *)
  Lemma writes_new H a w h g (l : list (Z * Z * A)) : 0 <= w -> 0 <= h -> holds H a w h g ->
    (forall y x v, In (y, x, v) l -> inside w h y x) ->
    exists H', writes (rowsAt a w h) l H = Val (tt, H') /\
      shows H' (rowsAt a w h) w h (fun y x => last_write l y x (g y x)) /\ sameBut a H H'.
  Proof.
    intros Hw Hh HH HI. destruct (writes_performs a w h H l HI H g HH (sameBut_refl _ _)) as (H' & E & HH' & SB).
    exists H'. split; [easy|]. split; [|easy]. apply holds_shows; [easy|easy|].
    eapply holds_ext; [|exact HH']. intros y x I. apply applies_writes.
  Qed.

  Lemma outside_panics a w h y x v (H : heap A) : 0 <= w -> 0 <= h -> ~ inside w h y x ->
    getPix (rowsAt a w h) y x H = Panic /\ setPix (rowsAt a w h) y x v H = Panic.
  Proof.
    intros Hw Hh N. unfold getPix, setPix, hbind, hlift.
    destruct (Z_lt_dec y 0) as [L|L].
    { unfold getZ. destruct (Z.ltb_spec y 0); [|lia]. split; reflexivity. }
    destruct (Z_lt_dec y h) as [G|G].
    - rewrite rowsAt_get by lia. cbn [omap obind]. unfold loadAt, storeAt. cbn [slLen].
      destruct (Z.ltb_spec x 0); destruct (Z.leb_spec w x); cbn [orb]; try easy. exfalso. apply N. unfold inside. lia.
    - assert (E : getZ (rowsAt a w h) y = Panic).
      { unfold getZ. destruct (Z.ltb_spec y 0); [lia|].
        pose proof (rowsAt_length a w h Hh). rewrite (proj2 (nth_error_None _ _)); [easy|lia]. }
      rewrite E. split; reflexivity.
  Qed.

  Theorem new_image_ok (zero : A) w h H : 0 <= w -> 0 <= h ->
    exists img H1, makeImage zero w h H = Val (img, H1) /\ keeps H H1 /\
      shows H1 img w h (fun _ _ => zero) /\
      (forall l, (forall y x v, In (y, x, v) l -> inside w h y x) ->
        exists H2, writes img l H1 = Val (tt, H2) /\ keeps H H2 /\
          shows H2 img w h (fun y x => last_write l y x zero)) /\
      (forall y x v, ~ inside w h y x -> getPix img y x H1 = Panic /\ setPix img y x v H1 = Panic).
  Proof.
    intros Hw Hh. destruct (makeImage_ok zero w h H Hw Hh) as [E HH].
    exists (rowsAt (length H) w h), (appended H (repeat zero (Z.to_nat (w * h)))). split; [easy|].
    assert (K : forall H2, sameBut (length H) (appended H (repeat zero (Z.to_nat (w * h)))) H2 -> keeps H H2).
    { intros H2 SB. exact (proj2 (extends_new _ _ _ SB)). }
    split; [apply K, sameBut_refl|]. split; [now apply holds_shows|]. split.
    - intros l HI. destruct (writes_new _ _ w h _ l Hw Hh HH HI) as (H2 & E2 & S2 & SB).
      exists H2. split; [easy|]. split; [now apply K|easy].
    - intros y x v N. now apply outside_panics.
  Qed.

  Lemma shows_sameBut a (H H' : heap A) img w h f : avoids a img -> sameBut a H H' -> shows H img w h f -> shows H' img w h f.
  Proof.
    intros HA SB (L & LR & V). split; [easy|]. split; [easy|]. intros y x I. eapply getPix_sameBut; eauto.
  Qed.

  (** writing somewhere only changes arrays of the written image *)
  Lemma storeAt_other s i v (H : heap A) H' b : storeAt s i v H = Val (tt, H') -> b <> slArr s -> nth_error H' b = nth_error H b.
  Proof.
    unfold storeAt. destruct ((i <? 0) || (slLen s <=? i))%bool; [easy|]. destruct (nth_error H (slArr s)) as [arr|]; [|easy].
    destruct (setZ arr (slOff s + i) v) as [arr'| |]; cbn [omap]; try easy. intros E. injection E as <-. intros N.
    apply setNth_other. congruence.
  Qed.
  Lemma storeAt_length s i v (H : heap A) H' : storeAt s i v H = Val (tt, H') -> length H' = length H.
  Proof.
    unfold storeAt. destruct ((i <? 0) || (slLen s <=? i))%bool; [easy|]. destruct (nth_error H (slArr s)) as [arr|]; [|easy].
    destruct (setZ arr (slOff s + i) v) as [arr'| |]; cbn [omap]; try easy. intros E. injection E as <-. apply setNth_length.
  Qed.
  Lemma writes_other img l : forall a (H H' : heap A), avoids a img -> writes img l H = Val (tt, H') -> nth_error H' a = nth_error H a.
  Proof.
    induction l as [|[[y x] v] l IH]; intros a H H' HA; cbn [writes].
    - intros E. injection E as <-. easy.
    - unfold hbind at 1. destruct (setPix img y x v H) as [[[] H1]| |] eqn:E1; cbn [obind]; try easy.
      intros E. rewrite (IH a H1 H' HA E). unfold setPix, hbind, hlift in E1.
      destruct (getZ img y) as [row| |] eqn:G; cbn [omap obind] in E1; try easy.
      destruct (getZ_inv _ _ _ G) as [_ NE]. apply nth_error_In in NE.
      unfold avoids in HA. rewrite Forall_forall in HA. specialize (HA row NE).
      eapply storeAt_other; [exact E1|congruence].
  Qed.

  Lemma holds_ext_heap (H H' : heap A) a w h g : nth_error H' a = nth_error H a -> holds H a w h g -> holds H' a w h g.
  Proof. intros E (arr & N & R). exists arr. rewrite E. easy. Qed.

  Theorem copy_ok (zero : A) img w h f H : 0 < w -> 0 < h -> shows H img w h f ->
    exists cpy H1, copyImage zero img H = Val (cpy, H1) /\ keeps H H1 /\
      shows H1 cpy w h f /\ shows H1 img w h f /\
      (forall l, (forall y x v, In (y, x, v) l -> inside w h y x) ->
        exists H2, writes cpy l H1 = Val (tt, H2) /\ keeps H H2 /\
          shows H2 cpy w h (fun y x => last_write l y x (f y x)) /\ shows H2 img w h f) /\
      (forall l H2, writes img l H1 = Val (tt, H2) -> shows H2 cpy w h f).
  Proof.
    intros Hw Hh HS. destruct (copyImage_ok zero img w h f H Hw Hh HS) as (H1 & E & HH & EX).
    exists (rowsAt (length H) w h), H1. split; [easy|]. split; [exact (proj2 EX)|].
    split; [apply holds_shows; [lia|lia|easy]|]. assert (S1 : shows H1 img w h f) by (eapply shows_extends; eauto).
    split; [easy|]. pose proof (readable_avoids img w h f H Hw HS) as AV. split.
    - intros l HI. destruct (writes_new H1 (length H) w h f l ltac:(lia) ltac:(lia) HH HI) as (H2 & E2 & S2 & SB).
      exists H2. split; [easy|]. split; [|split; [easy|eapply shows_sameBut; eauto]].
      intros b Hb. rewrite <- (proj2 SB) by lia. now apply (proj2 EX).
    - intros l H2 E2. apply holds_shows; [lia|lia|]. eapply holds_ext_heap; [|exact HH]. eapply writes_other; eauto.
  Qed.
End Pixels.

Lemma negative_image {A} (zero : A) (w h : Z) (H : heap A) : (h < 0 \/ w < 0 /\ 0 < h)%Z -> makeImage zero w h H = Panic.
Proof.
  intros N. unfold makeImage, hbind, alloc. destruct (Z.ltb_spec (w * h) 0); [reflexivity|]. cbn [obind].
  destruct (Z.ltb_spec h 0); [reflexivity|]. exfalso. nia.
Qed.
