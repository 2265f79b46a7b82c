(** * The PPM encoders *)
From Coq Require Import ZArith Reals Bool List Lia.
From Verif Require Import Num Outcome ColorModel ImageModel PpmSpec ColorProofs.
Import ListNotations.
Local Open Scope Z_scope.

(** ** Decimal numbers *)
Lemma digits_value_digit b r a : is_digit b = true -> digits_value (b :: r) a = digits_value r (10 * a + (b - 48)).
Proof. intros H. cbn [digits_value]. now rewrite H. Qed.

Lemma digit_ok d : 0 <= d < 10 -> is_digit (48 + d) = true.
Proof. intros. unfold is_digit. apply andb_true_iff. split; apply Z.leb_le; lia. Qed.

Lemma digitsLoop_spec : forall fuel z acc, 0 <= z -> z < 2 ^ Z.of_nat fuel -> (0 < fuel)%nat ->
  exists ds, digitsLoop fuel z acc = ds ++ acc /\ ds <> nil /\ Forall (fun b => is_digit b = true) ds /\
             forall a rest, digits_value (ds ++ rest) a = digits_value rest (10 ^ Z.of_nat (length ds) * a + z).
Proof.
  induction fuel as [|fuel IH]; intros z acc H0 H1 HF; [lia|].
  cbn [digitsLoop]. destruct (Z.ltb_spec z 10) as [L|L].
  - exists [48 + z]. split; [easy|]. split; [easy|]. split.
    + constructor; [now apply digit_ok|constructor].
    + intros a rest. cbn [app length]. rewrite digits_value_digit by now apply digit_ok. f_equal. change (Z.of_nat 1) with 1. lia.
  - assert (HZ : z / 10 < 2 ^ Z.of_nat fuel).
    { apply Z.div_lt_upper_bound; [lia|]. rewrite Nat2Z.inj_succ, Z.pow_succ_r in H1 by lia. lia. }
    assert (0 < fuel)%nat as HF'.
    { destruct fuel; [|lia]. cbn in H1. lia. }
    destruct (IH (z / 10) ((48 + z mod 10) :: acc) ltac:(apply Z.div_pos; lia) HZ HF') as (ds & E & N & D & V).
    pose proof (Z.mod_pos_bound z 10 ltac:(lia)) as B.
    exists (ds ++ [48 + z mod 10]). split; [rewrite E, <- app_assoc; reflexivity|].
    split; [now destruct ds|]. split.
    + apply Forall_app. split; [easy|]. constructor; [now apply digit_ok|constructor].
    + intros a rest. rewrite <- app_assoc, V. cbn [app]. rewrite digits_value_digit by now apply digit_ok.
      f_equal. rewrite app_length. cbn [length]. rewrite Nat2Z.inj_add, Z.pow_add_r by lia. change (10 ^ Z.of_nat 1) with 10.
      pose proof (Z.div_mod z 10 ltac:(lia)). nia.
Qed.

Lemma fmtInt_spec z : 0 <= z ->
  fmtInt z <> nil /\ Forall (fun b => is_digit b = true) (fmtInt z) /\
  forall a rest, digits_value (fmtInt z ++ rest) a = digits_value rest (10 ^ Z.of_nat (length (fmtInt z)) * a + z).
Proof.
  intros H. unfold fmtInt. destruct (Z.ltb_spec z 0); [lia|]. unfold digits.
  destruct (digitsLoop_spec (S (Z.to_nat (Z.log2 z))) z nil H) as (ds & E & N & D & V); [|lia|].
  - rewrite Nat2Z.inj_succ, Z2Nat.id by apply Z.log2_nonneg.
    destruct (Z.eq_dec z 0) as [->|]; [cbn; lia|]. apply Z.log2_spec. lia.
  - rewrite app_nil_r in E. now rewrite E.
Qed.

Lemma digits_value_stop b rest a : is_digit b = false -> digits_value (b :: rest) a = (a, b :: rest).
Proof. intros H. cbn [digits_value]. now rewrite H. Qed.

Lemma digit_not_white b : is_digit b = true -> is_white b = false /\ (b =? 35) = false.
Proof.
  unfold is_digit, is_white. rewrite andb_true_iff, !Z.leb_le. intros [H1 H2]. split.
  - apply orb_false_iff. split; [apply andb_false_iff; right; apply Z.leb_gt; lia|apply Z.eqb_neq; lia].
  - apply Z.eqb_neq. lia.
Qed.

Definition stops (l : list Z) : Prop := match l with b :: _ => is_digit b = false | nil => True end.

Lemma read_number_fmt (ws : list Z) z rest : Forall (fun b => is_white b = true) ws -> 0 <= z -> stops rest ->
  read_number (ws ++ fmtInt z ++ rest) = Some (z, rest).
Proof.
  intros HW HZ HS. destruct (fmtInt_spec z HZ) as (N & D & V). unfold read_number.
  assert (E : skip false (ws ++ fmtInt z ++ rest) = fmtInt z ++ rest).
  { induction HW as [|b ws Hb HW IH]; [|cbn [app skip]; now rewrite Hb].
    cbn [app]. destruct (fmtInt z) as [|d ds]; [easy|]. inversion D as [|? ? Hd]; subst.
    destruct (digit_not_white d Hd) as [W C]. cbn [app skip]. now rewrite W, C. }
  rewrite E. specialize (V 0 rest). destruct (fmtInt z) as [|d ds]; [easy|]. inversion D as [|? ? Hd]; subst.
  cbn [app] in *. rewrite Hd, V. rewrite Z.mul_0_r. cbn [Z.add].
  destruct rest as [|b rest]; [reflexivity|]. rewrite digits_value_stop by easy. reflexivity.
Qed.

(** ** Writers *)
Section Collect.
  Context {F : Type} `{NF : Num F} `{TF : Trig F}.
  Notation rows := (list (list (color F))).

  Lemma weach_collect {A} (f : A -> list Z -> bool * list Z) (g : A -> list Z) (l : list A) w :
    (forall a w, f a w = (false, w ++ g a)) -> weach f l w = (false, w ++ flat_map g l).
  Proof.
    intros H. revert w. induction l as [|a l IH]; intros w; cbn [weach flat_map].
    - unfold wok. now rewrite app_nil_r.
    - unfold wthen. rewrite H. rewrite IH. now rewrite app_assoc.
  Qed.

  Definition headerBytes (fmt : Z) (img : rows) : list Z :=
    [80; 48 + fmt; 10] ++ (fmtInt (fst (rowsSize img)) ++ [32] ++ fmtInt (snd (rowsSize img)) ++ [10]) ++ fmtInt 65535 ++ [10].
  Definition asciiBytes (img : rows) : list Z :=
    headerBytes 3 img ++ flat_map (fun row => flat_map asciiPixel row ++ [10]) img.
  Definition wordBytes (c : color F) : list Z :=
    uint16BE (trunc16 (cR c)) ++ uint16BE (trunc16 (cG c)) ++ uint16BE (trunc16 (cB c)).
  Definition binaryBytes (img : rows) : list Z :=
    headerBytes 6 img ++ flat_map (fun row => flat_map wordBytes row) img.

  Lemma header_collect fmt (img : rows) w : writeHeader collect fmt img w = (false, w ++ headerBytes fmt img).
  Proof.
    unfold writeHeader, headerBytes. destruct (rowsSize img) as [dx dy].
    unfold wthen, collect, newline, space. cbn [fst snd]. now rewrite <- !app_assoc.
  Qed.
  Lemma ascii_collect (img : rows) w : encodeAscii16 collect img w = (false, w ++ asciiBytes img).
  Proof.
    unfold encodeAscii16, asciiBytes, wthen at 1. rewrite header_collect.
    rewrite (weach_collect _ (fun row => flat_map asciiPixel row ++ [10])); [now rewrite app_assoc|].
    intros row w'. unfold wthen. rewrite (weach_collect _ asciiPixel) by reflexivity.
    unfold collect, newline. now rewrite app_assoc.
  Qed.
  Lemma binary_collect (img : rows) w : encode48BE collect img w = (false, w ++ binaryBytes img).
  Proof.
    unfold encode48BE, binaryBytes, wthen at 1. rewrite header_collect.
    rewrite (weach_collect _ (fun row => flat_map wordBytes row)); [now rewrite app_assoc|].
    intros row w'. rewrite (weach_collect _ wordBytes); [easy|].
    intros c w''. unfold wdrop, wok, collect, wordBytes. now rewrite <- !app_assoc.
  Qed.

  Lemma concat_length_rect w (img : rows) : Forall (fun row => length row = w) img -> length (concat img) = (w * length img)%nat.
  Proof. induction 1 as [|row img H HF IH]; [cbn; lia|]. cbn [concat length]. rewrite app_length, IH, H. lia. Qed.
  Lemma samples_length w (img : rows) : Forall (fun row => length row = w) img ->
    length (samples img) = (3 * (w * length img))%nat.
  Proof.
    intros H. unfold samples. rewrite <- (concat_length_rect w img H).
    induction (concat img) as [|c l IH]; [reflexivity|]. cbn [flat_map length app]. rewrite IH. lia.
  Qed.
  Lemma rowsSize_rect w (img : rows) : rectangular w img -> rowsSize img = (Z.of_nat w, Z.of_nat (length img)).
  Proof. intros [N H]. destruct img as [|row img]; [easy|]. inversion H; subst. reflexivity. Qed.

  Lemma read_numbers_app a b l xs l' ys l'' :
    read_numbers a l = Some (xs, l') -> read_numbers b l' = Some (ys, l'') -> read_numbers (a + b) l = Some (xs ++ ys, l'').
  Proof.
    revert l xs. induction a as [|a IH]; intros l xs H1 H2; cbn [Nat.add read_numbers] in *.
    - injection H1 as <- <-. exact H2.
    - destruct (read_number l) as [[z m]|]; [|easy].
      destruct (read_numbers a m) as [[zs k]|] eqn:E; [|easy]. injection H1 as <- <-.
      now rewrite (IH m zs E H2).
  Qed.

  Lemma stops_white b rest : is_white b = true -> stops (b :: rest).
  Proof.
    intros H. destruct (is_digit b) eqn:D; [|exact D]. destruct (digit_not_white b D). congruence.
  Qed.

  Lemma read_pixel (ws : list Z) c rest : Forall (fun b => is_white b = true) ws ->
    read_numbers 3 (ws ++ asciiPixel c ++ rest) = Some ([trunc16 (cR c); trunc16 (cG c); trunc16 (cB c)], 32 :: rest).
  Proof.
    intros HW. unfold asciiPixel, space. cbn [read_numbers].
    pose proof (trunc16_range (cR c)). pose proof (trunc16_range (cG c)). pose proof (trunc16_range (cB c)).
    rewrite <- !app_assoc. rewrite read_number_fmt; [|easy|lia|now apply stops_white].
    cbn [app]. change (32 :: fmtInt (trunc16 (cG c)) ++ ?r) with ([32] ++ fmtInt (trunc16 (cG c)) ++ r).
    rewrite read_number_fmt; [|now repeat constructor|lia|now apply stops_white].
    change (32 :: fmtInt (trunc16 (cB c)) ++ ?r) with ([32] ++ fmtInt (trunc16 (cB c)) ++ r).
    rewrite read_number_fmt; [|now repeat constructor|lia|now apply stops_white].
    reflexivity.
  Qed.

  (** reading pixels, each preceded by some white space; white space is left *)
  Lemma read_row (row : list (color F)) : forall ws rest, Forall (fun b => is_white b = true) ws ->
    exists ws', Forall (fun b => is_white b = true) ws' /\
      read_numbers (3 * length row) (ws ++ flat_map asciiPixel row ++ rest)
        = Some (flat_map (fun c => [trunc16 (cR c); trunc16 (cG c); trunc16 (cB c)]) row, ws' ++ rest).
  Proof.
    induction row as [|c row IH]; intros ws rest HW.
    - exists ws. split; [easy|]. reflexivity.
    - cbn [flat_map length]. rewrite <- app_assoc.
      destruct (IH [32] rest ltac:(now repeat constructor)) as (ws' & HW' & E).
      exists ws'. split; [easy|].
      replace (3 * S (length row))%nat with (3 + 3 * length row)%nat by lia.
      eapply read_numbers_app; [now apply read_pixel|]. exact E.
  Qed.
  Lemma read_rows (img : rows) : forall ws rest, Forall (fun b => is_white b = true) ws ->
    exists ws', Forall (fun b => is_white b = true) ws' /\
      read_numbers (3 * length (concat img)) (ws ++ flat_map (fun row => flat_map asciiPixel row ++ [10]) img ++ rest)
        = Some (samples img, ws' ++ rest).
  Proof.
    unfold samples. induction img as [|row img IH]; intros ws rest HW.
    - exists ws. split; [easy|]. reflexivity.
    - cbn [flat_map concat]. rewrite <- !app_assoc.
      destruct (read_row row ws ([10] ++ flat_map (fun row => flat_map asciiPixel row ++ [10]) img ++ rest) HW) as (ws1 & HW1 & E1).
      destruct (IH (ws1 ++ [10]) rest) as (ws2 & HW2 & E2); [apply Forall_app; split; [easy|now repeat constructor]|].
      exists ws2. split; [easy|]. rewrite app_length.
      replace (3 * (length row + length (concat img)))%nat with (3 * length row + 3 * length (concat img))%nat by lia.
      rewrite flat_map_app. eapply read_numbers_app; [exact E1|]. rewrite <- app_assoc in E2. exact E2.
  Qed.

  Lemma read_header fmt (img : rows) rest : stops rest \/ True ->
    exists body, headerBytes fmt img ++ rest = 80 :: 48 + fmt :: body /\
      read_numbers 3 body = Some ([fst (rowsSize img); snd (rowsSize img); 65535], 10 :: rest).
  Proof.
    intros _. exists ([10] ++ (fmtInt (fst (rowsSize img)) ++ [32] ++ fmtInt (snd (rowsSize img)) ++ [10]) ++ fmtInt 65535 ++ [10] ++ rest).
    split; [unfold headerBytes; rewrite <- !app_assoc; reflexivity|].
    assert (0 <= fst (rowsSize img) /\ 0 <= snd (rowsSize img)) as [H1 H2] by (unfold rowsSize; destruct img; cbn; lia).
    cbn [read_numbers]. rewrite <- !app_assoc. rewrite read_number_fmt; [|now repeat constructor|easy|now apply stops_white].
    rewrite read_number_fmt; [|now repeat constructor|easy|now apply stops_white].
    rewrite read_number_fmt; [|now repeat constructor|lia|now apply stops_white]. reflexivity.
  Qed.

  Lemma ascii_round_trip w (img : rows) : rectangular w img ->
    exists bytes ws,
      encodeAscii16 collect img nil = (false, bytes) /\ Forall (fun b => is_white b = true) ws /\
      read_P3 bytes = Some (Netpbm (Z.of_nat w) (Z.of_nat (length img)) 65535 (samples img), ws).
  Proof.
    intros HR. exists (asciiBytes img). rewrite ascii_collect. cbn [app].
    destruct (read_header 3 img (flat_map (fun row => flat_map asciiPixel row ++ [10]) img) (or_intror I)) as (body & EB & EN).
    destruct (read_rows img [10] nil ltac:(now repeat constructor)) as (ws & HW & ER).
    exists ws. split; [easy|]. split; [easy|]. unfold asciiBytes. rewrite EB.
    change (48 + 3) with 51. cbn [read_P3]. rewrite EN. rewrite (rowsSize_rect w img HR). cbn [fst snd].
    rewrite !app_nil_r in ER. destruct HR as [_ HF]. rewrite (concat_length_rect w img HF) in ER.
    replace (Z.to_nat (3 * Z.of_nat w * Z.of_nat (length img))) with (3 * (w * length img))%nat by lia.
    cbn [app] in ER. rewrite ER. reflexivity.
  Qed.

  Lemma read_word z rest : 0 <= z <= 65535 -> read_words 1 (uint16BE z ++ rest) = Some ([z], rest).
  Proof.
    intros H. unfold uint16BE. rewrite (Z.mod_small z) by lia. cbn [app read_words]. do 2 f_equal. f_equal.
    change (2 ^ 8) with 256. rewrite (Z.mod_small (z / 256)) by (split; [apply Z.div_pos; lia|apply Z.div_lt_upper_bound; lia]).
    symmetry. apply Z.div_mod. lia.
  Qed.
  Lemma read_words_app a b l xs l' ys l'' :
    read_words a l = Some (xs, l') -> read_words b l' = Some (ys, l'') -> read_words (a + b) l = Some (xs ++ ys, l'').
  Proof.
    revert l xs. induction a as [|a IH]; intros l xs H1 H2; cbn [Nat.add read_words] in *.
    - injection H1 as <- <-. exact H2.
    - destruct l as [|hi [|lo l]]; try easy.
      destruct (read_words a l) as [[zs k]|] eqn:E; [|easy]. injection H1 as <- <-.
      now rewrite (IH l zs E H2).
  Qed.
  Lemma read_word_row (row : list (color F)) rest :
    read_words (3 * length row) (flat_map wordBytes row ++ rest)
      = Some (flat_map (fun c => [trunc16 (cR c); trunc16 (cG c); trunc16 (cB c)]) row, rest).
  Proof.
    induction row as [|c row IH]; [reflexivity|]. cbn [flat_map length]. rewrite <- app_assoc.
    replace (3 * S (length row))%nat with (3 + 3 * length row)%nat by lia.
    eapply read_words_app; [|exact IH]. unfold wordBytes. rewrite <- !app_assoc.
    change 3%nat with (1 + (1 + 1))%nat. change [trunc16 (cR c); trunc16 (cG c); trunc16 (cB c)] with ([trunc16 (cR c)] ++ [trunc16 (cG c)] ++ [trunc16 (cB c)]).
    eapply read_words_app; [apply read_word, trunc16_range|].
    eapply read_words_app; apply read_word, trunc16_range.
  Qed.
  Lemma binary_round_trip w (img : rows) : rectangular w img ->
    exists bytes,
      encode48BE collect img nil = (false, bytes) /\
      read_P6 bytes = Some (Netpbm (Z.of_nat w) (Z.of_nat (length img)) 65535 (samples img), nil).
  Proof.
    intros HR. exists (binaryBytes img). rewrite binary_collect. cbn [app]. split; [easy|].
    destruct (read_header 6 img (flat_map (fun row => flat_map wordBytes row) img) (or_intror I)) as (body & EB & EN).
    unfold binaryBytes. rewrite EB. change (48 + 6) with 54. cbn [read_P6]. rewrite EN.
    rewrite (rowsSize_rect w img HR). cbn [fst snd]. change (is_white 10 && (256 <=? 65535)) with true. cbv iota.
    destruct HR as [_ HF].
    replace (flat_map (fun row => flat_map wordBytes row) img) with (flat_map wordBytes (concat img) ++ []).
    2:{ rewrite app_nil_r. clear. induction img as [|row img IH]; [reflexivity|]. cbn [concat flat_map]. now rewrite flat_map_app, IH. }
    replace (Z.to_nat (3 * Z.of_nat w * Z.of_nat (length img))) with (3 * length (concat img))%nat by (rewrite (concat_length_rect w img HF); lia).
    rewrite read_word_row. reflexivity.
  Qed.

  (** ** Failing writers *)
  Context {W : Type} (write : list Z -> W -> bool * W).
  Notation lg := (logged write).
  Notation logstate := (W * list (list Z * bool))%type.

  (** what a part of an encoder does to the log: all writes that it reports as successful were *)
  Definition honest (a : logstate -> bool * logstate) (bytes : list Z) : Prop :=
    forall s, exists log, snd (snd (a s)) = snd s ++ log /\
      (fst (a s) = false -> Forall (fun x => snd x = false) log /\ concat (map fst log) = bytes) /\
      (fst (a s) = true -> exists x, In x log /\ snd x = true).
  Lemma honest_write bs : honest (lg bs) bs.
  Proof.
    intros s. unfold logged. destruct (write bs (fst s)) as [e w]. cbn [fst snd]. exists [(bs, e)].
    split; [easy|]. split; intros ->.
    - split; [now repeat constructor|]. cbn. apply app_nil_r.
    - exists (bs, true). split; [now left|easy].
  Qed.
  Lemma honest_ok : honest wok nil.
  Proof. intros s. exists nil. rewrite app_nil_r. split; [easy|]. split; [now repeat constructor|easy]. Qed.
  Lemma honest_then a b x y : honest a x -> honest b y -> honest (wthen a b) (x ++ y).
  Proof.
    intros HA HB s. unfold wthen. specialize (HA s). destruct (a s) as [e s1]. destruct HA as (l1 & E1 & A1 & B1). cbn [fst snd] in *.
    destruct e.
    - exists l1. split; [easy|]. split; [easy|]. intros _. now apply B1.
    - destruct (HB s1) as (l2 & E2 & A2 & B2). exists (l1 ++ l2). split; [rewrite E2, E1; now rewrite app_assoc|].
      destruct (A1 eq_refl) as [F1 C1]. split.
      + intros H. destruct (A2 H) as [F2 C2]. split; [apply Forall_app; easy|]. rewrite map_app, concat_app. now f_equal.
      + intros H. destruct (B2 H) as (z & I & Hz). exists z. split; [apply in_or_app; now right|easy].
  Qed.
  Lemma honest_each {A} (f : A -> logstate -> bool * logstate) (g : A -> list Z) l :
    (forall a, honest (f a) (g a)) -> honest (weach f l) (flat_map g l).
  Proof. intros H. induction l as [|a l IH]; [apply honest_ok|]. cbn [weach flat_map]. now apply honest_then. Qed.
  Lemma honest_header fmt (img : rows) : honest (writeHeader lg fmt img) (headerBytes fmt img).
  Proof.
    unfold writeHeader, headerBytes. destruct (rowsSize img) as [dx dy]. cbn [fst snd].
    repeat apply honest_then; apply honest_write.
  Qed.
  Lemma honest_ascii (img : rows) : honest (encodeAscii16 lg img) (asciiBytes img).
  Proof.
    unfold encodeAscii16, asciiBytes. apply honest_then; [apply honest_header|].
    apply honest_each. intros row. apply honest_then; [|apply honest_write].
    apply honest_each. intros c. apply honest_write.
  Qed.
End Collect.

Section Failing.
  Context {F : Type} `{NF : Num F} `{TF : Trig F}.
  Notation rows := (list (list (color F))).

  Lemma ascii_reports_errors {W} (write : list Z -> W -> bool * W) (img : rows) (w w' : W) log e :
    encodeAscii16 (logged write) img (w, nil) = (e, (w', log)) ->
    (e = false <-> Forall (fun x => snd x = false) log) /\
    (e = false -> encodeAscii16 collect img nil = (false, concat (map fst log))).
  Proof.
    intros H. destruct (honest_ascii write img (w, nil)) as (l & E & A & B).
    rewrite H in *. cbn [fst snd app] in *. subst l. split.
    - split; [intros ->; now apply A|]. intros HF. destruct e; [|easy].
      destruct (B eq_refl) as (x & I & Hx). rewrite Forall_forall in HF. rewrite (HF x I) in Hx. discriminate.
    - intros ->. destruct (A eq_refl) as [_ EB]. rewrite EB. now rewrite ascii_collect.
  Qed.

  (** Encode48BE attempts to write everything unless it returns an error *)
  Definition complete {W} (a : W * list (list Z * bool) -> bool * (W * list (list Z * bool))) (bytes : list Z) : Prop :=
    forall s, exists log, snd (snd (a s)) = snd s ++ log /\
      (fst (a s) = false -> concat (map fst log) = bytes) /\
      (fst (a s) = true -> exists x, In x log /\ snd x = true).
  Lemma complete_drop {W} (write : list Z -> W -> bool * W) bs b y : complete b y -> complete (wdrop (logged write bs) b) (bs ++ y).
  Proof.
    intros HB s. unfold wdrop. destruct (honest_write write bs s) as (l1 & E1 & _ & _).
    assert (L : l1 = [(bs, fst (logged write bs s))]).
    { unfold logged in *. destruct (write bs (fst s)) as [e w]. cbn [fst snd] in *. apply app_inv_head in E1. easy. }
    destruct (logged write bs s) as [e s1]. cbn [fst snd] in *. subst l1.
    destruct (HB s1) as (l2 & E2 & A2 & B2). exists ((bs, e) :: l2). split; [rewrite E2, E1, <- app_assoc; reflexivity|]. split.
    - intros H. cbn [map concat fst]. now rewrite (A2 H).
    - intros H. destruct (B2 H) as (z & I & Hz). exists z. split; [now right|easy].
  Qed.
  Lemma complete_then {W} (a b : W * list (list Z * bool) -> bool * (W * list (list Z * bool))) x y :
    complete a x -> complete b y -> complete (wthen a b) (x ++ y).
  Proof.
    intros HA HB s. unfold wthen. specialize (HA s). destruct (a s) as [e s1]. destruct HA as (l1 & E1 & A1 & B1). cbn [fst snd] in *.
    destruct e.
    - exists l1. split; [easy|]. split; [easy|]. intros _. now apply B1.
    - destruct (HB s1) as (l2 & E2 & A2 & B2). exists (l1 ++ l2). split; [rewrite E2, E1; now rewrite app_assoc|]. split.
      + intros H. rewrite map_app, concat_app. rewrite (A1 eq_refl), (A2 H). reflexivity.
      + intros H. destruct (B2 H) as (z & I & Hz). exists z. split; [apply in_or_app; now right|easy].
  Qed.
  Lemma complete_ok {W} : complete (@wok (W * list (list Z * bool))) nil.
  Proof. intros s. exists nil. rewrite app_nil_r. split; [easy|]. split; easy. Qed.
  Lemma complete_each {W A} (f : A -> W * list (list Z * bool) -> bool * (W * list (list Z * bool))) (g : A -> list Z) l :
    (forall a, complete (f a) (g a)) -> complete (weach f l) (flat_map g l).
  Proof. intros H. induction l as [|a l IH]; [apply complete_ok|]. cbn [weach flat_map]. now apply complete_then. Qed.
  Lemma complete_binary {W} (write : list Z -> W -> bool * W) (img : rows) : complete (encode48BE (logged write) img) (binaryBytes img).
  Proof.
    unfold encode48BE, binaryBytes. apply complete_then.
    - intros s. destruct (honest_header write 6 img s) as (l & E & A & B). exists l. split; [easy|]. split; [|easy].
      intros H. now apply A.
    - apply complete_each. intros row. apply complete_each. intros c. unfold wordBytes.
      apply complete_drop, complete_drop. rewrite <- (app_nil_r (uint16BE (trunc16 (cB c)))). apply complete_drop, complete_ok.
  Qed.
  Lemma binary_errors_partial {W} (write : list Z -> W -> bool * W) (img : rows) (w w' : W) log e :
    encode48BE (logged write) img (w, nil) = (e, (w', log)) ->
    (e = true -> exists x, In x log /\ snd x = true) /\
    (e = false -> encode48BE collect img nil = (false, concat (map fst log))).
  Proof.
    intros H. destruct (complete_binary write img (w, nil)) as (l & E & A & B).
    rewrite H in *. cbn [fst snd app] in *. subst l. split; [exact B|].
    intros ->. rewrite (A eq_refl). now rewrite binary_collect.
  Qed.

  (** a disk that is full after three writes *)
  Definition full_after (n : nat) (bs : list Z) (written : nat) : bool * nat := ((n <=? written)%nat, S written).
  Lemma binary_drops_errors (c : color F) : exists log,
    encode48BE (logged (full_after 3)) [[c]] (0%nat, nil) = (false, (6%nat, log)) /\
    map snd log = [false; false; false; true; true; true].
  Proof.
    unfold encode48BE, writeHeader, wthen, wdrop, wok, weach. cbn [rowsSize].
    unfold logged, full_after. cbn [fst snd Nat.leb app]. eexists. split; [reflexivity|]. reflexivity.
  Qed.
End Failing.
