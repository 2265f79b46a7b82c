(** * The statements of PropsApi, derived from the lemmas about package api *)
From Coq Require Import ZArith Reals Bool List Lia Lra.
From Verif Require Import Num NumLaws Outcome GeomModel ColorModel ObjModel SceneModel ColorProofs ImageModel PpmSpec PpmProofs ApiModel ApiSpec ApiProofs ApiRender ApiView.
Import ListNotations.
Local Open Scope Z_scope.
Ltac Zify.zify_post_hook ::= Z.div_mod_to_equations.

Section Defaults.
  Context {F M L Med : Type} `{NF : Num F} `{TF : Trig F}.
  Variables (nm n2 fb : M).
  Notation spec := (spec F M L Med).
  Lemma init_no_height (s s' : spec) : spWidth s = 1 -> spHeight s = 0 -> initDefaults nm n2 fb s = Val s' -> spHeight s' = 0.
  Proof.
    intros Hw Hh H. assert (Hs : sizes s) by (split; lia). destruct (init_inv _ _ _ _ _ Hs H) as (c & -> & _).
    cbn [spHeight]. unfold theHeight. rewrite Hw, Hh. reflexivity.
  Qed.
  Lemma init_backdrop_twice (s s1 s2 : spec) o :
    0 <= spWidth s <= 2 ^ 51 -> 0 <= spHeight s <= 2 ^ 51 -> spDebugNormals s = 1 -> spObjects s = [o] -> aoIsBackdrop o = true ->
    initDefaults nm n2 fb s = Val s1 -> initDefaults nm n2 fb s1 = Val s2 ->
    exists o1 o2, spObjects s1 = [o1] /\ spObjects s2 = [o2] /\ all_material fb (aoInterface o1) /\ all_material nm (aoInterface o2).
  Proof.
    intros Hw Hh Hd Ho Hb H1 H2. assert (Hs : sizes s) by (split; lia).
    apply (init_backdrop nm n2 fb s s1 s2 o); auto.
    destruct (init_inv _ _ _ _ _ Hs H1) as (c & -> & _). unfold sizes; cbn [spWidth spHeight]. unfold theWidth, theHeight.
    destruct (Z.eqb_spec (spWidth s) 0); destruct (Z.eqb_spec (spHeight s) 0); lia.
  Qed.
End Defaults.

Section Save.
  Context {F : Type} `{NF : Num F} `{TF : Trig F}.
  Notation rows := (list (list (color F))).
  Variables png jpeg : rows -> option (list Z).

  Lemma ascii_bytes (img : rows) : encodeAscii16 collect img nil = (false, asciiBytes img).
  Proof. now rewrite ascii_collect. Qed.

  Lemma stem_noExt stem name : stem_of stem name -> noExt name = stem.
  Proof.
    intros (ext & -> & H).
    assert (E : pathExt (stem ++ 46 :: ext) = 46 :: ext).
    { unfold pathExt. rewrite rev_app_distr. cbn [rev]. rewrite <- app_assoc. cbn [app].
      assert (G : forall r acc, Forall (fun c => c <> 46 /\ c <> 47) r -> extLoop (r ++ 46 :: rev stem) acc = 46 :: rev r ++ acc).
      { induction r as [|c r IH]; intros acc Hr; cbn [app extLoop].
        - reflexivity.
        - inversion Hr as [|? ? [H1 H2] Hr2]; subst. destruct (Z.eqb_spec c 47); [easy|]. destruct (Z.eqb_spec c 46); [easy|].
          rewrite IH by exact Hr2. cbn [rev]. now rewrite <- app_assoc. }
      rewrite G by now apply Forall_rev. now rewrite rev_involutive, app_nil_r. }
    apply (app_inv_tail (46 :: ext)). pose proof (noExt_ext (stem ++ 46 :: ext)) as N. now rewrite E in N.
  Qed.

  Lemma local_rendering (shot : list Z -> rows) (post : rows -> rows) (flagO : list Z) (numPass : Z) (fs : fsys) :
    exists fuel w, renderLocal png jpeg fuel shot post flagO numPass fs = Val w /\
      exists k : nat, wCalls w = counting k /\ (forall j, 0 <= j < Z.of_nat k -> triangular j < numPass) /\
        (wExit w = false ->
          first_reaching numPass (Z.of_nat k) /\
          (0 < numPass -> exists b, stored_as png jpeg flagO (post (shot (counting k))) b /\ fsFiles (wFs w) flagO = Some b) /\
          (forall stem, stem_of stem flagO -> exists n bytes, encodeAscii16 collect (post (shot (counting k))) nil = (false, bytes) /\
            fsFiles (wFs w) (stem ++ [46; 112; 112; 109]) = Some (firstn n bytes))).
  Proof.
    destruct (local_ends png jpeg shot post flagO numPass fs) as (fuel & w & H & k & K1 & K2 & K3).
    exists fuel, w. split; [exact H|]. exists k. split; [exact K1|]. split; [exact K2|]. intros Hx.
    destruct (K3 Hx) as (K4 & K5 & n & K6). split; [split; [lia|now split]|]. split.
    - intros Hp. assert (Hk : k <> O) by (intros ->; cbn in K4; lia). destruct (K5 Hk) as (b & B1 & B2 & _). now exists b.
    - intros stem Hs. apply stem_noExt in Hs. rewrite <- Hs. exists n, (asciiBytes (post (shot (counting k)))). split; [apply ascii_bytes|exact K6].
  Qed.

  Lemma stored_inv fname (img : rows) b :
    (if name_eqb (pathExt fname) dotPng then png img
     else if (name_eqb (pathExt fname) dotJpg || name_eqb (pathExt fname) dotJpeg)%bool then jpeg img else None) = Some b ->
    stored_as png jpeg fname img b.
  Proof.
    rewrite <- (noExt_ext fname) at 4.
    destruct (name_eqb (pathExt fname) dotPng) eqn:E1.
    - apply name_eqb_spec in E1. rewrite E1. apply as_png.
    - destruct (name_eqb (pathExt fname) dotJpg) eqn:E2.
      + apply name_eqb_spec in E2. rewrite E2. apply as_jpg.
      + destruct (name_eqb (pathExt fname) dotJpeg) eqn:E3; [|discriminate].
        apply name_eqb_spec in E3. rewrite E3. apply as_jpeg.
  Qed.

  Lemma savef_unencodable (img : rows) fname suffix fs :
    (forall b, ~ stored_as png jpeg fname img b) -> savef png jpeg img fname suffix fs = (true, fs).
  Proof.
    intros H. destruct (savef png jpeg img fname suffix fs) as [e fs'] eqn:E. apply savef_cases in E. cbv zeta in E.
    destruct (if name_eqb _ _ then _ else _) as [b|] eqn:Eb; [|now destruct E as [-> ->]].
    apply stored_inv in Eb. now apply H in Eb.
  Qed.

  Lemma savef_results (img : rows) fname fs e fs' : savef png jpeg img fname nil fs = (e, fs') ->
    (e = false -> exists b, stored_as png jpeg fname img b /\ fsFiles fs' fname = Some b /\ untouched [fname] fs fs') /\
    (e = true -> fs' = fs \/ exists b n, stored_as png jpeg fname img b /\ (n < length b)%nat /\ fsFiles fs' fname = Some (firstn n b) /\ untouched [fname] fs fs') /\
    (forall b, stored_as png jpeg fname img b -> fsCreate fs fname = true -> (length b <= space_for fs fname)%nat -> e = false).
  Proof.
    intros H. split; [|split].
    - intros ->. destruct (savef_ok _ _ _ _ _ _ H) as (b & H1 & H2 & H3 & _). now exists b.
    - intros ->. apply savef_cases in H. cbv zeta in H. cbn [app] in H. rewrite noExt_ext in H.
      destruct (if name_eqb _ _ then _ else _) as [b|] eqn:Eb; [|left; now destruct H].
      apply stored_inv in Eb. destruct (fsCreate fs fname); [|left; now destruct H].
      destruct H as (H1 & H2 & H3 & _). right. exists b, (space_for fs fname). split; [exact Eb|]. split; [now apply H3|]. now split.
    - intros b Hb Hc Hl. apply savef_cases in H. cbv zeta in H. cbn [app] in H. rewrite noExt_ext in H.
      assert (Eb : (if name_eqb (pathExt fname) dotPng then png img
        else if (name_eqb (pathExt fname) dotJpg || name_eqb (pathExt fname) dotJpeg)%bool then jpeg img else None) = Some b).
      { destruct Hb as [s i b Hb|s i b Hb|s i b Hb]; unfold pathExt; rewrite rev_app_distr; exact Hb. }
      rewrite Eb, Hc in H. destruct H as (_ & _ & H & _). destruct e; [|reflexivity]. assert (space_for fs fname < length b)%nat by now apply H. lia.
  Qed.

  Lemma savePPM_results fname (img : rows) bytes fs e fs' :
    encodeAscii16 collect img nil = (false, bytes) -> savePPM fname img fs = (e, fs') ->
    (fsCreate fs fname = false -> e = true /\ fs' = fs) /\
    (fsCreate fs fname = true ->
       fsFiles fs' fname = Some (firstn (space_for fs fname) bytes) /\ untouched [fname] fs fs' /\
       ((length bytes <= space_for fs fname)%nat -> e = false) /\
       ((space_for fs fname + 4096 < length bytes)%nat -> e = true)).
  Proof.
    rewrite ascii_bytes. intros Hb H. injection Hb as <-. apply savePPM_cases in H. cbv zeta in H.
    destruct (fsCreate fs fname); split; intros Hc; try discriminate.
    - destruct H as (H1 & H2 & _ & H3 & H4). split; [exact H1|]. split; [exact H2|]. split; intros Hl.
      + destruct e; [specialize (H3 eq_refl); lia|reflexivity].
      + destruct e; [reflexivity|]. specialize (H4 eq_refl). unfold bufSize in H4. lia.
    - exact H.
  Qed.

  Lemma pixel_long (c : color F) : (6 <= length (asciiPixel c))%nat.
  Proof.
    assert (Hd : forall z, 0 <= z -> (1 <= length (fmtInt z))%nat).
    { intros z Hz. destruct (fmtInt_spec z Hz) as (H & _). destruct (fmtInt z); [congruence|cbn; lia]. }
    assert (Ht : forall x : F, 0 <= trunc16 x).
    { intros x. unfold trunc16. destruct (_ <? 0) eqn:E; [lia|]. apply Z.ltb_ge in E. exact E. }
    unfold asciiPixel. rewrite !app_length. cbn [length].
    pose proof (Hd _ (Ht (cR c))). pose proof (Hd _ (Ht (cG c))). pose proof (Hd _ (Ht (cB c))). lia.
  Qed.
  Lemma row_long (c : color F) n : (6 * n <= length (asciiBytes [repeat c n]))%nat.
  Proof.
    unfold asciiBytes. rewrite app_length. cbn [flat_map]. rewrite app_nil_r, app_length.
    assert (6 * n <= length (flat_map asciiPixel (repeat c n)))%nat; [|lia].
    induction n as [|n IH]; [cbn; lia|]. cbn [repeat flat_map]. rewrite app_length. pose proof (pixel_long c). lia.
  Qed.
  Lemma bytes_start (img : rows) : exists rest, asciiBytes img = 80 :: rest.
  Proof. eexists. reflexivity. Qed.

  Lemma ppm_destroys (c : color F) : exists fname (img : rows) fs fs' old new,
    fsFiles fs fname = Some old /\ savePPM fname img fs = (true, fs') /\ fsFiles fs' fname = Some new /\ new <> old /\ read_P3 new = None.
  Proof.
    set (img := [repeat c (32 * 32)] : rows).
    set (fs := FS (fun n => if name_eqb n [120] then Some [0] else None) (fun _ => true) 0).
    destruct (savePPM [120] img fs) as [e fs'] eqn:E. exists [120], img, fs, fs', [0], [80].
    destruct (proj2 (savePPM_results _ _ _ _ _ _ (ascii_bytes img) E) eq_refl) as (H1 & _ & _ & H2).
    pose proof (row_long c (32 * 32)) as Hl. fold img in Hl.
    replace (space_for fs [120]) with 1%nat in * by reflexivity.
    assert (e = true) as -> by (apply H2; lia).
    split; [reflexivity|]. split; [exact E|]. split.
    - rewrite H1. f_equal.
    - split; [discriminate|reflexivity].
  Qed.

  (** as long as everything fits in the buffer no write can fail *)
  Definition kept (name : list Z) (a : bufWriter -> bool * bufWriter) (y : list Z) : Prop :=
    forall b fs, (length b + length y <= bufSize)%nat -> a (BufWriter b false fs) = (false, BufWriter (b ++ y) false fs).
  Lemma kept_write name y : kept name (bufWrite name y) y.
  Proof.
    intros b fs H. unfold bufWrite. rewrite loop_step. cbn [bwBuf bwErr].
    replace (Nat.ltb (bufSize - length b) (length y)) with false by (symmetry; apply Nat.ltb_ge; lia). reflexivity.
  Qed.
  Lemma kept_then name a b y z : kept name a y -> kept name b z -> kept name (wthen a b) (y ++ z).
  Proof.
    intros Ha Hb w fs H. rewrite app_length in H. unfold wthen. rewrite Ha by lia. rewrite Hb; [now rewrite app_assoc|rewrite app_length; lia].
  Qed.
  Lemma kept_each {A} name (f : A -> bufWriter -> bool * bufWriter) g (l : list A) :
    (forall a, kept name (f a) (g a)) -> kept name (weach f l) (flat_map g l).
  Proof.
    intros H. induction l; cbn [weach flat_map]; [|now apply kept_then]. intros b fs _. cbn. now rewrite app_nil_r.
  Qed.
  Lemma kept_ascii name (img : rows) : kept name (encodeAscii16 (bufWrite name) img) (asciiBytes img).
  Proof.
    unfold encodeAscii16, asciiBytes. apply kept_then.
    - unfold writeHeader, headerBytes. destruct (rowsSize img) as [dx dy]. cbn [fst snd]. repeat apply kept_then; apply kept_write.
    - apply kept_each. intros row. apply kept_then; [apply kept_each; intros; apply kept_write|apply kept_write].
  Qed.
  Lemma small_never_fails fname (img : rows) fs e fs' : (length (asciiBytes img) <= bufSize)%nat -> fsCreate fs fname = true ->
    savePPM fname img fs = (e, fs') -> e = false.
  Proof.
    intros Hl Hc. unfold savePPM, osCreate. rewrite Hc, (kept_ascii fname img nil _); [|exact Hl]. intros H. now injection H as <- _.
  Qed.

  Lemma digits_bound fuel : forall z acc k, 0 <= z < 10 ^ Z.of_nat (S k) -> (length (digitsLoop fuel z acc) <= length acc + S k)%nat.
  Proof.
    induction fuel as [|fuel IH]; intros z acc k H; cbn [digitsLoop]; [lia|].
    destruct (Z.ltb_spec z 10); [cbn [length]; lia|]. destruct k as [|k]; [cbn in H; lia|].
    assert (H' : 0 <= z / 10 < 10 ^ Z.of_nat (S k)).
    { rewrite (Nat2Z.inj_succ (S k)), Z.pow_succ_r in H by lia. lia. }
    specialize (IH _ ((48 + z mod 10) :: acc) _ H'). cbn [length] in IH. lia.
  Qed.
  Lemma digits_short z : 0 <= z < 100000 -> (length (fmtInt z) <= 5)%nat.
  Proof.
    intros H. unfold fmtInt. destruct (Z.ltb_spec z 0); [lia|]. apply (digits_bound _ z nil 4). exact H.
  Qed.
  Lemma pixel_short (c : color F) : (length (asciiPixel c) <= 18)%nat.
  Proof.
    unfold asciiPixel. rewrite !app_length. cbn [length].
    assert (Hs : forall x : F, (length (fmtInt (trunc16 x)) <= 5)%nat).
    { intros x. apply digits_short. pose proof (trunc16_range x) as Hx. lia. }
    pose proof (Hs (cR c)). pose proof (Hs (cG c)). pose proof (Hs (cB c)). lia.
  Qed.
  Lemma ppm_silent (c : color F) : exists fname (img : rows) fs fs',
    rectangular 1 img /\ savePPM fname img fs = (false, fs') /\ fsFiles fs' fname = Some nil.
  Proof.
    set (img := [[c]] : rows). set (fs := FS (fun _ => None) (fun _ => true) 0).
    destruct (savePPM [120] img fs) as [e fs'] eqn:E. exists [120], img, fs, fs'.
    split; [split; [discriminate|repeat constructor]|].
    pose proof (proj2 (savePPM_results _ _ _ _ _ _ (ascii_bytes img) E) eq_refl) as (H1 & _).
    split; [|exact H1]. rewrite E. f_equal.
    apply (small_never_fails [120] img fs e fs'); [|reflexivity|exact E].
    unfold asciiBytes. rewrite app_length. unfold img at 2; cbn [flat_map]. rewrite !app_nil_r, app_length. pose proof (pixel_short c) as Hp.
    change (length (headerBytes 3 img)) with 13%nat. change (length [10]) with 1%nat. unfold bufSize. lia.
  Qed.

  Lemma pad5_five i : 0 <= i -> five_digits i (pad5 i).
  Proof.
    intros Hi. pose proof (pad5_value i nil Hi I) as Hv. rewrite app_nil_r in Hv.
    destruct (fmtInt_spec i Hi) as (_ & Hd & _). pose proof (digits_short i) as Hs.
    unfold five_digits. rewrite Hv. unfold pad5. destruct (Z.ltb_spec i 0); [lia|]. rewrite app_length, repeat_length.
    split; [apply Forall_app; split; [|exact Hd]|].
    - apply Forall_forall. intros x Hx. apply repeat_spec in Hx. now subst.
    - split; [reflexivity|]. split; lia.
  Qed.

  Lemma animation (shots : Z -> list Z -> rows) (passes : Z -> Z) (flagO stem : list Z) (numFrame : Z) (fs : fsys) :
    stem_of stem flagO -> exists w, animate png jpeg numFrame shots passes flagO fs = Val w /\
      let file name := stem ++ [45; 102; 114; 97; 109; 101; 115; 47] ++ name ++ [46; 106; 112; 103] in
      let frame i := shots i (repeat 1 (Z.to_nat (passes i))) in
      (exists k, 0 <= k <= Z.max 0 numFrame /\ (wExit w = false -> k = Z.max 0 numFrame) /\
         wCalls w = flat_map (fun i => repeat 1 (Z.to_nat (passes (Z.of_nat i)))) (seq 0 (Z.to_nat k))) /\
      (wExit w = false -> exists number, (forall i, 0 <= i -> five_digits i (number i)) /\
        (forall i, 0 <= i < numFrame -> exists b, jpeg (frame i) = Some b /\ fsFiles (wFs w) (file (number i)) = Some b) /\
        (0 < numFrame -> exists b, jpeg (frame (numFrame - 1)) = Some b /\ fsFiles (wFs w) (file [108; 97; 115; 116]) = Some b) /\
        (forall f, f <> file [108; 97; 115; 116] -> (forall i, 0 <= i < numFrame -> f <> file (number i)) -> fsFiles (wFs w) f = fsFiles fs f)).
  Proof.
    intros Hs. apply stem_noExt in Hs.
    assert (T : forall n i w, exists w', animateLoop png jpeg n i shots passes flagO w = Val w').
    { induction n as [|n IH]; intros i w; cbn [animateLoop]; [eauto|]. unfold renderFrame, checked.
      destruct (savef png jpeg _ (pathJoin (framesDir flagO) lastJpg) nil _) as [[] f1]; cbn; eauto.
      destruct (savef png jpeg _ (pathJoin (framesDir flagO) (pad5 i ++ dotJpg)) nil f1) as [[] f2]; cbn; eauto. }
    destruct (T (Z.to_nat numFrame) 0 (World nil fs false)) as (w & H). exists w. split; [exact H|].
    assert (Ef : forall name, pathJoin (framesDir flagO) (name ++ dotJpg) = stem ++ [45; 102; 114; 97; 109; 101; 115; 47] ++ name ++ [46; 106; 112; 103]).
    { intros name. unfold pathJoin, framesDir. rewrite Hs, <- app_assoc. reflexivity. }
    destruct (animate_ok _ _ shots passes flagO _ O _ _ H eq_refl) as ((k & K1 & K2 & K3) & K4).
    cbv zeta. split.
    - exists (Z.of_nat k). split; [lia|]. split; [intros Hx; rewrite (K3 Hx); lia|]. rewrite Nat2Z.id. exact K2.
    - intros Hx. destruct (K4 Hx) as (G1 & G2 & G3). exists pad5. split; [exact pad5_five|].
      split; [|split].
      + intros i Hi. rewrite <- Ef. apply G1. lia.
      + intros Hn. rewrite <- Ef. replace (numFrame - 1) with (Z.of_nat (0 + Z.to_nat numFrame) - 1) by lia. apply G2. lia.
      + intros f Hf Hi. apply G3; [|now rewrite <- Ef in Hf]. intros i Hi2. rewrite Ef. apply Hi. lia.
  Qed.
End Save.
