(** * Proofs about package api *)
From Coq Require Import ZArith Bool List Lia.
From Verif Require Import Num NumLaws Outcome GeomModel ColorModel ObjModel SceneModel ImageModel PpmSpec PpmProofs ApiModel ApiSpec.
Import ListNotations.

(** ** Names *)
Lemma name_eqb_spec a : forall b, name_eqb a b = true <-> a = b.
Proof.
  induction a as [|x a IH]; intros [|y b]; cbn; try (split; congruence).
  rewrite andb_true_iff, Z.eqb_eq, IH. split; [intros [-> ->]; reflexivity|intros E; injection E; auto].
Qed.
Lemma name_eqb_refl a : name_eqb a a = true. Proof. now apply name_eqb_spec. Qed.
Lemma name_eqb_neq a b : a <> b -> name_eqb a b = false.
Proof. intros H. destruct (name_eqb a b) eqn:E; [apply name_eqb_spec in E; congruence|reflexivity]. Qed.
Lemma name_dec (a b : list Z) : {a = b} + {a <> b}.
Proof. destruct (name_eqb a b) eqn:E; [left; now apply name_eqb_spec|right; intros ->; now rewrite name_eqb_refl in E]. Qed.

Lemma extLoop_suffix r : forall acc, extLoop r acc = nil \/ exists pre, rev r ++ acc = pre ++ extLoop r acc.
Proof.
  induction r as [|b r IH]; intros acc; cbn; [now left|].
  destruct (Z.eqb_spec b 47); [now left|]. destruct (Z.eqb_spec b 46).
  - right. exists (rev r). now rewrite <- app_assoc.
  - destruct (IH (b :: acc)) as [E|[pre E]]; [now left|]. right. exists pre. rewrite <- app_assoc. exact E.
Qed.
Lemma ext_suffix name : exists pre, name = pre ++ pathExt name.
Proof.
  unfold pathExt. destruct (extLoop_suffix (rev name) nil) as [E|[pre E]].
  - exists name. now rewrite E, app_nil_r.
  - exists pre. now rewrite rev_involutive, app_nil_r in E.
Qed.
Lemma noExt_ext name : noExt name ++ pathExt name = name.
Proof.
  destruct (ext_suffix name) as [pre E]. unfold noExt.
  remember (pathExt name) as e eqn:He. clear He. subst name.
  rewrite app_length. replace (length pre + length e - length e)%nat with (length pre) by lia.
  now rewrite firstn_app, Nat.sub_diag, firstn_all, firstn_O, app_nil_r.
Qed.

(** ** Files *)
Lemma fsStore_read fs name c r : fsRead (fsStore fs name c r) name = c.
Proof. unfold fsRead, fsStore; cbn. now rewrite name_eqb_refl. Qed.
Lemma fsStore_same fs name c r : fsFiles (fsStore fs name c r) name = Some c.
Proof. unfold fsStore; cbn. now rewrite name_eqb_refl. Qed.
Lemma fsStore_other fs name c r n : n <> name -> fsFiles (fsStore fs name c r) n = fsFiles fs n.
Proof. intros H. unfold fsStore; cbn. now rewrite (name_eqb_neq _ _ H). Qed.

Section Save.
  Context {F : Type} `{NF : Num F} `{TF : Trig F}.
  Notation rows := (list (list (color F))).
  Variables pngEncode jpegEncode : rows -> option (list Z).

  Lemma savef_cases img fname suffix fs e fs' :
    savef pngEncode jpegEncode img fname suffix fs = (e, fs') ->
    let ext := pathExt fname in
    let target := noExt fname ++ suffix ++ ext in
    let b := if name_eqb ext dotPng then pngEncode img else if (name_eqb ext dotJpg || name_eqb ext dotJpeg)%bool then jpegEncode img else None in
    match b with
    | None => e = true /\ fs' = fs
    | Some b =>
      if fsCreate fs target then
        fsFiles fs' target = Some (firstn (space_for fs target) b) /\ untouched [target] fs fs' /\
        (e = true <-> (space_for fs target < length b)%nat) /\ fsCreate fs' = fsCreate fs
      else e = true /\ fs' = fs
    end.
  Proof.
    cbv zeta. intros H. unfold savef in H.
    destruct (if name_eqb _ _ then _ else _) as [b|]; [|now injection H].
    set (target := noExt fname ++ suffix ++ pathExt fname) in *.
    unfold osCreate in H. destruct (fsCreate fs target) eqn:EC; [|now injection H].
    unfold osWrite in H. injection H as <- <-.
    rewrite fsStore_read. cbn [fsStore fsRoom app].
    fold (space_for fs target). set (sp := space_for fs target).
    repeat split.
    - rewrite fsStore_same. f_equal. destruct (Nat.le_gt_cases (length b) sp).
      + rewrite Nat.min_l by lia. now rewrite !firstn_all2 by lia.
      + now rewrite Nat.min_r by lia.
    - intros n Hn. rewrite fsStore_other by (intros ->; apply Hn; now left).
      apply fsStore_other. intros ->. apply Hn. now left.
    - intros H. apply Nat.ltb_lt in H. lia.
    - intros H. apply Nat.ltb_lt. lia.
  Qed.

  (** ** bufio *)
  Section Buf.
    Variables (name : list Z) (fs0 : fsys) (r0 : nat).

    (** the state after having been given the bytes [x] since the file was emptied *)
    Definition wrote (x : list Z) (w : bufWriter) : Prop :=
      (exists c, fsFiles (bwFs w) name = Some c) /\ untouched [name] fs0 (bwFs w) /\ fsCreate (bwFs w) = fsCreate fs0 /\
      if bwErr w then fsRead (bwFs w) name = firstn r0 x /\ (r0 < length x)%nat
      else fsRead (bwFs w) name ++ bwBuf w = x /\ fsRoom (bwFs w) + length (fsRead (bwFs w) name) = r0 /\
           (length (bwBuf w) <= bufSize)%nat.

    Lemma untouched_store n c r fs : untouched [n] fs0 fs -> untouched [n] fs0 (fsStore fs n c r).
    Proof. intros H m Hm. rewrite fsStore_other; [now apply H|]. intros ->. apply Hm. now left. Qed.

    Lemma write_state bs fs x buf : fsRead fs name ++ buf = x ->
      (exists c, fsFiles fs name = Some c) -> untouched [name] fs0 fs -> fsCreate fs = fsCreate fs0 ->
      fsRoom fs + length (fsRead fs name) = r0 -> buf = nil ->
      let '(n, e, fs') := osWrite name bs fs in
      forall b, wrote (x ++ bs) (BufWriter (if e then b else nil) e fs') /\ (e = false -> skipn n bs = nil).
    Proof.
      intros Hx Hf Hu Hc Hr ->. rewrite app_nil_r in Hx. cbn -[Nat.ltb Nat.min]. intros b.
      destruct (Nat.ltb_spec (Nat.min (length bs) (fsRoom fs)) (length bs)) as [Hl|Hl]; cbn [bwErr bwFs bwBuf].
      - split; [|discriminate]. repeat split; cbn [bwErr bwFs bwBuf].
        + eexists. apply fsStore_same.
        + now apply untouched_store.
        + exact Hc.
        + rewrite fsStore_read. rewrite Nat.min_r by lia. rewrite <- Hx, firstn_app.
          replace (r0 - length (fsRead fs name))%nat with (fsRoom fs) by lia.
          now rewrite (firstn_all2 (n:=r0)) by lia.
        + rewrite <- Hx, app_length. lia.
      - split; [|intros _; apply skipn_all2; lia]. repeat split; cbn [bwErr bwFs bwBuf].
        + eexists. apply fsStore_same.
        + now apply untouched_store.
        + exact Hc.
        + rewrite fsStore_read, app_nil_r, Nat.min_l by lia. rewrite firstn_all. now rewrite Hx.
        + rewrite fsStore_read, Nat.min_l by lia. rewrite firstn_all, app_length. cbn [fsStore fsRoom]. lia.
        + cbn. lia.
    Qed.

    Lemma wrote_more x y w : wrote x w -> bwErr w = true -> wrote (x ++ y) w.
    Proof.
      intros (Hf & Hu & Hc & H) E. unfold wrote. rewrite E in *. destruct H as [H Hl].
      split; [exact Hf|]. split; [exact Hu|]. split; [exact Hc|]. rewrite app_length. split; [|lia].
      rewrite H, firstn_app. replace (r0 - length x)%nat with 0%nat by lia. now rewrite firstn_O, app_nil_r.
    Qed.

    Lemma flush_ok x w : wrote x w -> wrote x (bufFlush name w) /\ (bwErr (bufFlush name w) = false -> bwBuf (bufFlush name w) = nil).
    Proof.
      intros Hw. unfold bufFlush. destruct (bwErr w) eqn:E; [split; [exact Hw|intros E2; rewrite E in E2; discriminate]|].
      destruct w as [buf err fs]; cbn [bwErr bwBuf bwFs] in *. subst err.
      destruct buf as [|b buf]; [now split|].
      destruct Hw as (Hf & Hu & Hc & H); cbn [bwErr bwFs bwBuf] in H. destruct H as (Hx & Hr & Hl).
      pose proof (write_state (b :: buf) fs (fsRead fs name) nil (app_nil_r _) Hf Hu Hc Hr eq_refl) as Hs.
      destruct (osWrite name (b :: buf) fs) as [[n e] fs'].
      specialize (Hs (skipn n (b :: buf))). rewrite Hx in Hs. destruct Hs as [Hs _]. split; [exact Hs|].
      cbn [bwErr bwBuf]. now intros ->.
    Qed.

    Definition buffers (a : bufWriter -> bool * bufWriter) (y : list Z) : Prop :=
      forall x w, wrote x w -> wrote (x ++ y) (snd (a w)) /\ fst (a w) = bwErr (snd (a w)).

    Lemma loop_step fuel bs w : bufWriteLoop (S fuel) name bs w =
      if (Nat.ltb (bufSize - length (bwBuf w)) (length bs) && negb (bwErr w))%bool then
        match bwBuf w with
        | nil => let '(n, e, fs) := osWrite name bs (bwFs w) in bufWriteLoop fuel name (skipn n bs) (BufWriter nil e fs)
        | _ =>
          let n := bufSize - length (bwBuf w) in
          bufWriteLoop fuel name (skipn n bs) (bufFlush name (BufWriter (bwBuf w ++ firstn n bs) false (bwFs w)))
        end
      else if bwErr w then (true, w)
      else (false, BufWriter (bwBuf w ++ bs) false (bwFs w)).
    Proof. reflexivity. Qed.

    (** the rest of the loop when the buffer is empty *)
    Lemma loop_done fuel x bs w : wrote x w -> (bwErr w = false -> (length bs <= bufSize - length (bwBuf w))%nat) ->
      let a := bufWriteLoop (S fuel) name bs w in wrote (x ++ bs) (snd a) /\ fst a = bwErr (snd a).
    Proof.
      intros Hw Hs. rewrite loop_step. destruct (bwErr w) eqn:E.
      - rewrite andb_false_r. cbn. split; [now apply wrote_more|now rewrite E].
      - destruct (Nat.ltb_spec (bufSize - length (bwBuf w)) (length bs)); [specialize (Hs eq_refl); lia|].
        cbn [andb fst snd bwErr]. split; [|reflexivity].
        destruct Hw as (Hf & Hu & Hc & H'). rewrite E in H'. destruct H' as (Hx & Hr & Hl).
        repeat split; cbn [bwErr bwFs bwBuf]; auto.
        + now rewrite app_assoc, Hx.
        + rewrite app_length. specialize (Hs eq_refl). lia.
    Qed.

    Lemma loop_empty fuel x bs w : wrote x w -> bwBuf w = nil ->
      let a := bufWriteLoop (S (S fuel)) name bs w in wrote (x ++ bs) (snd a) /\ fst a = bwErr (snd a).
    Proof.
      intros Hw Hb. destruct (bwErr w) eqn:E; [apply loop_done; auto; congruence|].
      destruct (Nat.le_gt_cases (length bs) (bufSize - length (bwBuf w))) as [Hle|Hgt]; [now apply loop_done|].
      rewrite (loop_step (S fuel)).
      rewrite E. rewrite (proj2 (Nat.ltb_lt _ _) Hgt). cbn [andb negb]. rewrite Hb.
      destruct Hw as (Hf & Hu & Hc & H). rewrite E in H. destruct H as (Hx & Hr & Hl). rewrite Hb in Hx.
      pose proof (write_state bs (bwFs w) x nil Hx Hf Hu Hc Hr eq_refl) as Hs.
      destruct (osWrite name bs (bwFs w)) as [[n e] fs']. specialize (Hs nil). destruct Hs as [Hs He].
      assert (Hs' : wrote (x ++ bs) (BufWriter nil e fs')) by (destruct e; exact Hs).
      destruct e.
      - rewrite loop_step. cbn [bwErr negb]. rewrite andb_false_r. now split.
      - rewrite (He eq_refl).
        pose proof (loop_done fuel _ nil _ Hs') as Hd. rewrite app_nil_r in Hd. apply Hd. cbn. lia.
    Qed.

    Lemma write_ok bs : buffers (bufWrite name bs) bs.
    Proof.
      intros x w Hw. unfold bufWrite. destruct (bwErr w) eqn:E; [apply loop_done; auto; congruence|].
      destruct (Nat.le_gt_cases (length bs) (bufSize - length (bwBuf w))) as [Hle|Hgt]; [now apply loop_done|].
      destruct (bwBuf w) as [|b0 buf] eqn:Hb; [now apply loop_empty|].
      rewrite (loop_step 2). rewrite Hb. rewrite E. rewrite (proj2 (Nat.ltb_lt _ _) Hgt). cbn [andb negb].
      set (n := bufSize - length (b0 :: buf)) in *. rewrite <- Hb.
      set (w1 := BufWriter (bwBuf w ++ firstn n bs) false (bwFs w)).
      assert (Hw1 : wrote (x ++ firstn n bs) w1).
      { destruct Hw as (Hf & Hu & Hc & H). rewrite E in H. destruct H as (Hx & Hr & Hl).
        repeat split; cbn [w1 bwErr bwFs bwBuf]; auto.
        - now rewrite app_assoc, Hx.
        - rewrite app_length, firstn_length, Hb. rewrite Hb in Hl. lia. }
      destruct (flush_ok _ _ Hw1) as [Hf He].
      destruct (bwErr (bufFlush name w1)) eqn:Ee.
      - pose proof (loop_done 1 _ (skipn n bs) _ Hf) as Hd. rewrite <- app_assoc, firstn_skipn in Hd. apply Hd. congruence.
      - pose proof (loop_empty 0 _ (skipn n bs) _ Hf (He eq_refl)) as Hd. rewrite <- app_assoc, firstn_skipn in Hd. exact Hd.
    Qed.

    (** [wok] returns no error, so it is only used in states without one *)
    Definition steps_on (a : bufWriter -> bool * bufWriter) (y : list Z) : Prop :=
      forall x w, wrote x w -> bwErr w = false -> wrote (x ++ y) (snd (a w)) /\ fst (a w) = bwErr (snd (a w)).
    Lemma on_write bs : steps_on (bufWrite name bs) bs. Proof. intros x w H _. now apply write_ok. Qed.
    Lemma on_ok : steps_on wok nil. Proof. intros x w H E. cbn. rewrite app_nil_r. now split. Qed.
    Lemma on_then a b y z : steps_on a y -> steps_on b z -> steps_on (wthen a b) (y ++ z).
    Proof.
      intros Ha Hb x w Hw E. unfold wthen. destruct (Ha x w Hw E) as [H1 H2].
      destruct (a w) as [e w1]; cbn [fst snd] in *. destruct e.
      - cbn. rewrite app_assoc. split; [apply wrote_more; auto|exact H2].
      - rewrite app_assoc. now apply Hb.
    Qed.
    Lemma on_each {A} (f : A -> bufWriter -> bool * bufWriter) g (l : list A) : (forall a, steps_on (f a) (g a)) -> steps_on (weach f l) (flat_map g l).
    Proof. intros H. induction l; cbn [weach flat_map]; [apply on_ok|now apply on_then]. Qed.
    Lemma on_ascii (img : rows) : steps_on (encodeAscii16 (bufWrite name) img) (asciiBytes img).
    Proof.
      unfold encodeAscii16, asciiBytes. apply on_then.
      - unfold writeHeader, headerBytes. destruct (rowsSize img) as [dx dy]. cbn [fst snd].
        repeat apply on_then; apply on_write.
      - apply on_each. intros row. apply on_then; [apply on_each; intros; apply on_write|apply on_write].
    Qed.
  End Buf.

  Lemma savePPM_cases fname (img : rows) fs e fs' :
    savePPM fname img fs = (e, fs') ->
    let b := asciiBytes img in
    if fsCreate fs fname then
      fsFiles fs' fname = Some (firstn (space_for fs fname) b) /\ untouched [fname] fs fs' /\ fsCreate fs' = fsCreate fs /\
      (e = true -> (space_for fs fname < length b)%nat) /\
      (e = false -> (length b <= space_for fs fname + bufSize)%nat)
    else e = true /\ fs' = fs.
  Proof.
    cbv zeta. unfold savePPM, osCreate. destruct (fsCreate fs fname) eqn:EC; [|intros H; now injection H].
    set (w0 := BufWriter nil false _).
    assert (H0 : wrote fname fs (space_for fs fname) nil w0).
    { repeat split.
      - eexists. apply fsStore_same.
      - intros n Hn. apply fsStore_other. intros ->. apply Hn. now left.
      - unfold w0; cbn [bwFs bwBuf]. now rewrite fsStore_read.
      - unfold w0; cbn [bwFs]. rewrite fsStore_read. unfold space_for. cbn [fsStore fsRoom length]. lia.
      - apply Nat.le_0_l. }
    destruct (on_ascii fname fs (space_for fs fname) img nil w0 H0 eq_refl) as [H1 H2]. cbn [app] in H1.
    destruct (encodeAscii16 _ img w0) as [e1 w1]. cbn [fst snd] in *. intros H; injection H as <- <-.
    destruct (flush_ok _ _ _ _ _ H1) as [H3 H4].
    destruct H3 as ((c & Hc) & Hu & Hcr & H3).
    assert (Hrd : forall f, fsFiles f fname = Some c -> fsRead f fname = c) by (intros f Hf; unfold fsRead; now rewrite Hf).
    rewrite Hc. rewrite (Hrd _ Hc) in H3. split; [|split; [exact Hu|split; [exact Hcr|split]]].
    - f_equal. destruct (bwErr (bufFlush fname w1)).
      + exact (proj1 H3).
      + destruct H3 as (H5 & H6 & _). rewrite (H4 eq_refl), app_nil_r in H5. subst c. rewrite firstn_all2; [reflexivity|lia].
    - intros ->. destruct H1 as (_ & _ & _ & H1). rewrite <- H2 in H1. apply H1.
    - intros ->. destruct H1 as (_ & _ & _ & H1). rewrite <- H2 in H1. destruct H1 as (H5 & H6 & H7).
      rewrite <- H5, app_length. lia.
  Qed.
End Save.
