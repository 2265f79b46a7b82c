(** * Proofs about the mesh file parsers *)
From Coq Require Import ZArith Bool Lia Decimal String List Permutation.
From Verif Require Import Num GeomModel ParseModel ParseSpec.
Import ListNotations.
Local Open Scope Z_scope.

(** ** Characters and words *)
Lemma isSpace_white c : isSpace c = true <-> white c.
Proof.
  unfold isSpace, white. rewrite !orb_true_iff, !andb_true_iff, !Z.leb_le, !Z.eqb_eq. cbn [In]. lia.
Qed.
Lemma isSpace_not c : isSpace c = false <-> ~ white c.
Proof. rewrite <- isSpace_white. destruct (isSpace c); split; congruence. Qed.

Lemma text_eqb_eq a b : text_eqb a b = true <-> a = b.
Proof.
  revert b. induction a as [|x a IH]; intros [|y b]; cbn; try (split; congruence).
  rewrite andb_true_iff, Z.eqb_eq, IH. split; [ intros [-> ->]; reflexivity | intros [= -> ->]; auto ].
Qed.
Lemma text_eqb_refl a : text_eqb a a = true.
Proof. apply text_eqb_eq. reflexivity. Qed.
Lemma text_eqb_neq a b : text_eqb a b = false <-> a <> b.
Proof. rewrite <- text_eqb_eq. destruct (text_eqb a b); split; congruence. Qed.

Lemma fieldsFrom_solid w cur l : Forall (fun c => ~ white c) w -> fieldsFrom cur (w ++ l) = fieldsFrom (rev w ++ cur) l.
Proof.
  revert cur. induction w as [|c w IH]; intros cur H; cbn; [ reflexivity | ]. inversion_clear H as [|? ? Hc Hw].
  apply isSpace_not in Hc. rewrite Hc, IH by assumption. rewrite <- app_assoc. reflexivity.
Qed.
Lemma fieldsFrom_blank b l : blank b -> fieldsFrom nil (b ++ l) = fieldsFrom nil l.
Proof.
  induction 1 as [|c b Hc _ IH]; [ reflexivity | ]. cbn. apply isSpace_white in Hc. now rewrite Hc.
Qed.
Lemma fieldsFrom_end b cur l : blank b -> fieldsFrom cur (l ++ b) = fieldsFrom cur l.
Proof.
  intros Hb. revert cur. induction l as [|c l IH]; intros cur; cbn.
  - destruct b as [|c b]; [ reflexivity | ]. inversion_clear Hb as [|? ? Hc Hb']. cbn. apply isSpace_white in Hc. rewrite Hc.
    assert (E : fieldsFrom nil b = nil) by (rewrite <- (app_nil_r b); rewrite fieldsFrom_blank; auto).
    destruct cur; now rewrite E.
  - destruct (isSpace c); [ | apply IH ]. destruct cur; now rewrite IH.
Qed.

Lemma rev_nonnil (w : text) : w <> nil -> rev w <> nil.
Proof. intros H E. apply H. rewrite <- (rev_involutive w), E. reflexivity. Qed.

Lemma words_fields l ws : words l ws -> fields l = ws.
Proof.
  unfold fields. induction 1 as [b Hb|b w Hb [Hw1 Hw2]|b w c rest ws Hb [Hw1 Hw2] Hc Hr IH].
  - rewrite <- (app_nil_r b). rewrite fieldsFrom_blank by assumption. reflexivity.
  - rewrite fieldsFrom_blank by assumption. rewrite <- (app_nil_r w) at 1. rewrite fieldsFrom_solid by assumption.
    cbn. rewrite app_nil_r. pose proof (rev_nonnil w Hw1) as N. destruct (rev w) eqn:E; [ congruence | ].
    rewrite <- E, rev_involutive. reflexivity.
  - rewrite fieldsFrom_blank by assumption. rewrite fieldsFrom_solid by assumption. cbn. rewrite app_nil_r.
    apply isSpace_white in Hc. rewrite Hc. pose proof (rev_nonnil w Hw1) as N. destruct (rev w) eqn:E; [ congruence | ].
    rewrite <- E, rev_involutive, IH. reflexivity.
Qed.

Lemma words_white c l ws : white c -> words l ws -> words (c :: l) ws.
Proof.
  intros Hc H. inversion H as [b Hb|b w Hb Hw|b w c' rest ws' Hb Hw Hc' Hr]; subst.
  - constructor. now constructor.
  - change (c :: b ++ w) with ((c :: b) ++ w). constructor; [ now constructor | assumption ].
  - change (c :: b ++ w ++ c' :: rest) with ((c :: b) ++ w ++ c' :: rest). constructor; auto. now constructor.
Qed.
Lemma fieldsFrom_words l : forall cur, Forall (fun c => ~ white c) cur -> words (rev cur ++ l) (fieldsFrom cur l).
Proof.
  induction l as [|c l IH]; intros cur Hcur; cbn.
  - rewrite app_nil_r. destruct cur as [|a cur].
    + constructor. constructor.
    + apply (words_last nil); [ constructor | ]. split; [ intros E; apply (f_equal (@length Z)) in E; rewrite rev_length in E; discriminate | now apply Forall_rev ].
  - destruct (isSpace c) eqn:E.
    + apply isSpace_white in E. destruct cur as [|a cur].
      * cbn. apply words_white; [ assumption | ]. apply (IH nil). constructor.
      * apply (words_cons nil); [ constructor | | assumption | apply (IH nil); constructor ].
        split; [ intros E'; apply (f_equal (@length Z)) in E'; rewrite rev_length in E'; discriminate | now apply Forall_rev ].
    + apply isSpace_not in E. specialize (IH (c :: cur)). cbn in IH. rewrite <- app_assoc in IH. apply IH. now constructor.
Qed.
Lemma fields_words l ws : fields l = ws <-> words l ws.
Proof.
  split; [ | apply words_fields ]. intros <-. apply (fieldsFrom_words l nil). constructor.
Qed.

(** ** Trimming *)
Lemma trimLeft_split l : exists a, blank a /\ l = a ++ trimLeft l /\ forall c r, trimLeft l = c :: r -> ~ white c.
Proof.
  induction l as [|c l [a (Ha & E & H)]]; cbn.
  - exists nil. repeat split; [ constructor | discriminate ].
  - destruct (isSpace c) eqn:Ec.
    + apply isSpace_white in Ec. exists (c :: a). repeat split; [ now constructor | cbn; congruence | exact H ].
    + apply isSpace_not in Ec. exists nil. repeat split; [ constructor | ]. intros ? ? [= <- _]. exact Ec.
Qed.
Lemma trimLeft_blank a l : blank a -> trimLeft (a ++ l) = trimLeft l.
Proof. induction 1 as [|c b Hc _ IH]; [ reflexivity | ]. cbn. apply isSpace_white in Hc. now rewrite Hc. Qed.
Lemma trimLeft_solid l : (forall c r, l = c :: r -> ~ white c) -> trimLeft l = l.
Proof.
  destruct l as [|c l]; [ reflexivity | ]. intros H. cbn. specialize (H c l eq_refl). apply isSpace_not in H. now rewrite H.
Qed.
Lemma trimSpace_pads l w : trimSpace l = w <-> pads w l.
Proof.
  unfold trimSpace. split.
  - intros <-. destruct (trimLeft_split l) as [a (Ha & E & H)]. set (x := trimLeft l) in *.
    destruct (trimLeft_split (rev x)) as [b (Hb & E' & H')]. set (y := trimLeft (rev x)) in *.
    assert (Ex : x = rev y ++ rev b) by (rewrite <- rev_app_distr, <- E'; now rewrite rev_involutive).
    exists a, (rev b). repeat split; [ assumption | now apply Forall_rev | now rewrite <- Ex | | ].
    + intros c r Er. apply (H c (r ++ rev b)). rewrite Ex, Er. reflexivity.
    + intros c r Er. apply (H' c (rev r)). rewrite <- (rev_involutive y), Er, rev_app_distr. reflexivity.
  - intros (a & b & Ha & Hb & -> & H1 & H2). rewrite trimLeft_blank by assumption. destruct w as [|c w].
    + cbn. rewrite <- (app_nil_r b), trimLeft_blank by assumption. reflexivity.
    + rewrite (trimLeft_solid ((c :: w) ++ b)) by (cbn; intros c' r E; injection E as <- _; apply (H1 c w eq_refl)).
      rewrite rev_app_distr, trimLeft_blank by (now apply Forall_rev).
      rewrite trimLeft_solid; [ apply rev_involutive | ]. intros c' r Er. apply (H2 c' (rev r)).
      rewrite <- (rev_involutive (c :: w)), Er. reflexivity.
Qed.
Lemma pads_trim l : pads (trimSpace l) l.
Proof. now apply trimSpace_pads. Qed.
Lemma fields_trim l : fields (trimSpace l) = fields l.
Proof.
  destruct (pads_trim l) as (a & b & Ha & Hb & E & _ & _). rewrite E at 2. unfold fields.
  rewrite fieldsFrom_blank by assumption. now rewrite fieldsFrom_end.
Qed.

Lemma afterPrefix_spec p l r : afterPrefix p l = Some r <-> l = p ++ r.
Proof.
  revert l. induction p as [|x p IH]; intros l; cbn.
  - split; [ intros [= ->]; reflexivity | intros ->; reflexivity ].
  - destruct l as [|y l]; [ split; discriminate | ]. destruct (x =? y) eqn:E.
    + apply Z.eqb_eq in E. subst. rewrite IH. split; [ intros ->; reflexivity | intros [= ->]; reflexivity ].
    + apply Z.eqb_neq in E. split; [ discriminate | intros [= -> _]; congruence ].
Qed.
Lemma afterPrefix_none p l : afterPrefix p l = None <-> forall r, l <> p ++ r.
Proof.
  split.
  - intros E r Er. apply afterPrefix_spec in Er. congruence.
  - intros H. destruct (afterPrefix p l) as [r|] eqn:E; [ | reflexivity ]. apply afterPrefix_spec in E. now destruct (H r).
Qed.

(** ** Numbers *)
Lemma digitsVal_pos u acc : digitsVal (digits u) (Zpos acc) = Some (Zpos (Pos.of_uint_acc u acc)).
Proof.
  revert acc. induction u as [|u IH|u IH|u IH|u IH|u IH|u IH|u IH|u IH|u IH|u IH]; intros acc; cbn -[Z.mul Z.add Z.sub Pos.of_uint_acc];
    [ reflexivity | .. ];
    cbn [Pos.of_uint_acc]; rewrite <- IH; f_equal; lia.
Qed.
Lemma digitsVal_0 u : digitsVal (digits u) 0 = Some (Z.of_uint u).
Proof.
  unfold Z.of_uint. induction u as [|u IH|u IH|u IH|u IH|u IH|u IH|u IH|u IH|u IH|u IH]; cbn -[Z.mul Z.add Z.sub];
    [ reflexivity | exact IH | .. ];
    match goal with |- digitsVal _ ?x = _ => let y := eval compute in x in change x with y end;
    rewrite digitsVal_pos; reflexivity.
Qed.
Lemma digitsVal_digits l acc z : digitsVal l acc = Some z -> exists u, l = digits u.
Proof.
  revert acc. induction l as [|c l IH]; intros acc; cbn.
  - intros _. now exists Nil.
  - destruct ((48 <=? c) && (c <=? 57)) eqn:E; [ | discriminate ]. apply andb_true_iff in E. rewrite !Z.leb_le in E.
    intros H. apply IH in H. destruct H as [u ->].
    assert (C : c = 48 \/ c = 49 \/ c = 50 \/ c = 51 \/ c = 52 \/ c = 53 \/ c = 54 \/ c = 55 \/ c = 56 \/ c = 57) by lia.
    destruct C as [-> | [-> | [-> | [-> | [-> | [-> | [-> | [-> | [-> | ->]]]]]]]]].
    + now exists (D0 u). + now exists (D1 u). + now exists (D2 u). + now exists (D3 u). + now exists (D4 u).
    + now exists (D5 u). + now exists (D6 u). + now exists (D7 u). + now exists (D8 u). + now exists (D9 u).
Qed.
Lemma unsignedVal_spec l z : unsignedVal l = Some z <-> exists u, u <> Nil /\ l = digits u /\ z = Z.of_uint u.
Proof.
  split.
  - destruct l as [|c l]; [ discriminate | ]. intros H. change (digitsVal (c :: l) 0 = Some z) in H.
    destruct (digitsVal_digits _ _ _ H) as [u Eu]. exists u. split; [ intros ->; discriminate | ]. split; [ assumption | ].
    rewrite Eu, digitsVal_0 in H. congruence.
  - intros (u & Hu & -> & ->). unfold unsignedVal. rewrite <- digitsVal_0. destruct u; [ congruence | reflexivity .. ].
Qed.
Lemma digits_head u c r : digits u = c :: r -> 48 <= c <= 57.
Proof. destruct u; cbn; intros [= <- _]; lia. Qed.
Lemma signedVal_numeral w z : signedVal w = Some z <-> numeral w z.
Proof.
  unfold numeral. split.
  - destruct w as [|c w]; [ discriminate | ]. cbn [signedVal]. destruct (c =? 45) eqn:E1; [ | destruct (c =? 43) eqn:E2 ].
    + apply Z.eqb_eq in E1. subst. destruct (unsignedVal w) as [y|] eqn:E; [ | discriminate ]. cbn. intros [= <-].
      apply unsignedVal_spec in E. destruct E as (u & Hu & -> & ->). exists u. split; [ assumption | ]. right. right. now split.
    + apply Z.eqb_eq in E2. subst. intros E. apply unsignedVal_spec in E. destruct E as (u & Hu & -> & ->).
      exists u. split; [ assumption | ]. right. left. now split.
    + intros E. apply unsignedVal_spec in E. destruct E as (u & Hu & Ew & ->). exists u. split; [ assumption | ]. left. now split.
  - intros (u & Hu & [[-> ->]|[[-> ->]|[-> ->]]]).
    + destruct (digits u) as [|c r] eqn:E; [ destruct u; cbn in E; congruence | ].
      pose proof (digits_head _ _ _ E) as Hc. cbn [signedVal].
      destruct (c =? 45) eqn:E1; [ apply Z.eqb_eq in E1; lia | ]. destruct (c =? 43) eqn:E2; [ apply Z.eqb_eq in E2; lia | ].
      rewrite <- E. apply unsignedVal_spec. eauto.
    + change (unsignedVal (digits u) = Some (Z.of_uint u)). apply unsignedVal_spec. eauto.
    + change (option_map Z.opp (unsignedVal (digits u)) = Some (- Z.of_uint u)).
      assert (E : unsignedVal (digits u) = Some (Z.of_uint u)) by (apply unsignedVal_spec; eauto). now rewrite E.
Qed.
Lemma parseInt_spec bits w z : parseInt bits w = Some z <-> numeral w z /\ - 2 ^ (bits - 1) <= z < 2 ^ (bits - 1).
Proof.
  unfold parseInt. rewrite <- signedVal_numeral. destruct (signedVal w) as [v|]; [ | split; [ discriminate | intros [? _]; discriminate ] ].
  destruct ((- 2 ^ (bits - 1) <=? v) && (v <? 2 ^ (bits - 1))) eqn:E.
  - apply andb_true_iff in E. rewrite Z.leb_le, Z.ltb_lt in E. split; [ intros [= <-]; auto | intros [[= <-] _]; reflexivity ].
  - apply andb_false_iff in E. rewrite Z.leb_gt, Z.ltb_ge in E. split; [ discriminate | intros [[= <-] ?]; lia ].
Qed.
Lemma atoi_spec w z : atoi w = Some z <-> numeral w z /\ int64 z.
Proof. apply parseInt_spec. Qed.

(** ** Lines *)
Lemma terminated_cons l ls : terminated (l :: ls) = l ++ newline :: terminated ls.
Proof. unfold terminated. cbn [flat_map]. rewrite <- app_assoc. reflexivity. Qed.
Lemma terminated_app a b : terminated (a ++ b) = terminated a ++ terminated b.
Proof. unfold terminated. apply flat_map_app. Qed.

Lemma plyLinesFrom_line l cur t : one_line l -> plyLinesFrom cur (l ++ newline :: t) = (rev cur ++ l) :: plyLinesFrom nil t.
Proof.
  revert cur. induction l as [|c l IH]; intros cur H; cbn -[Z.eqb].
  - rewrite Z.eqb_refl, app_nil_r. reflexivity.
  - destruct (c =? 10) eqn:E; [ apply Z.eqb_eq in E; destruct H; left; unfold newline; congruence | ].
    rewrite IH by (intros I; apply H; now right). cbn. rewrite <- app_assoc. reflexivity.
Qed.
Lemma plyLines_terminated ls t : Forall one_line ls -> plyLines (terminated ls ++ t) = ls ++ plyLines t.
Proof.
  unfold plyLines. induction 1 as [|l ls Hl _ IH]; [ reflexivity | ].
  rewrite terminated_cons, <- app_assoc. cbn [app]. rewrite plyLinesFrom_line by assumption. cbn. now rewrite IH.
Qed.
Lemma plyLines_split t : exists rest, t = terminated (plyLines t) ++ rest /\ Forall one_line (plyLines t) /\ one_line rest.
Proof.
  enough (H : forall cur, one_line cur -> exists rest, rev cur ++ t = terminated (plyLinesFrom cur t) ++ rest /\
                Forall one_line (plyLinesFrom cur t) /\ one_line rest) by (apply (H nil); intros []).
  induction t as [|c t IH]; intros cur Hc; cbn -[Z.eqb].
  - exists (rev cur). rewrite app_nil_r. repeat split; [ constructor | ]. intros I. apply in_rev in I. auto.
  - destruct (c =? 10) eqn:E.
    + apply Z.eqb_eq in E. subst c. destruct (IH nil) as [rest (E & H1 & H2)]; [ intros [] | ].
      exists rest. rewrite terminated_cons, <- app_assoc. cbn in E |- *. rewrite <- E. repeat split; auto.
      constructor; [ | assumption ]. intros I. apply in_rev in I. auto.
    + apply Z.eqb_neq in E. destruct (IH (c :: cur)) as [rest (E' & H1 & H2)]; [ intros [I | I]; [ unfold newline in I; congruence | auto ] | ].
      exists rest. cbn in E'. rewrite <- app_assoc in E'. repeat split; assumption.
Qed.

(** ** PLY *)
Section Ply.
  Context {F : Type}.
  Variable number : text -> option F.

  Lemma plyHeader_step l ls nv nf a b rest : header ls nv nf ->
    plyHeader (l :: rest) nv nf = POk (a, b, rest) /\ pads (codes "end_header") l /\ a = nv /\ b = nf \/
    (exists nv' nf', header (ls ++ [l]) nv' nf' /\ plyHeader (l :: rest) nv nf = plyHeader rest nv' nf') \/
    plyHeader (l :: rest) nv nf = PError \/ pads (codes "end_header") l.
  Proof.
    intros H. cbn [plyHeader]. destruct (text_eqb (trimSpace l) (codes "end_header")) eqn:E.
    - right. right. right. apply trimSpace_pads. now apply text_eqb_eq.
    - right. apply text_eqb_neq in E. destruct (afterPrefix (codes "element vertex ") (trimSpace l)) as [w|] eqn:Ev.
      + apply afterPrefix_spec in Ev. destruct (atoi w) as [n|] eqn:En; [ | now right; left ]. left. exists n, nf.
        apply atoi_spec in En. destruct En as [N1 N2]. split; [ | reflexivity ].
        apply header_vertices with (nv := nv) (w := w); auto. rewrite <- Ev. apply pads_trim.
      + destruct (afterPrefix (codes "element face ") (trimSpace l)) as [w|] eqn:Ef.
        * apply afterPrefix_spec in Ef. destruct (atoi w) as [n|] eqn:En; [ | now right; left ]. left. exists nv, n.
          apply atoi_spec in En. destruct En as [N1 N2]. split; [ | reflexivity ].
          apply header_faces with (nf := nf) (w := w); auto. rewrite <- Ef. apply pads_trim.
        * left. exists nv, nf. split; [ | reflexivity ].
          apply header_other with (w := trimSpace l); auto using pads_trim; now apply afterPrefix_none.
  Qed.

  Lemma plyHeader_sound ls : forall pre nv nf a b rest, header pre nv nf -> plyHeader ls nv nf = POk (a, b, rest) ->
    exists hdr fin, ls = hdr ++ fin :: rest /\ header (pre ++ hdr) a b /\ pads (codes "end_header") fin.
  Proof.
    induction ls as [|l ls IH]; intros pre nv nf a b rest H E; [ discriminate | ].
    destruct (plyHeader_step l pre nv nf nv nf ls H) as [(E' & P & _)|[(nv' & nf' & H' & E')|[E'|P]]].
    - rewrite E' in E. injection E as <- <- <-. exists nil, l. rewrite app_nil_r. auto.
    - rewrite E' in E. destruct (IH _ _ _ _ _ _ H' E) as (hdr & fin & -> & Hh & Hf). exists (l :: hdr), fin.
      repeat split; auto. rewrite <- app_assoc in Hh. exact Hh.
    - congruence.
    - cbn [plyHeader] in E. pose proof P as P'. apply trimSpace_pads in P'. rewrite P', text_eqb_refl in E. injection E as <- <- <-.
      exists nil, l. rewrite app_nil_r. auto.
  Qed.
  Lemma plyHeader_complete hdr a b : header hdr a b -> forall tail, plyHeader (hdr ++ tail) 0 0 = plyHeader tail a b.
  Proof.
    induction 1 as [|ls nv nf l w n H IH P N I|ls nv nf l w n H IH P N I|ls nv nf l w H IH P H1 H2 H3]; intros tail;
      [ reflexivity | .. ]; rewrite <- app_assoc, IH; cbn [app plyHeader]; apply trimSpace_pads in P; rewrite P.
    - replace (text_eqb _ _) with false by reflexivity.
      assert (E : afterPrefix (codes "element vertex ") (codes "element vertex " ++ w) = Some w) by (now apply afterPrefix_spec).
      rewrite E. assert (A : atoi w = Some n) by (apply atoi_spec; auto). rewrite A. reflexivity.
    - replace (text_eqb _ _) with false by reflexivity.
      assert (E : afterPrefix (codes "element vertex ") (codes "element face " ++ w) = None) by reflexivity.
      rewrite E. assert (E' : afterPrefix (codes "element face ") (codes "element face " ++ w) = Some w) by (now apply afterPrefix_spec).
      rewrite E'. assert (A : atoi w = Some n) by (apply atoi_spec; auto). rewrite A. reflexivity.
    - apply text_eqb_neq in H1. rewrite H1. apply afterPrefix_none in H2. apply afterPrefix_none in H3. now rewrite H2, H3.
  Qed.

  Lemma plyVertex_spec l v : plyVertex number l = POk v <-> vertex_line number l v.
  Proof.
    unfold plyVertex, vertex_line. rewrite fields_trim. split.
    - destruct (fields l) as [|w0 [|w1 [|w2 more]]] eqn:E; try discriminate. apply fields_words in E.
      destruct (number w0) as [x|] eqn:E0; [ | discriminate ]. destruct (number w1) as [y|] eqn:E1; [ | discriminate ].
      destruct (number w2) as [z|] eqn:E2; [ | discriminate ]. intros [= <-]. exists w0, w1, w2, more. auto.
    - intros (w0 & w1 & w2 & more & W & E0 & E1 & E2). apply words_fields in W. rewrite W, E0, E1, E2. now destruct v.
  Qed.
  Lemma plyVertices_sound ls : forall n vs rest, 0 <= n -> plyVertices number ls n = POk (vs, rest) ->
    exists vls, ls = vls ++ rest /\ n = Z.of_nat (length vls) /\ Forall2 (vertex_line number) vls vs.
  Proof.
    induction ls as [|l ls IH]; intros n vs rest Hn; cbn [plyVertices].
    - destruct (n <=? 0) eqn:E; [ | discriminate ]. apply Z.leb_le in E. intros [= <- <-]. exists nil. repeat split; [ cbn; lia | constructor ].
    - destruct (n <=? 0) eqn:E.
      + apply Z.leb_le in E. intros [= <- <-]. exists nil. repeat split; [ cbn; lia | constructor ].
      + apply Z.leb_gt in E. destruct (plyVertex number l) as [v| |] eqn:Ev; try discriminate. cbn [pbind].
        destruct (plyVertices number ls (n - 1)) as [[vs' rest']| |] eqn:Er; try discriminate. cbn. intros [= <- <-].
        destruct (IH (n - 1) vs' rest') as (vls & -> & E' & H); [ lia | assumption | ].
        exists (l :: vls). repeat split; [ cbn [length]; lia | ]. constructor; [ now apply plyVertex_spec | assumption ].
  Qed.
  Lemma plyVertices_complete vls vs rest : Forall2 (vertex_line number) vls vs ->
    plyVertices number (vls ++ rest) (Z.of_nat (length vls)) = POk (vs, rest).
  Proof.
    induction 1 as [|l v vls vs Hv _ IH]; [ destruct rest; reflexivity | ].
    cbn [length plyVertices app]. rewrite (proj2 (Z.leb_gt _ _)) by lia. apply plyVertex_spec in Hv. rewrite Hv. cbn [pbind].
    replace (Z.of_nat (S (length vls)) - 1) with (Z.of_nat (length vls)) by lia. rewrite IH. reflexivity.
  Qed.

  Lemma plyFace_spec l ts : plyFace l = POk ts <-> face_line l ts.
  Proof.
    unfold plyFace. rewrite fields_trim. split.
    - destruct (fields l) as [|n ws] eqn:E; [ discriminate | ]. apply fields_words in E.
      destruct (atoi n) as [numV|] eqn:En; [ | discriminate ]. cbn [pget pbind]. apply atoi_spec in En. destruct En as [En _].
      destruct (numV =? 3) eqn:E3; [ | destruct (numV =? 4) eqn:E4 ]; cbn [orb negb]; [ | | discriminate ].
      + apply Z.eqb_eq in E3. subst numV. destruct ws as [|wa [|wb [|wc more]]]; try discriminate.
        destruct (atoi wa) as [a|] eqn:Ea; [ | discriminate ]. destruct (atoi wb) as [b|] eqn:Eb; [ | discriminate ].
        destruct (atoi wc) as [c|] eqn:Ec; [ | discriminate ]. cbn. intros [= <-].
        apply atoi_spec in Ea, Eb, Ec. econstructor; eassumption.
      + apply Z.eqb_eq in E4. subst numV. destruct ws as [|wa [|wb [|wc ws]]]; try discriminate.
        destruct (atoi wa) as [a|] eqn:Ea; [ | discriminate ]. destruct (atoi wb) as [b|] eqn:Eb; [ | discriminate ].
        destruct (atoi wc) as [c|] eqn:Ec; [ | discriminate ]. cbn. destruct ws as [|wd more]; [ discriminate | ].
        destruct (atoi wd) as [d|] eqn:Ed; [ | discriminate ]. cbn. intros [= <-].
        apply atoi_spec in Ea, Eb, Ec, Ed. eapply face_4; eassumption.
    - intros [n wa wb wc more a b c W N A B C|n wa wb wc wd more a b c d W N A B C D]; apply words_fields in W; rewrite W.
      + assert (E : atoi n = Some 3) by (apply atoi_spec; split; [ assumption | unfold int64; lia ]).
        rewrite E. apply atoi_spec in A, B, C. cbn. rewrite A, B, C. reflexivity.
      + assert (E : atoi n = Some 4) by (apply atoi_spec; split; [ assumption | unfold int64; lia ]).
        rewrite E. apply atoi_spec in A, B, C, D. cbn. rewrite A, B, C, D. reflexivity.
  Qed.
  Lemma plyFaces_sound ls : forall n fs, 0 <= n -> plyFaces ls n = POk fs ->
    exists fls rest tss, ls = fls ++ rest /\ n = Z.of_nat (length fls) /\ Forall2 face_line fls tss /\ fs = concat tss.
  Proof.
    induction ls as [|l ls IH]; intros n fs Hn; cbn [plyFaces].
    - destruct (n <=? 0) eqn:E; [ | discriminate ]. apply Z.leb_le in E. intros [= <-]. exists nil, nil, nil.
      repeat split; [ cbn; lia | constructor ].
    - destruct (n <=? 0) eqn:E.
      + apply Z.leb_le in E. intros [= <-]. exists nil, (l :: ls), nil. repeat split; [ cbn; lia | constructor ].
      + apply Z.leb_gt in E. destruct (plyFace l) as [f| |] eqn:Ef; try discriminate. cbn [pbind].
        destruct (plyFaces ls (n - 1)) as [fs'| |] eqn:Er; try discriminate. cbn. intros [= <-].
        destruct (IH (n - 1) fs') as (fls & rest & tss & -> & E' & H & ->); [ lia | assumption | ].
        exists (l :: fls), rest, (f :: tss). repeat split; [ cbn [length]; lia | ]. constructor; [ now apply plyFace_spec | assumption ].
  Qed.
  Lemma plyFaces_complete fls tss rest : Forall2 face_line fls tss ->
    plyFaces (fls ++ rest) (Z.of_nat (length fls)) = POk (concat tss).
  Proof.
    induction 1 as [|l f fls tss Hf _ IH]; [ destruct rest; reflexivity | ].
    cbn [length plyFaces app]. rewrite (proj2 (Z.leb_gt _ _)) by lia. apply plyFace_spec in Hf. rewrite Hf. cbn [pbind].
    replace (Z.of_nat (S (length fls)) - 1) with (Z.of_nat (length fls)) by lia. rewrite IH. reflexivity.
  Qed.

  Variable fits : Z -> bool.
  Lemma goMake_spec n : goMake fits n = POk tt <-> 0 <= n /\ enough fits n.
  Proof.
    unfold goMake, enough. destruct ((n <? 0) || (2 ^ 48 <? 24 * n)) eqn:E.
    - apply orb_true_iff in E. rewrite !Z.ltb_lt in E. split; [ discriminate | lia ].
    - apply orb_false_iff in E. rewrite !Z.ltb_ge in E. destruct (fits n); split; try discriminate; try tauto.
      intros [_ [_ ?]]; discriminate.
  Qed.

  Lemma plyParse_exact t vs fs : plyParse number fits t = POk (vs, fs) <->
    exists nv nf, ply_file number t nv nf vs fs /\ enough fits nv /\ enough fits nf.
  Proof.
    unfold plyParse. split.
    - destruct (plyLines_split t) as [r0 (Et & H1 & H2)]. destruct (plyLines t) as [|magic ls]; [ discriminate | ]. cbn [readLine pbind].
      destruct (text_eqb (trimSpace magic) (codes "ply")) eqn:E; [ | discriminate ]. apply text_eqb_eq, trimSpace_pads in E.
      cbn [negb]. destruct ls as [|format ls]; [ discriminate | ]. cbn [readLine pbind].
      destruct (text_eqb (trimSpace format) (codes "format ascii 1.0")) eqn:E'; [ | discriminate ].
      apply text_eqb_eq, trimSpace_pads in E'. cbn [negb].
      destruct (plyHeader ls 0 0) as [[[nv nf] ls1]| |] eqn:Eh; try discriminate. cbn [pbind].
      destruct (plyHeader_sound _ nil _ _ _ _ _ header_none Eh) as (hdr & fin & -> & Hh & Hf).
      destruct (goMake fits nv) as [[]| |] eqn:Mv; try discriminate. cbn [pbind]. apply goMake_spec in Mv. destruct Mv as [Pv Mv].
      destruct (plyVertices number ls1 nv) as [[vs' ls2]| |] eqn:Ev; try discriminate. cbn [pbind].
      destruct (plyVertices_sound _ _ _ _ Pv Ev) as (vls & -> & En & Hv).
      destruct (goMake fits nf) as [[]| |] eqn:Mf; try discriminate. cbn [pbind]. apply goMake_spec in Mf. destruct Mf as [Pf Mf].
      destruct (plyFaces ls2 nf) as [fs'| |] eqn:Ef; try discriminate. cbn. intros [= <- <-].
      destruct (plyFaces_sound _ _ _ Pf Ef) as (fls & rest & tss & -> & Em & Ht & ->).
      exists nv, nf. split; [ | split; assumption ]. exists magic, format, hdr, fin, vls, fls, (terminated rest ++ r0), tss.
      assert (Es : magic :: format :: hdr ++ fin :: vls ++ fls ++ rest = (magic :: format :: hdr ++ fin :: vls ++ fls) ++ rest)
        by (cbn; rewrite <- !app_assoc; cbn; rewrite <- !app_assoc; reflexivity).
      rewrite Es in Et, H1. rewrite terminated_app, <- app_assoc in Et. apply Forall_app in H1.
      repeat split; tauto || assumption.
    - intros (nv & nf & (magic & format & hdr & fin & vls & fls & rest & tss & -> & HL & Hm & Hf & Hh & He & Ev & Ef & Hv & Ht & ->) & Mv & Mf).
      rewrite plyLines_terminated by assumption. cbn [app readLine pbind].
      apply trimSpace_pads in Hm. rewrite Hm. rewrite text_eqb_refl. cbn [negb].
      apply trimSpace_pads in Hf. rewrite Hf. rewrite text_eqb_refl. cbn [negb].
      rewrite <- app_assoc. rewrite (plyHeader_complete _ _ _ Hh). cbn [app plyHeader]. apply trimSpace_pads in He. rewrite He.
      rewrite text_eqb_refl. cbn [pbind].
      assert (G : goMake fits nv = POk tt) by (apply goMake_spec; split; [ lia | assumption ]). rewrite G. cbn [pbind].
      rewrite Ev at 1. rewrite <- app_assoc. rewrite plyVertices_complete with (vs := vs) by assumption. cbn [pbind].
      assert (G' : goMake fits nf = POk tt) by (apply goMake_spec; split; [ lia | assumption ]). rewrite G'. cbn [pbind].
      rewrite Ef at 1. rewrite plyFaces_complete with (tss := tss) by assumption. reflexivity.
  Qed.
End Ply.

(** ** What follows the last face does not matter *)
Section Ply_rest.
  Context {F : Type}.
  Variables (number : text -> option F) (fits : Z -> bool).

  Lemma plyLines_one_line l : one_line l -> plyLines l = nil.
  Proof.
    intros H. unfold plyLines. enough (G : forall cur, plyLinesFrom cur l = nil) by apply G. revert H.
    induction l as [|c l IH]; intros H cur; [ reflexivity | ]. cbn -[Z.eqb].
    destruct (c =? 10) eqn:E; [ apply Z.eqb_eq in E; destruct H; left; unfold newline; congruence | ].
    apply IH. intros I. apply H. now right.
  Qed.
  Lemma plyParse_unterminated ls l : Forall one_line ls -> one_line l ->
    plyParse number fits (terminated ls ++ l) = plyParse number fits (terminated ls).
  Proof.
    intros H Hl. unfold plyParse. rewrite plyLines_terminated by assumption.
    rewrite <- (app_nil_r (terminated ls)), plyLines_terminated by assumption. rewrite plyLines_one_line by assumption. reflexivity.
  Qed.
  Lemma ply_file_app t nv nf vs fs x : ply_file number t nv nf vs fs -> ply_file number (t ++ x) nv nf vs fs.
  Proof.
    intros (magic & format & hdr & fin & vls & fls & rest & tss & -> & H).
    exists magic, format, hdr, fin, vls, fls, (rest ++ x), tss. split; [ now rewrite app_assoc | exact H ].
  Qed.
  Lemma plyParse_app t r x : plyParse number fits t = POk r -> plyParse number fits (t ++ x) = POk r.
  Proof.
    destruct r as [vs fs]. rewrite !plyParse_exact. intros (nv & nf & H & M). exists nv, nf. split; [ | exact M ]. now apply ply_file_app.
  Qed.

  Lemma pbind_not_dies {A B} (x : presult A) (f : A -> presult B) : x <> PDies -> (forall a, f a <> PDies) -> pbind x f <> PDies.
  Proof. destruct x; cbn; auto. discriminate. Qed.
  Lemma pget_not_dies {A} (x : option A) : pget x <> PDies.
  Proof. destruct x; discriminate. Qed.
  Lemma pmap_not_dies {A B} (f : A -> B) x : x <> PDies -> pmap f x <> PDies.
  Proof. intros H. apply pbind_not_dies; [ assumption | discriminate ]. Qed.

  Lemma plyParse_not_dies t : (forall n, fits n = true) -> plyParse number fits t <> PDies.
  Proof.
    intros Hf.
    assert (M : forall n, goMake fits n <> PDies) by (intros n; unfold goMake; rewrite Hf; destruct (_ || _); discriminate).
    assert (Hh : forall ls a b, plyHeader ls a b <> PDies).
    { induction ls as [|l ls IH]; intros a b; cbn [plyHeader]; [ discriminate | ]. destruct (text_eqb _ _); [ discriminate | ].
      destruct (afterPrefix _ _); [ apply pbind_not_dies; [ apply pget_not_dies | intros; apply IH ] | ].
      destruct (afterPrefix _ _); [ apply pbind_not_dies; [ apply pget_not_dies | intros; apply IH ] | apply IH ]. }
    assert (Hv : forall ls n, plyVertices number ls n <> PDies).
    { induction ls as [|l ls IH]; intros n; cbn [plyVertices]; destruct (n <=? 0); try discriminate.
      apply pbind_not_dies; [ | intros; apply pmap_not_dies, IH ].
      unfold plyVertex. destruct (fields (trimSpace l)) as [|? [|? [|? ?]]]; try discriminate.
      repeat (apply pbind_not_dies; [ apply pget_not_dies | intros ]). discriminate. }
    assert (Hfc : forall ls n, plyFaces ls n <> PDies).
    { induction ls as [|l ls IH]; intros n; cbn [plyFaces]; destruct (n <=? 0); try discriminate.
      apply pbind_not_dies; [ | intros; apply pmap_not_dies, IH ].
      unfold plyFace. destruct (fields (trimSpace l)) as [|w ws]; [ discriminate | ].
      apply pbind_not_dies; [ apply pget_not_dies | intros n' ]. destruct (negb _); [ discriminate | ].
      destruct ws as [|? [|? [|? more]]]; try discriminate.
      repeat (apply pbind_not_dies; [ apply pget_not_dies | intros ]). destruct (_ =? _); [ | discriminate ].
      destruct more; [ discriminate | ]. apply pmap_not_dies, pget_not_dies. }
    unfold plyParse. apply pbind_not_dies; [ destruct (plyLines t); discriminate | intros [magic ls] ]. destruct (negb _); [ discriminate | ].
    apply pbind_not_dies; [ destruct ls; discriminate | intros [format ls'] ]. destruct (negb _); [ discriminate | ].
    apply pbind_not_dies; [ apply Hh | intros [[nv nf] ls''] ]. apply pbind_not_dies; [ apply M | intros _ ].
    apply pbind_not_dies; [ apply Hv | intros [vs ls'''] ]. apply pbind_not_dies; [ apply M | intros _ ].
    apply pmap_not_dies, Hfc.
  Qed.
  Lemma plyParse_malformed t : (forall n, fits n = true) -> (forall nv nf vs fs, ~ ply_file number t nv nf vs fs) ->
    plyParse number fits t = PError.
  Proof.
    intros Hf H. destruct (plyParse number fits t) as [[vs fs]| |] eqn:E; [ | reflexivity | ].
    - apply plyParse_exact in E. destruct E as (nv & nf & E & _). destruct (H _ _ _ _ E).
    - destruct (plyParse_not_dies t Hf E).
  Qed.
End Ply_rest.

(** ** OBJ *)
Lemma scanFrom_line l cur t : one_line l -> scanFrom cur (l ++ newline :: t) = (rev cur ++ l) :: scanFrom nil t.
Proof.
  revert cur. induction l as [|c l IH]; intros cur H; cbn -[Z.eqb].
  - rewrite Z.eqb_refl, app_nil_r. reflexivity.
  - destruct (c =? 10) eqn:E; [ apply Z.eqb_eq in E; destruct H; left; unfold newline; congruence | ].
    rewrite IH by (intros I; apply H; now right). cbn. rewrite <- app_assoc. reflexivity.
Qed.
Lemma scanFrom_last l cur : one_line l -> scanFrom cur l = match rev cur ++ l with nil => nil | x => [x] end.
Proof.
  revert cur. induction l as [|c l IH]; intros cur H; cbn -[Z.eqb].
  - rewrite app_nil_r. destruct cur as [|a cur]; [ reflexivity | ]. cbn. destruct (rev cur ++ [a]) eqn:E; [ | reflexivity ].
    destruct (rev cur); discriminate.
  - destruct (c =? 10) eqn:E; [ apply Z.eqb_eq in E; destruct H; left; unfold newline; congruence | ].
    rewrite IH by (intros I; apply H; now right). cbn. rewrite <- app_assoc. reflexivity.
Qed.
Lemma scan_lines t ls : text_lines t ls <-> scanFrom nil t = ls.
Proof.
  split.
  - intros (full & last & -> & Hf & Hl & ->). induction Hf as [|l full H _ IH].
    + cbn [terminated flat_map app]. rewrite scanFrom_last by assumption. destruct last; reflexivity.
    + rewrite terminated_cons, <- app_assoc. cbn [app]. rewrite scanFrom_line by assumption. cbn. now rewrite IH.
  - intros <-.
    enough (H : forall cur, one_line cur -> text_lines (rev cur ++ t) (scanFrom cur t)) by (apply (H nil); intros []).
    induction t as [|c t IH]; intros cur Hc; cbn -[Z.eqb].
    + rewrite app_nil_r. exists nil, (rev cur). repeat split; [ constructor | intros I; apply in_rev in I; auto | ].
      destruct cur as [|a cur]; [ reflexivity | ]. cbn. destruct (rev cur ++ [a]) eqn:E; [ destruct (rev cur); discriminate | reflexivity ].
    + destruct (c =? 10) eqn:E.
      * apply Z.eqb_eq in E. subst c. destruct (IH nil) as (full & last & E & H1 & H2 & E'); [ intros [] | ].
        exists (rev cur :: full), last. rewrite terminated_cons, <- app_assoc. cbn in E |- *. rewrite <- E, E'. repeat split; auto.
        constructor; [ | assumption ]. intros I. apply in_rev in I. auto.
      * apply Z.eqb_neq in E. specialize (IH (c :: cur)). cbn in IH. rewrite <- app_assoc in IH. apply IH.
        intros [I | I]; [ unfold newline in I; congruence | auto ].
Qed.

Lemma fields_dropCR l : fields (dropCR l) = fields l.
Proof.
  unfold dropCR. destruct (rev l) as [|c r] eqn:E.
  - apply (f_equal (@rev Z)) in E. rewrite rev_involutive in E. now subst.
  - destruct (c =? 13) eqn:Ec; [ | reflexivity ]. apply Z.eqb_eq in Ec. subst c.
    apply (f_equal (@rev Z)) in E. rewrite rev_involutive in E. cbn in E. subst l. unfold fields. symmetry. apply fieldsFrom_end.
    constructor; [ | constructor ]. now apply isSpace_white.
Qed.
Lemma bytes_byteLen l : bytes l = byteLen l.
Proof.
  unfold bytes, byteLen. assert (G : forall n, fold_left Z.add (map width l) n = n + fold_right (fun c n => runeLen c + n) 0 l).
  { induction l as [|c l IH]; intros n; cbn [map fold_left fold_right]; [ lia | ]. rewrite IH. unfold runeLen, width. lia. }
  rewrite G. lia.
Qed.
Lemma tooLong_spec l : tooLong l = false <-> bytes l < 65536.
Proof. unfold tooLong. rewrite bytes_byteLen, Z.leb_gt. reflexivity. Qed.

Lemma digits_no_slash u : ~ In 47 (digits u).
Proof. induction u; cbn; [ tauto | .. ]; intros [H | H]; try discriminate; auto. Qed.
Lemma numeral_no_slash w z : numeral w z -> ~ In 47 w.
Proof.
  intros (u & _ & [[-> _]|[[-> _]|[-> _]]]); [ apply digits_no_slash | .. ];
    (intros [H | H]; [ discriminate | now apply digits_no_slash in H ]).
Qed.
Lemma beforeSlash_app n tail : ~ In 47 n -> (tail = nil \/ exists r, tail = codes "/" ++ r) -> beforeSlash (n ++ tail) = n.
Proof.
  intros H T. induction n as [|c n IH].
  - destruct T as [-> | [r ->]]; reflexivity.
  - cbn -[Z.eqb]. destruct (c =? 47) eqn:E; [ apply Z.eqb_eq in E; destruct H; now left | ]. rewrite IH; [ reflexivity | ]. intros I. apply H. now right.
Qed.
Lemma beforeSlash_split w : exists tail, w = beforeSlash w ++ tail /\ (tail = nil \/ exists r, tail = codes "/" ++ r).
Proof.
  induction w as [|c w (tail & E & H)]; cbn -[Z.eqb]; [ exists nil; auto | ].
  destruct (c =? 47) eqn:Ec.
  - apply Z.eqb_eq in Ec. subst. exists (47 :: w). split; [ reflexivity | ]. right. now exists w.
  - exists tail. split; [ cbn; congruence | assumption ].
Qed.
Lemma objIndices_spec ws is : objIndices ws = POk is <-> Forall2 reference ws is.
Proof.
  revert is. induction ws as [|w ws IH]; intros is; cbn [objIndices].
  - split; [ intros [= <-]; constructor | intros H; inversion H; reflexivity ].
  - split.
    + destruct (parseInt 32 (beforeSlash w)) as [idx|] eqn:E; [ | discriminate ]. cbn [pget pbind].
      destruct (idx <? 1) eqn:E1; [ discriminate | ]. apply Z.ltb_ge in E1.
      destruct (objIndices ws) as [is'| |]; try discriminate. cbn. intros [= <-]. constructor; [ | now apply IH ].
      apply parseInt_spec in E. destruct E as [N R]. destruct (beforeSlash_split w) as (tail & Ew & T).
      exists (beforeSlash w), tail. repeat split; [ assumption | assumption | now replace (idx - 1 + 1) with idx by lia | lia | cbn in R |- *; lia ].
    + intros H. inversion H as [|? i ? is' (n & tail & -> & T & N & R) Hr]; subst.
      rewrite beforeSlash_app by (eauto using numeral_no_slash).
      assert (E : parseInt 32 n = Some (i + 1)) by (apply parseInt_spec; split; [ assumption | cbn in R |- *; lia ]).
      rewrite E. cbn [pget pbind]. rewrite (proj2 (Z.ltb_ge _ _)) by lia. apply IH in Hr. rewrite Hr. cbn.
      now replace (i + 1 - 1) with i by lia.
Qed.

Section ObjP.
  Context {F : Type}.
  Variable number : text -> option F.

  Definition applyE (e : effect F) (st : objState F) : objState F :=
    match e with
    | ENone => st
    | EVertex v => ObjState (osMat st) (osVertices st ++ [v]) (osFaces st)
    | EFace f => ObjState (osMat st) (osVertices st) (addFace (osMat st) f (osFaces st))
    | EMaterial m => ObjState m (osVertices st) (osFaces st)
    end.

  Lemma in_ignored c : existsb (text_eqb c) ignoredCommands = true <->
    In c (map codes ["#"; "o"; "vn"; "vt"; "s"; "l"; "g"; "mtllib"]%string).
  Proof.
    rewrite existsb_exists. fold ignoredCommands. split.
    - intros (x & I & E). apply text_eqb_eq in E. now subst.
    - intros I. exists c. split; [ assumption | apply text_eqb_refl ].
  Qed.

  Lemma objLine_spec l st st' : objLine number (dropCR l) st = POk st' <-> exists e, obj_line number l e /\ st' = applyE e st.
  Proof.
    unfold objLine. rewrite fields_dropCR. split.
    - destruct (fields l) as [|c args] eqn:E; apply fields_words in E.
      { intros [= <-]. exists ENone. split; [ now apply obj_blank | reflexivity ]. }
      destruct (text_eqb c (codes "v")) eqn:Ev; [ | destruct (text_eqb c (codes "f")) eqn:Ef; [ | destruct (text_eqb c (codes "usemtl")) eqn:Eu ] ].
      + apply text_eqb_eq in Ev. subst c. intros H.
        assert (exists wx wy wz more x y z, args = wx :: wy :: wz :: more /\ (length more <= 1)%nat /\ number wx = Some x /\
                  number wy = Some y /\ number wz = Some z /\ st' = applyE (EVertex (Vec x y z)) st) as (wx & wy & wz & more & x & y & z & -> & L & Ex & Ey & Ez & ->).
        { destruct args as [|wx [|wy [|wz more]]]; try discriminate.
          assert (L : (length more <= 1)%nat) by (destruct more as [|? [|? ?]]; [ cbn; lia | cbn; lia | discriminate ]).
          assert (H' : pbind (pget (number wx)) (fun x => pbind (pget (number wy)) (fun y => pbind (pget (number wz)) (fun z =>
                    POk (ObjState (osMat st) (osVertices st ++ [Vec x y z]) (osFaces st))))) = POk st')
            by (destruct more as [|? [|? ?]]; [ exact H | exact H | discriminate ]).
          destruct (number wx) as [x|] eqn:Ex; [ | discriminate ]. destruct (number wy) as [y|] eqn:Ey; [ | discriminate ].
          destruct (number wz) as [z|] eqn:Ez; [ | discriminate ]. injection H' as <-.
          exists wx, wy, wz, more, x, y, z. repeat split; auto. }
        exists (EVertex (Vec x y z)). split; [ | reflexivity ]. eapply obj_vertex; eassumption.
      + apply text_eqb_eq in Ef. subst c. unfold objF. destruct (negb _) eqn:L; [ discriminate | ].
        apply negb_false_iff, orb_true_iff in L. rewrite !Z.eqb_eq in L.
        destruct (objIndices args) as [is| |] eqn:Ei; try discriminate. cbn. intros [= <-]. exists (EFace is). split; [ | reflexivity ].
        eapply obj_face; [ eassumption | lia | now apply objIndices_spec ].
      + apply text_eqb_eq in Eu. subst c. unfold objUsemtl. destruct args as [|m [|? ?]]; try discriminate. intros [= <-].
        exists (EMaterial m). split; [ now apply obj_material | reflexivity ].
      + destruct (existsb _ _) eqn:Ei; [ | discriminate ]. apply in_ignored in Ei. intros [= <-]. exists ENone. split; [ | reflexivity ].
        eapply obj_ignored; eassumption.
    - intros (e & H & ->). destruct H as [W|c args W I|wx wy wz more v W L Ex Ey Ez|ws is W L Hi|m W]; apply words_fields in W; rewrite W.
      + reflexivity.
      + assert (Hv : text_eqb c (codes "v") = false /\ text_eqb c (codes "f") = false /\ text_eqb c (codes "usemtl") = false).
        { cbn [In map] in I. repeat (destruct I as [<- | I]; [ repeat split; reflexivity | ]). destruct I. }
        destruct Hv as (-> & -> & ->). apply in_ignored in I. now rewrite I.
      + rewrite text_eqb_refl. unfold objV. destruct more as [|? [|? ?]]; [ | | cbn in L; lia ];
          rewrite Ex, Ey, Ez; cbn; destruct v; reflexivity.
      + replace (text_eqb (codes "f") (codes "v")) with false by reflexivity. rewrite text_eqb_refl. unfold objF.
        assert (E : (Z.of_nat (length ws) =? 3) || (Z.of_nat (length ws) =? 4) = true) by (apply orb_true_iff; rewrite !Z.eqb_eq; lia).
        rewrite E. apply objIndices_spec in Hi. cbn [negb]. rewrite Hi. reflexivity.
      + reflexivity.
  Qed.

  Definition applyAll (es : list (effect F)) (st : objState F) : objState F := fold_left (fun st e => applyE e st) es st.

  Lemma objLoop_sound ls : forall st st', objLoop number ls st = POk st' ->
    exists es, Forall (fun l => bytes l < 65536) ls /\ Forall2 (obj_line number) ls es /\ st' = applyAll es st.
  Proof.
    induction ls as [|l ls IH]; intros st st'; cbn [objLoop].
    - intros [= <-]. exists nil. repeat split; constructor.
    - destruct (tooLong l) eqn:Et; [ discriminate | ]. apply tooLong_spec in Et.
      destruct (objLine number (dropCR l) st) as [st1| |] eqn:El; try discriminate. cbn [pbind]. intros E.
      apply IH in E. destruct E as (es & H1 & H2 & ->). apply objLine_spec in El. destruct El as (e & He & ->).
      exists (e :: es). repeat split; constructor; auto.
  Qed.
  Lemma objLoop_complete ls es : Forall (fun l => bytes l < 65536) ls -> Forall2 (obj_line number) ls es ->
    forall st, objLoop number ls st = POk (applyAll es st).
  Proof.
    intros Hb H. induction H as [|l e ls es He Hr IH]; intros st; [ reflexivity | ]. inversion_clear Hb as [|? ? Hl Hls].
    cbn [objLoop]. apply tooLong_spec in Hl. rewrite Hl.
    assert (E : objLine number (dropCR l) st = POk (applyE e st)) by (apply objLine_spec; eauto). rewrite E. cbn [pbind].
    rewrite IH by assumption. reflexivity.
  Qed.

  (** the table of faces *)
  Definition tableOf (tbl : list (text * list (list Z))) (g : text -> list (list Z)) : Prop :=
    NoDup (map fst tbl) /\ forall m fs, In (m, fs) tbl <-> fs = g m /\ fs <> nil.

  Lemma addFace_keys m f tbl x : In x (map fst (addFace m f tbl)) <-> x = m \/ In x (map fst tbl).
  Proof.
    induction tbl as [|[m' l] tbl IH]; cbn [addFace map fst In].
    - split; [ intros [<- | []]; now left | intros [-> | []]; now left ].
    - destruct (text_eqb m m') eqn:E; cbn [map fst In].
      + apply text_eqb_eq in E. subst. split; [ tauto | ]. intros [-> | [-> | H]]; auto.
      + rewrite IH. tauto.
  Qed.
  Lemma addFace_nodup m f tbl : NoDup (map fst tbl) -> NoDup (map fst (addFace m f tbl)).
  Proof.
    induction tbl as [|[m' l] tbl IH]; cbn [addFace map fst]; intros H.
    - constructor; [ intros [] | constructor ].
    - inversion_clear H as [|? ? N D]. destruct (text_eqb m m') eqn:E; cbn [map fst]; constructor; auto.
      intros I. apply addFace_keys in I. destruct I as [-> | I]; [ | auto ]. rewrite text_eqb_refl in E. discriminate.
  Qed.
  Lemma addFace_other m f tbl x fs : x <> m -> In (x, fs) (addFace m f tbl) <-> In (x, fs) tbl.
  Proof.
    intros N. induction tbl as [|[m' l] tbl IH]; cbn [addFace In].
    - split; [ intros [[= -> _] | []]; congruence | intros [] ].
    - destruct (text_eqb m m') eqn:E; cbn [In].
      + apply text_eqb_eq in E. subst m'. split; (intros [[= -> _] | H]; [ congruence | auto ]).
      + rewrite IH. reflexivity.
  Qed.
  Lemma addFace_same m f tbl fs : NoDup (map fst tbl) ->
    In (m, fs) (addFace m f tbl) <-> (exists l, In (m, l) tbl /\ fs = l ++ [f]) \/ (~ In m (map fst tbl) /\ fs = [f]).
  Proof.
    induction tbl as [|[m' l] tbl IH]; cbn [addFace In map fst]; intros D.
    - split; [ intros [[= <-] | []]; right; auto | intros [(l & [] & _)|[_ ->]]; now left ].
    - inversion_clear D as [|? ? N D']. destruct (text_eqb m m') eqn:E; cbn [In].
      + apply text_eqb_eq in E. subst m'. split.
        * intros [[= <-] | H]; [ left; exists l; auto | ]. destruct N. apply (in_map fst) in H. exact H.
        * intros [(l' & [[= ->] | H] & ->)|[H _]]; [ now left | | destruct H; now left ].
          destruct N. apply (in_map fst) in H. exact H.
      + apply text_eqb_neq in E. rewrite IH by assumption. split.
        * intros [[= -> _] | [(l' & H & ->)|[H ->]]]; [ congruence | left; exists l'; auto | right; split; [ | reflexivity ] ].
          intros [-> | I]; auto.
        * intros [(l' & [[= -> _] | H] & ->)|[H ->]]; [ congruence | right; left; exists l'; auto | right; right; auto ].
  Qed.
  Lemma addFace_table m f tbl g : tableOf tbl g ->
    tableOf (addFace m f tbl) (fun x => if list_eq_dec Z.eq_dec m x then g x ++ [f] else g x).
  Proof.
    intros [D H]. split; [ now apply addFace_nodup | ]. intros x fs. destruct (list_eq_dec Z.eq_dec m x) as [<-|N].
    - rewrite addFace_same by assumption. split.
      + intros [(l & I & ->)|[I ->]].
        * apply H in I. destruct I as [-> _]. split; [ reflexivity | destruct (g m); discriminate ].
        * destruct (g m) as [|a r] eqn:E; [ split; [ reflexivity | discriminate ] | ]. destruct I.
          change m with (fst (m, g m)). apply in_map. apply H. split; [ reflexivity | congruence ].
      + intros [-> _]. destruct (g m) as [|a r] eqn:E.
        * right. split; [ | reflexivity ]. intros I. apply in_map_iff in I. destruct I as ([m' l] & E' & I). cbn in E'. subst m'.
          apply H in I. destruct I as [-> I]. congruence.
        * left. exists (a :: r). split; [ | reflexivity ]. apply H. split; [ now symmetry | discriminate ].
    - rewrite addFace_other by congruence. apply H.
  Qed.

  Lemma tableOf_ext tbl g g' : (forall m, g m = g' m) -> tableOf tbl g -> tableOf tbl g'.
  Proof. intros E [D H]. split; [ assumption | ]. intros m fs. rewrite <- E. apply H. Qed.

  Lemma applyAll_spec es : forall st g, tableOf (osFaces st) g ->
    osVertices (applyAll es st) = osVertices st ++ obj_vertices es /\
    tableOf (osFaces (applyAll es st)) (fun m => g m ++ obj_faces m (osMat st) es).
  Proof.
    induction es as [|e es IH]; intros st g H.
    - cbn. rewrite app_nil_r. split; [ reflexivity | ]. apply tableOf_ext with (g := g); [ intros m; now rewrite app_nil_r | assumption ].
    - cbn [applyAll fold_left]. change (fold_left _ es ?s) with (applyAll es s). destruct e as [|v|f|m]; cbn [applyE].
      + apply IH. assumption.
      + destruct (IH (ObjState (osMat st) (osVertices st ++ [v]) (osFaces st)) g H) as [E T]. split; [ | exact T ].
        rewrite E. cbn. now rewrite <- app_assoc.
      + destruct (IH (ObjState (osMat st) (osVertices st) (addFace (osMat st) f (osFaces st)))
                    (fun x => if list_eq_dec Z.eq_dec (osMat st) x then g x ++ [f] else g x)) as [E T];
          [ now apply addFace_table | ].
        split; [ exact E | ]. eapply tableOf_ext; [ | exact T ]. intros m. cbn.
        destruct (list_eq_dec Z.eq_dec (osMat st) m); [ now rewrite <- app_assoc | reflexivity ].
      + apply (IH (ObjState m (osVertices st) (osFaces st)) g H).
  Qed.

  Lemma start_table : tableOf nil (fun _ => nil).
  Proof. split; [ constructor | ]. intros m fs. split; [ intros [] | intros [-> H]; congruence ]. Qed.

  Lemma objParse_sound t vs tbl : objParse number t = POk (vs, tbl) ->
    exists es, obj_file number t es /\ vs = obj_vertices es /\ face_table tbl es.
  Proof.
    unfold objParse. destruct (objLoop number (scanFrom nil t) (ObjState nil nil nil)) as [st| |] eqn:E; try discriminate. cbn. intros [= <- <-].
    apply objLoop_sound in E. destruct E as (es & Hb & H & ->). exists es.
    destruct (applyAll_spec es (ObjState nil nil nil) (fun _ => nil) start_table) as [E T].
    split; [ exists (scanFrom nil t); repeat split; auto; now apply scan_lines | ]. split; [ exact E | exact T ].
  Qed.
  Lemma objParse_complete t es : obj_file number t es -> exists tbl, objParse number t = POk (obj_vertices es, tbl) /\ face_table tbl es.
  Proof.
    intros (ls & Ht & Hb & H). apply scan_lines in Ht. unfold objParse. rewrite Ht.
    rewrite (objLoop_complete ls es Hb H). cbn.
    destruct (applyAll_spec es (ObjState nil nil nil) (fun _ => nil) start_table) as [E T]. eexists. split; [ now rewrite E | exact T ].
  Qed.

  Lemma objParse_not_dies t : objParse number t <> PDies.
  Proof.
    unfold objParse. apply pmap_not_dies. generalize (@ObjState F nil nil nil). induction (scanFrom nil t) as [|l ls IH]; intros st; cbn [objLoop]; [ discriminate | ].
    destruct (tooLong l); [ discriminate | ]. apply pbind_not_dies; [ | exact IH ].
    unfold objLine. destruct (fields (dropCR l)) as [|c args]; [ discriminate | ].
    destruct (text_eqb c _); [ | destruct (text_eqb c _); [ | destruct (text_eqb c _); [ | destruct (existsb _ _); discriminate ] ] ].
    - unfold objV. destruct args as [|? [|? [|? [|? [|? ?]]]]]; try discriminate;
        repeat (apply pbind_not_dies; [ apply pget_not_dies | intros ]); discriminate.
    - unfold objF. destruct (negb _); [ discriminate | ]. apply pmap_not_dies. induction args as [|w ws IHw]; cbn [objIndices]; [ discriminate | ].
      apply pbind_not_dies; [ apply pget_not_dies | intros i ]. destruct (i <? 1); [ discriminate | ]. now apply pmap_not_dies.
    - unfold objUsemtl. destruct args as [|? [|? ?]]; discriminate.
  Qed.
  Lemma objParse_malformed t : (forall es, ~ obj_file number t es) -> objParse number t = PError.
  Proof.
    intros H. destruct (objParse number t) as [[vs tbl]| |] eqn:E; [ | reflexivity | destruct (objParse_not_dies _ E) ].
    apply objParse_sound in E. destruct E as (es & E & _). destruct (H _ E).
  Qed.
  Lemma objParse_bad_line t ls l : text_lines t ls -> In l ls -> (forall e, ~ obj_line number l e) -> objParse number t = PError.
  Proof.
    intros Ht I N. apply objParse_malformed. intros es (ls' & Ht' & _ & H).
    apply scan_lines in Ht. apply scan_lines in Ht'. rewrite Ht in Ht'. subst ls'. clear Ht.
    induction H as [|x e ls es He _ IH]; [ destruct I | ]. destruct I as [-> | I]; [ exact (N _ He) | auto ].
  Qed.

  Lemma objLoop_app a b st : objLoop number (a ++ b) st = pbind (objLoop number a st) (objLoop number b).
  Proof.
    revert st. induction a as [|l a IH]; intros st; cbn [app objLoop]; [ reflexivity | ]. destruct (tooLong l); [ reflexivity | ].
    destruct (objLine number (dropCR l) st); cbn [pbind]; [ apply IH | reflexivity | reflexivity ].
  Qed.
  Lemma objParse_final_newline t : objParse number (t ++ [newline]) = objParse number t.
  Proof.
    destruct (proj2 (scan_lines t _) eq_refl) as (full & last & -> & Hf & Hl & E). rewrite <- app_assoc.
    unfold objParse.
    assert (E1 : scanFrom nil (terminated full ++ last ++ [newline]) = full ++ [last]).
    { apply scan_lines. exists (full ++ [last]), nil. rewrite !app_nil_r, terminated_app. cbn. rewrite app_nil_r.
      repeat split; [ apply Forall_app; auto | intros [] ]. }
    rewrite E, E1. rewrite !objLoop_app. destruct (objLoop number full _) as [st| |]; [ | reflexivity | reflexivity ].
    destruct last; reflexivity.
  Qed.
End ObjP.
