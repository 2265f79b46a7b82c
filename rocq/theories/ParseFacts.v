(** * Sample files, and facts about the parsers assembled for the theorems *)
From Coq Require Import ZArith Reals Bool Ascii String List Permutation Lra Lia Decimal.
From Verif Require Import Num NumLaws Outcome GeomModel GeomSpec GeomProofs ObjModel TreeModel ObjSpec ObjProofs MeshSpec LoadSpec ParseModel ParseSpec ParseProofs LoadProofs.
Import ListNotations.
Local Open Scope Z_scope.

(** coordinates that are integers *)
Definition whole : text -> option Z := atoi.
Definition wholeX (w : text) : option xr := option_map (fun z => XF (IZR z)) (atoi w).

Definition squareFile : text := terminated (map codes
  ["ply"; " format ascii 1.0"; "comment element vertex 9"; "element vertex 4"; "property float x"; "element face 1"; "element face 2 "; "end_header";
   "0 0 0"; "1 0 0 99 hello"; "1 -1 0"; "  0 1  7"; "4 0 1 2 3 #"; "3 3 0 1"]%string).
Definition cubeFile : text := terminated (map codes
  ["# a comment"; "mtllib colors.mtl"; "o thing"; "v 1 2 3"; "usemtl red"; "v 4 5 6 1"; ""; "f 1/7/8 2 3//1"; "usemtl blue"; "v 7 8 9"; "vn 0 0 1"; "f 3 1 2"; "usemtl red"]%string)
  ++ codes "f 3 2 1 1".
Definition triangleFile : text := terminated (map codes
  ["ply"; "format ascii 1.0"; "element vertex 3"; "element face 1"; "end_header"; "0 0 0"; "4 0 0"; "0 4 0"; "3 0 1 2"]%string).
Definition hugeFile : text := terminated (map codes ["ply"; "format ascii 1.0"; "element vertex 11000000000000"; "end_header"]%string).
Definition danglingPly : text := terminated (map codes ["ply"; "format ascii 1.0"; "element face 1"; "end_header"; "3 7 -8 9"]%string).
Definition danglingObj : text := codes "f 7 8 9".

Lemma words_and_numerals :
  (forall l ws ws', words l ws -> words l ws' -> ws = ws') /\ (forall l, exists ws, words l ws) /\
  (forall w z z', numeral w z -> numeral w z' -> z = z') /\
  (forall l, exists w, pads w l) /\ (forall w w' l, pads w l -> pads w' l -> w = w').
Proof.
  split; [|split; [|split; [|split]]].
  - intros l ws ws' H H'. apply fields_words in H, H'. congruence.
  - intros l. exists (fields l). now apply fields_words.
  - intros w z z' H H'. apply signedVal_numeral in H, H'. congruence.
  - intros l. exists (trimSpace l). now apply trimSpace_pads.
  - intros w w' l H H'. apply trimSpace_pads in H, H'. congruence.
Qed.
Lemma words_example : words (codes " 3  0 +1 -2 ") [codes "3"; codes "0"; codes "+1"; codes "-2"] /\ numeral (codes "-017") (-17).
Proof. split; [apply fields_words|apply signedVal_numeral]; reflexivity. Qed.

Lemma unterminated_file :
  exists t, plyParse whole (fun _ => true) (t ++ [newline]) = POk ([Vec 0 0 0; Vec 1 0 0; Vec 0 1 0], [(0, 1, 2)]) /\
    plyParse whole (fun _ => true) t = PError.
Proof.
  exists (terminated (map codes ["ply"; "format ascii 1.0"; "element vertex 3"; "element face 1"; "end_header"; "0 0 0"; "1 0 0"; "0 1 0"]%string)
          ++ codes "3 0 1 2").
  split; vm_compute; reflexivity.
Qed.

Lemma index_below_1 {F} (number : text -> option F) l ws w n tail z :
  words l (codes "f" :: ws) -> In w ws -> w = n ++ tail -> (tail = nil \/ exists r, tail = codes "/" ++ r) ->
  numeral n z -> z < 1 -> forall e, ~ obj_line number l e.
Proof.
  intros W I E T N Z1 e H. apply words_fields in W.
  destruct H as [W'|c args W' Ic|wx wy wz more v W' _ _ _ _|ws' is W' L R|m W']; apply words_fields in W'; rewrite W in W'; try discriminate.
  - injection W' as <- <-. cbn [map In] in Ic. repeat (destruct Ic as [Ic|Ic]; [discriminate|]). destruct Ic.
  - injection W' as <-. clear L W. induction R as [|w' i ws is Hw _ IH]; [destruct I|]. destruct I as [->|I]; [|auto].
    destruct Hw as (n' & tail' & E' & T' & N' & Hi).
    assert (n = n').
    { rewrite <- (beforeSlash_app n tail) by (eauto using numeral_no_slash). rewrite <- (beforeSlash_app n' tail') by (eauto using numeral_no_slash). congruence. }
    subst n'. apply signedVal_numeral in N, N'. rewrite N in N'. injection N' as ->. lia.
Qed.

Lemma parsers_misbehave :
  (forall (F : Type) (number : text -> option F) (fits : Z -> bool), fits 11000000000000 = false -> plyParse number fits hugeFile = PDies) /\
  (forall (F : Type) (number : text -> option F), plyParse number (fun _ => true) danglingPly = POk (nil, [(7, -8, 9)])) /\
  (forall (F : Type) (number : text -> option F), objParse number danglingObj = POk (nil, [(nil, [[6; 7; 8]])])).
Proof.
  split; [|split].
  - intros F number fits H.
    assert (E : plyParse number fits hugeFile = pbind (goMake fits 11000000000000) (fun _ => PError)) by (vm_compute; reflexivity).
    rewrite E. unfold goMake. replace ((_ <? 0) || _)%bool with false by (vm_compute; reflexivity). now rewrite H.
  - intros F number. vm_compute. reflexivity.
  - intros F number. vm_compute. reflexivity.
Qed.

Lemma malformed_error {F} (number : text -> option F) :
  (forall (fits : Z -> bool) t, (forall n, fits n = true) ->
     plyParse number fits t <> PDies /\
     ((forall nv nf vs fs, ~ ply_file number t nv nf vs fs) -> plyParse number fits t = PError)) /\
  (forall t, objParse number t <> PDies /\ ((forall es, ~ obj_file number t es) -> objParse number t = PError)).
Proof.
  split.
  - intros fits t H. split; [now apply plyParse_not_dies|]. now apply plyParse_malformed.
  - intros t. split; [apply objParse_not_dies|apply objParse_malformed].
Qed.

Lemma obj_indices {F} (number : text -> option F) t vs tbl :
  objParse number t = POk (vs, tbl) -> forall m fs f i, In (m, fs) tbl -> In f fs -> In i f -> 0 <= i < 2 ^ 31 - 1.
Proof.
  intros E m fs f i It If Ii. apply objParse_sound in E. destruct E as (es & (ls & _ & _ & H) & _ & (_ & T)).
  apply T in It. destruct It as [-> _]. clear T. revert If. generalize (nil : text) as cur.
  induction H as [|l e ls es He _ IH]; intros cur If; [destruct If|]. cbn [obj_faces] in If. destruct e as [|v|g|m']; eauto.
  destruct (list_eq_dec Z.eq_dec cur m); [|eauto]. destruct If as [<-|If]; [|eauto].
  inversion He as [| | |ws is W L R|]; subst. clear -R Ii. induction R as [|w j ws is Hw _ IH]; [destruct Ii|].
  destruct Ii as [<-|Ii]; [|auto]. destruct Hw as (n & tail & _ & _ & _ & Hi). exact Hi.
Qed.

Lemma ply_failures (F : Type) (NF : Num F) (NI : NumInf F) (M : Type) (to32 : F -> F)
    (sortSlice : (object F M -> object F M -> bool) -> list (object F M) -> list (object F M))
    (number : text -> option F) (fits : Z -> bool) (m : option M) (t : text) (transf : list (affine F)) :
    (forall n, fits n = true) ->
    ((forall nv nf vs fs, ~ ply_file number t nv nf vs fs) -> plyFile to32 sortSlice number fits m t transf = Fatal) /\
    (forall nv nf vs fs, ply_file number t nv nf vs fs -> enough fits nv -> enough fits nf ->
       (fs = nil \/ exists f, In f fs /\ ~ face_in_range vs f) ->
       plyFile to32 sortSlice number fits m t transf = Loaded Panic).
Proof.
  intros Hf. split; [now apply plyFile_malformed|]. intros nv nf vs fs H A B [-> | (f & I & R)].
  - eapply plyFile_empty; eauto.
  - eapply plyFile_bad_index; eauto.
Qed.
Lemma obj_failures (F : Type) (NF : Num F) (NI : NumInf F) (M : Type) (to32 : F -> F)
    (sortSlice : (object F M -> object F M -> bool) -> list (object F M) -> list (object F M))
    (number : text -> option F) order (mats : text -> option (option M)) (t : text) (transf : list (affine F)) :
    ((forall es, ~ obj_file number t es) -> objFile to32 sortSlice number order mats t transf = Fatal) /\
    (forall es o, (forall l, Permutation (order l) l) -> obj_file number t es ->
       objFile to32 sortSlice number order mats t transf = Loaded (Val o) ->
       forall name, obj_faces name nil es <> nil ->
         (exists m, mats name = Some m) /\
         forall f, In f (triangles (obj_faces name nil es)) -> face_in_range (obj_vertices es) f).
Proof.
  split; [apply objFile_malformed|]. intros es o A B E. eapply objFile_shown; eauto.
Qed.

Section Seen.
  Local Open Scope R_scope.
  Lemma triangle_file : ply_file wholeX triangleFile 3 1 (map xv [Vec 0 0 0; Vec 4 0 0; Vec 0 4 0]) [(0, 1, 2)%Z].
  Proof.
    assert (E : plyParse wholeX (fun _ => true) triangleFile = POk (map xv [Vec 0 0 0; Vec 4 0 0; Vec 0 4 0], [(0, 1, 2)%Z])) by (vm_compute; reflexivity).
    apply plyParse_exact in E. destruct E as (nv & nf & H & _).
    pose proof H as H'. destruct H' as (mg & fm & hdr & fin & vls & fls & rest & tss & _ & _ & _ & _ & _ & _ & E1 & E2 & F1 & F2 & E3).
    assert (L1 := Forall2_len _ _ _ F1). assert (L2 := Forall2_len _ _ _ F2). cbn [map length] in L1.
    assert (Et : exists f, In f tss). { destruct tss as [|a tss]; [discriminate|]. exists a. now left. }
    assert (length tss = 1)%nat.
    { destruct tss as [|a [|b tss]]; cbn in Et |- *; [destruct Et as [? []]|reflexivity|].
      assert (G : forall x, In x (a :: b :: tss) -> x <> nil).
      { intros x Ix. clear -F2 Ix. induction F2 as [|l y ls ys Hy _ IH]; [destruct Ix|]. destruct Ix as [<-|Ix]; [|auto]. destruct Hy; discriminate. }
      assert (Ga := G a (or_introl eq_refl)). assert (Gb := G b (or_intror (or_introl eq_refl))).
      destruct a as [|a0 [|a1 a]]; [congruence| |cbn in E3; discriminate]. destruct b as [|b0 b]; [congruence|]. cbn in E3. discriminate. }
    assert (nv = 3%Z) as <- by lia. assert (nf = 1%Z) as En by lia. rewrite En in H. exact H.
  Qed.

  Lemma triangle_seen :
    exists o h, plyFile (fun x => x) (fun _ l => l) wholeX (fun _ => true) (Some tt) triangleFile
                  [xaff (translate (Vec 0 0 2))] = Loaded (Val o) /\
      oIntersect o (xray (Vec 1 1 (-5)) (Vec 0 0 1)) = Val (h, xray (Vec 1 1 (-5)) (Vec 0 0 1)) /\
      hT h = XF 7 /\ hMat h = Some tt.
  Proof.
    set (vs := [Vec 0 0 0; Vec 4 0 0; Vec 0 4 0]). set (fs := [(0, 1, 2)%Z] : list face3).
    set (s := Vec 1 1 (-5)). set (d := Vec 0 0 1).
    assert (EP : map (moved [translate (Vec 0 0 2)]) vs = [Vec 0 0 2; Vec 4 0 2; Vec 0 4 2]).
    { assert (G : forall a b c, moved [translate (Vec 0 0 2)] (Vec a b c) = Vec a b (c + 2)).
      { intros a b c. unfold moved. cbn [fold_left]. rewrite translate_point. unfold plus3. cbn [vx vy vz]. f_equal; ring. }
      unfold vs. cbn [map]. rewrite !G. repeat f_equal; ring. }
    assert (EN : area_normal [Vec 0 0 2; Vec 4 0 2; Vec 0 4 2] (0, 1, 2)%Z = Vec 0 0 16).
    { unfold area_normal, corner. change (Z.to_nat 0) with 0%nat. change (Z.to_nat 1) with 1%nat. change (Z.to_nat 2) with 2%nat.
      cbn [nth]. unfold cross3, minus3. cbn [vx vy vz]. f_equal; ring. }
    assert (IT : forall w0 w1 w2 t, in_face [Vec 0 0 2; Vec 4 0 2; Vec 0 4 2] (0, 1, 2)%Z w0 w1 w2 (along s d t) -> t = 7).
    { intros w0 w1 w2 t (A & B & C & S1 & E). unfold corner in E. change (Z.to_nat 0) with 0%nat in E. change (Z.to_nat 1) with 1%nat in E.
      change (Z.to_nat 2) with 2%nat in E. cbn [nth] in E. unfold along, s, d, weighted, plus3, scal3 in E. cbn [vx vy vz] in E. injection E. intros. lra. }
    assert (ON : on_mesh [Vec 0 0 2; Vec 4 0 2; Vec 0 4 2] fs (along s d 7)).
    { exists (0, 1, 2)%Z, (1 / 2), (1 / 4), (1 / 4). split; [now left|]. unfold in_face, corner. change (Z.to_nat 0) with 0%nat. change (Z.to_nat 1) with 1%nat.
      change (Z.to_nat 2) with 2%nat. cbn [nth]. repeat split; try lra. unfold along, s, d, weighted, plus3, scal3. cbn [vx vy vz]. f_equal; lra. }
    assert (EF : enough (fun _ => true) 3 /\ enough (fun _ => true) 1) by (split; split; (reflexivity || (apply Z.leb_le; reflexivity))).
    destruct (plyFile_exact (M := unit) (fun _ l => l) (fun _ l => Permutation_refl l) wholeX (fun _ => true) (Some tt) triangleFile
                [translate (Vec 0 0 2)] 3 1 vs fs s d triangle_file (proj1 EF) (proj2 EF)) as (o & h & E & Eh & D).
    - discriminate.
    - fold vs. rewrite EP. intros f [<-|[]]. unfold face_in_range, in_range. cbn. lia.
    - rewrite EP. intros f [<-|[]]. rewrite EN. unfold dot3, zero3, d. cbn [vx vy vz]. split; [intros H; injection H; lra|lra].
    - rewrite EP. intros p [<-|[<-|[<-|[]]]]; unfold s; cbn [vx vy vz]; lra.
    - rewrite EP. intros t T (f & w0 & w1 & w2 & [<-|[]] & IF). apply IT in IF. subst t. unfold horizon. apply IZR_lt. reflexivity.
    - rewrite EP in D. exists o, h. split; [exact E|]. split; [exact Eh|]. destruct D as [D|[D _]].
      + destruct D as (f & t & w0 & w1 & w2 & [<-|[]] & T & IF & _ & ET & EM & _). apply IT in IF. subst t. auto.
      + exfalso. apply (D 7); [lra|exact ON].
  Qed.
End Seen.
