(** * What mesh files mean, independently of the parsers *)
From Coq Require Import ZArith Decimal String List.
From Verif Require Import Num GeomModel ParseModel.
Import ListNotations.
Local Open Scope Z_scope.

(** ** Words and numbers *)
(** the white space characters of Unicode *)
Definition white (c : Z) : Prop :=
  In c [9; 10; 11; 12; 13; 32; 133; 160; 5760; 8192; 8193; 8194; 8195; 8196; 8197; 8198; 8199; 8200; 8201; 8202;
        8232; 8233; 8239; 8287; 12288].
Definition blank (l : text) : Prop := Forall white l.
Definition solid (w : text) : Prop := w <> nil /\ Forall (fun c => ~ white c) w.

(** the words of a line *)
Inductive words : text -> list text -> Prop :=
| words_nil b : blank b -> words b nil
| words_last b w : blank b -> solid w -> words (b ++ w) [w]
| words_cons b w c rest ws : blank b -> solid w -> white c -> words rest ws -> words (b ++ w ++ c :: rest) (w :: ws).

(** [l] is [w] with white space around it *)
Definition pads (w l : text) : Prop :=
  exists a b, blank a /\ blank b /\ l = a ++ w ++ b /\
    (forall c r, w = c :: r -> ~ white c) /\ (forall c r, w = r ++ [c] -> ~ white c).

(** decimal numerals, by way of the standard library's *)
Fixpoint digits (u : Decimal.uint) : text :=
  match u with
  | Nil => nil
  | D0 u => 48 :: digits u | D1 u => 49 :: digits u | D2 u => 50 :: digits u | D3 u => 51 :: digits u
  | D4 u => 52 :: digits u | D5 u => 53 :: digits u | D6 u => 54 :: digits u | D7 u => 55 :: digits u
  | D8 u => 56 :: digits u | D9 u => 57 :: digits u
  end.
Definition numeral (w : text) (z : Z) : Prop :=
  exists u, u <> Nil /\
    ((w = digits u /\ z = Z.of_uint u) \/ (w = codes "+" ++ digits u /\ z = Z.of_uint u) \/
     (w = codes "-" ++ digits u /\ z = - Z.of_uint u)).
Definition int64 (z : Z) : Prop := - 2 ^ 63 <= z < 2 ^ 63.
Definition int32 (z : Z) : Prop := - 2 ^ 31 <= z < 2 ^ 31.

Definition newline : Z := 10.
Definition one_line (l : text) : Prop := ~ In newline l.
Definition terminated (ls : list text) : text := flat_map (fun l => l ++ [newline]) ls.

(** ** PLY *)
Section Ply.
  Context {F : Type}.
  Variable number : text -> option F.

  (** header lines declaring [nv] vertices and [nf] faces; the last declaration counts *)
  Inductive header : list text -> Z -> Z -> Prop :=
  | header_none : header nil 0 0
  | header_vertices ls nv nf l w n : header ls nv nf -> pads (codes "element vertex " ++ w) l ->
      numeral w n -> int64 n -> header (ls ++ [l]) n nf
  | header_faces ls nv nf l w n : header ls nv nf -> pads (codes "element face " ++ w) l ->
      numeral w n -> int64 n -> header (ls ++ [l]) nv n
  | header_other ls nv nf l w : header ls nv nf -> pads w l -> w <> codes "end_header" ->
      (forall r, w <> codes "element vertex " ++ r) -> (forall r, w <> codes "element face " ++ r) ->
      header (ls ++ [l]) nv nf.

  Definition vertex_line (l : text) (v : vec F) : Prop :=
    exists wx wy wz more, words l (wx :: wy :: wz :: more) /\
      number wx = Some (vx v) /\ number wy = Some (vy v) /\ number wz = Some (vz v).

  Definition index64 (w : text) (i : Z) : Prop := numeral w i /\ int64 i.
  Inductive face_line (l : text) : list (Z * Z * Z) -> Prop :=
  | face_3 n wa wb wc more a b c : words l (n :: wa :: wb :: wc :: more) -> numeral n 3 ->
      index64 wa a -> index64 wb b -> index64 wc c -> face_line l [(a, b, c)]
  | face_4 n wa wb wc wd more a b c d : words l (n :: wa :: wb :: wc :: wd :: more) -> numeral n 4 ->
      index64 wa a -> index64 wb b -> index64 wc c -> index64 wd d -> face_line l [(a, b, c); (c, d, a)].

  (** the text [t] declares [nv] vertices and [nf] faces and lists the vertices [vs] and, after
      splitting quadrilaterals, the triangles [fs]; whatever follows is ignored *)
  Definition ply_file (t : text) (nv nf : Z) (vs : list (vec F)) (fs : list (Z * Z * Z)) : Prop :=
    exists magic format hdr fin vls fls rest tss,
      t = terminated (magic :: format :: hdr ++ fin :: vls ++ fls) ++ rest /\
      Forall one_line (magic :: format :: hdr ++ fin :: vls ++ fls) /\
      pads (codes "ply") magic /\ pads (codes "format ascii 1.0") format /\ header hdr nv nf /\
      pads (codes "end_header") fin /\
      nv = Z.of_nat (length vls) /\ nf = Z.of_nat (length fls) /\
      Forall2 vertex_line vls vs /\ Forall2 face_line fls tss /\ fs = concat tss.
End Ply.

(** room for [n] elements of 24 bytes *)
Definition enough (fits : Z -> bool) (n : Z) : Prop := 24 * n <= 2 ^ 48 /\ fits n = true.

(** ** OBJ *)
Section Obj.
  Context {F : Type}.
  Variable number : text -> option F.

  Inductive effect : Type := ENone | EVertex (v : vec F) | EFace (is : list Z) | EMaterial (m : text).

  (** a vertex reference, such as 7 or 7/1/3, for the vertex number [i] counted from 0 *)
  Definition reference (w : text) (i : Z) : Prop :=
    exists n tail, w = n ++ tail /\ (tail = nil \/ exists r, tail = codes "/" ++ r) /\ numeral n (i + 1) /\ 0 <= i < 2 ^ 31 - 1.

  Inductive obj_line (l : text) : effect -> Prop :=
  | obj_blank : words l nil -> obj_line l ENone
  | obj_ignored c args : words l (c :: args) ->
      In c (map codes ["#"; "o"; "vn"; "vt"; "s"; "l"; "g"; "mtllib"]%string) -> obj_line l ENone
  | obj_vertex wx wy wz more v : words l (codes "v" :: wx :: wy :: wz :: more) -> (length more <= 1)%nat ->
      number wx = Some (vx v) -> number wy = Some (vy v) -> number wz = Some (vz v) -> obj_line l (EVertex v)
  | obj_face ws is : words l (codes "f" :: ws) -> (3 <= length ws <= 4)%nat -> Forall2 reference ws is ->
      obj_line l (EFace is)
  | obj_material m : words l [codes "usemtl"; m] -> obj_line l (EMaterial m).

  (** the size of a line in UTF-8 *)
  Definition width (c : Z) : Z :=
    if c <? 0x80 then 1 else if c <? 0x800 then 2 else if c <? 0x10000 then 3 else 4.
  Definition bytes (l : text) : Z := fold_left Z.add (map width l) 0.

  Definition text_lines (t : text) (ls : list text) : Prop :=
    exists full last, t = terminated full ++ last /\ Forall one_line full /\ one_line last /\
      ls = full ++ match last with nil => nil | _ => [last] end.

  Definition obj_file (t : text) (es : list effect) : Prop :=
    exists ls, text_lines t ls /\ Forall (fun l => bytes l < 65536) ls /\ Forall2 obj_line ls es.

  Definition obj_vertices (es : list effect) : list (vec F) :=
    flat_map (fun e => match e with EVertex v => [v] | _ => nil end) es.
  (** the faces of the material [m], if [cur] is the current material at the beginning *)
  Fixpoint obj_faces (m cur : text) (es : list effect) : list (list Z) :=
    match es with
    | nil => nil
    | EFace f :: es => if list_eq_dec Z.eq_dec cur m then f :: obj_faces m cur es else obj_faces m cur es
    | EMaterial cur :: es => obj_faces m cur es
    | _ :: es => obj_faces m cur es
    end.
  (** a table with one entry per material that has faces *)
  Definition face_table (tbl : list (text * list (list Z))) (es : list effect) : Prop :=
    NoDup (map fst tbl) /\ forall m fs, In (m, fs) tbl <-> fs = obj_faces m nil es /\ fs <> nil.
End Obj.
Arguments effect F : clear implicits.
