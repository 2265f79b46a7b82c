(** * Model of the mesh file parsers (tracer/objects/ply, tracer/objects/obj) and of mesh files as objects

    A text is a list of Unicode code points, as Go decodes the bytes; a byte that is not valid
    UTF-8 is represented by a negative number, so that texts and byte strings correspond one to one.
    strconv.ParseFloat is a parameter; strconv.Atoi and ParseInt are written out. *)
From Coq Require Import ZArith Bool Ascii String List.
From Verif Require Import Num Outcome GeomModel ObjModel TreeModel.
Import ListNotations.
Local Open Scope Z_scope.

Definition text : Type := list Z.
Fixpoint codes (s : string) : text :=
  match s with EmptyString => nil | String c s => Z.of_nat (nat_of_ascii c) :: codes s end.

Fixpoint text_eqb (a b : text) : bool :=
  match a, b with
  | nil, nil => true
  | x :: a, y :: b => (x =? y) && text_eqb a b
  | _, _ => false
  end.

(** ** Packages strings, unicode, strconv *)
(** unicode.IsSpace *)
Definition isSpace (c : Z) : bool :=
  ((9 <=? c) && (c <=? 13)) || (c =? 32) || (c =? 133) || (c =? 160) || (c =? 5760) ||
  ((8192 <=? c) && (c <=? 8202)) || (c =? 8232) || (c =? 8233) || (c =? 8239) || (c =? 8287) || (c =? 12288).

(** strings.TrimSpace *)
Fixpoint trimLeft (l : text) : text :=
  match l with c :: r => if isSpace c then trimLeft r else l | nil => nil end.
Definition trimSpace (l : text) : text := rev (trimLeft (rev (trimLeft l))).

(** strings.Fields; [cur] is the field being read, reversed *)
Fixpoint fieldsFrom (cur : text) (l : text) : list text :=
  match l with
  | nil => match cur with nil => nil | _ => [rev cur] end
  | c :: r =>
    if isSpace c then match cur with nil => fieldsFrom nil r | _ => rev cur :: fieldsFrom nil r end
    else fieldsFrom (c :: cur) r
  end.
Definition fields : text -> list text := fieldsFrom nil.

(** strings.HasPrefix, and the rest of the string *)
Fixpoint afterPrefix (p l : text) : option text :=
  match p, l with
  | nil, _ => Some l
  | x :: p, y :: l => if x =? y then afterPrefix p l else None
  | _, nil => None
  end.

(** the first element of strings.Split(w, "/") *)
Fixpoint beforeSlash (w : text) : text :=
  match w with nil => nil | c :: r => if c =? 47 then nil else c :: beforeSlash r end.

(** strconv.Atoi and strconv.ParseInt with base 10: an optional sign and one or more digits *)
Fixpoint digitsVal (l : text) (acc : Z) : option Z :=
  match l with
  | nil => Some acc
  | c :: r => if (48 <=? c) && (c <=? 57) then digitsVal r (10 * acc + (c - 48)) else None
  end.
Definition unsignedVal (l : text) : option Z := match l with nil => None | _ => digitsVal l 0 end.
Definition signedVal (l : text) : option Z :=
  match l with
  | c :: r =>
    if c =? 45 then option_map Z.opp (unsignedVal r)
    else if c =? 43 then unsignedVal r
    else unsignedVal l
  | nil => None
  end.
Definition parseInt (bits : Z) (l : text) : option Z :=
  match signedVal l with
  | Some v => if (- 2 ^ (bits - 1) <=? v) && (v <? 2 ^ (bits - 1)) then Some v else None
  | None => None
  end.
Definition atoi : text -> option Z := parseInt 64.

(** ** Results: a value, an error value, or the end of the process ("fatal error: out of memory",
    which recover() cannot intercept) *)
Inductive presult (A : Type) : Type := POk (a : A) | PError | PDies.
Arguments POk {A}. Arguments PError {A}. Arguments PDies {A}.
Definition pbind {A B} (x : presult A) (f : A -> presult B) : presult B :=
  match x with POk a => f a | PError => PError | PDies => PDies end.
Definition pmap {A B} (f : A -> B) (x : presult A) : presult B := pbind x (fun a => POk (f a)).
Definition pget {A} (x : option A) : presult A := match x with Some a => POk a | None => PError end.

(** ** PLY *)
Section Ply.
  Context {F : Type} `{NF : Num F}.
  (** strconv.ParseFloat(_, 64) *)
  Variable parseFloat64 : text -> option F.
  (** whether the machine can provide memory for so many vertices or faces of 24 bytes *)
  Variable fits : Z -> bool.

  (** make([]T, n): a length that is negative or exceeds the address space (2^48 bytes) panics, which Parse turns
      into an error; if memory runs out the process ends *)
  Definition goMake (n : Z) : presult unit :=
    if (n <? 0) || (2 ^ 48 <? 24 * n) then PError else if fits n then POk tt else PDies.

  (** bufio.Reader.ReadString('\n') as used by readLine (ply/parser.go:98-103): the lines that end
      in a newline. What follows the last newline comes with the error io.EOF and is dropped. *)
  Fixpoint plyLinesFrom (cur : text) (t : text) : list text :=
    match t with
    | nil => nil
    | c :: r => if c =? 10 then rev cur :: plyLinesFrom nil r else plyLinesFrom (c :: cur) r
    end.
  Definition plyLines : text -> list text := plyLinesFrom nil.

  Definition readLine (ls : list text) : presult (text * list text) :=
    match ls with nil => PError | l :: rest => POk (trimSpace l, rest) end.

  (** ply/parser.go:45-55 *)
  Fixpoint plyHeader (ls : list text) (numVertex numFace : Z) : presult (Z * Z * list text) :=
    match ls with
    | nil => PError
    | l :: rest =>
      let l := trimSpace l in
      if text_eqb l (codes "end_header") then POk (numVertex, numFace, rest) else
      match afterPrefix (codes "element vertex ") l with
      | Some w => pbind (pget (atoi w)) (fun n => plyHeader rest n numFace)
      | None =>
        match afterPrefix (codes "element face ") l with
        | Some w => pbind (pget (atoi w)) (fun n => plyHeader rest numVertex n)
        | None => plyHeader rest numVertex numFace
        end
      end
    end.

  (** ply/parser.go:59-62; a missing field panics *)
  Definition plyVertex (l : text) : presult (vec F) :=
    match fields (trimSpace l) with
    | w0 :: w1 :: w2 :: _ =>
      pbind (pget (parseFloat64 w0)) (fun x =>
      pbind (pget (parseFloat64 w1)) (fun y =>
      pmap (fun z => Vec x y z) (pget (parseFloat64 w2))))
    | _ => PError
    end.
  (** ply/parser.go:57-63 *)
  Fixpoint plyVertices (ls : list text) (n : Z) : presult (list (vec F) * list text) :=
    if n <=? 0 then POk (nil, ls) else
    match ls with
    | nil => PError
    | l :: rest =>
      pbind (plyVertex l) (fun v =>
      pmap (fun '(vs, ls) => (v :: vs, ls)) (plyVertices rest (n - 1)))
    end.

  (** ply/parser.go:67-87 *)
  Definition plyFace (l : text) : presult (list tri) :=
    match fields (trimSpace l) with
    | w0 :: ws =>
      pbind (pget (atoi w0)) (fun numV =>
      if negb ((numV =? 3) || (numV =? 4)) then PError else
      match ws with
      | w1 :: w2 :: w3 :: ws =>
        pbind (pget (atoi w1)) (fun a =>
        pbind (pget (atoi w2)) (fun b =>
        pbind (pget (atoi w3)) (fun c =>
        if numV =? 4 then
          match ws with
          | w4 :: _ => pmap (fun d => [(a, b, c); (c, d, a)]) (pget (atoi w4))
          | nil => PError
          end
        else POk [(a, b, c)])))
      | _ => PError
      end)
    | nil => PError
    end.
  (** ply/parser.go:66-89 *)
  Fixpoint plyFaces (ls : list text) (n : Z) : presult (list tri) :=
    if n <=? 0 then POk nil else
    match ls with
    | nil => PError
    | l :: rest => pbind (plyFace l) (fun f => pmap (fun fs => f ++ fs) (plyFaces rest (n - 1)))
    end.

  (** ply/parser.go:24-91 *)
  Definition plyParse (t : text) : presult (list (vec F) * list tri) :=
    pbind (readLine (plyLines t)) (fun '(magic, ls) =>
    if negb (text_eqb magic (codes "ply")) then PError else
    pbind (readLine ls) (fun '(format, ls) =>
    if negb (text_eqb format (codes "format ascii 1.0")) then PError else
    pbind (plyHeader ls 0 0) (fun '(numVertex, numFace, ls) =>
    pbind (goMake numVertex) (fun _ =>
    pbind (plyVertices ls numVertex) (fun '(vs, ls) =>
    pbind (goMake numFace) (fun _ =>
    pmap (fun fs => (vs, fs)) (plyFaces ls numFace))))))).
End Ply.

(** ** OBJ *)
Section Obj.
  Context {F : Type} `{NF : Num F}.
  (** strconv.ParseFloat(_, 32), as float64 *)
  Variable parseFloat32 : text -> option F.

  (** obj/parser.go:29-37. The map of faces is a list of its entries; a face keeps its 3 or 4 indices. *)
  Record objState : Type := ObjState { osMat : text; osVertices : list (vec F); osFaces : list (text * list (list Z)) }.

  (** bytes of a code point in UTF-8 *)
  Definition runeLen (c : Z) : Z := if c <? 128 then 1 else if c <? 2048 then 2 else if c <? 65536 then 3 else 4.
  Definition byteLen (l : text) : Z := fold_right (fun c n => runeLen c + n) 0 l.

  (** bufio.Scanner with ScanLines: lines end in a newline or with the text; an empty last line is
      no line. One carriage return at the end of a line is dropped. *)
  Fixpoint scanFrom (cur : text) (t : text) : list text :=
    match t with
    | nil => match cur with nil => nil | _ => [rev cur] end
    | c :: r => if c =? 10 then rev cur :: scanFrom nil r else scanFrom (c :: cur) r
    end.
  Definition dropCR (l : text) : text :=
    match rev l with c :: r => if c =? 13 then rev r else l | nil => nil end.
  (** bufio.MaxScanTokenSize *)
  Definition tooLong (l : text) : bool := 65536 <=? byteLen l.

  (** obj/parser.go:78-89; the fourth coordinate is not even read *)
  Definition objV (args : list text) (st : objState) : presult objState :=
    match args with
    | [w0; w1; w2] | [w0; w1; w2; _] =>
      pbind (pget (parseFloat32 w0)) (fun x =>
      pbind (pget (parseFloat32 w1)) (fun y =>
      pbind (pget (parseFloat32 w2)) (fun z =>
      POk (ObjState (osMat st) (osVertices st ++ [Vec x y z]) (osFaces st)))))
    | _ => PError
    end.

  (** obj/parser.go:97-107 *)
  Fixpoint objIndices (ws : list text) : presult (list Z) :=
    match ws with
    | nil => POk nil
    | w :: ws =>
      pbind (pget (parseInt 32 (beforeSlash w))) (fun idx =>
      if idx <? 1 then PError else pmap (fun is => idx - 1 :: is) (objIndices ws))
    end.
  (** p.obj.Faces[m] = append(p.obj.Faces[m], f) *)
  Fixpoint addFace (m : text) (f : list Z) (fs : list (text * list (list Z))) : list (text * list (list Z)) :=
    match fs with
    | nil => [(m, [f])]
    | (m', l) :: rest => if text_eqb m m' then (m', l ++ [f]) :: rest else (m', l) :: addFace m f rest
    end.
  (** obj/parser.go:91-110 *)
  Definition objF (args : list text) (st : objState) : presult objState :=
    if negb ((Z.of_nat (length args) =? 3) || (Z.of_nat (length args) =? 4)) then PError else
    pmap (fun f => ObjState (osMat st) (osVertices st) (addFace (osMat st) f (osFaces st))) (objIndices args).

  (** obj/parser.go:112-115 *)
  Definition objUsemtl (args : list text) (st : objState) : presult objState :=
    match args with [m] => POk (ObjState m (osVertices st) (osFaces st)) | _ => PError end.

  Definition ignoredCommands : list text := map codes ["#"; "o"; "vn"; "vt"; "s"; "l"; "g"; "mtllib"]%string.

  (** obj/parser.go:51-76 *)
  Definition objLine (l : text) (st : objState) : presult objState :=
    match fields l with
    | nil => POk st
    | command :: args =>
      if text_eqb command (codes "v") then objV args st
      else if text_eqb command (codes "f") then objF args st
      else if text_eqb command (codes "usemtl") then objUsemtl args st
      else if existsb (text_eqb command) ignoredCommands then POk st
      else PError
    end.

  (** obj/parser.go:45-48; a line that does not fit in the scanner's buffer ends the loop with an error *)
  Fixpoint objLoop (ls : list text) (st : objState) : presult objState :=
    match ls with
    | nil => POk st
    | l :: rest => if tooLong l then PError else pbind (objLine (dropCR l) st) (objLoop rest)
    end.

  (** obj/parser.go:17-27 *)
  Definition objParse (t : text) : presult (list (vec F) * list (text * list (list Z))) :=
    pmap (fun st => (osVertices st, osFaces st)) (objLoop (scanFrom nil t) (ObjState nil nil nil)).
End Obj.
Arguments objState F : clear implicits.

(** ** Mesh files as objects *)
Section Files.
  Context {F : Type} `{NF : Num F} `{NI : NumInf F} {M : Type}.
  Notation object := (object F M).
  Variable to32 : F -> F.
  Variable sortSlice : (object -> object -> bool) -> list object -> list object.
  Variables parseFloat64 parseFloat32 : text -> option F.
  Variable fits : Z -> bool.

  (** what became of loading a file: the object (or a panic of its constructor), or the process has
      ended, in an orderly way by log.Fatal or for lack of memory *)
  Inductive loaded : Type := Loaded (o : outcome object) | Fatal | OutOfMemory.

  (** mesh.go:224-228; the transforms are applied if there are any *)
  Definition placed (transf : list (affine F)) (vs : list (vec F)) : list (vec F) :=
    match transf with nil => vs | _ => map (transformPoint (composeLR transf)) vs end.

  (** mesh.go:177-186 *)
  Definition plyFile (m : option M) (t : text) (transf : list (affine F)) : loaded :=
    match plyParse parseFloat64 fits t with
    | POk (vs, fs) => Loaded (meshNoUV to32 sortSlice m (placed transf vs) fs)
    | PError => Fatal
    | PDies => OutOfMemory
    end.

  (** mesh.go:208-221 *)
  Fixpoint splitFaces (fs : list (list Z)) : outcome (list tri) :=
    match fs with
    | nil => Val nil
    | [a; b; c] :: rest => omap (fun l => (a, b, c) :: l) (splitFaces rest)
    | [a; b; c; d] :: rest => omap (fun l => (a, b, c) :: (c, d, a) :: l) (splitFaces rest)
    | _ => Panic
    end.

  (** the loop of mesh.go:197-203 over the entries of the map in some order; [None]: log.Fatal *)
  Fixpoint objMeshes (mats : text -> option (option M)) (vs : list (vec F)) (entries : list (text * list (list Z)))
    : option (outcome (list object)) :=
    match entries with
    | nil => Some (Val nil)
    | (name, faces) :: rest =>
      match mats name with
      | None => None
      | Some m =>
        match obind (splitFaces faces) (fun fs => meshNoUV to32 sortSlice m vs fs) with
        | Val o =>
          match objMeshes mats vs rest with
          | Some x => Some (omap (fun os => o :: os) x)
          | None => None
          end
        | Panic => Some Panic
        | NoFuel => Some NoFuel
        end
      end
    end.

  (** mesh.go:188-205; [order] is the order in which range visits the map *)
  Definition objFile (order : list (text * list (list Z)) -> list (text * list (list Z)))
      (mats : text -> option (option M)) (t : text) (transf : list (affine F)) : loaded :=
    match objParse parseFloat32 t with
    | POk (vs, entries) =>
      match objMeshes mats (placed transf vs) (order entries) with
      | Some x => Loaded (obind x (tree to32 sortSlice))
      | None => Fatal
      end
    | PError => Fatal
    | PDies => OutOfMemory
    end.
End Files.
Arguments loaded F M : clear implicits.
