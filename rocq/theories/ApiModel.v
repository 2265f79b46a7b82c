(** * Model of package api: Spec, View, saving files, local rendering and animations

    File names and file contents are lists of bytes (integers). Flags are parameters. *)
From Coq Require Import ZArith Bool List.
From Verif Require Import Num Outcome GeomModel ColorModel ObjModel SceneModel ImageModel.
Import ListNotations.

(** ** Spec and View *)
Section Spec.
  (** materials, lights and media are only passed on *)
  Context {F M L Med : Type} `{NF : Num F} `{NI : NumInf F} `{TF : Trig F}.
  Local Open Scope num_scope.
  Notation camera := (@camera F).

  (** api/object.go:8-10, with the answer to the type assertion of spec.go:92 (has a method IsBackdrop) *)
  Record apiObject : Type := ApiObject { aoInterface : object F M; aoIsBackdrop : bool }.
  (** api/object.go:12-14 *)
  Definition apiBackdrop (m : option M) : apiObject := ApiObject (backdrop m) true.
  (** api/object.go:151-153; the type withMaterial has no method IsBackdrop *)
  Definition apiWithMaterial (m : option M) (o : apiObject) : apiObject := ApiObject (withMaterial m (aoInterface o)) false.

  (** api/spec.go:15-33 *)
  Record spec : Type := Spec {
    spLights : list L;
    spObjects : list apiObject;
    spMedia : list Med;
    spCamera : option camera;
    spRecursion : Z;
    spNumPass : Z;
    spWidth : Z;
    spHeight : Z;
    spDebugNormals : Z;
    spIsometricFOV : F;
    spIsometricDir : Z }.

  (** api/spec.go:88-99 *)
  Definition applyMaterial (flatBlack m : M) (os : list apiObject) : list apiObject :=
    map (fun o => if aoIsBackdrop o then apiWithMaterial (Some flatBlack) o else apiWithMaterial (Some m) o) os.

  (** the materials of api/spec.go:68-78: test.Normal, the blend with test.Normal2, Flat(Black) *)
  Variables (normalMat normal2Mat flatBlack : M).

  (** api/spec.go:50-86. int is 64 bits. *)
  Definition initDefaults (s : spec) : outcome spec :=
    let rec := if (spRecursion s =? 0)%Z then 1%Z else spRecursion s in
    let num := if (spNumPass s =? 0)%Z then 1%Z else spNumPass s in
    obind (match spCamera s with
           | Some c => Val c
           | None => omap (fun c => camTranslate c (Vec #0 #1 #0)) (projective (deg #90))
           end) (fun cam =>
    let '(w, h) := if ((spWidth s =? 0) && (spHeight s =? 0))%Z%bool then (960, 540)%Z else (spWidth s, spHeight s) in
    let w := if (w =? 0)%Z then Z.quot (wrap64 (h * 960)) 540 else w in
    let h := if (h =? 0)%Z then Z.quot (wrap64 (w * 540)) 960 else h in
    let '(objs, med) := if (spDebugNormals s =? 1)%Z then (applyMaterial flatBlack normalMat (spObjects s), nil) else (spObjects s, spMedia s) in
    let '(objs, med, rec) := if (spDebugNormals s =? 2)%Z then (applyMaterial flatBlack normal2Mat objs, nil, 20%Z) else (objs, med, rec) in
    obind (if spIsometricFOV s =? #0 then Val cam else isometric (spIsometricDir s) (spIsometricFOV s)) (fun cam =>
    let rec := if (rec =? 0)%Z then 3%Z else rec in
    Val (Spec (spLights s) objs med (Some cam) rec num w h (spDebugNormals s) (spIsometricFOV s) (spIsometricDir s)))).

  (** api/view.go:10-21 *)
  Record view : Type := View {
    vwWidth : Z;
    vwHeight : Z;
    vwAntiAlias : bool;
    vwCamPos : vec F;
    vwCamYaw : F;
    vwCamPitch : F;
    vwDebugNormals : Z;
    vwIsometric : bool;
    vwIsometricFOV : F;
    vwIsometricDir : Z }.

  (** api/view.go:23-41. cameras.Transform of a nil camera makes a camera that crashes when used;
      specs that went through InitDefaults have one. *)
  Definition viewApplyTo (v : view) (s : spec) : outcome spec :=
    match spCamera s with
    | None => Panic
    | Some c =>
      initDefaults (Spec (spLights s) (spObjects s) (spMedia s)
        (Some (transformCam c (afA (yawPitchRoll (vwCamYaw v) (vwCamPitch v) #0)) (vwCamPos v)))
        (spRecursion s) (spNumPass s) (vwWidth v) (vwHeight v) (vwDebugNormals v)
        (if vwIsometric v then vwIsometricFOV v else #0) (if vwIsometric v then vwIsometricDir v else 0%Z))
    end.
End Spec.
Arguments apiObject F M : clear implicits.
Arguments spec F M L Med : clear implicits.
Arguments view F : clear implicits.

(** ** File names *)
Section Names.
  Local Open Scope Z_scope.
  (** path.Ext; the name is read backwards *)
  Fixpoint extLoop (rname acc : list Z) : list Z :=
    match rname with
    | nil => nil
    | b :: r => if b =? 47 then nil else if b =? 46 then b :: acc else extLoop r (b :: acc)
    end.
  Definition pathExt (name : list Z) : list Z := extLoop (rev name) nil.
  (** api/render.go:122-125 *)
  Definition noExt (name : list Z) : list Z := firstn (length name - length (pathExt name)) name.

  Fixpoint name_eqb (a b : list Z) : bool :=
    match a, b with
    | nil, nil => true
    | x :: a, y :: b => (x =? y) && name_eqb a b
    | _, _ => false
    end.

  Definition dotPng : list Z := [46; 112; 110; 103].
  Definition dotJpg : list Z := [46; 106; 112; 103].
  Definition dotJpeg : list Z := [46; 106; 112; 101; 103].
  Definition dotPpm : list Z := [46; 112; 112; 109].
  Definition dashFrames : list Z := [45; 102; 114; 97; 109; 101; 115].
  Definition lastJpg : list Z := [108; 97; 115; 116; 46; 106; 112; 103].
End Names.

(** ** The operating system *)
(** [fsCreate]: the names that os.Create can open for writing. [fsRoom]: how many more bytes can be written
    before the disk is full. *)
Record fsys : Type := FS { fsFiles : list Z -> option (list Z); fsCreate : list Z -> bool; fsRoom : nat }.

Definition fsStore (fs : fsys) (name content : list Z) (room : nat) : fsys :=
  FS (fun n => if name_eqb n name then Some content else fsFiles fs n) (fsCreate fs) room.
Definition fsRead (fs : fsys) (name : list Z) : list Z := match fsFiles fs name with Some c => c | None => nil end.

(** os.Create: truncates an existing file, which frees its space *)
Definition osCreate (name : list Z) (fs : fsys) : bool * fsys :=
  if fsCreate fs name then (false, fsStore fs name nil (fsRoom fs + length (fsRead fs name))) else (true, fs).
(** File.Write at the end of an open file: how many bytes were written, and whether there was an error *)
Definition osWrite (name : list Z) (bs : list Z) (fs : fsys) : nat * bool * fsys :=
  let n := Nat.min (length bs) (fsRoom fs) in
  (n, Nat.ltb n (length bs), fsStore fs name (fsRead fs name ++ firstn n bs) (fsRoom fs - n)).

(** ** bufio.Writer on an open file (standard library) *)
Record bufWriter : Type := BufWriter { bwBuf : list Z; bwErr : bool; bwFs : fsys }.
Definition bufSize : nat := 4 * 1024.
Definition bufFlush (name : list Z) (w : bufWriter) : bufWriter :=
  if bwErr w then w else
  match bwBuf w with
  | nil => w
  | _ => let '(n, e, fs) := osWrite name (bwBuf w) (bwFs w) in BufWriter (if e then skipn n (bwBuf w) else nil) e fs
  end.
(** At most three rounds: fill and flush the buffer, write the rest directly, stop. *)
Fixpoint bufWriteLoop (fuel : nat) (name : list Z) (bs : list Z) (w : bufWriter) : bool * bufWriter :=
  match fuel with
  | O => (true, w)
  | S fuel =>
    if (Nat.ltb (bufSize - length (bwBuf w)) (length bs) && negb (bwErr w))%bool then
      match bwBuf w with
      | nil => let '(n, e, fs) := osWrite name bs (bwFs w) in bufWriteLoop fuel name (skipn n bs) (BufWriter nil e fs)
      | _ =>
        let n := bufSize - length (bwBuf w) in
        bufWriteLoop fuel name (skipn n bs) (bufFlush name (BufWriter (bwBuf w ++ firstn n bs) false (bwFs w)))
      end
    else if bwErr w then (true, w)
    else (false, BufWriter (bwBuf w ++ bs) false (bwFs w))
  end.
Definition bufWrite (name : list Z) (bs : list Z) (w : bufWriter) : bool * bufWriter := bufWriteLoop 3 name bs w.

(** ** Saving images *)
Section Save.
  Context {F : Type} `{NF : Num F} `{TF : Trig F}.
  Notation rows := (list (list (color F))).
  (** image/png and image/jpeg writing into a bytes.Buffer *)
  Variables pngEncode jpegEncode : rows -> option (list Z).

  (** api/render.go:88-113 *)
  Definition savef (img : rows) (fname suffix : list Z) (fs : fsys) : bool * fsys :=
    let ext := pathExt fname in
    let b := if name_eqb ext dotPng then pngEncode img
             else if (name_eqb ext dotJpg || name_eqb ext dotJpeg)%bool then jpegEncode img
             else None in
    match b with
    | None => (true, fs)
    | Some b =>
      let fname := noExt fname ++ suffix ++ ext in
      let '(e, fs) := osCreate fname fs in
      if e then (true, fs) else
      let '(_, e, fs) := osWrite fname b fs in (e, fs)
    end.

  (** api/render.go:127-136; the error of the deferred Flush is dropped *)
  Definition savePPM (fname : list Z) (img : rows) (fs : fsys) : bool * fsys :=
    let '(e, fs) := osCreate fname fs in
    if e then (true, fs) else
    let '(e, w) := encodeAscii16 (bufWrite fname) img (BufWriter nil false fs) in
    (e, bwFs (bufFlush fname w)).

  (** ** Local rendering *)
  (** [shot calls]: the image of the sampler after the given calls of Sample *)
  Definition sampled : Type := list Z -> rows.
  (** What has happened: the arguments of Sample so far, the disk, and whether the process has exited with an error. *)
  Record world : Type := World { wCalls : list Z; wFs : fsys; wExit : bool }.

  (** check(save...) *)
  Definition checked (w : world) (save : fsys -> bool * fsys) (k : world -> outcome world) : outcome world :=
    let '(e, fs) := save (wFs w) in
    if e then Val (World (wCalls w) fs true) else k (World (wCalls w) fs false).

  (** api/render.go:56-77; [post] is Spec.PostProcess.ApplyTo, [flagO] the output file *)
  Fixpoint renderLoop (fuel : nat) (shot : sampled) (post : rows -> rows) (flagO : list Z) (numPass passBeforeSave totalPasses : Z) (w : world)
      : outcome world :=
    match fuel with
    | O => NoFuel
    | S fuel =>
      if (totalPasses <? numPass)%Z then
        let calls := wCalls w ++ [passBeforeSave] in
        let img := post (shot calls) in
        checked (World calls (wFs w) false) (savef img flagO nil) (fun w =>
        checked w (savePPM (noExt flagO ++ dotPpm) img) (fun w =>
        renderLoop fuel shot post flagO numPass (passBeforeSave + 1) (totalPasses + passBeforeSave) w))
      else
        checked w (savePPM (noExt flagO ++ dotPpm) (post (shot (wCalls w)))) (fun w => Val w)
    end.
  (** api/render.go:49-82 *)
  Definition renderLocal (fuel : nat) (shot : sampled) (post : rows -> rows) (flagO : list Z) (numPass : Z) (fs : fsys) : outcome world :=
    renderLoop fuel shot post flagO numPass 1 0 (World nil fs false).

  (** ** Animations *)
  (** fmt.Sprintf("%05d", i) *)
  Definition pad5 (i : Z) : list Z :=
    let d := fmtInt i in
    if (i <? 0)%Z then 45%Z :: repeat 48%Z (4 - (length d - 1)) ++ tl d
    else repeat 48%Z (5 - length d) ++ d.
  (** path.Join of a clean directory name and a simple file name *)
  Definition pathJoin (dir file : list Z) : list Z := dir ++ 47%Z :: file.

  (** api/animate.go:21-41: frame [i]. Creating the directory may fail, which is ignored. *)
  Definition framesDir (flagO : list Z) : list Z := noExt flagO ++ dashFrames.
  Definition renderFrame (shot : sampled) (flagO : list Z) (numPass i : Z) (w : world) : outcome world :=
    let calls := repeat 1%Z (Z.to_nat numPass) in
    let img := shot calls in
    checked (World (wCalls w ++ calls) (wFs w) false) (savef img (pathJoin (framesDir flagO) lastJpg) nil) (fun w =>
    checked w (savef img (pathJoin (framesDir flagO) (pad5 i ++ dotJpg)) nil) (fun w => Val w)).

  (** api/animate.go:12-19; [shots i] and [passes i]: sampler and NumPass of frame i *)
  Fixpoint animateLoop (n : nat) (i : Z) (shots : Z -> sampled) (passes : Z -> Z) (flagO : list Z) (w : world) : outcome world :=
    match n with
    | O => Val w
    | S n =>
      obind (renderFrame (shots i) flagO (passes i) i w) (fun w =>
      if wExit w then Val w else animateLoop n (i + 1) shots passes flagO w)
    end.
  Definition animate (numFrame : Z) (shots : Z -> sampled) (passes : Z -> Z) (flagO : list Z) (fs : fsys) : outcome world :=
    animateLoop (Z.to_nat numFrame) 0 shots passes flagO (World nil fs false).
End Save.
