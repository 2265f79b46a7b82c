(** * Properties of the mesh file parsers and of mesh files as objects (C75-C78, C94) *)
From Coq Require Import ZArith Reals Bool String List Permutation.
From Verif Require Import Num Outcome GeomModel GeomSpec ObjModel TreeModel ObjSpec MeshSpec LoadSpec ObjFacts B64 NestProofs ParseModel ParseSpec ParseProofs LoadProofs ParseFacts.
Import ListNotations.
Local Open Scope Z_scope.

(** ** C75: a text is accepted exactly if it is a PLY file, and then with the listed vertices and triangles *)
Theorem C75_ply_files_round_trip :
  forall (F : Type) (number : text -> option F) (fits : Z -> bool) (t : text) (vs : list (vec F)) (fs : list (Z * Z * Z)),
    plyParse number fits t = POk (vs, fs) <->
    exists nv nf, ply_file number t nv nf vs fs /\ enough fits nv /\ enough fits nf.
Proof. exact @plyParse_exact. Qed.
Print Assumptions C75_ply_files_round_trip.

(** the words and the numbers the specification speaks of are determined by the text *)
Theorem C75_words_and_numerals :
  (forall l ws ws', words l ws -> words l ws' -> ws = ws') /\ (forall l, exists ws, words l ws) /\
  (forall w z z', numeral w z -> numeral w z' -> z = z') /\
  (forall l, exists w, pads w l) /\ (forall w w' l, pads w l -> pads w' l -> w = w').
Proof. exact words_and_numerals. Qed.
Print Assumptions C75_words_and_numerals.

Example C75_example : plyParse whole (fun _ => true) squareFile =
  POk ([Vec 0 0 0; Vec 1 0 0; Vec 1 (-1) 0; Vec 0 1 7], [(0, 1, 2); (2, 3, 0); (3, 0, 1)]).
Proof. vm_compute. reflexivity. Qed.
Example C75_words_example : words (codes " 3  0 +1 -2 ") [codes "3"; codes "0"; codes "+1"; codes "-2"] /\ numeral (codes "-017") (-17).
Proof. exact words_example. Qed.

(** ** C76: false; a last line that is not terminated is as good as absent *)
Theorem C76_unterminated_last_line_refuted :
  (forall (F : Type) (number : text -> option F) (fits : Z -> bool) (ls : list text) (l : text),
     Forall one_line ls -> one_line l ->
     plyParse number fits (terminated ls ++ l) = plyParse number fits (terminated ls)) /\
  exists t, plyParse whole (fun _ => true) (t ++ [newline]) = POk ([Vec 0 0 0; Vec 1 0 0; Vec 0 1 0], [(0, 1, 2)]) /\
    plyParse whole (fun _ => true) t = PError.
Proof. exact (conj (@plyParse_unterminated) unterminated_file). Qed.
Print Assumptions C76_unterminated_last_line_refuted.

(** what is true: appending a newline, or anything else, does not change what an accepted file means *)
Theorem C76_appending_changes_nothing :
  forall (F : Type) (number : text -> option F) (fits : Z -> bool) (t : text) r (x : text),
    plyParse number fits t = POk r -> plyParse number fits (t ++ x) = POk r.
Proof. exact @plyParse_app. Qed.
Print Assumptions C76_appending_changes_nothing.

Example C76_example : plyParse whole (fun _ => true) (squareFile ++ codes "what a mess") = plyParse whole (fun _ => true) squareFile.
Proof. vm_compute. reflexivity. Qed.

(** ** C77: OBJ files *)
Theorem C77_obj_files :
  forall (F : Type) (number : text -> option F),
    (forall t vs tbl, objParse number t = POk (vs, tbl) ->
       exists es, obj_file number t es /\ vs = obj_vertices es /\ face_table tbl es) /\
    (forall t es, obj_file number t es ->
       exists tbl, objParse number t = POk (obj_vertices es, tbl) /\ face_table tbl es).
Proof. exact (fun F number => conj (objParse_sound number) (objParse_complete number)). Qed.
Print Assumptions C77_obj_files.

Theorem C77_one_bad_line_is_an_error :
  forall (F : Type) (number : text -> option F) (t : text) (ls : list text) (l : text),
    text_lines t ls -> In l ls -> (forall e, ~ obj_line number l e) -> objParse number t = PError.
Proof. exact @objParse_bad_line. Qed.
Print Assumptions C77_one_bad_line_is_an_error.

Theorem C77_indices_below_1_are_rejected :
  forall (F : Type) (number : text -> option F) (l : text) (ws : list text) (w n : text) (tail : text) (z : Z),
    words l (codes "f" :: ws) -> In w ws -> w = n ++ tail -> (tail = nil \/ exists r, tail = codes "/" ++ r) ->
    numeral n z -> z < 1 -> forall e, ~ obj_line number l e.
Proof. exact @index_below_1. Qed.
Print Assumptions C77_indices_below_1_are_rejected.

Theorem C77_final_newline_is_optional :
  forall (F : Type) (number : text -> option F) (t : text), objParse number (t ++ [newline]) = objParse number t.
Proof. exact @objParse_final_newline. Qed.
Print Assumptions C77_final_newline_is_optional.

Example C77_example : objParse whole cubeFile =
  POk ([Vec 1 2 3; Vec 4 5 6; Vec 7 8 9], [(codes "red", [[0; 1; 2]; [2; 1; 0; 0]]); (codes "blue", [[2; 0; 1]])]).
Proof. vm_compute. reflexivity. Qed.
Example C77_example_rejects :
  map (fun s => objParse whole (codes s)) ["f 0 1 2"; "f 1 2"; "#no space"; "v 1 2"; "usemtl"; "vp 1"; "f 1 2 x"]%string =
  [PError; PError; PError; PError; PError; PError; PError].
Proof. vm_compute. reflexivity. Qed.

(** ** C78: false as stated; a short text can end the process, and face indices are not checked *)
Theorem C78_crash_and_dangling_indices_refuted :
  (forall (F : Type) (number : text -> option F) (fits : Z -> bool), fits 11000000000000 = false -> plyParse number fits hugeFile = PDies) /\
  (forall (F : Type) (number : text -> option F), plyParse number (fun _ => true) danglingPly = POk (nil, [(7, -8, 9)])) /\
  (forall (F : Type) (number : text -> option F), objParse number danglingObj = POk (nil, [(nil, [[6; 7; 8]])])).
Proof. exact parsers_misbehave. Qed.
Print Assumptions C78_crash_and_dangling_indices_refuted.

(** what is true: malformed texts are errors, and no text makes the OBJ parser crash, nor the PLY
    parser if there is memory *)
Theorem C78_malformed_input_is_an_error :
  forall (F : Type) (number : text -> option F),
    (forall (fits : Z -> bool) t, (forall n, fits n = true) ->
       plyParse number fits t <> PDies /\
       ((forall nv nf vs fs, ~ ply_file number t nv nf vs fs) -> plyParse number fits t = PError)) /\
    (forall t, objParse number t <> PDies /\ ((forall es, ~ obj_file number t es) -> objParse number t = PError)).
Proof. exact @malformed_error. Qed.
Print Assumptions C78_malformed_input_is_an_error.

(** face references of accepted OBJ files are at least never negative *)
Theorem C78_obj_indices_not_negative :
  forall (F : Type) (number : text -> option F) (t : text) vs tbl,
    objParse number t = POk (vs, tbl) -> forall m fs f i, In (m, fs) tbl -> In f fs -> In i f -> 0 <= i < 2 ^ 31 - 1.
Proof. exact @obj_indices. Qed.
Print Assumptions C78_obj_indices_not_negative.

Example C78_example :
  map (fun s => plyParse whole (fun _ => true) (terminated (map codes s)))
    [["ply"]; ["PLY"; "format ascii 1.0"; "end_header"];
     ["ply"; "format ascii 1.0"; "element vertex -1"; "end_header"];
     ["ply"; "format ascii 1.0"; "element face 1"; "end_header"; "5 0 0 0 0 0"];
     ["ply"; "format ascii 1.0"; "element vertex 1"; "end_header"; "1 2"]]%string =
  [PError; PError; PError; PError; PError].
Proof. vm_compute. reflexivity. Qed.

(** ** C94: mesh files as objects *)
Theorem C94_ply_file_shows_its_faces :
  forall (M : Type) (sortSlice : (object xr M -> object xr M -> bool) -> list (object xr M) -> list (object xr M)),
    reorders sortSlice ->
    forall (number : text -> option xr) (fits : Z -> bool) (m : option M) (t : text) (transf : list (affine R))
      (nv nf : Z) (vs : list pt) (fs : list face3) (s d : pt),
      ply_file number t nv nf (map xv vs) fs -> enough fits nv -> enough fits nf ->
      let ps := map (moved transf) vs in
      fs <> nil -> (forall f, In f fs -> face_in_range ps f) ->
      general_position ps fs d -> start_off ps s -> (forall t, 0 < t -> on_mesh ps fs (along s d t) -> t < horizon)%R ->
      exists o h, plyFile (fun x => x) sortSlice number fits m t (map xaff transf) = Loaded (Val o) /\
        oIntersect o (xray s d) = Val (h, xray s d) /\
        (file_hit ps fs m s d h \/
         ((forall t, (0 < t)%R -> ~ on_mesh ps fs (along s d t)) /\
          (hT h = XF 0 \/ (hT h = XF horizon /\ (length fs <= 7)%nat)))).
Proof. exact @plyFile_exact. Qed.
Print Assumptions C94_ply_file_shows_its_faces.

(** whichever order the map of materials is walked in *)
Theorem C94_obj_file_shows_its_faces :
  forall (M : Type) (sortSlice : (object xr M -> object xr M -> bool) -> list (object xr M) -> list (object xr M)),
    reorders sortSlice ->
    forall (number : text -> option xr) (mats : text -> option (option M)) order (t : text) (transf : list (affine R))
      (es : list (effect xr)) (vs : list pt) (s d : pt),
      (forall l, Permutation (order l) l) -> obj_file number t es -> obj_vertices es = map xv vs ->
      let ps := map (moved transf) vs in
      let fs name := triangles (obj_faces name nil es) in
      (exists name, obj_faces name nil es <> nil) ->
      (forall name, obj_faces name nil es <> nil -> exists m, mats name = Some m) ->
      (forall name f, In f (fs name) -> face_in_range ps f) ->
      (forall name, general_position ps (fs name) d) -> start_off ps s ->
      (forall name t, 0 < t -> on_mesh ps (fs name) (along s d t) -> t < horizon)%R ->
      exists o h, objFile (fun x => x) sortSlice number order mats t (map xaff transf) = Loaded (Val o) /\
        oIntersect o (xray s d) = Val (h, xray s d) /\
        ((exists name m, mats name = Some m /\ file_hit ps (fs name) m s d h /\
            forall name' t', (0 < t')%R -> on_mesh ps (fs name') (along s d t') -> nleb (hT h) (XF t') = true) \/
         ((forall name t, (0 < t)%R -> ~ on_mesh ps (fs name) (along s d t)) /\ (hT h = XF 0 \/ hT h = XF horizon))).
Proof. exact @objFile_exact. Qed.
Print Assumptions C94_obj_file_shows_its_faces.

(** files which cannot be shown are never shown wrong: the process ends or the constructor panics *)
Theorem C94_ply_file_failures :
  forall (F : Type) (NF : Num F) (NI : NumInf F) (M : Type) (to32 : F -> F)
    (sortSlice : (object F M -> object F M -> bool) -> list (object F M) -> list (object F M))
    (number : text -> option F) (fits : Z -> bool) (m : option M) (t : text) (transf : list (affine F)),
    (forall n, fits n = true) ->
    ((forall nv nf vs fs, ~ ply_file number t nv nf vs fs) -> plyFile to32 sortSlice number fits m t transf = Fatal) /\
    (forall nv nf vs fs, ply_file number t nv nf vs fs -> enough fits nv -> enough fits nf ->
       (fs = nil \/ exists f, In f fs /\ ~ face_in_range vs f) ->
       plyFile to32 sortSlice number fits m t transf = Loaded Panic).
Proof. exact @ply_failures. Qed.
Print Assumptions C94_ply_file_failures.

Theorem C94_obj_file_failures :
  forall (F : Type) (NF : Num F) (NI : NumInf F) (M : Type) (to32 : F -> F)
    (sortSlice : (object F M -> object F M -> bool) -> list (object F M) -> list (object F M))
    (number : text -> option F) order (mats : text -> option (option M)) (t : text) (transf : list (affine F)),
    ((forall es, ~ obj_file number t es) -> objFile to32 sortSlice number order mats t transf = Fatal) /\
    (forall es o, (forall l, Permutation (order l) l) -> obj_file number t es ->
       objFile to32 sortSlice number order mats t transf = Loaded (Val o) ->
       forall name, obj_faces name nil es <> nil ->
         (exists m, mats name = Some m) /\
         forall f, In f (triangles (obj_faces name nil es)) -> face_in_range (obj_vertices es) f).
Proof. exact @obj_failures. Qed.
Print Assumptions C94_obj_file_failures.

(** a triangle read from a file, moved 2 along z, and seen from 5 in front of where it was *)
Example C94_example :
  exists o h, plyFile (fun x => x) (fun _ l => l) wholeX (fun _ => true) (Some tt) triangleFile
                [xaff (translate (Vec 0 0 2)%R)] = Loaded (Val o) /\
    oIntersect o (xray (Vec 1 1 (-5)) (Vec 0 0 1))%R = Val (h, xray (Vec 1 1 (-5)) (Vec 0 0 1))%R /\
    hT h = XF 7 /\ hMat h = Some tt.
Proof. exact triangle_seen. Qed.
Example C94_dangling : plyFile (F := xr) (M := unit) (fun x => x) (fun _ l => l) wholeX (fun _ => true) None danglingPly nil = Loaded Panic.
Proof. vm_compute. reflexivity. Qed.

(** ** C39, nested trees: members that answer a miss by a hit at the horizon, as small trees do, are harmless *)
Theorem C39_nested_trees_are_exact :
  forall (M : Type) (sortSlice : (object xr M -> object xr M -> bool) -> list (object xr M) -> list (object xr M)),
    reorders sortSlice ->
    forall (s d : pt) (os : list (object xr M)),
      os <> nil -> d <> zero3 -> (forall o, In o os -> near_boxed s d o) ->
      forall hits, hits_of os (xray s d) hits ->
      exists o' h, tree (fun x => x) sortSlice os = Val o' /\ near_boxed s d o' /\
        oIntersect o' (xray s d) = Val (h, xray s d) /\
        ((In h hits /\ positive h /\ nltb (hT h) (XF horizon) = true /\
          forall h', In h' hits -> positive h' -> nleb (hT h) (hT h') = true) \/
         ((forall h', In h' hits -> positive h' -> nltb (hT h') (XF horizon) = false) /\
          (h = noHit \/ (h = farHit /\ (length os <= 7)%nat)))).
Proof. exact @tree_near. Qed.
Print Assumptions C39_nested_trees_are_exact.

(** a ball in a tree of its own, missed at a corner of its box, does not hide the ball behind it *)
Example C39_nested_example :
  match tree to32b (fun _ l => l) [ball (Some tt)] with
  | Val o1 => match tree to32b (fun _ l => l) [o1; sphere (Some tt) (nofZ 2) (Vec (nofZ 1) (nofZ 1) (nofZ 3))] with
    | Val o => match oIntersect o1 cornerRay, oIntersect o cornerRay with
               | Val (h1, _), Val (h, _) => neqb (hT h1) (nofZ (9 * 10 ^ 99)) && nltb (nofZ 0) (hT h) && nltb (hT h) (nofZ 10)
               | _, _ => false end
    | _ => false end
  | _ => false end = true.
Proof. vm_compute. reflexivity. Qed.
