(** * Properties C68, C73, C74, C88, C90, C93: specs, views, saving and local rendering *)
From Coq Require Import ZArith Reals Bool List Lia Lra.
From Verif Require Import Num NumLaws Outcome GeomModel GeomSpec ColorModel ObjModel SceneModel SceneSpec SceneFacts ImageModel PpmSpec PpmProofs ApiModel ApiSpec ApiProofs ApiRender ApiView ApiFacts SeqModel SamplerModel SamplerSpec.
Import ListNotations.
Local Open Scope Z_scope.

(** ** C68 *)
Theorem C68_defaults_can_be_unusable_refuted :
  (forall (TF : Trig b64) (M L Med : Type) (nm n2 fb : M) (s s' : spec b64 M L Med),
     spWidth s = 1 -> spHeight s = 0 -> initDefaults nm n2 fb s = Val s' -> spHeight s' = 0) /\
  (forall (TF : Trig b64) (M L Med : Type) (nm n2 fb : M) (s s1 s2 : spec b64 M L Med) o,
     0 <= spWidth s <= 2 ^ 51 -> 0 <= spHeight s <= 2 ^ 51 -> spDebugNormals s = 1 -> spObjects s = [o] -> aoIsBackdrop o = true ->
     initDefaults nm n2 fb s = Val s1 -> initDefaults nm n2 fb s1 = Val s2 ->
     exists o1 o2, spObjects s1 = [o1] /\ spObjects s2 = [o2] /\ all_material fb (aoInterface o1) /\ all_material nm (aoInterface o2)).
Proof. exact (conj (fun TF M L Med => @init_no_height b64 M L Med _ TF) (fun TF M L Med => @init_backdrop_twice b64 M L Med _ TF)). Qed.
Print Assumptions C68_defaults_can_be_unusable_refuted.

Theorem C68_defaults_partial :
  forall (F : Type) (NF : Num F) (TF : Trig F) (M L Med : Type) (nm n2 fb : M) (s s' : spec F M L Med),
    initDefaults nm n2 fb s = Val s' -> 0 <= spRecursion s -> 0 <= spNumPass s ->
    0 <= spWidth s <= 2 ^ 52 /\ 0 <= spHeight s <= 2 ^ 52 ->
    (0 < spNumPass s' /\ (spNumPass s <> 0 -> spNumPass s' = spNumPass s)) /\
    (0 < spRecursion s' /\ (spRecursion s <> 0 -> spDebugNormals s <> 2 -> spRecursion s' = spRecursion s)) /\
    (0 < spWidth s' /\ (spWidth s <> 0 -> spWidth s' = spWidth s)) /\
    (0 <= spHeight s' /\ (spHeight s' = 0 <-> spWidth s = 1 /\ spHeight s = 0) /\ (spHeight s <> 0 -> spHeight s' = spHeight s)) /\
    (spWidth s = 0 -> spHeight s <> 0 -> 9 * spWidth s' <= 16 * spHeight s' < 9 * (spWidth s' + 1)) /\
    (spWidth s <> 0 -> spHeight s = 0 -> 16 * spHeight s' <= 9 * spWidth s' < 16 * (spHeight s' + 1)) /\
    (spWidth s = 0 -> spHeight s = 0 -> 9 * spWidth s' = 16 * spHeight s') /\
    (spCamera s' <> None /\ (neqb (spIsometricFOV s) (nofZ 0) = true -> spCamera s <> None -> spCamera s' = spCamera s)) /\
    (spLights s' = spLights s /\ (spDebugNormals s <> 1 -> spDebugNormals s <> 2 -> spObjects s' = spObjects s /\ spMedia s' = spMedia s)).
Proof. exact (fun F NF TF M L Med => @init_ok F M L Med NF TF). Qed.
Print Assumptions C68_defaults_partial.

Theorem C68_idempotent_without_debug_backdrop_partial :
  forall (F : Type) (NF : Num F) (TF : Trig F) (M L Med : Type) (nm n2 fb : M) (s s' : spec F M L Med),
    initDefaults nm n2 fb s = Val s' -> 0 <= spRecursion s -> 0 <= spNumPass s ->
    0 <= spWidth s <= 2 ^ 51 -> 0 <= spHeight s <= 2 ^ 51 ->
    (spDebugNormals s <> 1 /\ spDebugNormals s <> 2) \/ Forall (fun o => aoIsBackdrop o = false) (spObjects s) ->
    exists s'', initDefaults nm n2 fb s' = Val s'' /\ same_spec s' s''.
Proof. exact (fun F NF TF M L Med => @init_idempotent F M L Med NF TF). Qed.
Print Assumptions C68_idempotent_without_debug_backdrop_partial.

Theorem C68_defaults_never_panic :
  forall (M L Med : Type) (nm n2 fb : M) (s : spec R M L Med),
    0 <= spWidth s <= 2 ^ 52 /\ 0 <= spHeight s <= 2 ^ 52 ->
    (spIsometricFOV s = 0%R \/ 0 <= spIsometricDir s <= 2) -> exists s', initDefaults nm n2 fb s = Val s'.
Proof. exact @init_total. Qed.
Print Assumptions C68_defaults_never_panic.

(** a spec that only sets the width to 320 and the isometric camera *)
Definition narrow (w normals : Z) (objs : list (apiObject b64 nat)) : spec b64 nat nat nat :=
  Spec nil objs nil None 0 0 w 0 normals (nofZ 4) 1.
Example C68_example : match initDefaults (TF := toyTrig) 1%nat 2%nat 3%nat (narrow 320 0 nil) with
  | Val s => (spWidth s, spHeight s, spNumPass s, spRecursion s) = (320, 180, 1, 1)
  | _ => False
  end.
Proof. vm_compute. reflexivity. Qed.
Example C68_witness : exists s1 s2 (TF := toyTrig),
  initDefaults 1%nat 2%nat 3%nat (narrow 1 1 [apiBackdrop (Some 7%nat)]) = Val s1 /\ initDefaults 1%nat 2%nat 3%nat s1 = Val s2 /\
  map (fun o => omap (fun '(h, _) => hMat h) (oIntersect (aoInterface o) (Ray vO vO))) (spObjects s1) = [Val (Some 3%nat)] /\
  map (fun o => omap (fun '(h, _) => hMat h) (oIntersect (aoInterface o) (Ray vO vO))) (spObjects s2) = [Val (Some 1%nat)].
Proof. do 2 eexists. split; [reflexivity|]. split; [reflexivity|]. split; reflexivity. Qed.

(** ** C73 *)
Theorem C73_passes_are_counted_up :
  forall (F : Type) (NF : Num F) (TF : Trig F) (png jpeg : list (list (color F)) -> option (list Z))
    (shot : list Z -> list (list (color F))) (post : list (list (color F)) -> list (list (color F))) (flagO : list Z) (numPass : Z) (fs : fsys),
    exists fuel w, renderLocal png jpeg fuel shot post flagO numPass fs = Val w /\
      exists k : nat, wCalls w = counting k /\ (forall j, 0 <= j < Z.of_nat k -> triangular j < numPass) /\
        (wExit w = false ->
          first_reaching numPass (Z.of_nat k) /\ 
          (0 < numPass -> exists b, stored_as png jpeg flagO (post (shot (counting k))) b /\ fsFiles (wFs w) flagO = Some b) /\
          (forall stem, stem_of stem flagO -> exists n bytes, encodeAscii16 collect (post (shot (counting k))) nil = (false, bytes) /\
            fsFiles (wFs w) (stem ++ [46; 112; 112; 109]) = Some (firstn n bytes))).
Proof. exact @local_rendering. Qed.
Print Assumptions C73_passes_are_counted_up.

Theorem C73_final_image_is_the_mean_of_all_passes :
  forall (G : Type) (f : imageFunc R G) aa shifts w h g0 k m p,
    deterministic f -> 0 <= w -> 0 <= h -> Z.of_nat (length shifts) = w * h ->
    sampleCalls f aa shifts w h (counting k) newMem m -> in_image w h p ->
    let l := first_samples (sample_color f aa shifts g0 w h p) (Z.to_nat (triangular (Z.of_nat k))) in
    SamplerModel.imagef m p = Color (mean (map cR l)) (mean (map cG l)) (mean (map cB l)).
Proof. exact @counted_mean. Qed.
Print Assumptions C73_final_image_is_the_mean_of_all_passes.

(** asked for 4 passes it makes 1 + 2 + 3; the encoders here store a marker and the number of rows *)
Definition marker (x : Z) (img : list (list (color b64))) : option (list Z) := Some [x; Z.of_nat (length img)].
Definition emptyDisk (room : nat) : fsys := FS (fun _ => None) (fun _ => true) room.
Definition outPng : list Z := [111; 46; 112; 110; 103].
Example C73_example :
  match renderLocal (TF := toyTrig) (marker 1) (marker 2) 10 (fun calls => map (fun _ => [black]) calls) (fun x => x) outPng 4 (emptyDisk 100) with
  | Val w => wCalls w = [1; 2; 3] /\ wExit w = false /\ fsFiles (wFs w) outPng = Some [1; 3]
  | _ => False
  end.
Proof. vm_compute. repeat split. Qed.

(** ** C74 *)
Theorem C74_ppm_files_are_emptied_first_refuted :
  forall (TF : Trig b64), exists fname (img : list (list (color b64))) fs fs' old new,
    fsFiles fs fname = Some old /\ savePPM fname img fs = (true, fs') /\ fsFiles fs' fname = Some new /\ new <> old /\ read_P3 new = None.
Proof. exact (fun TF => ppm_destroys (fun _ => None) (fun _ => None) black). Qed.
Print Assumptions C74_ppm_files_are_emptied_first_refuted.

Theorem C74_failed_encodings_leave_files_alone :
  forall (F : Type) (png jpeg : list (list (color F)) -> option (list Z)) img fname suffix fs,
    (forall b, ~ stored_as png jpeg fname img b) -> savef png jpeg img fname suffix fs = (true, fs).
Proof. exact @savef_unencodable. Qed.
Print Assumptions C74_failed_encodings_leave_files_alone.

Theorem C74_save_results_partial :
  forall (F : Type) (png jpeg : list (list (color F)) -> option (list Z)) img fname fs e fs', savef png jpeg img fname nil fs = (e, fs') ->
    (e = false -> exists b, stored_as png jpeg fname img b /\ fsFiles fs' fname = Some b /\ untouched [fname] fs fs') /\
    (e = true -> fs' = fs \/ exists b n, stored_as png jpeg fname img b /\ (n < length b)%nat /\ fsFiles fs' fname = Some (firstn n b) /\ untouched [fname] fs fs') /\
    (forall b, stored_as png jpeg fname img b -> fsCreate fs fname = true -> (length b <= space_for fs fname)%nat -> e = false).
Proof. exact @savef_results. Qed.
Print Assumptions C74_save_results_partial.

(** "o.gif" is not written, "o.png" is *)
Definition holding (name content : list Z) (room : nat) : fsys := FS (fun n => if name_eqb n name then Some content else None) (fun _ => true) room.
Example C74_example :
  let gif := [111; 46; 103; 105; 102] in
  fst (savef (marker 1) (marker 2) [[black]] gif nil (holding gif [7] 9)) = true /\
  fsFiles (snd (savef (marker 1) (marker 2) [[black]] gif nil (holding gif [7] 9))) gif = Some [7] /\
  fst (savef (marker 1) (marker 2) [[black]] outPng nil (holding outPng [7] 9)) = false /\
  fsFiles (snd (savef (marker 1) (marker 2) [[black]] outPng nil (holding outPng [7] 9))) outPng = Some [1; 1].
Proof. vm_compute. repeat split. Qed.

(** ** C88 *)
Theorem C88_lost_images_are_reported_refuted :
  forall (TF : Trig b64), exists fname (img : list (list (color b64))) fs fs',
    rectangular 1 img /\ savePPM fname img fs = (false, fs') /\ fsFiles fs' fname = Some nil.
Proof. exact (fun TF => ppm_silent (fun _ => None) (fun _ => None) black). Qed.
Print Assumptions C88_lost_images_are_reported_refuted.

Theorem C88_ppm_files_partial :
  forall (F : Type) (NF : Num F) (TF : Trig F) fname (img : list (list (color F))) bytes fs e fs',
    encodeAscii16 collect img nil = (false, bytes) -> savePPM fname img fs = (e, fs') ->
    (fsCreate fs fname = false -> e = true /\ fs' = fs) /\
    (fsCreate fs fname = true ->
       fsFiles fs' fname = Some (firstn (space_for fs fname) bytes) /\ untouched [fname] fs fs' /\
       ((length bytes <= space_for fs fname)%nat -> e = false) /\
       ((space_for fs fname + 4096 < length bytes)%nat -> e = true)).
Proof. exact (fun F NF TF => @savePPM_results F NF TF (fun _ => None) (fun _ => None)). Qed.
Print Assumptions C88_ppm_files_partial.

(** one black pixel: "P3 1 1 65535 0 0 0" in full, or cut off after 4 bytes without an error *)
Definition whole : list Z := [80; 51; 10; 49; 32; 49; 10; 54; 53; 53; 51; 53; 10; 48; 32; 48; 32; 48; 32; 10].
Example C88_example :
  let run room := savePPM (TF := toyTrig) outPng [[black]] (holding outPng nil room) in
  (fst (run 100%nat), fsFiles (snd (run 100%nat)) outPng) = (false, Some whole) /\
  (fst (run 4%nat), fsFiles (snd (run 4%nat)) outPng) = (false, Some (firstn 4 whole)).
Proof. vm_compute. split; reflexivity. Qed.

(** ** C90 *)
Theorem C90_frames_go_to_their_own_files :
  forall (F : Type) (png jpeg : list (list (color F)) -> option (list Z))
    (shots : Z -> list Z -> list (list (color F))) (passes : Z -> Z) (flagO stem : list Z) (numFrame : Z) (fs : fsys),
    stem_of stem flagO -> exists w, animate png jpeg numFrame shots passes flagO fs = Val w /\
      let file name := stem ++ [45; 102; 114; 97; 109; 101; 115; 47] ++ name ++ [46; 106; 112; 103] in
      let frame i := shots i (repeat 1 (Z.to_nat (passes i))) in
      (exists k, 0 <= k <= Z.max 0 numFrame /\ (wExit w = false -> k = Z.max 0 numFrame) /\
         wCalls w = flat_map (fun i => repeat 1 (Z.to_nat (passes (Z.of_nat i)))) (seq 0 (Z.to_nat k))) /\
      (wExit w = false -> exists number, (forall i, 0 <= i -> five_digits i (number i)) /\
        (forall i, 0 <= i < numFrame -> exists b, jpeg (frame i) = Some b /\ fsFiles (wFs w) (file (number i)) = Some b) /\
        (0 < numFrame -> exists b, jpeg (frame (numFrame - 1)) = Some b /\ fsFiles (wFs w) (file [108; 97; 115; 116]) = Some b) /\
        (forall f, f <> file [108; 97; 115; 116] -> (forall i, 0 <= i < numFrame -> f <> file (number i)) -> fsFiles (wFs w) f = fsFiles fs f)).
Proof. exact @animation. Qed.
Print Assumptions C90_frames_go_to_their_own_files.

(** three frames of 0, 1 and 2 passes; "o-frames/00002.jpg" is the last one *)
Example C90_example :
  match animate (marker 1) (marker 2) 3 (fun i calls => map (fun _ => [black]) calls) (fun i => i) outPng (emptyDisk 100) with
  | Val w => wCalls w = [1; 1; 1] /\ wExit w = false /\
    fsFiles (wFs w) [111; 45; 102; 114; 97; 109; 101; 115; 47; 48; 48; 48; 48; 50; 46; 106; 112; 103] = Some [2; 2] /\
    fsFiles (wFs w) [111; 45; 102; 114; 97; 109; 101; 115; 47; 48; 48; 48; 48; 48; 46; 106; 112; 103] = Some [2; 0]
  | _ => False
  end.
Proof. vm_compute. repeat split. Qed.
(** a full disk stops the program after the first frame *)
Example C90_example_full :
  match animate (marker 1) (marker 2) 3 (fun i calls => map (fun _ => [black]) calls) (fun i => i) outPng (emptyDisk 1) with
  | Val w => wCalls w = nil /\ wExit w = true
  | _ => False
  end.
Proof. vm_compute. repeat split. Qed.

(** ** C93 *)
Theorem C93_views_move_the_camera_of_the_scene :
  forall (M L Med : Type) (nm n2 fb : M) (v : view R) (s : spec R M L Med) cam,
    spCamera s = Some cam -> 0 < spRecursion s -> 0 < spNumPass s ->
    0 < vwWidth v <= 2 ^ 52 -> 0 < vwHeight v <= 2 ^ 52 ->
    (vwIsometric v = true -> vwIsometricFOV v <> 0%R /\ 0 <= vwIsometricDir v <= 2) ->
    exists s' cam', viewApplyTo nm n2 fb v s = Val s' /\
      spWidth s' = vwWidth v /\ spHeight s' = vwHeight v /\ spLights s' = spLights s /\ spNumPass s' = spNumPass s /\
      spCamera s' = Some cam' /\
      (vwDebugNormals v <> 2 -> spRecursion s' = spRecursion s) /\
      (vwDebugNormals v <> 1 -> vwDebugNormals v <> 2 -> spObjects s' = spObjects s /\ spMedia s' = spMedia s) /\
      (vwIsometric v = true -> isometric (vwIsometricDir v) (vwIsometricFOV v) = Val cam') /\
      (vwIsometric v = false ->
        forall G (NI : NumInf R) (rand2 : G -> (R * R) * G) x y (c : ctx R G) q, pool_ok c -> shoots rand2 cam x y c q ->
          shoots rand2 cam' x y c
            (Ray (plus3 (plus3 (camPos cam) (vwCamPos v)) (turn (vwCamYaw v) (vwCamPitch v) 0%R (minus3 (rStart q) (camPos cam))))
                 (turn (vwCamYaw v) (vwCamPitch v) 0%R (rDir q)))).
Proof. exact @view_ok. Qed.
Print Assumptions C93_views_move_the_camera_of_the_scene.

(** the default camera, one up, moved by (2, 3, 4) for a picture of 64 x 48 *)
Example C93_example :
  match initDefaults (TF := toyTrig) 1%nat 2%nat 3%nat (Spec nil nil nil None 0 0 0 0 0 (nofZ 0) 0 : spec b64 nat nat nat) with
  | Val s =>
    match viewApplyTo (TF := toyTrig) 1%nat 2%nat 3%nat (View 64 48 false (Vec (nofZ 2) (nofZ 3) (nofZ 4)) (nofZ 0) (nofZ 0) 0 false (nofZ 0) 0) s with
    | Val s' => spWidth s' = 64 /\ spHeight s' = 48 /\ match spCamera s' with Some c => neqb (vy (camPos c)) (nofZ 4) = true | None => False end
    | _ => False
    end
  | _ => False
  end.
Proof. vm_compute. repeat split. Qed.
