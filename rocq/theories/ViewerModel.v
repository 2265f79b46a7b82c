(** * The interactive viewer (cmd/bruteray-view/main.go)

    The event loop as a function of everything it receives: user events, responses of the server, and the
    choices of its select statements. Windows, buffers and the HTTP transport are left out; an image is
    represented by the request it answers. *)
From Coq Require Import ZArith Bool List.
From Verif Require Import Num Outcome GeomModel SceneModel ApiModel.
Import ListNotations.
Local Open Scope num_scope.

(** ** Events (golang.org/x/mobile/event) *)
Inductive keyCode : Type := KLeft | KS | KRight | KF | KUp | KE | KDown | KD | KSpace | KX | KY | KZ | KP | KN | KOther.
Inductive button : Type := BNone | BLeft | BOther | BWheelUp | BWheelDown | BWheelLeft | BWheelRight.
Inductive direction : Type := DNone | DPress | DRelease.
Definition isLeft (b : button) : bool := match b with BLeft => true | _ => false end.

Section Viewer.
  Context {F : Type} `{NF : Num F} `{TF : Trig F}.
  (** rounding to float32, and whether encoding/json accepts a number (neither infinite nor NaN) *)
  Variable to32 : F -> F.
  Variable jsonOk : F -> bool.
  Notation view := (view F).
  Notation vec := (vec F).

  Inductive event : Type :=
  | EKey (press : bool) (code : keyCode) (shift : bool)
  | EMouse (dir : direction) (b : button) (x y : F) (shift : bool)   (* x, y: float32 *)
  | ESize (w h : Z)
  | EPaint
  | ELife (dead : bool).

  (** the request that an image answers *)
  Inductive img : Type :=
  | IDummy
  | IPreview (v : view)
  | IBake (v : view).
  (** what the program has done, latest first: requests, baked images accepted, and images shown;
      with the view and window size at that moment *)
  Inductive action : Type :=
  | APreview (v : view)
  | ABake (v : view) (div : Z)
  | AAccept (v : view) (cur : view) (size : Z * Z)
  | AShow (i : img) (cur : view) (size : Z * Z).

  (** main.go:65-95; [stFlight]: bake requests whose result has not been received,
      [stReturned]: run has returned *)
  Record state : Type := St {
    stView : view;
    stMouse : button;
    stX : F;
    stY : F;
    stPreview : bool;
    stRenderDirty : bool;
    stPaused : bool;
    stRes : Z;
    stIsBaking : bool;
    stWantBake : bool;
    stImg : img;
    stWindowDirty : bool;
    stSize : Z * Z;
    stAborted : bool;
    stFlight : list view;
    stReturned : bool;
    stLog : list action }.
  (** main.go:42-57 *)
  Definition startView : view := View 32 32 false (Vec #0 #0 #0) #0 #0 0 false #0 0.
  Definition start : state := St startView BNone #0 #0 false true false 0 false false IDummy true (32, 32)%Z false nil false nil.

  Definition setView (v : view) (s : state) : state :=
    St v (stMouse s) (stX s) (stY s) (stPreview s) true (stPaused s) (stRes s) (stIsBaking s) (stWantBake s) (stImg s) (stWindowDirty s)
       (stSize s) (stAborted s) (stFlight s) (stReturned s) (stLog s).

  (** ** Camera and view *)
  Definition withPos (v : view) (p : vec) : view :=
    View (vwWidth v) (vwHeight v) (vwAntiAlias v) p (vwCamYaw v) (vwCamPitch v) (vwDebugNormals v) (vwIsometric v) (vwIsometricFOV v) (vwIsometricDir v).
  Definition withAngles (v : view) (y p : F) : view :=
    View (vwWidth v) (vwHeight v) (vwAntiAlias v) (vwCamPos v) y p (vwDebugNormals v) (vwIsometric v) (vwIsometricFOV v) (vwIsometricDir v).
  Definition withNormals (v : view) (n : Z) : view :=
    View (vwWidth v) (vwHeight v) (vwAntiAlias v) (vwCamPos v) (vwCamYaw v) (vwCamPitch v) n (vwIsometric v) (vwIsometricFOV v) (vwIsometricDir v).
  Definition withIsometric (v : view) (on : bool) (fov : F) (dir : Z) : view :=
    View (vwWidth v) (vwHeight v) (vwAntiAlias v) (vwCamPos v) (vwCamYaw v) (vwCamPitch v) (vwDebugNormals v) on fov dir.
  Definition withSize (v : view) (w h : Z) (aa : bool) : view :=
    View w h aa (vwCamPos v) (vwCamYaw v) (vwCamPitch v) (vwDebugNormals v) (vwIsometric v) (vwIsometricFOV v) (vwIsometricDir v).

  (** main.go:469-477 *)
  Definition moveCam (dir : vec) (s : state) : state :=
    let v := stView s in
    let viewDir := afA (yawPitchRoll (vwCamYaw v) (vwCamPitch v) #0) in
    setView (withPos v (vmadd (vwCamPos v) (nQ 5 100) (mmulvec viewDir dir))) s.
  (** main.go:452-467 *)
  Definition rotateCamera (dx dy : F) (s : state) : state :=
    let v := stView s in
    let sens := nQ 5 1000 in
    let yaw := vwCamYaw v + dx * sens in
    let p := vwCamPitch v + dy * sens in
    let p := if p <? - (npi / #2) then - (npi / #2) else p in
    let p := if p >? npi / #2 then npi / #2 else p in
    setView (withAngles v yaw p) s.
  (** main.go:391-398, 400-407, 409-423 *)
  Definition fovOr8 (f : F) : F := if f =? #0 then #8 else f.
  Definition isometricZoom (factor : F) (s : state) : state :=
    let v := stView s in
    setView (withIsometric v (vwIsometric v) (fovOr8 (vwIsometricFOV v) * factor) (vwIsometricDir v)) s.
  Definition toggleNormals (s : state) : state :=
    let n := (vwDebugNormals (stView s) + 1)%Z in
    setView (withNormals (stView s) (if (n >? 2)%Z then 0%Z else n)) s.
  Definition toggleIsometric (dir : Z) (s : state) : state :=
    let v := stView s in
    setView (withIsometric v (if (vwIsometricDir v =? dir)%Z then negb (vwIsometric v) else true) (fovOr8 (vwIsometricFOV v)) dir) s.

  (** ** Events *)
  Definition windowDirty (s : state) : state :=
    St (stView s) (stMouse s) (stX s) (stY s) (stPreview s) (stRenderDirty s) (stPaused s) (stRes s) (stIsBaking s) (stWantBake s) (stImg s) true
       (stSize s) (stAborted s) (stFlight s) (stReturned s) (stLog s).
  (** main.go:301-340 *)
  Definition handleKeyEvent (press : bool) (code : keyCode) (shift : bool) (s : state) : state :=
    if press then
      match code with
      | KLeft | KS => moveCam (Vec #(-1) #0 #0) s
      | KRight | KF => moveCam (Vec #1 #0 #0) s
      | KUp | KE => if shift then moveCam (Vec #0 #1 #0) s else moveCam (Vec #0 #0 #(-1)) s
      | KDown | KD => if shift then moveCam (Vec #0 #(-1) #0) s else moveCam (Vec #0 #0 #1) s
      | KSpace => moveCam (Vec #0 #1 #0) s
      | KX => toggleIsometric 0 s
      | KY => toggleIsometric 1 s
      | KZ => toggleIsometric 2 s
      | KP => St (stView s) (stMouse s) (stX s) (stY s) (stPreview s) (stRenderDirty s) (negb (stPaused s)) (stRes s) (stIsBaking s) (stWantBake s)
                 (stImg s) (stWindowDirty s) (stSize s) (stAborted s) (stFlight s) (stReturned s) (stLog s)
      | KN => toggleNormals s
      | KOther => s
      end
    else s.
  (** main.go:342-389 *)
  Definition setMouse (m : button) (preview : bool) (x y : F) (s : state) : state :=
    St (stView s) m x y preview (stRenderDirty s) (stPaused s) (stRes s) (stIsBaking s) (stWantBake s) (stImg s) (stWindowDirty s)
       (stSize s) (stAborted s) (stFlight s) (stReturned s) (stLog s).
  Definition handleMouseEvent (dir : direction) (b : button) (x y : F) (shift : bool) (s : state) : state :=
    let '(m, p) := match dir with
                   | DPress => (b, isLeft b)
                   | DRelease => (BNone, if isLeft b then false else stPreview s)
                   | DNone => (stMouse s, stPreview s)
                   end in
    let dx := to32 (x - stX s) in
    let dy := to32 (y - stY s) in
    let s := setMouse m p (stX s) (stY s) s in
    let s := if isLeft m then rotateCamera dx dy s else s in
    let s := setMouse m p x y s in
    if negb (vwIsometric (stView s)) then
      match b with
      | BWheelUp => if shift then moveCam (Vec #0 #1 #0) s else moveCam (Vec #0 #0 #(-1)) s
      | BWheelDown => if shift then moveCam (Vec #0 #(-1) #0) s else moveCam (Vec #0 #0 #1) s
      | BWheelLeft => moveCam (Vec #(-1) #0 #0) s
      | BWheelRight => moveCam (Vec #1 #0 #0) s
      | _ => s
      end
    else
      match b with
      | BWheelUp => isometricZoom (nsqrt (nQ 1 2)) s
      | BWheelDown => isometricZoom (nsqrt #2) s
      | _ => s
      end.
  (** main.go:425-446 (buffers left out) *)
  Definition handleSizeEvent (w h : Z) (s : state) : state :=
    St (withSize (stView s) w h (vwAntiAlias (stView s))) (stMouse s) (stX s) (stY s) (stPreview s) true (stPaused s) (stRes s) (stIsBaking s) (stWantBake s)
       (stImg s) true (w, h) (stAborted s) (stFlight s) (stReturned s) (stLog s).

  (** main.go:178-193 (the request itself is ServerModel.handleCancel; its errors are ignored) *)
  Definition cancelBaking (s : state) : state :=
    St (stView s) (stMouse s) (stX s) (stY s) (stPreview s) (stRenderDirty s) (stPaused s) 0 (stIsBaking s) false (stImg s) (stWindowDirty s)
       (stSize s) (stAborted s) (stFlight s) (stReturned s) (stLog s).
  (** main.go:502-508; closing s.abort twice panics *)
  Definition handleLifecycleEvent (dead : bool) (s : state) : outcome state :=
    if dead then
      if stAborted s then Panic
      else
        let s := cancelBaking s in
        Val (windowDirty (St (stView s) (stMouse s) (stX s) (stY s) (stPreview s) (stRenderDirty s) (stPaused s) (stRes s) (stIsBaking s) (stWantBake s)
          (stImg s) (stWindowDirty s) (stSize s) true (stFlight s) (stReturned s) (stLog s)))
    else Val (windowDirty s).
  (** main.go:286-299 *)
  Definition handleEvent (e : event) (s : state) : outcome state :=
    match e with
    | EKey press code shift => Val (handleKeyEvent press code shift s)
    | EMouse dir b x y shift => Val (handleMouseEvent dir b x y shift s)
    | ESize w h => Val (handleSizeEvent w h s)
    | EPaint => Val (windowDirty s)
    | ELife dead => handleLifecycleEvent dead s
    end.
  (** main.go:271-284 *)
  Fixpoint handleEventBacklog (es : list event) (s : state) : outcome state :=
    match es with
    | nil => Val s
    | e :: es => obind (handleEvent e s) (handleEventBacklog es)
    end.

  (** ** Talking to the server *)
  Definition encodable (v : view) : bool :=
    jsonOk (vx (vwCamPos v)) && jsonOk (vy (vwCamPos v)) && jsonOk (vz (vwCamPos v)) &&
    jsonOk (vwCamYaw v) && jsonOk (vwCamPitch v) && jsonOk (vwIsometricFOV v).
  (** fetchHTTP (main.go:225-257): a non-empty image, an empty one (made nil), or an error *)
  Inductive reply : Type := GotImage | GotEmpty | GotError.

  Definition logged (a : action) (s : state) : state :=
    St (stView s) (stMouse s) (stX s) (stY s) (stPreview s) (stRenderDirty s) (stPaused s) (stRes s) (stIsBaking s) (stWantBake s) (stImg s) (stWindowDirty s)
       (stSize s) (stAborted s) (stFlight s) (stReturned s) (a :: stLog s).
  Definition showNext (i : img) (clean : bool) (s : state) : state :=
    St (stView s) (stMouse s) (stX s) (stY s) (stPreview s) (if clean then false else stRenderDirty s) (stPaused s) (stRes s) (stIsBaking s) (stWantBake s) i true
       (stSize s) (stAborted s) (stFlight s) (stReturned s) (stLog s).
  (** main.go:480-494 *)
  Definition repaint (s : state) : state :=
    let s := logged (AShow (stImg s) (stView s) (stSize s)) s in
    St (stView s) (stMouse s) (stX s) (stY s) (stPreview s) (stRenderDirty s) (stPaused s) (stRes s) (stIsBaking s) (stWantBake s) (stImg s) false
       (stSize s) (stAborted s) (stFlight s) (stReturned s) (stLog s).
  (** main.go:134-165 *)
  Definition repaintIfNeeded (resp : reply) (s : state) : outcome state :=
    obind (if stRenderDirty s then
             let s := cancelBaking s in
             let v := withSize (stView s) (Z.quot (vwWidth (stView s)) 8) (Z.quot (vwHeight (stView s)) 8) (vwAntiAlias (stView s)) in
             if encodable v then
               let s := logged (APreview v) s in
               Val (match resp with
                    | GotImage => showNext (IPreview v) true s
                    | GotError => showNext IDummy true s
                    | GotEmpty => s
                    end)
             else Panic
           else Val s) (fun s =>
    Val (if stWindowDirty s then repaint s else s)).

  (** main.go:167-176 *)
  Definition handleBakery (v : view) (resp : reply) (s : state) : state :=
    let s := match resp with
             | GotImage =>
               if stIsBaking s && negb (stRenderDirty s) && negb (stPreview s) && stWantBake s
               then logged (AAccept v (stView s) (stSize s)) (showNext (IBake v) false s) else s
             | _ => s
             end in
    St (stView s) (stMouse s) (stX s) (stY s) (stPreview s) (stRenderDirty s) (stPaused s) (stRes s + 1) false (stWantBake s) (stImg s) (stWindowDirty s)
       (stSize s) (stAborted s) (stFlight s) (stReturned s) (stLog s).

  (** main.go:199-206 *)
  Fixpoint divLoop (n : nat) (div : Z) : Z :=
    match n with
    | O => div
    | S n => let div := Z.quot div 2 in if (div <=? 1)%Z then 1%Z else divLoop n div
    end.
  (** main.go:195-223; the panic of fetchHTTP (main.go:225-229) in the goroutine ends the program *)
  Definition goBakeAndSend (s : state) : outcome state :=
    let div := divLoop (Z.to_nat (stRes s)) 8 in
    let v := withSize (stView s) (Z.quot (fst (stSize s)) div) (Z.quot (snd (stSize s)) div) (div =? 1)%Z in
    if encodable v then
      let s := logged (ABake v div) s in
      Val (St (stView s) (stMouse s) (stX s) (stY s) (stPreview s) (stRenderDirty s) (stPaused s) (stRes s) true true (stImg s) (stWindowDirty s)
           (stSize s) (stAborted s) (v :: stFlight s) (stReturned s) (stLog s))
    else Panic.

  (** ** The loop *)
  Inductive select1 : Type := S1Default | S1Events (e : event) (es : list event) | S1Abort.
  (** [k]: which of the pending bakes answers *)
  Inductive select3 : Type := S3Events (e : event) (es : list event) | S3Bakery (k : nat) (resp : reply) | S3Abort.
  (** everything received during one iteration: [r1], [r2] are the replies to previews, if any are requested *)
  Record input : Type := Input { in1 : select1; inR1 : reply; in3 : select3; inR2 : reply }.

  Definition return_ (s : state) : outcome state :=
    if stAborted s then
      Val (St (stView s) (stMouse s) (stX s) (stY s) (stPreview s) (stRenderDirty s) (stPaused s) (stRes s) (stIsBaking s) (stWantBake s) (stImg s)
        (stWindowDirty s) (stSize s) (stAborted s) (stFlight s) true (stLog s))
    else NoFuel.
  Definition received (k : nat) (s : state) : state :=
    St (stView s) (stMouse s) (stX s) (stY s) (stPreview s) (stRenderDirty s) (stPaused s) (stRes s) (stIsBaking s) (stWantBake s) (stImg s)
      (stWindowDirty s) (stSize s) (stAborted s) (firstn k (stFlight s) ++ skipn (S k) (stFlight s)) (stReturned s) (stLog s).

  (** main.go:97-130: one iteration. NoFuel: this input cannot happen in this state. *)
  Definition iterate (i : input) (s : state) : outcome state :=
    if stReturned s then NoFuel else
    match in1 i with
    | S1Abort => return_ s
    | _ =>
      obind (match in1 i with S1Events e es => handleEventBacklog (e :: es) s | _ => if stAborted s then NoFuel else Val s end) (fun s =>
      obind (repaintIfNeeded (inR1 i) s) (fun s =>
      obind (if negb (stIsBaking s) && negb (stPreview s) && negb (stRenderDirty s) && negb (stPaused s) then goBakeAndSend s else Val s) (fun s =>
      match in3 i with
      | S3Abort => return_ s
      | S3Events e es => obind (handleEventBacklog (e :: es) s) (repaintIfNeeded (inR2 i))
      | S3Bakery k resp =>
        match nth_error (stFlight s) k with
        | None => NoFuel
        | Some v => repaintIfNeeded (inR2 i) (handleBakery v resp (received k s))
        end
      end)))
    end.
  Fixpoint run (is : list input) (s : state) : outcome state :=
    match is with
    | nil => Val s
    | i :: is => obind (iterate i s) (run is)
    end.
End Viewer.
Arguments event F : clear implicits.
Arguments img F : clear implicits.
Arguments action F : clear implicits.
Arguments state F : clear implicits.
Arguments select1 F : clear implicits.
Arguments select3 F : clear implicits.
Arguments input F : clear implicits.
