(** * The render server (api/server.go) as a transition system

    Every request is served by its own goroutine. A step of a goroutine is an atomic action: a critical
    section under s.mu, one unsynchronized read of a field of the server, or the begin or end of sampling.
    What the sampler computes is in SamplerModel; here a sampler is its view and the calls it has completed. *)
From Coq Require Import ZArith Bool List.
Import ListNotations.

(** ** State *)
Section Server.
  (** views, and Go's == on them *)
  Context {V : Type}.
  Variable veqb : V -> V -> bool.
  (** views that v.ApplyTo or tracer.NewSampler panic on, e.g. of negative width *)
  Variable bad : V -> bool.

  (** tracer.Sampler; [smRunning]: calls of SampleWithCancel in progress *)
  Record smp : Type := Smp { smView : V; smCalls : list Z; smRunning : nat }.
  (** api/server.go:24-34. Channels and samplers are numbered in order of creation. *)
  Record server : Type := Server {
    svCancel : option nat;
    svSmplr : option nat;
    svView : option V;   (* None: the zero View, never compared *)
    svNum : Z;
    (* the heap *)
    svChans : nat;
    svClosed : list nat;
    svSmps : list smp }.
  Definition newServer : server := Server None None None 0 0 nil nil.

  Inductive request : Type :=
  | Bake (v : V)
  | Cancel
  | Preview (v : V).
  (** what the client gets: an image of view [v] after the calls [calls], possibly read while
      others wrote to it ([torn]); an error; an empty response; or a closed connection after a panic *)
  Inductive response : Type :=
  | RImage (v : V) (calls : list Z) (torn : bool)
  | RError
  | ROk
  | RCrash.

  (** goroutines of requests and where they are; [c] is the channel that prepareBakery returned *)
  Inductive thread : Type :=
  | TStart (r : request)
  | TReading (v : V) (c : nat) (id : option nat) (num : option Z)
  | TSampling (v : V) (c id : nat) (num : Z)
  | TSampled (v : V)
  | TImage (v : V) (id : nat)
  | TUnwind (v : V) (resp : response)
  | TDone (r : request) (resp : response).

  (** ** Critical sections *)
  Inductive prepared : Type :=
  | PError
  | PPanic (s : server)
  | POk (c : nat) (s : server).
  (** api/server.go:118-135; a panic happens after s.cancel is set *)
  Definition prepareBakery (v : V) (s : server) : prepared :=
    match svCancel s with
    | Some _ => PError
    | None =>
      let c := svChans s in
      let s1 := Server (Some c) (svSmplr s) (svView s) (svNum s) (S c) (svClosed s) (svSmps s) in
      let same := match svSmplr s, svView s with
                  | Some _, Some w => veqb w v
                  | _, _ => false
                  end in
      if same then POk c s1
      else if bad v then PPanic s1
      else POk c (Server (Some c) (Some (length (svSmps s))) (Some v) 1 (S c) (svClosed s) (svSmps s ++ [Smp v nil 0]))
    end.
  (** api/server.go:137-146; None: close of a closed channel panics *)
  Definition handleCancel (s : server) : option server :=
    match svCancel s with
    | None => Some s
    | Some c =>
      if existsb (Nat.eqb c) (svClosed s) then None
      else Some (Server None (svSmplr s) (svView s) (svNum s) (svChans s) (c :: svClosed s) (svSmps s))
    end.
  (** api/server.go:102-107, the deferred function *)
  Definition finishBake (s : server) : server :=
    Server None (svSmplr s) (svView s) (svNum s + 1) (svChans s) (svClosed s) (svSmps s).

  (** ** Sampling *)
  Fixpoint upd (l : list smp) (i : nat) (f : smp -> smp) : list smp :=
    match l, i with
    | nil, _ => nil
    | x :: l, O => f x :: l
    | x :: l, S i => x :: upd l i f
    end.
  Definition onSmp (i : nat) (f : smp -> smp) (s : server) : server :=
    Server (svCancel s) (svSmplr s) (svView s) (svNum s) (svChans s) (svClosed s) (upd (svSmps s) i f).
  Definition begin : smp -> smp := fun m => Smp (smView m) (smCalls m) (S (smRunning m)).
  (** tracer/sampler.go:49-70: the channel is ignored *)
  Definition complete (n : Z) : smp -> smp := fun m => Smp (smView m) (smCalls m ++ [n]) (pred (smRunning m)).
  Definition image (m : smp) : response := RImage (smView m) (smCalls m) (negb (Nat.eqb (smRunning m) 0)).

  (** ** Steps of one goroutine *)
  Inductive tstep : server -> thread -> server -> thread -> Prop :=
  (** api/server.go:53-62, 87-92: a preview uses no shared state *)
  | st_preview s v : bad v = false -> tstep s (TStart (Preview v)) s (TDone (Preview v) (RImage v [1%Z] false))
  | st_preview_panic s v : bad v = true -> tstep s (TStart (Preview v)) s (TDone (Preview v) RCrash)
  | st_cancel s s' : handleCancel s = Some s' -> tstep s (TStart Cancel) s' (TDone Cancel ROk)
  | st_cancel_panic s : handleCancel s = None -> tstep s (TStart Cancel) s (TDone Cancel RCrash)
  (** api/server.go:94-116 *)
  | st_busy s v : prepareBakery v s = PError -> tstep s (TStart (Bake v)) s (TDone (Bake v) RError)
  | st_prepare_panic s v s' : prepareBakery v s = PPanic s' -> tstep s (TStart (Bake v)) s' (TDone (Bake v) RCrash)
  | st_prepare s v c s' : prepareBakery v s = POk c s' -> tstep s (TStart (Bake v)) s' (TReading v c None None)
  (** line 109: s.smplr and s.smplrNum are read without the lock, in any order *)
  | st_read_smplr s v c num id : svSmplr s = Some id -> tstep s (TReading v c None num) s (TReading v c (Some id) num)
  | st_read_num s v c id : tstep s (TReading v c id None) s (TReading v c id (Some (svNum s)))
  | st_begin s v c id num : tstep s (TReading v c (Some id) (Some num)) (onSmp id begin s) (TSampling v c id num)
  | st_complete s v c id num : tstep s (TSampling v c id num) (onSmp id (complete num) s) (TSampled v)
  (** line 110: s.smplr is read again *)
  | st_reread s v id : svSmplr s = Some id -> tstep s (TSampled v) s (TImage v id)
  | st_image s v id m : nth_error (svSmps s) id = Some m -> tstep s (TImage v id) s (TUnwind v (image m))
  | st_finish s v r : tstep s (TUnwind v r) (finishBake s) (TDone (Bake v) r).

  (** ** All goroutines *)
  Inductive cstep : server * list thread -> server * list thread -> Prop :=
  | cs l t r s s' t' : tstep s t s' t' -> cstep (s, l ++ t :: r) (s', l ++ t' :: r).
  Inductive csteps : server * list thread -> server * list thread -> Prop :=
  | css_refl c : csteps c c
  | css_step c1 c2 c3 : csteps c1 c2 -> cstep c2 c3 -> csteps c1 c3.

  (** states that a new server can reach while serving the given requests *)
  Definition reachable (rs : list request) (s : server) (ts : list thread) : Prop :=
    csteps (newServer, map TStart rs) (s, ts).

  (** ** One request at a time *)
  Inductive alone : server -> thread -> server -> response -> Prop :=
  | al_done s r resp : alone s (TDone r resp) s resp
  | al_step s t s1 t1 s2 resp : tstep s t s1 t1 -> alone s1 t1 s2 resp -> alone s t s2 resp.
  Inductive history : server -> list (request * response) -> Prop :=
  | hi_nil : history newServer nil
  | hi_snoc s h r s' resp : history s h -> alone s (TStart r) s' resp -> history s' (h ++ [(r, resp)]).
End Server.
Arguments smp V : clear implicits.
Arguments server V : clear implicits.
Arguments request V : clear implicits.
Arguments response V : clear implicits.
Arguments thread V : clear implicits.
