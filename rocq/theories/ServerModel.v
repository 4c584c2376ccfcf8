(** Model of mozolm/grpc/server_async_impl.{h,cc}: the handling of requests, and the life cycle of
    calls on the completion queue with several threads.

    The gRPC library is not modelled; what the code relies on is the following contract of it, written
    as the environment steps below.  A requested call waits until a client call arrives (an [ok]
    event) or, once the server is shutting down, fails (a [!ok] event).  Finish is followed by one
    event.  Server::Shutdown stops arrivals and returns when every call that arrived has been
    finished.  Next returns any event that is ready, and returns false only when the queue has been
    shut down and nothing is outstanding on it; starting an operation on a queue that has been shut
    down is a failed assertion of the library. *)
From Verif Require Import Base Field LmModel HubModel.
Local Open Scope Z_scope.

(** ** Requests *)

(** Conversion of int64 to int (the states of service.proto are int64, those of the hub int). *)
Definition to_int (z : Z) : Z := (z + 2 ^ 31) mod 2 ^ 32 - 2 ^ 31.

(** service.proto:26-51, requests.  The context is the list of code points of the string. *)
Inductive request : Type :=
| GetNextStateReq (state : Z) (context : list Z)
| GetLMScoresReq (state : Z) (context : list Z)
| UpdateLMScoresReq (state : Z) (syms : list Z) (count : Z).

(** Replies: OK with a message, or INVALID_ARGUMENT. *)
Inductive reply (F : ofield) : Type :=
| StateReply (s : Z)
| ScoresReply (r : lm_scores (num F))
| InvalidArgument.
Arguments StateReply {F} _.
Arguments ScoresReply {F} _.
Arguments InvalidArgument {F}.

Section Requests.
  Context {F : ofield} {M : Type}.
  Variable ops : comp_ops F M.

  (** server_async_impl.cc:38-48 HandleRequest of GetLMScores. *)
  Definition handle_get_lm_scores (h : hub F M) (state : Z) (context : list Z)
    : outcome (reply F * hub F M) :=
    let* (s, h1) := hub_context ops h context (to_int state) in
    let* (r, h2) := hub_extract ops h1 s in
    Ok (match r with Some sc => ScoresReply sc | None => InvalidArgument end, h2).

  (** server_async_impl.cc:50-57 HandleRequest of GetNextState. *)
  Definition handle_get_next_state (h : hub F M) (state : Z) (context : list Z)
    : outcome (reply F * hub F M) :=
    let* (s, h1) := hub_context ops h context (to_int state) in
    Ok (StateReply s, h1).

  (** server_async_impl.cc:320-325: the loop over the symbols. *)
  Fixpoint next_states (h : hub F M) (s : Z) (syms : list Z) : outcome (Z * hub F M) :=
    match syms with
    | [] => Ok (s, h)
    | c :: t => let* (s', h') := hub_next ops h s c in next_states h' s' t
    end.

  (** server_async_impl.cc:59-63 HandleRequest of UpdateLMScores, 315-336 ManageUpdateLMScores. *)
  Definition handle_update_lm_scores (h : hub F M) (state : Z) (syms : list Z) (count : Z)
    : outcome (reply F * hub F M) :=
    let* (curr, h1) := next_states h (to_int state) syms in
    let* (ok, h2) := hub_update ops h1 (to_int state) syms count in
    if ok : bool then
      let* (r, h3) := hub_extract ops h2 curr in
      Ok (match r with Some sc => ScoresReply sc | None => InvalidArgument end, h3)
    else Ok (InvalidArgument, h2).

  Definition handle (h : hub F M) (rq : request) : outcome (reply F * hub F M) :=
    match rq with
    | GetNextStateReq s w => handle_get_next_state h s w
    | GetLMScoresReq s w => handle_get_lm_scores h s w
    | UpdateLMScoresReq s w n => handle_update_lm_scores h s w n
    end.

  Fixpoint handle_all (h : hub F M) (l : list request) : outcome (list (reply F) * hub F M) :=
    match l with
    | [] => Ok ([], h)
    | r :: t =>
        let* (x, h1) := handle h r in
        let* (xs, h2) := handle_all h1 t in
        Ok (x :: xs, h2)
    end.
End Requests.

(** ** The life cycle of calls *)

(** The three methods; RequestNextX, ProcessX and CleanupAfterX are the same for each. *)
Inductive rpc_method := MGetNextState | MGetLMScores | MUpdateLMScores.
Definition method_eqb (a b : rpc_method) : bool :=
  match a, b with
  | MGetNextState, MGetNextState | MGetLMScores, MGetLMScores | MUpdateLMScores, MUpdateLMScores => true
  | _, _ => false
  end.

(** Where a call object (ServerContext, request, responder) is. *)
Inductive phase :=
| Armed                 (* requested, waiting for a client *)
| Arrived (ok : bool)   (* its event is in the queue *)
| Serving               (* a thread runs ProcessX on it *)
| Finishing             (* Finish called *)
| Finished              (* the event of Finish is in the queue *)
| Cleaning              (* a thread runs CleanupAfterX on it *)
| Freed.

(** A call object, with what has happened to it. *)
Record rpc (Req : Type) := Rpc {
  r_method : rpc_method;
  r_phase : phase;
  r_req : option Req;       (* the request, if a client call arrived *)
  r_handled : nat;          (* how often its request was handled *)
  r_finished : nat;         (* how often it was replied to *)
  r_freed : nat             (* how often it was deleted *)
}.
Arguments Rpc {Req} _ _ _ _ _ _.
Arguments r_method {Req} _.
Arguments r_phase {Req} _.
Arguments r_req {Req} _.
Arguments r_handled {Req} _.
Arguments r_finished {Req} _.
Arguments r_freed {Req} _.

Inductive grpc_status := Up | Closing | Closed.

(** Steps of the threads. *)
Inductive instr (Rep Hub : Type) :=
| IRequest (m : rpc_method)             (* RequestNextX: IncrementRpcPending *)
| IEnqueue (m : rpc_method)             (* RequestNextX: service_.RequestX *)
| IHandle (j : nat)                     (* HandleRequest begins, on the model hub *)
| ICommit (j : nat) (r : Rep) (h : Hub) (* ... and ends *)
| IFinish (j : nat)                     (* responder->Finish *)
| IFree (j : nat)                       (* CleanupAfterX: delete *)
| IDecrement                            (* CleanupAfterX: DecrementRpcPending *)
| INext                                 (* DriveCQ: cq_->Next *)
| ISetShutdown                          (* Shutdown: lines 282-296 *)
| ICloseServer                          (* Shutdown: server->Shutdown() begins *)
| IAwaitServer                          (* Shutdown: server->Shutdown() returns *)
| IAwaitNotified                        (* Shutdown: WaitForNotification, line 305 *)
| IShutdownQueue.                       (* Shutdown: cq_->Shutdown(), line 308 *)
Arguments IRequest {Rep Hub} _.
Arguments IEnqueue {Rep Hub} _.
Arguments IHandle {Rep Hub} _.
Arguments ICommit {Rep Hub} _ _ _.
Arguments IFinish {Rep Hub} _.
Arguments IFree {Rep Hub} _.
Arguments IDecrement {Rep Hub}.
Arguments INext {Rep Hub}.
Arguments ISetShutdown {Rep Hub}.
Arguments ICloseServer {Rep Hub}.
Arguments IAwaitServer {Rep Hub}.
Arguments IAwaitNotified {Rep Hub}.
Arguments IShutdownQueue {Rep Hub}.

Section Lifecycle.
  Context {Req Rep Hub : Type}.
  (** What handling a request does to the model hub. *)
  Variable serve : Hub -> Req -> Rep * Hub.

  Notation rpc := (rpc Req).
  Notation instr := (instr Rep Hub).

  (** server_async_impl.h:130-155, data members; [s_log] records the requests handled. *)
  Record sstate : Type := SState {
    s_shutdown : bool;                 (* server_shutdown_ *)
    s_pending : Z;                     (* rpcs_pending_ *)
    s_notified : bool;                 (* rpcs_completed_ *)
    s_grpc : grpc_status;
    s_cq_down : bool;
    s_hub : Hub;
    s_log : list (Req * Rep);
    s_rpcs : list rpc;
    s_crashed : bool
  }.
  Definition set_phase (r : rpc) (p : phase) : rpc :=
    Rpc (r_method r) p (r_req r) (r_handled r) (r_finished r) (r_freed r).
  Definition with_rpcs (s : sstate) (l : list rpc) : sstate :=
    SState (s_shutdown s) (s_pending s) (s_notified s) (s_grpc s) (s_cq_down s) (s_hub s) (s_log s) l (s_crashed s).
  Definition crash (s : sstate) : sstate :=
    SState (s_shutdown s) (s_pending s) (s_notified s) (s_grpc s) (s_cq_down s) (s_hub s) (s_log s) (s_rpcs s) true.

  (** A call that arrived and has not been finished; an operation the queue waits for. *)
  Definition live (r : rpc) : bool :=
    match r_phase r with Arrived true | Serving | Finishing => true | _ => false end.
  Definition outstanding (r : rpc) : bool :=
    match r_phase r with Armed | Arrived _ | Finishing | Finished => true | _ => false end.

  (** One step of a thread: the state after it and what the thread goes on with (before the rest of
      its program). *)
  Inductive exec : sstate -> instr -> sstate -> list instr -> Prop :=
  (* server_async_impl.cc:82-87 IncrementRpcPending and e.g. 102-105 *)
  | exec_request s m :
      exec s (IRequest m)
        (if s_shutdown s then s
         else SState (s_shutdown s) (s_pending s + 1) (s_notified s) (s_grpc s) (s_cq_down s) (s_hub s)
                     (s_log s) (s_rpcs s) (s_crashed s))
        (if s_shutdown s then [] else [IEnqueue m])
  (* e.g. 106-115 *)
  | exec_enqueue s m :
      exec s (IEnqueue m)
        (if s_cq_down s then crash s else with_rpcs s (s_rpcs s ++ [Rpc m Armed None 0 0 0])) []
  (* e.g. 127-129: HandleRequest *)
  | exec_handle s j r q : nth_error (s_rpcs s) j = Some r -> r_req r = Some q ->
      exec s (IHandle j) s [ICommit j (fst (serve (s_hub s) q)) (snd (serve (s_hub s) q))]
  | exec_commit s j r q rep h : nth_error (s_rpcs s) j = Some r -> r_req r = Some q ->
      exec s (ICommit j rep h)
        (SState (s_shutdown s) (s_pending s) (s_notified s) (s_grpc s) (s_cq_down s) h (s_log s ++ [(q, rep)])
                (upd (s_rpcs s) j (Rpc (r_method r) (r_phase r) (r_req r) (S (r_handled r)) (r_finished r) (r_freed r)))
                (s_crashed s)) []
  (* e.g. 130-133 *)
  | exec_finish s j r : nth_error (s_rpcs s) j = Some r ->
      exec s (IFinish j)
        (if s_cq_down s then crash s
         else with_rpcs s (upd (s_rpcs s) j
                (Rpc (r_method r) Finishing (r_req r) (r_handled r) (S (r_finished r)) (r_freed r)))) []
  (* e.g. 139-141 *)
  | exec_free s j r : nth_error (s_rpcs s) j = Some r ->
      exec s (IFree j)
        (with_rpcs s (upd (s_rpcs s) j
           (Rpc (r_method r) Freed (r_req r) (r_handled r) (r_finished r) (S (r_freed r))))) []
  (* 89-99 DecrementRpcPending *)
  | exec_decrement s :
      exec s IDecrement
        (SState (s_shutdown s) (s_pending s - 1) (s_notified s || (s_pending s - 1 =? 0)) (s_grpc s) (s_cq_down s)
                (s_hub s) (s_log s) (s_rpcs s) (s_crashed s)) []
  (* 65-80 DriveCQ: an event of a requested call, ProcessX with ok (e.g. 118-133) *)
  | exec_next_arrived s j r : nth_error (s_rpcs s) j = Some r -> r_phase r = Arrived true ->
      exec s INext (with_rpcs s (upd (s_rpcs s) j (set_phase r Serving)))
        [IRequest (r_method r); IHandle j; IFinish j; INext]
  (* ... and without (e.g. 120-125) *)
  | exec_next_failed s j r : nth_error (s_rpcs s) j = Some r -> r_phase r = Arrived false ->
      exec s INext (with_rpcs s (upd (s_rpcs s) j (set_phase r Cleaning))) [IFree j; IDecrement; INext]
  (* the event of Finish, CleanupAfterX (e.g. 136-143) *)
  | exec_next_finished s j r : nth_error (s_rpcs s) j = Some r -> r_phase r = Finished ->
      exec s INext (with_rpcs s (upd (s_rpcs s) j (set_phase r Cleaning))) [IFree j; IDecrement; INext]
  (* Next returns false *)
  | exec_next_end s : s_cq_down s = true -> forallb (fun r => negb (outstanding r)) (s_rpcs s) = true ->
      exec s INext s []
  (* 279-313 Shutdown (of a server that was started) *)
  | exec_set_shutdown s :
      exec s ISetShutdown
        (SState true (s_pending s) (s_notified s) (s_grpc s) (s_cq_down s) (s_hub s) (s_log s) (s_rpcs s) (s_crashed s)) []
  | exec_close s :
      exec s ICloseServer
        (SState (s_shutdown s) (s_pending s) (s_notified s) (match s_grpc s with Up => Closing | g => g end)
                (s_cq_down s) (s_hub s) (s_log s) (s_rpcs s) (s_crashed s)) []
  | exec_await_server s : forallb (fun r => negb (live r)) (s_rpcs s) = true ->
      exec s IAwaitServer
        (SState (s_shutdown s) (s_pending s) (s_notified s) Closed (s_cq_down s) (s_hub s) (s_log s) (s_rpcs s) (s_crashed s)) []
  | exec_await_notified s : s_notified s = true -> exec s IAwaitNotified s []
  | exec_shutdown_queue s :
      exec s IShutdownQueue
        (SState (s_shutdown s) (s_pending s) (s_notified s) (s_grpc s) true (s_hub s) (s_log s) (s_rpcs s) (s_crashed s)) [].

  (** Steps of the gRPC library. *)
  Inductive env : sstate -> sstate -> Prop :=
  | env_arrive s j r q : nth_error (s_rpcs s) j = Some r -> r_phase r = Armed -> s_grpc s = Up ->
      env s (with_rpcs s (upd (s_rpcs s) j (Rpc (r_method r) (Arrived true) (Some q) (r_handled r) (r_finished r) (r_freed r))))
  | env_refuse s j r : nth_error (s_rpcs s) j = Some r -> r_phase r = Armed -> s_grpc s <> Up ->
      env s (with_rpcs s (upd (s_rpcs s) j (set_phase r (Arrived false))))
  | env_sent s j r : nth_error (s_rpcs s) j = Some r -> r_phase r = Finishing ->
      env s (with_rpcs s (upd (s_rpcs s) j (set_phase r Finished))).

  (** server_async_impl.cc:268-277 ProcessRequests; 279-313 Shutdown. *)
  Definition main_program : list instr :=
    [IRequest MGetNextState; IRequest MGetLMScores; IRequest MUpdateLMScores; INext].
  Definition shutdown_program : list instr :=
    [ISetShutdown; ICloseServer; IAwaitServer; IAwaitNotified; IShutdownQueue; INext].

  (** The state of the whole program: the shared state and the threads. *)
  Definition conf : Type := sstate * list (list instr).

  (** After BuildAndStart (server_async_impl.cc:230-266; line 260 notifies): one thread in
      ProcessRequests and [n] threads that will at some time call Shutdown. *)
  Definition initial (h : Hub) (n : nat) : conf :=
    (SState false 0 true Up false h [] [] false, main_program :: repeat shutdown_program n).

  (** ProcessRequests has requested its first calls. *)
  Definition started (c : conf) : bool :=
    match snd c with
    | k :: _ => forallb (fun i => match i with IRequest _ | IEnqueue _ => false | _ => true end) k
                || existsb (fun i => match i with IFinish _ => true | _ => false end) k
    | [] => true
    end.

  (** [patient]: Shutdown is called only after ProcessRequests has requested its first calls. *)
  Inductive step (patient : bool) : conf -> conf -> Prop :=
  | step_thread s ts i a k s' pre :
      s_crashed s = false -> nth_error ts i = Some (a :: k) -> exec s a s' pre ->
      (patient = true -> a = ISetShutdown -> started (s, ts) = true) ->
      step patient (s, ts) (s', upd ts i (pre ++ k))
  | step_env s ts s' : s_crashed s = false -> env s s' -> step patient (s, ts) (s', ts).

  Inductive reach (patient : bool) (c : conf) : conf -> Prop :=
  | reach_here : reach patient c c
  | reach_more c1 c2 : reach patient c c1 -> step patient c1 c2 -> reach patient c c2.
End Lifecycle.
