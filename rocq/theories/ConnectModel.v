(** The client of ClientModel.v connected to the server of ServerModel.v: what the client receives when its
    calls are handled one after the other by the server on a hub.

    Models the messages of mozolm/grpc/service.proto:28-51 between client_async_impl.cc:68-179 (which fills the
    requests) and server_async_impl.cc:38-63 (HandleRequest).  Simplifications: the transport delivers every
    message and within the deadline; the calls of other clients are not interleaved in [connect], and are in [shared]
    below; a reply with a NaN in it, which the arithmetic of the client model
    does not have, and a handler that does not return, are [None] like a refusal. *)
From Coq Require Import String.
From Verif Require Import Base Field LmModel HubModel ServerModel ClientModel.
Close Scope string_scope.

Section Connect.
  Context {F : ofield} {M : Type}.
  Variable ops : comp_ops F M.
  Variable unicode : string -> list Z.     (* nisaba::utf8::StrSplitByCharToUnicode *)
  Variable encode : str -> string.         (* a symbol in bytes *)

  Fixpoint numbers (l : list (num F)) : option (list (car F)) :=
    match l with
    | [] => Some []
    | Val x :: t => option_map (cons x) (numbers t)
    | NaN :: _ => None
    end.

  (** models/lm_scores.proto:26-37 LMScores, as filled by ExtractLMScores and read by client_async_impl.cc:95-97. *)
  Definition msg_of (sc : lm_scores (num F)) : option (scores_msg F) :=
    match sc_norm sc, numbers (map snd (sc_entries sc)) with
    | Val n, Some ps => Some (mk_scores ps (map encode (map fst (sc_entries sc))) n)
    | _, _ => None
    end.

  (** One call: client_async_impl.cc:76-88, 107-123, 140-156 fill the request; server_async_impl.cc:38-63. *)
  Definition call (h : hub F M) (rq : request) : option (reply F) * hub F M :=
    match handle ops h rq with Ok (r, h') => (Some r, h') | _ => (None, h) end.
  Definition scores_in (r : option (reply F)) : option (scores_msg F) :=
    match r with Some (ScoresReply sc) => msg_of sc | _ => None end.
  Definition state_in (r : option (reply F)) : option Z :=
    match r with Some (StateReply s) => Some s | _ => None end.

  Definition connect : server F (hub F M) := {|
    rpc_scores := fun h ctx st => let (r, h') := call h (GetLMScoresReq st (unicode ctx)) in (scores_in r, h');
    rpc_next := fun h ctx st => let (r, h') := call h (GetNextStateReq st (unicode ctx)) in (state_in r, h');
    rpc_update := fun h w st n => let (r, h') := call h (UpdateLMScoresReq st w n) in (scores_in r, h') |}.

  (** The same with other clients: before each call of the client the server handles some requests of others (an
      arbitrary list for every call; requests are handled one at a time, ServerProps.v C58).  If one of those does not
      return, neither does the call. *)
  Definition meanwhile (w : hub F M * list (list request)) : option (hub F M * list (list request)) :=
    match snd w with
    | [] => Some w
    | l :: t => match handle_all ops (fst w) l with Ok (_, h') => Some (h', t) | _ => None end
    end.
  Definition shared_call {A} (part : option (reply F) -> option A) (w : hub F M * list (list request)) (rq : request)
    : option A * (hub F M * list (list request)) :=
    match meanwhile w with
    | Some (h, t) => let (r, h') := call h rq in (part r, (h', t))
    | None => (None, w)
    end.
  Definition shared : server F (hub F M * list (list request)) := {|
    rpc_scores := fun w ctx st => shared_call scores_in w (GetLMScoresReq st (unicode ctx));
    rpc_next := fun w ctx st => shared_call state_in w (GetNextStateReq st (unicode ctx));
    rpc_update := fun w sy st n => shared_call scores_in w (UpdateLMScoresReq st sy n) |}.
End Connect.
