(** The two programs, from the command line to the result: mozolm/grpc/server_async_main.cc and
    mozolm/grpc/client_async_main.cc with RunServer (server_helper.cc:130-137) and RunClient
    (client_helper.cc:309-336), and the network between them.

    Parts: the configurations from flags, files and text are ConfigModel.v; loading the models and starting the server
    FactoryModel.v; the commands of the client ClientModel.v and ClientBits.v; the handling of requests ServerModel.v,
    over ConnectModel.v.  Simplifications: absl::ParseCommandLine is not modelled (flags are given as records), nor is
    the text format of protocol buffers (the parameters [parse]); log output is not modelled; the TLS handshake is a
    parameter. *)
From Coq Require Import String.
From Verif Require Import Base Field TextModel HubModel FactoryModel ConfigModel ClientModel.
Local Open Scope string_scope.
Local Open Scope Z_scope.

(** ** The client program *)
Section ClientProgram.
  Context {F : ofield} {W H B : Type}.
  Variable sort : list (car F * string) -> list (car F * string).     (* std::sort *)
  Variable unicode : string -> list Z.
  (** CalcBitsPerCharacter (client_helper.cc:242-285): of the channel, the world and the contents of the file. *)
  Variable bits : option (server F W) -> W -> option bytes -> outcome (Z * Z * option B) * W.
  Variable show_int : Z -> string.               (* std::to_string *)
  Variable show_prob : car F -> string.          (* absl::StrFormat("%5.3f") *)
  Variable show_bits : option B -> string.       (* absl::StrJoin of a double *)

  (** client_helper.cc:233-238: the text OneKbestSample builds. *)
  Definition kbest_text (k : Z) (best : list (car F * string)) : string :=
    fold_left (fun r e => r ++ " " ++ snd e ++ "(" ++ show_prob (fst e) ++ ")") best
      (show_int k ++ "-best prob continuations:").
  (** client_helper.cc:280-283: the text CalcBitsPerCharacter builds. *)
  Definition bits_text (t : Z * Z * option B) : string :=
    let '(chars, oov, b) := t in
    "Total characters: " ++ show_int chars ++ " (" ++ show_int oov ++ " OOV); bits per character: " ++ show_bits b.

  (** client_helper.cc:309-336 RunClient on a channel that was created (BuildChannelCredentials, 101-130, never
      returns a null pointer, so Init succeeds).  The result is the text printed, or the status; [None]: random
      generation did not end within [fuel] rounds. *)
  Definition run_client (fuel : nat) (draws : nat -> car F) (files : string -> option bytes) (srv : server F W)
    (w : W) (c : client_config H) : option (outcome string * W) :=
    match request_type c with
    | RANDGEN =>                                                               (* 316-318 *)
        option_map (fun R => ((let* _ := rg_status R in Ok (rg_text R)), rg_world R))
          (rand_gen sort unicode fuel (Some srv) draws w (context_string c))
    | K_BEST_ITEMS =>                                                          (* 319-322 *)
        let (r, w') := one_kbest sort (Some srv) w (k_best c) (context_string c) in
        Some ((let* best := r in Ok (kbest_text (k_best c) best)), w')
    | BITS_PER_CHAR =>                                                         (* 323-325 *)
        let (r, w') := bits (Some srv) w (files (test_corpus c)) in
        Some ((let* t := r in Ok (bits_text t)), w')
    | _ => Some (Err, w)                                                       (* 326-327 *)
    end.

  (** client_async_main.cc:148-163 main: the exit code and what is printed (client_helper.cc:329-331).  [net] is what
      dialing an endpoint gives. *)
  Definition client_program (fuel : nat) (draws : nat -> car F) (files : string -> option bytes)
    (parse : string -> option (client_config H)) (net : client_endpoint -> server F W) (w : W) (f : client_flags)
    : option (outcome (Z * list string) * W) :=
    match client_config_from_flags (fun p => option_map string_of_list_ascii (files p)) parse f with
    | Ok c =>
        option_map (fun r => (match fst r with
                              | Ok text => Ok (0, [text])
                              | Err => Ok (1, [])
                              | Crash => Crash
                              | UB => UB
                              end, snd r))
          (run_client fuel draws files (net (client_endpoint_of c)) w c)
    | Err => Some (Ok (1, []), w)
    | Crash => Some (Crash, w)
    | UB => Some (UB, w)
    end.
End ClientProgram.

(** ** The network *)

(** No call gets through: a deadline or transport error each time, and the server sees nothing. *)
Definition dead {F : ofield} {W : Type} : server F W :=
  {| rpc_scores := fun w _ _ => (None, w); rpc_next := fun w _ _ => (None, w); rpc_update := fun w _ _ _ => (None, w) |}.

(** A client reaches the server that listens at the address it dials if both ends use no credentials, or both use
    TLS and the handshake (a parameter: certificates, names and keys are not interpreted) succeeds; not if one end
    uses TLS and the other does not.  [None]: no server is running. *)
Section Network.
  Context {F : ofield} {W : Type}.
  Variable handshake : ssl_server_options -> ssl_client_options -> option string -> string -> bool.

  Definition connects (se : server_endpoint) (ce : client_endpoint) : bool :=
    String.eqb (listen_address se) (dial_address ce) &&
    match listen_creds se, dial_creds ce with
    | ServerInsecure, ChannelInsecure => true
    | ServerSsl so, ChannelSsl co => handshake so co (dial_override ce) (dial_address ce)
    | _, _ => false
    end.
  Definition network (running : option server_endpoint) (srv : server F W) (ce : client_endpoint) : server F W :=
    match running with
    | Some se => if connects se ce then srv else dead
    | None => dead
    end.
End Network.

(** ** The server program *)

(** What has become of the program once the models are loaded: it has ended, or it serves (RunServer waits in
    ProcessRequests until the process is ended: nothing calls Shutdown). *)
Inductive server_state (F : ofield) : Type :=
| Exited (code : Z)
| Serving (e : server_endpoint) (h : hub F (any_model F)).
Arguments Exited {F}. Arguments Serving {F}.

Section ServerProgram.
  Context {F : ofield}.
  Variable ext : externals F.

  (** server_helper.cc:130-137 RunServer.  [starts]: gRPC can listen at the address. *)
  Definition run_server (d : disk F) (starts : bool) (c : server_config (FactoryModel.model_hub_config F)) : outcome (server_state F) :=
    let* (ok, s) := helper_init ext Idle d (ConfigModel.model_hub_config c) starts in
    if negb ok then Ok (Exited 1)                                              (* 132, main 186 *)
    else if wait_for_clients c then                                            (* 133-135 *)
      let* (ok', s') := helper_run s in
      if negb ok' then Ok (Exited 1)
      else match s' with
           | Active _ h _ => Ok (Serving (server_endpoint_of c) h)
           | Idle => Ok (Exited 0)
           end
    else Ok (Exited 0).

  (** server_async_main.cc:175-189 main. *)
  Definition server_program (d : disk F) (parse : string -> option (server_config (FactoryModel.model_hub_config F))) (starts : bool)
    (f : server_flags) : outcome (server_state F) :=
    match server_config_from_flags (fun p => option_map (fun x => string_of_list_ascii (f_bytes x)) (d p)) parse f with
    | Ok c => run_server d starts c
    | Err => Ok (Exited 1)
    | Crash => Crash
    | UB => UB
    end.
End ServerProgram.
