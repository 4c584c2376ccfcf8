(** Model of the configuration code of the gRPC server and client:
      mozolm/grpc/server_config.proto, client_config.proto      (the records)
      mozolm/grpc/server_helper.cc     30-66, 83-136           (credentials, defaults)
      mozolm/grpc/client_helper.cc     101-130, 286-307         (credentials, defaults, Init)
      mozolm/grpc/server_async_main.cc 86-189                   (flags -> configuration)
      mozolm/grpc/client_async_main.cc 50-163                   (flags -> configuration)
    Strings are Coq strings, file contents are looked up in a function [files]
    (nisaba::file::ReadBinaryFile: [None] = cannot be read, a non-OK status), and parsing
    of the text format is a function [parse] ([None] = ParseFromString returned false).
    Timeouts are rationals: a NaN or infinite timeout is not modelled.  Logging is dropped. *)
From Coq Require Import String QArith.
From Verif Require Import Base.
Local Open Scope string_scope.

(** server_config.proto, enum CredentialType.  proto3 enums are open: any other number can
    be carried. *)
Inductive cred_type := CREDENTIAL_INSECURE | CREDENTIAL_TLS | CREDENTIAL_OTHER (n : Z).

(** server_config.proto, message ServerAuthConfig.TlsConfig. *)
Record server_tls := mk_server_tls {
  server_key : string; server_cert : string; custom_ca_cert : string; client_verify : bool }.

(** server_config.proto, message ServerAuthConfig; [None] is has_tls() = false. *)
Record server_auth := mk_server_auth {
  credential_type : cred_type; sa_tls : option server_tls }.

(** server_config.proto, message ServerConfig, with the model hub part left abstract ([H]).
    An absent [auth] sub-message reads as the default one. *)
Record server_config (H : Type) := mk_server_config {
  model_hub_config : H; address_uri : string; sc_auth : server_auth;
  wait_for_clients : bool; async_pool_size : Z }.
Arguments mk_server_config {H}. Arguments model_hub_config {H}. Arguments address_uri {H}.
Arguments sc_auth {H}. Arguments wait_for_clients {H}. Arguments async_pool_size {H}.

(** client_config.proto, message ClientAuthConfig.TlsConfig. *)
Record client_tls := mk_client_tls {
  target_name_override : string; client_cert : string; client_key : string }.

(** client_config.proto, enum ClientRequestType (open). *)
Inductive request_kind := NOT_SET | K_BEST_ITEMS | RANDGEN | BITS_PER_CHAR | REQUEST_OTHER (n : Z).

(** client_config.proto, message ClientConfig; [cc_auth] is auth().tls(), [None] when absent. *)
Record client_config (H : Type) := mk_client_config {
  cc_server : server_config H; cc_auth : option client_tls; request_type : request_kind;
  k_best : Z; context_string : string; test_corpus : string; timeout_sec : Q }.
Arguments mk_client_config {H}. Arguments cc_server {H}. Arguments cc_auth {H}.
Arguments request_type {H}. Arguments k_best {H}. Arguments context_string {H}.
Arguments test_corpus {H}. Arguments timeout_sec {H}.

(** What gRPC is asked to use.  grpc_ssl_client_certificate_request_type: only the two values
    the code uses. *)
Inductive cert_request :=
| DONT_REQUEST_CLIENT_CERTIFICATE
| REQUEST_AND_REQUIRE_CLIENT_CERTIFICATE_AND_VERIFY.

(** ::grpc::SslServerCredentialsOptions. *)
Record ssl_server_options := mk_ssl_server {
  client_certificate_request : cert_request; force_client_auth : bool;
  ss_pem_root_certs : string; pem_key_cert_pairs : list (string * string) }.
Inductive server_creds := ServerInsecure | ServerSsl (o : ssl_server_options).

(** ::grpc::SslCredentialsOptions; the channel argument set by SetSslTargetNameOverride is
    carried beside it. *)
Record ssl_client_options := mk_ssl_client {
  sc_pem_root_certs : string; pem_cert_chain : string; pem_private_key : string }.
Inductive channel_creds := ChannelInsecure | ChannelSsl (o : ssl_client_options).

(** server_helper.cc:31-50. *)
Definition build_ssl_server_credentials (c : server_tls) : server_creds :=
  ServerSsl (mk_ssl_server
    (if client_verify c then REQUEST_AND_REQUIRE_CLIENT_CERTIFICATE_AND_VERIFY
     else DONT_REQUEST_CLIENT_CERTIFICATE)                                  (* 33-40 *)
    (client_verify c)                                                       (* 42 *)
    (if String.eqb (custom_ca_cert c) "" then "" else custom_ca_cert c)     (* 43-45 *)
    [(server_key c, server_cert c)]).                                       (* 46-48 *)

(** server_helper.cc:54-66. *)
Definition build_server_credentials {H} (c : server_config H) : server_creds :=
  match credential_type (sc_auth c), sa_tls (sc_auth c) with
  | CREDENTIAL_TLS, Some t => build_ssl_server_credentials t
  | _, _ => ServerInsecure
  end.

(** client_helper.cc:101-130; the second component is the target name override set on the
    channel arguments, if any. *)
Definition build_channel_credentials {H} (c : client_config H)
  : channel_creds * option string :=
  match credential_type (sc_auth (cc_server c)) with
  | CREDENTIAL_TLS =>
      match sa_tls (sc_auth (cc_server c)) with
      | Some st =>
          match cc_auth c with
          | Some ct =>
              (ChannelSsl (mk_ssl_client (server_cert st) (client_cert ct) (client_key ct)),
               if String.eqb (target_name_override ct) "" then None
               else Some (target_name_override ct))
          | None => (ChannelSsl (mk_ssl_client (server_cert st) "" ""), None)
          end
      | None => (ChannelInsecure, None)
      end
  | _ => (ChannelInsecure, None)
  end.

(** server_helper.h:28, client_helper.h:32. *)
Definition kDefaultServerAddress : string := "localhost:50051".
Definition kDefaultClientTimeoutSec : Q := 5 # 1.

(** server_helper.cc:123-128 InitConfigDefaults for ServerConfig. *)
Definition init_server_defaults {H} (c : server_config H) : server_config H :=
  mk_server_config (model_hub_config c)
    (if String.eqb (address_uri c) "" then kDefaultServerAddress else address_uri c)
    (sc_auth c) true (async_pool_size c).

(** client_helper.cc:302-307 InitConfigDefaults for ClientConfig. *)
Definition init_client_defaults {H} (c : client_config H) : client_config H :=
  mk_client_config (init_server_defaults (cc_server c)) (cc_auth c) (request_type c)
    (k_best c) (context_string c) (test_corpus c)
    (if Qle_bool (timeout_sec c) 0 then kDefaultClientTimeoutSec else timeout_sec c).

(** ReadBinaryFile. *)
Definition read_file (files : string -> option string) (name : string) : outcome string :=
  match files name with Some s => Ok s | None => Err end.

(** server_async_main.cc:86-110: the command-line flags of the server. *)
Record server_flags := mk_server_flags {
  f_server_config : string; f_server_config_file : string; f_async_pool_size : Z;
  f_tls_server_key_file : string; f_tls_server_cert_file : string;
  f_tls_custom_ca_cert_file : string; f_tls_client_verify : bool }.

(** server_async_main.cc:119-134 InitTlsConfig; the argument is *mutable_tls(), so the
    default message when there was none. *)
Definition init_server_tls (files : string -> option string) (f : server_flags)
  (t : server_tls) : outcome server_tls :=
  let* key := read_file files (f_tls_server_key_file f) in                  (* 122-124 *)
  let* cert := read_file files (f_tls_server_cert_file f) in                (* 125-127 *)
  let* ca := (if String.eqb (f_tls_custom_ca_cert_file f) "" then Ok (custom_ca_cert t)
              else read_file files (f_tls_custom_ca_cert_file f)) in        (* 128-132 *)
  Ok (mk_server_tls key cert ca (f_tls_client_verify f)).                   (* 121 *)

(** server_async_main.cc:137-147 and client_async_main.cc:83-93 InitConfigContents. *)
Definition init_config_contents (files : string -> option string)
  (config_file config : string) : outcome string :=
  if negb (String.eqb config_file "") then read_file files config_file
  else if negb (String.eqb config "") then Ok config
  else Ok "".

Definition empty_server_tls : server_tls := mk_server_tls "" "" "" false.
Definition empty_client_tls : client_tls := mk_client_tls "" "" "".

(** [mutable_tls()]. *)
Definition mutable_server_tls (a : server_auth) : server_tls :=
  match sa_tls a with Some t => t | None => empty_server_tls end.

(** server_async_main.cc:150-169 InitConfigFromFlags. *)
Definition server_config_from_flags {H} (files : string -> option string)
  (parse : string -> option (server_config H)) (f : server_flags)
  : outcome (server_config H) :=
  let* contents := init_config_contents files (f_server_config_file f) (f_server_config f) in
  match parse contents with                                                 (* 154-157 *)
  | None => Err
  | Some c0 =>
      let c1 := if (0 <? f_async_pool_size f)%Z                             (* 158-160 *)
                then mk_server_config (model_hub_config c0) (address_uri c0) (sc_auth c0)
                       (wait_for_clients c0) (f_async_pool_size f)
                else c0 in
      let c2 := init_server_defaults c1 in                                  (* 161 *)
      match credential_type (sc_auth c2), String.eqb (f_tls_server_key_file f) "" with
      | CREDENTIAL_TLS, false =>                                            (* 164-167 *)
          let* t := init_server_tls files f (mutable_server_tls (sc_auth c2)) in
          Ok (mk_server_config (model_hub_config c2) (address_uri c2)
                (mk_server_auth (credential_type (sc_auth c2)) (Some t))
                (wait_for_clients c2) (async_pool_size c2))
      | _, _ => Ok c2
      end
  end.

(** client_async_main.cc:50-74: the command-line flags of the client. *)
Record client_flags := mk_client_flags {
  g_client_config : string; g_client_config_file : string; g_timeout_sec : Q;
  g_tls_server_cert_file : string; g_tls_target_name_override : string;
  g_tls_client_cert_file : string; g_tls_client_key_file : string }.

(** client_async_main.cc:96-123 InitTlsConfig. *)
Definition init_client_tls {H} (files : string -> option string) (f : client_flags)
  (c : client_config H) : outcome (client_config H) :=
  let ct0 := match cc_auth c with Some t => t | None => empty_client_tls end in
  let* scert := read_file files (g_tls_server_cert_file f) in               (* 103-104 *)
  let* ccert := (if String.eqb (g_tls_client_cert_file f) "" then Ok (client_cert ct0)
                 else read_file files (g_tls_client_cert_file f)) in        (* 112-116 *)
  let* ckey := (if String.eqb (g_tls_client_key_file f) "" then Ok (client_key ct0)
                else read_file files (g_tls_client_key_file f)) in          (* 117-121 *)
  let s := cc_server c in
  let st0 := mutable_server_tls (sc_auth s) in
  let st := mk_server_tls (server_key st0) scert (custom_ca_cert st0) (client_verify st0) in
  Ok (mk_client_config
        (mk_server_config (model_hub_config s) (address_uri s)
           (mk_server_auth CREDENTIAL_TLS (Some st))                        (* 105-109 *)
           (wait_for_clients s) (async_pool_size s))
        (Some (mk_client_tls (g_tls_target_name_override f) ccert ckey))    (* 97-99 *)
        (request_type c) (k_best c) (context_string c) (test_corpus c) (timeout_sec c)).

(** client_async_main.cc:126-142 InitConfigFromFlags. *)
Definition client_config_from_flags {H} (files : string -> option string)
  (parse : string -> option (client_config H)) (f : client_flags)
  : outcome (client_config H) :=
  let* contents := init_config_contents files (g_client_config_file f) (g_client_config f) in
  match parse contents with                                                 (* 130-133 *)
  | None => Err
  | Some c0 =>
      let c1 := mk_client_config (cc_server c0) (cc_auth c0) (request_type c0) (k_best c0)
                  (context_string c0) (test_corpus c0) (g_timeout_sec f) in (* 134 *)
      let c2 := init_client_defaults c1 in                                  (* 135 *)
      if negb (String.eqb (g_tls_server_cert_file f) "")                    (* 138-140 *)
      then init_client_tls files f c2
      else Ok c2
  end.

(** What the two programs end up opening.  server_helper.cc:83-98 ServerHelper::Init and
    130-137 RunServer (up to starting the server): address, credentials and pool size given
    to the gRPC server; client_helper.cc:286-300 ClientHelper::Init: address, credentials,
    target override and timeout of every request. *)
Record server_endpoint := mk_server_endpoint {
  listen_address : string; listen_creds : server_creds; listen_pool : Z; listen_wait : bool }.
Definition server_endpoint_of {H} (c : server_config H) : server_endpoint :=
  mk_server_endpoint (address_uri c) (build_server_credentials c) (async_pool_size c)
    (wait_for_clients c).
Record client_endpoint := mk_client_endpoint {
  dial_address : string; dial_creds : channel_creds; dial_override : option string;
  dial_timeout : Q }.
Definition client_endpoint_of {H} (c : client_config H) : client_endpoint :=
  mk_client_endpoint (address_uri (cc_server c)) (fst (build_channel_credentials c))
    (snd (build_channel_credentials c)) (timeout_sec c).

(** server_async_main.cc:175-189 and client_async_main.cc:148-163 main, up to the endpoint. *)
Definition server_main {H} files (parse : string -> option (server_config H)) f
  : outcome server_endpoint :=
  let* c := server_config_from_flags files parse f in Ok (server_endpoint_of c).
Definition client_main {H} files (parse : string -> option (client_config H)) f
  : outcome client_endpoint :=
  let* c := client_config_from_flags files parse f in Ok (client_endpoint_of c).
