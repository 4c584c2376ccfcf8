(** C43 (secure credentials are used when asked for) and C48 (defaults and overrides of the
    configuration).  The vocabulary of the statements is the configuration records and the
    gRPC options of ConfigModel.v; the definitions just below are the whole specification. *)
From Coq Require Import String QArith.
From Verif Require Import Base ConfigModel.
Local Open Scope string_scope.

(** The connection is encrypted and authenticated with exactly this key and certificate. *)
Definition server_presents (key cert : string) (s : server_creds) : Prop :=
  exists o, s = ServerSsl o /\ pem_key_cert_pairs o = [(key, cert)].
(** Only clients whose certificate has been verified are served. *)
Definition server_demands_client_cert (s : server_creds) : Prop :=
  exists o, s = ServerSsl o /\ force_client_auth o = true /\
    client_certificate_request o = REQUEST_AND_REQUIRE_CLIENT_CERTIFICATE_AND_VERIFY.
Definition server_ignores_client_cert (s : server_creds) : Prop :=
  exists o, s = ServerSsl o /\ force_client_auth o = false /\
    client_certificate_request o = DONT_REQUEST_CLIENT_CERTIFICATE.
(** The client accepts only servers certified by [root]. *)
Definition client_trusts (root : string) (s : channel_creds) : Prop :=
  exists o, s = ChannelSsl o /\ sc_pem_root_certs o = root.
Definition client_presents (cert key : string) (s : channel_creds) : Prop :=
  exists o, s = ChannelSsl o /\ pem_cert_chain o = cert /\ pem_private_key o = key.

(** The text of the configuration a user supplied with the two flags (--x_config_file takes
    precedence over --x_config; an unreadable file is no text). *)
Definition config_text (files : string -> option string) (file inline : string)
  : option string :=
  if string_dec file "" then Some inline else files file.

(** ** C43, server *)

(** TLS with a TLS section: the server presents the configured key and certificate, trusts
    the configured CA, and demands client certificates exactly when told to. *)
Theorem C43_server_tls : forall H (c : server_config H) t,
  credential_type (sc_auth c) = CREDENTIAL_TLS -> sa_tls (sc_auth c) = Some t ->
  server_presents (server_key t) (server_cert t) (build_server_credentials c) /\
  (exists o, build_server_credentials c = ServerSsl o /\
             ss_pem_root_certs o = custom_ca_cert t) /\
  (client_verify t = true -> server_demands_client_cert (build_server_credentials c)) /\
  (client_verify t = false -> server_ignores_client_cert (build_server_credentials c)).
Proof.
  intros H c t Et Es. unfold build_server_credentials. rewrite Et, Es.
  unfold build_ssl_server_credentials.
  split; [|split; [|split]].
  - eexists; split; reflexivity.
  - eexists; split; [reflexivity|]. cbn.
    destruct (String.eqb_spec (custom_ca_cert t) ""); congruence.
  - intro V. rewrite V. eexists; repeat split; reflexivity.
  - intro V. rewrite V. eexists; repeat split; reflexivity.
Qed.

(** Exactly when the server is left insecure. *)
Theorem C43_server_insecure_iff : forall H (c : server_config H),
  build_server_credentials c = ServerInsecure <->
  credential_type (sc_auth c) <> CREDENTIAL_TLS \/ sa_tls (sc_auth c) = None.
Proof.
  intros H c. unfold build_server_credentials.
  destruct (credential_type (sc_auth c)), (sa_tls (sc_auth c));
    unfold build_ssl_server_credentials; split; intro E; auto; try congruence;
    try (left; congruence); destruct E; congruence.
Qed.

(** The claim "TLS requested => never insecure" is false of the code: TLS without a TLS
    section gives an unencrypted server (a warning is logged). *)
Theorem C43_server_tls_without_section_refuted :
  ~ forall H (c : server_config H), credential_type (sc_auth c) = CREDENTIAL_TLS ->
      build_server_credentials c <> ServerInsecure.
Proof.
  intro P.
  apply (P unit (mk_server_config tt "" (mk_server_auth CREDENTIAL_TLS None) true 0));
    reflexivity.
Qed.

(** ** C43, client *)
Theorem C43_client_tls : forall H (c : client_config H) st,
  credential_type (sc_auth (cc_server c)) = CREDENTIAL_TLS ->
  sa_tls (sc_auth (cc_server c)) = Some st ->
  client_trusts (server_cert st) (fst (build_channel_credentials c)) /\
  (forall ct, cc_auth c = Some ct ->
     client_presents (client_cert ct) (client_key ct) (fst (build_channel_credentials c)) /\
     (snd (build_channel_credentials c) =
        if string_dec (target_name_override ct) "" then None
        else Some (target_name_override ct))) /\
  (cc_auth c = None ->
     client_presents "" "" (fst (build_channel_credentials c)) /\
     snd (build_channel_credentials c) = None).
Proof.
  intros H c st Et Es. unfold build_channel_credentials. rewrite Et, Es.
  destruct (cc_auth c) as [ct|]; split; [| split | | split].
  - eexists; split; reflexivity.
  - intros ct' E. injection E as <-. split; [eexists; repeat split; reflexivity|].
    cbn [snd]. destruct (String.eqb_spec (target_name_override ct) "") as [e|e];
      destruct (string_dec _ _); congruence.
  - discriminate.
  - eexists; split; reflexivity.
  - discriminate.
  - intros _. split; [eexists; repeat split; reflexivity | reflexivity].
Qed.

Theorem C43_client_insecure_iff : forall H (c : client_config H),
  fst (build_channel_credentials c) = ChannelInsecure <->
  credential_type (sc_auth (cc_server c)) <> CREDENTIAL_TLS \/
  sa_tls (sc_auth (cc_server c)) = None.
Proof.
  intros H c. unfold build_channel_credentials.
  destruct (credential_type (sc_auth (cc_server c))), (sa_tls (sc_auth (cc_server c))),
    (cc_auth c); cbn; split; intro E; auto; try congruence;
    try (left; congruence); destruct E; congruence.
Qed.

Theorem C43_client_tls_without_section_refuted :
  ~ forall H (c : client_config H), credential_type (sc_auth (cc_server c)) = CREDENTIAL_TLS ->
      fst (build_channel_credentials c) <> ChannelInsecure.
Proof.
  intro P.
  apply (P unit (mk_client_config
    (mk_server_config tt "" (mk_server_auth CREDENTIAL_TLS None) true 0) None NOT_SET 0 "" ""
    0%Q)); reflexivity.
Qed.

(** ** C43, the command lines *)

Lemma config_contents_text files file inline :
  init_config_contents files file inline =
  match config_text files file inline with Some s => Ok s | None => Err end.
Proof.
  unfold init_config_contents, config_text, read_file.
  destruct (String.eqb_spec file ""), (string_dec file ""); try congruence; cbn; [|reflexivity].
  destruct (String.eqb_spec inline ""); subst; reflexivity.
Qed.

(** The server program: with a configuration that asks for TLS and a key file flag, either
    the program stops with an error or it serves with the contents of the key and certificate
    files, and demands client certificates exactly when --tls_client_verify says so. *)
Theorem C43_server_flags : forall H files (parse : string -> option (server_config H)) f
    text c0 e,
  config_text files (f_server_config_file f) (f_server_config f) = Some text ->
  parse text = Some c0 -> credential_type (sc_auth c0) = CREDENTIAL_TLS ->
  f_tls_server_key_file f <> "" ->
  server_main files parse f = Ok e ->
  exists key cert,
    files (f_tls_server_key_file f) = Some key /\
    files (f_tls_server_cert_file f) = Some cert /\
    server_presents key cert (listen_creds e) /\
    (f_tls_client_verify f = true -> server_demands_client_cert (listen_creds e)) /\
    (f_tls_client_verify f = false -> server_ignores_client_cert (listen_creds e)).
Proof.
  intros H files parse f text c0 e Et Ep Ec Ek E.
  unfold server_main, server_config_from_flags in E.
  rewrite config_contents_text, Et in E. cbn [bind] in E. rewrite Ep in E.
  set (c1 := if (0 <? f_async_pool_size f)%Z then _ else c0) in E.
  assert (A : sc_auth c1 = sc_auth c0) by (unfold c1; destruct (_ <? _)%Z; reflexivity).
  cbn [init_server_defaults sc_auth] in E. rewrite A, Ec in E.
  destruct (String.eqb_spec (f_tls_server_key_file f) "") as [|_]; [contradiction|].
  unfold init_server_tls, read_file in E.
  destruct (files (f_tls_server_key_file f)) as [key|]; [|discriminate].
  destruct (files (f_tls_server_cert_file f)) as [cert|]; [|discriminate].
  cbn [bind] in E.
  destruct (if String.eqb (f_tls_custom_ca_cert_file f) "" then _ else _) as [ca| | |];
    try discriminate E.
  cbn [bind] in E. injection E as <-.
  exists key, cert. split; [reflexivity|]. split; [reflexivity|].
  cbn [server_endpoint_of listen_creds].
  match goal with |- server_presents _ _ (build_server_credentials ?c) /\ _ =>
    destruct (C43_server_tls H c _ eq_refl eq_refl) as (P1 & _ & P3 & P4) end.
  cbn in P1, P3, P4. auto.
Qed.

(** With no key file flag the TLS section of the configuration itself decides. *)
Theorem C43_server_flags_config : forall H files (parse : string -> option (server_config H)) f
    text c0,
  config_text files (f_server_config_file f) (f_server_config f) = Some text ->
  parse text = Some c0 -> f_tls_server_key_file f = "" ->
  exists e, server_main files parse f = Ok e /\
            listen_creds e = build_server_credentials c0.
Proof.
  intros H files parse f text c0 Et Ep Ek.
  unfold server_main, server_config_from_flags.
  rewrite config_contents_text, Et. cbn [bind]. rewrite Ep, Ek. cbn [String.eqb].
  set (c1 := if (0 <? f_async_pool_size f)%Z then _ else c0).
  assert (A : sc_auth c1 = sc_auth c0) by (unfold c1; destruct (_ <? _)%Z; reflexivity).
  assert (B : build_server_credentials (init_server_defaults c1)
              = build_server_credentials c0).
  { unfold build_server_credentials, init_server_defaults. cbn [sc_auth].
    rewrite A. reflexivity. }
  destruct (credential_type (sc_auth (init_server_defaults c1)));
    (eexists; split; [reflexivity | exact B]).
Qed.

(** "Giving the server a key on the command line makes it secure" is false: unless the
    configuration text also selects TLS, the TLS flags are silently ignored. *)
Theorem C43_server_key_flag_ignored_refuted :
  exists (files : string -> option string) (parse : string -> option (server_config unit)) f e,
    f_tls_server_key_file f = "key.pem" /\ files "key.pem" = Some "KEY" /\
    f_tls_server_cert_file f = "cert.pem" /\ files "cert.pem" = Some "CERT" /\
    server_main files parse f = Ok e /\ listen_creds e = ServerInsecure.
Proof.
  exists (fun n => if String.eqb n "key.pem" then Some "KEY"
                   else if String.eqb n "cert.pem" then Some "CERT" else None),
    (fun _ => Some (mk_server_config tt "" (mk_server_auth CREDENTIAL_INSECURE None) false 0)),
    (mk_server_flags "" "" 0 "key.pem" "cert.pem" "" true).
  eexists. repeat split; reflexivity.
Qed.

(** The client program: --tls_server_cert_file always gives a secure channel that trusts
    exactly the contents of that file, whatever the configuration text says (or an error). *)
Theorem C43_client_flags : forall H files (parse : string -> option (client_config H)) f e,
  g_tls_server_cert_file f <> "" ->
  client_main files parse f = Ok e ->
  exists root, files (g_tls_server_cert_file f) = Some root /\
    client_trusts root (dial_creds e) /\
    (g_tls_client_cert_file f <> "" -> g_tls_client_key_file f <> "" ->
     exists cert key, files (g_tls_client_cert_file f) = Some cert /\
       files (g_tls_client_key_file f) = Some key /\
       client_presents cert key (dial_creds e)).
Proof.
  intros H files parse f e Ek E.
  unfold client_main, client_config_from_flags in E.
  rewrite config_contents_text in E.
  destruct (config_text files (g_client_config_file f) (g_client_config f)) as [text|];
    [|discriminate E].
  cbn [bind] in E. destruct (parse text) as [c0|]; [|discriminate E].
  destruct (String.eqb_spec (g_tls_server_cert_file f) "") as [|_]; [contradiction|].
  cbn [negb] in E. unfold init_client_tls, read_file in E.
  destruct (files (g_tls_server_cert_file f)) as [root|]; [|discriminate E].
  cbn [bind] in E.
  exists root. split; [reflexivity|].
  destruct (String.eqb_spec (g_tls_client_cert_file f) "") as [e1|n1];
  destruct (String.eqb_spec (g_tls_client_key_file f) "") as [e2|n2];
  destruct (files (g_tls_client_cert_file f)) as [cert|];
  destruct (files (g_tls_client_key_file f)) as [key|];
  cbn [bind] in E; try discriminate E; injection E as <-;
  (split; [eexists; split; reflexivity|]); intros; try contradiction;
  exists cert, key; (split; [reflexivity|]); (split; [reflexivity|]);
  eexists; repeat split; reflexivity.
Qed.

(** ** C48 *)

(** The library: InitConfigDefaults keeps a positive timeout and a non-empty address, fills
    in 5 seconds and localhost:50051 otherwise, and leaves everything else of the client
    configuration alone except that the server is told to wait for clients. *)
Theorem C48_library_defaults : forall H (c : client_config H),
  let c' := init_client_defaults c in
  ((0 < timeout_sec c)%Q -> timeout_sec c' = timeout_sec c) /\
  ((timeout_sec c <= 0)%Q -> timeout_sec c' = 5 # 1) /\
  (address_uri (cc_server c) <> "" ->
     address_uri (cc_server c') = address_uri (cc_server c)) /\
  (address_uri (cc_server c) = "" -> address_uri (cc_server c') = "localhost:50051") /\
  wait_for_clients (cc_server c') = true /\
  sc_auth (cc_server c') = sc_auth (cc_server c) /\
  model_hub_config (cc_server c') = model_hub_config (cc_server c) /\
  async_pool_size (cc_server c') = async_pool_size (cc_server c) /\
  cc_auth c' = cc_auth c /\ request_type c' = request_type c /\ k_best c' = k_best c /\
  context_string c' = context_string c /\ test_corpus c' = test_corpus c.
Proof.
  intros H c c'. unfold c', init_client_defaults, init_server_defaults. cbn.
  repeat split; try reflexivity.
  - intro L. destruct (Qle_bool (timeout_sec c) 0) eqn:E; [|reflexivity].
    apply Qle_bool_iff in E. exfalso. eapply Qlt_not_le; eassumption.
  - intro L. apply Qle_bool_iff in L. rewrite L. reflexivity.
  - intro N. destruct (String.eqb_spec (address_uri (cc_server c)) ""); congruence.
  - intro N. rewrite N. reflexivity.
Qed.

(** What the client program dials: the address of the configuration text or the default. *)
Theorem C48_client_address : forall H files (parse : string -> option (client_config H)) f
    text c0 e,
  config_text files (g_client_config_file f) (g_client_config f) = Some text ->
  parse text = Some c0 -> client_main files parse f = Ok e ->
  dial_address e = if string_dec (address_uri (cc_server c0)) "" then "localhost:50051"
                   else address_uri (cc_server c0).
Proof.
  intros H files parse f text c0 e Et Ep E.
  unfold client_main, client_config_from_flags in E.
  rewrite config_contents_text, Et in E. cbn [bind] in E. rewrite Ep in E.
  assert (A : forall c2 : client_config H, client_endpoint_of c2 = e ->
            address_uri (cc_server c2) =
            (if String.eqb (address_uri (cc_server c0)) "" then kDefaultServerAddress
             else address_uri (cc_server c0)) ->
            dial_address e = (if string_dec (address_uri (cc_server c0)) ""
              then "localhost:50051" else address_uri (cc_server c0))).
  { intros c2 <- A. cbn. rewrite A.
    destruct (String.eqb_spec (address_uri (cc_server c0)) ""), (string_dec _ _);
      try reflexivity; congruence. }
  destruct (negb _).
  - unfold init_client_tls in E.
    repeat match type of E with
    | bind (bind ?x _) _ = _ => destruct x; cbn [bind] in E; try discriminate E
    end.
    injection E as E. eapply A; [exact E|]. reflexivity.
  - injection E as E. eapply A; [exact E|]. reflexivity.
Qed.

(** What the timeout of the client program is: the command line flag when positive, else
    5 seconds.  The value in the configuration text plays no part, which is the finding: *)
Theorem C48_client_timeout : forall H files (parse : string -> option (client_config H)) f e,
  client_main files parse f = Ok e ->
  ((0 < g_timeout_sec f)%Q -> dial_timeout e = g_timeout_sec f) /\
  ((g_timeout_sec f <= 0)%Q -> dial_timeout e = 5 # 1).
Proof.
  intros H files parse f e E.
  unfold client_main, client_config_from_flags in E.
  destruct (init_config_contents _ _ _) as [text| | |]; try discriminate E.
  cbn [bind] in E. destruct (parse text) as [c0|]; [|discriminate E].
  match type of E with context [init_client_defaults ?c] =>
    pose proof (C48_library_defaults H c) as D end.
  cbv zeta in D. destruct D as (D1 & D2 & _). cbn [timeout_sec] in D1, D2.
  destruct (negb _).
  - unfold init_client_tls in E.
    repeat match type of E with
    | bind (bind ?x _) _ = _ => destruct x; cbn [bind] in E; try discriminate E
    end.
    injection E as <-. split; assumption.
  - injection E as <-. split; assumption.
Qed.

(** "A positive timeout in the configuration is used unless the flag is given": false. *)
Theorem C48_config_timeout_refuted :
  ~ forall H files (parse : string -> option (client_config H)) f text c0 e,
      config_text files (g_client_config_file f) (g_client_config f) = Some text ->
      parse text = Some c0 -> (0 < timeout_sec c0)%Q -> g_timeout_sec f = 0%Q ->
      client_main files parse f = Ok e -> dial_timeout e = timeout_sec c0.
Proof.
  intro P.
  pose (c0 := mk_client_config (mk_server_config tt "" (mk_server_auth CREDENTIAL_INSECURE None)
                false 0) None K_BEST_ITEMS 7 "a" "" (30#1)).
  pose (f := mk_client_flags "timeout_sec: 30" "" 0 "" "" "" "").
  specialize (P unit (fun _ => None) (fun _ => Some c0) f _ c0 _ eq_refl eq_refl eq_refl
                eq_refl eq_refl).
  cbn in P. discriminate P.
Qed.

(** The server program: pool size from a positive flag, else from the configuration; address
    or its default; and it always waits for clients. *)
Theorem C48_server_settings : forall H files (parse : string -> option (server_config H)) f
    text c0 e,
  config_text files (f_server_config_file f) (f_server_config f) = Some text ->
  parse text = Some c0 -> server_main files parse f = Ok e ->
  ((0 < f_async_pool_size f)%Z -> listen_pool e = f_async_pool_size f) /\
  ((f_async_pool_size f <= 0)%Z -> listen_pool e = async_pool_size c0) /\
  listen_address e = (if string_dec (address_uri c0) "" then "localhost:50051"
                      else address_uri c0) /\
  listen_wait e = true.
Proof.
  intros H files parse f text c0 e Et Ep E.
  unfold server_main, server_config_from_flags in E.
  rewrite config_contents_text, Et in E. cbn [bind] in E. rewrite Ep in E.
  set (c1 := if (0 <? f_async_pool_size f)%Z then _ else c0) in E.
  assert (A1 : address_uri c1 = address_uri c0)
    by (unfold c1; destruct (_ <? _)%Z; reflexivity).
  assert (A2 : async_pool_size c1 =
     if (0 <? f_async_pool_size f)%Z then f_async_pool_size f else async_pool_size c0)
    by (unfold c1; destruct (_ <? _)%Z; reflexivity).
  assert (G : forall c2 : server_config H, address_uri c2 = address_uri (init_server_defaults c1) ->
     async_pool_size c2 = async_pool_size c1 -> wait_for_clients c2 = true ->
     server_endpoint_of c2 = e ->
     ((0 < f_async_pool_size f)%Z -> listen_pool e = f_async_pool_size f) /\
     ((f_async_pool_size f <= 0)%Z -> listen_pool e = async_pool_size c0) /\
     listen_address e = (if string_dec (address_uri c0) "" then "localhost:50051"
                      else address_uri c0) /\ listen_wait e = true).
  { intros c2 B1 B2 B3 <-. cbn. rewrite B1, B2, A2. cbn. rewrite A1.
    destruct (Z.ltb_spec 0 (f_async_pool_size f)); repeat split; try lia; auto;
      destruct (String.eqb_spec (address_uri c0) ""), (string_dec _ _);
      try reflexivity; congruence. }
  clearbody c1.
  destruct (credential_type (sc_auth (init_server_defaults c1)));
    [| destruct (String.eqb (f_tls_server_key_file f) "") |].
  - injection E as E. eapply G; [..| exact E]; reflexivity.
  - injection E as E. eapply G; [..| exact E]; reflexivity.
  - destruct (init_server_tls _ _ _); try discriminate E. cbn [bind] in E.
    injection E as E. eapply G; [..| exact E]; reflexivity.
  - injection E as E. eapply G; [..| exact E]; reflexivity.
Qed.

(** Defaulting twice is defaulting once (the library client and the main program both call
    it). *)
Theorem C48_defaults_idempotent : forall H (c : client_config H),
  init_client_defaults (init_client_defaults c) = init_client_defaults c.
Proof.
  intros H c. unfold init_client_defaults, init_server_defaults. cbn.
  destruct (String.eqb_spec (address_uri (cc_server c)) "") as [E|E];
  destruct (Qle_bool (timeout_sec c) 0) eqn:T; cbn; rewrite ?T;
  try (destruct (String.eqb_spec (address_uri (cc_server c)) "") as [E'|E']; [congruence|]);
  reflexivity.
Qed.

(** ** Concrete cases meeting the hypotheses *)
Definition ex_files (n : string) : option string :=
  if String.eqb n "key.pem" then Some "KEY" else
  if String.eqb n "cert.pem" then Some "CERT" else
  if String.eqb n "ca.pem" then Some "CA" else
  if String.eqb n "server.cfg" then Some "tls server" else None.
Definition ex_server_parse (s : string) : option (server_config nat) :=
  if String.eqb s "tls server"
  then Some (mk_server_config 3%nat "unix:///tmp/x" (mk_server_auth CREDENTIAL_TLS None) false 2)
  else None.
Definition ex_server_flags :=
  mk_server_flags "ignored" "server.cfg" 8 "key.pem" "cert.pem" "ca.pem" true.
Example ex_server_main :
  server_main ex_files ex_server_parse ex_server_flags =
  Ok (mk_server_endpoint "unix:///tmp/x"
       (ServerSsl (mk_ssl_server REQUEST_AND_REQUIRE_CLIENT_CERTIFICATE_AND_VERIFY true "CA"
                     [("KEY", "CERT")])) 8 true).
Proof. reflexivity. Qed.
Example ex_server_hyps :
  config_text ex_files (f_server_config_file ex_server_flags) (f_server_config ex_server_flags)
    = Some "tls server" /\ ex_server_parse "tls server" <> None /\
  f_tls_server_key_file ex_server_flags <> "".
Proof. repeat split; discriminate. Qed.
Example ex_server_bad_key :
  server_main ex_files ex_server_parse
    (mk_server_flags "" "server.cfg" 8 "missing.pem" "cert.pem" "" true) = Err.
Proof. reflexivity. Qed.
Definition ex_client_parse (s : string) : option (client_config unit) :=
  Some (mk_client_config (mk_server_config tt "" (mk_server_auth CREDENTIAL_INSECURE None)
          false 0) None RANDGEN 0 "ab" "" 0%Q).
Example ex_client_main :
  client_main ex_files ex_client_parse
    (mk_client_flags "x" "" (3#2) "ca.pem" "*.test.example.com" "cert.pem" "key.pem") =
  Ok (mk_client_endpoint "localhost:50051" (ChannelSsl (mk_ssl_client "CA" "CERT" "KEY"))
        (Some "*.test.example.com") (3#2)).
Proof. reflexivity. Qed.

Print Assumptions C43_server_tls.
Print Assumptions C43_server_insecure_iff.
Print Assumptions C43_server_tls_without_section_refuted.
Print Assumptions C43_client_tls.
Print Assumptions C43_client_insecure_iff.
Print Assumptions C43_client_tls_without_section_refuted.
Print Assumptions C43_server_flags.
Print Assumptions C43_server_flags_config.
Print Assumptions C43_server_key_flag_ignored_refuted.
Print Assumptions C43_client_flags.
Print Assumptions C48_library_defaults.
Print Assumptions C48_client_address.
Print Assumptions C48_client_timeout.
Print Assumptions C48_config_timeout_refuted.
Print Assumptions C48_server_settings.
Print Assumptions C48_defaults_idempotent.
