(** C43, continued: what the command lines settle, completely. *)
From Coq Require Import String QArith.
From Verif Require Import Base ConfigModel ConfigProps.
Local Open Scope string_scope.

(** The contents a flag naming a file stands for: the file if the flag is set (and then it must
    be readable), otherwise what the configuration text says. *)
Definition flag_or (files : string -> option string) (flag configured contents : string) : Prop :=
  (flag <> "" /\ files flag = Some contents) \/ (flag = "" /\ contents = configured).

(** What the TLS section of a server configuration says of the certificate authority; nothing
    without a section. *)
Definition configured_ca {H} (c : server_config H) : string :=
  match sa_tls (sc_auth c) with Some t => custom_ca_cert t | None => "" end.

(** The server with a key file flag and a configuration that selects TLS: key and certificate
    come from the files of the flags, the authority that must have signed client certificates
    from --tls_custom_ca_cert_file or else from the configuration, and client certificates are
    demanded exactly when --tls_client_verify says so. *)
Theorem C43_server_flags_authority : forall H files (parse : string -> option (server_config H)) f
    text c0 e,
  config_text files (f_server_config_file f) (f_server_config f) = Some text ->
  parse text = Some c0 -> credential_type (sc_auth c0) = CREDENTIAL_TLS ->
  f_tls_server_key_file f <> "" ->
  server_main files parse f = Ok e ->
  exists o, listen_creds e = ServerSsl o /\
    flag_or files (f_tls_custom_ca_cert_file f) (configured_ca c0) (ss_pem_root_certs o) /\
    force_client_auth o = f_tls_client_verify f.
Proof.
  intros H files parse f text c0 e Et Ep Ec Ek E.
  unfold server_main, server_config_from_flags in E.
  rewrite config_contents_text, Et in E. cbn [bind] in E. rewrite Ep in E.
  set (c1 := if (0 <? f_async_pool_size f)%Z then _ else c0) in E.
  assert (A : sc_auth c1 = sc_auth c0) by (unfold c1; destruct (_ <? _)%Z; reflexivity).
  cbn [init_server_defaults sc_auth] in E. rewrite A, Ec in E.
  destruct (String.eqb_spec (f_tls_server_key_file f) "") as [|_]; [contradiction|].
  unfold init_server_tls, read_file in E.
  destruct (files (f_tls_server_key_file f)) as [key|]; [|discriminate].
  destruct (files (f_tls_server_cert_file f)) as [cert|]; [|discriminate].
  cbn [bind] in E. unfold flag_or, configured_ca.
  assert (M : custom_ca_cert (mutable_server_tls (sc_auth c0)) =
              match sa_tls (sc_auth c0) with Some t => custom_ca_cert t | None => "" end).
  { unfold mutable_server_tls. destruct (sa_tls (sc_auth c0)); reflexivity. }
  assert (R : forall ca : string, (if String.eqb ca "" then "" else ca) = ca).
  { intro ca. destruct (String.eqb_spec ca ""); congruence. }
  destruct (String.eqb_spec (f_tls_custom_ca_cert_file f) "") as [Z|N].
  - cbn [bind] in E. injection E as <-. eexists. split; [reflexivity|].
    cbn [ss_pem_root_certs force_client_auth custom_ca_cert client_verify]. rewrite R, M. auto.
  - destruct (files (f_tls_custom_ca_cert_file f)) as [ca|]; [|discriminate E].
    cbn [bind] in E. injection E as <-. eexists. split; [reflexivity|].
    cbn [ss_pem_root_certs force_client_auth custom_ca_cert client_verify]. rewrite R. auto.
Qed.
Print Assumptions C43_server_flags_authority.

(** What the configuration text says of the client's own certificate, key and target name. *)
Definition configured_client {H} (get : client_tls -> string) (c : client_config H) : string :=
  match cc_auth c with Some t => get t | None => "" end.

(** The client with a server certificate flag: the channel trusts the contents of that file,
    presents the certificate and key of their flags or else of the configuration, and overrides
    the target name with that of --tls_target_name_override, dropping the configured one. *)
Theorem C43_client_flags_complete : forall H files (parse : string -> option (client_config H)) f
    text c0 e,
  config_text files (g_client_config_file f) (g_client_config f) = Some text ->
  parse text = Some c0 -> g_tls_server_cert_file f <> "" ->
  client_main files parse f = Ok e ->
  exists root cert key,
    files (g_tls_server_cert_file f) = Some root /\
    flag_or files (g_tls_client_cert_file f) (configured_client client_cert c0) cert /\
    flag_or files (g_tls_client_key_file f) (configured_client client_key c0) key /\
    client_trusts root (dial_creds e) /\ client_presents cert key (dial_creds e) /\
    dial_override e = (if string_dec (g_tls_target_name_override f) "" then None
                       else Some (g_tls_target_name_override f)).
Proof.
  intros H files parse f text c0 e Et Ep Ek E.
  unfold client_main, client_config_from_flags in E.
  rewrite config_contents_text, Et in E. cbn [bind] in E. rewrite Ep in E.
  destruct (String.eqb_spec (g_tls_server_cert_file f) "") as [|_]; [contradiction|].
  cbn [negb] in E. unfold init_client_tls, read_file in E.
  destruct (files (g_tls_server_cert_file f)) as [root|]; [|discriminate E]. cbn [bind] in E.
  cbn [init_client_defaults cc_auth cc_server] in E.
  assert (Mc : client_cert (match cc_auth c0 with Some t => t | None => empty_client_tls end) =
               configured_client client_cert c0).
  { unfold configured_client. destruct (cc_auth c0); reflexivity. }
  assert (Mk : client_key (match cc_auth c0 with Some t => t | None => empty_client_tls end) =
               configured_client client_key c0).
  { unfold configured_client. destruct (cc_auth c0); reflexivity. }
  rewrite Mc, Mk in E. apply bind_Ok in E. destruct E as [c [E Ee]]. injection Ee as <-.
  apply bind_Ok in E. destruct E as [cert [Ecert E]]. apply bind_Ok in E. destruct E as [key [Ekey E]].
  injection E as <-. exists root, cert, key. split; [reflexivity|].
  split.
  { unfold flag_or. destruct (String.eqb_spec (g_tls_client_cert_file f) "") as [Z|N].
    - injection Ecert as <-. auto.
    - destruct (files (g_tls_client_cert_file f)); [|discriminate Ecert]. injection Ecert as <-. auto. }
  split.
  { unfold flag_or. destruct (String.eqb_spec (g_tls_client_key_file f) "") as [Z|N].
    - injection Ekey as <-. auto.
    - destruct (files (g_tls_client_key_file f)); [|discriminate Ekey]. injection Ekey as <-. auto. }
  split; [eexists; split; reflexivity|]. split; [eexists; repeat split; reflexivity|].
  cbn. destruct (String.eqb_spec (g_tls_target_name_override f) ""), (string_dec (g_tls_target_name_override f) "");
    congruence.
Qed.
Print Assumptions C43_client_flags_complete.

(** With no server certificate flag the configuration text decides alone. *)
Theorem C43_client_flags_config : forall H files (parse : string -> option (client_config H)) f
    text c0,
  config_text files (g_client_config_file f) (g_client_config f) = Some text ->
  parse text = Some c0 -> g_tls_server_cert_file f = "" ->
  exists e, client_main files parse f = Ok e /\
            (dial_creds e, dial_override e) = build_channel_credentials c0.
Proof.
  intros H files parse f text c0 Et Ep Ek.
  unfold client_main, client_config_from_flags.
  rewrite config_contents_text, Et. cbn [bind]. rewrite Ep, Ek. cbn [String.eqb negb bind].
  eexists. split; [reflexivity|]. unfold client_endpoint_of, build_channel_credentials.
  cbn [dial_creds dial_override cc_server cc_auth init_client_defaults init_server_defaults sc_auth].
  destruct (credential_type (sc_auth (cc_server c0))), (sa_tls (sc_auth (cc_server c0))), (cc_auth c0); reflexivity.
Qed.
Print Assumptions C43_client_flags_config.

(** Both programs started with the same --tls_server_cert_file (self-signed): the client trusts
    exactly the certificate the server presents; and if the client's certificate file is also
    the server's certificate authority, the server accepts exactly that certificate. *)
Theorem C43_both_ends_agree : forall H files (sparse : string -> option (server_config H))
    (cparse : string -> option (client_config H)) sf cf stext sc0 ctext cc0 se ce,
  config_text files (f_server_config_file sf) (f_server_config sf) = Some stext ->
  sparse stext = Some sc0 -> credential_type (sc_auth sc0) = CREDENTIAL_TLS ->
  config_text files (g_client_config_file cf) (g_client_config cf) = Some ctext ->
  cparse ctext = Some cc0 ->
  f_tls_server_key_file sf <> "" -> f_tls_server_cert_file sf <> "" ->
  g_tls_server_cert_file cf = f_tls_server_cert_file sf ->
  server_main files sparse sf = Ok se -> client_main files cparse cf = Ok ce ->
  exists key cert,
    server_presents key cert (listen_creds se) /\ client_trusts cert (dial_creds ce) /\
    (f_tls_custom_ca_cert_file sf <> "" -> g_tls_client_cert_file cf = f_tls_custom_ca_cert_file sf ->
     exists o ckey, listen_creds se = ServerSsl o /\
       client_presents (ss_pem_root_certs o) ckey (dial_creds ce)).
Proof.
  intros H files sparse cparse sf cf stext sc0 ctext cc0 se ce Ht Hp Hc Ht' Hp' Hk Hs Heq Es Ec.
  destruct (C43_server_flags H files sparse sf stext sc0 se Ht Hp Hc Hk Es) as (key & cert & F1 & F2 & P & _).
  destruct (C43_server_flags_authority H files sparse sf stext sc0 se Ht Hp Hc Hk Es) as (o & Eo & Fl & _).
  destruct (C43_client_flags_complete H files cparse cf ctext cc0 ce Ht' Hp' ltac:(congruence) Ec)
    as (root & ccert & ckey & G1 & G2 & G3 & T & Q & _).
  exists key, cert. split; [exact P|]. split.
  { replace cert with root by congruence. exact T. }
  intros N En. exists o, ckey. split; [exact Eo|].
  destruct Fl as [[_ Fl]|[Z _]]; [|contradiction]. destruct G2 as [[_ G2]|[Z _]]; [|congruence].
  replace (ss_pem_root_certs o) with ccert by congruence. exact Q.
Qed.
Print Assumptions C43_both_ends_agree.

(** The configured target name is dropped as soon as the server certificate comes from a flag. *)
Theorem C43_configured_target_dropped_refuted :
  exists (files : string -> option string) (parse : string -> option (client_config unit)) f c0 e t,
    parse "" = Some c0 /\ cc_auth c0 = Some t /\ target_name_override t = "*.test" /\
    g_client_config f = "" /\ g_client_config_file f = "" /\
    client_main files parse f = Ok e /\ dial_override e = None.
Proof.
  set (c0 := mk_client_config (mk_server_config tt "" (mk_server_auth CREDENTIAL_INSECURE None) false 0)
               (Some (mk_client_tls "*.test" "" "")) RANDGEN 0 "" "" 0%Q).
  exists (fun _ => Some "CERT"), (fun _ => Some c0), (mk_client_flags "" "" 1 "cert.pem" "" "" ""), c0.
  eexists. exists (mk_client_tls "*.test" "" ""). repeat split; reflexivity.
Qed.
Print Assumptions C43_configured_target_dropped_refuted.

(** ** A case that meets the hypotheses *)

Example C43_both_ends_example :
  exists se ce o,
    server_main ex_files ex_server_parse ex_server_flags = Ok se /\
    client_main ex_files ex_client_parse
      (mk_client_flags "x" "" 1 (f_tls_server_cert_file ex_server_flags) "t" "ca.pem" "key.pem") = Ok ce /\
    listen_creds se = ServerSsl o /\ ss_pem_root_certs o = "CA" /\
    client_trusts "CERT" (dial_creds ce) /\ client_presents "CA" "KEY" (dial_creds ce).
Proof.
  eexists _, _, _. split; [reflexivity|]. split; [reflexivity|]. split; [reflexivity|].
  split; [reflexivity|]. split; eexists; repeat split; reflexivity.
Qed.
