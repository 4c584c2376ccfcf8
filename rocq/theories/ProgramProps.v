(** Property C70: the two programs, from the command line to the printed result and the exit code. *)
From Coq Require Import Reals String Ascii QArith.
From Verif Require Import Base Field FieldR LmModel TextModel HubModel FactoryModel ConfigModel ConfigProps.
From Verif Require Import ServerModel ServerSim HubLive2 FactoryProps FactoryProps2 FactoryProps3 HubVocab FactoryVocabProps.
From Verif Require Import ClientModel ClientSpec ClientProofs ClientBits ClientProps ClientProps2 ClientServe ClientServeBits ConnectModel FactoryProps7 ProgramModel.
Local Open Scope Z_scope.
Close Scope string_scope.
Local Notation length := List.length.
Local Notation hub_config := FactoryModel.model_hub_config.

Definition text_files (files : string -> option bytes) : string -> option string := fun p => option_map string_of_list_ascii (files p).
Definition disk_texts {F : ofield} (d : disk F) : string -> option string := fun p => option_map (fun x => string_of_list_ascii (f_bytes x)) (d p).

(** ** The server program *)

(** It serves exactly when its configuration can be read, every model in it can be loaded and gRPC can listen; it then
    listens where and with the credentials the configuration says, on the hub of the loaded models.  Otherwise it ends
    with exit code 1, unless loading a model crashes (C19, C08). *)
Theorem C70_server : forall (F : ofield) ext (d : disk F) parse starts f,
  (forall e h, server_program ext d parse starts f = Ok (Serving e h) <->
     exists c, server_config_from_flags (disk_texts d) parse f = Ok c /\ starts = true /\
       make_model_hub ext d (ConfigModel.model_hub_config c) = Ok h /\ e = server_endpoint_of c) /\
  (forall code, server_program ext d parse starts f = Ok (Exited code) <->
     code = 1 /\ (server_config_from_flags (disk_texts d) parse f = Err \/
       exists c, server_config_from_flags (disk_texts d) parse f = Ok c /\
         (make_model_hub ext d (ConfigModel.model_hub_config c) = Err \/
          starts = false /\ exists h, make_model_hub ext d (ConfigModel.model_hub_config c) = Ok h))).
Proof.
  intros F ext d parse starts f. unfold server_program. fold (disk_texts d).
  assert (W : forall c, server_config_from_flags (disk_texts d) parse f = Ok c -> wait_for_clients c = true).
  { intros c E. unfold server_config_from_flags in E. apply bind_Ok in E. destruct E as (text & _ & E).
    destruct (parse text) as [c0|]; [|discriminate E]. cbn [init_server_defaults sc_auth wait_for_clients] in E.
    destruct (credential_type _); [injection E as <-; reflexivity| |injection E as <-; reflexivity].
    destruct (String.eqb _ _); [injection E as <-; reflexivity|]. apply bind_Ok in E. destruct E as (t & _ & E). injection E as <-. reflexivity. }
  destruct (server_config_from_flags (disk_texts d) parse f) as [c| | |] eqn:E.
  - unfold run_server, helper_init. rewrite (W c eq_refl).
    destruct (make_model_hub ext d (ConfigModel.model_hub_config c)) as [h| | |] eqn:Eh; cbn [bind negb].
    + destruct starts; cbn [negb helper_run bind].
      * split.
        -- intros e h1. split; [intros [= <- <-]; eauto|]. intros (c1 & [= <-] & _ & E1 & ->). rewrite Eh in E1. injection E1 as <-. reflexivity.
        -- intros code. split; [discriminate|]. intros (_ & [K|(c1 & [= <-] & [K|(K & _)])]); [discriminate K|rewrite Eh in K; discriminate K|discriminate K].
      * split.
        -- intros e h1. split; [discriminate|]. intros (c1 & _ & K & _). discriminate K.
        -- intros code. split; [intros [= <-]; split; [reflexivity|]; right; eauto 8|]. intros (-> & _). reflexivity.
    + split.
      * intros e h1. split; [discriminate|]. intros (c1 & [= <-] & _ & K & _). rewrite Eh in K. discriminate K.
      * intros code. split; [intros [= <-]; split; [reflexivity|]; right; eauto|]. intros (-> & _). reflexivity.
    + split.
      * intros e h1. split; [discriminate|]. intros (c1 & [= <-] & _ & K & _). rewrite Eh in K. discriminate K.
      * intros code. split; [discriminate|]. intros (_ & [K|(c1 & [= <-] & [K|(_ & h1 & K)])]); [discriminate K|rewrite Eh in K; discriminate K..].
    + split.
      * intros e h1. split; [discriminate|]. intros (c1 & [= <-] & _ & K & _). rewrite Eh in K. discriminate K.
      * intros code. split; [discriminate|]. intros (_ & [K|(c1 & [= <-] & [K|(_ & h1 & K)])]); [discriminate K|rewrite Eh in K; discriminate K..].
  - split; [intros e h1; split; [discriminate|intros (c1 & K & _); discriminate K]|].
    intros code. split; [intros [= <-]; auto|intros (-> & _); reflexivity].
  - split; [intros e h1; split; [discriminate|intros (c1 & K & _); discriminate K]|].
    intros code. split; [discriminate|intros (_ & [K|(c1 & K & _)]); discriminate K].
  - split; [intros e h1; split; [discriminate|intros (c1 & K & _); discriminate K]|].
    intros code. split; [discriminate|intros (_ & [K|(c1 & K & _)]); discriminate K].
Qed.
Print Assumptions C70_server.

(** ** The client program *)
Section Client.
  Context {F : ofield} {W H B : Type}.
  Variable sort : list (car F * string) -> list (car F * string).
  Variable unicode : string -> list Z.
  Variable bits : option (server F W) -> W -> option bytes -> outcome (Z * Z * option B) * W.
  Variables (show_int : Z -> string) (show_prob : car F -> string) (show_bits : option B -> string).
  Notation client := (client_program (H := H) sort unicode bits show_int show_prob show_bits).

  (** Exit code 0 and one text printed, or exit code 1 and nothing printed. *)
  Theorem C70_exit_code : forall fuel draws files parse net w f code out w',
    client fuel draws files parse net w f = Some (Ok (code, out), w') ->
    (code = 0 /\ exists text, out = [text]) \/ (code = 1 /\ out = []).
  Proof.
    intros fuel draws files parse net w f code out w' E. unfold client_program in E.
    destruct (client_config_from_flags _ parse f) as [c| | |]; [|injection E as <- <- _; auto|discriminate E..].
    destruct (run_client _ _ _ _ _ _ _ _ _ _ _ _) as [[[text| | |] w1]|]; cbn in E; try discriminate E; injection E as <- <- _; eauto.
  Qed.

  (** A configuration that cannot be read, or a request type that is not set or unknown: exit code 1, and no server is
      contacted. *)
  Theorem C70_bad_request : forall fuel draws files parse net w f,
    (client_config_from_flags (text_files files) parse f = Err \/
     exists c, client_config_from_flags (text_files files) parse f = Ok c /\
       request_type c <> RANDGEN /\ request_type c <> K_BEST_ITEMS /\ request_type c <> BITS_PER_CHAR) ->
    client fuel draws files parse net w f = Some (Ok (1, []), w).
  Proof.
    intros fuel draws files parse net w f K. unfold client_program. fold (text_files files).
    destruct K as [->|(c & -> & K1 & K2 & K3)]; [reflexivity|]. unfold run_client.
    destruct (request_type c); try contradiction; reflexivity.
  Qed.

  (** The text of the k best: the number, then every symbol with its probability. *)
  Lemma kbest_text_spec k best : kbest_text show_int show_prob k best =
    (show_int k ++ "-best prob continuations:" ++ concat_all (map (fun e => " " ++ snd e ++ "(" ++ show_prob (fst e) ++ ")") best))%string.
  Proof.
    assert (G : forall l r, fold_left (fun r e => (r ++ " " ++ snd e ++ "(" ++ show_prob (fst e) ++ ")")%string) l r =
                            (r ++ concat_all (map (fun e => " " ++ snd e ++ "(" ++ show_prob (fst e) ++ ")") l))%string).
    { induction l as [|e l IH]; intros r; cbn [fold_left map concat_all]; [rewrite append_nil_r; reflexivity|]. rewrite IH. rewrite !append_assoc. reflexivity. }
    unfold kbest_text. rewrite G, append_assoc. reflexivity.
  Qed.

  (** No server running, another address, or credentials on one end only: exit code 1, nothing printed, nothing
      learned by any server. *)
  Theorem C70_unreachable : forall fuel draws files parse handshake running srv w f c,
    client_config_from_flags (text_files files) parse f = Ok c ->
    (forall se, running = Some se -> connects handshake se (client_endpoint_of c) = false) ->
    request_type c <> BITS_PER_CHAR ->
    client fuel draws files parse (network handshake running srv) w f = Some (Ok (1, []), w).
  Proof.
    intros fuel draws files parse handshake running srv w f c E K N. unfold client_program. fold (text_files files). rewrite E.
    assert (D : network handshake running srv (client_endpoint_of c) = dead).
    { unfold network. destruct running as [se|]; [|reflexivity]. rewrite (K se eq_refl). reflexivity. }
    rewrite D. unfold run_client. destruct (request_type c); try reflexivity; contradiction.
  Qed.

  Lemma client_runs fuel draws files parse handshake se srv w f c :
    client_config_from_flags (text_files files) parse f = Ok c -> connects handshake se (client_endpoint_of c) = true ->
    client fuel draws files parse (network handshake (Some se) srv) w f =
    option_map (fun r => (match fst r with Ok text => Ok (0, [text]) | Err => Ok (1, []) | Crash => Crash | UB => UB end, snd r))
      (run_client sort unicode bits show_int show_prob show_bits fuel draws files srv w c).
  Proof. intros E K. unfold client_program. fold (text_files files). rewrite E. unfold network. rewrite K. reflexivity. Qed.
End Client.
Print Assumptions C70_exit_code.
Print Assumptions C70_bad_request.
Print Assumptions C70_unreachable.

(** ** Who can talk to whom *)

(** The two ends connect if the configurations name the same address and neither selects TLS, in particular with no
    configuration at all (both then use the default address); they do not connect when the addresses differ, or when
    just one end has credentials. *)
Theorem C70_connect : forall Hs Hc sfiles (sparse : string -> option (server_config Hs)) sf stext sc0 sc
    cfiles (cparse : string -> option (client_config Hc)) cf ctext cc0 cc handshake,
  config_text sfiles (f_server_config_file sf) (f_server_config sf) = Some stext -> sparse stext = Some sc0 ->
  config_text cfiles (g_client_config_file cf) (g_client_config cf) = Some ctext -> cparse ctext = Some cc0 ->
  server_config_from_flags sfiles sparse sf = Ok sc -> client_config_from_flags cfiles cparse cf = Ok cc ->
  let address a := if string_dec a "" then "localhost:50051"%string else a in
  let up := connects handshake (server_endpoint_of sc) (client_endpoint_of cc) in
  (address (address_uri sc0) = address (address_uri (cc_server cc0)) ->
   credential_type (sc_auth sc0) <> CREDENTIAL_TLS -> credential_type (sc_auth (cc_server cc0)) <> CREDENTIAL_TLS ->
   g_tls_server_cert_file cf = ""%string -> up = true) /\
  (address (address_uri sc0) <> address (address_uri (cc_server cc0)) -> up = false) /\
  (credential_type (sc_auth sc0) <> CREDENTIAL_TLS -> g_tls_server_cert_file cf <> ""%string -> up = false) /\
  (credential_type (sc_auth sc0) = CREDENTIAL_TLS -> f_tls_server_key_file sf <> ""%string ->
   credential_type (sc_auth (cc_server cc0)) <> CREDENTIAL_TLS -> g_tls_server_cert_file cf = ""%string -> up = false).
Proof.
  intros Hs Hc sfiles sparse sf stext sc0 sc cfiles cparse cf ctext cc0 cc handshake Et Ep Et' Ep' Es Ec address up.
  assert (Ad : forall a, (if String.eqb a "" then kDefaultServerAddress else a) = address a).
  { intros a. unfold address. destruct (String.eqb_spec a ""), (string_dec a ""); first [reflexivity|congruence]. }
  assert (S : address_uri sc = address (address_uri sc0) /\
     ((credential_type (sc_auth sc0) <> CREDENTIAL_TLS -> build_server_credentials sc = ServerInsecure) /\
      (credential_type (sc_auth sc0) = CREDENTIAL_TLS -> f_tls_server_key_file sf <> ""%string -> exists o, build_server_credentials sc = ServerSsl o))).
  { unfold server_config_from_flags in Es. rewrite config_contents_text, Et in Es. cbn [bind] in Es. rewrite Ep in Es.
    set (c1 := if (0 <? f_async_pool_size sf)%Z then _ else sc0) in Es.
    assert (A1 : sc_auth c1 = sc_auth sc0) by (unfold c1; destruct (_ <? _); reflexivity).
    assert (A2 : address_uri c1 = address_uri sc0) by (unfold c1; destruct (_ <? _); reflexivity).
    cbn [init_server_defaults sc_auth] in Es. rewrite A1 in Es. unfold build_server_credentials.
    destruct (credential_type (sc_auth sc0)) eqn:Et0.
    - injection Es as <-. cbn [address_uri sc_auth init_server_defaults]. rewrite A1, A2, Et0. split; [apply Ad|]. split; [reflexivity|discriminate].
    - destruct (String.eqb_spec (f_tls_server_key_file sf) "") as [Ek|Ek].
      + injection Es as <-. cbn [address_uri sc_auth init_server_defaults]. rewrite A2. split; [apply Ad|]. split; [contradiction|]. intros _ K. contradiction.
      + apply bind_Ok in Es. destruct Es as (t & _ & Es). injection Es as <-. cbn [address_uri init_server_defaults sc_auth credential_type sa_tls]. rewrite A2.
        split; [apply Ad|]. split; [contradiction|]. intros _ _. unfold build_ssl_server_credentials. eauto.
    - injection Es as <-. cbn [address_uri sc_auth init_server_defaults]. rewrite A1, A2, Et0. split; [apply Ad|]. split; [reflexivity|discriminate]. }
  assert (C : address_uri (cc_server cc) = address (address_uri (cc_server cc0)) /\
     ((g_tls_server_cert_file cf = ""%string -> credential_type (sc_auth (cc_server cc0)) <> CREDENTIAL_TLS -> fst (build_channel_credentials cc) = ChannelInsecure) /\
      (g_tls_server_cert_file cf <> ""%string -> exists o, fst (build_channel_credentials cc) = ChannelSsl o))).
  { unfold client_config_from_flags in Ec. rewrite config_contents_text, Et' in Ec. cbn [bind] in Ec. rewrite Ep' in Ec.
    destruct (String.eqb_spec (g_tls_server_cert_file cf) "") as [Ek|Ek]; cbn [negb] in Ec.
    - injection Ec as <-. cbn [init_client_defaults init_server_defaults cc_server address_uri]. split; [apply Ad|]. split; [|contradiction].
      intros _ K. unfold build_channel_credentials. cbn [cc_server sc_auth init_client_defaults init_server_defaults]. destruct (credential_type (sc_auth (cc_server cc0))); [reflexivity|contradiction|reflexivity].
    - unfold init_client_tls in Ec. apply bind_Ok in Ec. destruct Ec as (x & _ & Ec). apply bind_Ok in Ec. destruct Ec as (y & _ & Ec).
      apply bind_Ok in Ec. destruct Ec as (z & _ & Ec). injection Ec as <-.
      cbn [init_client_defaults init_server_defaults cc_server address_uri]. split; [apply Ad|]. split; [contradiction|].
      intros _. unfold build_channel_credentials. cbn [cc_server sc_auth credential_type sa_tls cc_auth]. eexists. reflexivity. }
  destruct S as (S1 & S2 & S3), C as (C1 & C2 & C3). unfold up, connects, server_endpoint_of, client_endpoint_of.
  cbn [listen_address listen_creds dial_address dial_creds dial_override]. rewrite S1, C1. split; [|split; [|split]].
  - intros A K1 K2 K3. rewrite A, String.eqb_refl, (S2 K1), (C2 K3 K2). reflexivity.
  - intros A. destruct (String.eqb_spec (address (address_uri sc0)) (address (address_uri (cc_server cc0)))); [contradiction|reflexivity].
  - intros K1 K2. rewrite (S2 K1). destruct (C3 K2) as (o & ->). destruct (String.eqb _ _); reflexivity.
  - intros K1 K2 K3 K4. destruct (S3 K1 K2) as (o & ->). rewrite (C2 K4 K3). destruct (String.eqb _ _); reflexivity.
Qed.
Print Assumptions C70_connect.

(** ** Both programs together *)

(** A server program that serves properly made models (C66): see [steady] for the configurations, [well_made] for
    the files; no symbol of the models takes more than [m] bytes. *)
Record serves_well {F : ofield} (ext : externals F) (d : disk F) sparse sf (c : server_config (hub_config F)) (b : Z)
    (se : server_endpoint) (h0 : hub F (any_model F)) (unicode : string -> list Z) (encode : str -> string) (m : nat) : Prop := {
  sw_up : server_program ext d sparse true sf = Ok (Serving se h0);
  sw_config : server_config_from_flags (disk_texts d) sparse sf = Ok c;
  sw_ext : externals_ok ext;
  sw_models : mh_models (ConfigModel.model_hub_config c) <> [];
  sw_made : Forall2 (well_made ext d b) (mh_models (ConfigModel.model_hub_config c)) (h_lms h0);
  sw_steady : steady (ConfigModel.model_hub_config c);
  sw_max : h_max h0 <= 2 ^ 31;
  sw_unicode : forall s, (length (unicode s) <= String.length s)%nat;
  sw_pos : forall s x, In x (unicode s) -> 0 <= x;
  sw_short : forall m0 k, In m0 (consulted (ConfigModel.model_hub_config c) (h_lms h0)) -> In k (vocabulary m0) -> (String.length (encode k) <= m)%nat }.

Lemma sw_hub {F : ofield} ext (d : disk F) sparse sf c b se h0 unicode encode m :
  serves_well ext d sparse sf c b se h0 unicode encode m -> make_model_hub ext d (ConfigModel.model_hub_config c) = Ok h0.
Proof.
  intros S. pose proof (sw_up _ _ _ _ _ _ _ _ _ _ _ S) as E. apply C70_server in E. destruct E as (c' & E1 & _ & E2 & _).
  rewrite (sw_config _ _ _ _ _ _ _ _ _ _ _ S) in E1. injection E1 as <-. exact E2.
Qed.

(** The k best: the client program ends with exit code 0 and prints the k most probable continuations of the context,
    most probable first, whatever the server was asked and taught before ([l]). *)
Theorem C70_k_best : forall (F : ofield) H B ext (d : disk F) sparse sf c b se h0 unicode encode m,
  serves_well ext d sparse sf c b se h0 unicode encode m ->
  forall sort bits (show_int : Z -> string) show_prob (show_bits : option B -> string) fuel draws files cparse handshake cf (cc : client_config H),
  sort_spec sort -> client_config_from_flags (text_files files) cparse cf = Ok cc ->
  connects handshake se (client_endpoint_of cc) = true -> request_type cc = K_BEST_ITEMS ->
  forall l rs h, handle_all any_ops h0 l = Ok (rs, h) -> reqs_cost l <= b ->
  exists sc h', handle any_ops h (GetLMScoresReq (-1) (unicode (context_string cc))) = Ok (ScoresReply sc, h') /\ sc_entries sc <> [] /\
    forall k, k_best cc = Z.of_nat k -> (k <= length (sc_entries sc))%nat -> exists best rest,
      client_program sort unicode bits show_int show_prob show_bits fuel draws files cparse
        (network handshake (Some se) (connect any_ops unicode encode)) h cf =
      Some (Ok (0, [(show_int (Z.of_nat k) ++ "-best prob continuations:" ++
                     concat_all (map (fun e => " " ++ snd e ++ "(" ++ show_prob (fst e) ++ ")") best))%string]), h') /\
      length best = k /\ Permutation (client_view encode (sc_entries sc)) (best ++ rest) /\
      StronglySorted (fun x y => fle (fst y) (fst x) = true) best /\
      (forall x y, In x best -> In y rest -> fle (fst y) (fst x) = true).
Proof.
  intros F H B ext d sparse sf c b se h0 unicode encode m S sort bits show_int show_prob show_bits fuel draws files cparse handshake cf cc
    Hs Ec Cn Rt l rs h El Hc.
  pose proof (sw_hub _ _ _ _ _ _ _ _ _ _ _ S) as Em. destruct S as [S1 S2 S3 S4 S5 S6 S7 S8 S9 S10].
  destruct (C66_k_best ext d _ b h0 S3 S4 Em S5 S6 unicode encode m S8 S9 S10 sort Hs l rs h (context_string cc) El Hc) as (sc & h' & E1 & E2 & E3).
  exists sc, h'. split; [exact E1|]. split; [exact E2|]. intros k Ek Hk. destruct (E3 k Hk) as (best & rest & K1 & K2 & K3 & K4 & K5).
  exists best, rest. split; [|auto]. erewrite client_runs; [|exact Ec|exact Cn]. unfold run_client. rewrite Rt, Ek, K1. cbn [option_map fst snd bind].
  rewrite kbest_text_spec. reflexivity.
Qed.
Print Assumptions C70_k_best.

(** Asking for more than the server offers reads past the end of a vector (client_helper.cc:236). *)
Theorem C70_k_best_too_many_refuted : forall (F : ofield) H B ext (d : disk F) sparse sf c b se h0 unicode encode m,
  serves_well ext d sparse sf c b se h0 unicode encode m ->
  forall sort bits (show_int : Z -> string) show_prob (show_bits : option B -> string) fuel draws files cparse handshake cf (cc : client_config H),
  sort_spec sort -> client_config_from_flags (text_files files) cparse cf = Ok cc ->
  connects handshake se (client_endpoint_of cc) = true -> request_type cc = K_BEST_ITEMS ->
  forall l rs h, handle_all any_ops h0 l = Ok (rs, h) -> reqs_cost l <= b ->
  exists sc h', handle any_ops h (GetLMScoresReq (-1) (unicode (context_string cc))) = Ok (ScoresReply sc, h') /\
    (Z.of_nat (length (sc_entries sc)) < k_best cc ->
     client_program sort unicode bits show_int show_prob show_bits fuel draws files cparse
        (network handshake (Some se) (connect any_ops unicode encode)) h cf = Some (UB, h')).
Proof.
  intros F H B ext d sparse sf c b se h0 unicode encode m S sort bits show_int show_prob show_bits fuel draws files cparse handshake cf cc
    Hs Ec Cn Rt l rs h El Hc.
  pose proof (sw_hub _ _ _ _ _ _ _ _ _ _ _ S) as Em. destruct S as [S1 S2 S3 S4 S5 S6 S7 S8 S9 S10].
  destruct (call_scores ext d _ b h0 S3 S4 Em S5 S6 unicode encode m S8 S9 S10 l rs h (-1) (context_string cc) El Hc (or_intror (start_given b unicode S9 l rs)))
    as (sc & r & h' & Eh & Er & Ecall & Fr).
  exists sc, h'. split; [exact Eh|]. intros Hk.
  assert (Len : length (msg_probs r) = length (sc_entries sc)).
  { unfold msg_of in Er. destruct (sc_norm sc); [|discriminate Er]. destruct (numbers (map snd (sc_entries sc))) as [ps|] eqn:En; [|discriminate Er].
    injection Er as <-. cbn [msg_probs]. clear - En. revert ps En. induction (sc_entries sc) as [|[k v] t IH]; intros ps; cbn [map numbers snd].
    - intros [= <-]. reflexivity.
    - destruct v as [x|]; [|discriminate]. destruct (numbers (map snd t)) as [qs|]; [|discriminate]. intros [= <-]. cbn [length]. f_equal. apply IH. reflexivity. }
  erewrite client_runs; [|exact Ec|exact Cn]. unfold run_client. rewrite Rt.
  rewrite (C46_too_many_refuted sort Hs (connect any_ops unicode encode) h (k_best cc) (context_string cc) r h' Ecall (fr_form Fr) (fr_norm Fr)) by (rewrite Len; lia).
  reflexivity.
Qed.
Print Assumptions C70_k_best_too_many_refuted.

(** Random generation: exit code 0, and the text printed is the context followed by symbols each selected by its draw
    from what the server offers, if the state pool has room for 128 bytes and the longest symbol. *)
Theorem C70_rand_gen_partial : forall (F : ofield) H B ext (d : disk F) sparse sf c b se h0 unicode encode m,
  serves_well ext d sparse sf c b se h0 unicode encode m ->
  forall sort bits (show_int : Z -> string) show_prob (show_bits : option B -> string) draws files cparse handshake cf (cc : client_config H),
  sort_spec sort -> client_config_from_flags (text_files files) cparse cf = Ok cc ->
  connects handshake se (client_endpoint_of cc) = true -> request_type cc = RANDGEN ->
  forall l rs h, handle_all any_ops h0 l = Ok (rs, h) -> reqs_cost l + Z.of_nat (128 + m) <= b ->
  Z.of_nat (1 + traffic l + length (unicode (context_string cc)) + 4 * (128 + m)) < h_max h0 ->
  exists ss e st r w2 h' n,
    (forall fuel, (128 <= fuel)%nat ->
      client_program sort unicode bits show_int show_prob show_bits fuel draws files cparse
        (network handshake (Some se) (connect any_ops unicode encode)) h cf =
      Some (Ok (0, [(context_string cc ++ concat_all ss ++ note e)%string]), h')) /\
    (e = EndOfText \/ e = LimitReached) /\
    opens (connect any_ops unicode encode) h (context_string cc) st r w2 /\
    generates (connect any_ops unicode encode) unicode (rank_by sort) draws w2 st r 0 128 ss e h' n.
Proof.
  intros F H B ext d sparse sf c b se h0 unicode encode m S sort bits show_int show_prob show_bits draws files cparse handshake cf cc
    Hs Ec Cn Rt l rs h El Hc Rm.
  pose proof (sw_hub _ _ _ _ _ _ _ _ _ _ _ S) as Em. destruct S as [S1 S2 S3 S4 S5 S6 S7 S8 S9 S10].
  destruct (C66_rand_gen_partial ext d _ b h0 S3 S4 Em S5 S6 S7 unicode encode m S8 S9 S10 sort Hs draws l rs h (context_string cc) El Hc Rm)
    as (R & ss & e & st & r & w2 & K1 & K2 & K3 & K4 & K5 & K6).
  exists ss, e, st, r, w2, (rg_world R), (rg_draws R). split; [|auto]. intros fuel Hf.
  erewrite client_runs; [|exact Ec|exact Cn]. unfold run_client. rewrite Rt, (K1 fuel Hf). cbn [option_map fst snd]. rewrite K2. cbn [bind]. rewrite K4. reflexivity.
Qed.
Print Assumptions C70_rand_gen_partial.

(** Bits per character, over the real numbers: exit code 0 and a positive number of at most log2 (143859 / eps) bits
    printed for every test corpus with at least one line, if the pool has room for its characters. *)
Theorem C70_bits_partial : forall H ext (d : disk R_field) sparse sf c b se h0 unicode encode m,
  serves_well ext d sparse sf c b se h0 unicode encode m ->
  forall sort chars (show_int : Z -> string) show_prob (show_bits : option R -> string) fuel draws files cparse handshake cf (cc : client_config H) content,
  sort_spec sort -> client_config_from_flags (text_files files) cparse cf = Ok cc ->
  connects handshake se (client_endpoint_of cc) = true -> request_type cc = BITS_PER_CHAR ->
  files (test_corpus cc) = Some content -> text_lines content <> [] ->
  forall l rs h, handle_all any_ops h0 l = Ok (rs, h) ->
  let symbols := flat_map chars (text_lines content) in
  let n := sent unicode symbols in
  reqs_cost l + Z.of_nat n <= b -> Z.of_nat (1 + traffic l + 4 * n) < h_max h0 ->
  exists tr os x h',
    client_program sort unicode (calc_bits_per_character sort unicode chars) show_int show_prob show_bits fuel draws files cparse
        (network handshake (Some se) (connect any_ops unicode encode)) h cf =
    Some (Ok (0, [("Total characters: " ++ show_int (Z.of_nat (length symbols + length (text_lines content))) ++ " (" ++
                   show_int (Z.of_nat (oov os)) ++ " OOV); bits per character: " ++ show_bits (Some x))%string]), h') /\
    (0 < x <= log2 (143859 / kMixEpsilon))%R /\ x = (sum (map code_length os) / INR (length tr))%R /\
    text_scored unicode chars (connect any_ops unicode encode) h (text_lines content) tr h' /\ Forall2 scored tr os.
Proof.
  intros H ext d sparse sf c b se h0 unicode encode m S sort chars show_int show_prob show_bits fuel draws files cparse handshake cf cc content
    Hs Ec Cn Rt Ef Hl l rs h El symbols n Hc Rm.
  pose proof (sw_hub _ _ _ _ _ _ _ _ _ _ _ S) as Em. destruct S as [S1 S2 S3 S4 S5 S6 S7 S8 S9 S10].
  destruct (C66_bits_partial ext d _ b h0 unicode encode m chars sort S3 S4 Em S5 S6 S7 S8 S9 S10 Hs l rs h content El Hl Hc Rm)
    as (tr & os & x & h' & K1 & K2 & K3 & K4 & K5).
  exists tr, os, x, h'. split; [|auto]. erewrite client_runs; [|exact Ec|exact Cn]. unfold run_client. rewrite Rt, Ef, K1. reflexivity.
Qed.
Print Assumptions C70_bits_partial.

(** The bits-per-character command without a server: exit code 1, nothing printed, unless the corpus has no line (then
    no request is made, and 0.0 / 0.0 is printed as success: C47_empty_text_refuted). *)
Theorem C70_bits_unreachable : forall H (W : Type) sort unicode chars (show_int : Z -> string) show_prob (show_bits : option R -> string)
    fuel draws files cparse handshake running (srv : server R_field W) w cf (cc : client_config H),
  client_config_from_flags (text_files files) cparse cf = Ok cc ->
  (forall se, running = Some se -> connects handshake se (client_endpoint_of cc) = false) ->
  request_type cc = BITS_PER_CHAR -> (forall content, files (test_corpus cc) = Some content -> text_lines content <> []) ->
  client_program sort unicode (calc_bits_per_character sort unicode chars) show_int show_prob show_bits fuel draws files cparse
    (network handshake running srv) w cf = Some (Ok (1, []), w).
Proof.
  intros H W sort unicode chars show_int show_prob show_bits fuel draws files cparse handshake running srv w cf cc Ec K Rt Hl.
  unfold client_program. fold (text_files files). rewrite Ec.
  assert (D : network handshake running srv (client_endpoint_of cc) = dead).
  { unfold network. destruct running as [se|]; [|reflexivity]. rewrite (K se eq_refl). reflexivity. }
  rewrite D. unfold run_client. rewrite Rt. unfold calc_bits_per_character, calc_bits.
  destruct (files (test_corpus cc)) as [content|]; [|reflexivity]. specialize (Hl content eq_refl). cbn [option_map].
  destruct (text_lines content) as [|x t]; [contradiction|]. reflexivity.
Qed.
Print Assumptions C70_bits_unreachable.

(** ** The hypotheses are met *)
Definition roomy_server : server_config (hub_config Qc_field) := mk_server_config roomy "" (mk_server_auth CREDENTIAL_INSECURE None) false 0.
Definition no_server_flags : server_flags := mk_server_flags "" "" 0 "" "" "" true.
Definition no_client_flags : client_flags := mk_client_flags "" "" (0 # 1)%Q "" "" "" "".
Definition ask (r : request_kind) : client_config unit :=
  mk_client_config (mk_server_config tt "" (mk_server_auth CREDENTIAL_INSECURE None) false 0) None r 3 "ab" "corpus" (0 # 1)%Q.
Definition digits_of (z : Z) : string := if z =? 3 then "3" else "?".
(** Server and client with the configuration text as the only input and no TLS, after the server was taught something. *)
Example C70_hypotheses_met : exists se h0 rs h cc,
  serves_well four_ext four_disk (fun _ => Some roomy_server) no_server_flags (init_server_defaults roomy_server) 1000000 se h0 ascii_codes ascii_text 1 /\
  client_config_from_flags (text_files (fun _ => None)) (fun _ => Some (ask K_BEST_ITEMS)) no_client_flags = Ok cc /\
  connects (fun _ _ _ _ => false) se (client_endpoint_of cc) = true /\ request_type cc = K_BEST_ITEMS /\ k_best cc = 3 /\
  context_string cc = "ab"%string /\
  handle_all any_ops h0 earlier = Ok (rs, h) /\ reqs_cost earlier + Z.of_nat (128 + 1) <= 1000000 /\
  Z.of_nat (1 + traffic earlier + length (ascii_codes "ab") + 4 * (128 + 1)) < h_max h0 /\
  (exists h', client_program (B := unit) sort_desc ascii_codes (fun _ w _ => (Err, w)) digits_of (fun _ => "p"%string) (fun _ => ""%string)
     128 (fun _ => q 1 2) (fun _ => None) (fun _ => Some (ask K_BEST_ITEMS))
     (network (fun _ _ _ _ => false) (Some se) (connect any_ops ascii_codes ascii_text)) h no_client_flags =
   Some (Ok (0, ["3-best prob continuations: a(p) c(p) (p)"%string]), h')).
Proof.
  destruct C66_hypotheses_met as (h0 & rs & h & X & N & E & Wm & St & Mx & Sh & El & Hc & Rm & Kb & _).
  exists (server_endpoint_of (init_server_defaults roomy_server)), h0, rs, h. eexists.
  split. { constructor; [|reflexivity|exact X|exact N|exact Wm|exact St|exact Mx|exact ascii_length|exact ascii_pos|exact Sh].
    apply C70_server. exists (init_server_defaults roomy_server). split; [reflexivity|]. split; [reflexivity|]. split; [exact E|reflexivity]. }
  split; [reflexivity|]. split; [reflexivity|]. split; [reflexivity|]. split; [reflexivity|]. split; [reflexivity|].
  split; [exact El|]. split; [exact Hc|]. split; [exact Rm|].
  erewrite client_runs; [|reflexivity|reflexivity]. unfold run_client.
  cbn [request_type init_client_defaults ask context_string k_best].
  match goal with |- context [one_kbest ?a ?b ?c ?d ?e] => destruct (one_kbest a b c d e) as [[best| | |] h'] end; try contradiction.
  exists h'. destruct best as [|[p1 s1] [|[p2 s2] [|[p3 s3] [|]]]]; try discriminate Kb. cbn [map snd] in Kb. injection Kb as -> -> ->. reflexivity.
Qed.

(** The same over the real numbers for bits per character. *)
Definition real_server : server_config (hub_config R_field) := mk_server_config real_config "" (mk_server_auth CREDENTIAL_INSECURE None) false 0.
Example C70_bits_hypotheses_met : exists se h0 rs h cc content,
  let files := fun p => if String.eqb p "corpus" then Some content else None in
  let l := [GetNextStateReq 0 [97; 98]] in
  serves_well real_ext real_disk (fun _ => Some real_server) no_server_flags (init_server_defaults real_server) 1000 se h0 ascii_codes ascii_text 1 /\
  client_config_from_flags (text_files files) (fun _ => Some (ask BITS_PER_CHAR)) no_client_flags = Ok cc /\
  connects (fun _ _ _ _ => false) se (client_endpoint_of cc) = true /\ request_type cc = BITS_PER_CHAR /\
  files (test_corpus cc) = Some content /\ text_lines content <> [] /\
  handle_all any_ops h0 l = Ok (rs, h) /\
  let n := sent ascii_codes (flat_map (fun s => map (fun x => ascii_text [x]) (ascii_codes s)) (text_lines content)) in
  reqs_cost l + Z.of_nat n <= 1000 /\ Z.of_nat (1 + traffic l + 4 * n) < h_max h0.
Proof.
  destruct C66_bits_hypotheses_met as (h0 & rs & h & content & X & N & E & Wm & St & Mx & Sh & El & Hl & _ & Hc & Rm).
  exists (server_endpoint_of (init_server_defaults real_server)), h0, rs, h. eexists. exists content. cbv zeta.
  split. { constructor; [|reflexivity|exact X|exact N|exact Wm|exact St|exact Mx|exact ascii_length|exact ascii_pos|exact Sh].
    apply C70_server. exists (init_server_defaults real_server). split; [reflexivity|]. split; [reflexivity|]. split; [exact E|reflexivity]. }
  split; [reflexivity|]. split; [reflexivity|]. split; [reflexivity|]. split; [reflexivity|]. split; [exact Hl|].
  split; [exact El|]. split; [exact Hc|exact Rm].
Qed.

(** Unreachable: a TLS server and a client without credentials. *)
Example C70_unreachable_met : exists cc se,
  client_config_from_flags (text_files (fun _ => None)) (fun _ => Some (ask RANDGEN)) no_client_flags = Ok cc /\
  se = server_endpoint_of (mk_server_config tt "localhost:50051" (mk_server_auth CREDENTIAL_TLS (Some (mk_server_tls "k" "c" "" false))) true 0) /\
  listen_address se = dial_address (client_endpoint_of cc) /\
  (forall se', Some se = Some se' -> connects (fun _ _ _ _ => true) se' (client_endpoint_of cc) = false).
Proof. eexists _, _. split; [reflexivity|]. split; [reflexivity|]. split; [reflexivity|]. intros se' [= <-]. reflexivity. Qed.
