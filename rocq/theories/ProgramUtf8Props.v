(** Property C70, continued: the two programs when text is UTF-8 at both ends (Utf8Model), so that nothing about the
    characters is left to the caller: the context, the corpus and the printed text are sequences of Unicode
    characters. *)
From Coq Require Import Reals String Ascii QArith Sorted Permutation.
From Verif Require Import Base Field FieldR LmModel TextModel Utf8Model Utf8Proofs HubModel FactoryModel ConfigModel ConfigProps.
From Verif Require Import ServerModel ServerSim HubLive2 HubSpec FactoryProps FactoryProps2 FactoryProps3 HubVocab FactoryVocabProps HubDist.
From Verif Require Import ClientModel ClientSpec ClientProofs ClientBits ClientProps ClientProps2 ClientServe ClientServeBits ConnectModel FactoryProps7 ProgramModel ProgramProps.
From Verif Require Import Utf8Spec Utf8Props Utf8Props2.
Local Open Scope Z_scope.
Close Scope string_scope.
Local Notation length := List.length.
Local Notation hub_config := FactoryModel.model_hub_config.
Local Notation says := Utf8Spec.says.

(** A server program on properly made models whose symbols are at most [m] characters each. *)
Record serves_utf8 {F : ofield} (ext : externals F) (d : disk F) sparse sf (c : server_config (hub_config F)) (b : Z)
    (se : server_endpoint) (h0 : hub F (any_model F)) (m : nat) : Prop := {
  su_up : server_program ext d sparse true sf = Ok (Serving se h0);
  su_config : server_config_from_flags (disk_texts d) sparse sf = Ok c;
  su_ext : externals_ok ext;
  su_models : mh_models (ConfigModel.model_hub_config c) <> [];
  su_made : Forall2 (well_made ext d b) (mh_models (ConfigModel.model_hub_config c)) (h_lms h0);
  su_steady : steady (ConfigModel.model_hub_config c);
  su_max : h_max h0 <= 2 ^ 31;
  su_symbols : forall m0 k, In m0 (consulted (ConfigModel.model_hub_config c) (h_lms h0)) -> In k (vocabulary m0) ->
                 Forall scalar k /\ (length k <= m)%nat }.

Lemma serves_bytes {F : ofield} ext (d : disk F) sparse sf c b se h0 m :
  serves_utf8 ext d sparse sf c b se h0 m -> serves_well ext d sparse sf c b se h0 utf8_codes utf8_encode (4 * m).
Proof.
  intros [S1 S2 S3 S4 S5 S6 S7 S8]. constructor; try assumption; [exact codes_short | exact codes_pos|].
  intros m0 k I1 I2. destruct (S8 m0 k I1 I2) as [_ L]. pose proof (encode_length k). lia.
Qed.

Notation utf8_net := (fun F handshake se => network handshake (Some se) (connect (any_ops (F := F)) utf8_codes utf8_encode)).

(** The k best after a context of characters: the symbols printed are the UTF-8 forms of the [k] most probable ones of
    the answer of the server for exactly these characters. *)
Theorem C70_utf8_k_best : forall (F : ofield) H B ext (d : disk F) sparse sf c b se h0 m,
  serves_utf8 ext d sparse sf c b se h0 m ->
  forall sort bits (show_int : Z -> string) show_prob (show_bits : option B -> string) fuel draws files cparse handshake cf (cc : client_config H) ctx,
  sort_spec sort -> client_config_from_flags (text_files files) cparse cf = Ok cc ->
  connects handshake se (client_endpoint_of cc) = true -> request_type cc = K_BEST_ITEMS ->
  context_string cc = utf8_encode ctx -> Forall scalar ctx ->
  forall l rs h, handle_all any_ops h0 l = Ok (rs, h) -> reqs_cost l <= b ->
  exists sc h', handle any_ops h (GetLMScoresReq (-1) ctx) = Ok (ScoresReply sc, h') /\
    sc_entries sc <> [] /\ is_distribution (sc_entries sc) /\
    forall k, k_best cc = Z.of_nat k -> (k <= length (sc_entries sc))%nat -> exists best rest : list (str * num F),
      client_program sort utf8_codes bits show_int show_prob show_bits fuel draws files cparse (utf8_net F handshake se) h cf =
      Some (Ok (0, [(show_int (Z.of_nat k) ++ "-best prob continuations:" ++
                     concat_all (map (fun e => " " ++ utf8_encode (fst e) ++ "(" ++
                                        match snd e with Val p => show_prob p | NaN => "" end ++ ")") best))%string]), h') /\
      length best = k /\ Permutation (sc_entries sc) (best ++ rest) /\
      StronglySorted (fun x y => forall p q, snd x = Val p -> snd y = Val q -> fle q p = true) best /\
      (forall x y p q, In (x, Val p) best -> In (y, Val q) rest -> fle q p = true).
Proof.
  intros F H B ext d sparse sf c b se h0 m S sort bits show_int show_prob show_bits fuel draws files cparse handshake cf cc ctx
    Hs Ec Cn Rt Ex Sx l rs h El Hc.
  destruct (C70_k_best F H B ext d sparse sf c b se h0 utf8_codes utf8_encode (4 * m) (serves_bytes _ _ _ _ _ _ _ _ _ S)
    sort bits show_int show_prob show_bits fuel draws files cparse handshake cf cc Hs Ec Cn Rt l rs h El Hc) as (sc & h' & E1 & E2 & E3).
  rewrite Ex, (proj1 (C71_round_trip ctx Sx)) in E1.
  pose proof (sw_hub _ _ _ _ _ _ _ _ _ _ _ (serves_bytes _ _ _ _ _ _ _ _ _ S)) as Em. destruct S as [S1 S2 S3 S4 S5 S6 S7 S8].
  assert (El1 : handle_all any_ops h0 (l ++ [GetLMScoresReq (-1) ctx]) = Ok (rs ++ [ScoresReply sc], h')).
  { rewrite handle_all_app, El. cbn [bind handle_all]. rewrite E1. reflexivity. }
  assert (D : is_distribution (sc_entries sc)).
  { apply (steady_distribution ext d _ b h0 S3 S4 Em S5 S6 (l ++ [GetLMScoresReq (-1) ctx]) (rs ++ [ScoresReply sc]) h' sc);
      [rewrite costs_snoc; cbn [req_cost]; lia | exact El1 | apply in_or_app; right; left; reflexivity]. }
  exists sc, h'. split; [exact E1|]. split; [exact E2|]. split; [exact D|]. intros k Ek Hk.
  destruct (E3 k Ek Hk) as (best & rest & K1 & K2 & K3 & K4 & K5).
  unfold client_view in K3. apply Permutation_sym in K3. apply Permutation_map_inv in K3. destruct K3 as (l3 & K3 & P).
  symmetry in K3. apply map_eq_app in K3. destruct K3 as (bst & rst & -> & <- & <-).
  assert (Nn : forall k1 v, In (k1, v) bst -> exists p, v = Val p).
  { intros k1 v I. destruct D as (_ & D & _). destruct (D k1 v) as (p & -> & _); [|eauto].
    eapply Permutation_in; [apply Permutation_sym; exact P | apply in_or_app; left; exact I]. }
  exists bst, rst. split.
  { rewrite K1, map_map.
    rewrite (map_ext_in _ (fun e : str * num F => (" " ++ utf8_encode (fst e) ++ "(" ++ match snd e with Val p => show_prob p | NaN => "" end ++ ")")%string));
      [reflexivity|]. intros [k1 v] I. destruct (Nn k1 v I) as (p & ->). reflexivity. }
  split; [rewrite map_length in K2; exact K2|]. split; [exact P|]. split.
  - clear - K4. induction bst as [|[k1 v1] t IH]; [constructor|]. cbn [map] in K4. inversion K4 as [|? ? Q1 Q2]; subst. constructor; [apply IH; exact Q1|].
    apply Forall_forall. intros [k2 v2] I p q Ep Eq. cbn [snd] in Ep, Eq. subst v1 v2. rewrite Forall_forall in Q2.
    apply (Q2 (q, utf8_encode k2)). apply in_map_iff. exists (k2, Val q). auto.
  - intros x y p q I1 I2. apply (K5 (p, utf8_encode x) (q, utf8_encode y)); apply in_map_iff; [exists (x, Val p) | exists (y, Val q)]; auto.
Qed.
Print Assumptions C70_utf8_k_best.

(** Random generation after a context of characters prints the UTF-8 form of the context and of symbols each offered by
    the answer that was current, drawn from it, learned and followed. *)
Theorem C70_utf8_rand_gen_partial : forall (F : ofield) H B ext (d : disk F) sparse sf c b se h0 m,
  serves_utf8 ext d sparse sf c b se h0 m ->
  forall sort bits (show_int : Z -> string) show_prob (show_bits : option B -> string) draws files cparse handshake cf (cc : client_config H) ctx,
  sort_spec sort -> client_config_from_flags (text_files files) cparse cf = Ok cc ->
  connects handshake se (client_endpoint_of cc) = true -> request_type cc = RANDGEN ->
  context_string cc = utf8_encode ctx -> Forall scalar ctx ->
  forall l rs h, handle_all any_ops h0 l = Ok (rs, h) -> reqs_cost l + Z.of_nat (128 + 4 * m) <= b ->
  Z.of_nat (1 + traffic l + length ctx + 4 * (128 + 4 * m)) < h_max h0 ->
  exists ks e st h1 sc h2 tr h',
    (forall fuel, (128 <= fuel)%nat ->
      client_program sort utf8_codes bits show_int show_prob show_bits fuel draws files cparse (utf8_net F handshake se) h cf =
      Some (Ok (0, [(utf8_encode (ctx ++ concat ks) ++ note e)%string]), h')) /\
    (e = EndOfText \/ e = LimitReached) /\ Forall scalar (ctx ++ concat ks) /\
    handle any_ops h (GetNextStateReq (-1) ctx) = Ok (StateReply st, h1) /\
    handle any_ops h1 (GetLMScoresReq (to_int st) []) = Ok (ScoresReply sc, h2) /\
    line_read any_ops h2 st sc ks tr h' /\
    (exists r n, msg_of utf8_encode sc = Some r /\
       generates (connect any_ops utf8_codes utf8_encode) utf8_codes (rank_by sort) draws h2 st r 0 128 (map utf8_encode ks) e h' n) /\
    (forall k1 sc1, In (k1, sc1) tr -> k1 <> [] /\ Forall scalar k1 /\ In k1 (map fst (sc_entries sc1))).
Proof.
  intros F H B ext d sparse sf c b se h0 m S sort bits show_int show_prob show_bits draws files cparse handshake cf cc ctx
    Hs Ec Cn Rt Ex Sx l rs h El Hc Rm.
  pose proof (sw_hub _ _ _ _ _ _ _ _ _ _ _ (serves_bytes _ _ _ _ _ _ _ _ _ S)) as Em. destruct S as [S1 S2 S3 S4 S5 S6 S7 S8].
  destruct (C71_rand_gen_partial ext d _ b h0 S3 S4 Em S5 S6 S7 m S8 sort Hs draws l rs h ctx Sx El Hc Rm)
    as (R & ks & e & st & h1 & sc & h2 & r & tr & K1 & K2 & K3 & K4 & K5 & K6 & K7 & K8 & K9 & K10 & K11).
  exists ks, e, st, h1, sc, h2, tr, (rg_world R). split.
  { intros fuel Hf. erewrite client_runs; [|exact Ec|exact Cn]. unfold run_client. rewrite Rt, Ex, (K1 fuel Hf). cbn [option_map fst snd].
    rewrite K2. cbn [bind]. rewrite K4. reflexivity. }
  split; [exact K3|]. split; [exact K5|]. split; [exact K6|]. split; [exact K7|]. split; [exact K10|]. split; [|exact K11].
  exists r, (rg_draws R). auto.
Qed.
Print Assumptions C70_utf8_rand_gen_partial.

(** Bits per character of a corpus of lines of characters. *)
Theorem C70_utf8_bits_partial : forall H ext (d : disk R_field) sparse sf c b se h0 m,
  serves_utf8 ext d sparse sf c b se h0 m ->
  forall sort (show_int : Z -> string) show_prob (show_bits : option R -> string) fuel draws files cparse handshake cf (cc : client_config H) lines,
  sort_spec sort -> client_config_from_flags (text_files files) cparse cf = Ok cc ->
  connects handshake se (client_endpoint_of cc) = true -> request_type cc = BITS_PER_CHAR ->
  files (test_corpus cc) = Some (utf8_file lines) -> lines <> [] -> Forall line_ok lines ->
  forall l rs h, handle_all any_ops h0 l = Ok (rs, h) ->
  let n := length (concat lines) in
  reqs_cost l + Z.of_nat n <= b -> Z.of_nat (1 + traffic l + 4 * n) < h_max h0 ->
  exists tr os x h',
    client_program sort utf8_codes (calc_bits_per_character sort utf8_codes utf8_chars) show_int show_prob show_bits fuel draws files cparse
        (utf8_net R_field handshake se) h cf =
    Some (Ok (0, [("Total characters: " ++ show_int (Z.of_nat (n + length lines)) ++ " (" ++
                   show_int (Z.of_nat (oov os)) ++ " OOV); bits per character: " ++ show_bits (Some x))%string]), h') /\
    x = (sum (map code_length os) / INR (n + length lines))%R /\ (0 < x <= log2 (143859 / kMixEpsilon))%R /\
    text_read any_ops h lines tr h' /\ map fst tr = flat_map symbols_of lines /\ Forall2 says tr os /\
    (forall k sc, In (k, sc) tr -> is_distribution (sc_entries sc) /\
       forall k', In k' (map fst (sc_entries sc)) ->
         exists m0, In m0 (consulted (ConfigModel.model_hub_config c) (h_lms h0)) /\ In k' (vocabulary m0)).
Proof.
  intros H ext d sparse sf c b se h0 m S sort show_int show_prob show_bits fuel draws files cparse handshake cf cc lines
    Hs Ec Cn Rt Ef Hl Lo l rs h El n Hc Rm.
  pose proof (sw_hub _ _ _ _ _ _ _ _ _ _ _ (serves_bytes _ _ _ _ _ _ _ _ _ S)) as Em. destruct S as [S1 S2 S3 S4 S5 S6 S7 S8].
  destruct (C71_bits_partial ext d _ b h0 m sort S3 S4 Em S5 S6 S7 S8 Hs l rs h lines El Hl Lo Hc Rm)
    as (tr & os & x & h' & K1 & K2).
  exists tr, os, x, h'. split; [|exact K2]. erewrite client_runs; [|exact Ec|exact Cn]. unfold run_client. rewrite Rt, Ef, K1. reflexivity.
Qed.
Print Assumptions C70_utf8_bits_partial.

(** The hypotheses are met: a server taught something before, and the context "é" "a". *)
Definition ask_utf8 (r : request_kind) : client_config unit :=
  mk_client_config (mk_server_config tt "" (mk_server_auth CREDENTIAL_INSECURE None) false 0) None r 3 (utf8_encode [233; 97]) "corpus" (0 # 1)%Q.
Example C70_utf8_hypotheses_met : forall r, exists se h0 rs h cc,
  serves_utf8 four_ext four_disk (fun _ => Some roomy_server) no_server_flags (init_server_defaults roomy_server) 1000000 se h0 1 /\
  client_config_from_flags (text_files (fun _ => None)) (fun _ => Some (ask_utf8 r)) no_client_flags = Ok cc /\
  connects (fun _ _ _ _ => false) se (client_endpoint_of cc) = true /\ request_type cc = r /\ k_best cc = 3 /\
  context_string cc = utf8_encode [233; 97] /\ Forall scalar [233; 97] /\
  handle_all any_ops h0 earlier = Ok (rs, h) /\ reqs_cost earlier + Z.of_nat (128 + 4 * 1) <= 1000000 /\
  Z.of_nat (1 + traffic earlier + length [233; 97] + 4 * (128 + 4 * 1)) < h_max h0.
Proof.
  intro r. destruct C71_rand_gen_hypotheses_met as (h0 & rs & h & X & N & E & Wm & St & Mx & Sh & El & Hc & Rm).
  exists (server_endpoint_of (init_server_defaults roomy_server)), h0, rs, h. eexists.
  split. { constructor; [|reflexivity|exact X|exact N|exact Wm|exact St|exact Mx|exact Sh].
    apply C70_server. exists (init_server_defaults roomy_server). split; [reflexivity|]. split; [reflexivity|]. split; [exact E|reflexivity]. }
  split; [reflexivity|]. split; [reflexivity|]. split; [reflexivity|]. split; [reflexivity|]. split; [reflexivity|].
  split; [repeat constructor; unfold scalar; lia|]. split; [exact El|]. split; [exact Hc|exact Rm].
Qed.

(** Over the real numbers, a corpus with characters of one, three and four bytes and an empty line. *)
Example C70_utf8_bits_hypotheses_met : exists se h0 rs h cc,
  let lines := [[97; 8364]; [128512; 97; 97]; []] in
  let files := fun p => if String.eqb p "corpus" then Some (utf8_file lines) else None in
  let l := [GetNextStateReq 0 [97; 98]] in
  serves_utf8 real_ext real_disk (fun _ => Some real_server) no_server_flags (init_server_defaults real_server) 1000 se h0 1 /\
  client_config_from_flags (text_files files) (fun _ => Some (ask_utf8 BITS_PER_CHAR)) no_client_flags = Ok cc /\
  connects (fun _ _ _ _ => false) se (client_endpoint_of cc) = true /\ request_type cc = BITS_PER_CHAR /\
  files (test_corpus cc) = Some (utf8_file lines) /\ Forall line_ok lines /\
  handle_all any_ops h0 l = Ok (rs, h) /\
  reqs_cost l + Z.of_nat (length (concat lines)) <= 1000 /\ Z.of_nat (1 + traffic l + 4 * length (concat lines)) < h_max h0.
Proof.
  destruct C71_bits_hypotheses_met as (h0 & rs & h & X & N & E & Wm & St & Mx & Sh & _ & El & Lo & Hc & Rm).
  exists (server_endpoint_of (init_server_defaults real_server)), h0, rs, h. eexists. cbv zeta.
  split. { constructor; [|reflexivity|exact X|exact N|exact Wm|exact St|exact Mx|exact Sh].
    apply C70_server. exists (init_server_defaults real_server). split; [reflexivity|]. split; [reflexivity|]. split; [exact E|reflexivity]. }
  split; [reflexivity|]. split; [reflexivity|]. split; [reflexivity|]. split; [reflexivity|]. split; [exact Lo|].
  split; [exact El|]. split; [exact Hc|exact Rm].
Qed.
