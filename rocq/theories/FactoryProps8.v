(** Property C66, continued: other clients talk to the server at the same time. *)
From Coq Require Import Reals String Ascii.
From Verif Require Import Base Field FieldR LmModel LmProofs TextModel HubModel FactoryModel.
From Verif Require Import HubSpec HubProofs HubProps HubMix HubLive HubLiveInst HubLive2 HubDist HubDistInst HubNorm HubAccept HubAcceptInst.
From Verif Require Import ServerModel ServerEvolve ServerQuery ServerProps ServerProps2 ServerSim ServerUpdate FactoryProps FactoryProps2 FactoryProps3 FactoryProps4 FactoryProps5 FactoryProps6 HubVocab FactoryVocabProps.
From Verif Require Import ClientModel ClientSpec ClientProofs ClientBits ClientProps ClientServe ClientServeBits ConnectModel FactoryProps7.
Local Open Scope Z_scope.
Close Scope string_scope.
Local Notation length := List.length.

Section C66.
  Context {F : ofield}.
  Variable ext : externals F.
  Variable d : disk F.
  Variable c : model_hub_config F.
  Variable b : Z.
  Variable h0 : hub F (any_model F).
  Hypothesis X : externals_ok ext.
  Hypothesis N : mh_models c <> [].
  Hypothesis E : make_model_hub ext d c = Ok h0.
  Hypothesis W : Forall2 (well_made ext d b) (mh_models c) (h_lms h0).
  Hypothesis St : steady c.
  Hypothesis Mx : h_max h0 <= 2 ^ 31.
  Variable unicode : string -> list Z.
  Variable encode : str -> string.
  Variable m : nat.
  Hypothesis U : forall s, (length (unicode s) <= String.length s)%nat.
  Hypothesis Upos : forall s x, In x (unicode s) -> 0 <= x.
  Hypothesis Sym : forall m0 k, In m0 (consulted c (h_lms h0)) -> In k (vocabulary m0) -> (String.length (encode k) <= m)%nat.

  Notation srv := (shared (any_ops (F := F)) unicode encode).

  (** As [room] of FactoryProps7.v, with what the others will ask: room for [n] more observations and [t] more
      symbols. *)
  Definition budget (n t : nat) (w : hub F (any_model F) * list (list request)) (st : Z) : Prop := exists l rs,
    handle_all any_ops h0 l = Ok (rs, fst w) /\ reqs_cost (l ++ concat (snd w)) + Z.of_nat n <= b /\
    Z.of_nat (1 + traffic (l ++ concat (snd w)) + t) < h_max h0 /\
    int32 st /\ 0 <= st /\ given_out l rs st.
  Definition shared_room (n : nat) := budget n (4 * n).

  Lemma cost_app l1 l2 : reqs_cost (l1 ++ l2) = reqs_cost l1 + reqs_cost l2.
  Proof. unfold reqs_cost. induction l1 as [|x l IH]; cbn [fold_right app]; lia. Qed.
  Lemma given_app l rs l2 (rs2 : list (reply F)) s : given_out l rs s -> given_out (l ++ l2) (rs ++ rs2) s.
  Proof.
    intros [G|(i & s0 & w & G1 & G2 & G3)]; [left; auto|right]. exists i, s0, w. split; [|split; [auto|]].
    - rewrite nth_error_app1; auto. apply nth_error_Some. congruence.
    - rewrite nth_error_app1; auto. apply nth_error_Some. congruence.
  Qed.

  (** The others are served. *)
  Lemma others_served n t w st : budget n t w st -> exists w1, meanwhile any_ops w = Some w1 /\ budget n t w1 st.
  Proof.
    intros (l & rs & El & Hc & T & I & S0 & G). destruct w as [h q]. cbn [fst snd] in *. unfold meanwhile. cbn [snd fst].
    destruct q as [|lq u].
    - exists (h, []). split; auto. exists l, rs. auto 10.
    - cbn [concat] in Hc, T. rewrite app_assoc in Hc, T.
      assert (Hc1 : reqs_cost (l ++ lq) <= b). { rewrite cost_app in Hc. pose proof (reqs_cost_nonneg (concat u)). lia. }
      destruct (C61_requests_answered ext d c b h0 X N E W (l ++ lq) Hc1 (guard0 c h0 St (l ++ lq))) as (rs2 & h2 & E2 & _).
      pose proof E2 as E3. rewrite handle_all_app, El in E3. cbn [bind] in E3. apply bind_Ok in E3. destruct E3 as [[r3 h3] [E3 E4]]. injection E4 as <- <-.
      rewrite E3. exists (h3, u). split; auto. exists (l ++ lq), (rs ++ r3). cbn [fst snd]. split; [exact E2|]. split; [auto|]. split; [auto|].
      split; [auto|]. split; [auto|apply given_app; auto].
  Qed.

  Lemma call_shared {A} (part : option (reply F) -> option A) w1 w q rep h' x : meanwhile any_ops w = Some w1 ->
    handle any_ops (fst w1) q = Ok (rep, h') -> part (Some rep) = Some x -> shared_call any_ops part w q = (Some x, (h', snd w1)).
  Proof. intros Ew Eh Ep. unfold shared_call. rewrite Ew. destruct w1 as [h t]. cbn [fst snd] in *. unfold call. rewrite Eh, Ep. reflexivity. Qed.

  (** One's own request, seen from the history. *)
  Lemma own_request n t (h : hub F (any_model F)) u l rs q rep h' n' t' st' :
    handle_all any_ops h0 l = Ok (rs, h) -> reqs_cost (l ++ concat u) + Z.of_nat n <= b -> Z.of_nat (1 + traffic (l ++ concat u) + t) < h_max h0 ->
    handle any_ops h q = Ok (rep, h') -> req_cost q + Z.of_nat n' <= Z.of_nat n -> (req_symbols q + t' <= t)%nat ->
    int32 st' -> 0 <= st' -> given_out (l ++ [q]) (rs ++ [rep]) st' -> budget n' t' (h', u) st'.
  Proof.
    intros El Hc T Eh Cq Tq I S0 G'. exists (l ++ [q]), (rs ++ [rep]). cbn [fst snd].
    split; [eapply handle_snoc; eauto|]. rewrite !cost_app, !traffic_app in *. cbn [reqs_cost fold_right traffic] in *.
    split; [lia|]. split; [lia|auto].
  Qed.

  Lemma budget_own n t w st : budget n t w st -> exists l rs, handle_all any_ops h0 l = Ok (rs, fst w) /\ reqs_cost l + Z.of_nat n <= b /\
    Z.of_nat (1 + traffic l + t) < h_max h0 /\ reqs_cost (l ++ concat (snd w)) + Z.of_nat n <= b /\ Z.of_nat (1 + traffic (l ++ concat (snd w)) + t) < h_max h0 /\
    int32 st /\ 0 <= st /\ given_out l rs st.
  Proof.
    intros (l & rs & El & Hc & T & I & S0 & G). exists l, rs. split; [auto|].
    pose proof (reqs_cost_nonneg (concat (snd w))). split; [rewrite cost_app in Hc; lia|]. split; [rewrite traffic_app in T; lia|auto].
  Qed.

  (** The three calls. *)
  Lemma shared_scores n t w st : budget n t w st ->
    exists r w', rpc_scores srv w ""%string st = (Some r, w') /\ fine_reply m r /\ budget n t w' st.
  Proof.
    intros B. destruct (others_served n t w st B) as ([h u] & Ew & B1). apply budget_own in B1. destruct B1 as (l & rs & El & Hl & _ & Hc & T & I & S0 & G). cbn [fst snd] in *.
    assert (Hl' : reqs_cost l <= b) by lia.
    destruct (call_scores ext d c b h0 X N E W St unicode encode m U Upos Sym l rs h st ""%string El Hl') as (sc & r & h' & Eh & Er & _ & Fr); [auto|].
    exists r, (h', u). split; [apply (call_shared (scores_in encode) (h, u) w _ (ScoresReply sc)); auto|]. split; [auto|].
    eapply own_request; eauto; [cbn [req_cost]; lia| |apply given_app; auto].
    rewrite (U0 c h0 unicode encode m U Upos Sym). cbn [req_symbols req_context length]. lia.
  Qed.
  Lemma shared_next n t w st ctx : budget n (length (unicode ctx) + t) w st \/ (st = -1 /\ budget n (length (unicode ctx) + t) w 0) ->
    exists st' w', rpc_next srv w ctx st = (Some st', w') /\ budget n t w' st'.
  Proof.
    intros B. assert (B' : exists s0, budget n (length (unicode ctx) + t) w s0 /\ (st = s0 \/ st = -1)).
    { destruct B as [B|[-> B]]; eauto. }
    destruct B' as (s0 & B' & Hs). destruct (others_served _ _ w s0 B') as ([h u] & Ew & B1). apply budget_own in B1.
    destruct B1 as (l & rs & El & Hl & _ & Hc & T & I & S0 & G). cbn [fst snd] in *. assert (Hl' : reqs_cost l <= b) by lia.
    destruct (call_next ext d c b h0 X N E W St Mx unicode encode m U Upos Sym l rs h st ctx El Hl') as (st' & h' & Eh & _ & I' & S' & G').
    { right. destruct Hs as [-> | ->]; [auto|]. split; [unfold int32; lia|left; lia]. }
    exists st', (h', u). split; [apply (call_shared state_in (h, u) w _ (StateReply st')); auto|].
    eapply own_request; eauto; cbn [req_cost req_symbols req_context]; lia.
  Qed.
  Lemma shared_update n t w st s : budget (length (unicode s) + n) (4 * length (unicode s) + t) w st ->
    exists r w', rpc_update srv w (unicode s) st 1 = (Some r, w') /\ fine_reply m r /\ budget n (length (unicode s) + t) w' st.
  Proof.
    intros B. destruct (others_served _ _ w st B) as ([h u] & Ew & B1). apply budget_own in B1. destruct B1 as (l & rs & El & Hl & Tl & Hc & T & I & S0 & G). cbn [fst snd] in *.
    destruct (C65_update_accepted_partial ext d c b h0 X N E W l rs h st (unicode s) 1) as (sc & h1 & E1); auto.
    { rewrite cost_snoc. cbn [req_cost]. unfold learn_cost. lia. }
    { apply guard0; auto. }
    { apply Upos. }
    { rewrite traffic_app. cbn [traffic fold_right req_symbols]. lia. }
    assert (El1 : handle_all any_ops h0 (l ++ [UpdateLMScoresReq st (unicode s) 1]) = Ok (rs ++ [ScoresReply sc], h1)) by (eapply handle_snoc; eauto).
    assert (Hc1 : reqs_cost (l ++ [UpdateLMScoresReq st (unicode s) 1]) = reqs_cost l + Z.of_nat (length (unicode s))).
    { rewrite cost_snoc. cbn [req_cost]. unfold learn_cost. lia. }
    destruct (reply_fine ext d c b h0 X N E W St unicode encode m Upos Sym _ _ h1 sc ltac:(rewrite Hc1; lia) El1 ltac:(apply last_in)) as (r & Er & Fr & _).
    exists r, (h1, u). split; [apply (call_shared (scores_in encode) (h, u) w _ (ScoresReply sc)); auto|]. split; [auto|].
    apply (own_request (length (unicode s) + n) (4 * length (unicode s) + t) h u l rs (UpdateLMScoresReq st (unicode s) 1) (ScoresReply sc)); auto.
    - cbn [req_cost]. unfold learn_cost. lia.
    - cbn [req_symbols]. lia.
    - apply given_app; auto.
  Qed.

  Lemma shared_serves : serves srv unicode m shared_room.
  Proof.
    constructor; unfold shared_room.
    - intros n w st B. assert (int32 st) by (destruct B as (? & ? & _ & _ & _ & I & _); auto). rewrite to_int_id by auto.
      apply shared_scores. auto.
    - intros n w st s B Hn. assert (int32 st) by (destruct B as (? & ? & _ & _ & _ & I & _); auto). unfold moves. rewrite to_int_id by auto.
      destruct (shared_update (n - length (unicode s)) (4 * (n - length (unicode s))) w st s) as (r & w1 & E1 & Fr & B1).
      { replace (length (unicode s) + (n - length (unicode s)))%nat with n by lia.
        replace (4 * length (unicode s) + 4 * (n - length (unicode s)))%nat with (4 * n)%nat by lia. exact B. }
      destruct (shared_next _ _ w1 st s (or_introl B1)) as (st' & w2 & E2 & B2).
      exists st', r, w2. split; [exists w1; split; [auto|split; [apply (fr_form Fr)|auto]]|auto].
    - intros n w st (l & rs & El & Hc & T & _). exists l, rs. split; [auto|]. split; [auto|]. split; [auto|]. split; [unfold int32; lia|]. split; [lia|left; lia].
  Qed.

  (** Random generation while others ask and teach: for any earlier requests [l], any requests [others] of other
      clients between its calls, any context and any numbers drawn it succeeds, and its text is the context followed
      by symbols each selected by its draw from what the server offered at that moment. *)
  Theorem C66_rand_gen_shared_partial : forall sort, sort_spec sort -> forall draws l rs h others ctx,
    handle_all any_ops h0 l = Ok (rs, h) -> reqs_cost (l ++ concat others) + Z.of_nat (128 + m) <= b ->
    Z.of_nat (1 + traffic (l ++ concat others) + length (unicode ctx) + 4 * (128 + m)) < h_max h0 ->
    exists R ss e st r w2,
      (forall fuel, (128 <= fuel)%nat -> rand_gen sort unicode fuel (Some srv) draws (h, others) ctx = Some R) /\
      rg_status R = Ok tt /\ (e = EndOfText \/ e = LimitReached) /\
      rg_text R = (ctx ++ concat_all ss ++ note e)%string /\
      opens srv (h, others) ctx st r w2 /\
      generates srv unicode (rank_by sort) draws w2 st r 0 128 ss e (rg_world R) (rg_draws R).
  Proof.
    intros sort Hs draws l rs h others ctx El Hc T.
    assert (B0 : budget (128 + m) (length (unicode ctx) + 4 * (128 + m)) (h, others) 0).
    { exists l, rs. cbn [fst snd]. split; [auto|]. split; [auto|]. split; [lia|]. split; [unfold int32; lia|]. split; [lia|left; lia]. }
    destruct (shared_next _ _ (h, others) (-1) ctx (or_intror (conj eq_refl B0))) as (st & w1 & E1 & B1).
    pose proof B1 as B1'. apply budget_own in B1'. destruct B1' as (_ & _ & _ & _ & _ & _ & _ & I1 & _).
    destruct (sv_scores _ _ _ _ shared_serves _ _ _ B1) as (r & w2 & E2 & Fr & Rm2). 
    assert (O : opens srv (h, others) ctx st r w2). { exists w1. split; [auto|]. split; [auto|]. split; [apply (fr_form Fr)|apply (fr_norm Fr)]. }
    destruct (rand_gen_succeeds srv unicode m shared_room shared_serves sort Hs U draws (h, others) ctx st r w2 _ O Rm2 Fr (le_n _)) as (R & ss & e & C & K1 & K2 & K3 & K4).
    exists R, ss, e, st, r, w2. split; [auto|]. split; [auto|]. split; [destruct e; auto; congruence|]. auto.
  Qed.
End C66.

(** Bits per character while others ask and teach. *)
Theorem C66_bits_shared_partial : forall (ext : externals R_field) d c b h0 unicode encode m chars sort,
  externals_ok ext -> mh_models c <> [] -> make_model_hub ext d c = Ok h0 ->
  Forall2 (well_made ext d b) (mh_models c) (h_lms h0) -> steady c -> h_max h0 <= 2 ^ 31 ->
  (forall s, (length (unicode s) <= String.length s)%nat) -> (forall s x, In x (unicode s) -> 0 <= x) ->
  (forall m0 k, In m0 (consulted c (h_lms h0)) -> In k (vocabulary m0) -> (String.length (encode k) <= m)%nat) ->
  sort_spec sort ->
  forall l rs h others content, handle_all any_ops h0 l = Ok (rs, h) -> text_lines content <> [] ->
  let symbols := flat_map chars (text_lines content) in
  let n := sent unicode symbols in
  reqs_cost (l ++ concat others) + Z.of_nat n <= b -> Z.of_nat (1 + traffic (l ++ concat others) + 4 * n) < h_max h0 ->
  exists tr os x w',
    calc_bits_per_character sort unicode chars (Some (shared any_ops unicode encode)) (h, others) (Some content) =
      (Ok (Z.of_nat (length symbols + length (text_lines content)), Z.of_nat (oov os), Some x), w') /\
    (0 < x <= log2 (143859 / kMixEpsilon))%R /\
    x = (sum (map code_length os) / INR (length tr))%R /\
    text_scored unicode chars (shared any_ops unicode encode) (h, others) (text_lines content) tr w' /\ Forall2 scored tr os.
Proof.
  intros ext d c b h0 unicode encode m chars sort X N E W St Mx U Up Sh Hs l rs h others content El Hl symbols n Hc T.
  pose proof (shared_serves ext d c b h0 X N E W St Mx unicode encode m U Up Sh) as Sv.
  assert (Rm : shared_room b h0 n (h, others) 0).
  { exists l, rs. cbn [fst snd]. split; [auto|]. split; [auto|]. split; [auto|]. split; [unfold int32; lia|]. split; [lia|left; lia]. }
  destruct (bits_succeed _ _ chars _ _ Sv sort Hs U (h, others) 0 content n Rm (le_n _)) as (tr & os & w' & Ts & Fa & Sc & Ec & Bd).
  pose proof (ClientProps2.C47_symbols unicode chars _ _ _ _ _ Ts) as Sy.
  assert (Len : length tr = (length symbols + length (text_lines content))%nat).
  { apply (f_equal (@length _)) in Sy. rewrite map_length in Sy. rewrite Sy. unfold symbols. clear.
    induction (text_lines content) as [|x t IH]; [reflexivity|]. cbn [flat_map]. rewrite !app_length, IH. cbn [length]. lia. }
  assert (Nt : tr <> []) by (intros ->; destruct (text_lines content); [auto|cbn [length] in Len; lia]).
  exists tr, os, (sum (map code_length os) / INR (length tr))%R, w'. rewrite <- Len. split; [|auto].
  rewrite Ec. destruct tr; [contradiction|reflexivity].
Qed.
Print Assumptions C66_rand_gen_shared_partial.
Print Assumptions C66_bits_shared_partial.

(** The hypotheses are met (the others are in FactoryProps7.v): another client teaches while the text of
    C66_hypotheses_met is generated, and the text becomes another one. *)
Definition meddling : list (list request) := [[]; [UpdateLMScoresReq 2 [99; 99] 400]; [GetLMScoresReq 77 []; UpdateLMScoresReq 5 [-3] 4]].
Example C66_shared_hypotheses_met : exists h0 rs h,
  make_model_hub four_ext four_disk roomy = Ok h0 /\ handle_all any_ops h0 earlier = Ok (rs, h) /\
  reqs_cost (earlier ++ concat meddling) + Z.of_nat (128 + 1) <= 1000000 /\
  Z.of_nat (1 + traffic (earlier ++ concat meddling) + length (ascii_codes "ab") + 4 * (128 + 1)) < h_max h0 /\
  option_map (fun R => (rg_status R, ascii_codes (rg_text R))) (rand_gen sort_desc ascii_codes 200 (Some (shared any_ops ascii_codes ascii_text)) (fun i => q (Z.of_nat (1 + i * 3 mod 7)) 8) (h, meddling) "ab") =
    Some (Ok tt, [97; 98; 97; 97; 0; 99; 99; 97; 98; 97; 99]).
Proof.
  assert (K : match make_model_hub four_ext four_disk roomy with
              | Ok h0 => (h_max h0 =? 10000) &&
                  match handle_all any_ops h0 earlier with
                  | Ok (_, h) =>
                     match option_map (fun R => (rg_status R, ascii_codes (rg_text R))) (rand_gen sort_desc ascii_codes 200 (Some (shared any_ops ascii_codes ascii_text)) (fun i => q (Z.of_nat (1 + i * 3 mod 7)) 8) (h, meddling) "ab") with
                     | Some (Ok tt, t) => str_eqb t [97; 98; 97; 97; 0; 99; 99; 97; 98; 97; 99] | _ => false end
                  | _ => false end
              | _ => false end = true) by vmr.
  destruct (make_model_hub four_ext four_disk roomy) as [h0| | |] eqn:E; [|discriminate K..].
  apply andb_prop in K. destruct K as [K2 K4].
  destruct (handle_all any_ops h0 earlier) as [[rs h]| | |] eqn:E1; [|discriminate K4..]. apply Z.eqb_eq in K2.
  exists h0, rs, h. split; [reflexivity|]. split; [exact E1|]. split; [vm_compute; discriminate|]. split; [rewrite K2; vm_compute; reflexivity|].
  destruct (option_map _ _) as [[[[]| | |] t]|]; try discriminate K4. apply str_eqb_eq in K4. rewrite K4. reflexivity.
Qed.
