(** Property C66: a client of a server on properly made models succeeds. *)
From Coq Require Import Reals String Ascii.
From Verif Require Import Base Field FieldR LmModel LmProofs TextModel HubModel FactoryModel.
From Verif Require Import NgramProps2 PpmReadModel BigramModel HubSpec HubProofs HubProps HubMix HubLive HubLiveInst HubLive2 HubDist HubDistInst HubNorm HubAccept HubAcceptInst.
From Verif Require Import ServerModel ServerEvolve ServerQuery ServerProps ServerProps2 ServerSim ServerUpdate FactoryProps FactoryProps2 FactoryProps3 FactoryProps4 FactoryProps5 FactoryProps6 HubVocab FactoryVocabProps.
From Verif Require Import ClientModel ClientSpec ClientProofs ClientBits ClientProps ClientServe ClientServeBits ConnectModel.
Local Open Scope Z_scope.
Close Scope string_scope.
Local Notation length := List.length.

(** Configurations whose replies are never empty and whose weights do not depend on the text: one model (or the
    first of several) that is not a word model, or a mixture with fixed positive weights and at least one such
    model. *)
Definition steady {F : ofield} (c : model_hub_config F) : Prop :=
  (mh_mixture c = MixNone \/ mh_bayes c <= 0) /\
  ((mh_mixture c = MixNone \/ (length (mh_models c) < 2)%nat) /\
     (exists mc, nth_error (mh_models c) 0 = Some mc /\ mc_type mc <> WORD_NGRAM_FST) \/
   (mh_mixture c = MixInterpolation /\ (2 <= length (mh_models c))%nat /\
     (forall x, In x (map mc_weight (mh_models c)) -> flt f0 x = true) /\
     exists mc, In mc (mh_models c) /\ mc_type mc <> WORD_NGRAM_FST)).

Section C66.
  Context {F : ofield}.
  Variable ext : externals F.
  Variable d : disk F.
  Variable c : model_hub_config F.
  Variable b : Z.
  Variable h0 : hub F (any_model F).
  Hypothesis X : externals_ok ext.
  Hypothesis N : mh_models c <> [].
  Hypothesis E : make_model_hub ext d c = Ok h0.
  Hypothesis W : Forall2 (well_made ext d b) (mh_models c) (h_lms h0).
  Hypothesis St : steady c.
  Hypothesis Mx : h_max h0 <= 2 ^ 31.
  Variable unicode : string -> list Z.
  Variable encode : str -> string.
  Variable m : nat.
  Hypothesis U : forall s, (length (unicode s) <= String.length s)%nat.
  Hypothesis Upos : forall s x, In x (unicode s) -> 0 <= x.
  (** No symbol of the models takes more than [m] bytes. *)
  Hypothesis Sym : forall m0 k, In m0 (consulted c (h_lms h0)) -> In k (vocabulary m0) -> (String.length (encode k) <= m)%nat.

  Lemma guard0 l : mh_mixture c = MixNone \/ mh_bayes c <= 0 \/ reqs_guarded any_ops h0 l.
  Proof. destruct St as [[G|G] _]; auto. Qed.
  (** So no symbol that is ever offered does (C67). *)
  Lemma Short l rs h sc k v : reqs_cost l <= b -> handle_all any_ops h0 l = Ok (rs, h) -> In (ScoresReply sc) rs -> In (k, v) (sc_entries sc) ->
    (String.length (encode k) <= m)%nat.
  Proof.
    intros Hc El I Ik. destruct (C67_symbols ext d c b h0 X N E W l rs h sc Hc (guard0 l) El I) as [K _].
    destruct (K k) as (m0 & H1 & H2); [apply in_map_iff; exists (k, v); auto|]. eauto.
  Qed.

  Notation srv := (connect (any_ops (F := F)) unicode encode).

  Lemma steady_weights : exists ws : list (car F), h_weights h0 = map Val ws /\ (forall w, In w ws -> flt f0 w = true) /\
    (h_bayes h0 = 0%nat) /\
    ((1 <= length ws)%nat /\ (exists mc, nth_error (mh_models c) 0 = Some mc /\ mc_type mc <> WORD_NGRAM_FST) \/
     length ws = length (mh_models c) /\ exists mc, In mc (mh_models c) /\ mc_type mc <> WORD_NGRAM_FST).
  Proof.
    destruct (made_init ext d c b h0 N E W) as (ms & Ei & Em & Lm). destruct (initialize_ok _ _ _ _ Ei) as (_ & _ & _ & _ & _ & _ & A).
    destruct St as [S0 [[Hm S1]|(Ht & Hn & Hp & S1)]].
    - exists [f1]. cbn [cfg_type hub_config_of cfg_weights] in A. rewrite map_length in A.
      assert (Hw : h_weights h0 = map Val [f1] /\ h_bayes h0 = 0%nat).
      { destruct (mh_mixture c); [apply A| |destruct A].
        destruct Hm as [Hm|Hm]; [discriminate|]. destruct (Nat.ltb_spec (length (mh_models c)) 2); [apply A|lia]. }
      destruct Hw as [Hw Hb]. split; [auto|]. split; [intros w [<-|[]]; apply f1_pos|]. split; [auto|]. left. split; auto.
    - assert (Hn' : (2 <= length (cfg_weights (hub_config_of c)))%nat) by (cbn [cfg_weights hub_config_of]; rewrite map_length; auto).
      destruct (init_weights _ _ _ _ _ _ Ei Ht Hn' Hp) as (Hw & Hbay & PosW).
      exists (priors (hub_config_of c)). split; [auto|]. split.
      { intros w Iw. unfold priors in Iw. apply in_map_iff in Iw. destruct Iw as [x [<- Ix]]. apply fdiv_pos; auto. }
      split; [rewrite Hbay; cbn [cfg_bayes hub_config_of]; destruct S0 as [S0|S0]; [congruence|lia]|].
      right. split; [unfold priors; cbn [cfg_weights hub_config_of]; rewrite !map_length; auto|auto].
  Qed.

  (** Every list of scores in a reply reaches the client as a distribution. *)
  Lemma reply_fine l rs h sc : reqs_cost l <= b -> handle_all any_ops h0 l = Ok (rs, h) -> In (ScoresReply sc) rs ->
    exists r, msg_of encode sc = Some r /\ fine_reply m r /\
      map encode (map fst (sc_entries sc)) = msg_symbols r /\ map snd (sc_entries sc) = map Val (msg_probs r).
  Proof.
    intros Hc El I. destruct (made_live ext d c b h0 X N E W) as (_ & En & _).
    destruct steady_weights as (ws & Hw & Hp & Hb & Hs).
    destruct (all_scores any_ops any_inv any_valid is_word any_answers any_dist l b h0 rs h (made_fit ext d c b h0 X N E W) En Hc (or_introl Hb) El sc I)
      as (h1 & b1 & s & h2 & Fi & SC & Ex & R). destruct SC as (_ & Sw & Sb & _).
    assert (D : is_distribution (sc_entries sc)).
    { destruct (extract_static any_ops any_inv any_valid is_word any_dist b1 h1 s ws sc h2 Fi) as [D|[D S]]; auto; [left; congruence|congruence|].
      exfalso. pose proof (silent_types ext d c b h0 N E W h1 _ R S) as Ty.
      destruct Hs as [[L1 (mc & Hmc & Nt)]|[L1 (mc & Hmc & Nt)]].
      - apply Nt, (Ty 0%nat); auto. lia.
      - apply In_nth_error in Hmc. destruct Hmc as [k Hk]. apply Nt, (Ty k); auto. apply nth_error_Some_lt in Hk. lia. }
    assert (Ne : sc_entries sc <> []).
    { intros Z. destruct D as (_ & _ & D). rewrite Z in D. cbn in D. pose proof (@f1_pos F) as P. rewrite <- D in P. apply flt_irrefl in P. auto. }
    destruct (extract_norm any_ops any_inv any_valid any_norm b1 h1 s ws sc h2 Fi) as (n & Hn & Np); auto; [left; congruence|congruence|].
    assert (Sh : forall k v, In (k, v) (sc_entries sc) -> (String.length (encode k) <= m)%nat) by (intros; eapply Short; eauto).
    destruct D as (_ & D2 & D3).
    assert (K : exists ps, numbers (map snd (sc_entries sc)) = Some ps /\ map snd (sc_entries sc) = map Val ps /\ values (sc_entries sc) = ps /\
              (forall p, In p ps -> fle f0 p = true)).
    { clear - D2. induction (sc_entries sc) as [|[k v] t IH].
      - exists []. split; [reflexivity|]. split; [reflexivity|]. split; [reflexivity|intros p []].
      - destruct IH as (ps & I1 & I2 & I3 & I4); [intros k0 v0 I0; apply (D2 k0 v0); right; auto|].
        destruct (D2 k v (or_introl eq_refl)) as (p & -> & P0). exists (p :: ps).
        cbn [map snd numbers]. rewrite I1. split; [reflexivity|]. split; [cbn [map]; congruence|]. split.
        + unfold values in *. cbn [map snd]. f_equal. exact I3.
        + intros p' [<-|I']; auto. }
    destruct K as (ps & K1 & K2 & K3 & K4). unfold msg_of. rewrite Hn, K1.
    exists (mk_scores ps (map encode (map fst (sc_entries sc))) n). split; [reflexivity|].
    assert (Len : length ps = length (sc_entries sc)) by (rewrite <- K3; unfold values; apply map_length).
    split; [|split; [reflexivity|exact K2]]. constructor; cbn [msg_probs msg_symbols msg_norm].
    - split; cbn [msg_probs msg_symbols]; [rewrite !map_length; auto|]. intros ->. destruct (sc_entries sc); [congruence|discriminate Len].
    - exact Np.
    - exact K4.
    - rewrite <- K3. exact D3.
    - intros y Hy. rewrite map_map in Hy. apply in_map_iff in Hy. destruct Hy as ([k v] & <- & Hy). eapply Sh; eauto.
  Qed.

  (** What the client relies on at every moment: the server has answered all that was asked, the state is one
      it gave out, and there is room for [n] more characters. *)
  Definition room (n : nat) (h : hub F (any_model F)) (st : Z) : Prop := exists l rs,
    handle_all any_ops h0 l = Ok (rs, h) /\ reqs_cost l + Z.of_nat n <= b /\ Z.of_nat (1 + traffic l + 4 * n) < h_max h0 /\
    int32 st /\ 0 <= st /\ given_out l rs st.

  Lemma handle_snoc l rs (h : hub F (any_model F)) q rep h' : handle_all any_ops h0 l = Ok (rs, h) -> handle any_ops h q = Ok (rep, h') ->
    handle_all any_ops h0 (l ++ [q]) = Ok (rs ++ [rep], h').
  Proof. intros E1 E2. rewrite handle_all_app, E1. cbn [bind handle_all]. rewrite E2. reflexivity. Qed.
  Lemma given_snoc l rs q (rep : reply F) s : given_out l rs s -> given_out (l ++ [q]) (rs ++ [rep]) s.
  Proof.
    intros [G|(i & s0 & w & G1 & G2 & G3)]; [left; auto|right]. exists i, s0, w. split; [|split; [auto|]].
    - rewrite nth_error_app1; auto. apply nth_error_Some. congruence.
    - rewrite nth_error_app1; auto. apply nth_error_Some. congruence.
  Qed.
  Lemma U0 : unicode ""%string = [].
  Proof. pose proof (U ""%string) as H. cbn in H. destruct (unicode ""%string); [reflexivity|cbn in H; lia]. Qed.
  Lemma last_in (rs : list (reply F)) x : In x (rs ++ [x]). Proof. apply in_or_app. right. left. auto. Qed.

  (** A call for scores, after any context. *)
  Lemma call_scores l rs h s ctx : handle_all any_ops h0 l = Ok (rs, h) -> reqs_cost l <= b ->
    unicode ctx <> [] \/ (int32 s /\ given_out l rs s) ->
    exists sc r h', handle any_ops h (GetLMScoresReq s (unicode ctx)) = Ok (ScoresReply sc, h') /\ msg_of encode sc = Some r /\
      rpc_scores srv h ctx s = (Some r, h') /\ fine_reply m r.
  Proof.
    intros El Hc Hs. destruct (C65_scores_given ext d c b h0 X N E W l rs h s (unicode ctx) Hc (guard0 l) El Hs) as (sc & h' & Eh).
    destruct (reply_fine (l ++ [GetLMScoresReq s (unicode ctx)]) (rs ++ [ScoresReply sc]) h' sc) as (r & Er & Fr & _).
    - rewrite cost_snoc. cbn [req_cost]. lia.
    - eapply handle_snoc; eauto.
    - apply last_in.
    - exists sc, r, h'. split; [auto|]. split; [auto|]. split; [|auto]. cbn [rpc_scores connect]. unfold call. rewrite Eh. cbn [scores_in]. rewrite Er. reflexivity.
  Qed.

  (** A call for the next state. *)
  Lemma call_next l rs h s ctx : handle_all any_ops h0 l = Ok (rs, h) -> reqs_cost l <= b ->
    unicode ctx <> [] \/ (int32 s /\ given_out l rs s) ->
    exists t h', handle any_ops h (GetNextStateReq s (unicode ctx)) = Ok (StateReply t, h') /\
      rpc_next srv h ctx s = (Some t, h') /\ int32 t /\ 0 <= t /\
      given_out (l ++ [GetNextStateReq s (unicode ctx)]) (rs ++ [StateReply t]) t.
  Proof.
    intros El Hc Hs. destruct (C65_next_state_given ext d c b h0 X N E W l rs h s (unicode ctx) Hc (guard0 l) El Hs Mx) as (t & h' & _ & _ & Eh & Rt & _).
    exists t, h'. split; [auto|]. split; [cbn [rpc_next connect]; unfold call; rewrite Eh; reflexivity|].
    assert (It : int32 t) by (unfold int32; lia). split; [auto|]. split; [lia|].
    destruct (unicode ctx) as [|x w] eqn:Eu.
    - destruct Hs as [Hs|[I Hs]]; [congruence|]. cbn [handle] in Eh. unfold handle_get_next_state, hub_context in Eh. cbn [hub_context_loop bind] in Eh.
      injection Eh as Et _. rewrite to_int_id in Et by auto.
      assert (t = 0 \/ t = s) as [->| ->] by (destruct (Z.ltb_spec s 0); auto). { left. lia. } apply given_snoc. auto.
    - right. exists (length l), s, (x :: w). split; [rewrite nth_error_app2, Nat.sub_diag by lia; reflexivity|]. split; [discriminate|].
      assert (L : length rs = length l) by (eapply replies_length; eauto). rewrite nth_error_app2, L, Nat.sub_diag by lia. reflexivity.
  Qed.

  (** The server keeps answering. *)
  Lemma hub_serves : serves srv unicode m room.
  Proof.
    constructor.
    - intros n h st (l & rs & El & Hc & T & I & S0 & G). rewrite to_int_id by auto.
      destruct (call_scores l rs h st ""%string El) as (sc & r & h' & Eh & Er & Ec & Fr); [lia|auto|].
      exists r, h'. split; [auto|]. split; [auto|]. exists (l ++ [GetLMScoresReq st (unicode ""%string)]), (rs ++ [ScoresReply sc]).
      split; [eapply handle_snoc; eauto|]. rewrite U0. split; [rewrite cost_snoc; cbn [req_cost]; lia|].
      split; [rewrite traffic_app; cbn [traffic fold_right req_symbols req_context length]; lia|]. split; [auto|]. split; [auto|apply given_snoc; auto].
    - intros n h st s (l & rs & El & Hc & T & I & S0 & G) Hn. unfold moves. rewrite to_int_id by auto.
      set (w := unicode s) in *.
      destruct (C65_update_accepted_partial ext d c b h0 X N E W l rs h st w 1) as (sc & h1 & E1); auto.
      { rewrite cost_snoc. cbn [req_cost]. unfold learn_cost. lia. }
      { apply guard0. }
      { apply Upos. }
      { rewrite traffic_app. cbn [traffic fold_right req_symbols]. lia. }
      assert (El1 : handle_all any_ops h0 (l ++ [UpdateLMScoresReq st w 1]) = Ok (rs ++ [ScoresReply sc], h1)) by (eapply handle_snoc; eauto).
      assert (Hc1 : reqs_cost (l ++ [UpdateLMScoresReq st w 1]) = reqs_cost l + Z.of_nat (length w)).
      { rewrite cost_snoc. cbn [req_cost]. unfold learn_cost. lia. }
      destruct (reply_fine (l ++ [UpdateLMScoresReq st w 1]) (rs ++ [ScoresReply sc]) h1 sc) as (r & Er & Fr & _); [lia|exact El1|apply last_in|].
      destruct (call_next _ _ h1 st s El1) as (t & h2 & E2 & Ec2 & It & T0 & Gt); [lia|right; split; [auto|apply given_snoc; auto]|].
      exists t, r, h2. split; [|split; [auto|]].
      + exists h1. split; [|split; [apply (fr_form Fr)|auto]]. cbn [rpc_update connect]. unfold call. rewrite E1. cbn [scores_in]. rewrite Er. reflexivity.
      + eexists _, _. split; [eapply handle_snoc; [exact El1|exact E2]|]. rewrite cost_snoc, Hc1. cbn [req_cost]. split; [lia|].
        split; [rewrite !traffic_app; cbn [traffic fold_right req_symbols req_context]; fold w; lia|]. auto.
    - intros n h st (l & rs & El & Hc & T & _). exists l, rs. split; [auto|]. split; [auto|]. split; [auto|]. split; [unfold int32; lia|]. split; [lia|left; lia].
  Qed.

  (** The entries of a reply as the client lists them. *)
  Definition client_view (l : list (str * num F)) : list (car F * string) :=
    map (fun '(k, v) => (match v with Val p => p | NaN => f0 end, encode k)) l.
  Lemma view_combine (l : list (str * num F)) ps : map snd l = map Val ps -> combine ps (map encode (map fst l)) = client_view l.
  Proof.
    revert ps. induction l as [|[k v] t IH]; intros [|p ps] H; try discriminate H; [reflexivity|].
    cbn [map snd fst] in *. injection H as -> H. cbn [combine client_view map]. f_equal. apply IH. auto.
  Qed.

  Lemma start_given l (rs : list (reply F)) : int32 (-1) /\ given_out l rs (-1).
  Proof. split; [unfold int32; lia|left; lia]. Qed.

  (** k-best, whatever was asked and learned before (states may have been recycled): for any context, the k most
      probable of the symbols the server offers after it. *)
  Theorem C66_k_best : forall sort, sort_spec sort -> forall l rs h ctx,
    handle_all any_ops h0 l = Ok (rs, h) -> reqs_cost l <= b ->
    exists sc h', handle any_ops h (GetLMScoresReq (-1) (unicode ctx)) = Ok (ScoresReply sc, h') /\ sc_entries sc <> [] /\
      forall k, (k <= length (sc_entries sc))%nat -> exists best rest,
        one_kbest sort (Some srv) h (Z.of_nat k) ctx = (Ok best, h') /\ length best = k /\
        Permutation (client_view (sc_entries sc)) (best ++ rest) /\
        StronglySorted (fun x y => fle (fst y) (fst x) = true) best /\
        (forall x y, In x best -> In y rest -> fle (fst y) (fst x) = true).
  Proof.
    intros sort Hs l rs h ctx El Hc.
    destruct (call_scores l rs h (-1) ctx El Hc (or_intror (start_given l rs))) as (sc & r & h' & Eh & Er & Ec & Fr).
    exists sc, h'. split; [auto|].
    destruct (reply_fine (l ++ [GetLMScoresReq (-1) (unicode ctx)]) (rs ++ [ScoresReply sc]) h' sc) as (r' & Er' & _ & Sy & Pr).
    { rewrite cost_snoc. cbn [req_cost]. lia. } { eapply handle_snoc; eauto. } { apply last_in. }
    rewrite Er in Er'. injection Er' as <-.
    assert (Len : length (msg_probs r) = length (sc_entries sc)) by (apply (f_equal (@length _)) in Pr; rewrite !map_length in Pr; auto).
    split. { intros Z. rewrite Z in Len. destruct (fr_form Fr) as [_ Ne]. destruct (msg_probs r); [auto|discriminate Len]. }
    intros k Hk. destruct (C46_k_best sort Hs srv h (Z.of_nat k) ctx r h' Ec (fr_form Fr) (fr_norm Fr)) as (best & rest & B1 & B2 & B3 & B4 & B5); [lia|].
    exists best, rest. rewrite Nat2Z.id in B2. rewrite <- Sy, view_combine in B3 by auto. auto.
  Qed.

  (** Random generation: for any context and any numbers drawn it succeeds, and its text is the context followed by
      symbols each selected by its draw from what the server offered, if there is room for 128 bytes and the
      longest symbol. *)
  Theorem C66_rand_gen_partial : forall sort, sort_spec sort -> forall draws l rs h ctx,
    handle_all any_ops h0 l = Ok (rs, h) -> reqs_cost l + Z.of_nat (128 + m) <= b ->
    Z.of_nat (1 + traffic l + length (unicode ctx) + 4 * (128 + m)) < h_max h0 ->
    exists R ss e st r w2,
      (forall fuel, (128 <= fuel)%nat -> rand_gen sort unicode fuel (Some srv) draws h ctx = Some R) /\
      rg_status R = Ok tt /\ (e = EndOfText \/ e = LimitReached) /\
      rg_text R = (ctx ++ concat_all ss ++ note e)%string /\
      opens srv h ctx st r w2 /\
      generates srv unicode (rank_by sort) draws w2 st r 0 128 ss e (rg_world R) (rg_draws R).
  Proof.
    intros sort Hs draws l rs h ctx El Hc T.
    destruct (call_next l rs h (-1) ctx El) as (st & h1 & E1 & Ec1 & I1 & S1 & G1); [lia|right; apply start_given|].
    pose proof (handle_snoc _ _ _ _ _ _ El E1) as El1.
    assert (Rm : room (128 + m) h1 st).
    { eexists _, _. split; [exact El1|]. rewrite cost_snoc, traffic_app. cbn [req_cost traffic fold_right req_symbols req_context]. split; [lia|]. split; [lia|auto]. }
    destruct (sv_scores _ _ _ _ hub_serves _ _ _ Rm) as (r & h2 & E2 & Fr & Rm2).
    assert (O : opens srv h ctx st r h2). { exists h1. split; [auto|]. split; [auto|]. split; [apply (fr_form Fr)|apply (fr_norm Fr)]. }
    destruct (rand_gen_succeeds srv unicode m room hub_serves sort Hs U draws h ctx st r h2 _ O Rm2 Fr (le_n _)) as (R & ss & e & C & K1 & K2 & K3 & K4).
    exists R, ss, e, st, r, h2. split; [auto|]. split; [auto|]. split; [destruct e; auto; congruence|]. auto.
  Qed.
End C66.

(** Bits per character (over the real numbers): for any text with at least one line, a positive number of at most
    log2 (143859 / eps) bits, if there is room for the characters of the text. *)
Theorem C66_bits_partial : forall (ext : externals R_field) d c b h0 unicode encode m chars sort,
  externals_ok ext -> mh_models c <> [] -> make_model_hub ext d c = Ok h0 ->
  Forall2 (well_made ext d b) (mh_models c) (h_lms h0) -> steady c -> h_max h0 <= 2 ^ 31 ->
  (forall s, (length (unicode s) <= String.length s)%nat) -> (forall s x, In x (unicode s) -> 0 <= x) ->
  (forall m0 k, In m0 (consulted c (h_lms h0)) -> In k (vocabulary m0) -> (String.length (encode k) <= m)%nat) ->
  sort_spec sort ->
  forall l rs h content, handle_all any_ops h0 l = Ok (rs, h) -> text_lines content <> [] ->
  let symbols := flat_map chars (text_lines content) in
  let n := sent unicode symbols in
  reqs_cost l + Z.of_nat n <= b -> Z.of_nat (1 + traffic l + 4 * n) < h_max h0 ->
  exists tr os x h',
    calc_bits_per_character sort unicode chars (Some (connect any_ops unicode encode)) h (Some content) =
      (Ok (Z.of_nat (length symbols + length (text_lines content)), Z.of_nat (oov os), Some x), h') /\
    (0 < x <= log2 (143859 / kMixEpsilon))%R /\
    x = (sum (map code_length os) / INR (length tr))%R /\
    text_scored unicode chars (connect any_ops unicode encode) h (text_lines content) tr h' /\ Forall2 scored tr os.
Proof.
  intros ext d c b h0 unicode encode m chars sort X N E W St Mx U Up Sh Hs l rs h content El Hl symbols n Hc T.
  pose proof (hub_serves ext d c b h0 X N E W St Mx unicode encode m U Up Sh) as Sv.
  assert (Rm : room b h0 n h 0).
  { exists l, rs. split; [auto|]. split; [auto|]. split; [auto|]. split; [unfold int32; lia|]. split; [lia|left; lia]. }
  destruct (bits_succeed _ _ chars _ _ Sv sort Hs U h 0 content n Rm (le_n _)) as (tr & os & h' & Ts & Fa & Sc & Ec & Bd).
  pose proof (ClientProps2.C47_symbols unicode chars _ _ _ _ _ Ts) as Sy.
  assert (Len : length tr = (length symbols + length (text_lines content))%nat).
  { apply (f_equal (@length _)) in Sy. rewrite map_length in Sy. rewrite Sy. unfold symbols. clear.
    induction (text_lines content) as [|x t IH]; [reflexivity|]. cbn [flat_map]. rewrite !app_length, IH. cbn [length]. lia. }
  assert (Nt : tr <> []) by (intros ->; destruct (text_lines content); [auto|cbn [length] in Len; lia]).
  exists tr, os, (sum (map code_length os) / INR (length tr))%R, h'. rewrite <- Len. split; [|auto].
  rewrite Ec. destruct tr; [contradiction|reflexivity].
Qed.

(** ** What the hypotheses exclude, and that they are met *)

(** Texts of ASCII characters. *)
Fixpoint ascii_codes (s : string) : list Z := match s with EmptyString => [] | String a t => Z.of_nat (nat_of_ascii a) :: ascii_codes t end.
Fixpoint ascii_text (k : str) : string := match k with [] => EmptyString | x :: t => String (ascii_of_nat (Z.to_nat x)) (ascii_text t) end.
Notation ascii_server := (connect (any_ops (F := Qc_field)) ascii_codes ascii_text).
Lemma ascii_length s : (length (ascii_codes s) <= String.length s)%nat.
Proof. induction s; cbn; lia. Qed.
Lemma ascii_pos s x : In x (ascii_codes s) -> 0 <= x.
Proof. induction s as [|a s IH]; cbn; [intros []|intros [<-|H]; [lia|auto]]. Qed.

(** A word model alone: after a word it does not know the reply is empty, and k-best and random generation end in
    an error. *)
Theorem C66_unknown_word_refuted : exists h0,
  make_model_hub four_ext four_disk words_only = Ok h0 /\
  fst (one_kbest sort_desc (Some ascii_server) h0 1 "abc") = Err /\
  option_map (fun R => (rg_status R, rg_text R)) (rand_gen sort_desc ascii_codes 200 (Some ascii_server) (fun _ => q 1 2) h0 "abc") = Some (Err, "abc"%string).
Proof.
  assert (K : match make_model_hub four_ext four_disk words_only with
              | Ok h0 => match fst (one_kbest sort_desc (Some ascii_server) h0 1 "abc") with Err => true | _ => false end &&
                  match option_map (fun R => (rg_status R, rg_text R)) (rand_gen sort_desc ascii_codes 200 (Some ascii_server) (fun _ => q 1 2) h0 "abc") with
                  | Some (Err, t) => String.eqb t "abc" | _ => false end
              | _ => false end = true) by vmr.
  destruct (make_model_hub four_ext four_disk words_only) as [h0| | |] eqn:E; [|discriminate K..].
  apply andb_prop in K. destruct K as [K1 K2]. exists h0. split; [reflexivity|]. split.
  - destruct (fst (one_kbest _ _ _ _ _)); try discriminate K1. reflexivity.
  - destruct (option_map _ _) as [[[| | |] t]|]; try discriminate K2. apply String.eqb_eq in K2. rewrite K2. reflexivity.
Qed.

(** A pool of ten states, used up by an earlier request: the generation starts in the state that is recycled next,
    which then follows itself; when it is recycled again the update for its successor is refused, and the generation
    ends in an error after ten characters, all of them known to the models. *)
Definition small_pool : model_hub_config Qc_field := ModelHubConfig (firstn 2 (mh_models four_config)) MixInterpolation 10 0.
Definition nine_chars : list request := [GetNextStateReq 0 [97; 97; 97; 97; 97; 97; 97; 97; 97]].
Theorem C66_small_pool_refuted : exists h0 rs h,
  make_model_hub four_ext four_disk small_pool = Ok h0 /\ steady small_pool /\
  handle_all any_ops h0 nine_chars = Ok (rs, h) /\
  option_map (fun R => (rg_status R, rg_text R, rg_draws R)) (rand_gen sort_desc ascii_codes 200 (Some ascii_server) (fun _ => q 1 2) h "a") =
    Some (Err, "abababababa"%string, 10%nat).
Proof.
  assert (K : match make_model_hub four_ext four_disk small_pool with
              | Ok h0 => match handle_all any_ops h0 nine_chars with
                  | Ok (_, h) => match option_map (fun R => (rg_status R, rg_text R, rg_draws R)) (rand_gen sort_desc ascii_codes 200 (Some ascii_server) (fun _ => q 1 2) h "a") with
                     | Some (Err, t, k) => String.eqb t "abababababa" && (k =? 10)%nat | _ => false end
                  | _ => false end
              | _ => false end = true) by vmr.
  destruct (make_model_hub four_ext four_disk small_pool) as [h0| | |] eqn:E; [|discriminate K..].
  destruct (handle_all any_ops h0 nine_chars) as [[rs h]| | |] eqn:E1; [|discriminate K..].
  exists h0, rs, h. split; [reflexivity|]. split; [|split; [exact E1|]].
  - split; [right; cbn; lia|]. right. split; [reflexivity|]. split; [cbn; lia|]. split.
    + intros x H. cbn [small_pool mh_models firstn four_config map mc_weight In] in H. destruct H as [<-|[<-|[]]]; reflexivity.
    + eexists. split; [left; reflexivity|discriminate].
  - destruct (option_map _ _) as [[[[| | |] t] k]|]; try discriminate K. apply andb_prop in K. destruct K as [K1 K2].
    apply String.eqb_eq in K1. apply Nat.eqb_eq in K2. rewrite K1, K2. reflexivity.
Qed.

(** The hypotheses of k-best and generation are met: three models mixed, with room, after some learning; the two
    calls. *)
Definition roomy : model_hub_config Qc_field := ModelHubConfig (firstn 3 (mh_models four_config)) MixInterpolation 10000 0.
Definition earlier : list request := [GetNextStateReq 0 [97; 98]; UpdateLMScoresReq 2 [99; 97] 3].
Example C66_hypotheses_met : exists h0 rs h,
  externals_ok four_ext /\ mh_models roomy <> [] /\ make_model_hub four_ext four_disk roomy = Ok h0 /\
  Forall2 (well_made four_ext four_disk 1000000) (mh_models roomy) (h_lms h0) /\ steady roomy /\ h_max h0 <= 2 ^ 31 /\
  (forall m0 k, In m0 (consulted roomy (h_lms h0)) -> In k (vocabulary m0) -> (String.length (ascii_text k) <= 1)%nat) /\
  handle_all any_ops h0 earlier = Ok (rs, h) /\ reqs_cost earlier + Z.of_nat (128 + 1) <= 1000000 /\
  Z.of_nat (1 + traffic earlier + length (ascii_codes "ab") + 4 * (128 + 1)) < h_max h0 /\
  match one_kbest sort_desc (Some ascii_server) h 3 "ab" with (Ok best, _) => map snd best = ["a"; "c"; ""]%string | _ => False end /\
  option_map (fun R => (rg_status R, rg_text R)) (rand_gen sort_desc ascii_codes 200 (Some ascii_server) (fun i => q (Z.of_nat (1 + i * 3 mod 7)) 8) h "ab") =
    Some (Ok tt, "abab"%string).
Proof.
  assert (K : match make_model_hub four_ext four_disk roomy with
              | Ok h0 => forall2b (well_madeb four_disk 1000000) (mh_models roomy) (h_lms h0) && (h_max h0 =? 10000) &&
                  forallb (fun m0 => forallb (fun k => String.length (ascii_text k) <=? 1)%nat (vocabulary m0)) (consulted roomy (h_lms h0)) &&
                  match handle_all any_ops h0 earlier with
                  | Ok (_, h) =>
                     match one_kbest sort_desc (Some ascii_server) h 3 "ab" with
                     | (Ok best, _) => match map snd best with [a; b; c] => String.eqb a "a" && String.eqb b "c" && String.eqb c "" | _ => false end
                     | _ => false end &&
                     match option_map (fun R => (rg_status R, rg_text R)) (rand_gen sort_desc ascii_codes 200 (Some ascii_server) (fun i => q (Z.of_nat (1 + i * 3 mod 7)) 8) h "ab") with
                     | Some (Ok tt, t) => String.eqb t "abab" | _ => false end
                  | _ => false end
              | _ => false end = true) by vmr.
  destruct (make_model_hub four_ext four_disk roomy) as [h0| | |] eqn:E; [|discriminate K..].
  apply andb_prop in K. destruct K as [K K4]. apply andb_prop in K. destruct K as [K K3]. apply andb_prop in K. destruct K as [K1 K2].
  destruct (handle_all any_ops h0 earlier) as [[rs h]| | |] eqn:E1; [|discriminate K4..]. apply Z.eqb_eq in K2.
  exists h0, rs, h. split; [split; [apply check_fst_sound|intros; cbn; lia]|]. split; [discriminate|]. split; [reflexivity|].
  split; [revert K1; apply forall2b_sound; intros c m; apply well_madeb_sound|]. split.
  { split; [right; cbn; lia|]. right. split; [reflexivity|]. split; [cbn; lia|]. split.
    + intros x H. cbn [roomy mh_models firstn four_config map mc_weight In] in H. destruct H as [<-|[<-|[<-|[]]]]; reflexivity.
    + eexists. split; [left; reflexivity|discriminate]. }
  split; [rewrite K2; vm_compute; discriminate|]. split.
  { intros m0 k I1 I2. rewrite forallb_forall in K3. specialize (K3 _ I1). rewrite forallb_forall in K3. specialize (K3 _ I2). apply Nat.leb_le. auto. }
  split; [exact E1|]. split; [vm_compute; discriminate|]. split; [rewrite K2; vm_compute; reflexivity|].
  apply andb_prop in K4. destruct K4 as [K4 K5]. split.
  - destruct (one_kbest _ _ _ _ _) as [[best| | |] ?]; try discriminate K4.
    destruct (map snd best) as [|x [|y [|z [|]]]]; try discriminate K4.
    apply andb_prop in K4. destruct K4 as [K4 K6]. apply andb_prop in K4. destruct K4 as [K4 K7].
    apply String.eqb_eq in K4, K6, K7. congruence.
  - destruct (option_map _ _) as [[[[]| | |] t]|]; try discriminate K5. apply String.eqb_eq in K5. rewrite K5. reflexivity.
Qed.

(** Over the real numbers: the bigram model of FactoryProps.v. *)
Definition real_ext : externals R_field := Externals (fun _ _ => false) (fun _ => 0) (fun _ _ => Err).
Definition real_disk : disk R_field := fun p => option_map (fun f => File (f_bytes f) [] None None None) (ex_disk p).
Definition real_config : model_hub_config R_field :=
  ModelHubConfig [ModelConfig SIMPLE_CHAR_BIGRAM (ModelStorage "c" "v" (PpmOptions 0 f0 f0 false 0) false 0) f1] MixNone 10000 0.
Example C66_bits_hypotheses_met : exists h0 rs h content,
  externals_ok real_ext /\ mh_models real_config <> [] /\ make_model_hub real_ext real_disk real_config = Ok h0 /\
  Forall2 (well_made real_ext real_disk 1000) (mh_models real_config) (h_lms h0) /\ steady real_config /\ h_max h0 <= 2 ^ 31 /\
  (forall m0 k, In m0 (consulted real_config (h_lms h0)) -> In k (vocabulary m0) -> (String.length (ascii_text k) <= 1)%nat) /\
  handle_all any_ops h0 [GetNextStateReq 0 [97; 98]] = Ok (rs, h) /\ text_lines content <> [] /\
  let n := sent ascii_codes (flat_map (fun s => map (fun x => ascii_text [x]) (ascii_codes s)) (text_lines content)) in
  n = 5%nat /\ reqs_cost [GetNextStateReq 0 [97; 98]] + Z.of_nat n <= 1000 /\
  Z.of_nat (1 + traffic [GetNextStateReq 0 [97; 98]] + 4 * n) < h_max h0.
Proof.
  set (l := [GetNextStateReq 0 [97; 98]]).
  assert (K : match make_model_hub real_ext real_disk real_config with
              | Ok h0 => (match h_lms h0 with [Bg m] => bigram_counts m = [[1; 2]; [3; 4]] /\ utf8_indices m = [0; 97] | _ => False end /\ h_max h0 = 10000) /\
                         is_ok (handle_all any_ops h0 l) = true
              | _ => False end).
  { vm_compute. repeat split. }
  destruct (make_model_hub real_ext real_disk real_config) as [h0| | |] eqn:E; [|destruct K..].
  destruct K as [[K1 K2] K3]. destruct (handle_all any_ops h0 l) as [[rs h]| | |] eqn:E1; [|discriminate K3..].
  exists h0, rs, h, (map (fun x => ascii_of_nat x) [97; 98; 99; 10; 98; 97]%nat).
  split; [split; [intros ? ? ?; discriminate|intros; cbn; lia]|]. split; [discriminate|]. split; [reflexivity|].
  assert (L : exists m, h_lms h0 = [Bg m] /\ bigram_counts m = [[1; 2]; [3; 4]] /\ utf8_indices m = [0; 97]).
  { destruct (h_lms h0) as [|[m|m|m|m] [|]]; try destruct K1. eauto. }
  destruct L as (m & L & Lc & Lu). split.
  { rewrite L. constructor; [|constructor]. cbn [well_made]. rewrite Lc. intros row x I J. change int64_max with 9223372036854775807.
    cbn [In] in I. destruct I as [<-|[<-|[]]]; cbn [In] in J; intuition lia. }
  split. { split; [left; reflexivity|]. left. split; [left; reflexivity|]. eexists. split; [reflexivity|discriminate]. }
  split; [rewrite K2; vm_compute; discriminate|]. split.
  { intros m0 k I1 I2. unfold consulted in I1. cbn [real_config mh_mixture] in I1. rewrite L in I1. destruct I1 as [<-|[]].
    cbn [vocabulary] in I2. rewrite Lu in I2. cbn [map In] in I2. destruct I2 as [<-|[<-|[]]]; cbn; lia. }
  split; [exact E1|]. split; [vm_compute; discriminate|]. split; [vm_compute; reflexivity|]. split; [vm_compute; discriminate|]. rewrite K2. vm_compute. reflexivity.
Qed.
Print Assumptions C66_k_best.
Print Assumptions C66_rand_gen_partial.
Print Assumptions C66_bits_partial.
Print Assumptions C66_unknown_word_refuted.
Print Assumptions C66_small_pool_refuted.
