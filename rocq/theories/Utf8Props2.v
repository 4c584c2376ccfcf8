(** Property C71, continued: random generation; what the hypotheses exclude, and that they are met. *)
From Coq Require Import Reals String Ascii.
From Verif Require Import Base Field FieldR LmModel LmProofs TextModel TextSpec TextProofs Utf8Model Utf8Proofs HubModel FactoryModel.
From Verif Require Import NgramProps2 PpmReadModel BigramModel HubSpec HubProofs HubProps HubMix HubLive HubLiveInst HubLive2 HubDist HubDistInst HubNorm HubAccept HubAcceptInst.
From Verif Require Import ServerModel ServerEvolve ServerQuery ServerProps ServerProps2 ServerSim ServerUpdate FactoryProps FactoryProps2 FactoryProps3 FactoryProps4 FactoryProps5 FactoryProps6 HubVocab FactoryVocabProps.
From Verif Require Import ClientModel ClientSpec ClientProofs ClientBits ClientProps ClientServe ClientServeBits ConnectModel FactoryProps7 Utf8Spec Utf8Props.
Local Open Scope Z_scope.
Close Scope string_scope.
Local Notation length := List.length.
Local Notation says := Utf8Spec.says.

Lemma concat_encode ks : concat_all (map utf8_encode ks) = utf8_encode (concat ks).
Proof. induction ks as [|k ks IH]; [reflexivity|]. cbn [map concat_all concat]. rewrite encode_app, IH. reflexivity. Qed.
Lemma encode_empty k : utf8_encode k = EmptyString -> k = [].
Proof. destruct k as [|c k]; [reflexivity|]. cbn [utf8_encode]. intros H. apply (f_equal String.length) in H. rewrite append_length in H. pose proof (enc_length c). cbn in H. lia. Qed.

Lemma costs_snoc l q : reqs_cost (l ++ [q]) = reqs_cost l + req_cost q.
Proof. unfold reqs_cost. rewrite fold_right_app. cbn [fold_right]. induction l as [|x l IH]; cbn [fold_right]; lia. Qed.

Section Gen.
  Context {F : ofield}.
  Variable ext : externals F.
  Variable d : disk F.
  Variable c : model_hub_config F.
  Variable b : Z.
  Variable h0 : hub F (any_model F).
  Hypothesis X : externals_ok ext.
  Hypothesis N : mh_models c <> [].
  Hypothesis E : make_model_hub ext d c = Ok h0.
  Hypothesis W : Forall2 (well_made ext d b) (mh_models c) (h_lms h0).
  Hypothesis St : steady c.
  Hypothesis Mx : h_max h0 <= 2 ^ 31.
  Variable m : nat.
  (** The symbols of the models are characters, or at most [m] of them together. *)
  Hypothesis Vo : forall m0 k, In m0 (consulted c (h_lms h0)) -> In k (vocabulary m0) -> Forall scalar k /\ (length k <= m)%nat.
  Variable sort : list (car F * string) -> list (car F * string).
  Hypothesis Hs : sort_spec sort.
  Variable draws : nat -> car F.
  Notation srv := (connect (any_ops (F := F)) utf8_codes utf8_encode).

  Lemma gen_translated h st r k n ss e h' k' : generates srv utf8_codes (rank_by sort) draws h st r k n ss e h' k' ->
    forall l rs sc, handle_all any_ops h0 l = Ok (rs, h) -> In (ScoresReply sc) rs -> msg_of utf8_encode sc = Some r ->
    reqs_cost l + Z.of_nat (n + 4 * m) <= b -> e <> UpdateFailed ->
    exists ks tr, ss = map utf8_encode ks /\ line_read any_ops h st sc ks tr h' /\
      forall k1 sc1, In (k1, sc1) tr -> k1 <> [] /\ Forall scalar k1 /\ In k1 (map fst (sc_entries sc1)).
  Proof.
    assert (Sel : forall l rs h sc r u s, handle_all any_ops h0 l = Ok (rs, h) -> reqs_cost l <= b -> In (ScoresReply sc) rs -> msg_of utf8_encode sc = Some r ->
              selects (rank_by sort r) u s -> s <> EmptyString ->
              exists k1, s = utf8_encode k1 /\ k1 <> [] /\ Forall scalar k1 /\ In k1 (map fst (sc_entries sc)) /\ (length k1 <= m)%nat).
    { intros l rs h1 sc r1 u s El Hc I Er (i & p & Hi & _) Ne. apply nth_error_In in Hi. unfold rank_by in Hi.
      eapply Permutation_in in Hi; [|apply Permutation_sym, (proj1 (Hs _))]. apply in_combine_r in Hi.
      unfold msg_of in Er. destruct (sc_norm sc) as [nn|]; [|discriminate Er]. destruct (numbers (map snd (sc_entries sc))) as [ps|]; [|discriminate Er]. injection Er as <-.
      cbn [msg_symbols] in Hi. apply in_map_iff in Hi. destruct Hi as (k1 & <- & I1).
      destruct (steady_symbols ext d c b h0 X N E W St l rs h1 sc k1 Hc El I I1) as (m0 & J1 & J2). destruct (Vo m0 k1 J1 J2) as [V1 V2].
      exists k1. split; [reflexivity|]. split; [intros ->; apply Ne; reflexivity|]. auto. }
    induction 1 as [h st r k n Hsel|h st r k n s st' r' h' Hsel Ne Mv Hb|h st r k n s h' Hsel Ne Fl|h st r k n s st' r' h' ss e h'' k' Hsel Ne Mv Hb G IH];
      intros l rs sc El I Er Hc He; [| |congruence|].
    - exists [], []. split; [reflexivity|]. split; [constructor|intros ? ? []].
    - destruct (Sel l rs h sc r _ s El ltac:(lia) I Er Hsel Ne) as (k1 & -> & K1 & K2 & K3 & K4).
      destruct (moves_inv h st k1 st' r' h' K2 Mv) as (sc' & h1 & M1 & M2 & M3).
      exists [k1], [(k1, sc)]. split; [reflexivity|]. split; [econstructor; [exact M1|exact M2|constructor]|].
      intros k2 sc2 [I2|[]]. injection I2 as <- <-. auto.
    - destruct (Sel l rs h sc r _ s El ltac:(lia) I Er Hsel Ne) as (k1 & -> & K1 & K2 & K3 & K4).
      destruct (moves_inv h st k1 st' r' h' K2 Mv) as (sc' & h1 & M1 & M2 & M3).
      assert (El1 : handle_all any_ops h0 (l ++ [UpdateLMScoresReq (to_int st) k1 1]) = Ok (rs ++ [ScoresReply sc'], h1)).
      { rewrite handle_all_app, El. cbn [bind handle_all]. rewrite M1. reflexivity. }
      assert (El2 : handle_all any_ops h0 ((l ++ [UpdateLMScoresReq (to_int st) k1 1]) ++ [GetNextStateReq (to_int st) k1]) = Ok ((rs ++ [ScoresReply sc']) ++ [StateReply st'], h')).
      { rewrite handle_all_app, El1. cbn [bind handle_all]. rewrite M2. reflexivity. }
      destruct (IH _ _ sc' El2) as (ks & tr & -> & R & P); [apply in_or_app; left; apply in_or_app; right; left; reflexivity|exact M3| |exact He|].
      { rewrite !costs_snoc. cbn [req_cost]. unfold learn_cost. pose proof (encode_length k1). lia. }
      exists (k1 :: ks), ((k1, sc) :: tr). split; [reflexivity|]. split; [econstructor; eauto|].
      intros k2 sc2 [I2|I2]; [injection I2 as <- <-; auto|eauto].
  Qed.

  (** Random generation after any context of characters: it succeeds, and the text is the UTF-8 form of the context and
      of symbols each offered by the answer that was current, selected by its draw, learned and followed, with the note
      at the end if there were 128 bytes. *)
  Theorem C71_rand_gen_partial : forall l rs h ctx, Forall scalar ctx ->
    handle_all any_ops h0 l = Ok (rs, h) -> reqs_cost l + Z.of_nat (128 + 4 * m) <= b ->
    Z.of_nat (1 + traffic l + length ctx + 4 * (128 + 4 * m)) < h_max h0 ->
    exists R ks e st h1 sc h2 r tr,
      (forall fuel, (128 <= fuel)%nat -> rand_gen sort utf8_codes fuel (Some srv) draws h (utf8_encode ctx) = Some R) /\
      rg_status R = Ok tt /\ (e = EndOfText \/ e = LimitReached) /\
      rg_text R = append (utf8_encode (ctx ++ concat ks)) (note e) /\ Forall scalar (ctx ++ concat ks) /\
      handle any_ops h (GetNextStateReq (-1) ctx) = Ok (StateReply st, h1) /\
      handle any_ops h1 (GetLMScoresReq (to_int st) []) = Ok (ScoresReply sc, h2) /\ msg_of utf8_encode sc = Some r /\
      generates srv utf8_codes (rank_by sort) draws h2 st r 0 128 (map utf8_encode ks) e (rg_world R) (rg_draws R) /\
      line_read any_ops h2 st sc ks tr (rg_world R) /\
      (forall k1 sc1, In (k1, sc1) tr -> k1 <> [] /\ Forall scalar k1 /\ In k1 (map fst (sc_entries sc1))).
  Proof.
    intros l rs h ctx Sx El Hc T.
    assert (Sh : forall m0 k, In m0 (consulted c (h_lms h0)) -> In k (vocabulary m0) -> (String.length (utf8_encode k) <= 4 * m)%nat).
    { intros m0 k I1 I2. destruct (Vo m0 k I1 I2) as [_ L]. pose proof (encode_length k). lia. }
    destruct (C66_rand_gen_partial ext d c b h0 X N E W St Mx utf8_codes utf8_encode (4 * m) codes_short codes_pos Sh sort Hs draws l rs h (utf8_encode ctx) El Hc)
      as (R & ss & e & st & r & h2 & K1 & K2 & K3 & K4 & (h1 & O1 & O2 & _) & G).
    { rewrite (proj1 (C71_round_trip ctx Sx)). exact T. }
    apply next_inv in O1. rewrite (proj1 (C71_round_trip ctx Sx)) in O1. apply scores_inv in O2. destruct O2 as (sc & O2 & Er).
    change (utf8_codes "") with (@nil Z) in O2.
    assert (El1 : handle_all any_ops h0 (l ++ [GetNextStateReq (-1) ctx]) = Ok (rs ++ [StateReply st], h1)).
    { rewrite handle_all_app, El. cbn [bind handle_all]. rewrite O1. reflexivity. }
    assert (El2 : handle_all any_ops h0 ((l ++ [GetNextStateReq (-1) ctx]) ++ [GetLMScoresReq (to_int st) []]) = Ok ((rs ++ [StateReply st]) ++ [ScoresReply sc], h2)).
    { rewrite handle_all_app, El1. cbn [bind handle_all]. rewrite O2. reflexivity. }
    destruct (gen_translated _ _ _ _ _ _ _ _ _ G _ _ sc El2) as (ks & tr & -> & Rd & P).
    { apply in_or_app. right. left. reflexivity. } { exact Er. }
    { rewrite !costs_snoc. cbn [req_cost]. lia. }
    { destruct K3 as [->| ->]; discriminate. }
    exists R, ks, e, st, h1, sc, h2, r, tr. split; [exact K1|]. split; [exact K2|]. split; [exact K3|]. split.
    { rewrite K4, concat_encode, encode_app, append_assoc. reflexivity. }
    split; [|auto 10].
    apply Forall_app. split; [exact Sx|]. assert (Ks : Forall (Forall scalar) ks).
    { clear - Rd P. revert P. induction Rd as [|h st sc k ks sc' h1 st' h2 tr h3 E1 E2 _ IH]; intros P; constructor.
      - apply (P k sc). left. reflexivity.
      - apply IH. intros k1 sc1 I. apply P. right. exact I. }
    clear - Ks. induction Ks as [|k ks Hk _ IH]; [constructor|]. cbn [concat]. apply Forall_app. auto.
  Qed.
End Gen.
Print Assumptions C71_rand_gen_partial.

(** ** Met, and refuted *)
Example C71_euro : utf8_encode [8364; 97; 128512] = string_of_list_ascii (map (fun x => ascii_of_nat x) [226; 130; 172; 97; 240; 159; 152; 128])%nat /\
  utf8_codes (string_of_list_ascii (map (fun x => ascii_of_nat x) [97; 255; 226; 130; 98])%nat) = [97; 65533; 65533; 65533; 98] /\
  utf8_single (string_of_list_ascii (map (fun x => ascii_of_nat x) [195; 169])%nat) = Some 233.
Proof. vm_compute. auto. Qed.

(** Three models mixed, after some learning; characters of one and two bytes. *)
Example C71_rand_gen_hypotheses_met : exists h0 rs h,
  externals_ok four_ext /\ mh_models roomy <> [] /\ make_model_hub four_ext four_disk roomy = Ok h0 /\
  Forall2 (well_made four_ext four_disk 1000000) (mh_models roomy) (h_lms h0) /\ steady roomy /\ h_max h0 <= 2 ^ 31 /\
  (forall m0 k, In m0 (consulted roomy (h_lms h0)) -> In k (vocabulary m0) -> Forall scalar k /\ (length k <= 1)%nat) /\
  handle_all any_ops h0 earlier = Ok (rs, h) /\ reqs_cost earlier + Z.of_nat (128 + 4 * 1) <= 1000000 /\
  Z.of_nat (1 + traffic earlier + length [233; 97] + 4 * (128 + 4 * 1)) < h_max h0.
Proof.
  assert (K : match make_model_hub four_ext four_disk roomy with
              | Ok h0 => forall2b (well_madeb four_disk 1000000) (mh_models roomy) (h_lms h0) && (h_max h0 =? 10000) &&
                  forallb (fun m0 => forallb (fun k => (length k <=? 1)%nat && forallb is_scalar k) (vocabulary m0)) (consulted roomy (h_lms h0)) &&
                  is_ok (handle_all any_ops h0 earlier)
              | _ => false end = true) by vmr.
  destruct (make_model_hub four_ext four_disk roomy) as [h0| | |] eqn:E; [|discriminate K..].
  apply andb_prop in K. destruct K as [K K4]. apply andb_prop in K. destruct K as [K K3]. apply andb_prop in K. destruct K as [K1 K2].
  destruct (handle_all any_ops h0 earlier) as [[rs h]| | |] eqn:E1; [|discriminate K4..]. apply Z.eqb_eq in K2.
  exists h0, rs, h. split; [split; [apply check_fst_sound|intros; cbn; lia]|]. split; [discriminate|]. split; [reflexivity|].
  split; [revert K1; apply forall2b_sound; intros c m; apply well_madeb_sound|]. split.
  { split; [right; cbn; lia|]. right. split; [reflexivity|]. split; [cbn; lia|]. split.
    + intros x H. cbn [roomy mh_models firstn four_config map mc_weight In] in H. destruct H as [<-|[<-|[<-|[]]]]; reflexivity.
    + eexists. split; [left; reflexivity|discriminate]. }
  split; [rewrite K2; vm_compute; discriminate|]. split.
  { intros m0 k I1 I2. rewrite forallb_forall in K3. specialize (K3 _ I1). rewrite forallb_forall in K3. specialize (K3 _ I2).
    apply andb_prop in K3. destruct K3 as [K3 K5]. split; [|apply Nat.leb_le; auto]. rewrite forallb_forall in K5. apply Forall_forall.
    intros x Ix. apply is_scalar_spec. auto. }
  split; [exact E1|]. split; [vm_compute; discriminate|]. rewrite K2. vm_compute. reflexivity.
Qed.

(** With bigram models only, each end of line counts as an unknown symbol, though it has a probability: the client looks
    it up as the empty symbol, these models offer it as the character 0. *)
Theorem C71_bigram_line_end_refuted : forall (ext : externals R_field) d c b h0 m sort,
  externals_ok ext -> mh_models c <> [] -> make_model_hub ext d c = Ok h0 ->
  Forall2 (well_made ext d b) (mh_models c) (h_lms h0) -> steady c -> h_max h0 <= 2 ^ 31 ->
  (forall m0 k, In m0 (consulted c (h_lms h0)) -> In k (vocabulary m0) -> Forall scalar k /\ (length k <= m)%nat) ->
  sort_spec sort -> (forall m0, In m0 (consulted c (h_lms h0)) -> exists bg, m0 = Bg bg) ->
  forall l rs h lines, handle_all any_ops h0 l = Ok (rs, h) -> lines <> [] -> Forall line_ok lines ->
  let n := length (concat lines) in
  reqs_cost l + Z.of_nat n <= b -> Z.of_nat (1 + traffic l + 4 * n) < h_max h0 ->
  exists chars unknown x h',
    calc_bits_per_character sort utf8_codes utf8_chars (Some utf8_server) h (Some (utf8_file lines)) = (Ok (chars, unknown, Some x), h') /\
    Z.of_nat (length lines) <= unknown.
Proof.
  intros ext d c b h0 m sort X N E W St Mx Vo Hs Bgs l rs h lines El Ln Lo n Hc T.
  destruct (C71_bits_partial ext d c b h0 m sort X N E W St Mx Vo Hs l rs h lines El Ln Lo Hc T) as (tr & os & x & h' & K1 & _ & _ & _ & Sy & Sa & Di).
  eexists _, _, x, h'. split; [exact K1|]. apply inj_le.
  assert (G : forall (tr : list (str * lm_scores (num R_field))) (os : list (option R)), Forall2 (says (F := R_field)) tr os -> (forall k sc, In (k, sc) tr -> forall k', In k' (map fst (sc_entries sc)) -> k' <> []) ->
            (length (filter (fun k => match k with [] => true | _ => false end) (map fst tr)) <= oov os)%nat).
  { clear. induction 1 as [|[k sc] o tr os S1 _ IH]; intros D; [cbn; lia|]. cbn [map fst filter]. specialize (IH (fun k0 sc0 I => D k0 sc0 (or_intror I))).
    destruct k as [|z k].
    - destruct o as [p|]; [|unfold oov in *; cbn [filter length]; lia]. exfalso. cbn [Utf8Spec.says fst snd] in S1.
      apply (D [] sc (or_introl eq_refl) []); [|reflexivity]. apply in_map_iff. exists ([], Val p). auto.
    - unfold oov in *. destruct o; cbn [filter length]; lia. }
  eapply Nat.le_trans; [|apply (G tr os Sa)].
  - rewrite Sy. clear. induction lines as [|a ls IH]; [cbn; lia|]. cbn [flat_map length]. rewrite filter_app, app_length.
    assert (A : (1 <= length (filter (fun k : list Z => match k with [] => true | _ => false end) (symbols_of a)))%nat).
    { unfold symbols_of. rewrite filter_app, app_length. cbn [filter length]. lia. }
    etransitivity; [|apply Nat.add_le_mono; [exact A|exact IH]]. lia.
  - intros k sc I k' Ik ->. destruct (Di k sc I) as [_ D]. destruct (D [] Ik) as (m0 & J1 & J2). destruct (Bgs m0 J1) as [bg ->].
    cbn [vocabulary] in J2. apply in_map_iff in J2. destruct J2 as (z & Ez & _). discriminate.
Qed.
Print Assumptions C71_bigram_line_end_refuted.

(** Over the real numbers: the bigram model of FactoryProps.v, and a file of three lines, the last one empty. *)
Example C71_bits_hypotheses_met : exists h0 rs h,
  externals_ok real_ext /\ mh_models real_config <> [] /\ make_model_hub real_ext real_disk real_config = Ok h0 /\
  Forall2 (well_made real_ext real_disk 1000) (mh_models real_config) (h_lms h0) /\ steady real_config /\ h_max h0 <= 2 ^ 31 /\
  (forall m0 k, In m0 (consulted real_config (h_lms h0)) -> In k (vocabulary m0) -> Forall scalar k /\ (length k <= 1)%nat) /\
  (forall m0, In m0 (consulted real_config (h_lms h0)) -> exists bg, m0 = Bg bg) /\
  handle_all any_ops h0 [GetNextStateReq 0 [97; 98]] = Ok (rs, h) /\
  let lines := [[97; 8364]; [128512; 97; 97]; []] in
  Forall line_ok lines /\ reqs_cost [GetNextStateReq 0 [97; 98]] + Z.of_nat (length (concat lines)) <= 1000 /\
  Z.of_nat (1 + traffic [GetNextStateReq 0 [97; 98]] + 4 * length (concat lines)) < h_max h0.
Proof.
  set (l := [GetNextStateReq 0 [97; 98]]).
  assert (K : match make_model_hub real_ext real_disk real_config with
              | Ok h0 => (match h_lms h0 with [Bg m] => bigram_counts m = [[1; 2]; [3; 4]] /\ utf8_indices m = [0; 97] | _ => False end /\ h_max h0 = 10000) /\
                         is_ok (handle_all any_ops h0 l) = true
              | _ => False end).
  { vm_compute. repeat split. }
  destruct (make_model_hub real_ext real_disk real_config) as [h0| | |] eqn:E; [|destruct K..].
  destruct K as [[K1 K2] K3]. destruct (handle_all any_ops h0 l) as [[rs h]| | |] eqn:E1; [|discriminate K3..].
  exists h0, rs, h.
  split; [split; [intros ? ? ?; discriminate|intros; cbn; lia]|]. split; [discriminate|]. split; [reflexivity|].
  assert (L : exists m, h_lms h0 = [Bg m] /\ bigram_counts m = [[1; 2]; [3; 4]] /\ utf8_indices m = [0; 97]).
  { destruct (h_lms h0) as [|[m|m|m|m] [|]]; try destruct K1. eauto. }
  destruct L as (m & L & Lc & Lu). split.
  { rewrite L. constructor; [|constructor]. cbn [well_made]. rewrite Lc. intros row x I J. change int64_max with 9223372036854775807.
    cbn [In] in I. destruct I as [<-|[<-|[]]]; cbn [In] in J; intuition lia. }
  split. { split; [left; reflexivity|]. left. split; [left; reflexivity|]. eexists. split; [reflexivity|discriminate]. }
  split; [rewrite K2; vm_compute; discriminate|]. split.
  { intros m0 k I1 I2. unfold consulted in I1. cbn [real_config mh_mixture] in I1. rewrite L in I1. destruct I1 as [<-|[]].
    cbn [vocabulary] in I2. rewrite Lu in I2. cbn [map In] in I2. destruct I2 as [<-|[<-|[]]]; (split; [constructor; [unfold scalar; lia|constructor]|cbn; lia]). }
  split. { intros m0 I1. unfold consulted in I1. cbn [real_config mh_mixture] in I1. rewrite L in I1. destruct I1 as [<-|[]]. eauto. }
  split; [exact E1|]. cbv zeta. split.
  { repeat (apply Forall_cons; [split; [repeat (apply Forall_cons; [unfold scalar; lia|]); apply Forall_nil|cbn [In]; lia]|]). apply Forall_nil. }
  split; [vm_compute; discriminate|]. rewrite K2. vm_compute. reflexivity.
Qed.
