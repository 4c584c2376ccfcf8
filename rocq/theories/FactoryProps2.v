(** Property C61: a server on properly made models answers every request. *)
From Coq Require Import String Field.
From Verif Require Import Base Field LmModel TextModel BigramModel HubModel BigramComp PpmModel
  PpmReadModel NgramModel WordModel FactoryModel.
From Verif Require Import BigramProofs BigramReadProofs HubSpec HubProofs HubProps3 HubLive HubLiveInst HubLive2.
From Verif Require Import NgramSpec NgramProofs NgramProps NgramProps2 WordNext WordInit WordSpec WordProps2.
From Verif Require Import PpmSpec PpmTrainSpec PpmRead PpmRead2 PpmRead3 PpmStruct PpmRef PpmRefine ServerModel ServerProps FactoryProps PpmProps3.
Local Open Scope Z_scope.
Close Scope string_scope.
Local Notation length := List.length.

(** What the model file of a PPM configuration is. *)
Definition ppm_source {F} (d : disk F) (s : model_storage F) : model_file F :=
  if String.eqb (ms_model_file s) "" then NoModel
  else if ms_model_is_fst s
       then FstModel (match d (ms_model_file s) with Some f => f_ppm f | None => None end)
       else PpmReadModel.TextModel (option_map f_lines (d (ms_model_file s))).

(** The model that configuration [c] loaded is one the class is meant for, with room for [b] more
    observations:
    - the bigram counters are [b] away from the largest 64-bit integer;
    - the symbol table of an n-gram automaton is a symbol table ([table_ok]) and covers the arcs;
    - the files of a PPM model are readable in the sense of PpmRef.v;
    - the word model is a proper one ([word_file_ok], WordInit.v) in which no word is impossible. *)
Definition well_made {F : ofield} (ext : externals F) (d : disk F) (b : Z) (c : model_config F)
  (m : any_model F) : Prop :=
  match m with
  | Bg m => forall row x, In row (bigram_counts m) -> In x row -> x + b <= int64_max
  | Ng m => table_ok (ng_syms m) /\
            (forall t st a, has_state (ng_fst m) t st -> In a (symbol_arcs st) ->
               In (a_label a) (map fst (tl (ng_syms m))))
  | Pp m => exists vocab, path d f_lines (ms_vocabulary_file (mc_storage c)) = vocab_file vocab /\
              readable (e_counter ext) (ms_ppm_options (mc_storage c)) (ppm_source d (mc_storage c)) vocab
  | Wd m => word_file_ok m /\ words_possible m
  end.

(** The external checks do their job. *)
Definition externals_ok {F : ofield} (ext : externals F) : Prop :=
  checks_model (e_accept ext) /\ forall f, 0 <= e_max_order ext f.

Lemma loads_inv {F : ofield} (ext : externals F) d b c m : externals_ok ext -> loads ext d c m ->
  well_made ext d b c m -> any_inv b m.
Proof.
  intros [CH MO] L W. destruct L as [m T E|m T E|m T E|m T E]; cbn [any_inv well_made] in *.
  - eapply bg_room_loaded; eauto.
  - destruct W as [W1 W2]. constructor; auto. constructor; auto. eexists _, _. split; [exact CH|exact E].
  - destruct W as (vocab & Ev & R). unfold read_ppm in E. rewrite Ev in E. fold (ppm_source d (mc_storage c)) in E.
    apply bind_Ok in E. destruct E as [m' [E X]]. injection X as ->.
    destruct (PpmRefine.read_loaded _ _ _ _ R) as (m2 & u & syms & K & C & E2 & Hd & Hl).
    assert (m2 = m) by congruence. subst m2. split; [exists u, K, C; eapply loaded_tracks; eauto|].
    rewrite (PpmRead3.ld_syms _ _ _ _ _ _ Hl). eapply described_NoDup; eauto.
  - destruct W as [W1 W2]. unfold read_word in E. apply bind_Ok in E. destruct E as [m' [E X]]. injection X as ->.
    match type of E with w_read _ ?hi _ _ = _ => assert (Hh : 0 <= hi) end.
    { destruct (path' d f_fst (ms_model_file (mc_storage c))) as [[f|]|]; [apply MO|lia|lia]. }
    destruct (read_winv _ _ _ _ _ CH Hh E W1) as [ws [Wi _]].
    split; eauto.
Qed.

Section C61.
  Context {F : ofield}.
  Variable ext : externals F.
  Variable d : disk F.
  Variable c : model_hub_config F.
  Variable b : Z.
  Variable h0 : hub F (any_model F).
  Hypothesis X : externals_ok ext.
  Hypothesis N : mh_models c <> [].
  Hypothesis E : make_model_hub ext d c = Ok h0.
  Hypothesis W : Forall2 (well_made ext d b) (mh_models c) (h_lms h0).

  Lemma made_live : hlive any_inv any_valid b h0 /\ enough_models h0 /\
    (mh_mixture c = MixNone \/ mh_bayes c <= 0 -> h_bayes h0 = 0%nat).
  Proof.
    pose proof (C19_models F ext d c h0 N E) as L.
    pose proof E as E'. unfold make_model_hub in E'. destruct (mh_models c) as [|c1 l] eqn:El; [congruence|].
    apply bind_Ok in E'. destruct E' as [ms [_ E2]].
    destruct (initialize_ok _ _ _ _ E2) as (_ & _ & Em & _).
    assert (HI : Forall (any_inv b) ms).
    { rewrite <- Em. clear - L W X. revert W L. generalize (c1 :: l) as cs. generalize (h_lms h0) as ms.
      induction ms as [|m ms IH]; intros cs W L; inversion W; subst; constructor.
      - inversion L; subst. eapply loads_inv; eauto.
      - inversion L; subst. eapply IH; eauto. }
    assert (Hl : length (cfg_weights (hub_config_of c)) = length ms).
    { cbn [cfg_weights hub_config_of]. rewrite map_length, El, <- Em. eapply Forall2_length; eauto. }
    split; [|split].
    - eapply initialize_live; eauto. apply any_answers.
    - apply (initialize_enough _ _ _ _) with (3 := E2); [|lia].
      intros Z. rewrite Z in Hl. cbn [cfg_weights hub_config_of] in Hl. rewrite map_length, El in Hl. cbn [length] in Hl. lia.
    - intros G. eapply initialize_plain; [exact E2|]. destruct G; auto.
  Qed.

  (** Whatever is asked of the hub, in whatever order, with whatever states and symbols, there is an
      answer: nothing fails, aborts or runs into undefined behaviour.  Learning may not use up the
      room in the counters, and with a Bayesian history learning must be about a state that exists,
      with non-negative symbols (all but the last). *)
  Theorem C61_calls_answered : forall l, run_cost l <= b ->
    mh_mixture c = MixNone \/ mh_bayes c <= 0 \/ guarded any_ops h0 l ->
    exists h, hub_run any_ops h0 l = Ok h.
  Proof.
    intros l Hc G. destruct made_live as (H & En & B).
    destruct (run_sure any_ops any_inv any_valid any_answers l b h0 H En Hc) as [h [Eh _]]; eauto.
    destruct G as [G|[G|G]]; auto.
  Qed.

  (** The same for requests to the server: each gets a reply. *)
  Theorem C61_requests_answered : forall l, reqs_cost l <= b ->
    mh_mixture c = MixNone \/ mh_bayes c <= 0 \/ reqs_guarded any_ops h0 l ->
    exists rs h, handle_all any_ops h0 l = Ok (rs, h) /\ length rs = length l.
  Proof.
    intros l Hc G. destruct made_live as (H & En & B).
    destruct (handle_all_sure any_ops any_inv any_valid any_answers l b h0 H En Hc) as [[rs h] [Eh L]].
    - destruct G as [G|[G|G]]; auto.
    - exists rs, h. auto.
  Qed.

  (** And under every schedule of the server's threads and of shutdowns: whatever requests it has
      handled so far, all were replied to. *)
  Theorem C61_server_answers : forall p t s,
    ServerModel.reach (serve_hub any_ops) p (initial (Ok h0) t) s -> s_crashed (fst s) = false ->
    reqs_cost (map fst (s_log (fst s))) <= b ->
    mh_mixture c = MixNone \/ mh_bayes c <= 0 \/ reqs_guarded any_ops h0 (map fst (s_log (fst s))) ->
    exists rs h, map snd (s_log (fst s)) = map (@Ok (reply F)) rs /\ s_hub (fst s) = Ok h.
  Proof.
    intros p t s R NC Hc G.
    destruct (C61_requests_answered _ Hc G) as (rs & h & Eh & _).
    exists rs, h. eapply C58_hub_server; eauto.
  Qed.
End C61.
Print Assumptions C61_calls_answered.
Print Assumptions C61_requests_answered.
Print Assumptions C61_server_answers.

(** The default hub, of a configuration without models, always answers. *)
Theorem C61_default : forall (F : ofield) (ext : externals F) d c l,
  mh_models c = [] -> mh_mixture c <> MixUnknown -> reqs_cost l < 2 ^ 63 - 1 ->
  exists h0 rs h, make_model_hub ext d c = Ok h0 /\ handle_all any_ops h0 l = Ok (rs, h) /\
    length rs = length l.
Proof.
  intros F ext d c l N K Hc.
  destruct (bigram_read None None) as [m| | |] eqn:E;
    try (exfalso; revert E; vm_compute; discriminate).
  destruct (C17_initialize_total F _ any_ops [Bg m] (hub_config_of c)) as [[h0 Eh]|[A _]];
    [|exfalso; apply K; exact A].
  assert (Em : make_model_hub ext d c = Ok h0).
  { unfold make_model_hub. rewrite N. unfold make_model_config, make_model, default_model_config.
    cbn [mc_type mc_storage Z.eqb SIMPLE_CHAR_BIGRAM]. unfold read_bigram, default_storage, path.
    cbn [ms_vocabulary_file ms_model_file String.eqb]. rewrite E. cbn [bind]. exact Eh. }
  assert (HI : Forall (any_inv (int64_max - 1)) [Bg m : any_model F]).
  { constructor; [|constructor]. cbn [any_inv]. destruct (BigramReadProofs.read_loaded None None m E) as (v & C & R & L).
    exists v, C. split; auto. intros x y _ _. cbn in L. destruct L as [_ L]. rewrite L. lia. }
  assert (Hw : (length (cfg_weights (hub_config_of c)) < 2)%nat) by (cbn; rewrite N; cbn; lia).
  destruct (handle_all_sure any_ops any_inv any_valid any_answers l (int64_max - 1) h0) as [[rs h] [El L]].
  - eapply initialize_live; eauto. apply any_answers.
  - eapply initialize_enough; [|..|exact Eh]; [discriminate|]. cbn [length]. lia.
  - unfold int64_max. lia.
  - left. eapply initialize_plain; [exact Eh|]. auto.
  - exists h0, rs, h. auto.
Qed.
Print Assumptions C61_default.

(** ** The hypotheses are met *)
(** A check for [well_made] (of PPM models it recognises those made of a vocabulary alone). *)
Definition words_possibleb {F : ofield} (m : word F) : bool :=
  check_fst (w_fst m) 0 &&
  forallb (fun s => forallb (fun xw => negb (fst xw =? 0) && negb (fst xw =? -1) &&
                              match label_cost (wm_ng m) (Z.of_nat s) (fst xw) with
                              | Ok p => negb (feqb p f0) | _ => false end) (wvocab m))
    (seq 0 (length (w_fst m))).
Lemma words_possibleb_sound {F : ofield} (m : word F) : words_possibleb m = true -> words_possible m.
Proof.
  intros H s x w p I P. apply andb_prop in H. destruct H as [C H].
  apply check_fst_sound in C. destruct C as [C _].
  assert (Hs : exists st, has_state (w_fst m) s st) by (inversion P; subst; eauto).
  destruct Hs as [st Hs]. pose proof (proj1 (has_state_ex _ s) (ex_intro _ st Hs)) as [A B].
  rewrite forallb_forall in H. specialize (H (Z.to_nat s) ltac:(apply in_seq; lia)).
  rewrite forallb_forall in H. specialize (H _ I). cbn [fst] in H. rewrite Z2Nat.id in H by lia.
  apply andb_prop in H. destruct H as [X H]. apply andb_prop in X. destruct X as [X0 X1].
  apply negb_true_iff, Z.eqb_neq in X0, X1.
  destruct (label_cost_sym _ C (wm_ng m) eq_refl x s st X0 X1 Hs) as [q [Q E]]. rewrite E in H.
  assert (p = q) by (eapply symbol_prob_fun; eauto). subst q.
  intros ->. apply negb_true_iff in H. rewrite (proj2 (feqb_eq f0 f0) eq_refl) in H. discriminate.
Qed.
Definition well_madeb {F : ofield} (d : disk F) (b : Z) (c : model_config F) (m : any_model F) : bool :=
  match m with
  | Bg m => forallb (forallb (fun x => x + b <=? int64_max)) (bigram_counts m)
  | Ng m => table_okb (ng_syms m) &&
            forallb (fun st => forallb (fun a => existsb (Z.eqb (a_label a)) (map fst (tl (ng_syms m)))) (symbol_arcs st)) (ng_fst m)
  | Pp m => String.eqb (ms_model_file (mc_storage c)) "" &&
            match path d f_lines (ms_vocabulary_file (mc_storage c)) with
            | Some (Some lines) => negb (Nat.eqb (length (concat lines)) 0)
            | _ => false
            end
  | Wd m => word_file_okb m && words_possibleb m
  end.
Lemma well_madeb_sound {F : ofield} (ext : externals F) d b c m : well_madeb d b c m = true -> well_made ext d b c m.
Proof.
  destruct m as [m|m|m|m]; cbn [well_madeb well_made]; intros H.
  - intros row x I J. rewrite forallb_forall in H. specialize (H _ I). rewrite forallb_forall in H.
    apply Z.leb_le. auto.
  - apply andb_prop in H. destruct H as [H1 H]. split; [apply table_okb_sound; auto|].
    intros t st a [A B] I. rewrite forallb_forall in H. apply nth_error_In in B. specialize (H _ B).
    rewrite forallb_forall in H. specialize (H _ I). apply existsb_exists in H.
    destruct H as [y [Y E]]. apply Z.eqb_eq in E. congruence.
  - apply andb_prop in H. destruct H as [H1 H].
    destruct (path d f_lines (ms_vocabulary_file (mc_storage c))) as [[lines|]|]; try discriminate.
    exists (Some lines). split; [reflexivity|]. unfold ppm_source. rewrite H1. apply readable_vocabulary.
    intros Z. rewrite Z in H. discriminate.
  - apply andb_prop in H. destruct H. split; [apply word_file_okb_sound|apply words_possibleb_sound]; auto.
Qed.
Fixpoint forall2b {A B} (f : A -> B -> bool) (l : list A) (k : list B) : bool :=
  match l, k with
  | [], [] => true
  | a :: l, b :: k => f a b && forall2b f l k
  | _, _ => false
  end.
Lemma forall2b_sound {A B} (f : A -> B -> bool) (P : A -> B -> Prop) : (forall a b, f a b = true -> P a b) ->
  forall l k, forall2b f l k = true -> Forall2 P l k.
Proof.
  intros H. induction l as [|a l IH]; intros [|b k] E; try discriminate; constructor; cbn in E;
    apply andb_prop in E; destruct E; auto.
Qed.

(** One model of each kind: the bigram counts of C19_example_two, the character automaton of
    NgramProps2.v, a PPM model that starts from a vocabulary, and the word model of
    ngram_word_fst_model_test.cc; mixed with a Bayesian history of two. *)
Definition four_ext : externals Qc_field := Externals check_fst (fun _ => 3) (fun _ _ => Err).
Definition four_disk : disk Qc_field := fun p =>
  if String.eqb p "chars" then Some (File [] [] (Some ex_file) None None)
  else if String.eqb p "words" then
    Some (File [] [] (Some (FstFile tri_word_states 1 (Some tri_word_syms))) None None)
  else if String.eqb p "abc" then Some (File [] [[97; 98; 99]] None None None)
  else ex_disk p.
Definition four_config : model_hub_config Qc_field :=
  ModelHubConfig
    [ModelConfig SIMPLE_CHAR_BIGRAM (ex_storage "c" "v") f1;
     ModelConfig CHAR_NGRAM_FST (ex_storage "chars" "") f1;
     ModelConfig PPM_AS_FST (ModelStorage "" "abc" (PpmOptions 3 (q 1 2) (q 3 4) false 0) false 0) f1;
     ModelConfig WORD_NGRAM_FST (ex_storage "words" "") f1]
    MixInterpolation 100 2.
Definition four_requests : list request :=
  [GetNextStateReq 0 [97; 98]; GetLMScoresReq (-1) [97; 97; 32; 98]; UpdateLMScoresReq 2 [97; 98; 99] 5;
   GetLMScoresReq 3 []; GetLMScoresReq 77 [1; -5]; UpdateLMScoresReq 1 [98] (-4); GetLMScoresReq 0 [97]].

Example C61_hypotheses_met : exists h0, externals_ok four_ext /\ mh_models four_config <> [] /\
  make_model_hub four_ext four_disk four_config = Ok h0 /\
  Forall2 (well_made four_ext four_disk 1000000) (mh_models four_config) (h_lms h0) /\
  reqs_cost four_requests <= 1000000 /\ reqs_guarded any_ops h0 four_requests.
Proof.
  assert (K : match make_model_hub four_ext four_disk four_config with
              | Ok h => forall2b (well_madeb four_disk 1000000) (mh_models four_config) (h_lms h) && 
                        reqs_guardedb any_ops h four_requests
              | _ => false
              end = true) by (vmr).
  destruct (make_model_hub four_ext four_disk four_config) as [h| | |] eqn:E; [|discriminate K..].
  apply andb_prop in K. destruct K as [K1 K2]. exists h.
  split; [split; [apply check_fst_sound|intros; cbn; lia]|]. split; [discriminate|]. split; [reflexivity|].
  split; [|split; [vm_compute; discriminate|apply reqs_guardedb_ok; auto]].
  revert K1. apply forall2b_sound. intros c m. apply well_madeb_sound.
Qed.
