(** Properties C12 (learning after wrap-around), C17 and C18: memory safety and learning. *)
From Verif Require Import Base Field LmModel HubModel HubSpec HubProofs HubTrie HubLearn HubMix HubWrap HubProps.
From Verif Require Import TextModel BigramModel BigramProofs BigramReadProofs BigramProps BigramComp.
From Coq Require Import Field String.
Close Scope string_scope.
Open Scope list_scope.
Local Notation length := List.length.
Local Open Scope Z_scope.

(** * C12 / C18: a learning call that fails although everything was learned *)

(** After the self-loop of [C12_self_loop_refuted] and eight more contexts the next state to be
    recycled is the one linked to itself; recycling it severs the link just made.  UpdateLMCounts
    then reports failure (the service answers INTERNAL), yet both models did learn: the first
    model's count of "b after a" went from 1 to 2. *)
Theorem C12_update_after_recycling_refuted :
  (let* h0 := two_hub 0 10 in
   let* h1 := hub_run qops h0 [OpContext [97; 97; 97; 97; 97; 97; 97; 97; 97] 0; OpNext 1 98;
                               OpContext [98; 97; 97; 97; 97; 97; 97; 97] 0] in
   let* (ok, h2) := hub_update qops h1 9 [98] 1 in
   Ok (in_range h1 9, ok, map bigram_counts (h_lms h1), map bigram_counts (h_lms h2))) =
  Ok (true, false, [[[1; 1; 1]; [1; 1; 1]; [1; 1; 1]]; [[1; 1; 1]; [1; 1; 1]; [1; 1; 1]]],
      [[[1; 1; 1]; [1; 1; 2]; [1; 1; 1]]; [[1; 2; 1]; [1; 1; 1]; [1; 1; 1]]]).
Proof. vmr. Qed.
Print Assumptions C12_update_after_recycling_refuted.

(** * C17 *)

(** What a call may cost the counters of the components. *)
Definition op_cost (o : hub_op) : Z := match o with OpUpdate _ w n => learn_cost w n | _ => 0 end.
Definition run_cost (l : list hub_op) : Z := fold_right (fun o a => op_cost o + a) 0 l.

Section C17.
  Context {F : ofield} {M : Type}.
  Variable ops : comp_ops F M.

  (** Learning with a Bayesian history: the state is live and no symbol but the last is negative. *)
  Definition op_guarded (h : hub F M) (o : hub_op) : Prop :=
    match o with
    | OpUpdate s syms _ => in_range h s = true /\ forall c, In c (removelast syms) -> 0 <= c
    | _ => True
    end.
  Fixpoint guarded (h : hub F M) (l : list hub_op) : Prop :=
    match l with
    | [] => True
    | o :: t => op_guarded h o /\
                match hub_step ops h o with Ok (_, h') => guarded h' t | _ => True end
    end.

  (** The same as a computation. *)
  Definition op_guardedb (h : hub F M) (o : hub_op) : bool :=
    match o with
    | OpUpdate s syms _ => in_range h s && forallb (Z.leb 0) (removelast syms)
    | _ => true
    end.
  Fixpoint guardedb (h : hub F M) (l : list hub_op) : bool :=
    match l with
    | [] => true
    | o :: t => op_guardedb h o && match hub_step ops h o with Ok (_, h') => guardedb h' t | _ => true end
    end.
  Lemma guardedb_ok l : forall h, guardedb h l = true -> guarded h l.
  Proof.
    induction l as [|o t IH]; intros h H; simpl in *; auto. apply andb_true_iff in H. destruct H as [H1 H2].
    split.
    - destruct o; simpl in *; auto. apply andb_true_iff in H1. destruct H1 as [H1 H3]. split; auto.
      rewrite forallb_forall in H3. intros c Hc. specialize (H3 c Hc). lia.
    - destruct (hub_step ops h o) as [[x h']| | |]; auto.
  Qed.

  Lemma op_cost_nonneg o : 0 <= op_cost o.
  Proof. destruct o; simpl; try lia. apply learn_cost_nonneg. Qed.
  Lemma run_cost_nonneg l : 0 <= run_cost l.
  Proof. induction l as [|o t IH]; simpl; [lia|]. pose proof (op_cost_nonneg o). lia. Qed.

  Lemma step_safe Inv b h o :
    comps_safe ops Inv -> hsafe Inv b h -> enough_models h -> op_cost o <= b ->
    (h_bayes h = 0%nat \/ op_guarded h o) ->
    fine (fun p => hsafe Inv (b - op_cost o) (snd p)) (hub_step ops h o).
  Proof.
    intros HS H En Hc G. destruct o as [s c|w s|s|s|s w n]; cbn [hub_step op_cost] in *;
      rewrite ?Z.sub_0_r.
    - eapply fine_bind; [apply hub_next_safe; eauto|]. intros [r h'] _ H'. exact H'.
    - eapply fine_bind; [unfold hub_context; apply hub_context_safe; eauto|].
      intros [r h'] _ H'. exact H'.
    - unfold hub_state_sym. destruct (in_range h s) eqn:Er; simpl; auto.
      unfold in_range in Er. destruct (vgetZ_range _ (hs h) s) as [x Ex]; [lia|]. rewrite Ex. exact H.
    - eapply fine_bind; [apply hub_extract_safe; eauto|]. intros [r h'] _ H'. exact H'.
    - eapply fine_bind; [apply (hub_update_safe ops Inv HS b h s w n); auto|].
      intros [r h'] _ H'. exact H'.
  Qed.

  Lemma run_safe Inv l : comps_safe ops Inv -> forall b h,
    hsafe Inv b h -> enough_models h -> run_cost l <= b ->
    (h_bayes h = 0%nat \/ guarded h l) -> hub_run ops h l <> UB.
  Proof.
    intros HS. induction l as [|o t IH]; intros b h H En Hc G; [discriminate|].
    cbn [run_cost fold_right] in Hc. fold (run_cost t) in Hc. pose proof (run_cost_nonneg t).
    assert (Ht : op_cost o <= b) by lia.
    assert (G1 : h_bayes h = 0%nat \/ op_guarded h o) by (destruct G as [G|[G _]]; auto).
    pose proof (step_safe Inv b h o HS H En Ht G1) as S.
    cbn [hub_run]. destruct (hub_step ops h o) as [[x h1]| | |] eqn:E; simpl in S; cbn [bind];
      [|discriminate|discriminate|contradiction].
    destruct (hub_step_wf ops h o x h1 (proj1 H) E) as [_ C].
    apply (IH (b - op_cost o)); auto.
    - eapply enough_same; eauto.
    - lia.
    - destruct G as [G|[_ G]]; [left; destruct C as (_ & _ & C & _); congruence|right].
      rewrite E in G. exact G.
  Qed.
End C17.

(** A hub made of at least one model, with no more weights than models (the factory makes them
    equal: C19), whose models are themselves free of undefined behaviour ([comps_safe]; [Inv b]
    says that there is room in their counters for [b] observations): no history of calls, with any
    states and symbols, runs into undefined behaviour.  With a Bayesian history this needs the guard
    of [op_guarded] on the learning calls. *)
Theorem C17_memory_safe_partial :
  forall (F : ofield) (M : Type) (ops : comp_ops F M) (Inv : Z -> M -> Prop) lms cfg b l h0,
  comps_safe ops Inv -> lms <> [] -> (length (cfg_weights cfg) <= length lms)%nat ->
  Forall (Inv b) lms -> run_cost l <= b ->
  initialize_models ops lms cfg = Ok h0 ->
  cfg_type cfg = MixNone \/ (length (cfg_weights cfg) < 2)%nat \/ cfg_bayes cfg <= 0 \/ guarded ops h0 l ->
  hub_run ops h0 l <> UB.
Proof.
  intros F M ops Inv lms cfg b l h0 HS Hn Hw HI Hb Hi G.
  destruct (initialize_ok _ _ _ _ Hi) as (W0 & _ & El & _ & _ & _ & A).
  apply (run_safe ops Inv l HS b); auto.
  - split; auto. unfold lms_ok. rewrite El; auto.
  - unfold enough_models. rewrite El. destruct lms as [|m lms]; [congruence|]. split; [simpl; lia|].
    destruct (cfg_type cfg); [destruct A as [-> _]; simpl; lia| |destruct A].
    destruct (_ <? 2)%nat; destruct A as [-> _]; [simpl; lia|]. rewrite !map_length. simpl in Hw. simpl. lia.
  - destruct G as [G|[G|[G|G]]]; auto; left.
    + rewrite G in A. apply A.
    + destruct (cfg_type cfg); [apply A| |destruct A].
      destruct (Nat.ltb_spec (length (cfg_weights cfg)) 2); [apply A|lia].
    + destruct (cfg_type cfg); [apply A| |destruct A].
      destruct (_ <? 2)%nat; [apply A|]. destruct A as [_ ->]. lia.
Qed.
Print Assumptions C17_memory_safe_partial.

(** Making a hub is itself free of undefined behaviour, and with a known mixture type succeeds. *)
Theorem C17_initialize_total :
  forall (F : ofield) (M : Type) (ops : comp_ops F M) lms cfg,
  (exists h0, initialize_models ops lms cfg = Ok h0) \/
  (cfg_type cfg = MixUnknown /\ initialize_models ops lms cfg = Err).
Proof.
  intros. unfold initialize_models. destruct (cfg_type cfg); [left| left |right; auto].
  - unfold initialize_start_hub_state, update_hub_state. simpl.
    rewrite repeat_length, map_length, Nat.eqb_refl. simpl. eexists; reflexivity.
  - destruct (_ <? 2)%nat; unfold initialize_start_hub_state, update_hub_state; simpl;
      rewrite repeat_length, map_length, Nat.eqb_refl; simpl; eexists; reflexivity.
Qed.
Print Assumptions C17_initialize_total.

(** Bigram models meet the hypotheses: freshly loaded, they have room. *)
Lemma bg_room_loaded vf cf m b : bigram_read vf cf = Ok m ->
  (forall row x, In row (bigram_counts m) -> In x row -> x + b <= int64_max) -> bg_room b m.
Proof.
  intros H Hb. destruct (read_loaded vf cf m H) as [v [C [R _]]]. exists v, C. split; auto.
  intros a c Ha Hc. apply (Hb (map (C a) v)).
  - rewrite (repr_counts _ _ _ R). apply in_map_iff; eauto.
  - apply in_map_iff; eauto.
Qed.

Lemma small_counts m : forallb (forallb (Z.eqb 1)) (bigram_counts m) = true ->
  forall row x, In row (bigram_counts m) -> In x row -> x + 1000000 <= int64_max.
Proof.
  intros H row x H1 H2. rewrite forallb_forall in H. specialize (H _ H1). rewrite forallb_forall in H.
  specialize (H _ H2). unfold int64_max; lia.
Qed.

Example C17_example :
  comps_safe qops bg_room /\ [ab_loaded; bc_loaded] <> [] /\
  (length (cfg_weights (two_config 1 10)) <= length [ab_loaded; bc_loaded])%nat /\
  Forall (bg_room 1000000) [ab_loaded; bc_loaded] /\
  (exists h0, two_hub 1 10 = Ok h0 /\
     guarded qops h0 [OpContext [97; 98] 0; OpUpdate 2 [98; 120; -5] 1000; OpNext (-7) 97; OpExtract 99999;
                      OpSym 99999]).
Proof.
  split; [apply bigram_safe|]. split; [discriminate|]. split; [simpl; lia|]. split.
  - constructor; [|constructor; [|constructor]].
    + apply (bg_room_loaded _ _ _ _ ab_read). apply small_counts. vmr.
    + apply (bg_room_loaded _ _ _ _ bc_read). apply small_counts. vmr.
  - destruct (is_ok_ex (two_hub 1 10)) as [h0 E]; [vmr|]. exists h0. split; auto. apply guardedb_ok.
    match goal with |- guardedb qops h0 ?l = true =>
      assert (K : (let* h := two_hub 1 10 in Ok (guardedb qops h l)) = Ok true) by vmr end.
    rewrite E in K. injection K as K. exact K.
Qed.

(** Without the guard: with a Bayesian history, learning with a state that is not live, or with a
    negative symbol that is not the last, indexes the state pool out of bounds.  The service hands
    client requests straight to this call. *)
Theorem C17_invalid_state_refuted :
  exists h0, two_hub 1 10 = Ok h0 /\ hub_update qops h0 5 [97] 1 = UB /\
             hub_update qops h0 (-3) [97] 1 = UB.
Proof.
  destruct (is_ok_ex (two_hub 1 10)) as [h0 E]; [vmr|]. exists h0. split; auto.
  assert (K1 : (let* h := two_hub 1 10 in hub_update qops h 5 [97] 1) = UB) by vmr.
  assert (K2 : (let* h := two_hub 1 10 in hub_update qops h (-3) [97] 1) = UB) by vmr.
  rewrite E in K1, K2. auto.
Qed.
Print Assumptions C17_invalid_state_refuted.

Theorem C17_negative_symbol_refuted :
  exists h0, two_hub 1 10 = Ok h0 /\ hub_update qops h0 0 [-1; 97] 1 = UB.
Proof.
  destruct (is_ok_ex (two_hub 1 10)) as [h0 E]; [vmr|]. exists h0. split; auto.
  assert (K1 : (let* h := two_hub 1 10 in hub_update qops h 0 [-1; 97] 1) = UB) by vmr.
  rewrite E in K1. auto.
Qed.
Print Assumptions C17_negative_symbol_refuted.

(** * C18 *)

(** A learning call on a live state, while the pool is not full: with the components possibly
    queried before and after, every mixed component ([length (h_weights h)] of them) is told the
    same symbols and count exactly once, in its own state stored for that hub state, until the first
    refuses; the result is false exactly if one refuses ([told]). *)
Theorem C18_update_reaches_components :
  forall (F : ofield) (M : Type) (ops : comp_ops F M) lms cfg h0 l h s syms n r h',
  initialize_models ops lms cfg = Ok h0 -> Forall (scores_total ops) lms ->
  hub_run ops h0 l = Ok h -> in_range h s = true ->
  hub_update ops h s syms n = Ok (r, h') -> Z.of_nat (length (hs h')) < h_max h ->
  exists st lms1 lms2, vgetZ (hs h) s = Ok st /\
    Forall2 (c_reach ops false) (h_lms h) lms1 /\
    told ops syms n (firstn (length (h_weights h)) (h_models st)) lms1 lms2 r /\
    Forall2 (c_reach ops false) lms2 (h_lms h').
Proof.
  intros F M ops lms cfg h0 l h s syms n r h' Hi HT Hr Hin E Hsz.
  destruct (initialize_ok _ _ _ _ Hi) as (W0 & _).
  assert (T0 : trie ops true false lms h0 [[]]) by (apply (trie_init ops true false lms cfg h0); auto; discriminate).
  destruct (hub_run_wf _ _ _ _ W0 Hr) as [W C0].
  assert (Hrun : hub_run ops h [OpUpdate s syms n] = Ok h') by (cbn [hub_run hub_step]; rewrite E; reflexivity).
  destruct (hub_run_wf _ _ _ _ W Hrun) as [W' C1].
  assert (Hsz0 : Z.of_nat (length (hs h)) < h_max h0).
  { destruct C0 as (A & _), C1 as (_ & _ & _ & _ & S). lia. }
  destruct (trie_run ops true false l _ _ _ _ W0 T0 (or_introl eq_refl) Hr Hsz0) as (c1 & T1 & X1).
  destruct (update_told ops lms h c1 s syms n r h' W T1 Hin E Hsz) as (st & l1 & l2 & A1 & A2 & A3 & A4).
  exists st, l1, l2. auto.
Qed.
Print Assumptions C18_update_reaches_components.

(** A call on a state that is not live teaches nobody. *)
Theorem C18_invalid_state_teaches_nobody :
  forall (F : ofield) (M : Type) (ops : comp_ops F M) h s syms n r h',
  in_range h s = false -> hub_update ops h s syms n = Ok (r, h') ->
  r = false.
Proof.
  intros F M ops h s syms n r h' Hin E. unfold hub_update in E. rewrite Hin in E.
  apply bind_Ok in E. destruct E as [h1 [E1 E]].
  apply bind_Ok in E. destruct E as [h2 [E2 E]]. injection E as <- _. reflexivity.
Qed.
Print Assumptions C18_invalid_state_teaches_nobody.

(** Earlier states stand for the same contexts after learning (C11_states_are_contexts holds for
    histories with learning calls); here for one call: walking a context again after it leads to the
    same state. *)
Theorem C18_states_survive_learning :
  forall (F : ofield) (M : Type) (ops : comp_ops F M) lms cfg h0 l h w r h1 s syms n b h2 r' h3,
  initialize_models ops lms cfg = Ok h0 -> Forall (scores_total ops) lms ->
  hub_run ops h0 l = Ok h -> (forall c, In c w -> 0 <= c) ->
  hub_context ops h w 0 = Ok (r, h1) -> hub_update ops h1 s syms n = Ok (b, h2) ->
  hub_context ops h2 w 0 = Ok (r', h3) -> Z.of_nat (length (hs h3)) < h_max h3 ->
  r' = r /\ hub_state_sym h3 r = Ok (List.last w 0).
Proof.
  intros F M ops lms cfg h0 l h w r h1 s syms n b h2 r' h3 Hi HT Hr N E1 Eu E2 Hsz.
  assert (Hrun : hub_run ops h1 [OpUpdate s syms n] = Ok h2) by (cbn [hub_run hub_step]; rewrite Eu; reflexivity).
  destruct (C11_states_are_contexts F M ops lms cfg h0 l h w r h1 _ h2 w r' h3 Hi HT Hr N N E1 Hrun E2 Hsz) as [H1 H2].
  split; auto. symmetry. apply H1. reflexivity.
Qed.
Print Assumptions C18_states_survive_learning.

(** The first model knows "b" after "a" and is in its state 1 ("a"); the second does not know "a":
    its state is -1, which learns from its start. *)
Example C18_example :
  (let* h0 := two_hub 0 10 in
   let* (r, h1) := hub_context qops h0 [97] 0 in
   let* (ok, h2) := hub_update qops h1 r [98] 3 in
   Ok (r, ok, map bigram_counts (h_lms h2))) =
  Ok (1, true, [[[1; 1; 1]; [1; 1; 4]; [1; 1; 1]]; [[1; 4; 1]; [1; 1; 1]; [1; 1; 1]]]).
Proof. vmr. Qed.
