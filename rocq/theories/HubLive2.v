(** Histories of calls and of requests on hubs of components that answer. *)
From Verif Require Import Base Field LmModel HubModel HubSpec HubProofs HubLive HubProps3 ServerModel ServerEvolve.
Local Open Scope Z_scope.

Section Live2.
  Context {F : ofield} {M : Type}.
  Variable ops : comp_ops F M.
  Variable Inv : Z -> M -> Prop.
  Variable ok : M -> Z -> Prop.
  Hypothesis A : comps_answer ops Inv ok.

  Lemma initialize_live b lms cfg h0 : Forall (Inv b) lms -> initialize_models ops lms cfg = Ok h0 ->
    hlive Inv ok b h0.
  Proof.
    intros HI E. destruct (initialize_ok _ _ _ _ E) as (W & _ & El & _ & _ & Es & _). constructor; auto.
    - unfold lms_fine. rewrite El. exact HI.
    - intros s Hs. rewrite Es in Hs. destruct Hs as [<-|[]]. rewrite El. apply new_live.
      eapply starts_ok; eauto.
  Qed.
  Lemma initialize_enough lms cfg h0 : lms <> [] -> (length (cfg_weights cfg) <= length lms)%nat ->
    initialize_models ops lms cfg = Ok h0 -> enough_models h0.
  Proof.
    intros Hn Hw E. destruct (initialize_ok _ _ _ _ E) as (_ & _ & El & _ & _ & _ & B).
    unfold enough_models. rewrite El. destruct lms as [|m lms]; [congruence|]. split; [simpl; lia|].
    destruct (cfg_type cfg); [destruct B as [-> _]; simpl; lia| |destruct B].
    destruct (_ <? 2)%nat; destruct B as [-> _]; [simpl; lia|]. rewrite !map_length. simpl in Hw. simpl. lia.
  Qed.
  Lemma initialize_plain lms cfg h0 : initialize_models ops lms cfg = Ok h0 ->
    cfg_type cfg = MixNone \/ (length (cfg_weights cfg) < 2)%nat \/ cfg_bayes cfg <= 0 -> h_bayes h0 = 0%nat.
  Proof.
    intros E G. destruct (initialize_ok _ _ _ _ E) as (_ & _ & El & _ & _ & _ & B).
    destruct G as [G|[G|G]].
    - rewrite G in B. apply B.
    - destruct (cfg_type cfg); [apply B| |destruct B].
      destruct (Nat.ltb_spec (length (cfg_weights cfg)) 2); [apply B|lia].
    - destruct (cfg_type cfg); [apply B| |destruct B].
      destruct (_ <? 2)%nat; [apply B|]. destruct B as [_ ->]. lia.
  Qed.

  Lemma step_sure b h o : hlive Inv ok b h -> enough_models h -> op_cost o <= b ->
    (h_bayes h = 0%nat \/ op_guarded h o) ->
    sure (fun p => hlive Inv ok (b - op_cost o) (snd p)) (hub_step ops h o).
  Proof.
    intros H En Hc G. destruct o as [s c|w s|s|s|s w n]; cbn [hub_step op_cost] in *; rewrite ?Z.sub_0_r.
    - eapply sure_bind; [eapply hub_next_sure; eauto|]. intros [r h'] _ H'. apply sure_ok. exact H'.
    - eapply sure_bind; [unfold hub_context; eapply hub_context_sure; eauto|]. intros [r h'] _ H'. apply sure_ok. exact H'.
    - unfold hub_state_sym. destruct (in_range h s) eqn:Er; cbn [bind]; [|apply sure_ok; exact H].
      unfold in_range in Er. destruct (vgetZ_range _ (hs h) s) as [x Ex]; [lia|]. rewrite Ex. apply sure_ok. exact H.
    - eapply sure_bind; [eapply hub_extract_sure; eauto|]. intros [r h'] _ H'. apply sure_ok. exact H'.
    - eapply sure_bind; [eapply (hub_update_sure ops Inv ok A b h s w n); eauto|]. intros [r h'] _ H'. apply sure_ok. exact H'.
  Qed.

  Lemma run_sure l : forall b h, hlive Inv ok b h -> enough_models h -> run_cost l <= b ->
    (h_bayes h = 0%nat \/ guarded ops h l) ->
    sure (fun h' => hlive Inv ok (b - run_cost l) h' /\ same_config h h') (hub_run ops h l).
  Proof.
    induction l as [|o t IH]; intros b h H En Hc G.
    - apply sure_ok. cbn [run_cost fold_right]. rewrite Z.sub_0_r. auto using same_config_refl.
    - cbn [run_cost fold_right] in *. fold (run_cost t) in *. pose proof (run_cost_nonneg t).
      assert (G1 : h_bayes h = 0%nat \/ op_guarded h o) by (destruct G as [G|[G _]]; auto).
      cbn [hub_run]. eapply sure_bind; [apply (step_sure b h o H En ltac:(lia) G1)|].
      intros [x h1] E H1. cbn [snd] in H1. destruct (hub_step_wf ops h o x h1 (hl_wf _ _ _ _ H) E) as [_ C].
      eapply sure_mono; [|apply (IH (b - op_cost o)); auto].
      + intros h' _ [H' C']. split; [|eapply same_config_trans; eauto].
        replace (b - (op_cost o + run_cost t)) with (b - op_cost o - run_cost t) by lia. auto.
      + eapply enough_same; eauto.
      + lia.
      + destruct G as [G|[_ G]]; [left; destruct C as (_ & _ & C & _); congruence|right]. rewrite E in G. exact G.
  Qed.

  (** ** Requests *)
  Definition req_cost (q : request) : Z := match q with UpdateLMScoresReq _ w n => learn_cost w n | _ => 0 end.
  Definition reqs_cost (l : list request) : Z := fold_right (fun q a => req_cost q + a) 0 l.
  Definition req_guarded (h : hub F M) (q : request) : Prop :=
    match q with
    | UpdateLMScoresReq s w _ => in_range h (to_int s) = true /\ forall c, In c (removelast w) -> 0 <= c
    | _ => True
    end.
  Fixpoint reqs_guarded (h : hub F M) (l : list request) : Prop :=
    match l with
    | [] => True
    | q :: t => req_guarded h q /\ match handle ops h q with Ok (_, h') => reqs_guarded h' t | _ => True end
    end.
  (** The same as a computation. *)
  Definition req_guardedb (h : hub F M) (q : request) : bool :=
    match q with
    | UpdateLMScoresReq s w _ => in_range h (to_int s) && forallb (Z.leb 0) (removelast w)
    | _ => true
    end.
  Fixpoint reqs_guardedb (h : hub F M) (l : list request) : bool :=
    match l with
    | [] => true
    | q :: t => req_guardedb h q && match handle ops h q with Ok (_, h') => reqs_guardedb h' t | _ => true end
    end.
  Lemma reqs_guardedb_ok l : forall h, reqs_guardedb h l = true -> reqs_guarded h l.
  Proof.
    induction l as [|q t IH]; intros h H; cbn [reqs_guarded reqs_guardedb] in *; auto.
    apply andb_true_iff in H. destruct H as [H1 H2]. split.
    - destruct q; cbn [req_guarded req_guardedb] in *; auto. apply andb_true_iff in H1. destruct H1 as [H1 H3]. split; auto.
      rewrite forallb_forall in H3. intros c Hc. specialize (H3 c Hc). lia.
    - destruct (handle ops h q) as [[x h']| | |]; auto.
  Qed.
  Lemma req_cost_nonneg q : 0 <= req_cost q.
  Proof. destruct q; cbn [req_cost]; try lia. apply learn_cost_nonneg. Qed.
  Lemma reqs_cost_nonneg l : 0 <= reqs_cost l.
  Proof. induction l as [|q t IH]; cbn [reqs_cost fold_right]; [lia|]. fold (reqs_cost t). pose proof (req_cost_nonneg q). lia. Qed.

  Lemma next_states_sure b w : forall h s, hlive Inv ok b h ->
    sure (fun p => hlive Inv ok b (snd p)) (next_states ops h s w).
  Proof.
    induction w as [|c w IH]; intros h s H; cbn [next_states]; [apply sure_ok; auto|].
    eapply sure_bind; [eapply hub_next_sure; eauto|]. intros [s' h'] _ H'. auto.
  Qed.
  Lemma handle_sure b h q : hlive Inv ok b h -> enough_models h -> req_cost q <= b ->
    (h_bayes h = 0%nat \/ req_guarded h q) ->
    sure (fun p => hlive Inv ok (b - req_cost q) (snd p) /\ same_config h (snd p)) (handle ops h q).
  Proof.
    intros H En Hc G. pose proof (hl_wf _ _ _ _ H) as W.
    destruct q as [s w|s w|s w n]; cbn [handle req_cost] in *; rewrite ?Z.sub_0_r.
    - unfold handle_get_next_state. eapply sure_bind; [unfold hub_context; eapply hub_context_sure; eauto|].
      intros [r h'] E H'. apply sure_ok. cbn [snd] in *. split; auto. eapply hub_context_wf; eauto.
    - unfold handle_get_lm_scores. eapply sure_bind; [unfold hub_context; eapply hub_context_sure; eauto|].
      intros [r h'] E H'. cbn [snd] in *. destruct (hub_context_wf _ _ _ _ _ _ W E) as (W' & C' & _).
      eapply sure_bind; [eapply hub_extract_sure; eauto; eapply enough_same; eauto|].
      intros [r2 h2] E2 H2. apply sure_ok. cbn [snd] in *. split; auto. eapply same_config_trans; [exact C'|].
      eapply hub_extract_wf; eauto.
    - unfold handle_update_lm_scores. eapply sure_bind; [eapply next_states_sure; eauto|].
      intros [cur h1] E1 H1. cbn [snd] in *. destruct (next_states_wf _ _ _ _ _ _ W E1) as [W1 C1].
      assert (En1 : enough_models h1) by (eapply enough_same; eauto).
      eapply sure_bind; [eapply (hub_update_sure ops Inv ok A b h1 (to_int s) w n); eauto|].
      { destruct C1 as (_ & _ & B1 & _ & L1). destruct G as [G|[G1 G2]]; [left; congruence|right]. split; auto.
        unfold in_range in *. lia. }
      intros [r h2] E2 H2. cbn [snd] in *. destruct (hub_update_wf _ _ _ _ _ _ _ W1 E2) as [W2 C2].
      pose proof (same_config_trans _ _ _ C1 C2) as C12.
      destruct r; [|apply sure_ok; auto].
      eapply sure_bind; [eapply hub_extract_sure; eauto; eapply enough_same; eauto|].
      intros [r2 h3] E3 H3. apply sure_ok. cbn [snd] in *. split; auto. eapply same_config_trans; [exact C12|].
      eapply hub_extract_wf; eauto.
  Qed.
  Lemma handle_all_sure l : forall b h, hlive Inv ok b h -> enough_models h -> reqs_cost l <= b ->
    (h_bayes h = 0%nat \/ reqs_guarded h l) ->
    sure (fun p => length (fst p) = length l) (handle_all ops h l).
  Proof.
    induction l as [|q t IH]; intros b h H En Hc G; cbn [handle_all]; [apply sure_ok; reflexivity|].
    cbn [reqs_cost fold_right] in Hc. fold (reqs_cost t) in Hc. pose proof (reqs_cost_nonneg t).
    assert (G1 : h_bayes h = 0%nat \/ req_guarded h q) by (destruct G as [G|[G _]]; auto).
    eapply sure_bind; [apply (handle_sure b h q H En ltac:(lia) G1)|]. intros [x h1] E [H1 C]. cbn [snd] in *.
    eapply sure_bind; [apply (IH (b - req_cost q) h1 H1)|].
    - eapply enough_same; eauto.
    - lia.
    - destruct G as [G|[_ G]]; [left; destruct C as (_ & _ & C & _); congruence|right]. rewrite E in G. exact G.
    - intros [xs h2] _ L. apply sure_ok. cbn [fst] in *. cbn [length]. lia.
  Qed.
End Live2.
