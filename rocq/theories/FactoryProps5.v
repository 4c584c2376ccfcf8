(** Property C63: every scores reply of a made hub is a probability distribution. *)
From Coq Require Import String.
From Verif Require Import Base Field LmModel HubModel FactoryModel.
From Verif Require Import HubSpec HubProofs HubProps HubMix HubLive HubLiveInst HubLive2 HubDist HubDistInst.
From Verif Require Import ServerModel ServerEvolve ServerProps FactoryProps FactoryProps2 FactoryProps3 FactoryProps4.
Local Open Scope Z_scope.
Close Scope string_scope.
Local Notation length := List.length.

Section C63.
  Context {F : ofield}.
  Variable ext : externals F.
  Variable d : disk F.
  Variable c : model_hub_config F.
  Variable b : Z.
  Variable h0 : hub F (any_model F).
  Hypothesis X : externals_ok ext.
  Hypothesis N : mh_models c <> [].
  Hypothesis E : make_model_hub ext d c = Ok h0.
  Hypothesis W : Forall2 (well_made ext d b) (mh_models c) (h_lms h0).
  Notation cfg := (hub_config_of c).

  Lemma made_init : exists ms, initialize_models any_ops ms cfg = Ok h0 /\ h_lms h0 = ms /\ length ms = length (mh_models c).
  Proof.
    pose proof E as E'. unfold make_model_hub in E'. destruct (mh_models c) as [|c1 l] eqn:El; [congruence|].
    apply bind_Ok in E'. destruct E' as [ms [_ E2]]. exists ms. split; auto.
    destruct (initialize_ok _ _ _ _ E2) as (_ & _ & Em & _). split; auto.
    rewrite <- Em. symmetry. eapply Forall2_length; eauto.
  Qed.
  Lemma made_fit : fit any_inv any_valid b h0.
  Proof.
    split; [apply (made_live ext d c b h0 X N E W)|]. destruct made_init as (ms & Ei & _).
    destruct (initialize_ok _ _ _ _ Ei) as (_ & _ & _ & _ & _ & R & _).
    unfold hpos. rewrite R. intros s [<-|[]]. apply new_pos.
  Qed.
  Lemma made_type k m1 m0 mc : nth_error (h_lms h0) k = Some m0 -> nth_error (mh_models c) k = Some mc ->
    c_reach any_ops true m0 m1 -> is_word m1 -> mc_type mc = WORD_NGRAM_FST.
  Proof.
    intros H1 H2 R I. pose proof (C19_models F ext d c h0 N E) as L. apply BigramReadProofs.Forall2_nth in L. destruct L as [_ L].
    specialize (L k mc m0 H2 H1). destruct (reach_word _ _ R I) as [w ->]. inversion L; subst. auto.
  Qed.
  (** Silent models of the hub that gave the reply are models configured as word models. *)
  Lemma silent_types (h1 : hub F (any_model F)) n : Forall2 (c_reach any_ops true) (h_lms h0) (h_lms h1) ->
    (forall k m, (k < n)%nat -> nth_error (h_lms h1) k = Some m -> is_word m) ->
    forall k mc, (k < n)%nat -> nth_error (mh_models c) k = Some mc -> mc_type mc = WORD_NGRAM_FST.
  Proof.
    intros R S k mc Hk Hc. pose proof (Forall2_length _ _ _ W) as LW. pose proof (Forall2_length _ _ _ R) as LR.
    destruct (nth_error (h_lms h0) k) as [m0|] eqn:E0.
    2:{ apply nth_error_None in E0. apply nth_error_Some_lt in Hc. lia. }
    destruct (nth_error (h_lms h1) k) as [m1|] eqn:E1.
    2:{ apply nth_error_None in E1. apply nth_error_Some_lt in E0. lia. }
    eapply (made_type k m1 m0); eauto. apply BigramReadProofs.Forall2_nth in R. eapply R; eauto.
  Qed.

  (** Without mixing (or with a single model), every scores reply, whatever was asked and learnt before,
      names no symbol twice, its scores are non-negative and add up to one; only a word model may list
      nothing (in a word it does not know). *)
  Theorem C63_first_model : forall l rs h sc,
    mh_mixture c = MixNone \/ (length (mh_models c) < 2)%nat ->
    reqs_cost l <= b -> handle_all any_ops h0 l = Ok (rs, h) -> In (ScoresReply sc) rs ->
    is_distribution (sc_entries sc) \/
    (sc_entries sc = [] /\ forall mc, nth_error (mh_models c) 0 = Some mc -> mc_type mc = WORD_NGRAM_FST).
  Proof.
    intros l rs h sc Hm Hc El I. destruct (made_live ext d c b h0 X N E W) as (_ & En & _). destruct made_init as (ms & Ei & Em & Lm).
    destruct (initialize_ok _ _ _ _ Ei) as (_ & _ & _ & _ & _ & _ & A).
    assert (Hw : h_weights h0 = map Val [f1] /\ h_bayes h0 = 0%nat).
    { cbn [cfg_type hub_config_of cfg_weights] in A. rewrite map_length in A. destruct (mh_mixture c); [apply A| |destruct A].
      destruct Hm as [Hm|Hm]; [discriminate|]. destruct (Nat.ltb_spec (length (mh_models c)) 2); [apply A|lia]. }
    destruct Hw as [Hw Hb].
    destruct (all_scores any_ops any_inv any_valid is_word any_answers any_dist l b h0 rs h made_fit En Hc (or_introl Hb) El sc I)
      as (h1 & b1 & s & h2 & Fi & SC & Ex & R).
    destruct SC as (_ & Sw & Sb & _).
    destruct (extract_static any_ops any_inv any_valid is_word any_dist b1 h1 s [f1] sc h2 Fi) as [D|[D S]]; auto.
    - rewrite Sw, Hw. reflexivity.
    - intros w [<-|[]]. apply f1_pos.
    - right. split; auto. intros mc Hmc. eapply (silent_types h1 1); eauto.
  Qed.

  (** The same with interpolation and static weights: only if every model is a word model may the reply
      list nothing. *)
  Theorem C63_static_mixture : forall l rs h sc,
    mh_mixture c = MixInterpolation -> (2 <= length (mh_models c))%nat -> mh_bayes c <= 0 ->
    (forall x, In x (map mc_weight (mh_models c)) -> flt f0 x = true) ->
    reqs_cost l <= b -> handle_all any_ops h0 l = Ok (rs, h) -> In (ScoresReply sc) rs ->
    is_distribution (sc_entries sc) \/
    (sc_entries sc = [] /\ forall mc, In mc (mh_models c) -> mc_type mc = WORD_NGRAM_FST).
  Proof.
    intros l rs h sc Ht Hn Hb Hp Hc El I. destruct (made_live ext d c b h0 X N E W) as (_ & En & _). destruct made_init as (ms & Ei & Em & Lm).
    assert (Hn' : (2 <= length (cfg_weights cfg))%nat) by (cbn [cfg_weights hub_config_of]; rewrite map_length; auto).
    destruct (init_weights _ _ _ _ _ _ Ei Ht Hn' Hp) as (Hw & Hbay & PosW).
    assert (B0 : h_bayes h0 = 0%nat) by (rewrite Hbay; cbn [cfg_bayes hub_config_of]; lia).
    destruct (all_scores any_ops any_inv any_valid is_word any_answers any_dist l b h0 rs h made_fit En Hc (or_introl B0) El sc I)
      as (h1 & b1 & s & h2 & Fi & SC & Ex & R).
    destruct SC as (_ & Sw & Sb & _).
    assert (Lp : length (priors cfg) = length (mh_models c)) by (unfold priors; cbn [cfg_weights hub_config_of]; rewrite !map_length; auto).
    destruct (extract_static any_ops any_inv any_valid is_word any_dist b1 h1 s (priors cfg) sc h2 Fi) as [D|[D S]]; auto.
    - left. congruence.
    - congruence.
    - intros w Iw. unfold priors in Iw. apply in_map_iff in Iw. destruct Iw as [x [<- Ix]]. apply fdiv_pos; auto.
    - right. split; auto. intros mc Hmc. apply In_nth_error in Hmc. destruct Hmc as [k Hk].
      eapply (silent_types h1 (Nat.max 1 (length (priors cfg)))); eauto. apply nth_error_Some_lt in Hk. lia.
  Qed.

  (** With a Bayesian history: no symbol twice, and either all scores are non-negative numbers that add up
      to one or (the models gave no weight at all to what was typed) none is a number. *)
  Theorem C63_bayes_mixture : forall l rs h sc,
    mh_mixture c = MixInterpolation -> (2 <= length (mh_models c))%nat ->
    (forall x, In x (map mc_weight (mh_models c)) -> flt f0 x = true) ->
    reqs_cost l <= b -> reqs_guarded any_ops h0 l -> handle_all any_ops h0 l = Ok (rs, h) -> In (ScoresReply sc) rs ->
    NoDup (map fst (sc_entries sc)) /\ (is_distribution (sc_entries sc) \/ no_numbers (sc_entries sc)).
  Proof.
    intros l rs h sc Ht Hn Hp Hc G El I. destruct (made_live ext d c b h0 X N E W) as (_ & En & _). destruct made_init as (ms & Ei & Em & Lm).
    assert (Hn' : (2 <= length (cfg_weights cfg))%nat) by (cbn [cfg_weights hub_config_of]; rewrite map_length; auto).
    destruct (init_weights _ _ _ _ _ _ Ei Ht Hn' Hp) as (Hw & Hbay & PosW).
    destruct (all_scores any_ops any_inv any_valid is_word any_answers any_dist l b h0 rs h made_fit En Hc (or_intror G) El sc I)
      as (h1 & b1 & s & h2 & Fi & SC & Ex & R).
    destruct SC as (_ & Sw & Sb & _).
    destruct (extract_dist any_ops any_inv any_valid is_word any_dist b1 h1 s sc h2 Fi) as [K1 K2]; auto.
    - rewrite Sw, Hw. intros w Iw. apply in_map_iff in Iw. destruct Iw as [x [<- Ix]]. apply nn_val.
      unfold priors in Ix. apply in_map_iff in Ix. destruct Ix as [y [<- Iy]]. apply fdiv_nonneg; [apply flt_le, Hp; auto|auto].
    - tauto.
  Qed.
  (** The same of the server, under every schedule of its threads: whatever it has replied so far. *)
  Theorem C63_server : forall p t s q sc,
    ServerModel.reach (serve_hub any_ops) p (initial (Ok h0) t) s -> s_crashed (fst s) = false ->
    (forall x, In x (map mc_weight (mh_models c)) -> flt f0 x = true) ->
    reqs_cost (map fst (s_log (fst s))) <= b ->
    mh_mixture c = MixNone \/ mh_bayes c <= 0 \/ reqs_guarded any_ops h0 (map fst (s_log (fst s))) ->
    In (q, Ok (ScoresReply sc)) (s_log (fst s)) ->
    NoDup (map fst (sc_entries sc)) /\ (is_distribution (sc_entries sc) \/ no_numbers (sc_entries sc)).
  Proof.
    intros p t s q sc R NC Hp Hc G I.
    destruct (C61_requests_answered ext d c b h0 X N E W _ Hc G) as (rs & h & Eh & _).
    destruct (C58_hub_server any_ops p h0 t s R NC rs h Eh) as [Es _].
    assert (I' : In (ScoresReply sc) rs).
    { apply (in_map snd) in I. cbn [snd] in I. rewrite Es in I. apply in_map_iff in I. destruct I as [r [Er I]]. injection Er as ->. exact I. }
    assert (Z : sc_entries sc = [] -> NoDup (map fst (sc_entries sc)) /\ (is_distribution (sc_entries sc) \/ no_numbers (sc_entries sc))).
    { intros ->. split; [constructor|]. right. intros k v []. }
    destruct (lt_dec (length (mh_models c)) 2) as [L|L].
    { destruct (C63_first_model _ _ _ sc (or_intror L) Hc Eh I') as [D|[D _]]; auto. split; [apply D|auto]. }
    destruct (mh_mixture c) eqn:Em.
    - destruct (C63_first_model _ _ _ sc (or_introl Em) Hc Eh I') as [D|[D _]]; auto. split; [apply D|auto].
    - destruct G as [G|[G|G]]; [discriminate| |].
      + destruct (C63_static_mixture _ _ _ sc Em ltac:(lia) G Hp Hc Eh I') as [D|[D _]]; auto. split; [apply D|auto].
      + apply (C63_bayes_mixture _ _ _ sc Em ltac:(lia) Hp Hc G Eh I').
    - destruct made_init as (ms & Ei & _). destruct (initialize_ok _ _ _ _ Ei) as (_ & _ & _ & _ & _ & _ & A).
      cbn [cfg_type hub_config_of] in A. rewrite Em in A. destruct A.
  Qed.
End C63.

(** ** Example: the four models, taught and asked. *)
Definition four_taught : list request := four_teach ++ [four_ask].
Definition taught (mx : mixture_type) (bay : Z) : Prop := exists h0 rs h sc,
  make_model_hub four_ext four_disk (four_with mx bay) = Ok h0 /\
  Forall2 (well_made four_ext four_disk 1000000) (mh_models (four_with mx bay)) (h_lms h0) /\
  (forall x, In x (map mc_weight (mh_models (four_with mx bay))) -> flt f0 x = true) /\
  reqs_cost four_taught <= 1000000 /\ reqs_guarded any_ops h0 four_taught /\
  handle_all any_ops h0 four_taught = Ok (rs, h) /\ In (ScoresReply sc) rs /\ is_some_scores (ScoresReply sc) = true.
Definition taught_check (mx : mixture_type) (bay : Z) : bool :=
  match make_model_hub four_ext four_disk (four_with mx bay) with
  | Ok h0 => forall2b (well_madeb four_disk 1000000) (mh_models (four_with mx bay)) (h_lms h0) &&
      reqs_guardedb any_ops h0 four_taught &&
      match handle_all any_ops h0 four_taught with
      | Ok ([_; _; ScoresReply sc], h) => is_some_scores (ScoresReply sc)
      | _ => false
      end
  | _ => false
  end.
Lemma taught_checked mx bay : taught_check mx bay = true -> taught mx bay.
Proof.
  unfold taught_check, taught. intros K.
  destruct (make_model_hub four_ext four_disk (four_with mx bay)) as [h0| | |] eqn:E; [|discriminate K..].
  apply andb_prop in K. destruct K as [K K3]. apply andb_prop in K. destruct K as [K1 K2].
  destruct (handle_all any_ops h0 four_taught) as [[rs h]| | |] eqn:E1; [|discriminate K3..].
  destruct rs as [|r1 [|r2 [|[s'|sc|] [|]]]]; try discriminate K3.
  exists h0, [r1; r2; ScoresReply sc], h, sc. split; [reflexivity|].
  split; [revert K1; apply forall2b_sound; intros c m; apply well_madeb_sound|].
  split. { cbn [four_with four_config mh_models map mc_weight In]. intros x H. repeat (destruct H as [<-|H]; [reflexivity|]). destruct H. }
  split; [vm_compute; discriminate|]. split; [apply reqs_guardedb_ok; auto|]. split; [exact E1|]. split; [cbn; auto|exact K3].
Qed.
Example C63_hypotheses_met : taught MixNone 2 /\ taught MixInterpolation 0 /\ taught MixInterpolation 2.
Proof. split; [|split]; apply taught_checked; vmr. Qed.
Print Assumptions C63_first_model.
Print Assumptions C63_static_mixture.
Print Assumptions C63_bayes_mixture.
Print Assumptions C63_server.
