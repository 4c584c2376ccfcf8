(** Property C67: which symbols the replies list is fixed when the server starts. *)
From Coq Require Import String.
From Verif Require Import Base Field LmModel HubModel FactoryModel.
From Verif Require Import HubSpec HubProofs HubProps HubMix HubLive HubLiveInst HubLive2 HubDist HubDistInst HubVocab.
From Verif Require Import ServerModel ServerEvolve ServerProps FactoryProps FactoryProps2 FactoryProps3 FactoryProps4 FactoryProps5.
Local Open Scope Z_scope.
Close Scope string_scope.
Local Notation length := List.length.

(** The models whose scores the replies show: the first one without mixing, all of them with interpolation. *)
Definition consulted {F : ofield} {A} (c : model_hub_config F) (ms : list A) : list A :=
  match mh_mixture c with MixNone => firstn 1 ms | _ => ms end.

Section C67.
  Context {F : ofield}.
  Variable ext : externals F.
  Variable d : disk F.
  Variable c : model_hub_config F.
  Variable b : Z.
  Variable h0 : hub F (any_model F).
  Hypothesis X : externals_ok ext.
  Hypothesis N : mh_models c <> [].
  Hypothesis E : make_model_hub ext d c = Ok h0.
  Hypothesis W : Forall2 (well_made ext d b) (mh_models c) (h_lms h0).

  Lemma consulted_length : length (consulted c (h_lms h0)) = Nat.max 1 (length (h_weights h0)).
  Proof.
    destruct (made_init ext d c b h0 N E W) as (ms & Ei & Em & Lm). destruct (initialize_ok _ _ _ _ Ei) as (_ & _ & _ & _ & _ & _ & A).
    assert (L1 : (1 <= length (h_lms h0))%nat) by (rewrite Em, Lm; destruct (mh_models c); [congruence|cbn; lia]).
    assert (L2 : length (h_lms h0) = length (mh_models c)) by congruence.
    unfold consulted. cbn [cfg_type hub_config_of cfg_weights] in A. destruct (mh_mixture c).
    - destruct A as [-> _]. rewrite firstn_length. cbn [length]. lia.
    - rewrite map_length in A. destruct (Nat.ltb_spec (length (mh_models c)) 2); destruct A as [-> _]; [cbn [length]; lia|].
      rewrite !map_length. lia.
    - destruct A.
  Qed.
  Lemma consulted_nth (ms : list (any_model F)) i m : nth_error (consulted c ms) i = Some m -> nth_error ms i = Some m.
  Proof.
    unfold consulted. destruct (mh_mixture c); auto. destruct ms as [|x t]; cbn [firstn]; destruct i; auto; cbn; intros H; try discriminate. destruct i; discriminate.
  Qed.
  Lemma nth_consulted i m : (i < Nat.max 1 (length (h_weights h0)))%nat -> nth_error (h_lms h0) i = Some m -> nth_error (consulted c (h_lms h0)) i = Some m.
  Proof.
    intros Hi Hm. rewrite <- consulted_length in Hi. destruct (nth_error (consulted c (h_lms h0)) i) as [m'|] eqn:En.
    - apply consulted_nth in En. congruence.
    - apply nth_error_None in En. lia.
  Qed.

  (** Whatever was asked and learnt before: every symbol in a scores reply is one of those that the consulted
      models had when the server started, and all the symbols of every consulted model that is not a word model
      are listed. *)
  Theorem C67_symbols : forall l rs h sc,
    reqs_cost l <= b -> mh_mixture c = MixNone \/ mh_bayes c <= 0 \/ reqs_guarded any_ops h0 l ->
    handle_all any_ops h0 l = Ok (rs, h) -> In (ScoresReply sc) rs ->
    (forall k, In k (map fst (sc_entries sc)) -> exists m, In m (consulted c (h_lms h0)) /\ In k (vocabulary m)) /\
    (forall i m mc, nth_error (consulted c (h_lms h0)) i = Some m -> nth_error (mh_models c) i = Some mc -> mc_type mc <> WORD_NGRAM_FST ->
       incl (vocabulary m) (map fst (sc_entries sc))).
  Proof.
    intros l rs h sc Hc G El I. destruct (made_live ext d c b h0 X N E W) as (_ & En & B0).
    assert (G' : h_bayes h0 = 0%nat \/ reqs_guarded any_ops h0 l) by (destruct G as [G|[G|G]]; auto).
    destruct (all_scores any_ops any_inv any_valid is_word any_answers any_dist l b h0 rs h (made_fit ext d c b h0 X N E W) En Hc G' El sc I)
      as (h1 & b1 & s & h2 & Fi & SC & Ex & R). destruct SC as (_ & Sw & _).
    destruct (extract_keys any_ops any_inv any_valid b1 h1 s sc h2 Fi Ex) as [K1 K2]. rewrite Sw in K1, K2.
    apply BigramReadProofs.Forall2_nth in R. destruct R as [RL R]. split.
    - intros k Hk. destruct (K1 k Hk) as (i & m1 & s1 & sc1 & m2 & Hi & Hm1 & Im & Vm & Ek & Ik).
      destruct (nth_error (h_lms h0) i) as [m0|] eqn:E0.
      2:{ apply nth_error_None in E0. apply nth_error_Some_lt in Hm1. lia. }
      exists m0. split; [eapply nth_error_In, nth_consulted; eauto|]. rewrite <- (reach_vocabulary m0 m1) by eauto.
      apply (proj1 (model_entries b1 m1 s1 sc1 m2 Im Vm Ek)). exact Ik.
    - intros i m0 mc Hm Hmc Nt. assert (Hi : (i < Nat.max 1 (length (h_weights h0)))%nat) by (rewrite <- consulted_length; eapply nth_error_Some_lt; eauto).
      apply consulted_nth in Hm. destruct (nth_error (h_lms h1) i) as [m1|] eqn:E1.
      2:{ apply nth_error_None in E1. apply nth_error_Some_lt in Hm. lia. }
      pose proof (R i m0 m1 Hm E1) as Rm. destruct (K2 i m1 Hi E1) as (s1 & sc1 & m2 & Im & Vm & Ek & Ik).
      destruct (model_entries b1 m1 s1 sc1 m2 Im Vm Ek) as [_ [IsW|Eq]].
      + exfalso. apply Nt. eapply (made_type ext d c h0 N E i m1 m0); eauto.
      + rewrite <- (reach_vocabulary m0 m1 Rm), <- Eq. exact Ik.
  Qed.

  (** No model is a word model: the replies list exactly the symbols that the models had when the server started. *)
  Theorem C67_exactly : (forall mc, In mc (consulted c (mh_models c)) -> mc_type mc <> WORD_NGRAM_FST) ->
    forall l rs h sc, reqs_cost l <= b -> mh_mixture c = MixNone \/ mh_bayes c <= 0 \/ reqs_guarded any_ops h0 l ->
    handle_all any_ops h0 l = Ok (rs, h) -> In (ScoresReply sc) rs ->
    forall k, In k (map fst (sc_entries sc)) <-> exists m, In m (consulted c (h_lms h0)) /\ In k (vocabulary m).
  Proof.
    intros Nw l rs h sc Hc G El I k. destruct (C67_symbols l rs h sc Hc G El I) as [K1 K2]. split; [apply K1|].
    intros (m & Hm & Hk). apply In_nth_error in Hm. destruct Hm as [i Hm].
    pose proof (Forall2_length _ _ _ W) as LW.
    assert (Hmc : exists mc, nth_error (consulted c (mh_models c)) i = Some mc).
    { destruct (nth_error (consulted c (mh_models c)) i) eqn:En; eauto. apply nth_error_None in En. apply nth_error_Some_lt in Hm.
      revert En Hm. unfold consulted. destruct (mh_mixture c); rewrite ?firstn_length; lia. }
    destruct Hmc as [mc Hmc]. apply (K2 i m mc Hm); auto.
    - revert Hmc. unfold consulted. destruct (mh_mixture c); auto. destruct (mh_models c); destruct i as [|[|i]]; cbn; auto; discriminate.
    - apply Nw. eapply nth_error_In; eauto.
  Qed.

  (** So what the clients ask and teach never changes which symbols they are offered: two scores replies, in
      the same or in different histories of the server, list the same symbols. *)
  Theorem C67_same_symbols : (forall mc, In mc (consulted c (mh_models c)) -> mc_type mc <> WORD_NGRAM_FST) ->
    forall l rs h sc l' rs' h' sc',
    reqs_cost l <= b -> mh_mixture c = MixNone \/ mh_bayes c <= 0 \/ reqs_guarded any_ops h0 l ->
    reqs_cost l' <= b -> mh_mixture c = MixNone \/ mh_bayes c <= 0 \/ reqs_guarded any_ops h0 l' ->
    handle_all any_ops h0 l = Ok (rs, h) -> In (ScoresReply sc) rs ->
    handle_all any_ops h0 l' = Ok (rs', h') -> In (ScoresReply sc') rs' ->
    forall k, In k (map fst (sc_entries sc)) <-> In k (map fst (sc_entries sc')).
  Proof.
    intros Nw l rs h sc l' rs' h' sc' Hc G Hc' G' El I El' I' k.
    rewrite (C67_exactly Nw l rs h sc Hc G El I k), (C67_exactly Nw l' rs' h' sc' Hc' G' El' I' k). tauto.
  Qed.
End C67.

(** ** Example: the bigram, n-gram and PPM models of FactoryProps2.v mixed, taught a character (z) that none of them
    has, and asked. *)
Definition three_with (mx : mixture_type) (bay : Z) : model_hub_config Qc_field := ModelHubConfig (firstn 3 (mh_models four_config)) mx 100 bay.
Definition taught_z : list request := [GetNextStateReq 0 [97; 98]; GetLMScoresReq 0 []; UpdateLMScoresReq 2 [122; 99] 5; GetLMScoresReq 2 [122]].
Definition keys_of (r : reply Qc_field) : list str := match r with ScoresReply sc => map fst (sc_entries sc) | _ => [] end.
Example C67_hypotheses_met : exists h0 rs h,
  make_model_hub four_ext four_disk (three_with MixInterpolation 2) = Ok h0 /\
  Forall2 (well_made four_ext four_disk 1000000) (mh_models (three_with MixInterpolation 2)) (h_lms h0) /\
  (forall mc, In mc (consulted (three_with MixInterpolation 2) (mh_models (three_with MixInterpolation 2))) -> mc_type mc <> WORD_NGRAM_FST) /\
  reqs_cost taught_z <= 1000000 /\ reqs_guarded any_ops h0 taught_z /\
  handle_all any_ops h0 taught_z = Ok (rs, h) /\
  map keys_of rs = [[]; [[]; [0]; [97]; [98]; [99]]; [[]; [0]; [97]; [98]; [99]]; [[]; [0]; [97]; [98]; [99]]].
Proof.
  assert (K : match make_model_hub four_ext four_disk (three_with MixInterpolation 2) with
              | Ok h0 => forall2b (well_madeb four_disk 1000000) (mh_models (three_with MixInterpolation 2)) (h_lms h0) && reqs_guardedb any_ops h0 taught_z &&
                  match handle_all any_ops h0 taught_z with
                  | Ok (rs, _) => match list_eq_dec (list_eq_dec (list_eq_dec Z.eq_dec)) (map keys_of rs)
                       [[]; [[]; [0]; [97]; [98]; [99]]; [[]; [0]; [97]; [98]; [99]]; [[]; [0]; [97]; [98]; [99]]] with left _ => true | _ => false end
                  | _ => false end
              | _ => false end = true) by vmr.
  destruct (make_model_hub four_ext four_disk (three_with MixInterpolation 2)) as [h0| | |] eqn:E; [|discriminate K..].
  apply andb_prop in K. destruct K as [K K3]. apply andb_prop in K. destruct K as [K1 K2].
  destruct (handle_all any_ops h0 taught_z) as [[rs h]| | |] eqn:E1; [|discriminate K3..].
  exists h0, rs, h. split; [reflexivity|]. split; [revert K1; apply forall2b_sound; intros c m; apply well_madeb_sound|].
  split. { cbn [consulted three_with mh_mixture mh_models firstn four_config In]. intros mc H. repeat (destruct H as [<-|H]; [discriminate|]). destruct H. }
  split; [vm_compute; discriminate|]. split; [apply reqs_guardedb_ok; auto|]. split; [exact E1|].
  destruct (list_eq_dec _ _ _) as [Hk|]; [exact Hk|discriminate K3].
Qed.
(** A word model offers only what can follow: the word model of FactoryProps2.v at the start, after "a" and after "abc". *)
Definition words_only : model_hub_config Qc_field := ModelHubConfig (skipn 3 (mh_models four_config)) MixNone 100 0.
Example C67_words_offer_less :
  match make_model_hub four_ext four_disk words_only with
  | Ok h => match handle_all any_ops h [GetLMScoresReq 0 []; GetLMScoresReq 0 [97]; GetLMScoresReq 0 [97; 98; 99]] with Ok (rs, _) => map keys_of rs | _ => [] end
  | _ => [] end = [[[]; [97]; [98]]; [[97]; [98]]; []].
Proof. vmr. Qed.
Print Assumptions C67_symbols.
Print Assumptions C67_exactly.
Print Assumptions C67_same_symbols.
