(** Property C62: what a made hub that is only asked replies, in terms of the models as they were loaded. *)
From Coq Require Import String.
From Verif Require Import Base Field LmModel HubModel FactoryModel.
From Verif Require Import HubSpec HubProofs HubProps HubProps2 HubProps3 HubLive HubLiveInst HubQuery HubLive2 HubSim HubCalm HubMix HubTrie HubFresh.
From Verif Require Import ServerModel ServerEvolve ServerQuery ServerProps2 ServerSim ServerUpdate ServerFresh FactoryProps FactoryProps2 FactoryProps3.
Local Open Scope Z_scope.
Close Scope string_scope.
Local Notation length := List.length.

(** The posterior weights, normalised. *)
Definition bayes_weights {F : ofield} (cfg : @hub_config F) (pss : list (list (car F))) : list (car F) :=
  map (fun u => fdiv u (fsum (posterior cfg pss))) (posterior cfg pss).

Section Weights.
  Context {F : ofield} {M : Type}.
  Lemma bayes_weights_at (cfg : @hub_config F) (h : hub F M) r st pss :
    in_range h r = true -> vgetZ (hs h) r = Ok st -> (0 < h_bayes h)%nat -> h_bayes h = Z.to_nat (cfg_bayes cfg) ->
    h_weights h = map Val (priors cfg) -> h_sum st = map (fun ps => fprod (hist_row (h_bayes h) ps)) pss ->
    (length (cfg_weights cfg) <= length pss)%nat -> flt f0 (fsum (cfg_weights cfg)) = true ->
    fsum (posterior cfg pss) <> f0 -> mixture_weights_at h r = Ok (map Val (bayes_weights cfg pss)).
  Proof.
    intros IR V B0 Bj Hw Hs Hl Pos Hnz. assert (NZ : fsum (cfg_weights cfg) <> f0) by (apply not_eq_sym, flt_neq; auto).
    assert (Ez : zip_weights (h_weights h) (h_sum st) =
                 Ok (map Val (map (fun u => fdiv u (fsum (cfg_weights cfg))) (posterior cfg pss)))).
    { rewrite Hw, Hs, zip_weights_spec.
      2:{ unfold priors. rewrite !map_length. lia. }
      f_equal. unfold priors, posterior. rewrite Bj. set (j := Z.to_nat (cfg_bayes cfg)).
      revert NZ. generalize (fsum (cfg_weights cfg)). intros S NZ. clear -NZ.
      revert pss. induction (cfg_weights cfg) as [|x t IH]; intros [|ps pss]; simpl; auto.
      f_equal; auto. f_equal. rewrite hist_row_prod. apply fdiv_mul_swap; auto. }
    unfold mixture_weights_at. rewrite IR. destruct (Nat.eqb_spec (h_bayes h) 0); [lia|]. cbn [orb negb]. rewrite V; cbn [bind].
    rewrite Ez; cbn [bind]. f_equal. rewrite nsum_vals.
    2:{ intros E. apply map_eq_nil in E. rewrite E in Hnz. apply Hnz. reflexivity. }
    rewrite fsum_map_div, map_id by auto. unfold bayes_weights. rewrite !map_map. apply map_ext. intros u. simpl. unfold num_div.
    replace (feqb (fdiv (fsum (posterior cfg pss)) (fsum (cfg_weights cfg))) f0) with false.
    + f_equal. apply fdiv_div; auto.
    + symmetry. apply feqb_neq. intros E. apply Hnz. apply fdiv_zero in E; auto.
  Qed.
  Lemma bayes_weights_sum (cfg : @hub_config F) pss : fsum (posterior cfg pss) <> f0 -> fsum (bayes_weights cfg pss) = f1.
  Proof. intros Hnz. unfold bayes_weights. rewrite fsum_map_div, map_id by auto. apply fdiv_self; auto. Qed.

  (** The mixture of components taken after a context. *)
  Lemma fresh_mixed (ops : comp_ops F M) h w ts l1 pss ws r Y : walks ops w (h_lms h) ts l1 ->
    (2 <= length (h_weights h))%nat -> length ws = length (h_lms h) ->
    mixture_weights_at (fresh_hub h ts l1 pss) 0 = Ok (map Val ws) ->
    hub_extract ops (fresh_hub h ts l1 pss) 0 = Ok (r, Y) ->
    (exists scs resp, Forall2 (fun m sc => answers_for ops w m (Some sc)) (h_lms h) scs /\ r = Some resp /\
       (mix_total ws scs <> f0 -> is_mixture ws scs resp /\ fsum (values (sc_entries resp)) = f1)) \/
    (exists m, In m (h_lms h) /\ answers_for ops w m None /\ r = None).
  Proof.
    intros Wk Lw Le Ew E. pose proof (walks_length _ _ _ _ _ Wk) as [Lt Ll]. destruct r as [resp|].
    - left. destruct (hub_extract_mixture ops _ _ ws resp Y E Lw Ew) as (st & scs & S1 & S2 & S3 & S4).
      change (Ok (HState ts (-1) [] 0 (map (hist_row (h_bayes h)) pss) (map (fun ps => fprod (hist_row (h_bayes h) ps)) pss)) = Ok st) in S1.
      injection S1 as <-. exists scs, resp. split; [|auto].
      cbn [fresh_hub h_lms] in S3. clear S4 Ew E. apply BigramReadProofs.Forall2_nth. split; [lia|].
      intros k m sc Hm Hsc. destruct (S3 k) as (m1 & sc' & m2 & K1 & K2 & K3); [apply nth_error_Some_lt in Hsc; lia|].
      rewrite Hsc in K2. injection K2 as <-. destruct (walks_nth _ _ _ _ _ Wk k m Hm) as (t & m1' & T1 & T2 & T3).
      rewrite K1 in T2. injection T2 as <-. exists t, m1, m2. split; auto.
      unfold hs_model in K3. cbn [h_models] in K3. rewrite T1 in K3. exact K3.
    - right. unfold hub_extract in E. change (in_range (fresh_hub h ts l1 pss) 0) with true in E. cbn [negb] in E.
      rewrite Ew in E. cbn [fresh_hub hs h_weights h_lms] in E. set (y := HState ts _ _ _ _ _) in E. change (vgetZ [y] 0) with (Ok y) in E.
      cbn [bind] in E. destruct (Nat.ltb_spec (length (h_weights h)) 2); [lia|].
      apply bind_Ok in E. destruct E as [[r l'] [E1 E]]. destruct r; [discriminate|].
      destruct (mix_loop_none _ _ _ _ _ _ _ _ E1) as (k & m1 & m2 & K1 & K2). cbn [Nat.add] in K2.
      destruct (walks_nth' _ _ _ _ _ Wk k m1 K1) as (t & m & T1 & T2 & T3).
      exists m. split; [eapply nth_error_In; eauto|]. split; [|auto]. exists t, m1, m2. split; auto.
      unfold hs_model in K2. cbn [h_models y] in K2. rewrite T1 in K2. exact K2.
  Qed.
End Weights.

Section C62.
  Context {F : ofield}.
  Variable ext : externals F.
  Variable d : disk F.
  Variable c : model_hub_config F.
  Variable b : Z.
  Variable h0 : hub F (any_model F).
  Hypothesis X : externals_ok ext.
  Hypothesis N : mh_models c <> [].
  Hypothesis E : make_model_hub ext d c = Ok h0.
  Hypothesis W : Forall2 (well_made ext d b) (mh_models c) (h_lms h0).
  (** The field is an int32. *)
  Hypothesis MS : mh_max_states c < 2 ^ 31.
  Notation cfg := (hub_config_of c).

  Lemma made_facts : exists ms, initialize_models any_ops ms cfg = Ok h0 /\ h_lms h0 = ms /\ length ms = length (mh_models c) /\
    h_max h0 <= 2 ^ 31 /\ hs h0 = [new_hstate (map (c_start any_ops) (h_lms h0)) (-1) 0 (h_bayes h0)].
  Proof.
    pose proof E as E'. unfold make_model_hub in E'. destruct (mh_models c) as [|c1 l] eqn:El; [congruence|].
    apply bind_Ok in E'. destruct E' as [ms [_ E2]]. exists ms. split; auto.
    destruct (initialize_ok _ _ _ _ E2) as (_ & _ & Em & _ & Hm & Hr & _). split; auto. split.
    - rewrite <- Em. symmetry. eapply Forall2_length; eauto.
    - split; [|rewrite Em; auto]. rewrite Hm. cbn [cfg_max_states hub_config_of]. unfold kMaxHubStates.
      destruct (mh_max_states c <? 10); lia.
  Qed.

  (** The reply, in terms of components that nothing happened to. *)
  Lemma made_reply l rs h s u w rep h' : forallb is_query_req l = true -> handle_all any_ops h0 l = Ok (rs, h) ->
    stands_for l rs s u -> (forall x, In x (u ++ w) -> 0 <= x) -> Z.of_nat (1 + traffic (l ++ [GetLMScoresReq s w])) < h_max h0 ->
    handle any_ops h (GetLMScoresReq s w) = Ok (rep, h') ->
    exists ts l1 pss r Y, walks any_ops (u ++ w) (h_lms h0) ts l1 /\ ((0 < h_bayes h0)%nat -> all_give any_ops (u ++ w) (h_lms h0) pss) /\
      hub_extract any_ops (fresh_hub h0 ts l1 pss) 0 = Ok (r, Y) /\
      rep = match r with Some sc => ScoresReply sc | None => InvalidArgument end.
  Proof.
    intros Q El S Pos L Eq. destruct (made_live ext d c b h0 X N E W) as (HL & [En1 En2] & _).
    destruct made_facts as (ms & _ & _ & _ & MX & ROOT).
    apply (fresh_reply any_ops any_inv any_valid any_answers b (any_calm b) h0 HL ROOT MX l rs s u w h rep h'); auto.
    intros Z. rewrite Z in En1. cbn in En1. lia.
  Qed.

  (** Without mixing, the reply is what the first model says about the context, and nothing else. *)
  Theorem C62_first_model : forall l rs h s u w rep h',
    mh_mixture c = MixNone \/ (length (mh_models c) < 2)%nat ->
    forallb is_query_req l = true -> handle_all any_ops h0 l = Ok (rs, h) ->
    stands_for l rs s u -> (forall x, In x (u ++ w) -> 0 <= x) ->
    Z.of_nat (1 + traffic (l ++ [GetLMScoresReq s w])) < h_max h0 ->
    handle any_ops h (GetLMScoresReq s w) = Ok (rep, h') ->
    exists m r, nth_error (h_lms h0) 0 = Some m /\ answers_for any_ops (u ++ w) m r /\
      rep = match r with
            | None => InvalidArgument
            | Some sc => ScoresReply (LmScores (Val (sc_norm sc)) (map (fun e => (fst e, Val (snd e))) (sc_entries sc)))
            end.
  Proof.
    intros l rs h s u w rep h' Hc Q El S Pos L Eq.
    destruct (made_reply l rs h s u w rep h' Q El S Pos L Eq) as (ts & l1 & pss & r & Y & Wk & _ & Ex & ->).
    destruct made_facts as (ms & Ei & Em & Lm & _).
    destruct (initialize_ok _ _ _ _ Ei) as (_ & _ & _ & _ & _ & _ & A).
    assert (Hw : h_weights h0 = [Val f1]).
    { cbn [cfg_type hub_config_of cfg_weights] in A. rewrite map_length in A. destruct (mh_mixture c); [apply A| |destruct A].
      destruct Hc as [Hc|Hc]; [discriminate|]. destruct (Nat.ltb_spec (length (mh_models c)) 2); [apply A|lia]. }
    unfold hub_extract in Ex. change (in_range (fresh_hub h0 ts l1 pss) 0) with true in Ex. cbn [negb fresh_hub hs h_weights h_lms] in Ex.
    set (y := HState ts _ _ _ _ _) in Ex. change (vgetZ [y] 0) with (Ok y) in Ex. cbn [bind] in Ex. rewrite Hw in Ex. cbn [length Nat.ltb Nat.leb] in Ex.
    inversion Wk as [Z|m t m1 lm ts' l1' E1 Wk' Z1 Z2 Z3]; [subst; discriminate|].
    rewrite <- Z3 in Ex. apply bind_Ok in Ex. destruct Ex as [[r0 m2] [E2 Ex]]. injection Ex as <- <-.
    exists m, r0. split; [reflexivity|]. split.
    - exists t, m1, m2. split; auto. unfold hs_model in E2. cbn [y h_models] in E2. rewrite <- Z2 in E2. exact E2.
    - destruct r0 as [sc|]; cbn [option_map]; auto. do 2 f_equal. apply map_ext. intros [k p]. reflexivity.
  Qed.

  (** With interpolation and static weights, the reply is the mixture, with the configured weights, of what
      the models say about the context; it is refused only if one of them refuses. *)
  Theorem C62_static_mixture : forall l rs h s u w rep h',
    mh_mixture c = MixInterpolation -> (2 <= length (mh_models c))%nat -> mh_bayes c <= 0 ->
    (forall x, In x (map mc_weight (mh_models c)) -> flt f0 x = true) ->
    forallb is_query_req l = true -> handle_all any_ops h0 l = Ok (rs, h) ->
    stands_for l rs s u -> (forall x, In x (u ++ w) -> 0 <= x) ->
    Z.of_nat (1 + traffic (l ++ [GetLMScoresReq s w])) < h_max h0 ->
    handle any_ops h (GetLMScoresReq s w) = Ok (rep, h') ->
    (exists scs resp, Forall2 (fun m sc => answers_for any_ops (u ++ w) m (Some sc)) (h_lms h0) scs /\ rep = ScoresReply resp /\
       (mix_total (priors cfg) scs <> f0 ->
        is_mixture (priors cfg) scs resp /\ fsum (values (sc_entries resp)) = f1) /\
       ((forall sc, In sc scs -> fsum (map snd (sc_entries sc)) = f1) -> mix_total (priors cfg) scs = f1)) \/
    (exists m, In m (h_lms h0) /\ answers_for any_ops (u ++ w) m None /\ rep = InvalidArgument).
  Proof.
    intros l rs h s u w rep h' Ht Hn Hb Hp Q El S Pos L Eq.
    destruct (made_reply l rs h s u w rep h' Q El S Pos L Eq) as (ts & l1 & pss & r & Y & Wk & _ & Ex & ->).
    destruct made_facts as (ms & Ei & Em & Lm & _).
    assert (Hn' : (2 <= length (cfg_weights cfg))%nat) by (cbn [cfg_weights hub_config_of]; rewrite map_length; auto).
    destruct (init_weights _ _ _ _ _ _ Ei Ht Hn' Hp) as (Hw & Hbay & PosW).
    assert (Lp : length (priors cfg) = length (h_lms h0)).
    { unfold priors. cbn [cfg_weights hub_config_of]. rewrite !map_length. congruence. }
    destruct (fresh_mixed any_ops h0 (u ++ w) ts l1 pss (priors cfg) r Y Wk) as [(scs & resp & F1 & -> & F2)|(m & M1 & M2 & ->)]; auto.
    - rewrite Hw, map_length. unfold priors. rewrite map_length. auto.
    - unfold mixture_weights_at. cbn [fresh_hub h_bayes h_weights]. rewrite Hbay, Hw. cbn [cfg_bayes hub_config_of].
      destruct (Nat.eqb_spec (Z.to_nat (mh_bayes c)) 0); [reflexivity|lia].
    - left. exists scs, resp. split; auto. split; auto. split; auto. intros HS. apply mix_total_one; auto.
      + apply Forall2_length in F1. lia.
      + apply priors_sum; auto.
    - right. eauto.
  Qed.

  (** With a Bayesian history, the weights are the configured ones times the probability each model gives to
      the last symbols of the context. *)
  Theorem C62_bayes_mixture : forall l rs h s u w rep h',
    mh_mixture c = MixInterpolation -> (2 <= length (mh_models c))%nat -> 0 < mh_bayes c ->
    (forall x, In x (map mc_weight (mh_models c)) -> flt f0 x = true) ->
    forallb is_query_req l = true -> handle_all any_ops h0 l = Ok (rs, h) ->
    stands_for l rs s u -> (forall x, In x (u ++ w) -> 0 <= x) ->
    Z.of_nat (1 + traffic (l ++ [GetLMScoresReq s w])) < h_max h0 ->
    handle any_ops h (GetLMScoresReq s w) = Ok (rep, h') ->
    exists pss, Forall2 (fun m ps => gives_probs any_ops m (u ++ w) ps) (h_lms h0) pss /\
    (fsum (posterior cfg pss) <> f0 ->
     (exists scs resp, Forall2 (fun m sc => answers_for any_ops (u ++ w) m (Some sc)) (h_lms h0) scs /\ rep = ScoresReply resp /\
        (mix_total (bayes_weights cfg pss) scs <> f0 ->
         is_mixture (bayes_weights cfg pss) scs resp /\ fsum (values (sc_entries resp)) = f1) /\
        ((forall sc, In sc scs -> fsum (map snd (sc_entries sc)) = f1) -> mix_total (bayes_weights cfg pss) scs = f1)) \/
     (exists m, In m (h_lms h0) /\ answers_for any_ops (u ++ w) m None /\ rep = InvalidArgument)).
  Proof.
    intros l rs h s u w rep h' Ht Hn Hb Hp Q El S Pos L Eq.
    destruct (made_reply l rs h s u w rep h' Q El S Pos L Eq) as (ts & l1 & pss & r & Y & Wk & G & Ex & ->).
    destruct made_facts as (ms & Ei & Em & Lm & _).
    assert (Hn' : (2 <= length (cfg_weights cfg))%nat) by (cbn [cfg_weights hub_config_of]; rewrite map_length; auto).
    destruct (init_weights _ _ _ _ _ _ Ei Ht Hn' Hp) as (Hw & Hbay & PosW).
    cbn [cfg_bayes hub_config_of] in Hbay.
    assert (G' : all_give any_ops (u ++ w) (h_lms h0) pss) by (apply G; lia). clear G.
    assert (Lg : length pss = length (h_lms h0)) by (symmetry; eapply Forall2_length; exact G').
    assert (LL : length (h_lms h0) = length (mh_models c)) by congruence.
    exists pss. split; [exact G'|]. intros NZ.
    assert (Lb : length (bayes_weights cfg pss) = length (h_lms h0)).
    { unfold bayes_weights, posterior. rewrite !map_length, combine_length. cbn [cfg_weights hub_config_of]. rewrite map_length. lia. }
    destruct (fresh_mixed any_ops h0 (u ++ w) ts l1 pss (bayes_weights cfg pss) r Y Wk) as [(scs & resp & F1 & -> & F2)|(m & M1 & M2 & ->)]; auto.
    - rewrite Hw, map_length. unfold priors. rewrite map_length. auto.
    - eapply bayes_weights_at; try reflexivity; cbn [fresh_hub h_bayes h_weights]; auto; try lia.
      cbn [cfg_weights hub_config_of]. rewrite map_length. lia.
    - left. exists scs, resp. split; auto. split; auto. split; auto. intros HS. apply mix_total_one; auto.
      + apply Forall2_length in F1. lia.
      + apply bayes_weights_sum; auto.
    - right. eauto.
  Qed.
End C62.

(** ** Example *)

(** The four models of C61_hypotheses_met, unmixed, mixed with static weights, and with a Bayesian
    history. *)
Definition four_with (mx : mixture_type) (bay : Z) : model_hub_config Qc_field :=
  ModelHubConfig (mh_models four_config) mx 100 bay.
Definition four_asked : list request := [GetNextStateReq 0 [97; 98]; GetLMScoresReq 1 [99]; GetNextStateReq 2 [99]].
Definition is_some_scores (r : reply Qc_field) : bool :=
  match r with
  | ScoresReply sc => forallb (fun e => match snd e with Val p => fle f0 p | _ => false end) (sc_entries sc) &&
      (2 <=? length (filter (fun e => match snd e with Val p => flt f0 p | _ => false end) (sc_entries sc)))%nat
  | _ => false
  end.
Definition met (mx : mixture_type) (bay : Z) : Prop := exists h0 rs s' h rep h',
  make_model_hub four_ext four_disk (four_with mx bay) = Ok h0 /\
  Forall2 (well_made four_ext four_disk 1000000) (mh_models (four_with mx bay)) (h_lms h0) /\
  mh_max_states (four_with mx bay) < 2 ^ 31 /\
  (forall x, In x (map mc_weight (mh_models (four_with mx bay))) -> flt f0 x = true) /\
  forallb is_query_req four_asked = true /\ handle_all any_ops h0 four_asked = Ok (rs, h) /\
  s' <> 0 /\ stands_for four_asked rs s' [97; 98; 99] /\ (forall x, In x ([97; 98; 99] ++ [97]) -> 0 <= x) /\
  Z.of_nat (1 + traffic (four_asked ++ [GetLMScoresReq s' [97]])) < h_max h0 /\
  handle any_ops h (GetLMScoresReq s' [97]) = Ok (rep, h') /\ is_some_scores rep = true.
Definition met_check (mx : mixture_type) (bay : Z) : bool :=
  match make_model_hub four_ext four_disk (four_with mx bay) with
  | Ok h0 => forall2b (well_madeb four_disk 1000000) (mh_models (four_with mx bay)) (h_lms h0) &&
      match handle_all any_ops h0 four_asked with
      | Ok ([StateReply s; _; StateReply s'], h) => (s =? 2) && negb (s' =? 0) &&
          (Z.of_nat (1 + traffic (four_asked ++ [GetLMScoresReq s' [97]])) <? h_max h0) &&
          match handle any_ops h (GetLMScoresReq s' [97]) with Ok (rep, _) => is_some_scores rep | _ => false end
      | _ => false
      end
  | _ => false
  end.
Lemma met_checked mx bay : met_check mx bay = true -> met mx bay.
Proof.
  unfold met_check, met. intros K.
  destruct (make_model_hub four_ext four_disk (four_with mx bay)) as [h0| | |] eqn:E; [|discriminate K..].
  apply andb_prop in K. destruct K as [K1 K].
  destruct (handle_all any_ops h0 four_asked) as [[rs h]| | |] eqn:E1; [|discriminate K..].
  destruct rs as [|[s| |] [|r2 [|[s'| |] [|]]]]; try discriminate K.
  apply andb_prop in K. destruct K as [K K5]. apply andb_prop in K. destruct K as [K K4]. apply andb_prop in K. destruct K as [K2 K3].
  destruct (handle any_ops h (GetLMScoresReq s' [97])) as [[rep h']| | |] eqn:E2; [|discriminate K5..].
  exists h0, [StateReply s; r2; StateReply s'], s', h, rep, h'. split; [reflexivity|].
  split; [revert K1; apply forall2b_sound; intros c m; apply well_madeb_sound|].
  split; [reflexivity|].
  split. { cbn [four_with four_config mh_models map mc_weight In]. intros x H. repeat (destruct H as [<-|H]; [reflexivity|]). destruct H. }
  split; [reflexivity|]. split; [exact E1|]. split; [intros ->; discriminate K3|].
  apply Z.eqb_eq in K2. subst s.
  split. { apply (sf_next [GetNextStateReq 0 [97; 98]; GetLMScoresReq 1 [99]] [StateReply 2; r2] 2 [97; 98] [99] [] s' []); [|reflexivity].
    apply (sf_next [] [] 0 [] [97; 98] [GetLMScoresReq 1 [99]] 2 [r2]); [|reflexivity]. constructor. lia. }
  split; [intros x [<-|[<-|[<-|[<-|[]]]]]; lia|].
  split; [apply Z.ltb_lt; exact K4|]. auto.
Qed.
Example C62_hypotheses_met : met MixNone 2 /\ met MixInterpolation 0 /\ met MixInterpolation 2.
Proof. split; [|split]; apply met_checked; vmr. Qed.
Print Assumptions C62_first_model.
Print Assumptions C62_static_mixture.
Print Assumptions C62_bayes_mixture.
