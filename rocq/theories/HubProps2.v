(** Properties C13 (example) and C14-C16: mixture weights. *)
From Verif Require Import Base Field LmModel HubModel HubSpec HubProofs HubTrie HubLearn HubMix HubWrap HubProps.
From Verif Require Import TextModel BigramModel BigramProofs BigramReadProofs BigramProps BigramComp.
From Coq Require Import Field String.
Close Scope string_scope.
Open Scope list_scope.
Local Notation length := List.length.
Local Open Scope Z_scope.

(** The same list of contexts describes a hub, however it was found. *)
Lemma trie_ctxs_unique (F : ofield) (M : Type) (ops : comp_ops F M) l1 t1 l2 t2 lms1 lms2 h c1 c2 :
  trie ops l1 t1 lms1 h c1 -> trie ops l2 t2 lms2 h c2 ->
  forall n i x, length x = n -> nth_error c1 i = Some x -> nth_error c2 i = Some x.
Proof.
  intros T1 T2. induction n as [|n IH]; intros i x Hn Hx.
  - destruct i as [|i].
    + rewrite (t_root _ _ _ _ _ _ T1) in Hx. injection Hx as <-. apply (t_root _ _ _ _ _ _ T2).
    + destruct (nth_error (hs h) (S i)) as [s|] eqn:Es.
      * destruct (t_prev _ _ _ _ _ _ T1 (S i) s x (Nat.lt_0_succ i) Es Hx) as (y & ps & _ & _ & _ & _ & -> & _).
        rewrite app_length in Hn; simpl in Hn; lia.
      * apply nth_error_None in Es. apply nth_error_Some_lt in Hx.
        rewrite (t_len _ _ _ _ _ _ T1) in Hx. lia.
  - destruct i as [|i].
    { rewrite (t_root _ _ _ _ _ _ T1) in Hx. injection Hx as <-. discriminate. }
    destruct (nth_error (hs h) (S i)) as [s|] eqn:Es.
    2:{ apply nth_error_None in Es. apply nth_error_Some_lt in Hx.
        rewrite (t_len _ _ _ _ _ _ T1) in Hx. lia. }
    destruct (t_prev _ _ _ _ _ _ T1 (S i) s x (Nat.lt_0_succ i) Es Hx) as (y & ps & _ & _ & Y & _ & -> & _).
    rewrite app_length in Hn; simpl in Hn.
    destruct (trie_ctx _ _ _ _ _ _ _ _ T2 Es) as [x2 Hx2].
    destruct (t_prev _ _ _ _ _ _ T2 (S i) s x2 (Nat.lt_0_succ i) Es Hx2) as (y2 & ps2 & _ & _ & Y2 & _ & -> & _).
    apply IH in Y; [|lia]. rewrite Y in Y2. injection Y2 as <-. exact Hx2.
Qed.

Lemma nth_error_ext_len A (l l' : list A) :
  length l = length l' -> (forall k x, nth_error l' k = Some x -> nth_error l k = Some x) -> l = l'.
Proof.
  revert l'; induction l as [|a l IH]; intros [|b l'] HL H; try discriminate; auto.
  f_equal; [specialize (H 0%nat b eq_refl); simpl in H; congruence|].
  apply IH; [simpl in HL; lia|]. intros k x Hk. apply (H (S k) x Hk).
Qed.

Lemma nth_error_combine_some A B (l : list A) (l' : list B) k a b :
  nth_error l k = Some a -> nth_error l' k = Some b -> nth_error (combine l l') k = Some (a, b).
Proof.
  revert l' k; induction l as [|x l IH]; intros [|y l'] [|k]; simpl; try discriminate; auto.
  intros [= <-] [= <-]; auto.
Qed.

(** The responses of the two bigram models in state "a": 1/3 each over {0,a,b} and {0,b,c} (the
    second model does not know "a" and is in its start state). *)
Example C13_example :
  (let* h0 := two_hub 0 0 in
   let* (r, h1) := hub_context qops h0 [97] 0 in
   let* (resp, _) := hub_extract qops h1 r in Ok resp)
  = Ok (Some (LmScores (Val (q 3 1))
       [([0], Val (q 1 3)); ([97], Val (q 2 9)); ([98], Val (q 1 3)); ([99], Val (q 1 9))])).
Proof. vmr. Qed.

(** * C14 *)

(** The mixture weights are positive, sum to one, are in the ratio of the configured weights
    ([cfg_weights] holds [exp(-weight)] of each configured weight), and no call changes them. *)
Theorem C14_static_weights :
  forall (F : ofield) (M : Type) (ops : comp_ops F M) lms cfg h0 l h,
  initialize_models ops lms cfg = Ok h0 ->
  cfg_type cfg = MixInterpolation -> (2 <= length (cfg_weights cfg))%nat ->
  (forall x, In x (cfg_weights cfg) -> flt f0 x = true) ->
  hub_run ops h0 l = Ok h ->
  exists ws, h_weights h = map Val ws /\ length ws = length (cfg_weights cfg) /\
    (forall w, In w ws -> flt f0 w = true) /\ fsum ws = f1 /\
    (forall i j wi wj ci cj, nth_error ws i = Some wi -> nth_error ws j = Some wj ->
       nth_error (cfg_weights cfg) i = Some ci -> nth_error (cfg_weights cfg) j = Some cj ->
       fmul wi cj = fmul wj ci) /\
    (cfg_bayes cfg <= 0 -> forall s, mixture_weights_at h s = Ok (map Val ws)).
Proof.
  intros F M ops lms cfg h0 l h Hi Ht Hn Hp Hr.
  destruct (initialize_ok _ _ _ _ Hi) as (W0 & _).
  destruct (init_weights _ _ _ _ _ _ Hi Ht Hn Hp) as (Hw & Hb & Pos).
  destruct (hub_run_wf _ _ _ _ W0 Hr) as [W (_ & C2 & C3 & _)].
  exists (priors cfg). split; [congruence|]. split; [apply map_length|]. split.
  { intros w Hin. unfold priors in Hin. apply in_map_iff in Hin. destruct Hin as [x [<- Hx]].
    apply fdiv_pos; auto. }
  split; [apply priors_sum; auto|]. split.
  - intros i j wi wj ci cj H1 H2 H3 H4. unfold priors in H1, H2.
    rewrite nth_error_map, H3 in H1. rewrite nth_error_map, H4 in H2.
    injection H1 as <-. injection H2 as <-.
    assert (NZ : fsum (cfg_weights cfg) <> f0) by (apply not_eq_sym, flt_neq; auto).
    apply (fdiv_cross ci cj (fsum (cfg_weights cfg)) NZ).
  - intros Hb0 s. unfold mixture_weights_at. rewrite C3, Hb.
    replace (Z.to_nat (cfg_bayes cfg)) with 0%nat by lia. simpl. congruence.
Qed.
Print Assumptions C14_static_weights.

Example C14_example :
  (let* h0 := two_hub 0 0 in Ok (h_weights h0)) = Ok [Val (q 2 3); Val (q 1 3)] /\
  (forall x, In x (cfg_weights (two_config 0 0)) -> flt f0 x = true).
Proof. split; [vmr|]. intros x [<-|[<-|[]]]; vmr. Qed.

(** Without interpolation (mixture type NONE, or fewer than two configured models) the hub answers
    exactly what its first model answers in that model's stored state. *)
Theorem C14_no_mixing :
  forall (F : ofield) (M : Type) (ops : comp_ops F M) lms cfg h0 l h s r h',
  initialize_models ops lms cfg = Ok h0 ->
  cfg_type cfg = MixNone \/ (length (cfg_weights cfg) < 2)%nat ->
  hub_run ops h0 l = Ok h -> in_range h s = true ->
  hub_extract ops h s = Ok (r, h') ->
  exists st m m' r0, vgetZ (hs h) s = Ok st /\ nth_error (h_lms h) 0 = Some m /\
    c_extract ops m (hs_model st 0) = Ok (r0, m') /\
    match r0 with
    | None => r = None
    | Some sc => exists resp, r = Some resp /\ sc_norm resp = Val (sc_norm sc) /\
                   sc_entries resp = map (fun e => (fst e, Val (snd e))) (sc_entries sc)
    end.
Proof.
  intros F M ops lms cfg h0 l h s r h' Hi Hc Hr Hin E.
  destruct (initialize_ok _ _ _ _ Hi) as (W0 & _ & _ & _ & _ & _ & A).
  destruct (hub_run_wf _ _ _ _ W0 Hr) as [W (_ & C2 & _)].
  assert (Hw : h_weights h = [Val f1]).
  { rewrite C2. destruct (cfg_type cfg); [apply A| |destruct A].
    destruct Hc as [Hc|Hc]; [discriminate|]. destruct (Nat.ltb_spec (length (cfg_weights cfg)) 2); [apply A|lia]. }
  unfold hub_extract in E. rewrite Hin, Hw in E. simpl in E.
  apply bind_Ok in E. destruct E as [st [E1 E]].
  destruct (h_lms h) as [|m t] eqn:El; [discriminate|].
  apply bind_Ok in E. destruct E as [[r0 m'] [E2 E]]. injection E as <- <-.
  exists st, m, m', r0. split; auto. split; auto. split; auto.
  destruct r0 as [sc|]; simpl; auto. eexists. split; [reflexivity|]. split; [reflexivity|].
  simpl. apply map_ext. intros [k p]; reflexivity.
Qed.
Print Assumptions C14_no_mixing.

Example C14_no_mixing_example :
  (let* h0 := initialize_models qops [ab_loaded; bc_loaded] (HubConfig MixNone [q 1 2; q 1 4] 7 0) in
   let* (r, h1) := hub_context qops h0 [97] 0 in
   let* (resp, _) := hub_extract qops h1 r in Ok resp)
  = Ok (Some (LmScores (Val (q 3 1)) [([0], Val (q 1 3)); ([97], Val (q 1 3)); ([98], Val (q 1 3))])).
Proof. vmr. Qed.

(** * C15 *)

Lemma hist_row_prod (F : ofield) j (ps : list (car F)) : fprod (hist_row j ps) = fprod (last_n j ps).
Proof.
  unfold hist_row, last_n. rewrite app_length, repeat_length.
  replace (j + length ps - j)%nat with (length ps) by lia.
  rewrite skipn_app, repeat_length, fprod_app.
  assert (S1 : skipn (length ps) (repeat (f1 : car F) j) = repeat f1 (j - length ps)).
  { generalize (length ps). clear. intros n; revert j. induction n as [|n IH]; intros [|j]; simpl; auto. }
  rewrite S1, fprod_ones. apply (Ring_theory.Rmul_1_l (Field_theory.F_R (f_th F))).
Qed.

Lemma zip_weights_spec (F : ofield) (ws sums : list (car F)) :
  (length ws <= length sums)%nat ->
  zip_weights (map Val ws) sums = Ok (map (fun '(w, p) => Val (fmul w p)) (combine ws sums)).
Proof.
  revert sums; induction ws as [|w ws IH]; intros [|p sums] H; simpl in *; auto; try lia.
  rewrite IH by lia. reflexivity.
Qed.

(** Weight times likelihood of the last [j] symbols, for each model. *)
Definition posterior {F : ofield} (cfg : @hub_config F) (pss : list (list (car F))) : list (car F) :=
  map (fun '(w, ps) => fmul w (fprod (last_n (Z.to_nat (cfg_bayes cfg)) ps)))
      (combine (cfg_weights cfg) pss).

(** Bayes' rule: with a history of length [cfg_bayes], the weight in force after context [w] is
    the configured weight times the product of the probabilities the model gives to the last
    symbols of [w] (each after what precedes it), normalised over the models; the scores of that
    state are the mixture with these weights. *)
Theorem C15_bayes_rule :
  forall (F : ofield) (M : Type) (ops : comp_ops F M) learning lms cfg h0 l h w r h1,
  initialize_models ops lms cfg = Ok h0 ->
  cfg_type cfg = MixInterpolation -> (2 <= length (cfg_weights cfg))%nat ->
  length lms = length (cfg_weights cfg) ->
  (forall x, In x (cfg_weights cfg) -> flt f0 x = true) -> 0 < cfg_bayes cfg ->
  Forall (repeatable ops learning) lms -> Forall (repeatable_scores ops learning) lms ->
  Forall (scores_total ops) lms ->
  learning = true \/ forallb is_query l = true ->
  hub_run ops h0 l = Ok h -> (forall c, In c w -> 0 <= c) ->
  hub_context ops h w 0 = Ok (r, h1) -> Z.of_nat (length (hs h1)) < h_max h1 ->
  exists pss, length pss = length lms /\
    (forall k m ps, nth_error (h_lms h1) k = Some m -> nth_error pss k = Some ps ->
       gives_probs ops m w ps) /\
    (fsum (posterior cfg pss) <> f0 ->
     mixture_weights_at h1 r =
       Ok (map (fun u => Val (fdiv u (fsum (posterior cfg pss)))) (posterior cfg pss)) /\
     fsum (map (fun u => fdiv u (fsum (posterior cfg pss))) (posterior cfg pss)) = f1).
Proof.
  intros F M ops learning lms cfg h0 l h w r h1 Hi Ht Hn Hlen Hp Hb HR HRS HT Q Hr N E1 Hsz.
  destruct (initialize_ok _ _ _ _ Hi) as (W0 & _ & Elms & _).
  destruct (init_weights _ _ _ _ _ _ Hi Ht Hn Hp) as (Hw & Hbay & Pos).
  assert (T0 : trie ops learning true lms h0 [[]]) by (apply (trie_init ops learning true lms cfg h0); auto).
  assert (H0 : hist_ok ops learning true lms h0 [[]]).
  { apply (hist_init ops learning true lms cfg h0); auto. lia. }
  destruct (hub_run_wf _ _ _ _ W0 Hr) as [W C0].
  unfold hub_context in E1. simpl in E1.
  destruct (hub_context_loop_wf ops _ _ _ _ _ W (Z.le_refl 0) E1) as (W1 & C1 & R1 & R1').
  unfold same_config in *. destruct C0 as (A0 & A0w & A0b & A0l & B0), C1 as (A1 & A1w & A1b & A1l & B1).
  rewrite A1, A0 in Hsz.
  destruct (hist_run ops learning true l _ _ _ _ W0 T0 H0 Q Hr) as (c1 & T1 & X1 & H1); [lia|].
  destruct (trie_context_loop ops learning true w lms h c1 0 [] r h1) as (c2 & T2 & X2 & P1 & P2); auto; try lia.
  { pose proof (t_root _ _ _ _ _ _ T1) as Hroot. apply (ctx_at_nth c1 0); [lia|exact Hroot]. }
  destruct (hist_context ops learning true w lms h c1 0 r h1) as (c3 & T3 & X3 & H3); auto; try lia.
  assert (I1 : 0 <= r < Z.of_nat (length (hs h1))).
  { split; auto. apply R1'; right; pose proof (wf_nonempty _ W); lia. }
  (* both invariants give [r] the same context *)
  assert (K2 : nth_error c2 (Z.to_nat r) = Some w).
  { simpl in P2. unfold ctx_at in P2. rewrite (t_len _ _ _ _ _ _ T2) in P2.
    destruct ((0 <=? r) && (r <? Z.of_nat (length (hs h1)))) eqn:E; [auto|lia]. }
  assert (K3 : nth_error c3 (Z.to_nat r) = Some w).
  { eapply trie_ctxs_unique; [exact T2|exact T3|reflexivity|exact K2]. }
  destruct (vgetZ_range _ (hs h1) r I1) as [st Est].
  assert (Est' := Est). apply vgetZ_Ok in Est'. destruct Est' as [_ Est'].
  destruct H3 as (_ & _ & Hbpos & H3). specialize (H3 (Z.to_nat r)).
  assert (Hst := wf_states _ W1 _ (vgetZ_In _ _ _ _ Est)).
  assert (Lsum : length (h_sum st) = length (h_lms h1)) by (apply (ok_sum _ _ _ _ Hst); lia).
  set (j := Z.to_nat (cfg_bayes cfg)) in *.
  assert (Hbj : h_bayes h1 = j) by congruence.
  (* collect the probabilities of each model *)
  assert (Col : forall k0 ms, (forall k m, nth_error ms k = Some m -> nth_error (h_lms h1) (k0 + k) = Some m) ->
     exists pss, length pss = length ms /\
       forall k m ps, nth_error ms k = Some m -> nth_error pss k = Some ps ->
         gives_probs ops m w ps /\ nth_error (h_sum st) (k0 + k) = Some (fprod (last_n j ps))).
  { intros k0 ms; revert k0. induction ms as [|m ms IH]; intros k0 Hms.
    - exists []. split; auto. intros [|k] m ps; discriminate.
    - assert (Hm : nth_error (h_lms h1) k0 = Some m) by (rewrite <- (Nat.add_0_r k0); apply (Hms 0%nat m eq_refl)).
      destruct (H3 st w k0 m Est' K3 Hm) as (ps & G1 & G2 & G3).
      destruct (IH (S k0)) as (pss & L1 & L2).
      { intros k m' Hk. replace (S k0 + k)%nat with (k0 + S k)%nat by lia. apply Hms; auto. }
      exists (ps :: pss). split; [simpl; auto|].
      intros [|k] m' ps' Hk1 Hk2; simpl in Hk1, Hk2.
      + injection Hk1 as <-. injection Hk2 as <-. split; [apply G1; apply reach_refl|].
        rewrite Nat.add_0_r, G3, Hbj, hist_row_prod. reflexivity.
      + replace (k0 + S k)%nat with (S k0 + k)%nat by lia. apply L2; auto. }
  destruct (Col 0%nat (h_lms h1)) as (pss & L1 & L2); [auto|].
  assert (Ln : length pss = length lms) by (rewrite L1, A1l, A0l, Elms; auto).
  exists pss. split; auto. split; [intros k m ps Hk1 Hk2; apply (L2 k m ps Hk1 Hk2)|].
  assert (Es : h_sum st = map (fun ps => fprod (last_n j ps)) pss).
  { apply nth_error_ext_len; [rewrite map_length; congruence|].
    intros k x Hx. rewrite nth_error_map in Hx. destruct (nth_error pss k) as [ps|] eqn:Ek; [|discriminate].
    injection Hx as <-. destruct (nth_error (h_lms h1) k) as [m|] eqn:Em.
    - apply (L2 k m ps Em Ek).
    - apply nth_error_None in Em. apply nth_error_Some_lt in Ek. lia. }
  intros Hnz.
  assert (Ez : zip_weights (h_weights h1) (h_sum st) =
               Ok (map Val (map (fun u => fdiv u (fsum (cfg_weights cfg))) (posterior cfg pss)))).
  { rewrite A1w, A0w, Hw, Es, zip_weights_spec.
    2:{ unfold priors. rewrite !map_length. lia. }
    f_equal. unfold priors, posterior. fold j.
    assert (NZ : fsum (cfg_weights cfg) <> f0) by (apply not_eq_sym, flt_neq; auto).
    revert NZ. generalize (fsum (cfg_weights cfg)). intros S NZ. clear -NZ.
    revert pss. induction (cfg_weights cfg) as [|x t IH]; intros [|ps pss]; simpl; auto.
    f_equal; auto. f_equal. apply fdiv_mul_swap; auto. }
  assert (NZ : fsum (cfg_weights cfg) <> f0) by (apply not_eq_sym, flt_neq; auto).
  split.
  - unfold mixture_weights_at, in_range.
    replace ((0 <=? r) && (r <? Z.of_nat (length (hs h1)))) with true by lia.
    destruct (Nat.eqb_spec (h_bayes h1) 0); [lia|]. cbn [orb negb]. rewrite Est; cbn [bind].
    rewrite Ez; cbn [bind]. f_equal. rewrite nsum_vals.
    2:{ intros E. apply map_eq_nil in E. rewrite E in Hnz. apply Hnz. reflexivity. }
    rewrite fsum_map_div, map_id, !map_map by auto. apply map_ext. intros u. simpl. unfold num_div.
    replace (feqb (fdiv (fsum (posterior cfg pss)) (fsum (cfg_weights cfg))) f0) with false.
    + f_equal. apply fdiv_div; auto.
    + symmetry. apply feqb_neq. intros E. apply Hnz. apply fdiv_zero in E; auto.
  - rewrite fsum_map_div, map_id by auto. apply fdiv_self; auto.
Qed.
Print Assumptions C15_bayes_rule.

(** After "ba" with history length 1: the second model does not know "a", so only the first
    remains; with length 2 and context "bb" the posterior is (1/2)(1/9) : (1/4)(1/9). *)
Example C15_example :
  (let* h0 := two_hub 1 0 in
   let* (r, h1) := hub_context qops h0 [98; 97] 0 in mixture_weights_at h1 r)
  = Ok [Val (q 1 1); Val (q 0 1)] /\
  (let* h0 := two_hub 2 0 in
   let* h1 := hub_run qops h0 [OpUpdate 0 [98] 4] in
   let* (r, h1) := hub_context qops h1 [98; 98] 0 in mixture_weights_at h1 r)
  = Ok [Val (q 2 3); Val (q 1 3)] /\
  Forall (repeatable qops false) [ab_loaded; bc_loaded] /\
  Forall (repeatable_scores qops false) [ab_loaded; bc_loaded] /\
  Forall (scores_total qops) [ab_loaded; bc_loaded].
Proof.
  split; [vmr|]. split; [vmr|].
  repeat split; eapply Forall_impl; try exact two_components; simpl; intros m (A & B & C); auto.
Qed.

(** * C16 *)

(** A symbol unknown to every model makes every posterior weight 0/0: all scores are NaN, and
    stay so for [bayesian_history_length] symbols. *)
Theorem C16_defined_weights_refuted :
  (let* h0 := two_hub 1 0 in
   let* (r, h1) := hub_context qops h0 [120] 0 in
   let* ws := mixture_weights_at h1 r in
   let* (resp, _) := hub_extract qops h1 r in
   Ok (ws, resp)) =
  Ok ([NaN; NaN],
      Some (LmScores NaN [([0], NaN); ([97], NaN); ([98], NaN); ([99], NaN)])).
Proof. vmr. Qed.
Print Assumptions C16_defined_weights_refuted.

(** Outside that case the weights are defined: enough that one model gave every recent symbol a
    positive probability. *)
Lemma posterior_nonzero :
  forall (F : ofield) (cfg : @hub_config F) pss,
  (forall x, In x (cfg_weights cfg) -> flt f0 x = true) ->
  (forall ps, In ps pss -> forall p, In p ps -> fle f0 p = true) ->
  (exists k w ps, nth_error (cfg_weights cfg) k = Some w /\ nth_error pss k = Some ps /\
     forall p, In p (last_n (Z.to_nat (cfg_bayes cfg)) ps) -> flt f0 p = true) ->
  fsum (posterior cfg pss) <> f0.
Proof.
  intros F cfg pss Hw Hp (k & w & ps & K1 & K2 & K3).
  assert (SubIn : forall n (l : list (car F)) p, In p (last_n n l) -> In p l).
  { intros n l p Hin. unfold last_n in Hin. rewrite <- (firstn_skipn (length l - n) l). apply in_or_app; auto. }
  apply not_eq_sym, flt_neq.
  apply (fsum_pos _ (fmul w (fprod (last_n (Z.to_nat (cfg_bayes cfg)) ps)))).
  - intros y Hy. unfold posterior in Hy. apply in_map_iff in Hy. destruct Hy as [[x qs] [<- Hin]].
    apply fmul_nonneg; [apply flt_le, Hw; eapply in_combine_l; eauto|].
    apply fprod_nonneg. intros p Hpp. apply (Hp qs); [eapply in_combine_r; eauto|]. eapply SubIn; eauto.
  - unfold posterior. apply in_map_iff. exists (w, ps). split; auto.
    eapply nth_error_In. eapply nth_error_combine_some; eauto.
  - apply fmul_pos; [apply Hw; eapply nth_error_In; eauto|]. apply fprod_pos; auto.
Qed.

Theorem C16_weights_defined_partial :
  forall (F : ofield) (M : Type) (ops : comp_ops F M) learning lms cfg h0 l h w r h1,
  initialize_models ops lms cfg = Ok h0 ->
  cfg_type cfg = MixInterpolation -> (2 <= length (cfg_weights cfg))%nat ->
  length lms = length (cfg_weights cfg) ->
  (forall x, In x (cfg_weights cfg) -> flt f0 x = true) -> 0 < cfg_bayes cfg ->
  Forall (repeatable ops learning) lms -> Forall (repeatable_scores ops learning) lms ->
  Forall (scores_total ops) lms ->
  learning = true \/ forallb is_query l = true ->
  hub_run ops h0 l = Ok h -> (forall c, In c w -> 0 <= c) ->
  hub_context ops h w 0 = Ok (r, h1) -> Z.of_nat (length (hs h1)) < h_max h1 ->
  (* no model gives a negative probability, and one of them gives every recent symbol a positive one *)
  (forall m ps p, In m (h_lms h1) -> gives_probs ops m w ps -> In p ps -> fle f0 p = true) ->
  (exists k m, nth_error (h_lms h1) k = Some m /\ forall ps p, gives_probs ops m w ps ->
     In p (last_n (Z.to_nat (cfg_bayes cfg)) ps) -> flt f0 p = true) ->
  exists ws, mixture_weights_at h1 r = Ok (map Val ws) /\ fsum ws = f1 /\
             forall x, In x ws -> fle f0 x = true.
Proof.
  intros F M ops learning lms cfg h0 l h w r h1 Hi Ht Hn Hlen Hp Hb HR HRS HT Q Hr N E1 Hsz Pnn (k & m & Hk & Ppos).
  destruct (C15_bayes_rule F M ops learning lms cfg h0 l h w r h1 Hi Ht Hn Hlen Hp Hb HR HRS HT Q Hr N E1 Hsz)
    as (pss & L1 & L2 & L3).
  destruct (initialize_ok _ _ _ _ Hi) as (W0 & _ & Elms & _).
  destruct (hub_run_wf _ _ _ _ W0 Hr) as [W C0].
  unfold hub_context in E1. simpl in E1.
  destruct (hub_context_loop_wf ops _ _ _ _ _ W (Z.le_refl 0) E1) as (W1 & C1 & _).
  assert (Elen : length (h_lms h1) = length lms).
  { unfold same_config in *. destruct C0 as (_ & _ & _ & A0l & _), C1 as (_ & _ & _ & A1l & _). congruence. }
  assert (PN : forall ps, In ps pss -> forall p, In p ps -> fle f0 p = true).
  { intros ps Hps p Hpin. destruct (In_nth_error _ _ Hps) as [i Hi'].
    destruct (nth_error (h_lms h1) i) as [mi|] eqn:Em.
    - eapply Pnn; [eapply nth_error_In; eauto| eapply L2; eauto | exact Hpin].
    - apply nth_error_None in Em. apply nth_error_Some_lt in Hi'. lia. }
  assert (NZ : fsum (posterior cfg pss) <> f0).
  { apply posterior_nonzero; auto.
    assert (Hkl := nth_error_Some_lt _ _ _ _ Hk).
    destruct (nth_error (cfg_weights cfg) k) as [x|] eqn:Ex.
    2:{ apply nth_error_None in Ex. lia. }
    destruct (nth_error pss k) as [ps|] eqn:Ep.
    2:{ apply nth_error_None in Ep. lia. }
    exists k, x, ps. split; auto. split; auto. intros p Hin. eapply Ppos; eauto. }
  destruct (L3 NZ) as [A B]. exists (map (fun u => fdiv u (fsum (posterior cfg pss))) (posterior cfg pss)).
  rewrite map_map. split; auto. split; auto.
  intros x Hx. apply in_map_iff in Hx. destruct Hx as [u [<- Hu]].
  assert (PostNN : forall y, In y (posterior cfg pss) -> fle f0 y = true).
  { intros y Hy. unfold posterior in Hy. apply in_map_iff in Hy. destruct Hy as [[z qs] [<- Hin]].
    apply fmul_nonneg; [apply flt_le, Hp; eapply in_combine_l; eauto|].
    apply fprod_nonneg. intros p Hpp. apply (PN qs); [eapply in_combine_r; eauto|].
    unfold last_n in Hpp. rewrite <- (firstn_skipn (length qs - Z.to_nat (cfg_bayes cfg)) qs). apply in_or_app; auto. }
  apply fdiv_nonneg; auto. apply flt_iff. split; [apply fsum_nonneg; auto|auto].
Qed.
Print Assumptions C16_weights_defined_partial.

Example C16_example :
  (let* h0 := two_hub 1 0 in
   let* (r, h1) := hub_context qops h0 [99; 98] 0 in
   let* (p1, _) := c_prob qops (nth 0 (h_lms h1) ab_loaded) [99] 98 in
   let* (p2, _) := c_prob qops (nth 1 (h_lms h1) ab_loaded) [99] 98 in
   let* ws := mixture_weights_at h1 r in Ok (p1, p2, ws)) =
  Ok (q 1 3, q 1 3, [Val (q 2 3); Val (q 1 3)]).
Proof. vmr. Qed.

