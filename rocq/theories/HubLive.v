(** Component models that answer every call made on a state they have handed out, and hubs of them:
    the hub then answers every call. *)
From Verif Require Import Base Field LmModel HubModel HubSpec HubProofs.
Local Open Scope Z_scope.

(** [x] returns, with [P] of the result. *)
Definition sure {A} (P : A -> Prop) (x : outcome A) : Prop := exists a, x = Ok a /\ P a.
Lemma sure_bind {A B} (P : A -> Prop) (Q : B -> Prop) (x : outcome A) (f : A -> outcome B) :
  sure P x -> (forall a, x = Ok a -> P a -> sure Q (f a)) -> sure Q (bind x f).
Proof. intros [a [-> Pa]] H. cbn [bind]. auto. Qed.
Lemma sure_ok {A} (P : A -> Prop) a : P a -> sure P (Ok a).
Proof. intros H. exists a. auto. Qed.
Lemma sure_mono {A} (P Q : A -> Prop) x : (forall a, x = Ok a -> P a -> Q a) -> sure P x -> sure Q x.
Proof. intros H [a [-> Pa]]. exists a. auto. Qed.

(** Components that always answer.  [Inv b m]: the memory [m] is sound and leaves room for [b] more
    observations; [ok m s]: the model in memory [m] has handed out the state [s].  The start state has
    been handed out, NextState hands out the state it returns, and no call takes a state back. *)
Definition keeps {M : Type} (ok : M -> Z -> Prop) (m m' : M) : Prop := forall t, ok m t -> ok m' t.
Record comps_answer {F : ofield} {M : Type} (ops : comp_ops F M) (Inv : Z -> M -> Prop) (ok : M -> Z -> Prop)
  : Prop := {
  an_start : forall b m, Inv b m -> ok m (c_start ops m);
  an_next : forall b m s c, Inv b m -> ok m s -> 0 <= c ->
    exists t m', c_next ops m s c = Ok (t, m') /\ Inv b m' /\ keeps ok m m' /\ ok m' t;
  an_score : forall b m s c, Inv b m -> ok m s ->
    exists p m', c_score ops m s c = Ok (p, m') /\ Inv b m' /\ keeps ok m m';
  an_extract : forall b m s, Inv b m -> ok m s ->
    exists r m', c_extract ops m s = Ok (r, m') /\ Inv b m' /\ keeps ok m m';
  an_update : forall b m s w n, Inv b m -> ok m s -> learn_cost w n <= b ->
    exists r m', c_update ops m s w n = Ok (r, m') /\ Inv (b - learn_cost w n) m' /\ keeps ok m m';
  an_mono : forall b b' m, b' <= b -> Inv b m -> Inv b' m
}.

Section Live.
  Context {F : ofield} {M : Type}.
  Variable ops : comp_ops F M.
  Variable Inv : Z -> M -> Prop.
  Variable ok : M -> Z -> Prop.
  Hypothesis A : comps_answer ops Inv ok.

  Definition grow (l l' : list M) : Prop := Forall2 (keeps ok) l l'.
  Lemma keeps_refl m : keeps ok m m.
  Proof. intros t H. exact H. Qed.
  Lemma grow_refl l : grow l l.
  Proof. induction l; constructor; auto using keeps_refl. Qed.

  (** The component states of a hub state have been handed out, and its links carry symbols. *)
  Definition live (lms : list M) (s : hstate F) : Prop :=
    Forall2 ok lms (h_models s) /\ forall c i, In (c, i) (h_next s) -> 0 <= c.
  Lemma grow_ok l l' xs : grow l l' -> Forall2 ok l xs -> Forall2 ok l' xs.
  Proof.
    intros G. revert xs. induction G as [|m m' l l' K G IH]; intros xs H; inversion H; subst; constructor; auto.
  Qed.
  Lemma grow_live l l' s : grow l l' -> live l s -> live l' s.
  Proof. intros G [H1 H2]. split; auto. eapply grow_ok; eauto. Qed.
  Lemma grow_length l l' : grow l l' -> length l' = length l.
  Proof. intros G. symmetry. eapply Forall2_length; eauto. Qed.

  Lemma new_live lms ms prev sym bayes : Forall2 ok lms ms -> live lms (new_hstate (F := F) ms prev sym bayes).
  Proof. intros H. split; auto. intros c i []. Qed.

  Section Budget.
  Variable b : Z.
  Definition lms_fine (l : list M) : Prop := Forall (Inv b) l.

  Lemma skipn_cons {T} (l : list T) i x t : skipn i l = x :: t -> nth_error l i = Some x /\ skipn (S i) l = t.
  Proof.
    revert i. induction l as [|y l IH]; intros [|i] H; simpl in *; try discriminate.
    - injection H as -> ->. auto.
    - apply IH in H. exact H.
  Qed.
  Lemma comps_next_sure s c lms : forall idx, 0 <= c -> lms_fine lms -> Forall2 ok lms (skipn idx (h_models s)) ->
    sure (fun p => lms_fine (snd p) /\ grow lms (snd p) /\ Forall2 ok (snd p) (fst p)) (comps_next ops s idx lms c).
  Proof.
    induction lms as [|m t IH]; intros idx Hc H K; cbn [comps_next].
    - apply sure_ok. repeat split; constructor.
    - inversion H as [|? ? Hm Ht]; subst. inversion K as [|? x ? xs Kx Kt E1 E2]; subst.
      symmetry in E2. apply skipn_cons in E2. destruct E2 as [E2 E3].
      assert (Ex : hs_model s idx = x) by (unfold hs_model; rewrite E2; auto). rewrite Ex.
      destruct (an_next _ _ _ A b m x c Hm Kx Hc) as [y [m' [-> [Hm' [Km Ky]]]]]. cbn [bind].
      eapply sure_bind; [apply (IH (S idx) Hc Ht); rewrite E3; auto|].
      intros [ys t'] _ [B1 [B2 B3]]. apply sure_ok. cbn [fst snd] in *.
      repeat split; constructor; auto.
  Qed.
  Lemma comps_score_sure s c lms : forall idx, lms_fine lms -> Forall2 ok lms (skipn idx (h_models s)) ->
    sure (fun p => lms_fine (snd p) /\ grow lms (snd p)) (comps_score ops s idx lms c).
  Proof.
    induction lms as [|m t IH]; intros idx H K; cbn [comps_score].
    - apply sure_ok. repeat split; constructor.
    - inversion H as [|? ? Hm Ht]; subst. inversion K as [|? x ? xs Kx Kt E1 E2]; subst.
      symmetry in E2. apply skipn_cons in E2. destruct E2 as [E2 E3].
      assert (Ex : hs_model s idx = x) by (unfold hs_model; rewrite E2; auto). rewrite Ex.
      destruct (an_score _ _ _ A b m x c Hm Kx) as [y [m' [-> [Hm' Km]]]]. cbn [bind].
      eapply sure_bind; [apply (IH (S idx) Ht); rewrite E3; auto|].
      intros [ys t'] _ [B1 B2]. apply sure_ok. cbn [fst snd] in *. split; constructor; auto.
  Qed.

  Record hlive (h : hub F M) : Prop := {
    hl_wf : hwf h;
    hl_fine : lms_fine (h_lms h);
    hl_live : forall s, In s (hs h) -> live (h_lms h) s
  }.

  Lemma live_set_lms h lms' : hlive h -> lms_fine lms' -> grow (h_lms h) lms' -> hlive (set_lms h lms').
  Proof.
    intros [W I L] I' G. constructor; cbn [h_lms set_lms hs]; auto.
    - apply set_lms_wf; auto. apply grow_length; auto.
    - intros s Hs. eapply grow_live; eauto.
  Qed.

  Lemma reset_prevs_sure nexts : forall (l : list (hstate F)),
    (forall c i, In (c, i) nexts -> 0 <= i < Z.of_nat (length l)) ->
    sure (fun l' => forall s, In s l' -> exists s0, In s0 l /\ h_models s = h_models s0 /\ h_next s = h_next s0)
      (reset_prevs l nexts).
  Proof.
    induction nexts as [|[c i] t IH]; intros l H; cbn [reset_prevs].
    - apply sure_ok. intros s Hs. eauto.
    - destruct (vgetZ_range _ l i) as [x E]; [eapply H; left; eauto|]. rewrite E. cbn [bind].
      eapply sure_mono; [|apply IH].
      + intros l' _ P s Hs. destruct (P s Hs) as [s0 [I [E1 E2]]]. apply in_upd in I. destruct I as [->|I].
        * exists x. split; [eapply vgetZ_In; eauto|]. auto.
        * eauto.
      + intros c' i' Hi. rewrite upd_length. eapply H. right; eauto.
  Qed.

  Lemma update_hub_state_sure h idx ms prev sym : hlive h -> 0 <= idx < Z.of_nat (length (hs h)) ->
    -1 <= prev < Z.of_nat (length (hs h)) -> Forall2 ok (h_lms h) ms ->
    sure (fun h' => hlive h' /\ h_lms h' = h_lms h /\ length (hs h') = length (hs h) /\ same_config h h' /\ h_last h' = h_last h)
      (update_hub_state h idx ms prev sym).
  Proof.
    intros [W I L] Hi Hp Hms.
    assert (X : sure (fun h' => h_lms h' = h_lms h /\ forall s, In s (hs h') -> live (h_lms h) s) (update_hub_state h idx ms prev sym)).
    { unfold update_hub_state. destruct (vgetZ_range _ (hs h) idx Hi) as [old Eo]. rewrite Eo. cbn [bind].
      pose proof (vgetZ_In _ _ _ _ Eo) as Io. pose proof (wf_states _ W _ Io) as Ho.
      destruct (Nat.eqb_spec (length (h_models old)) (length ms)) as [El|El]; cbn [negb].
      - eapply sure_bind; [apply reset_prevs_sure|].
        + intros c i Hc. rewrite upd_length. eapply (ok_next _ _ _ _ Ho); eauto.
        + intros l' _ P. apply sure_ok. split; [reflexivity|]. intros s Hs. cbn [set_hs hs] in Hs.
          destruct (P s Hs) as [s0 [I0 [E1 E2]]]. apply in_upd in I0.
          assert (L0 : live (h_lms h) s0) by (destruct I0 as [->|I0]; [apply new_live; auto|apply L; auto]).
          destruct L0 as [L1 L2]. split; [rewrite E1; auto|rewrite E2; auto].
      - exfalso. apply El. destruct (L _ Io) as [L1 _]. apply Forall2_length in L1, Hms. congruence. }
    destruct X as [h' [E [E1 P]]]. exists h'. split; auto.
    destruct (update_hub_state_wf _ _ _ _ _ _ W Hp E) as [A1 [A2 [A3 [A4 A5]]]].
    split; [|auto]. constructor; auto; rewrite E1; auto.
  Qed.

  Lemma starts_ok l : lms_fine l -> Forall2 ok l (map (c_start ops) l).
  Proof. induction 1 as [|m l Hm Hl IH]; constructor; auto. eapply an_start; eauto. Qed.

  Lemma init_start_sure h : hlive h ->
    sure (fun h' => hlive h' /\ h_lms h' = h_lms h /\ length (hs h') = length (hs h) /\ same_config h h' /\ h_last h' = h_last h)
      (initialize_start_hub_state ops h).
  Proof.
    intros H. unfold initialize_start_hub_state. pose proof (wf_nonempty _ (hl_wf _ H)).
    apply update_hub_state_sure; auto; try lia. apply starts_ok, H.
  Qed.

  Lemma update_bayes_sure h i : hlive h -> i < Z.of_nat (length (hs h)) ->
    sure (fun h' => hlive h' /\ length (hs h') = length (hs h) /\ same_config h h') (update_bayesian_history ops h i).
  Proof.
    intros H Hi.
    assert (X : sure (fun h' => lms_fine (h_lms h') /\ forall s, In s (hs h') -> live (h_lms h') s) (update_bayesian_history ops h i)).
    { destruct H as [W I L]. unfold update_bayesian_history.
      destruct ((0 <=? i) && (0 <? h_bayes h)%nat) eqn:Eb; [|apply sure_ok; auto].
      destruct (vgetZ_range _ (hs h) i) as [s E1]; [lia|]. rewrite E1. cbn [bind].
      pose proof (vgetZ_In _ _ _ _ E1) as Is. pose proof (ok_prev _ _ _ _ (wf_states _ W _ Is)).
      destruct (Z.leb_spec 0 (h_prev s)); [|apply sure_ok; auto].
      destruct (vgetZ_range _ (hs h) (h_prev s)) as [ps E2]; [lia|]. rewrite E2. cbn [bind].
      pose proof (vgetZ_In _ _ _ _ E2) as Ip.
      eapply sure_bind; [apply comps_score_sure; [exact I|apply (L _ Ip)]|].
      intros [probs lms'] _ [G1 G2]. cbn [fst snd] in *. apply sure_ok. cbn [h_lms set_lms hs set_hs].
      split; auto. intros s' Hs. apply in_upd in Hs. destruct Hs as [->|Hs].
      - destruct (grow_live _ _ s G2 (L _ Is)) as [L1 L2]. split; auto.
      - eapply grow_live; eauto. }
    destruct X as [h' [E [P1 P2]]]. exists h'. split; auto.
    destruct (update_bayes_wf _ _ _ _ (hl_wf _ H) E) as [A1 [A2 [A3 A4]]]. split; [|auto]. constructor; auto.
  Qed.

  (** Linking a state. *)
  Lemma link_live h prev ps sym idx : hlive h -> vgetZ (hs h) prev = Ok ps -> 0 <= idx < Z.of_nat (length (hs h)) ->
    0 <= sym -> hlive (set_hs h (upd (hs h) (Z.to_nat prev) (hs_add_next ps sym idx))).
  Proof.
    intros [W I L] E Hi Hs. constructor; auto.
    - destruct W as [X1 X2 X3 X4 X5]. constructor; cbn [set_hs hs h_max h_last h_lms h_bayes]; rewrite ?upd_length; auto.
      intros s Hin. apply in_upd in Hin. destruct Hin as [->|Hin]; auto.
      assert (Hps := X5 _ (vgetZ_In _ _ _ _ E)). destruct Hps. constructor; cbn [hs_add_next h_models h_prev h_next h_hist h_sum]; auto.
      intros c j Hj. destruct (assoc sym (h_next ps)); eauto.
      apply in_app_or in Hj. destruct Hj as [Hj|[Hj|[]]]; eauto. injection Hj as <- <-. lia.
    - cbn [set_hs hs h_lms]. intros s Hin. apply in_upd in Hin. destruct Hin as [->|Hin]; auto.
      destruct (L _ (vgetZ_In _ _ _ _ E)) as [L1 L2]. split; auto. cbn [hs_add_next h_next].
      intros c j Hj. destruct (assoc sym (h_next ps)); eauto.
      apply in_app_or in Hj. destruct Hj as [Hj|[Hj|[]]]; eauto. injection Hj as <- <-. auto.
  Qed.
  Lemma set_last_live h i : hlive h -> 0 <= i < Z.of_nat (length (hs h)) -> hlive (set_last h i).
  Proof. intros [[] I L] Hi. constructor; auto. constructor; cbn; auto. Qed.

  Lemma assign_sure h ms prev sym : hlive h -> 0 <= prev < Z.of_nat (length (hs h)) -> Forall2 ok (h_lms h) ms -> 0 <= sym ->
    sure (fun p => hlive (snd p)) (assign_new_hub_state ops h ms prev sym).
  Proof.
    intros H Hp Hms Hs. pose proof (hl_wf _ H) as W. unfold assign_new_hub_state.
    apply (sure_bind (fun p => hlive (snd p) /\ 0 <= fst p < Z.of_nat (length (hs (snd p))) /\
                               (length (hs h) <= length (hs (snd p)))%nat)).
    - pose proof (wf_max _ W). pose proof (wf_last _ W). pose proof (wf_size _ W).
      destruct (Z.leb_spec (h_max h) (Z.of_nat (length (hs h)))) as [Hfull|Hfull].
      + apply (sure_bind (fun p => hlive (snd p) /\ h_lms (snd p) = h_lms h /\ length (hs (snd p)) = length (hs h) /\
                                   0 <= fst p < Z.of_nat (length (hs h)))).
        * destruct (Z.leb_spec (h_max h) (h_last h + 1)).
          -- eapply sure_bind; [apply init_start_sure; auto|]. intros h' _ [A1 [A2 [A3 _]]]. apply sure_ok. cbn [fst snd].
             split; auto. split; auto. split; auto. lia.
          -- apply sure_ok. cbn [fst snd]. split; auto. split; auto. split; auto. lia.
        * intros [idx ha] _ [A1 [A2 [A3 A4]]]. cbn [fst snd] in *.
          eapply sure_bind; [apply update_hub_state_sure; [exact A1|lia|lia|rewrite A2; exact Hms]|].
          intros hb _ [B1 [B2 [B3 _]]]. apply sure_ok. cbn [fst snd]. split; auto. lia.
      + apply sure_ok. cbn [fst snd set_hs hs]. rewrite app_length. cbn [length]. split; [|lia].
        destruct H as [_ I L]. constructor; auto.
        * destruct W as [W1 W2 W3 W4 W5]. constructor; cbn [set_hs hs h_max h_last h_lms h_bayes]; rewrite ?app_length; cbn [length]; auto; try lia.
          intros s Hin. apply in_app_or in Hin. destruct Hin as [Hin|[<-|[]]].
          -- eapply hsok_mono; [|apply W5; auto]; lia.
          -- apply new_hstate_ok; [|lia]. symmetry. eapply Forall2_length; eauto.
        * cbn [set_hs hs h_lms]. intros s Hin. apply in_app_or in Hin. destruct Hin as [Hin|[<-|[]]]; auto.
          apply new_live; auto.
    - intros [idx h1] _ [A1 [A2 A3]]. cbn [fst snd] in *. cbn zeta.
      destruct (vgetZ_range _ (hs (set_last h1 idx)) prev) as [ps E]; [cbn [set_last hs]; lia|].
      rewrite E. cbn [bind].
      eapply sure_bind; [apply update_bayes_sure|].
      + apply link_live; auto. apply set_last_live; auto.
      + cbn [set_hs hs set_last]. rewrite upd_length. lia.
      + intros h4 _ [B1 _]. apply sure_ok. exact B1.
  Qed.

  Lemma hub_next_sure h s c : hlive h -> sure (fun p => hlive (snd p)) (hub_next ops h s c).
  Proof.
    intros H. unfold hub_next. pose proof (fix_range h s (hl_wf _ H)) as Hr.
    set (st := if in_range h s then s else 0) in *.
    destruct (vgetZ_range _ (hs h) st Hr) as [x E]. rewrite E; cbn [bind].
    destruct (Z.ltb_spec c 0); cbn [orb]; [apply sure_ok; auto|].
    destruct (0 <=? hs_next x c); [apply sure_ok; auto|].
    eapply sure_bind; [apply comps_next_sure; [lia|apply H|apply (hl_live _ H _ (vgetZ_In _ _ _ _ E))]|].
    intros [states lms'] _ [B1 [B2 B3]]. cbn [fst snd] in *.
    destruct (assign_sure (set_lms h lms') states st c) as [[i h1] [-> P]]; auto.
    - apply live_set_lms; auto.
    - apply sure_ok. auto.
  Qed.

  Lemma hub_context_sure ctx : forall h s, hlive h -> sure (fun p => hlive (snd p)) (hub_context_loop ops h s ctx).
  Proof.
    induction ctx as [|c t IH]; intros h s H; cbn [hub_context_loop]; [apply sure_ok; auto|].
    eapply sure_bind; [apply hub_next_sure; exact H|]. intros [s' h'] _ H'. auto.
  Qed.

  Lemma mix_loop_sure s ws : forall idx lms norm acc, lms_fine lms -> Forall2 ok lms (skipn idx (h_models s)) ->
    (length ws <= length lms)%nat ->
    sure (fun p => lms_fine (snd p) /\ grow lms (snd p)) (mix_loop ops s idx ws lms norm acc).
  Proof.
    induction ws as [|w ws IH]; intros idx lms norm acc H K Hn; cbn [mix_loop].
    - apply sure_ok. split; auto using grow_refl.
    - destruct lms as [|m t]; [simpl in Hn; lia|]. inversion H as [|? ? Hm Ht]; subst.
      inversion K as [|? x ? xs Kx Kt E1 E2]; subst. symmetry in E2. apply skipn_cons in E2. destruct E2 as [E2 E3].
      assert (Ex : hs_model s idx = x) by (unfold hs_model; rewrite E2; auto). rewrite Ex.
      destruct (an_extract _ _ _ A b m x Hm Kx) as [r [m' [-> [Hm' Km]]]]. cbn [bind].
      destruct r as [sc|].
      + eapply sure_bind; [apply (IH (S idx) t); [auto|rewrite E3; auto|simpl in Hn; lia]|].
        intros [r t'] _ [B1 B2]. cbn [fst snd] in *. apply sure_ok. split; constructor; auto.
      + apply sure_ok. split; constructor; auto. apply grow_refl.
  Qed.

  Lemma hub_extract_sure h s : hlive h -> enough_models h -> sure (fun p => hlive (snd p)) (hub_extract ops h s).
  Proof.
    intros H [N1 N2]. unfold hub_extract.
    destruct (in_range h s) eqn:Er; cbn [negb]; [|apply sure_ok; auto].
    destruct (vgetZ_range _ (hs h) s) as [x E1]; [unfold in_range in Er; lia|]. rewrite E1; cbn [bind].
    pose proof (vgetZ_In _ _ _ _ E1) as Ix. destruct (hl_live _ H _ Ix) as [Lx _].
    destruct (length (h_weights h) <? 2)%nat.
    - destruct (h_lms h) as [|m t] eqn:El; [simpl in N1; lia|].
      pose proof (hl_fine _ H) as Hf. rewrite El in Hf. inversion Hf as [|? ? Hm Ht]; subst.
      inversion Lx as [|? y ? ys Ky Kt EE1 EE2]; subst.
      assert (Ex : hs_model x 0 = y) by (unfold hs_model; rewrite <- EE2; auto). rewrite Ex.
      destruct (an_extract _ _ _ A b m y Hm Ky) as [r [m' [-> [Hm' Km]]]]. cbn [bind]. apply sure_ok. cbn [snd].
      apply live_set_lms; auto; [constructor; auto|rewrite El; constructor; auto using grow_refl]. apply grow_refl.
    - assert (Hw : exists ws, mixture_weights_at h s = Ok ws /\ length ws = length (h_weights h)).
      { unfold mixture_weights_at. rewrite Er, orb_false_r.
        destruct (Nat.eqb_spec (h_bayes h) 0); [eauto|]. rewrite E1; cbn [bind].
        assert (Hx := wf_states _ (hl_wf _ H) _ Ix).
        destruct (zip_weights_len (h_weights h) (h_sum x)) as [ws [E2 E3]].
        { rewrite (ok_sum _ _ _ _ Hx); lia. }
        rewrite E2; cbn [bind]. eexists; split; eauto. rewrite map_length; auto. }
      destruct Hw as [ws [-> Hl]]. cbn [bind].
      eapply sure_bind; [apply mix_loop_sure; [apply H|exact Lx|lia]|].
      intros [r lms'] _ [B1 B2]. apply sure_ok. cbn [snd] in *. apply live_set_lms; auto.
  Qed.

  Lemma ensure_states_sure syms : forall h s, hlive h -> sure hlive (ensure_states ops h s syms).
  Proof.
    induction syms as [|c t IH]; intros h s H; cbn [ensure_states]; [apply sure_ok; auto|].
    eapply sure_bind; [apply hub_next_sure; exact H|]. intros [s' h'] _ H'. auto.
  Qed.

  Lemma refresh_next_sure nexts : forall h, hlive h -> (forall c i, In (c, i) nexts -> i < Z.of_nat (length (hs h))) ->
    sure hlive (refresh_next ops h nexts).
  Proof.
    induction nexts as [|[c i] t IH]; intros h H Hn; cbn [refresh_next]; [apply sure_ok; auto|].
    eapply sure_bind; [apply update_bayes_sure; [exact H|eapply Hn; left; eauto]|].
    intros h' _ [H' [Hl _]]. apply IH; auto. intros c' i' Hi. rewrite Hl. eapply Hn; right; eauto.
  Qed.

  Lemma refresh_bayes_sure syms : forall h s, hlive h -> 0 <= s < Z.of_nat (length (hs h)) ->
    (forall c, In c (removelast syms) -> 0 <= c) -> sure hlive (refresh_bayes ops h s syms).
  Proof.
    induction syms as [|c t IH]; intros h s H Hs Hc; cbn [refresh_bayes]; [apply sure_ok; auto|].
    destruct (vgetZ_range _ (hs h) s Hs) as [x E]. rewrite E; cbn [bind].
    assert (Hx := wf_states _ (hl_wf _ H) _ (vgetZ_In _ _ _ _ E)).
    eapply sure_bind; [apply refresh_next_sure; [exact H|]|].
    { intros c' i Hi. pose proof (ok_next _ _ _ _ Hx _ _ Hi). lia. }
    intros h1 E1 H1. eapply sure_bind; [apply hub_next_sure; exact H1|].
    intros [s' h2] E2 H2. cbn [snd] in H2.
    destruct (hub_next_wf _ _ _ _ _ _ (hl_wf _ H1) E2) as [_ [_ [R1 R2]]].
    destruct t as [|c' t']; [apply sure_ok; exact H2|].
    apply IH; auto.
    - assert (H0 : 0 <= c) by (apply Hc; left; auto). specialize (R2 H0). lia.
    - intros d Hd. apply Hc. right; auto.
  Qed.

  Lemma verify_states_sure syms : forall h s, hlive h -> 0 <= s < Z.of_nat (length (hs h)) ->
    sure (fun p => hlive (snd p)) (verify_states ops h s syms).
  Proof.
    induction syms as [|c t IH]; intros h s H Hs; cbn [verify_states]; [apply sure_ok; auto|].
    destruct (vgetZ_range _ (hs h) s Hs) as [x E]. rewrite E; cbn [bind].
    pose proof (vgetZ_In _ _ _ _ E) as Ix. assert (Hx := wf_states _ (hl_wf _ H) _ Ix).
    pose proof (hs_next_range _ _ _ x c Hx) as Hn.
    destruct (Z.ltb_spec (hs_next x c) 0) as [Hl|Hl]; [apply sure_ok; auto|].
    destruct (hl_live _ H _ Ix) as [Lx Kx].
    assert (Hc : 0 <= c).
    { unfold hs_next in Hl. destruct (assoc c (h_next x)) as [i|] eqn:Ea; [|lia]. apply assoc_In in Ea. eauto. }
    eapply sure_bind; [apply comps_next_sure; [auto|apply H|exact Lx]|].
    intros [states lms'] _ [B1 [B2 B3]]. cbn [fst snd] in *.
    destruct (vgetZ_range _ (hs h) (hs_next x c)) as [ns E3]; [lia|].
    change (hs (set_lms h lms')) with (hs h). rewrite E3; cbn [bind].
    pose proof (live_set_lms h lms' H B1 B2) as H1. pose proof (vgetZ_In _ _ _ _ E3) as Ins.
    destruct ((h_prev ns =? s) && (h_sym ns =? c)); [|apply sure_ok; auto].
    apply IH; [|cbn [set_hs hs]; rewrite upd_length; lia].
    destruct H1 as [W' I' L']. constructor; auto.
    - destruct W' as [W1 W2 W3 W4 W5]. cbn in *. constructor; cbn; rewrite ?upd_length; auto.
      intros s' Hs'. apply in_upd in Hs'. destruct Hs' as [->|Hs']; auto.
      assert (Hns := W5 _ Ins). destruct Hns. constructor; cbn; auto. rewrite overwrite_length; auto.
    - cbn [set_hs hs set_lms h_lms] in *. intros s' Hs'. apply in_upd in Hs'. destruct Hs' as [->|Hs']; auto.
      destruct (L' _ Ins) as [L1 L2]. split; auto. cbn [h_models].
      assert (Eo : overwrite (h_models ns) states = states).
      { apply Forall2_length in L1, B3. rewrite L1 in B3. clear - B3. revert states B3. generalize (h_models ns) as o.
        induction o as [|y o IH]; intros [|z st] H; simpl in *; try discriminate; auto. f_equal. apply IH. lia. }
      rewrite Eo. auto.
  Qed.
  End Budget.

  Lemma lms_fine_mono b b' l : b' <= b -> lms_fine b l -> lms_fine b' l.
  Proof. intros Hb H. eapply Forall_impl; [|exact H]. intros m Hm. eapply (an_mono _ _ _ A); eauto. Qed.
  Lemma hlive_mono b b' h : b' <= b -> hlive b h -> hlive b' h.
  Proof. intros Hb [W I L]. constructor; auto. eapply lms_fine_mono; eauto. Qed.

  Lemma update_comps_sure b s ws : forall idx lms syms n, lms_fine b lms -> Forall2 ok lms (skipn idx (h_models s)) ->
    learn_cost syms n <= b -> (length ws <= length lms)%nat ->
    sure (fun p => lms_fine (b - learn_cost syms n) (snd p) /\ grow lms (snd p)) (update_comps ops s idx ws lms syms n).
  Proof.
    induction ws as [|w ws IH]; intros idx lms syms n H K Hb Hn; cbn [update_comps]; pose proof (learn_cost_nonneg syms n).
    - apply sure_ok. split; [eapply lms_fine_mono; [|exact H]; lia|apply grow_refl].
    - destruct lms as [|m t]; [simpl in Hn; lia|]. inversion H as [|? ? Hm Ht]; subst.
      inversion K as [|? x ? xs Kx Kt E1 E2]; subst. symmetry in E2. apply skipn_cons in E2. destruct E2 as [E2 E3].
      assert (Ex : hs_model s idx = x) by (unfold hs_model; rewrite E2; auto). rewrite Ex.
      destruct (an_update _ _ _ A b m x syms n Hm Kx Hb) as [r [m' [-> [Hm' Km]]]]. cbn [bind].
      destruct r.
      + eapply sure_bind; [apply (IH (S idx) t); [auto|rewrite E3; auto|auto|simpl in Hn; lia]|].
        intros [r t'] _ [B1 B2]. cbn [fst snd] in *. apply sure_ok. split; constructor; auto.
      + apply sure_ok. cbn [snd]. split; constructor; auto; [|apply grow_refl].
        eapply lms_fine_mono; [|exact Ht]; lia.
  Qed.

  Lemma hub_update_sure b h s syms n : hlive b h -> learn_cost syms n <= b -> enough_models h ->
    (h_bayes h = 0%nat \/ (in_range h s = true /\ forall c, In c (removelast syms) -> 0 <= c)) ->
    sure (fun p => hlive (b - learn_cost syms n) (snd p)) (hub_update ops h s syms n).
  Proof.
    intros H Hb Hen Hg. pose proof (learn_cost_nonneg syms n) as Hb0. unfold hub_update.
    eapply sure_bind; [apply ensure_states_sure; exact H|]. intros h1 E1 H1.
    destruct (ensure_states_wf _ _ _ _ _ (hl_wf _ _ H) E1) as [_ C1].
    assert (Hlen : (length (hs h) <= length (hs h1))%nat) by apply C1.
    apply (sure_bind (fun h2 => hlive b h2 /\ same_config h1 h2)).
    { destruct (Nat.ltb_spec 0 (h_bayes h)).
      - destruct Hg as [Hg|[Hg1 Hg2]]; [lia|]. unfold in_range in Hg1.
        destruct (refresh_bayes_sure b syms h1 s H1) as [h2 [E2 P2]]; [lia|auto|]. exists h2. split; auto. split; auto.
        eapply refresh_bayes_wf; eauto. apply H1.
      - apply sure_ok. split; auto using same_config_refl. }
    intros h2 E2 [H2 C2].
    destruct (in_range h s) eqn:Er; [|apply sure_ok; eapply hlive_mono; [|exact H2]; lia].
    assert (Hlen2 : (length (hs h1) <= length (hs h2))%nat) by apply C2.
    assert (Hr : 0 <= s < Z.of_nat (length (hs h2))) by (unfold in_range in Er; lia).
    destruct (vgetZ_range _ (hs h2) s Hr) as [x E]. rewrite E; cbn [bind].
    assert (Hen2 : enough_models h2).
    { eapply enough_same; [|exact Hen]. eapply same_config_trans; eauto. }
    eapply sure_bind; [apply update_comps_sure; [apply H2|apply (hl_live _ _ H2 _ (vgetZ_In _ _ _ _ E))|exact Hb|apply Hen2]|].
    intros [ok1 lms'] E4 [B1 B2]. cbn [fst snd] in *.
    assert (H3 : hlive (b - learn_cost syms n) (set_lms h2 lms')).
    { apply live_set_lms; auto. eapply hlive_mono; [|exact H2]; lia. }
    destruct ok1; [|apply sure_ok; exact H3]. apply verify_states_sure; auto.
  Qed.
End Live.
