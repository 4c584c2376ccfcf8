(** Proofs about HubModel.v: shape invariant, bounds, absence of undefined behaviour. *)
From Verif Require Import Base Field LmModel HubModel HubSpec.
Local Open Scope Z_scope.

Lemma vgetZ_Ok A (v : list A) i a :
  vgetZ v i = Ok a <-> 0 <= i /\ nth_error v (Z.to_nat i) = Some a.
Proof.
  unfold vgetZ. destruct (Z.ltb_spec i 0).
  - split; [discriminate|lia].
  - rewrite vget_Ok. split; [auto|tauto].
Qed.

Lemma vgetZ_range A (v : list A) i :
  0 <= i < Z.of_nat (length v) -> exists a, vgetZ v i = Ok a.
Proof.
  intros H. destruct (nth_error v (Z.to_nat i)) as [a|] eqn:E.
  - exists a. apply vgetZ_Ok; split; [lia|auto].
  - apply nth_error_None in E. lia.
Qed.

Lemma vgetZ_lt A (v : list A) i a : vgetZ v i = Ok a -> 0 <= i < Z.of_nat (length v).
Proof. rewrite vgetZ_Ok. intros [H1 H2]. apply nth_error_Some_lt in H2. lia. Qed.

Lemma vgetZ_cases A (v : list A) i : (exists a, vgetZ v i = Ok a) \/ vgetZ v i = UB.
Proof.
  unfold vgetZ, vget. destruct (i <? 0); auto. destruct (nth_error v (Z.to_nat i)); eauto.
Qed.

Lemma assoc_In c l i : assoc c l = Some i -> In (c, i) l.
Proof.
  induction l as [|[k v] t IH]; simpl; [discriminate|].
  destruct (Z.eqb_spec k c) as [->|]; auto. intros [= ->]; auto.
Qed.

Lemma assoc_app c l l' :
  assoc c (l ++ l') = match assoc c l with Some i => Some i | None => assoc c l' end.
Proof.
  induction l as [|[k v] t IH]; simpl; auto. destruct (k =? c); auto.
Qed.

(** Shape of one hub state, given the number of models, history length and number of states. *)
Record hsok {F : ofield} (nm bayes n : nat) (s : hstate F) : Prop := {
  ok_models : length (h_models s) = nm;
  ok_prev : -1 <= h_prev s < Z.of_nat n;
  ok_next : forall c i, In (c, i) (h_next s) -> 0 <= i < Z.of_nat n;
  ok_hist : (0 < bayes)%nat -> length (h_hist s) = nm;
  ok_rows : (0 < bayes)%nat -> forall r, In r (h_hist s) -> length r = bayes;
  ok_sum : (0 < bayes)%nat -> length (h_sum s) = nm
}.

Record hwf {F : ofield} {M : Type} (h : hub F M) : Prop := {
  wf_nonempty : (1 <= length (hs h))%nat;
  wf_size : Z.of_nat (length (hs h)) <= h_max h;
  wf_max : 10 <= h_max h;
  wf_last : 0 <= h_last h < Z.of_nat (length (hs h));
  wf_states : forall s, In s (hs h) -> hsok (length (h_lms h)) (h_bayes h) (length (hs h)) s
}.

(** What no hub operation changes. *)
Definition same_config {F : ofield} {M : Type} (h h' : hub F M) : Prop :=
  h_max h' = h_max h /\ h_weights h' = h_weights h /\ h_bayes h' = h_bayes h /\
  length (h_lms h') = length (h_lms h) /\ (length (hs h) <= length (hs h'))%nat.

Lemma same_config_refl {F M} (h : hub F M) : same_config h h.
Proof. unfold same_config; auto. Qed.

Lemma same_config_trans {F M} (h1 h2 h3 : hub F M) :
  same_config h1 h2 -> same_config h2 h3 -> same_config h1 h3.
Proof.
  unfold same_config. intros (A1 & A2 & A3 & A4 & A5) (B1 & B2 & B3 & B4 & B5).
  repeat split; congruence || lia.
Qed.

Section Hub.
  Context {F : ofield} {M : Type}.
  Variable ops : comp_ops F M.
  Notation hub := (hub F M).
  Implicit Types h : hub.

  Lemma hsok_mono nm bayes n n' (s : hstate F) :
    (n <= n')%nat -> hsok nm bayes n s -> hsok nm bayes n' s.
  Proof.
    intros Hn [A1 A2 A3 A4 A5 A6]; constructor; auto; [lia|].
    intros c i Hi; specialize (A3 c i Hi); lia.
  Qed.

  Lemma new_hstate_ok nm bayes n ms prev sym :
    length ms = nm -> -1 <= prev < Z.of_nat n ->
    hsok nm bayes n (new_hstate (F := F) ms prev sym bayes).
  Proof.
    intros Hl Hp. constructor; simpl; auto.
    - intros c i [].
    - intros Hb. destruct (Nat.ltb_spec 0 bayes); [|lia]. rewrite repeat_length; auto.
    - intros Hb r. destruct (Nat.ltb_spec 0 bayes); [|lia]. intros Hin.
      apply repeat_spec in Hin. subst r. apply repeat_length.
    - intros Hb. destruct (Nat.ltb_spec 0 bayes); [|lia]. rewrite repeat_length; auto.
  Qed.

  Lemma in_upd A (l : list A) i a x : In x (upd l i a) -> x = a \/ In x l.
  Proof.
    revert i; induction l as [|y t IH]; intros [|i]; simpl; try tauto.
    - intros [<-|H]; auto.
    - intros [<-|H]; auto. destruct (IH i H); auto.
  Qed.

  Lemma vgetZ_In A (l : list A) i a : vgetZ l i = Ok a -> In a l.
  Proof. rewrite vgetZ_Ok. intros [_ H]. eapply nth_error_In; eauto. Qed.

  Lemma comps_next_len s lms : forall idx c xs lms',
    comps_next ops s idx lms c = Ok (xs, lms') ->
    length xs = length lms /\ length lms' = length lms.
  Proof.
    induction lms as [|m t IH]; intros idx c xs lms'; simpl.
    - intros [= <- <-]; auto.
    - intros E. apply bind_Ok in E. destruct E as [[x m'] [E1 E]].
      apply bind_Ok in E. destruct E as [[xs' t'] [E2 E]]. injection E as <- <-.
      destruct (IH _ _ _ _ E2). simpl; lia.
  Qed.

  Lemma comps_score_len s lms : forall idx c xs lms',
    comps_score ops s idx lms c = Ok (xs, lms') ->
    length xs = length lms /\ length lms' = length lms.
  Proof.
    induction lms as [|m t IH]; intros idx c xs lms'; simpl.
    - intros [= <- <-]; auto.
    - intros E. apply bind_Ok in E. destruct E as [[x m'] [E1 E]].
      apply bind_Ok in E. destruct E as [[xs' t'] [E2 E]]. injection E as <- <-.
      destruct (IH _ _ _ _ E2). simpl; lia.
  Qed.

  Lemma reset_prevs_len nexts : forall (l l' : list (hstate F)),
    reset_prevs l nexts = Ok l' -> length l' = length l.
  Proof.
    induction nexts as [|[c i] t IH]; intros l l'; simpl; [congruence|].
    intros E. apply bind_Ok in E. destruct E as [s [E1 E2]].
    rewrite (IH _ _ E2). apply upd_length.
  Qed.

  Lemma reset_prevs_ok nm bayes n nexts : forall (l l' : list (hstate F)),
    (forall s, In s l -> hsok nm bayes n s) -> (0 < n)%nat ->
    reset_prevs l nexts = Ok l' -> forall s, In s l' -> hsok nm bayes n s.
  Proof.
    induction nexts as [|[c i] t IH]; intros l l' Hl Hn; simpl; [intros [= <-]; auto|].
    intros E. apply bind_Ok in E. destruct E as [s0 [E1 E2]].
    eapply IH; [|auto|exact E2]. intros s Hs. apply in_upd in Hs. destruct Hs as [->|Hs]; auto.
    apply vgetZ_In in E1. destruct (Hl _ E1). constructor; simpl; auto. lia.
  Qed.

  Lemma reset_prevs_total nexts : forall (l : list (hstate F)),
    (forall c i, In (c, i) nexts -> 0 <= i < Z.of_nat (length l)) ->
    exists l', reset_prevs l nexts = Ok l'.
  Proof.
    induction nexts as [|[c i] t IH]; intros l H; simpl; eauto.
    destruct (vgetZ_range _ l i) as [s ->]; [eapply H; simpl; eauto|]. simpl.
    apply IH. intros c' i' Hi. rewrite upd_length. eapply H; simpl; eauto.
  Qed.

  Lemma update_hub_state_wf h idx ms prev sym h' :
    hwf h -> -1 <= prev < Z.of_nat (length (hs h)) ->
    update_hub_state h idx ms prev sym = Ok h' ->
    hwf h' /\ same_config h h' /\ h_last h' = h_last h /\ h_lms h' = h_lms h /\
    length (hs h') = length (hs h).
  Proof.
    intros W Hp E. unfold update_hub_state in E. apply bind_Ok in E. destruct E as [old [E1 E]].
    destruct (Nat.eqb_spec (length (h_models old)) (length ms)) as [El|]; simpl in E; [|discriminate].
    apply bind_Ok in E. destruct E as [l' [E2 E]]. injection E as <-.
    assert (Hl := reset_prevs_len _ _ _ E2). rewrite upd_length in Hl.
    destruct W as [W1 W2 W3 W4 W5].
    split; [|unfold same_config; simpl; rewrite Hl; repeat split; auto].
    constructor; simpl; rewrite ?Hl; auto.
    eapply reset_prevs_ok; [|lia|exact E2].
    intros s Hs. apply in_upd in Hs. destruct Hs as [->|Hs]; auto.
    apply new_hstate_ok; auto. rewrite <- El.
    apply vgetZ_In in E1. apply (ok_models _ _ _ _ (W5 _ E1)).
  Qed.

  Lemma init_start_wf h h' :
    hwf h -> initialize_start_hub_state ops h = Ok h' ->
    hwf h' /\ same_config h h' /\ h_last h' = h_last h /\ h_lms h' = h_lms h /\
    length (hs h') = length (hs h).
  Proof. intros W. apply update_hub_state_wf; auto. destruct W; lia. Qed.

  Lemma shift_history_shape bayes probs (hist : list (list (car F))) :
    length probs = length hist -> (0 < bayes)%nat ->
    (forall r, In r hist -> length r = bayes) ->
    length (shift_history probs hist) = length hist /\
    (forall r, In r (shift_history probs hist) -> length r = bayes) /\
    length (history_sums probs hist) = length hist.
  Proof.
    intros Hl Hb Hr. unfold shift_history, history_sums.
    rewrite !map_length, combine_length. split; [lia|]. split; [|lia].
    intros r Hin. apply in_map_iff in Hin. destruct Hin as [[p row] [<- Hin]].
    apply in_combine_r in Hin. specialize (Hr _ Hin). rewrite app_length; simpl.
    destruct row; simpl in *; lia.
  Qed.

  Lemma update_bayes_wf h i h' :
    hwf h -> update_bayesian_history ops h i = Ok h' ->
    hwf h' /\ same_config h h' /\ h_last h' = h_last h /\ length (hs h') = length (hs h).
  Proof.
    intros W. unfold update_bayesian_history.
    destruct ((0 <=? i) && (0 <? h_bayes h)%nat) eqn:Eb.
    2:{ intros [= <-]. split; [auto|]. split; [apply same_config_refl|auto]. }
    intros E. apply bind_Ok in E. destruct E as [s [E1 E]].
    destruct (Z.leb_spec 0 (h_prev s)).
    2:{ injection E as <-. split; [auto|]. split; [apply same_config_refl|auto]. }
    apply bind_Ok in E. destruct E as [ps [E2 E]].
    apply bind_Ok in E. destruct E as [[probs lms'] [E3 E]]. injection E as <-.
    destruct (comps_score_len _ _ _ _ _ _ E3) as [L1 L2].
    destruct W as [W1 W2 W3 W4 W5].
    assert (Hs := W5 _ (vgetZ_In _ _ _ _ E1)). assert (Hps := W5 _ (vgetZ_In _ _ _ _ E2)).
    assert (Hb : (0 < h_bayes h)%nat) by lia.
    destruct (shift_history_shape (h_bayes h) probs (h_hist ps)) as [S1 [S2 S3]]; auto.
    { rewrite L1. symmetry; apply (ok_hist _ _ _ _ Hps Hb). }
    { apply (ok_rows _ _ _ _ Hps Hb). }
    rewrite (ok_hist _ _ _ _ Hps Hb) in S1, S3.
    split; [|unfold same_config; simpl; rewrite upd_length; repeat split; auto].
    constructor; simpl; rewrite ?upd_length; auto.
    intros s' Hs'. apply in_upd in Hs'. rewrite L2. destruct Hs' as [->|Hs']; auto.
    destruct Hs. constructor; simpl; auto.
  Qed.

  Lemma assign_wf h ms prev sym i h' :
    hwf h -> 0 <= prev < Z.of_nat (length (hs h)) -> length ms = length (h_lms h) ->
    assign_new_hub_state ops h ms prev sym = Ok (i, h') ->
    hwf h' /\ same_config h h' /\ 0 <= i < Z.of_nat (length (hs h')).
  Proof.
    intros W Hp Hms. unfold assign_new_hub_state.
    intros E. apply bind_Ok in E. destruct E as [[idx h1] [E1 E]].
    assert (H1 : hwf (set_last h1 idx) /\ same_config h h1 /\ 0 <= idx < Z.of_nat (length (hs h1))).
    { destruct (Z.leb_spec (h_max h) (Z.of_nat (length (hs h)))) as [Hfull|Hfull].
      - apply bind_Ok in E1. destruct E1 as [[idx' ha] [E0 E1]].
        apply bind_Ok in E1. destruct E1 as [hb [E2 E1]]. injection E1 as <- <-.
        assert (Ha : hwf ha /\ same_config h ha /\ length (hs ha) = length (hs h) /\
                     0 <= idx' < Z.of_nat (length (hs h))).
        { destruct W as [W1 W2 W3 W4 W5].
          destruct (Z.leb_spec (h_max h) (h_last h + 1)).
          - apply bind_Ok in E0. destruct E0 as [hc [E0 E0']]. injection E0' as <- <-.
            destruct (init_start_wf h hc) as [A1 [A2 [A3 [A4 A5]]]]; [constructor; auto|auto|].
            split; auto. split; auto. split; auto. lia.
          - injection E0 as <- <-. split; [constructor; auto|]. split; [apply same_config_refl|].
            split; auto. lia. }
        destruct Ha as [A1 [A2 [A3 A4]]].
        destruct (update_hub_state_wf ha idx' ms prev sym hb) as [B1 [B2 [B3 [B4 B5]]]]; auto.
        { lia. }
        split; [|split; [eapply same_config_trans; eauto|lia]].
        destruct B1; constructor; simpl; auto; lia.
      - injection E1 as <- <-. destruct W as [W1 W2 W3 W4 W5].
        split; [|split].
        + constructor; simpl; rewrite ?app_length; simpl; auto; try lia.
          intros s Hs. apply in_app_or in Hs. destruct Hs as [Hs|[<-|[]]].
          * eapply hsok_mono; [|apply W5; auto]; lia.
          * apply new_hstate_ok; auto; lia.
        + unfold same_config; simpl. rewrite app_length; simpl. repeat split; auto; lia.
        + simpl. rewrite app_length; simpl; lia. }
    destruct H1 as [W1 [C1 R1]].
    apply bind_Ok in E. destruct E as [ps [E2 E]].
    apply bind_Ok in E. destruct E as [h4 [E3 E]]. injection E as <- <-.
    set (h3 := set_hs (set_last h1 idx) (upd (hs (set_last h1 idx)) (Z.to_nat prev) (hs_add_next ps sym idx))) in *.
    assert (W3 : hwf h3).
    { destruct W1 as [X1 X2 X3 X4 X5]. simpl in *.
      constructor; simpl; rewrite ?upd_length; auto.
      intros s Hs. apply in_upd in Hs. destruct Hs as [->|Hs]; auto.
      assert (Hps := X5 _ (vgetZ_In _ _ _ _ E2)). destruct Hps. constructor; simpl; auto.
      intros c j Hj. destruct (assoc sym (h_next ps)); eauto.
      apply in_app_or in Hj. destruct Hj as [Hj|[Hj|[]]]; eauto. injection Hj as <- <-. lia. }
    destruct (update_bayes_wf h3 idx h4 W3 E3) as [D1 [D2 [D3 D4]]].
    split; auto. split.
    - eapply same_config_trans; [exact C1|]. eapply same_config_trans; [|exact D2].
      unfold same_config, h3; simpl. rewrite upd_length. auto.
    - rewrite D4. unfold h3; simpl. rewrite upd_length. lia.
  Qed.

  Lemma hs_next_range nm bayes n (s : hstate F) c :
    hsok nm bayes n s -> -1 <= hs_next s c < Z.of_nat n.
  Proof.
    intros H. unfold hs_next. destruct (assoc c (h_next s)) as [i|] eqn:E; [|lia].
    apply assoc_In in E. pose proof (ok_next _ _ _ _ H _ _ E). lia.
  Qed.

  Lemma fix_range h s : hwf h -> 0 <= (if in_range h s then s else 0) < Z.of_nat (length (hs h)).
  Proof.
    intros W. destruct (in_range h s) eqn:E.
    - unfold in_range in E. lia.
    - pose proof (wf_nonempty _ W). lia.
  Qed.

  Lemma set_lms_wf h lms : length lms = length (h_lms h) -> hwf h -> hwf (set_lms h lms).
  Proof.
    intros E [W1 W2 W3 W4 W5]. constructor; simpl; auto. rewrite E; auto.
  Qed.

  Lemma hub_next_wf h s c r h' :
    hwf h -> hub_next ops h s c = Ok (r, h') ->
    hwf h' /\ same_config h h' /\ -1 <= r < Z.of_nat (length (hs h')) /\ (0 <= c -> 0 <= r).
  Proof.
    intros W. unfold hub_next. pose proof (fix_range h s W) as Hr.
    set (st := if in_range h s then s else 0) in *.
    intros E. apply bind_Ok in E. destruct E as [x [E1 E]].
    assert (Hx := wf_states _ W _ (vgetZ_In _ _ _ _ E1)).
    pose proof (hs_next_range _ _ _ x c Hx) as Hn.
    destruct ((c <? 0) || (0 <=? hs_next x c)) eqn:Ec.
    - injection E as <- <-. split; auto. split; [apply same_config_refl|].
      split; [exact Hn|lia].
    - apply bind_Ok in E. destruct E as [[states lms'] [E2 E]].
      destruct (comps_next_len _ _ _ _ _ _ E2) as [L1 L2].
      assert (W' := set_lms_wf h lms' L2 W).
      assert (C' : same_config h (set_lms h lms')) by (unfold same_config; simpl; auto).
      destruct (assign_new_hub_state ops (set_lms h lms') states st c) as [[i h1]| | |] eqn:E3;
        try discriminate.
      + injection E as <- <-.
        destruct (assign_wf _ _ _ _ _ _ W' Hr (eq_trans L1 (eq_sym L2)) E3) as [A1 [A2 A3]].
        split; auto. split; [eapply same_config_trans; eauto|]. lia.
      + injection E as <- <-. split; auto. split; auto. simpl.
        pose proof (wf_nonempty _ W). lia.
  Qed.

  Lemma hub_context_loop_wf ctx : forall h s r h',
    hwf h -> 0 <= s -> hub_context_loop ops h s ctx = Ok (r, h') ->
    hwf h' /\ same_config h h' /\ 0 <= r /\
    (ctx <> [] \/ s < Z.of_nat (length (hs h)) -> r < Z.of_nat (length (hs h'))).
  Proof.
    induction ctx as [|c rest IH]; intros h s r h' W Hs; simpl.
    - intros [= <- <-]. split; auto. split; [apply same_config_refl|]. split; auto.
      intros [H|H]; [congruence|auto].
    - intros E. apply bind_Ok in E. destruct E as [[s1 h1] [E1 E2]].
      destruct (hub_next_wf _ _ _ _ _ W E1) as [A1 [A2 [A3 A4]]].
      assert (Hs1 : 0 <= (if s1 <? 0 then 0 else s1) < Z.of_nat (length (hs h1))).
      { pose proof (wf_nonempty _ A1). destruct (Z.ltb_spec s1 0); lia. }
      destruct (IH _ _ _ _ A1 (proj1 Hs1) E2) as [B1 [B2 [B3 B4]]].
      split; auto. split; [eapply same_config_trans; eauto|]. split; auto.
      intros _. apply B4. lia.
  Qed.

  Lemma hub_context_wf h ctx s r h' :
    hwf h -> hub_context ops h ctx s = Ok (r, h') ->
    hwf h' /\ same_config h h' /\ 0 <= r /\
    (ctx <> [] \/ s < Z.of_nat (length (hs h)) -> r < Z.of_nat (length (hs h'))).
  Proof.
    intros W E. unfold hub_context in E.
    apply hub_context_loop_wf in E; auto; [|destruct (Z.ltb_spec s 0); lia].
    destruct E as [A1 [A2 [A3 A4]]]. split; auto. split; auto. split; auto.
    intros [H|H]; apply A4; auto. pose proof (wf_nonempty _ W).
    right; destruct (Z.ltb_spec s 0); lia.
  Qed.

  Lemma mix_loop_len s ws : forall idx lms norm acc r lms',
    mix_loop ops s idx ws lms norm acc = Ok (r, lms') -> length lms' = length lms.
  Proof.
    induction ws as [|w ws IH]; intros idx lms norm acc r lms'; simpl.
    - intros [= _ <-]; auto.
    - destruct lms as [|m t]; [discriminate|]. intros E.
      apply bind_Ok in E. destruct E as [[r1 m'] [E1 E]]. destruct r1 as [sc|].
      + apply bind_Ok in E. destruct E as [[r2 t'] [E2 E]]. injection E as _ <-.
        apply IH in E2. simpl; lia.
      + injection E as _ <-. reflexivity.
  Qed.

  Lemma hub_extract_wf h s r h' :
    hwf h -> hub_extract ops h s = Ok (r, h') ->
    hwf h' /\ same_config h h' /\ hs h' = hs h /\ h_last h' = h_last h.
  Proof.
    intros W. unfold hub_extract. destruct (negb (in_range h s)).
    { intros [= _ <-]. split; auto. split; auto using same_config_refl. }
    intros E. apply bind_Ok in E. destruct E as [x [E1 E]].
    assert (K : exists lms', h' = set_lms h lms' /\ length lms' = length (h_lms h)).
    { destruct (length (h_weights h) <? 2)%nat.
      - destruct (h_lms h) as [|m t] eqn:El; [discriminate|].
        apply bind_Ok in E. destruct E as [[r1 m'] [E2 E]]. injection E as _ <-.
        exists (m' :: t). auto.
      - apply bind_Ok in E. destruct E as [ws [E2 E]].
        apply bind_Ok in E. destruct E as [[r1 lms'] [E3 E]]. injection E as _ <-.
        exists lms'. split; auto. eapply mix_loop_len; eauto. }
    destruct K as [lms' [-> L]]. split; [apply set_lms_wf; auto|].
    split; [unfold same_config; simpl; auto|auto].
  Qed.

  Lemma ensure_states_wf syms : forall h s h',
    hwf h -> ensure_states ops h s syms = Ok h' -> hwf h' /\ same_config h h'.
  Proof.
    induction syms as [|c t IH]; intros h s h' W; simpl.
    - intros [= <-]. split; auto using same_config_refl.
    - intros E. apply bind_Ok in E. destruct E as [[s1 h1] [E1 E2]].
      destruct (hub_next_wf _ _ _ _ _ W E1) as [A1 [A2 _]].
      destruct (IH _ _ _ A1 E2). split; auto. eapply same_config_trans; eauto.
  Qed.

  Lemma refresh_next_wf nexts : forall h h',
    hwf h -> refresh_next ops h nexts = Ok h' ->
    hwf h' /\ same_config h h' /\ length (hs h') = length (hs h).
  Proof.
    induction nexts as [|[c i] t IH]; intros h h' W; simpl.
    - intros [= <-]. split; auto. split; auto using same_config_refl.
    - intros E. apply bind_Ok in E. destruct E as [h1 [E1 E2]].
      destruct (update_bayes_wf _ _ _ W E1) as [A1 [A2 [A3 A4]]].
      destruct (IH _ _ A1 E2) as [B1 [B2 B3]]. split; auto.
      split; [eapply same_config_trans; eauto|lia].
  Qed.

  Lemma refresh_bayes_wf syms : forall h s h',
    hwf h -> refresh_bayes ops h s syms = Ok h' -> hwf h' /\ same_config h h'.
  Proof.
    induction syms as [|c t IH]; intros h s h' W; simpl.
    - intros [= <-]. split; auto using same_config_refl.
    - intros E. apply bind_Ok in E. destruct E as [x [E1 E]].
      apply bind_Ok in E. destruct E as [h1 [E2 E]].
      apply bind_Ok in E. destruct E as [[s' h2] [E3 E]].
      destruct (refresh_next_wf _ _ _ W E2) as [A1 [A2 _]].
      destruct (hub_next_wf _ _ _ _ _ A1 E3) as [B1 [B2 _]].
      destruct (IH _ _ _ B1 E) as [C1 C2]. split; auto.
      eapply same_config_trans; [eauto|]. eapply same_config_trans; eauto.
  Qed.

  Lemma update_comps_len s ws : forall idx lms syms n r lms',
    update_comps ops s idx ws lms syms n = Ok (r, lms') -> length lms' = length lms.
  Proof.
    induction ws as [|w ws IH]; intros idx lms syms n r lms'; simpl.
    - intros [= _ <-]; auto.
    - destruct lms as [|m t]; [discriminate|]. intros E.
      apply bind_Ok in E. destruct E as [[ok m'] [E1 E]]. destruct ok.
      + apply bind_Ok in E. destruct E as [[r2 t'] [E2 E]]. injection E as _ <-.
        apply IH in E2. simpl; lia.
      + injection E as _ <-. reflexivity.
  Qed.

  Lemma overwrite_length old : forall new, length (overwrite old new) = length old.
  Proof. induction old as [|x t IH]; intros [|y n]; simpl; auto. Qed.

  Lemma verify_states_wf syms : forall h s r h',
    hwf h -> verify_states ops h s syms = Ok (r, h') ->
    hwf h' /\ same_config h h' /\ length (hs h') = length (hs h).
  Proof.
    induction syms as [|c t IH]; intros h s r h' W; simpl.
    - intros [= _ <-]. split; auto. split; auto using same_config_refl.
    - intros E. apply bind_Ok in E. destruct E as [x [E1 E]].
      destruct (Z.ltb_spec (hs_next x c) 0).
      { injection E as _ <-. split; auto. split; auto using same_config_refl. }
      apply bind_Ok in E. destruct E as [[states lms'] [E2 E]].
      destruct (comps_next_len _ _ _ _ _ _ E2) as [L1 L2].
      apply bind_Ok in E. destruct E as [ns [E3 E]].
      assert (W' := set_lms_wf h lms' L2 W).
      assert (C' : same_config h (set_lms h lms')) by (unfold same_config; simpl; auto).
      destruct ((h_prev ns =? s) && (h_sym ns =? c)).
      + apply IH in E.
        * destruct E as [A1 [A2 A3]]. simpl in A3. rewrite upd_length in A3.
          split; auto. split; auto. eapply same_config_trans; [|exact A2].
          unfold same_config; simpl. rewrite upd_length. auto.
        * destruct W' as [W1 W2 W3 W4 W5]. simpl in *.
          constructor; simpl; rewrite ?upd_length; auto.
          intros s' Hs'. apply in_upd in Hs'. destruct Hs' as [->|Hs']; auto.
          assert (Hns := W5 _ (vgetZ_In _ _ _ _ E3)).
          destruct Hns. constructor; simpl; auto. rewrite overwrite_length; auto.
      + injection E as _ <-. split; auto.
  Qed.

  Lemma hub_update_wf h s syms n r h' :
    hwf h -> hub_update ops h s syms n = Ok (r, h') -> hwf h' /\ same_config h h'.
  Proof.
    intros W. unfold hub_update. intros E.
    apply bind_Ok in E. destruct E as [h1 [E1 E]].
    destruct (ensure_states_wf _ _ _ _ W E1) as [A1 A2].
    apply bind_Ok in E. destruct E as [h2 [E2 E]].
    assert (B : hwf h2 /\ same_config h1 h2).
    { destruct (0 <? h_bayes h)%nat.
      - eapply refresh_bayes_wf; eauto.
      - injection E2 as <-. split; auto using same_config_refl. }
    destruct B as [B1 B2]. assert (AB := same_config_trans _ _ _ A2 B2).
    destruct (in_range h s); [|injection E as _ <-; auto].
    apply bind_Ok in E. destruct E as [x [E3 E]].
    apply bind_Ok in E. destruct E as [[ok1 lms'] [E4 E]].
    apply update_comps_len in E4. assert (W3 := set_lms_wf h2 lms' E4 B1).
    assert (C3 : same_config h2 (set_lms h2 lms')) by (unfold same_config; simpl; auto).
    destruct ok1.
    - destruct (verify_states_wf _ _ _ _ _ W3 E) as [D1 [D2 D3]]. split; auto.
      eapply same_config_trans; [exact AB|]. eapply same_config_trans; eauto.
    - injection E as _ <-. split; auto. eapply same_config_trans; eauto.
  Qed.

  Lemma hub_step_wf h o r h' :
    hwf h -> hub_step ops h o = Ok (r, h') -> hwf h' /\ same_config h h'.
  Proof.
    intros W. destruct o; simpl; intros E; apply bind_Ok in E.
    - destruct E as [[x h1] [E1 E]]. injection E as _ <-.
      apply hub_next_wf in E1; auto. tauto.
    - destruct E as [[x h1] [E1 E]]. injection E as _ <-.
      apply hub_context_wf in E1; auto. tauto.
    - destruct E as [x [E1 E]]. injection E as _ <-. split; auto using same_config_refl.
    - destruct E as [[x h1] [E1 E]]. injection E as _ <-.
      apply hub_extract_wf in E1; auto. tauto.
    - destruct E as [[x h1] [E1 E]]. injection E as _ <-.
      apply hub_update_wf in E1; auto.
  Qed.

  Lemma hub_run_wf l : forall h h',
    hwf h -> hub_run ops h l = Ok h' -> hwf h' /\ same_config h h'.
  Proof.
    induction l as [|o l IH]; intros h h' W; simpl.
    - intros [= <-]. split; auto using same_config_refl.
    - intros E. apply bind_Ok in E. destruct E as [[r h1] [E1 E2]].
      destruct (hub_step_wf _ _ _ _ W E1) as [A1 A2].
      destruct (IH _ _ A1 E2) as [B1 B2]. split; auto. eapply same_config_trans; eauto.
  Qed.

  Lemma initialize_ok lms cfg h :
    initialize_models ops lms cfg = Ok h ->
    hwf h /\ length (hs h) = 1%nat /\ h_lms h = lms /\ h_last h = 0 /\
    h_max h = (if cfg_max_states cfg <? 10 then kMaxHubStates else cfg_max_states cfg) /\
    hs h = [new_hstate (map (c_start ops) lms) (-1) 0 (h_bayes h)] /\
    match cfg_type cfg with
    | MixNone => h_weights h = [Val f1] /\ h_bayes h = 0%nat
    | MixInterpolation =>
        if (length (cfg_weights cfg) <? 2)%nat then h_weights h = [Val f1] /\ h_bayes h = 0%nat
        else h_weights h = map (fun w => ndiv w (nsum (map Val (cfg_weights cfg))))
                               (map Val (cfg_weights cfg)) /\
             h_bayes h = Z.to_nat (cfg_bayes cfg)
    | MixUnknown => False
    end.
  Proof.
    unfold initialize_models. intros E. apply bind_Ok in E.
    destruct E as [[ws bayes] [E1 E]].
    set (mx := if cfg_max_states cfg <? 10 then kMaxHubStates else cfg_max_states cfg) in *.
    assert (Hmx : 10 <= mx).
    { unfold mx, kMaxHubStates. destruct (Z.ltb_spec (cfg_max_states cfg) 10); lia. }
    set (h0 := Hub _ 0 mx ws bayes lms) in E.
    assert (W0 : hwf h0).
    { constructor; unfold h0; cbn [hs h_max h_last h_lms h_bayes length]; auto; try lia.
      intros s [<-|[]]. apply new_hstate_ok; [apply repeat_length|lia]. }
    destruct (init_start_wf _ _ W0 E) as [A1 [A2 [A3 [A4 A5]]]].
    assert (Hh : hs h = [new_hstate (map (c_start ops) lms) (-1) 0 bayes]).
    { unfold initialize_start_hub_state, update_hub_state in E. unfold h0 in E. simpl in E.
      destruct (negb _); [discriminate|]. injection E as <-. reflexivity. }
    destruct A2 as [B1 [B2 [B3 [B4 B5]]]]. simpl in *.
    split; auto. split; auto. split; auto. split; auto. split; auto.
    split; [rewrite Hh, B3; auto|]. rewrite B2, B3.
    destruct (cfg_type cfg); [injection E1 as <- <-; auto| |discriminate].
    destruct (length (cfg_weights cfg) <? 2)%nat; injection E1 as <- <-; auto.
  Qed.

  (** * Undefined behaviour only comes from components (or from the unchecked index) *)

  Variable Inv : Z -> M -> Prop.
  Hypothesis Hsafe : comps_safe ops Inv.

  Definition fine {A} (P : A -> Prop) (x : outcome A) : Prop :=
    match x with Ok a => P a | UB => False | _ => True end.

  Lemma fine_bind {A B} (P : A -> Prop) (Q : B -> Prop) (x : outcome A) (f : A -> outcome B) :
    fine P x -> (forall a, x = Ok a -> P a -> fine Q (f a)) -> fine Q (bind x f).
  Proof. destruct x; simpl; auto. Qed.

  Lemma fine_mono {A} (P Q : A -> Prop) x : (forall a, x = Ok a -> P a -> Q a) -> fine P x -> fine Q x.
  Proof. destruct x; simpl; auto. Qed.

  Section Budget.
  Variable b : Z.

  Definition lms_ok (l : list M) := Forall (Inv b) l.

  Lemma comps_next_safe s c lms : forall idx, lms_ok lms ->
    fine (fun p => lms_ok (snd p)) (comps_next ops s idx lms c).
  Proof.
    induction lms as [|m t IH]; intros idx H; simpl; [constructor|].
    inversion H as [|? ? Hm Ht]; subst.
    pose proof (safe_next _ _ Hsafe b m (hs_model s idx) c Hm) as SS.
    destruct (c_next ops m (hs_model s idx) c) as [[x m']| | |]; simpl; auto.
    specialize (IH (S idx) Ht). destruct (comps_next ops s (S idx) t c) as [[xs t']| | |]; simpl in *; auto.
    constructor; auto.
  Qed.

  Lemma comps_score_safe s c lms : forall idx, lms_ok lms ->
    fine (fun p => lms_ok (snd p)) (comps_score ops s idx lms c).
  Proof.
    induction lms as [|m t IH]; intros idx H; simpl; [constructor|].
    inversion H as [|? ? Hm Ht]; subst.
    pose proof (safe_score _ _ Hsafe b m (hs_model s idx) c Hm) as SS.
    destruct (c_score ops m (hs_model s idx) c) as [[x m']| | |]; simpl; auto.
    specialize (IH (S idx) Ht). destruct (comps_score ops s (S idx) t c) as [[xs t']| | |]; simpl in *; auto.
    constructor; auto.
  Qed.

  Lemma vgetZ_fine A (l : list A) i (P : A -> Prop) :
    0 <= i < Z.of_nat (length l) -> (forall a, In a l -> P a) -> fine P (vgetZ l i).
  Proof.
    intros H HP. destruct (vgetZ_range _ l i H) as [a E]. rewrite E; simpl.
    apply HP. eapply vgetZ_In; eauto.
  Qed.

  Definition hsafe h := hwf h /\ lms_ok (h_lms h).

  Lemma update_hub_state_safe h idx ms prev sym :
    hsafe h -> 0 <= idx < Z.of_nat (length (hs h)) ->
    -1 <= prev < Z.of_nat (length (hs h)) ->
    fine (fun h' => hsafe h' /\ length (hs h') = length (hs h) /\ same_config h h' /\ h_last h' = h_last h)
         (update_hub_state h idx ms prev sym).
  Proof.
    intros [W L] Hi Hp.
    destruct (update_hub_state h idx ms prev sym) as [h'| | |] eqn:E; simpl; auto.
    - destruct (update_hub_state_wf _ _ _ _ _ _ W Hp E) as [A1 [A2 [A3 [A4 A5]]]].
      split; [split; auto; rewrite A4; auto|auto].
    - unfold update_hub_state in E. destruct (vgetZ_range _ (hs h) idx Hi) as [old Eo].
      rewrite Eo in E. cbn [bind] in E.
      destruct (negb _); [discriminate|].
      destruct (reset_prevs_total (h_next old)
                  (upd (hs h) (Z.to_nat idx) (new_hstate ms prev sym (h_bayes h)))) as [l' El].
      { intros c i Hin. rewrite upd_length.
        apply (ok_next _ _ _ _ (wf_states _ W _ (vgetZ_In _ _ _ _ Eo)) c i Hin). }
      rewrite El in E. discriminate.
  Qed.

  Lemma update_bayes_safe h i :
    hsafe h -> i < Z.of_nat (length (hs h)) ->
    fine (fun h' => hsafe h' /\ length (hs h') = length (hs h) /\ same_config h h')
         (update_bayesian_history ops h i).
  Proof.
    intros [W L] Hi.
    destruct (update_bayesian_history ops h i) as [h'| | |] eqn:E; simpl; auto.
    - destruct (update_bayes_wf _ _ _ W E) as [A1 [A2 [A3 A4]]]. split; [|auto].
      split; auto.
      unfold update_bayesian_history in E.
      destruct (_ && _); [|injection E as <-; auto].
      apply bind_Ok in E. destruct E as [s [E1 E]].
      destruct (0 <=? h_prev s); [|injection E as <-; auto].
      apply bind_Ok in E. destruct E as [ps [E2 E]].
      apply bind_Ok in E. destruct E as [[probs lms'] [E3 E]]. injection E as <-. simpl.
      pose proof (comps_score_safe ps (h_sym s) (h_lms h) 0 L) as SS. rewrite E3 in SS. exact SS.
    - unfold update_bayesian_history in E.
      destruct ((0 <=? i) && (0 <? h_bayes h)%nat) eqn:Eb; [|discriminate].
      destruct (vgetZ_range _ (hs h) i) as [s E1]; [lia|]. rewrite E1 in E; cbn [bind] in E.
      destruct (Z.leb_spec 0 (h_prev s)); [|discriminate].
      pose proof (ok_prev _ _ _ _ (wf_states _ W _ (vgetZ_In _ _ _ _ E1))).
      destruct (vgetZ_range _ (hs h) (h_prev s)) as [ps E2]; [lia|]. rewrite E2 in E; cbn [bind] in E.
      pose proof (comps_score_safe ps (h_sym s) (h_lms h) 0 L) as SS.
      destruct (comps_score ops ps 0 (h_lms h) (h_sym s)) as [[? ?]| | |]; simpl in *;
        try discriminate; auto.
  Qed.

  Lemma assign_safe h ms prev sym :
    hsafe h -> 0 <= prev < Z.of_nat (length (hs h)) -> length ms = length (h_lms h) ->
    fine (fun p => hsafe (snd p)) (assign_new_hub_state ops h ms prev sym).
  Proof.
    intros [W L] Hp Hms.
    destruct (assign_new_hub_state ops h ms prev sym) as [[i h']| | |] eqn:E; simpl; auto.
    - destruct (assign_wf _ _ _ _ _ _ W Hp Hms E) as [A1 _]. split; auto.
      unfold assign_new_hub_state in E. apply bind_Ok in E. destruct E as [[idx h1] [E1 E]].
      assert (L1 : h_lms h1 = h_lms h /\ hwf (set_last h1 idx) /\ 0 <= idx < Z.of_nat (length (hs h1)) /\ same_config h h1).
      { destruct (Z.leb_spec (h_max h) (Z.of_nat (length (hs h)))) as [Hfull|Hfull].
        - apply bind_Ok in E1. destruct E1 as [[idx' ha] [E0 E1]].
          apply bind_Ok in E1. destruct E1 as [hb [E2 E1]]. injection E1 as <- <-.
          assert (Ha : hwf ha /\ h_lms ha = h_lms h /\ length (hs ha) = length (hs h) /\ same_config h ha /\
                       0 <= idx' < Z.of_nat (length (hs h))).
          { pose proof (wf_max _ W). destruct (Z.leb_spec (h_max h) (h_last h + 1)).
            - apply bind_Ok in E0. destruct E0 as [hc [E0 E0']]. injection E0' as <- <-.
              destruct (init_start_wf h hc W E0) as [B1 [B2 [B3 [B4 B5]]]].
              split; auto. split; auto. split; auto. split; auto. lia.
            - injection E0 as <- <-. split; auto. split; auto. split; auto.
              split; [apply same_config_refl|]. pose proof (wf_last _ W).
              pose proof (wf_size _ W). lia. }
          destruct Ha as [B1 [B2 [B3 [B3' B4]]]].
          destruct (update_hub_state_wf ha idx' ms prev sym hb) as [C1 [C2 [C3 [C4 C5]]]]; auto.
          { lia. }
          split; [congruence|]. split; [destruct C1; constructor; simpl; auto; lia|].
          split; [lia|eapply same_config_trans; eauto].
        - injection E1 as <- <-. simpl. split; auto. rewrite app_length; simpl. split; [|split; [lia|]].
          + destruct W as [W1 W2 W3 W4 W5]. constructor; simpl; rewrite ?app_length; simpl; auto; try lia.
            intros s Hs. apply in_app_or in Hs. destruct Hs as [Hs|[<-|[]]].
            * eapply hsok_mono; [|apply W5; auto]; lia.
            * apply new_hstate_ok; auto; lia.
          + unfold same_config; simpl; rewrite app_length; simpl; repeat split; auto; lia. }
      destruct L1 as [L1 [W1 [R1 SC]]].
      apply bind_Ok in E. destruct E as [ps [E2 E]].
      apply bind_Ok in E. destruct E as [h4 [E3 E]]. injection E as <- <-.
      set (h3 := set_hs (set_last h1 idx) (upd (hs (set_last h1 idx)) (Z.to_nat prev) (hs_add_next ps sym idx))) in *.
      assert (W3 : hwf h3).
      { destruct W1 as [X1 X2 X3 X4 X5]. simpl in *.
        constructor; simpl; rewrite ?upd_length; auto.
        intros s Hs. apply in_upd in Hs. destruct Hs as [->|Hs]; auto.
        assert (Hps := X5 _ (vgetZ_In _ _ _ _ E2)). destruct Hps. constructor; simpl; auto.
        intros c j Hj. destruct (assoc sym (h_next ps)); eauto.
        apply in_app_or in Hj. destruct Hj as [Hj|[Hj|[]]]; eauto. injection Hj as <- <-. lia. }
      assert (S3 : hsafe h3) by (split; [exact W3|]; unfold h3; simpl; rewrite L1; exact L).
      pose proof (update_bayes_safe h3 idx S3) as SS.
      rewrite E3 in SS. simpl in SS. apply SS. unfold h3; simpl; rewrite upd_length; lia.
    - unfold assign_new_hub_state in E.
      destruct (Z.leb_spec (h_max h) (Z.of_nat (length (hs h)))) as [Hfull|Hfull].
      + assert (Ha : fine (fun p => hsafe (snd p) /\ length (hs (snd p)) = length (hs h) /\
                               0 <= fst p < Z.of_nat (length (hs h)))
                  (if h_max h <=? h_last h + 1
                   then let* h' := initialize_start_hub_state ops h in Ok (1, h')
                   else Ok (h_last h + 1, h))).
        { pose proof (wf_max _ W). destruct (Z.leb_spec (h_max h) (h_last h + 1)).
          - unfold initialize_start_hub_state.
            eapply fine_bind; [apply update_hub_state_safe; [split; auto| |]; pose proof (wf_nonempty _ W); lia|].
            intros h1 _ [A1 [A2 _]]. simpl. split; auto. split; auto. lia.
          - simpl. split; [split; auto|]. split; auto. pose proof (wf_last _ W). pose proof (wf_size _ W). lia. }
        destruct (if h_max h <=? h_last h + 1
                   then let* h' := initialize_start_hub_state ops h in Ok (1, h')
                   else Ok (h_last h + 1, h)) as [[idx ha]| | |]; simpl in Ha, E; try discriminate; auto.
        destruct Ha as [A1 [A2 A3]].
        pose proof (update_hub_state_safe ha idx ms prev sym A1) as SS.
        destruct (update_hub_state ha idx ms prev sym) as [hb| | |]; simpl in SS, E; try discriminate.
        * destruct SS as [[B1 B1'] [B2 B3]]; try lia.
          set (h2 := set_last hb idx) in *.
          assert (W2 : hwf h2) by (destruct B1; constructor; simpl; auto; lia).
          destruct (vgetZ_range _ (hs hb) prev) as [ps E2]; [lia|].
          assert (E2' : vgetZ (hs h2) prev = Ok ps) by exact E2. simpl in E2'. rewrite E2' in E. cbn [bind] in E.
          set (h3 := set_hs h2 (upd (hs hb) (Z.to_nat prev) (hs_add_next ps sym idx))) in *.
          assert (S3 : hsafe h3).
          { split; [|exact B1'].
            destruct W2 as [X1 X2 X3 X4 X5]. simpl in *.
            constructor; simpl; rewrite ?upd_length; auto.
            intros s Hs. apply in_upd in Hs. destruct Hs as [->|Hs]; auto.
            assert (Hps := X5 _ (vgetZ_In _ _ _ _ E2)). destruct Hps. constructor; simpl; auto.
            intros c j Hj. destruct (assoc sym (h_next ps)); eauto.
            apply in_app_or in Hj. destruct Hj as [Hj|[Hj|[]]]; eauto. injection Hj as <- <-. lia. }
          pose proof (update_bayes_safe h3 idx S3) as SS.
          destruct (update_bayesian_history ops h3 idx); simpl in SS, E; try discriminate.
          apply SS. unfold h3; simpl; rewrite upd_length; lia.
        * apply SS; lia.
      + cbn [bind] in E. simpl in E.
        destruct (vgetZ_range _ (hs h ++ [new_hstate ms prev sym (h_bayes h)]) prev) as [ps E2];
          [rewrite app_length; simpl; lia|].
        rewrite E2 in E; cbn [bind] in E.
        match type of E with (bind (update_bayesian_history ops ?h3 ?i) _) = _ =>
          set (h3' := h3) in *; set (idx := i) in * end.
        assert (S3 : hsafe h3').
        { split; [|exact L]. destruct W as [X1 X2 X3 X4 X5].
          constructor; unfold h3'; simpl; rewrite ?upd_length, ?app_length; simpl; auto; try lia.
          intros s Hs. apply in_upd in Hs. destruct Hs as [->|Hs].
          - assert (Hps : hsok (length (h_lms h)) (h_bayes h) (length (hs h) + 1) ps).
            { apply vgetZ_In in E2. apply in_app_or in E2. destruct E2 as [E2|[<-|[]]].
              - eapply hsok_mono; [|apply X5; auto]; lia.
              - apply new_hstate_ok; auto; lia. }
            destruct Hps. constructor; simpl; auto.
            intros c j Hj. destruct (assoc sym (h_next ps)); eauto.
            apply in_app_or in Hj. destruct Hj as [Hj|[Hj|[]]]; eauto. injection Hj as <- <-. lia.
          - apply in_app_or in Hs. destruct Hs as [Hs|[<-|[]]].
            + eapply hsok_mono; [|apply X5; auto]; lia.
            + apply new_hstate_ok; auto; lia. }
        pose proof (update_bayes_safe h3' idx S3) as SS.
        destruct (update_bayesian_history ops h3' idx); simpl in SS, E; try discriminate.
        apply SS. unfold h3', idx; simpl; rewrite upd_length, app_length; simpl; lia.
  Qed.

  Lemma hub_next_safe h s c :
    hsafe h -> fine (fun p => hsafe (snd p)) (hub_next ops h s c).
  Proof.
    intros [W L]. unfold hub_next. pose proof (fix_range h s W) as Hr.
    set (st := if in_range h s then s else 0) in *.
    destruct (vgetZ_range _ (hs h) st Hr) as [x E]. rewrite E; cbn [bind].
    destruct (_ || _); [split; auto|].
    eapply fine_bind; [apply comps_next_safe; exact L|].
    intros [states lms'] E2 Hl. simpl in Hl.
    destruct (comps_next_len _ _ _ _ _ _ E2) as [L1 L2].
    assert (Hs : hsafe (set_lms h lms')) by (split; [apply set_lms_wf; auto|exact Hl]).
    pose proof (assign_safe (set_lms h lms') states st c Hs Hr (eq_trans L1 (eq_sym L2))) as SS.
    destruct (assign_new_hub_state ops (set_lms h lms') states st c) as [[i h1]| | |]; simpl in *; auto.
  Qed.

  Lemma hub_context_safe ctx : forall h s,
    hsafe h -> fine (fun p => hsafe (snd p)) (hub_context_loop ops h s ctx).
  Proof.
    induction ctx as [|c t IH]; intros h s H; simpl; auto.
    eapply fine_bind; [apply hub_next_safe; exact H|]. intros [s' h'] _ H'. simpl in H'. auto.
  Qed.

  Lemma mix_loop_safe s ws : forall idx lms norm acc,
    lms_ok lms -> (length ws <= length lms)%nat ->
    fine (fun p => lms_ok (snd p)) (mix_loop ops s idx ws lms norm acc).
  Proof.
    induction ws as [|w ws IH]; intros idx lms norm acc Hl Hn; simpl; auto.
    destruct lms as [|m t]; [simpl in Hn; lia|]. inversion Hl; subst.
    pose proof (safe_extract _ _ Hsafe b m (hs_model s idx) H1) as SS.
    destruct (c_extract ops m (hs_model s idx)) as [[r m']| | |]; simpl in *; auto.
    destruct r as [sc|]; simpl; [|constructor; auto].
    eapply fine_bind; [apply IH; auto; lia|]. intros [r t'] _ Ht. simpl in *. constructor; auto.
  Qed.

  (** Enough component models for the weights. *)
  Definition enough_models h := (1 <= length (h_lms h))%nat /\ (length (h_weights h) <= length (h_lms h))%nat.

  Lemma enough_same h h' : same_config h h' -> enough_models h -> enough_models h'.
  Proof.
    unfold enough_models, same_config. intros (A1 & A2 & A3 & A4 & A5). rewrite A2, A4. auto.
  Qed.

  Lemma zip_weights_len (ws : list (num F)) : forall sums,
    (length ws <= length sums)%nat -> exists r, zip_weights ws sums = Ok r /\ length r = length ws.
  Proof.
    induction ws as [|w ws IH]; intros [|p sums] H; simpl in *; try lia; eauto.
    destruct (IH sums) as [r [E1 E2]]; [lia|]. rewrite E1. simpl. eexists; split; eauto. simpl; lia.
  Qed.

  Lemma hub_extract_safe h s :
    hsafe h -> enough_models h -> fine (fun p => hsafe (snd p)) (hub_extract ops h s).
  Proof.
    intros [W L] [N1 N2]. unfold hub_extract.
    destruct (in_range h s) eqn:Er; simpl; [|split; auto].
    destruct (vgetZ_range _ (hs h) s) as [x E1]; [unfold in_range in Er; lia|].
    rewrite E1; cbn [bind].
    destruct (length (h_weights h) <? 2)%nat.
    - destruct (h_lms h) as [|m t] eqn:El; [simpl in N1; lia|].
      assert (Hm : Inv b m /\ Forall (Inv b) t) by (inversion L; auto).
      destruct Hm as [Hm Ht].
      pose proof (safe_extract _ _ Hsafe b m (hs_model x 0) Hm) as SS.
      destruct (c_extract ops m (hs_model x 0)) as [[r m']| | |]; simpl in *; auto.
      split; [apply set_lms_wf; [rewrite El; auto|auto]|constructor; auto].
    - assert (Hw : exists ws, mixture_weights_at h s = Ok ws /\ length ws = length (h_weights h)).
      { unfold mixture_weights_at. rewrite Er, orb_false_r.
        destruct (Nat.eqb_spec (h_bayes h) 0); [eauto|]. rewrite E1; cbn [bind].
        assert (Hx := wf_states _ W _ (vgetZ_In _ _ _ _ E1)).
        destruct (zip_weights_len (h_weights h) (h_sum x)) as [ws [E2 E3]].
        { rewrite (ok_sum _ _ _ _ Hx); lia. }
        rewrite E2; cbn [bind]. eexists; split; eauto. rewrite map_length; auto. }
      destruct Hw as [ws [-> Hl]]. cbn [bind].
      eapply fine_bind; [apply mix_loop_safe; [exact L|lia]|].
      intros [r lms'] E2 H2. simpl in *. apply mix_loop_len in E2.
      split; [apply set_lms_wf; auto|auto].
  Qed.

  Lemma ensure_states_safe syms : forall h s,
    hsafe h -> fine hsafe (ensure_states ops h s syms).
  Proof.
    induction syms as [|c t IH]; intros h s H; simpl; auto.
    eapply fine_bind; [apply hub_next_safe; exact H|]. intros [s' h'] _ H'. simpl in H'. auto.
  Qed.

  Lemma refresh_next_safe nexts : forall h,
    hsafe h -> (forall c i, In (c, i) nexts -> i < Z.of_nat (length (hs h))) ->
    fine hsafe (refresh_next ops h nexts).
  Proof.
    induction nexts as [|[c i] t IH]; intros h H Hn; simpl; auto.
    eapply fine_bind; [apply update_bayes_safe; [exact H|eapply Hn; simpl; eauto]|].
    intros h' _ [H' [Hl _]]. apply IH; auto. intros c' i' Hi. rewrite Hl. eapply Hn; simpl; eauto.
  Qed.

  (** The Bayesian refresh is in bounds if it starts in a live state and no symbol but the last
      is negative. *)
  Lemma refresh_bayes_safe syms : forall h s,
    hsafe h -> 0 <= s < Z.of_nat (length (hs h)) ->
    (forall c, In c (removelast syms) -> 0 <= c) ->
    fine hsafe (refresh_bayes ops h s syms).
  Proof.
    induction syms as [|c t IH]; intros h s H Hs Hc; simpl; auto.
    destruct (vgetZ_range _ (hs h) s Hs) as [x E]. rewrite E; cbn [bind].
    assert (Hx := wf_states _ (proj1 H) _ (vgetZ_In _ _ _ _ E)).
    eapply fine_bind; [apply refresh_next_safe; [exact H|]|].
    { intros c' i Hi. pose proof (ok_next _ _ _ _ Hx _ _ Hi). lia. }
    intros h1 E1 H1. eapply fine_bind; [apply hub_next_safe; exact H1|].
    intros [s' h2] E2 H2. simpl in H2.
    destruct (hub_next_wf _ _ _ _ _ (proj1 H1) E2) as [_ [_ [R1 R2]]].
    destruct t as [|c' t']; [exact H2|].
    apply IH; auto.
    - assert (0 <= c) by (apply Hc; simpl; auto). specialize (R2 H0). lia.
    - intros d Hd. apply Hc. simpl in *. auto.
  Qed.

  Lemma verify_states_safe syms : forall h s,
    hsafe h -> 0 <= s < Z.of_nat (length (hs h)) ->
    fine (fun p => hsafe (snd p)) (verify_states ops h s syms).
  Proof.
    induction syms as [|c t IH]; intros h s H Hs; simpl; auto.
    destruct (vgetZ_range _ (hs h) s Hs) as [x E]. rewrite E; cbn [bind].
    assert (Hx := wf_states _ (proj1 H) _ (vgetZ_In _ _ _ _ E)).
    pose proof (hs_next_range _ _ _ x c Hx) as Hn.
    destruct (Z.ltb_spec (hs_next x c) 0); [exact H|].
    eapply fine_bind; [apply comps_next_safe; apply H|].
    intros [states lms'] E2 Hl. simpl in Hl.
    destruct (comps_next_len _ _ _ _ _ _ E2) as [L1 L2].
    destruct (vgetZ_range _ (hs h) (hs_next x c)) as [ns E3]; [lia|].
    change (hs (set_lms h lms')) with (hs h). rewrite E3; cbn [bind].
    assert (W' := set_lms_wf h lms' L2 (proj1 H)).
    destruct ((h_prev ns =? s) && (h_sym ns =? c)).
    - apply IH; [|simpl; rewrite upd_length; lia]. split; [|exact Hl].
      destruct W' as [W1 W2 W3 W4 W5]. simpl in *.
      constructor; simpl; rewrite ?upd_length; auto.
      intros s' Hs'. apply in_upd in Hs'. destruct Hs' as [->|Hs']; auto.
      assert (Hns := W5 _ (vgetZ_In _ _ _ _ E3)).
      destruct Hns. constructor; simpl; auto. rewrite overwrite_length; auto.
    - split; auto.
  Qed.

  End Budget.

  Lemma lms_ok_mono b b' l : b' <= b -> lms_ok b l -> lms_ok b' l.
  Proof. intros Hb H. eapply Forall_impl; [|exact H]. intros m Hm. eapply (safe_mono _ _ Hsafe); eauto. Qed.

  Lemma learn_cost_nonneg syms n : 0 <= learn_cost syms n.
  Proof. unfold learn_cost. apply Z.mul_nonneg_nonneg; lia. Qed.

  Lemma update_comps_safe b s ws : forall idx lms syms n,
    lms_ok b lms -> learn_cost syms n <= b -> (length ws <= length lms)%nat ->
    fine (fun p => lms_ok (b - learn_cost syms n) (snd p)) (update_comps ops s idx ws lms syms n).
  Proof.
    induction ws as [|w ws IH]; intros idx lms syms n Hl Hb Hn; simpl.
    - eapply lms_ok_mono; [|exact Hl]. pose proof (learn_cost_nonneg syms n). lia.
    - destruct lms as [|m t]; [simpl in Hn; lia|]. inversion Hl; subst.
      pose proof (safe_update _ _ Hsafe b m (hs_model s idx) syms n H1 Hb) as SS.
      destruct (c_update ops m (hs_model s idx) syms n) as [[ok m']| | |]; simpl in *; auto.
      destruct ok; simpl.
      + eapply fine_bind; [apply IH; auto; lia|]. intros [r t'] _ Ht. simpl in *. constructor; auto.
      + constructor; auto. eapply lms_ok_mono; [|exact H2]. pose proof (learn_cost_nonneg syms n). lia.
  Qed.

  Lemma hub_update_safe b h s syms n :
    hsafe b h -> learn_cost syms n <= b -> enough_models h ->
    (h_bayes h = 0%nat \/
     (in_range h s = true /\ forall c, In c (removelast syms) -> 0 <= c)) ->
    fine (fun p => hsafe (b - learn_cost syms n) (snd p)) (hub_update ops h s syms n).
  Proof.
    intros H Hb Hen Hg. pose proof (learn_cost_nonneg syms n) as Hb0. unfold hub_update.
    eapply fine_bind; [apply ensure_states_safe; exact H|]. intros h1 E1 H1.
    destruct (ensure_states_wf _ _ _ _ (proj1 H) E1) as [_ C1].
    assert (Hlen : (length (hs h) <= length (hs h1))%nat) by apply C1.
    assert (B : fine (fun h2 => hsafe b h2 /\ same_config h1 h2)
                (if (0 <? h_bayes h)%nat then refresh_bayes ops h1 s syms else Ok h1)).
    { destruct (Nat.ltb_spec 0 (h_bayes h)).
      - destruct Hg as [Hg|[Hg1 Hg2]]; [lia|]. unfold in_range in Hg1.
        pose proof (refresh_bayes_safe b syms h1 s H1) as SS.
        destruct (refresh_bayes ops h1 s syms) as [h2| | |] eqn:E2; simpl in *; auto.
        + split; [apply SS; auto; lia|]. eapply refresh_bayes_wf; eauto. apply H1.
        + apply SS; auto; lia.
      - simpl. split; auto using same_config_refl. }
    eapply fine_bind; [exact B|]. intros h2 E2 [H2 C2].
    destruct (in_range h s) eqn:Er;
      [|split; [apply H2|eapply lms_ok_mono; [|apply H2]; lia]].
    assert (Hlen2 : (length (hs h1) <= length (hs h2))%nat) by apply C2.
    assert (Hr : 0 <= s < Z.of_nat (length (hs h2))) by (unfold in_range in Er; lia).
    destruct (vgetZ_range _ (hs h2) s Hr) as [x E]. rewrite E; cbn [bind].
    assert (Hen2 : enough_models h2).
    { eapply enough_same; [|exact Hen]. eapply same_config_trans; eauto. }
    eapply fine_bind; [apply update_comps_safe; [apply H2|exact Hb|apply Hen2]|].
    intros [ok1 lms'] E4 H4. simpl in H4. apply update_comps_len in E4.
    assert (H3 : hsafe (b - learn_cost syms n) (set_lms h2 lms')) by (split; [apply set_lms_wf; [auto|apply H2]|exact H4]).
    destruct ok1; [|exact H3]. apply verify_states_safe; auto.
  Qed.
End Hub.
