(** Proofs about HubModel.v: before wrap-around the hub states are a trie of contexts. *)
From Coq Require Import Field.
From Verif Require Import Base Field LmModel HubModel HubSpec HubProofs.
Local Open Scope Z_scope.

Lemma last_n_snoc A (n : nat) (l : list A) x :
  (1 <= n)%nat -> (n <= length l)%nat -> last_n n (l ++ [x]) = tl (last_n n l) ++ [x].
Proof.
  intros H1 H2. unfold last_n. rewrite app_length; simpl.
  replace (length l + 1 - n)%nat with (S (length l - n)) by lia.
  rewrite skipn_app. replace (S (length l - n) - length l)%nat with 0%nat by lia. simpl skipn at 2.
  f_equal. generalize (length l - n)%nat. clear. intros k; revert l.
  induction k as [|k IH]; intros [|a l]; simpl; auto. rewrite <- IH. destruct l; reflexivity.
Qed.

Lemma NoDup_snoc A (l : list A) x : NoDup l -> ~ In x l -> NoDup (l ++ [x]).
Proof.
  intros H Hx. apply (Permutation_NoDup (l := x :: l)); [|constructor; auto].
  apply Permutation_cons_append.
Qed.

Lemma last_n_all A (n : nat) (l : list A) : length l = n -> last_n n l = l.
Proof. intros <-. unfold last_n. rewrite Nat.sub_diag. reflexivity. Qed.

Lemma overwrite_same old : forall new, length old = length new -> overwrite old new = new.
Proof. induction old as [|x t IH]; intros [|y n]; simpl; intros; try discriminate; f_equal; auto. Qed.

Section Prod.
  Context {F : ofield}.
  Add Field HubTrieField : (f_th F).
  Lemma fold_mul_prod (l : list (car F)) : forall p, fold_left fmul l p = fprod (l ++ [p]).
  Proof.
    induction l as [|a l IH]; intros p; simpl.
    - unfold fprod; simpl. field.
    - rewrite IH. change (fprod (a :: l ++ [p])) with (fmul a (fprod (l ++ [p]))).
      rewrite !fprod_app. unfold fprod at 2 4; simpl. field.
  Qed.

  Lemma fprod_ones n : fprod (repeat (f1 : car F) n) = f1.
  Proof.
    induction n as [|n IH]; simpl; auto.
    change (fprod (f1 :: repeat f1 n)) with (fmul f1 (fprod (F := F) (repeat f1 n))). rewrite IH. field.
  Qed.
End Prod.

Section Trie.
  Context {F : ofield} {M : Type}.
  Variable ops : comp_ops F M.
  Variable learning : bool.
  (** Whether to track the component states, for components with repeatable answers; the rest of
      the invariant holds for all components. *)
  Variable track : bool.
  Notation hub := (hub F M).
  Notation reach := (c_reach ops learning).
  Implicit Types h : hub.

  Lemma reach_trans m1 m2 m3 : reach m1 m2 -> reach m2 m3 -> reach m1 m3.
  Proof. intros H1 H2; induction H2; auto. econstructor; eauto. Qed.

  Lemma reach_true m1 m2 : reach m1 m2 -> c_reach ops true m1 m2.
  Proof.
    intros H; induction H; [apply reach_refl|]. econstructor; [exact IHc_reach|].
    destruct H0; [eapply step_next|eapply step_score|eapply step_extract|eapply step_update]; eauto.
  Qed.

  Lemma reach_one m1 m2 : c_step ops learning m1 m2 -> reach m1 m2.
  Proof. intros H. econstructor; [apply reach_refl|exact H]. Qed.

  (** * Every hub call only lets the components evolve *)
  Notation evolve := (Forall2 reach).

  Lemma evolve_refl l : evolve l l.
  Proof. induction l; constructor; auto. apply reach_refl. Qed.

  Lemma evolve_trans l1 l2 l3 : evolve l1 l2 -> evolve l2 l3 -> evolve l1 l3.
  Proof.
    intros H; revert l3; induction H; intros l3 H3; inversion H3; subst; constructor; auto.
    eapply reach_trans; eauto.
  Qed.

  Lemma evolve_nth l l' k m' :
    evolve l l' -> nth_error l' k = Some m' -> exists m, nth_error l k = Some m /\ reach m m'.
  Proof.
    intros H; revert k; induction H; intros [|k]; simpl; try discriminate; eauto.
    intros [= <-]; eauto.
  Qed.

  Lemma comps_next_evolve s lms : forall idx c xs lms',
    comps_next ops s idx lms c = Ok (xs, lms') -> evolve lms lms'.
  Proof.
    induction lms as [|m t IH]; intros idx c xs lms'; simpl.
    - intros [= <- <-]; constructor.
    - intros E. apply bind_Ok in E. destruct E as [[x m'] [E1 E]].
      apply bind_Ok in E. destruct E as [[xs' t'] [E2 E]]. injection E as <- <-.
      constructor; eauto. apply reach_one. eapply step_next; eauto.
  Qed.

  Lemma comps_score_evolve s lms : forall idx c xs lms',
    comps_score ops s idx lms c = Ok (xs, lms') -> evolve lms lms'.
  Proof.
    induction lms as [|m t IH]; intros idx c xs lms'; simpl.
    - intros [= <- <-]; constructor.
    - intros E. apply bind_Ok in E. destruct E as [[x m'] [E1 E]].
      apply bind_Ok in E. destruct E as [[xs' t'] [E2 E]]. injection E as <- <-.
      constructor; eauto. apply reach_one. eapply step_score; eauto.
  Qed.

  Lemma comps_next_nth s lms : forall idx c xs lms' k x,
    comps_next ops s idx lms c = Ok (xs, lms') -> nth_error xs k = Some x ->
    exists m m', nth_error lms k = Some m /\ nth_error lms' k = Some m' /\
                 c_next ops m (hs_model s (idx + k)) c = Ok (x, m').
  Proof.
    induction lms as [|m t IH]; intros idx c xs lms' k x; simpl.
    - intros [= <- <-]; destruct k; discriminate.
    - intros E. apply bind_Ok in E. destruct E as [[y m'] [E1 E]].
      apply bind_Ok in E. destruct E as [[xs' t'] [E2 E]]. injection E as <- <-.
      destruct k as [|k]; simpl.
      + intros [= <-]. rewrite Nat.add_0_r. eauto.
      + intros Hx. destruct (IH _ _ _ _ _ _ E2 Hx) as (a & b & A1 & A2 & A3).
        rewrite Nat.add_succ_r. eauto.
  Qed.

  Lemma comps_score_nth s lms : forall idx c xs lms' k x,
    comps_score ops s idx lms c = Ok (xs, lms') -> nth_error xs k = Some x ->
    exists m m', nth_error lms k = Some m /\ nth_error lms' k = Some m' /\
                 c_score ops m (hs_model s (idx + k)) c = Ok (x, m').
  Proof.
    induction lms as [|m t IH]; intros idx c xs lms' k x; simpl.
    - intros [= <- <-]; destruct k; discriminate.
    - intros E. apply bind_Ok in E. destruct E as [[y m'] [E1 E]].
      apply bind_Ok in E. destruct E as [[xs' t'] [E2 E]]. injection E as <- <-.
      destruct k as [|k]; simpl.
      + intros [= <-]. rewrite Nat.add_0_r. eauto.
      + intros Hx. destruct (IH _ _ _ _ _ _ E2 Hx) as (a & b & A1 & A2 & A3).
        rewrite Nat.add_succ_r. eauto.
  Qed.

  (** * The trie invariant *)
  Definition settled (m : M) (x : list Z) (u : Z) : Prop :=
    forall m2, reach m m2 -> exists m3, c_walk ops m2 (c_start ops m2) x = Ok (u, m3).

  Lemma settled_reach m m2 x u : settled m x u -> reach m m2 -> settled m2 x u.
  Proof. intros H R m3 R3. apply H. eapply reach_trans; eauto. Qed.

  Lemma c_walk_app x : forall y m s,
    c_walk ops m s (x ++ y) = let* (s', m') := c_walk ops m s x in c_walk ops m' s' y.
  Proof.
    induction x as [|c x IH]; intros y m s; simpl; auto.
    destruct (c_next ops m s c) as [[s' m']| | |]; simpl; auto.
  Qed.

  Lemma c_walk_reach x : forall m s u m', c_walk ops m s x = Ok (u, m') -> reach m m'.
  Proof.
    induction x as [|c x IH]; intros m s u m'; simpl.
    - intros [= <- <-]. apply reach_refl.
    - intros E. apply bind_Ok in E. destruct E as [[s' m1] [E1 E2]].
      eapply reach_trans; [apply reach_one; eapply step_next; eauto|eauto].
  Qed.

  Lemma settled_snoc m0 m x t c u m1 :
    repeatable ops learning m0 -> reach m0 m -> settled m x t ->
    c_next ops m t c = Ok (u, m1) -> settled m1 (x ++ [c]) u.
  Proof.
    intros Rep R0 St E m2 R2.
    assert (R1 : reach m m1) by (apply reach_one; eapply step_next; eauto).
    destruct (St m2 (reach_trans _ _ _ R1 R2)) as [m3 E3].
    rewrite c_walk_app, E3. simpl.
    destruct (rep_next _ _ _ Rep m t c u m1 m3 R0 E) as [m4 E4].
    { eapply reach_trans; [exact R2|]. eapply c_walk_reach; eauto. }
    rewrite E4. simpl. eauto.
  Qed.

  Record trie (lms0 : list M) h (ctxs : list (list Z)) : Prop := {
    t_len : length ctxs = length (hs h);
    t_root : nth_error ctxs 0 = Some [];
    t_nodup : NoDup ctxs;
    t_root_state : forall s, nth_error (hs h) 0 = Some s -> h_prev s = -1 /\ h_sym s = 0;
    t_prev : forall i s x, (0 < i)%nat -> nth_error (hs h) i = Some s -> nth_error ctxs i = Some x ->
      exists y ps, 0 <= h_prev s /\ 0 <= h_sym s /\
        nth_error ctxs (Z.to_nat (h_prev s)) = Some y /\
        nth_error (hs h) (Z.to_nat (h_prev s)) = Some ps /\
        x = y ++ [h_sym s] /\ assoc (h_sym s) (h_next ps) = Some (Z.of_nat i);
    t_next : forall i s x c j, nth_error (hs h) i = Some s -> nth_error ctxs i = Some x ->
      In (c, j) (h_next s) ->
      0 < j /\ 0 <= c /\ nth_error ctxs (Z.to_nat j) = Some (x ++ [c]);
    t_comps : track = true -> forall k m i s x, nth_error (h_lms h) k = Some m ->
      nth_error (hs h) i = Some s -> nth_error ctxs i = Some x -> settled m x (hs_model s k);
    t_evolved : evolve lms0 (h_lms h);
    t_rep : track = true -> Forall (repeatable ops learning) lms0;
    t_total : Forall (scores_total ops) lms0
  }.

  (** Only the components change. *)
  Lemma trie_set_lms lms0 h ctxs lms :
    trie lms0 h ctxs -> evolve (h_lms h) lms -> trie lms0 (set_lms h lms) ctxs.
  Proof.
    intros [A1 A2 A3 A4 A5 A6 A7 A8 A9 A10] E. constructor; cbn [hs h_lms set_hs set_lms]; auto.
    - intros Htr k m i s x Hm Hs Hx. destruct (evolve_nth _ _ _ _ E Hm) as [m0 [H0 R]].
      eapply settled_reach; eauto.
    - eapply evolve_trans; eauto.
  Qed.

  Lemma trie_ctx h lms0 ctxs i s : trie lms0 h ctxs -> nth_error (hs h) i = Some s ->
    exists x, nth_error ctxs i = Some x.
  Proof.
    intros T H. apply nth_error_Some_lt in H. rewrite <- (t_len _ _ _ T) in H.
    destruct (nth_error ctxs i) eqn:E; eauto. apply nth_error_None in E; lia.
  Qed.

  (** Replace the model states of a state by equally good ones, and its history by any. *)
  Lemma trie_upd lms0 h ctxs i s s' :
    trie lms0 h ctxs -> nth_error (hs h) i = Some s ->
    h_prev s' = h_prev s -> h_sym s' = h_sym s -> h_next s' = h_next s ->
    (track = true -> forall k m x, nth_error (h_lms h) k = Some m -> nth_error ctxs i = Some x ->
       settled m x (hs_model s' k)) ->
    trie lms0 (set_hs h (upd (hs h) i s')) ctxs.
  Proof.
    intros [A1 A2 A3 A4 A5 A6 A7 A8 A9 A10] Hs E1 E2 E3 Hm.
    assert (Hi := nth_error_Some_lt _ _ _ _ Hs).
    assert (Get : forall j t, nth_error (upd (hs h) i s') j = Some t ->
              exists t0, nth_error (hs h) j = Some t0 /\ h_prev t = h_prev t0 /\
                         h_sym t = h_sym t0 /\ h_next t = h_next t0).
    { intros j t. rewrite nth_error_upd. destruct (Nat.eqb_spec i j) as [<-|]; simpl.
      - destruct (i <? length (hs h))%nat; [intros [= <-]|intros H]; eauto.
      - eauto. }
    assert (Put : forall j t0, nth_error (hs h) j = Some t0 ->
              exists t, nth_error (upd (hs h) i s') j = Some t /\ h_next t = h_next t0).
    { intros j t0 H. rewrite nth_error_upd. destruct (Nat.eqb_spec i j) as [<-|]; simpl; eauto.
      destruct (i <? length (hs h))%nat; eauto. exists s'. split; auto. congruence. }
    constructor; cbn [hs h_lms set_hs set_lms]; auto.
    - rewrite upd_length; auto.
    - intros t H. destruct (Get _ _ H) as (t0 & B1 & B2 & B3 & B4). rewrite B2, B3; eauto.
    - intros j t x Hj Ht Hx. destruct (Get _ _ Ht) as (t0 & B1 & B2 & B3 & B4).
      destruct (A5 j t0 x Hj B1 Hx) as (y & ps & C1 & C2 & C3 & C4 & C5 & C6).
      destruct (Put _ _ C4) as (ps' & D1 & D2).
      exists y, ps'. rewrite B2, B3, D2. auto 10.
    - intros j t x c d Ht Hx. destruct (Get _ _ Ht) as (t0 & B1 & B2 & B3 & B4). rewrite B4; eauto.
    - intros Htr k m j t x Hk Ht Hx. rewrite nth_error_upd in Ht.
      destruct (Nat.eqb_spec i j) as [<-|]; simpl in Ht; eauto.
      destruct (i <? length (hs h))%nat; eauto. injection Ht as <-. eauto.
  Qed.

  Lemma trie_bayes lms0 h ctxs i h' :
    trie lms0 h ctxs -> update_bayesian_history ops h i = Ok h' -> trie lms0 h' ctxs.
  Proof.
    intros T. unfold update_bayesian_history.
    destruct (_ && _); [|intros [= <-]; auto].
    intros E. apply bind_Ok in E. destruct E as [s [E1 E]].
    destruct (0 <=? h_prev s); [|injection E as <-; auto].
    apply bind_Ok in E. destruct E as [ps [E2 E]].
    apply bind_Ok in E. destruct E as [[probs lms'] [E3 E]]. injection E as <-.
    apply comps_score_evolve in E3. apply vgetZ_Ok in E1. destruct E1 as [_ E1].
    apply trie_set_lms; auto.
    eapply trie_upd; eauto. intros Htr k m x Hk Hx. exact (t_comps _ _ _ T Htr k m _ s x Hk E1 Hx).
  Qed.

  Definition ctx_at (ctxs : list (list Z)) (i : Z) : option (list Z) :=
    if (0 <=? i) && (i <? Z.of_nat (length ctxs)) then nth_error ctxs (Z.to_nat i) else Some [].

  Definition extends (ctxs ctxs' : list (list Z)) : Prop := exists t, ctxs' = ctxs ++ t.

  Lemma extends_refl c : extends c c.
  Proof. exists []. rewrite app_nil_r; auto. Qed.
  Lemma extends_trans a b c : extends a b -> extends b c -> extends a c.
  Proof. intros [t ->] [u ->]. exists (t ++ u). rewrite app_assoc; auto. Qed.
  Lemma extends_nth a b i x : extends a b -> nth_error a i = Some x -> nth_error b i = Some x.
  Proof.
    intros [t ->] H. rewrite nth_error_app1; auto. eapply nth_error_Some_lt; eauto.
  Qed.

  (** A new state for a new context. *)
  Lemma trie_new lms0 h ctxs p ps x c lms' states bayes :
    trie lms0 h ctxs -> nth_error (hs h) p = Some ps -> nth_error ctxs p = Some x ->
    0 <= c -> assoc c (h_next ps) = None ->
    comps_next ops ps 0 (h_lms h) c = Ok (states, lms') ->
    trie lms0
      (set_lms (set_hs h (upd (hs h ++ [new_hstate states (Z.of_nat p) c bayes]) p
                             (hs_add_next ps c (Z.of_nat (length (hs h))))))  lms')
      (ctxs ++ [x ++ [c]]).
  Proof.
    intros T Hp Hx Hc Hn E.
    assert (Hpl := nth_error_Some_lt _ _ _ _ Hp). assert (L := t_len _ _ _ T).
    assert (Ev := comps_next_evolve _ _ _ _ _ _ E).
    assert (Hnew : ~ In (x ++ [c]) ctxs).
    { intros Hin. apply In_nth_error in Hin. destruct Hin as [j Hj].
      assert (Hjl := nth_error_Some_lt _ _ _ _ Hj).
      destruct j as [|j].
      { rewrite (t_root _ _ _ T) in Hj. destruct x; discriminate. }
      destruct (nth_error (hs h) (S j)) as [s|] eqn:Es.
      2:{ apply nth_error_None in Es. lia. }
      destruct (t_prev _ _ _ T (S j) s _ ltac:(lia) Es Hj) as (y & qs & C1 & C2 & C3 & C4 & C5 & C6).
      apply app_inj_tail in C5. destruct C5 as [C5 C5']. rewrite <- C5' in C6. subst y.
      assert (Z.to_nat (h_prev s) = p) as Ep.
      { apply (proj1 (NoDup_nth_error ctxs) (t_nodup _ _ _ T)).
        - eapply nth_error_Some_lt; eauto.
        - congruence. }
      rewrite Ep in C4. congruence. }
    assert (Get : forall j t, nth_error (upd (hs h ++ [new_hstate states (Z.of_nat p) c bayes]) p
                             (hs_add_next ps c (Z.of_nat (length (hs h))))) j = Some t ->
              (j < length (hs h))%nat /\ (exists t0, nth_error (hs h) j = Some t0 /\ h_prev t = h_prev t0 /\
                    h_sym t = h_sym t0 /\ h_models t = h_models t0 /\
                    ((j <> p /\ h_next t = h_next t0) \/
                     (j = p /\ h_next t = h_next ps ++ [(c, Z.of_nat (length (hs h)))])))
              \/ j = length (hs h) /\ t = new_hstate states (Z.of_nat p) c bayes).
    { intros j t. rewrite nth_error_upd, app_length; simpl.
      destruct (Nat.eqb_spec p j) as [<-|Hne]; simpl.
      - destruct (Nat.ltb_spec p (length (hs h) + 1)); [|lia]. intros [= <-].
        left. split; auto. exists ps. split; auto. simpl. rewrite Hn. auto 10.
      - intros H. destruct (Nat.lt_ge_cases j (length (hs h))).
        + rewrite nth_error_app1 in H by auto. left. split; auto. exists t; auto 10.
        + right. rewrite nth_error_app2 in H by auto.
          destruct (j - length (hs h))%nat as [|d] eqn:Ed; simpl in H; [|destruct d; discriminate].
          injection H as <-. split; auto; lia. }
    assert (Put : forall j t0, nth_error (hs h) j = Some t0 ->
              exists t, nth_error (upd (hs h ++ [new_hstate states (Z.of_nat p) c bayes]) p
                             (hs_add_next ps c (Z.of_nat (length (hs h))))) j = Some t /\
                        forall d e, assoc d (h_next t0) = Some e -> assoc d (h_next t) = Some e).
    { intros j t0 H. rewrite nth_error_upd, app_length; simpl.
      assert (Hj := nth_error_Some_lt _ _ _ _ H).
      destruct (Nat.eqb_spec p j) as [<-|]; simpl.
      - destruct (Nat.ltb_spec p (length (hs h) + 1)); [|lia]. eexists; split; eauto.
        intros d e Hd. simpl. rewrite Hn, assoc_app. replace t0 with ps in Hd by congruence.
        rewrite Hd; auto.
      - rewrite nth_error_app1 by auto. eauto. }
    assert (Ctx1 : forall j y, nth_error ctxs j = Some y -> nth_error (ctxs ++ [x ++ [c]]) j = Some y).
    { intros j y H. rewrite nth_error_app1; auto. eapply nth_error_Some_lt; eauto. }
    assert (Ctx2 : forall j y, (j < length (hs h))%nat -> nth_error (ctxs ++ [x ++ [c]]) j = Some y ->
                               nth_error ctxs j = Some y).
    { intros j y Hj H. rewrite nth_error_app1 in H; auto. lia. }
    assert (CtxN : nth_error (ctxs ++ [x ++ [c]]) (length (hs h)) = Some (x ++ [c])).
    { rewrite <- L, nth_error_app2, Nat.sub_diag by lia. reflexivity. }
    destruct T as [A1 A2 A3 A4 A5 A6 A7 A8 A9 A10]. constructor; cbn [hs h_lms set_hs set_lms]; auto.
    - rewrite upd_length, !app_length. simpl; lia.
    - apply NoDup_snoc; auto.
    - intros s H. destruct (Get _ _ H) as [[B0 (t0 & B1 & B2 & B3 & _)]|[B1 ->]]; [|lia].
      rewrite B2, B3; auto.
    - intros i s y Hi Hs Hy.
      destruct (Get _ _ Hs) as [[B0 (t0 & B1 & B2 & B3 & _)]|[-> ->]].
      + destruct (A5 i t0 y Hi B1 (Ctx2 _ _ B0 Hy)) as (z & qs & C1 & C2 & C3 & C4 & C5 & C6).
        destruct (Put _ _ C4) as (qs' & D1 & D2).
        exists z, qs'. rewrite B2, B3. auto 10.
      + simpl. rewrite CtxN in Hy. injection Hy as <-. rewrite Nat2Z.id.
        destruct (Put _ _ Hp) as (ps' & D1 & D2).
        exists x, (hs_add_next ps c (Z.of_nat (length (hs h)))).
        split; [lia|]. split; [auto|]. split; [auto|]. split.
        { rewrite nth_error_upd, Nat.eqb_refl, app_length; simpl.
          destruct (Nat.ltb_spec p (length (hs h) + 1)); [auto|lia]. }
        split; auto. simpl. rewrite Hn, assoc_app, Hn. simpl. rewrite Z.eqb_refl. auto.
    - intros i s y d j Hs Hy Hin.
      destruct (Get _ _ Hs) as [[B0 (t0 & B1 & B2 & B3 & B3' & [[B4 B5]|[B4 B5]])]|[-> ->]].
      + rewrite B5 in Hin. destruct (A6 i t0 y d j B1 (Ctx2 _ _ B0 Hy) Hin) as (C1 & C2 & C3). auto.
      + subst i. assert (y = x) by (apply Ctx2 in Hy; [congruence|auto]). subst y.
        rewrite B5 in Hin. apply in_app_or in Hin. destruct Hin as [Hin|[Hin|[]]].
        * destruct (A6 p ps x d j Hp Hx Hin) as (C1 & C2 & C3). auto.
        * injection Hin as <- <-. rewrite Nat2Z.id. split; [lia|auto].
      + destruct Hin.
    - intros Htr k m i s y Hk Hs Hy.
      destruct (evolve_nth _ _ _ _ Ev Hk) as [m0 [K0 R0]].
      destruct (Get _ _ Hs) as [[B0 (t0 & B1 & B2 & B3 & B3' & _)]|[-> ->]].
      + unfold hs_model. rewrite B3'. eapply settled_reach; [|exact R0].
        eapply (A7 Htr k m0 i t0 y); eauto.
      + rewrite CtxN in Hy. injection Hy as <-. unfold hs_model. simpl.
        destruct (comps_next_len _ _ _ _ _ _ _ E) as [L1 L2].
        destruct (nth_error states k) as [u|] eqn:Eu.
        2:{ apply nth_error_None in Eu. apply nth_error_Some_lt in K0. lia. }
        destruct (comps_next_nth _ _ _ _ _ _ _ _ E Eu) as (m1 & m2 & D1 & D2 & D3). simpl in D3.
        assert (m1 = m0) by congruence. assert (m2 = m) by congruence. subst m1 m2.
        destruct (evolve_nth _ _ _ _ A8 K0) as [mi [Hmi Ri]].
        eapply settled_snoc; [|exact Ri|eapply A7; eauto|exact D3].
        specialize (A9 Htr). rewrite Forall_forall in A9. apply A9. eapply nth_error_In; eauto.
    - eapply evolve_trans; eauto.
  Qed.

  Lemma assoc_None_next lms0 h ctxs i s x c :
    trie lms0 h ctxs -> nth_error (hs h) i = Some s -> nth_error ctxs i = Some x ->
    (c < 0 \/ hs_next s c < 0) -> assoc c (h_next s) = None.
  Proof.
    intros T Hs Hx H. unfold hs_next in H. destruct (assoc c (h_next s)) as [j|] eqn:E; auto.
    apply assoc_In in E. destruct (t_next _ _ _ T i s x c j Hs Hx E). lia.
  Qed.

  Lemma fixed_ctx lms0 h ctxs s st x :
    hwf h -> trie lms0 h ctxs -> st = (if in_range h s then s else 0) ->
    vgetZ (hs h) st = Ok x ->
    exists w, ctx_at ctxs s = Some w /\ nth_error ctxs (Z.to_nat st) = Some w /\ nth_error (hs h) (Z.to_nat st) = Some x /\ 0 <= st.
  Proof.
    intros W T -> E. apply vgetZ_Ok in E. destruct E as [E0 E1].
    destruct (trie_ctx _ _ _ _ _ T E1) as [w Hw].
    unfold ctx_at. rewrite (t_len _ _ _ T). unfold in_range in *.
    destruct ((0 <=? s) && (s <? Z.of_nat (length (hs h)))); [eauto|].
    simpl in Hw, E1. exists []. split; [auto|]. split; [apply (t_root _ _ _ T)|auto].
  Qed.

  Definition grown h (st : Z) (x : hstate F) (c : Z) (states : list Z) (lms' : list M) : hub :=
    Hub (upd (hs h ++ [new_hstate states st c (h_bayes h)]) (Z.to_nat st)
             (hs_add_next x c (Z.of_nat (length (hs h)))))
        (Z.of_nat (length (hs h))) (h_max h) (h_weights h) (h_bayes h) lms'.

  Lemma grown_trie lms0 h ctxs st x w c states lms' :
    trie lms0 h ctxs -> 0 <= st -> nth_error (hs h) (Z.to_nat st) = Some x ->
    nth_error ctxs (Z.to_nat st) = Some w -> 0 <= c -> assoc c (h_next x) = None ->
    comps_next ops x 0 (h_lms h) c = Ok (states, lms') ->
    trie lms0 (grown h st x c states lms') (ctxs ++ [w ++ [c]]).
  Proof.
    intros T Hst0 Hst Hx Hc Ea E2.
    pose proof (trie_new lms0 h ctxs (Z.to_nat st) x w c lms' states (h_bayes h) T Hst Hx
                  Hc Ea E2) as T'.
    rewrite Z2Nat.id in T' by auto.
    destruct T' as [A1 A2 A3 A4 A5 A6 A7 A8 A9 A10]. constructor; auto.
  Qed.

  (** Before wrap-around NextState returns an existing state or appends one. *)
  Lemma hub_next_cases lms0 h ctxs s c r h' :
    hwf h -> trie lms0 h ctxs -> hub_next ops h s c = Ok (r, h') ->
    Z.of_nat (length (hs h')) < h_max h ->
    exists st x w, ctx_at ctxs s = Some w /\ nth_error ctxs (Z.to_nat st) = Some w /\
      nth_error (hs h) (Z.to_nat st) = Some x /\ 0 <= st /\
      ((h' = h /\ r = hs_next x c /\ (c < 0 \/ 0 <= r)) \/
       (0 <= c /\ assoc c (h_next x) = None /\ r = Z.of_nat (length (hs h)) /\
        exists states lms', comps_next ops x 0 (h_lms h) c = Ok (states, lms') /\
          update_bayesian_history ops (grown h st x c states lms') r = Ok h')).
  Proof.
    intros W T E Hsz. pose proof (hub_next_wf _ _ _ _ _ _ W E) as [W' [C' [R1 R2]]].
    assert (Hmono : (length (hs h) <= length (hs h'))%nat) by apply C'.
    unfold hub_next in E. remember (if in_range h s then s else 0) as st eqn:Est.
    apply bind_Ok in E. destruct E as [x [E1 E]].
    destruct (fixed_ctx _ _ _ _ _ _ W T Est E1) as (w & Hw & Hx & Hst & Hst0).
    exists st, x, w. split; auto. split; auto. split; auto. split; auto.
    destruct ((c <? 0) || (0 <=? hs_next x c)) eqn:Ec.
    - injection E as <- <-. left. split; auto. split; auto. lia.
    - right. apply bind_Ok in E. destruct E as [[states lms'] [E2 E]].
      assert (Ea : assoc c (h_next x) = None).
      { eapply assoc_None_next; eauto. lia. }
      unfold assign_new_hub_state in E. change (hs (set_lms h lms')) with (hs h) in E.
      change (h_max (set_lms h lms')) with (h_max h) in E.
      destruct (Z.leb_spec (h_max h) (Z.of_nat (length (hs h)))); [lia|].
      cbn [bind] in E.
      match type of E with context[vgetZ (hs (set_last (set_hs ?a ?b) ?i)) st] =>
        change (hs (set_last (set_hs a b) i)) with b in E end.
      assert (E3 : vgetZ (hs h ++ [new_hstate states st c (h_bayes (set_lms h lms'))]) st = Ok x).
      { apply vgetZ_Ok. split; auto. rewrite nth_error_app1; auto. eapply nth_error_Some_lt; eauto. }
      rewrite E3 in E. cbn [bind] in E.
      match type of E with context[update_bayesian_history ops ?a ?i] =>
        change a with (grown h st x c states lms') in E end.
      split; [lia|]. split; [exact Ea|].
      assert (T3 := grown_trie lms0 h ctxs st x w c states lms' T Hst0 Hst Hx ltac:(lia) Ea E2).
      set (h3 := grown h st x c states lms') in *. set (idx := Z.of_nat (length (hs h))) in *.
      destruct (update_bayesian_history ops h3 idx) as [h4| | |] eqn:E4; cbn [bind] in E;
        try discriminate.
      + injection E as <- <-. split; auto. eauto.
      + exfalso. unfold update_bayesian_history in E4.
        destruct (_ && _); [|discriminate].
        destruct (vgetZ_cases _ (hs h3) idx) as [[a Ea']|Ea']; rewrite Ea' in E4; [|discriminate].
        cbn [bind] in E4. destruct (0 <=? h_prev a); [|discriminate].
        destruct (vgetZ_cases _ (hs h3) (h_prev a)) as [[b Eb]|Eb]; rewrite Eb in E4; [|discriminate].
        cbn [bind] in E4.
        assert (NE : forall l l0 k, Forall (scores_total ops) l0 -> evolve l0 l ->
                  comps_score ops b k l (h_sym a) <> Err).
        { induction l as [|m l IH]; intros l0 k Hr He; simpl; [discriminate|].
          inversion He as [|m0 ? l0' ? Rm Rl]; subst. inversion Hr as [|? ? Hr1 Hr2]; subst.
          pose proof (Hr1 m (hs_model b k) (h_sym a) (reach_true _ _ Rm)) as N.
          destruct (c_score ops m (hs_model b k) (h_sym a)) as [[? ?]| | |]; simpl; try congruence.
          specialize (IH l0' (S k) Hr2 Rl).
          destruct (comps_score ops b (S k) l (h_sym a)) as [[? ?]| | |]; simpl; congruence. }
        specialize (NE (h_lms h3) lms0 0%nat (t_total _ _ _ T3) (t_evolved _ _ _ T3)).
        destruct (comps_score ops b 0 (h_lms h3) (h_sym a)) as [[? ?]| | |]; simpl in E4; congruence.
  Qed.

  Lemma trie_hub_next lms0 h ctxs s c r h' :
    hwf h -> trie lms0 h ctxs -> hub_next ops h s c = Ok (r, h') ->
    Z.of_nat (length (hs h')) < h_max h ->
    exists ctxs' w, trie lms0 h' ctxs' /\ extends ctxs ctxs' /\ ctx_at ctxs s = Some w /\
      (0 <= c -> 0 <= r /\ nth_error ctxs' (Z.to_nat r) = Some (w ++ [c])) /\ (c < 0 -> r = -1).
  Proof.
    intros W T E Hsz.
    destruct (hub_next_cases _ _ _ _ _ _ _ W T E Hsz)
      as (st & x & w & Hw & Hx & Hst & Hst0 & [(-> & -> & D)|(Hc & Ea & -> & states & lms' & E2 & E4)]).
    - exists ctxs, w. split; auto. split; [apply extends_refl|]. split; auto. split.
      + intros Hc. unfold hs_next in *. destruct (assoc c (h_next x)) as [j|] eqn:Ej; [|lia].
        apply assoc_In in Ej. destruct (t_next _ _ _ T _ _ _ _ _ Hst Hx Ej) as (A & B & G).
        auto with zarith.
      + intros Hc. unfold hs_next.
        rewrite (assoc_None_next _ _ _ _ _ _ c T Hst Hx (or_introl Hc)). auto.
    - assert (T3 := grown_trie lms0 h ctxs st x w c states lms' T Hst0 Hst Hx Hc Ea E2).
      exists (ctxs ++ [w ++ [c]]), w. split; [eapply trie_bayes; eauto|].
      split; [eexists; reflexivity|]. split; auto. split; [|lia].
      intros _. split; [lia|].
      rewrite <- (t_len _ _ _ T), Nat2Z.id, nth_error_app2, Nat.sub_diag by lia. reflexivity.
  Qed.

  Lemma size_mono h h' mx : same_config h h' -> Z.of_nat (length (hs h')) < mx -> Z.of_nat (length (hs h)) < mx.
  Proof. intros (_ & _ & _ & _ & H) H'. lia. Qed.

  Lemma ctx_at_nth ctxs s w : 0 <= s -> nth_error ctxs (Z.to_nat s) = Some w -> ctx_at ctxs s = Some w.
  Proof.
    intros H E. unfold ctx_at. apply nth_error_Some_lt in E as L.
    destruct (Z.leb_spec 0 s); [|lia]. destruct (Z.ltb_spec s (Z.of_nat (length ctxs))); [|lia]. auto.
  Qed.

  (** What the server's context walk stands for. *)
  Lemma trie_context_loop ctx : forall lms0 h ctxs s w r h',
    hwf h -> trie lms0 h ctxs -> 0 <= s -> ctx_at ctxs s = Some w ->
    (forall c, In c ctx -> 0 <= c) ->
    hub_context_loop ops h s ctx = Ok (r, h') ->
    Z.of_nat (length (hs h')) < h_max h ->
    exists ctxs', trie lms0 h' ctxs' /\ extends ctxs ctxs' /\ 0 <= r /\ ctx_at ctxs' r = Some (w ++ ctx).
  Proof.
    induction ctx as [|c t IH]; intros lms0 h ctxs s w r h' W T Hs Hw Hc; simpl.
    - intros [= <- <-] Hsz. exists ctxs. rewrite app_nil_r. auto using extends_refl.
    - intros E Hsz. apply bind_Ok in E. destruct E as [[s1 h1] [E1 E2]].
      destruct (hub_next_wf _ _ _ _ _ _ W E1) as [W1 [C1 _]].
      assert (Hs1 : 0 <= (if s1 <? 0 then 0 else s1)) by (destruct (Z.ltb_spec s1 0); lia).
      destruct (hub_context_loop_wf ops _ _ _ _ _ W1 Hs1 E2) as [W2 [C2 _]].
      assert (Hsz1 := size_mono _ _ _ C2 Hsz).
      destruct (trie_hub_next _ _ _ _ _ _ _ W T E1 Hsz1) as (ctxs1 & w' & T1 & X1 & Hw' & A & _).
      assert (w' = w) by congruence. subst w'. destruct A as [A1 A2]; [apply Hc; simpl; auto|].
      destruct (Z.ltb_spec s1 0); [lia|].
      assert (Hw1 := ctx_at_nth _ _ _ A1 A2).
      assert (Hm : h_max h1 = h_max h) by apply C1.
      destruct (IH lms0 h1 ctxs1 s1 (w ++ [c]) r h' W1 T1 A1 Hw1) as (ctxs2 & T2 & X2 & R & B); auto.
      { intros d Hd; apply Hc; simpl; auto. }
      { lia. }
      exists ctxs2. split; auto. split; [eapply extends_trans; eauto|]. split; auto.
      rewrite <- app_assoc in B. exact B.
  Qed.

  (** Any walk, with any symbols, keeps the trie. *)
  Lemma trie_context_any ctx : forall lms0 h ctxs s r h',
    hwf h -> trie lms0 h ctxs -> 0 <= s ->
    hub_context_loop ops h s ctx = Ok (r, h') ->
    Z.of_nat (length (hs h')) < h_max h ->
    exists ctxs', trie lms0 h' ctxs' /\ extends ctxs ctxs'.
  Proof.
    induction ctx as [|c t IH]; intros lms0 h ctxs s r h' W T Hs; simpl.
    - intros [= <- <-] Hsz. exists ctxs. auto using extends_refl.
    - intros E Hsz. apply bind_Ok in E. destruct E as [[s1 h1] [E1 E2]].
      destruct (hub_next_wf _ _ _ _ _ _ W E1) as [W1 [C1 _]].
      assert (Hs1 : 0 <= (if s1 <? 0 then 0 else s1)) by (destruct (Z.ltb_spec s1 0); lia).
      destruct (hub_context_loop_wf ops _ _ _ _ _ W1 Hs1 E2) as [W2 [C2 _]].
      assert (Hsz1 := size_mono _ _ _ C2 Hsz).
      destruct (trie_hub_next _ _ _ _ _ _ _ W T E1 Hsz1) as (ctxs1 & w' & T1 & X1 & _).
      assert (Hm : h_max h1 = h_max h) by apply C1.
      destruct (IH lms0 h1 ctxs1 _ r h' W1 T1 Hs1 E2) as (ctxs2 & T2 & X2); [lia|].
      exists ctxs2. split; auto. eapply extends_trans; eauto.
  Qed.

  Lemma mix_loop_evolve s ws : forall r1 lms' lms idx norm acc,
    mix_loop ops s idx ws lms norm acc = Ok (r1, lms') -> evolve lms lms'.
  Proof.
    induction ws as [|w ws IH]; intros r1 lms' lms idx norm acc; simpl.
    - intros [= _ <-]. apply evolve_refl.
    - destruct lms as [|m t]; [discriminate|]. intros E.
      apply bind_Ok in E. destruct E as [[r2 m'] [E1 E]].
      assert (reach m m') by (apply reach_one; eapply step_extract; eauto).
      destruct r2 as [sc|].
      + apply bind_Ok in E. destruct E as [[r3 t'] [E2 E]]. injection E as _ <-. constructor; eauto.
      + injection E as _ <-. constructor; auto. apply evolve_refl.
  Qed.

  Lemma trie_extract lms0 h ctxs s r h' :
    trie lms0 h ctxs -> hub_extract ops h s = Ok (r, h') -> trie lms0 h' ctxs.
  Proof.
    intros T. unfold hub_extract. destruct (negb (in_range h s)); [intros [= _ <-]; auto|].
    intros E. apply bind_Ok in E. destruct E as [x [E1 E]].
    destruct (length (h_weights h) <? 2)%nat.
    - destruct (h_lms h) as [|m t] eqn:El; [discriminate|].
      apply bind_Ok in E. destruct E as [[r1 m'] [E2 E]]. injection E as _ <-.
      apply trie_set_lms; auto. rewrite El. constructor; [|apply evolve_refl].
      apply reach_one. eapply step_extract; eauto.
    - apply bind_Ok in E. destruct E as [ws [E2 E]].
      apply bind_Ok in E. destruct E as [[r1 lms'] [E3 E]]. injection E as _ <-.
      apply trie_set_lms; auto. eapply mix_loop_evolve; eauto.
  Qed.

  Lemma trie_ensure syms : forall lms0 h ctxs s h',
    hwf h -> trie lms0 h ctxs -> ensure_states ops h s syms = Ok h' ->
    Z.of_nat (length (hs h')) < h_max h ->
    exists ctxs', trie lms0 h' ctxs' /\ extends ctxs ctxs'.
  Proof.
    induction syms as [|c t IH]; intros lms0 h ctxs s h' W T; simpl.
    - intros [= <-] _. exists ctxs; auto using extends_refl.
    - intros E Hsz. apply bind_Ok in E. destruct E as [[s1 h1] [E1 E2]].
      destruct (hub_next_wf _ _ _ _ _ _ W E1) as [W1 [C1 _]].
      destruct (ensure_states_wf _ _ _ _ _ W1 E2) as [W2 C2].
      assert (Hsz1 := size_mono _ _ _ C2 Hsz).
      destruct (trie_hub_next _ _ _ _ _ _ _ W T E1 Hsz1) as (ctxs1 & w' & T1 & X1 & _).
      assert (Hm : h_max h1 = h_max h) by apply C1.
      destruct (IH lms0 h1 ctxs1 s1 h' W1 T1 E2) as (ctxs2 & T2 & X2); [lia|].
      exists ctxs2. split; auto. eapply extends_trans; eauto.
  Qed.

  Lemma trie_refresh_next nexts : forall lms0 h ctxs h',
    trie lms0 h ctxs -> refresh_next ops h nexts = Ok h' -> trie lms0 h' ctxs.
  Proof.
    induction nexts as [|[c i] t IH]; intros lms0 h ctxs h' T; simpl.
    - intros [= <-]; auto.
    - intros E. apply bind_Ok in E. destruct E as [h1 [E1 E2]].
      eapply IH; [|exact E2]. eapply trie_bayes; eauto.
  Qed.

  Lemma trie_refresh syms : forall lms0 h ctxs s h',
    hwf h -> trie lms0 h ctxs -> refresh_bayes ops h s syms = Ok h' ->
    Z.of_nat (length (hs h')) < h_max h ->
    exists ctxs', trie lms0 h' ctxs' /\ extends ctxs ctxs'.
  Proof.
    induction syms as [|c t IH]; intros lms0 h ctxs s h' W T; simpl.
    - intros [= <-] _. exists ctxs; auto using extends_refl.
    - intros E Hsz. apply bind_Ok in E. destruct E as [x [E0 E]].
      apply bind_Ok in E. destruct E as [h0 [E1 E]].
      apply bind_Ok in E. destruct E as [[s1 h1] [E2 E]].
      destruct (refresh_next_wf _ _ _ _ W E1) as [W0 [C0 L0]].
      assert (T0 := trie_refresh_next _ _ _ _ _ T E1).
      destruct (hub_next_wf _ _ _ _ _ _ W0 E2) as [W1 [C1 _]].
      destruct (refresh_bayes_wf _ _ _ _ _ W1 E) as [W2 C2].
      assert (Hsz1 := size_mono _ _ _ C2 Hsz).
      assert (M0 : h_max h0 = h_max h) by apply C0. assert (M1 : h_max h1 = h_max h0) by apply C1.
      destruct (trie_hub_next _ _ _ _ _ _ _ W0 T0 E2) as (ctxs1 & w' & T1 & X1 & _); [lia|].
      destruct (IH lms0 h1 ctxs1 s1 h' W1 T1 E) as (ctxs2 & T2 & X2); [lia|].
      exists ctxs2. split; auto. eapply extends_trans; eauto.
  Qed.

  Lemma update_comps_evolve (Hl : learning = true) s ws : forall idx lms syms n r lms',
    update_comps ops s idx ws lms syms n = Ok (r, lms') -> evolve lms lms'.
  Proof.
    induction ws as [|w ws IH]; intros idx lms syms n r lms'; simpl.
    - intros [= _ <-]. apply evolve_refl.
    - destruct lms as [|m t]; [discriminate|]. intros E.
      apply bind_Ok in E. destruct E as [[ok m'] [E1 E]].
      assert (reach m m') by (apply reach_one; eapply step_update; eauto).
      destruct ok.
      + apply bind_Ok in E. destruct E as [[r2 t'] [E2 E]]. injection E as _ <-. constructor; eauto.
      + injection E as _ <-. constructor; auto. apply evolve_refl.
  Qed.

  (** Learning leaves the component states of the walked continuations right, and always finds the
      links it expects. *)
  Lemma trie_verify syms : forall lms0 h ctxs s r h',
    hwf h -> trie lms0 h ctxs -> 0 <= s -> verify_states ops h s syms = Ok (r, h') ->
    trie lms0 h' ctxs /\ r = true.
  Proof.
    induction syms as [|c t IH]; intros lms0 h ctxs s r h' W T Hs0; simpl.
    - intros [= <- <-]. auto.
    - intros E. apply bind_Ok in E. destruct E as [x [E1 E]].
      destruct (Z.ltb_spec (hs_next x c) 0); [injection E as <- <-; auto|].
      apply bind_Ok in E. destruct E as [[states lms'] [E2 E]].
      apply bind_Ok in E. destruct E as [ns [E3 E]].
      apply vgetZ_Ok in E1. destruct E1 as [_ E1].
      destruct (trie_ctx _ _ _ _ _ T E1) as [w Hw].
      unfold hs_next in *. destruct (assoc c (h_next x)) as [j|] eqn:Ej; [|lia].
      apply assoc_In in Ej as Hin. destruct (t_next _ _ _ T _ _ _ _ _ E1 Hw Hin) as (J1 & J2 & J3).
      apply vgetZ_Ok in E3. destruct E3 as [_ E3]. cbn [set_lms hs] in E3.
      assert (Hj : (0 < Z.to_nat j)%nat) by lia.
      destruct (t_prev _ _ _ T _ _ _ Hj E3 J3) as (y & ps & P1 & P2 & P3 & P4 & P5 & P6).
      apply app_inj_tail in P5. destruct P5 as [P5 P5']. subst y.
      assert (Ep : Z.to_nat (h_prev ns) = Z.to_nat s).
      { apply (proj1 (NoDup_nth_error ctxs) (t_nodup _ _ _ T)).
        - eapply nth_error_Some_lt; eauto.
        - congruence. }
      assert (Epz : h_prev ns = s) by lia. rewrite <- P5', Epz, !Z.eqb_refl in E. simpl in E.
      assert (Ev := comps_next_evolve _ _ _ _ _ _ E2).
      destruct (comps_next_len _ _ _ _ _ _ _ E2) as [L1 L2].
      match type of E with verify_states ops ?a _ _ = _ => assert (Wn : hwf a); [|refine (IH _ _ _ _ _ _ Wn _ _ E); [|lia]] end.
      { assert (W' := set_lms_wf h lms' L2 W).
        destruct W' as [W1 W2 W3 W4 W5]. simpl in *.
        constructor; simpl; rewrite ?upd_length; auto.
        intros s' Hs'. apply in_upd in Hs'. destruct Hs' as [->|Hs']; auto.
        assert (Hns := W5 _ (nth_error_In _ _ E3)).
        destruct Hns. constructor; simpl; auto; try congruence. rewrite overwrite_length; auto. }
      { refine (trie_upd lms0 (set_lms h lms') ctxs (Z.to_nat j) ns _ _ E3 _ _ _ _);
          [apply trie_set_lms; assumption|simpl; congruence|simpl; congruence|reflexivity|].
        cbn [set_lms h_lms]. intros Htr k m x' Hk Hx'. rewrite J3 in Hx'. injection Hx' as <-.
        destruct (evolve_nth _ _ _ _ Ev Hk) as [m0 [K0 R0]].
        assert (Hov : overwrite (h_models ns) states = states).
        { apply overwrite_same. rewrite L1. apply (ok_models _ _ _ _ (wf_states _ W _ (nth_error_In _ _ E3))). }
        unfold hs_model. simpl. rewrite Hov.
        destruct (nth_error states k) as [u|] eqn:Eu.
        2:{ apply nth_error_None in Eu. apply nth_error_Some_lt in K0. lia. }
        destruct (comps_next_nth _ _ _ _ _ _ _ _ E2 Eu) as (m1 & m2 & D1 & D2 & D3). simpl in D3.
        assert (m1 = m0) by congruence. assert (m2 = m) by congruence. subst m1 m2.
        destruct (evolve_nth _ _ _ _ (t_evolved _ _ _ T) K0) as [mi [Hmi Ri]].
        eapply settled_snoc; [|exact Ri|exact (t_comps _ _ _ T Htr k m0 _ x w K0 E1 Hw)|exact D3].
        pose proof (t_rep _ _ _ T Htr) as A9. rewrite Forall_forall in A9. apply A9. eapply nth_error_In; eauto. }
  Qed.

  Lemma trie_update (Hl : learning = true) lms0 h ctxs s syms n r h' :
    hwf h -> trie lms0 h ctxs -> hub_update ops h s syms n = Ok (r, h') ->
    Z.of_nat (length (hs h')) < h_max h ->
    exists ctxs', trie lms0 h' ctxs' /\ extends ctxs ctxs'.
  Proof.
    intros W T E Hsz. unfold hub_update in E.
    apply bind_Ok in E. destruct E as [h1 [E1 E]].
    destruct (ensure_states_wf _ _ _ _ _ W E1) as [W1 C1].
    apply bind_Ok in E. destruct E as [h2 [E2 E]].
    assert (WC2 : hwf h2 /\ same_config h1 h2).
    { destruct (0 <? h_bayes h)%nat.
      - eapply refresh_bayes_wf; eauto.
      - injection E2 as <-. auto using same_config_refl. }
    destruct WC2 as [W2 C2].
    assert (M1 : h_max h1 = h_max h) by apply C1. assert (M2 : h_max h2 = h_max h1) by apply C2.
    assert (S12 : (length (hs h1) <= length (hs h2))%nat) by apply C2.
    assert (S2 : (length (hs h2) <= length (hs h'))%nat).
    { destruct (in_range h s); [|injection E as _ <-; auto].
      apply bind_Ok in E. destruct E as [x [E3 E]].
      apply bind_Ok in E. destruct E as [[ok1 lms'] [E4 E]].
      apply update_comps_len in E4. assert (W3 := set_lms_wf h2 lms' E4 W2).
      destruct ok1; [|injection E as _ <-; auto].
      destruct (verify_states_wf _ _ _ _ _ _ W3 E) as [_ [_ L]]. rewrite L; auto. }
    destruct (trie_ensure _ _ _ _ _ _ W T E1) as (ctxs1 & T1 & X1); [lia|].
    assert (T2 : exists ctxs2, trie lms0 h2 ctxs2 /\ extends ctxs1 ctxs2).
    { destruct (0 <? h_bayes h)%nat.
      - eapply trie_refresh; [exact W1|exact T1|exact E2|lia].
      - injection E2 as <-. exists ctxs1; auto using extends_refl. }
    destruct T2 as (ctxs2 & T2 & X2). assert (X := extends_trans _ _ _ X1 X2).
    destruct (in_range h s) eqn:Er; [|injection E as _ <-; eauto].
    apply bind_Ok in E. destruct E as [x [E3 E]].
    apply bind_Ok in E. destruct E as [[ok1 lms'] [E4 E]].
    assert (L4 := update_comps_len _ _ _ _ _ _ _ _ _ E4).
    apply (update_comps_evolve Hl) in E4.
    assert (T3 := trie_set_lms _ _ _ _ T2 E4). assert (W3 := set_lms_wf h2 lms' L4 W2).
    destruct ok1; [|injection E as _ <-; eauto].
    unfold in_range in Er.
    assert (Hs0 : 0 <= s) by lia. destruct (trie_verify _ _ _ _ _ _ _ W3 T3 Hs0 E) as [T4 _]. eauto.
  Qed.

  Lemma trie_step lms0 h ctxs o r h' :
    hwf h -> trie lms0 h ctxs -> (learning = true \/ is_query o = true) ->
    hub_step ops h o = Ok (r, h') -> Z.of_nat (length (hs h')) < h_max h ->
    exists ctxs', trie lms0 h' ctxs' /\ extends ctxs ctxs'.
  Proof.
    intros W T Hl E Hsz. destruct o; simpl in E; apply bind_Ok in E.
    - destruct E as [[x h1] [E1 E]]. injection E as _ <-.
      destruct (trie_hub_next _ _ _ _ _ _ _ W T E1 Hsz) as (ctxs' & w & A & B & _). eauto.
    - destruct E as [[x h1] [E1 E]]. injection E as _ <-. unfold hub_context in E1.
      eapply trie_context_any; eauto. destruct (Z.ltb_spec init 0); lia.
    - destruct E as [x [E1 E]]. injection E as _ <-. eauto using extends_refl.
    - destruct E as [[x h1] [E1 E]]. injection E as _ <-.
      exists ctxs. split; [eapply trie_extract; eauto|apply extends_refl].
    - destruct E as [[x h1] [E1 E]]. injection E as _ <-.
      destruct Hl as [Hl|Hl]; [|discriminate]. eapply trie_update; eauto.
  Qed.

  Lemma trie_run l : forall lms0 h ctxs h',
    hwf h -> trie lms0 h ctxs -> (learning = true \/ forallb is_query l = true) ->
    hub_run ops h l = Ok h' -> Z.of_nat (length (hs h')) < h_max h ->
    exists ctxs', trie lms0 h' ctxs' /\ extends ctxs ctxs'.
  Proof.
    induction l as [|o l IH]; intros lms0 h ctxs h' W T Hl; simpl.
    - intros [= <-] _. eauto using extends_refl.
    - intros E Hsz. apply bind_Ok in E. destruct E as [[r h1] [E1 E2]].
      destruct (hub_step_wf _ _ _ _ _ W E1) as [W1 C1].
      destruct (hub_run_wf _ _ _ _ W1 E2) as [W2 C2].
      assert (Hsz1 := size_mono _ _ _ C2 Hsz). assert (M1 : h_max h1 = h_max h) by apply C1.
      assert (Hl1 : learning = true \/ is_query o = true).
      { destruct Hl as [Hl|Hl]; auto. simpl in Hl. apply andb_prop in Hl; tauto. }
      assert (Hl2 : learning = true \/ forallb is_query l = true).
      { destruct Hl as [Hl|Hl]; auto. simpl in Hl. apply andb_prop in Hl; tauto. }
      destruct (trie_step _ _ _ _ _ _ W T Hl1 E1 Hsz1) as (ctxs1 & T1 & X1).
      destruct (IH _ _ _ _ W1 T1 Hl2 E2) as (ctxs2 & T2 & X2); [lia|].
      exists ctxs2. split; auto. eapply extends_trans; eauto.
  Qed.

  Lemma trie_init lms cfg h :
    (track = true -> Forall (repeatable ops learning) lms) -> Forall (scores_total ops) lms ->
    initialize_models ops lms cfg = Ok h -> trie lms h [[]].
  Proof.
    intros Hr Ht E. destruct (initialize_ok _ _ _ _ E) as (W & L & El & _ & _ & Eh & _).
    constructor; rewrite ?Eh, ?El; auto.
    - constructor; [intros []|constructor].
    - intros s [= <-]. auto.
    - intros [|i] s x Hi; [lia|]. destruct i; discriminate.
    - intros [|i] s x c j; [|destruct i; discriminate]. intros [= <-] _ [].
    - intros Htr k m [|i] s x Hk; [|destruct i; discriminate]. intros [= <-] [= <-]. specialize (Hr Htr).
      intros m2 R2. exists m2. simpl. unfold hs_model. simpl.
      rewrite (map_nth_error (c_start ops) k lms Hk). f_equal. f_equal.
      rewrite Forall_forall in Hr. apply (rep_start _ _ _ (Hr _ (nth_error_In _ _ Hk))). auto.
    - apply evolve_refl.
  Qed.

  (** * Bayesian histories *)
  Definition probs_settled (m : M) (x : list Z) (ps : list (car F)) : Prop :=
    forall m2, reach m m2 -> gives_probs ops m2 x ps.

  Lemma probs_settled_reach m m2 x ps : probs_settled m x ps -> reach m m2 -> probs_settled m2 x ps.
  Proof. intros H R m3 R3. apply H. eapply reach_trans; eauto. Qed.

  Lemma firstn_snoc_lt A (l : list A) i x : (i <= length l)%nat -> firstn i (l ++ [x]) = firstn i l.
  Proof. intros H. rewrite firstn_app. replace (i - length l)%nat with 0%nat by lia. simpl. apply app_nil_r. Qed.

  Lemma probs_settled_snoc m0 m x ps t c p m1 :
    repeatable_scores ops learning m0 -> reach m0 m -> settled m x t -> probs_settled m x ps ->
    c_score ops m t c = Ok (p, m1) -> probs_settled m1 (x ++ [c]) (ps ++ [p]).
  Proof.
    intros Rep R0 St Ps E m2 R2.
    assert (R1 : reach m m1) by (apply reach_one; eapply step_score; eauto).
    assert (R12 := reach_trans _ _ _ R1 R2).
    destruct (Ps m2 R12) as [PL PP]. split; [rewrite !app_length; simpl; lia|].
    intros i d q Hd Hq. destruct (Nat.lt_ge_cases i (length x)).
    - rewrite nth_error_app1 in Hd, Hq by lia. rewrite firstn_snoc_lt by lia. eauto.
    - rewrite nth_error_app2 in Hd, Hq by lia.
      destruct (i - length x)%nat as [|z] eqn:Ei; [|destruct z; discriminate].
      replace (i - length ps)%nat with 0%nat in Hq by lia. injection Hd as <-. injection Hq as <-.
      rewrite firstn_snoc_lt by lia. rewrite firstn_all2 by lia. unfold c_prob.
      destruct (St m2 R12) as [m3 E3]. rewrite E3. simpl.
      apply (Rep m t c p m1 m3 R0 E). eapply reach_trans; [exact R2|]. eapply c_walk_reach; eauto.
  Qed.

  Definition hist_row (j : nat) (ps : list (car F)) : list (car F) := last_n j (repeat f1 j ++ ps).

  Definition hist_at h (ctxs : list (list Z)) (i : nat) : Prop :=
    forall s x k m, nth_error (hs h) i = Some s -> nth_error ctxs i = Some x ->
      nth_error (h_lms h) k = Some m ->
      exists ps, probs_settled m x ps /\
        nth_error (h_hist s) k = Some (hist_row (h_bayes h) ps) /\
        nth_error (h_sum s) k = Some (fprod (hist_row (h_bayes h) ps)).

  Definition hist_ok (lms0 : list M) h (ctxs : list (list Z)) : Prop :=
    track = true /\ Forall (repeatable_scores ops learning) lms0 /\ (0 < h_bayes h)%nat /\
    forall i, hist_at h ctxs i.

  Lemma hist_at_lms h ctxs i lms : hist_at h ctxs i -> evolve (h_lms h) lms -> hist_at (set_lms h lms) ctxs i.
  Proof.
    intros H Ev s x k m Hs Hx Hm. cbn [set_lms hs h_lms h_bayes] in *.
    destruct (evolve_nth _ _ _ _ Ev Hm) as [m0 [H0 R]].
    destruct (H s x k m0 Hs Hx H0) as (ps & A & B & C). exists ps. split; auto.
    eapply probs_settled_reach; eauto.
  Qed.

  Lemma hist_ok_lms lms0 h ctxs lms :
    hist_ok lms0 h ctxs -> evolve (h_lms h) lms -> hist_ok lms0 (set_lms h lms) ctxs.
  Proof. intros (A0 & A & B & C) Ev. repeat split; auto. intros i. apply hist_at_lms; auto. Qed.

  (** Scoring a state's symbol in its predecessor gives it the right history. *)
  Lemma hist_bayes lms0 h ctxs i h' :
    hwf h -> trie lms0 h ctxs -> track = true -> Forall (repeatable_scores ops learning) lms0 ->
    (0 < h_bayes h)%nat -> 0 <= i ->
    (forall p s, nth_error (hs h) (Z.to_nat i) = Some s -> 0 <= h_prev s -> p = Z.to_nat (h_prev s) ->
       hist_at h ctxs p) ->
    (i = 0 -> hist_at h ctxs 0) ->
    update_bayesian_history ops h i = Ok h' ->
    hist_at h' ctxs (Z.to_nat i) /\ (forall j, hist_at h ctxs j -> hist_at h' ctxs j) /\
    h_bayes h' = h_bayes h.
  Proof.
    intros W T Htr Hrs Hb Hi Hp H0 E. unfold update_bayesian_history in E.
    destruct ((0 <=? i) && (0 <? h_bayes h)%nat) eqn:Eb; [|lia].
    apply bind_Ok in E. destruct E as [s [E1 E]]. apply vgetZ_Ok in E1. destruct E1 as [_ E1].
    destruct (trie_ctx _ _ _ _ _ T E1) as [x Hx].
    destruct (Nat.eq_dec (Z.to_nat i) 0) as [Ei|Ei].
    { rewrite Ei in E1. destruct (t_root_state _ _ _ T _ E1) as [P _]. rewrite P in E. simpl in E.
      injection E as <-. rewrite Ei. split; [apply H0; lia|]. auto. }
    destruct (t_prev _ _ _ T (Z.to_nat i) s x ltac:(lia) E1 Hx) as (y & ps & P1 & P2 & P3 & P4 & P5 & P6).
    destruct (Z.leb_spec 0 (h_prev s)); [|lia].
    apply bind_Ok in E. destruct E as [ps' [E2 E]]. apply vgetZ_Ok in E2. destruct E2 as [_ E2].
    assert (ps' = ps) by congruence. subst ps'.
    apply bind_Ok in E. destruct E as [[probs lms'] [E3 E]]. injection E as <-.
    assert (Ev := comps_score_evolve _ _ _ _ _ _ E3).
    destruct (comps_score_len _ _ _ _ _ _ _ E3) as [L1 L2].
    assert (Main : forall sx, nth_error (hs h) (Z.to_nat i) = Some sx -> hist_at
        (set_lms (set_hs h (upd (hs h) (Z.to_nat i)
              (HState (h_models s) (h_prev s) (h_next s) (h_sym s)
                         (shift_history probs (h_hist ps)) (history_sums probs (h_hist ps))))) lms') ctxs (Z.to_nat i)).
    { intros _ _ s' x' k m Hs' Hx' Hm. cbn [set_lms set_hs hs h_lms h_bayes] in *.
      rewrite Hx in Hx'. injection Hx' as <-.
      rewrite nth_error_upd_eq in Hs' by (eapply nth_error_Some_lt; eauto). injection Hs' as <-.
      destruct (evolve_nth _ _ _ _ Ev Hm) as [m0 [K0 R0]].
      destruct (Hp _ s E1 P1 eq_refl ps y k m0 P4 P3 K0) as (qs & Q1 & Q2 & Q3).
      destruct (nth_error probs k) as [p|] eqn:Ep.
      2:{ apply nth_error_None in Ep. apply nth_error_Some_lt in K0. lia. }
      destruct (comps_score_nth _ _ _ _ _ _ _ _ E3 Ep) as (m1 & m2 & D1 & D2 & D3). simpl in D3.
      assert (m1 = m0) by congruence. assert (m2 = m) by congruence. subst m1 m2.
      destruct (evolve_nth _ _ _ _ (t_evolved _ _ _ T) K0) as [mi [Hmi Ri]].
      exists (qs ++ [p]). split.
      - rewrite P5. eapply probs_settled_snoc; [|exact Ri|exact (t_comps _ _ _ T Htr k m0 _ ps y K0 P4 P3)|exact Q1|exact D3].
        rewrite Forall_forall in Hrs. apply Hrs. eapply nth_error_In; eauto.
      - assert (Er : hist_row (h_bayes h) (qs ++ [p]) = tl (hist_row (h_bayes h) qs) ++ [p]).
        { unfold hist_row. rewrite app_assoc. apply last_n_snoc; [lia|].
          rewrite app_length, repeat_length. lia. }
        assert (Ec : nth_error (combine probs (h_hist ps)) k = Some (p, hist_row (h_bayes h) qs)).
        { clear -Ep Q2. revert k Ep Q2. generalize (h_hist ps) as l2.
          induction probs as [|a l IH]; intros [|b l2] [|k]; simpl; try discriminate; auto.
          intros [= <-] [= <-]; auto. }
        simpl. unfold shift_history, history_sums. rewrite Er. split.
        + rewrite (map_nth_error _ _ _ Ec). reflexivity.
        + rewrite (map_nth_error _ _ _ Ec). f_equal. apply fold_mul_prod. }
    specialize (Main s E1). split; auto. split; auto.
    intros j Hj. destruct (Nat.eq_dec j (Z.to_nat i)) as [->|Hne]; auto.
    intros s' x' k m Hs' Hx' Hm. cbn [set_lms set_hs hs h_lms h_bayes] in *.
    rewrite nth_error_upd_neq in Hs' by auto.
    destruct (evolve_nth _ _ _ _ Ev Hm) as [m0 [K0 R0]].
    destruct (Hj s' x' k m0 Hs' Hx' K0) as (qs & Q1 & Q2 & Q3). exists qs. split; auto.
    eapply probs_settled_reach; eauto.
  Qed.

  Lemma hist_next lms0 h ctxs s c r h' :
    hwf h -> trie lms0 h ctxs -> hist_ok lms0 h ctxs -> hub_next ops h s c = Ok (r, h') ->
    Z.of_nat (length (hs h')) < h_max h ->
    exists ctxs', trie lms0 h' ctxs' /\ extends ctxs ctxs' /\ hist_ok lms0 h' ctxs'.
  Proof.
    intros W T (Htr & Hrs & Hb & Hh) E Hsz.
    destruct (hub_next_cases _ _ _ _ _ _ _ W T E Hsz)
      as (st & x & w & Hw & Hx & Hst & Hst0 & [(-> & -> & D)|(Hc & Ea & -> & states & lms' & E2 & E4)]).
    { exists ctxs. split; auto. split; [apply extends_refl|]. split; auto. }
    assert (T3 := grown_trie lms0 h ctxs st x w c states lms' T Hst0 Hst Hx Hc Ea E2).
    assert (Ev := comps_next_evolve _ _ _ _ _ _ E2).
    destruct (comps_next_len _ _ _ _ _ _ _ E2) as [L1 L2].
    assert (L := t_len _ _ _ T). assert (Hp := nth_error_Some_lt _ _ _ _ Hst).
    assert (Hsz0 : Z.of_nat (length (hs h)) < h_max h).
    { pose proof (hub_next_wf _ _ _ _ _ _ W E) as [_ [C _]]. eapply size_mono; eauto. }
    assert (W3 : hwf (grown h st x c states lms')).
    { assert (Hx' := wf_states _ W _ (nth_error_In _ _ Hst)).
      destruct W as [W1 W2 W4 W5 W6].
      constructor; unfold grown; cbn [hs h_max h_last h_lms h_bayes]; rewrite ?upd_length, ?app_length; simpl; try lia.
      intros s' Hs'. rewrite L2. apply in_upd in Hs'. destruct Hs' as [->|Hs'].
      - destruct Hx' as [O1 O2 O3 O4 O5 O6]. constructor; simpl; auto; try lia.
        intros d j Hj. rewrite Ea in Hj. apply in_app_or in Hj. destruct Hj as [Hj|[Hj|[]]].
        + specialize (O3 _ _ Hj). lia.
        + injection Hj as <- <-. lia.
      - apply in_app_or in Hs'. destruct Hs' as [Hs'|[<-|[]]].
        + eapply hsok_mono; [|apply W6; auto]; lia.
        + apply new_hstate_ok; auto; lia. }
    assert (Old : forall i, (i < length (hs h))%nat -> hist_at (grown h st x c states lms') (ctxs ++ [w ++ [c]]) i).
    { intros i Hi s' x' k m Hs' Hx' Hm. unfold grown in Hs', Hm. cbn [hs h_lms] in Hs', Hm.
      change (h_bayes (grown h st x c states lms')) with (h_bayes h).
      rewrite nth_error_app1 in Hx' by lia.
      destruct (evolve_nth _ _ _ _ Ev Hm) as [m0 [K0 R0]].
      assert (exists s0, nth_error (hs h) i = Some s0 /\ h_hist s' = h_hist s0 /\ h_sum s' = h_sum s0) as (s0 & A1 & A2 & A3).
      { rewrite nth_error_upd, app_length in Hs'. simpl in Hs'.
        destruct (Nat.eqb_spec (Z.to_nat st) i) as [<-|]; simpl in Hs'.
        - destruct (Nat.ltb_spec (Z.to_nat st) (length (hs h) + 1)); [|lia]. injection Hs' as <-.
          exists x. auto.
        - rewrite nth_error_app1 in Hs' by lia. eauto. }
      destruct (Hh i s0 x' k m0 A1 Hx' K0) as (qs & Q1 & Q2 & Q3). exists qs. rewrite A2, A3. split; auto.
      eapply probs_settled_reach; eauto. }
    destruct (hist_bayes lms0 _ _ (Z.of_nat (length (hs h))) h' W3 T3 Htr Hrs Hb ltac:(lia)) as (B1 & B2 & B3).
    - intros p s0 Hs0 Hpr ->. rewrite Nat2Z.id in Hs0.
      unfold grown in Hs0. cbn [hs] in Hs0. rewrite nth_error_upd_neq in Hs0 by lia.
      rewrite nth_error_app2, Nat.sub_diag in Hs0 by lia. injection Hs0 as <-. simpl. apply Old. lia.
    - intros H0. pose proof (wf_nonempty _ W). lia.
    - exact E4.
    - exists (ctxs ++ [w ++ [c]]). split; [eapply trie_bayes; eauto|]. split; [eexists; reflexivity|].
      split; auto. split; auto. split; [rewrite B3; exact Hb|].
      intros i. destruct (Nat.lt_trichotomy i (length (hs h))) as [Hi|[->|Hi]].
      + apply B2, Old; auto.
      + rewrite Nat2Z.id in B1. exact B1.
      + intros s' x' k m _ Hx'. apply nth_error_Some_lt in Hx'. rewrite app_length in Hx'. simpl in Hx'. lia.
  Qed.

  Lemma hist_context ctx : forall lms0 h ctxs s r h',
    hwf h -> trie lms0 h ctxs -> hist_ok lms0 h ctxs -> 0 <= s ->
    hub_context_loop ops h s ctx = Ok (r, h') -> Z.of_nat (length (hs h')) < h_max h ->
    exists ctxs', trie lms0 h' ctxs' /\ extends ctxs ctxs' /\ hist_ok lms0 h' ctxs'.
  Proof.
    induction ctx as [|c t IH]; intros lms0 h ctxs s r h' W T H Hs; simpl.
    - intros [= <- <-] Hsz. exists ctxs. auto using extends_refl.
    - intros E Hsz. apply bind_Ok in E. destruct E as [[s1 h1] [E1 E2]].
      destruct (hub_next_wf _ _ _ _ _ _ W E1) as [W1 [C1 _]].
      assert (Hs1 : 0 <= (if s1 <? 0 then 0 else s1)) by (destruct (Z.ltb_spec s1 0); lia).
      destruct (hub_context_loop_wf ops _ _ _ _ _ W1 Hs1 E2) as [W2 [C2 _]].
      assert (Hsz1 := size_mono _ _ _ C2 Hsz).
      destruct (hist_next _ _ _ _ _ _ _ W T H E1 Hsz1) as (ctxs1 & T1 & X1 & H1).
      assert (Hm : h_max h1 = h_max h) by apply C1.
      destruct (IH lms0 h1 ctxs1 _ r h' W1 T1 H1 Hs1 E2) as (ctxs2 & T2 & X2 & H2); [lia|].
      exists ctxs2. split; auto. split; auto. eapply extends_trans; eauto.
  Qed.

  Lemma hist_ensure syms : forall lms0 h ctxs s h',
    hwf h -> trie lms0 h ctxs -> hist_ok lms0 h ctxs -> ensure_states ops h s syms = Ok h' ->
    Z.of_nat (length (hs h')) < h_max h ->
    exists ctxs', trie lms0 h' ctxs' /\ extends ctxs ctxs' /\ hist_ok lms0 h' ctxs'.
  Proof.
    induction syms as [|c t IH]; intros lms0 h ctxs s h' W T H; simpl.
    - intros [= <-] _. exists ctxs; auto using extends_refl.
    - intros E Hsz. apply bind_Ok in E. destruct E as [[s1 h1] [E1 E2]].
      destruct (hub_next_wf _ _ _ _ _ _ W E1) as [W1 [C1 _]].
      destruct (ensure_states_wf _ _ _ _ _ W1 E2) as [W2 C2].
      assert (Hsz1 := size_mono _ _ _ C2 Hsz).
      destruct (hist_next _ _ _ _ _ _ _ W T H E1 Hsz1) as (ctxs1 & T1 & X1 & H1).
      assert (Hm : h_max h1 = h_max h) by apply C1.
      destruct (IH lms0 h1 ctxs1 s1 h' W1 T1 H1 E2) as (ctxs2 & T2 & X2 & H2); [lia|].
      exists ctxs2. split; auto. split; auto. eapply extends_trans; eauto.
  Qed.

  Lemma hist_refresh_next nexts : forall lms0 h ctxs h',
    hwf h -> trie lms0 h ctxs -> hist_ok lms0 h ctxs -> (forall c i, In (c, i) nexts -> 0 <= i) ->
    refresh_next ops h nexts = Ok h' -> trie lms0 h' ctxs /\ hist_ok lms0 h' ctxs.
  Proof.
    induction nexts as [|[c i] t IH]; intros lms0 h ctxs h' W T H Hn; simpl.
    - intros [= <-]; auto.
    - intros E. apply bind_Ok in E. destruct E as [h1 [E1 E2]].
      destruct (update_bayes_wf _ _ _ _ W E1) as [W1 _].
      destruct H as (Htr & Hrs & Hb & Hh).
      assert (Hi : 0 <= i) by (eapply Hn; simpl; eauto).
      destruct (hist_bayes lms0 h ctxs i h1 W T Htr Hrs Hb Hi (fun p _ _ _ _ => Hh p) (fun _ => Hh _) E1) as (B1 & B2 & B3).
      eapply IH; [exact W1|eapply trie_bayes; eauto| |intros c' i' Hin; eapply Hn; simpl; eauto|exact E2].
      split; auto. split; auto. split; [rewrite B3; auto|auto].
  Qed.

  Lemma hist_refresh syms : forall lms0 h ctxs s h',
    hwf h -> trie lms0 h ctxs -> hist_ok lms0 h ctxs -> refresh_bayes ops h s syms = Ok h' ->
    Z.of_nat (length (hs h')) < h_max h ->
    exists ctxs', trie lms0 h' ctxs' /\ extends ctxs ctxs' /\ hist_ok lms0 h' ctxs'.
  Proof.
    induction syms as [|c t IH]; intros lms0 h ctxs s h' W T H; simpl.
    - intros [= <-] _. exists ctxs; auto using extends_refl.
    - intros E Hsz. apply bind_Ok in E. destruct E as [x [E0 E]].
      apply bind_Ok in E. destruct E as [h0 [E1 E]].
      apply bind_Ok in E. destruct E as [[s1 h1] [E2 E]].
      destruct (refresh_next_wf _ _ _ _ W E1) as [W0 [C0 L0]].
      assert (Hx := wf_states _ W _ (vgetZ_In _ _ _ _ E0)).
      destruct (hist_refresh_next _ _ _ _ _ W T H (fun c i Hin => proj1 (ok_next _ _ _ _ Hx c i Hin)) E1) as [T0 H0].
      destruct (hub_next_wf _ _ _ _ _ _ W0 E2) as [W1 [C1 _]].
      destruct (refresh_bayes_wf _ _ _ _ _ W1 E) as [W2 C2].
      assert (Hsz1 := size_mono _ _ _ C2 Hsz).
      assert (M0 : h_max h0 = h_max h) by apply C0. assert (M1 : h_max h1 = h_max h0) by apply C1.
      destruct (hist_next _ _ _ _ _ _ _ W0 T0 H0 E2) as (ctxs1 & T1 & X1 & H1); [lia|].
      destruct (IH lms0 h1 ctxs1 s1 h' W1 T1 H1 E) as (ctxs2 & T2 & X2 & H2); [lia|].
      exists ctxs2. split; auto. split; auto. eapply extends_trans; eauto.
  Qed.

  Lemma verify_same_hist syms : forall h s r h',
    verify_states ops h s syms = Ok (r, h') ->
    evolve (h_lms h) (h_lms h') /\ h_bayes h' = h_bayes h /\
    forall i t', nth_error (hs h') i = Some t' -> exists t, nth_error (hs h) i = Some t /\
      h_hist t' = h_hist t /\ h_sum t' = h_sum t.
  Proof.
    induction syms as [|c t IH]; intros h s r h'; simpl.
    - intros [= _ <-]. split; [apply evolve_refl|]. split; eauto.
    - intros E. apply bind_Ok in E. destruct E as [x [E1 E]].
      destruct (hs_next x c <? 0).
      { injection E as _ <-. split; [apply evolve_refl|]. split; eauto. }
      apply bind_Ok in E. destruct E as [[states lms'] [E2 E]].
      apply bind_Ok in E. destruct E as [ns [E3 E]].
      assert (Ev := comps_next_evolve _ _ _ _ _ _ E2).
      destruct ((h_prev ns =? s) && (h_sym ns =? c)).
      + destruct (IH _ _ _ _ E) as (A & B & C). cbn [set_lms set_hs hs h_lms h_bayes] in *.
        split; [eapply evolve_trans; eauto|]. split; auto.
        intros i t' Ht. destruct (C _ _ Ht) as (t0 & T1 & T2 & T3).
        apply vgetZ_Ok in E3. destruct E3 as [_ E3].
        rewrite nth_error_upd in T1. destruct (Nat.eqb_spec (Z.to_nat (hs_next x c)) i) as [<-|]; simpl in T1; eauto.
        destruct (_ <? _)%nat; eauto. injection T1 as <-. exists ns. simpl in *. auto.
      + injection E as _ <-. cbn [set_lms set_hs hs h_lms h_bayes] in *. split; [exact Ev|]. split; eauto.
  Qed.

  Lemma hist_update (Hl : learning = true) lms0 h ctxs s syms n r h' :
    hwf h -> trie lms0 h ctxs -> hist_ok lms0 h ctxs -> hub_update ops h s syms n = Ok (r, h') ->
    Z.of_nat (length (hs h')) < h_max h ->
    exists ctxs', trie lms0 h' ctxs' /\ extends ctxs ctxs' /\ hist_ok lms0 h' ctxs'.
  Proof.
    intros W T H E Hsz. unfold hub_update in E.
    apply bind_Ok in E. destruct E as [h1 [E1 E]].
    destruct (ensure_states_wf _ _ _ _ _ W E1) as [W1 C1].
    apply bind_Ok in E. destruct E as [h2 [E2 E]].
    assert (WC2 : hwf h2 /\ same_config h1 h2).
    { destruct (0 <? h_bayes h)%nat.
      - eapply refresh_bayes_wf; eauto.
      - injection E2 as <-. auto using same_config_refl. }
    destruct WC2 as [W2 C2].
    assert (M1 : h_max h1 = h_max h) by apply C1. assert (M2 : h_max h2 = h_max h1) by apply C2.
    assert (S12 : (length (hs h1) <= length (hs h2))%nat) by apply C2.
    assert (S2 : (length (hs h2) <= length (hs h'))%nat).
    { destruct (in_range h s); [|injection E as _ <-; auto].
      apply bind_Ok in E. destruct E as [x [E3 E]].
      apply bind_Ok in E. destruct E as [[ok1 lms'] [E4 E]].
      apply update_comps_len in E4. assert (W3 := set_lms_wf h2 lms' E4 W2).
      destruct ok1; [|injection E as _ <-; auto].
      destruct (verify_states_wf _ _ _ _ _ _ W3 E) as [_ [_ L]]. rewrite L; auto. }
    destruct (hist_ensure _ _ _ _ _ _ W T H E1) as (ctxs1 & T1 & X1 & H1); [lia|].
    assert (T2 : exists ctxs2, trie lms0 h2 ctxs2 /\ extends ctxs1 ctxs2 /\ hist_ok lms0 h2 ctxs2).
    { destruct (0 <? h_bayes h)%nat.
      - eapply hist_refresh; [exact W1|exact T1|exact H1|exact E2|lia].
      - injection E2 as <-. exists ctxs1; auto using extends_refl. }
    destruct T2 as (ctxs2 & T2 & X2 & H2). assert (X := extends_trans _ _ _ X1 X2).
    destruct (in_range h s) eqn:Er; [|injection E as _ <-; eauto].
    apply bind_Ok in E. destruct E as [x [E3 E]].
    apply bind_Ok in E. destruct E as [[ok1 lms'] [E4 E]].
    assert (L4 := update_comps_len _ _ _ _ _ _ _ _ _ E4).
    apply (update_comps_evolve Hl) in E4.
    assert (T3 := trie_set_lms _ _ _ _ T2 E4). assert (W3 := set_lms_wf h2 lms' L4 W2).
    assert (H3 := hist_ok_lms _ _ _ _ H2 E4).
    destruct ok1; [|injection E as _ <-; eauto].
    unfold in_range in Er. assert (Hs0 : 0 <= s) by lia.
    destruct (trie_verify _ _ _ _ _ _ _ W3 T3 Hs0 E) as [T4 _].
    destruct (verify_same_hist _ _ _ _ _ E) as (Ev & Eb & Hh).
    exists ctxs2. split; auto. split; auto. destruct H3 as (A0 & A & B & C).
    split; auto. split; auto. split; [rewrite Eb; auto|].
    intros i s' x' k m Hs' Hx' Hm. rewrite Eb.
    destruct (Hh _ _ Hs') as (t & D1 & D2 & D3). rewrite D2, D3.
    destruct (evolve_nth _ _ _ _ Ev Hm) as [m0 [K0 R0]].
    destruct (C i t x' k m0 D1 Hx' K0) as (qs & Q1 & Q2 & Q3). exists qs. split; auto.
    eapply probs_settled_reach; eauto.
  Qed.

  Lemma hist_step lms0 h ctxs o r h' :
    hwf h -> trie lms0 h ctxs -> hist_ok lms0 h ctxs -> (learning = true \/ is_query o = true) ->
    hub_step ops h o = Ok (r, h') -> Z.of_nat (length (hs h')) < h_max h ->
    exists ctxs', trie lms0 h' ctxs' /\ extends ctxs ctxs' /\ hist_ok lms0 h' ctxs'.
  Proof.
    intros W T H Hl E Hsz. destruct o; simpl in E; apply bind_Ok in E.
    - destruct E as [[x h1] [E1 E]]. injection E as _ <-. eapply hist_next; eauto.
    - destruct E as [[x h1] [E1 E]]. injection E as _ <-. unfold hub_context in E1.
      eapply hist_context; eauto. destruct (Z.ltb_spec init 0); lia.
    - destruct E as [x [E1 E]]. injection E as _ <-. eauto using extends_refl.
    - destruct E as [[x h1] [E1 E]]. injection E as _ <-.
      exists ctxs. split; [eapply trie_extract; eauto|]. split; [apply extends_refl|].
      destruct (hub_extract_wf _ _ _ _ _ W E1) as (_ & C & Eh & _).
      assert (Ev : evolve (h_lms h) (h_lms h1)).
      { clear -E1. unfold hub_extract in E1. destruct (negb _); [injection E1 as _ <-; apply evolve_refl|].
        apply bind_Ok in E1. destruct E1 as [y [E2 E]].
        destruct (length (h_weights h) <? 2)%nat.
        - destruct (h_lms h) as [|m t] eqn:El; [discriminate|].
          apply bind_Ok in E. destruct E as [[r1 m'] [E3 E]]. injection E as _ <-. simpl.
          constructor; [|apply evolve_refl]. apply reach_one. eapply step_extract; eauto.
        - apply bind_Ok in E. destruct E as [ws [E3 E]].
          apply bind_Ok in E. destruct E as [[r1 lms'] [E4 E]]. injection E as _ <-.
          simpl. eapply mix_loop_evolve; eauto. }
      destruct H as (A0 & A & B & D). split; auto. split; auto. assert (Eb : h_bayes h1 = h_bayes h) by apply C.
      split; [rewrite Eb; auto|]. intros i s' x' k m Hs' Hx' Hm. rewrite Eb. rewrite Eh in Hs'.
      destruct (evolve_nth _ _ _ _ Ev Hm) as [m0 [K0 R0]].
      destruct (D i s' x' k m0 Hs' Hx' K0) as (qs & Q1 & Q2 & Q3). exists qs. split; auto.
      eapply probs_settled_reach; eauto.
    - destruct E as [[x h1] [E1 E]]. injection E as _ <-.
      destruct Hl as [Hl|Hl]; [|discriminate]. eapply hist_update; eauto.
  Qed.

  Lemma hist_run l : forall lms0 h ctxs h',
    hwf h -> trie lms0 h ctxs -> hist_ok lms0 h ctxs -> (learning = true \/ forallb is_query l = true) ->
    hub_run ops h l = Ok h' -> Z.of_nat (length (hs h')) < h_max h ->
    exists ctxs', trie lms0 h' ctxs' /\ extends ctxs ctxs' /\ hist_ok lms0 h' ctxs'.
  Proof.
    induction l as [|o l IH]; intros lms0 h ctxs h' W T H Hl; simpl.
    - intros [= <-] _. eauto using extends_refl.
    - intros E Hsz. apply bind_Ok in E. destruct E as [[r h1] [E1 E2]].
      destruct (hub_step_wf _ _ _ _ _ W E1) as [W1 C1].
      destruct (hub_run_wf _ _ _ _ W1 E2) as [W2 C2].
      assert (Hsz1 := size_mono _ _ _ C2 Hsz). assert (M1 : h_max h1 = h_max h) by apply C1.
      assert (Hl1 : learning = true \/ is_query o = true).
      { destruct Hl as [Hl|Hl]; auto. simpl in Hl. apply andb_prop in Hl; tauto. }
      assert (Hl2 : learning = true \/ forallb is_query l = true).
      { destruct Hl as [Hl|Hl]; auto. simpl in Hl. apply andb_prop in Hl; tauto. }
      destruct (hist_step _ _ _ _ _ _ W T H Hl1 E1 Hsz1) as (ctxs1 & T1 & X1 & H1).
      destruct (IH _ _ _ _ W1 T1 H1 Hl2 E2) as (ctxs2 & T2 & X2 & H2); [lia|].
      exists ctxs2. split; auto. split; auto. eapply extends_trans; eauto.
  Qed.

  Lemma hist_init lms cfg h :
    track = true -> Forall (repeatable_scores ops learning) lms -> initialize_models ops lms cfg = Ok h ->
    (0 < h_bayes h)%nat -> hist_ok lms h [[]].
  Proof.
    intros Htr Hr E Hb. destruct (initialize_ok _ _ _ _ E) as (W & L & El & _ & _ & Eh & _).
    split; auto. split; auto. split; auto. intros [|i] s x k m; rewrite Eh, El.
    - intros [= <-] [= <-] Hk. exists [].
      split; [intros m2 _; split; auto; intros [|i]; discriminate|].
      assert (Er : hist_row (h_bayes h) [] = repeat f1 (h_bayes h)).
      { unfold hist_row. rewrite app_nil_r. apply last_n_all. apply repeat_length. }
      rewrite Er. simpl. destruct (Nat.ltb_spec 0 (h_bayes h)); [|lia]. rewrite map_length.
      apply nth_error_Some_lt in Hk. rewrite !nth_error_repeat by auto.
      rewrite fprod_ones. auto.
    - destruct i; discriminate.
  Qed.
End Trie.
