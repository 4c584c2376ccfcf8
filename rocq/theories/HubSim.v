(** Components whose behaviour is not affected by queries, where a component is taken as what can be
    observed of it: hubs of them repeat their answers (C40). *)
From Verif Require Import Base Field LmModel HubModel HubSpec HubProofs HubLive HubQuery.
Local Open Scope Z_scope.

Section Sim.
  Context {F : ofield} {M : Type}.
  Variable ops : comp_ops F M.
  Variable Inv : Z -> M -> Prop.
  Variable ok : M -> Z -> Prop.
  Hypothesis A : comps_answer ops Inv ok.
  Variable b : Z.
  Notation hub := (hub F M).
  Implicit Types (h X Y : hub) (x y : hstate F).

  (** Two states of two memories behave the same: after any symbols, the same scores. *)
  Definition agree (m : M) (s : Z) (m' : M) (s' : Z) : Prop :=
    (forall c p q, ans (c_score ops m s c) = Ok p -> ans (c_score ops m' s' c) = Ok q -> p = q) /\
    (forall r r', ans (c_extract ops m s) = Ok r -> ans (c_extract ops m' s') = Ok r' -> r = r').
  Definition obs (m : M) (s : Z) (m' : M) (s' : Z) : Prop :=
    forall w t m1 t' m1', (forall c, In c w -> 0 <= c) ->
      c_walk ops m s w = Ok (t, m1) -> c_walk ops m' s' w = Ok (t', m1') -> agree m1 t m1' t'.

  Lemma walk_sure w : forall m s, Inv b m -> ok m s -> (forall c, In c w -> 0 <= c) ->
    exists t m1, c_walk ops m s w = Ok (t, m1) /\ Inv b m1 /\ ok m1 t.
  Proof.
    induction w as [|c w IH]; intros m s I O C; cbn [c_walk]; [eauto|].
    destruct (an_next _ _ _ A b m s c I O) as (t & m' & E & I' & _ & O'); [apply C; left; auto|].
    rewrite E. cbn [bind]. apply IH; auto. intros d D. apply C. right; auto.
  Qed.
  Lemma score_sure m s c : Inv b m -> ok m s -> exists p, ans (c_score ops m s c) = Ok p.
  Proof. intros I O. destruct (an_score _ _ _ A b m s c I O) as (p & m' & -> & _). exists p. reflexivity. Qed.
  Lemma extract_sure m s : Inv b m -> ok m s -> exists p, ans (c_extract ops m s) = Ok p.
  Proof. intros I O. destruct (an_extract _ _ _ A b m s I O) as (p & m' & -> & _). exists p. reflexivity. Qed.

  Lemma obs_refl m s : obs m s m s.
  Proof.
    intros w t m1 t' m1' _ E E'. rewrite E in E'. injection E' as <- <-.
    split; intros; congruence.
  Qed.
  Lemma obs_sym m s m' s' : obs m s m' s' -> obs m' s' m s.
  Proof.
    intros H w t m1 t' m1' C E E'. destruct (H w _ _ _ _ C E' E) as [P Q]. split; intros; symmetry; eauto.
  Qed.
  Lemma obs_trans m1 s1 m2 s2 m3 s3 : Inv b m2 -> ok m2 s2 -> obs m1 s1 m2 s2 -> obs m2 s2 m3 s3 -> obs m1 s1 m3 s3.
  Proof.
    intros I O H H' w t m t' m' C E E'. destruct (walk_sure w m2 s2 I O C) as (u & n & E2 & I2 & O2).
    destruct (H _ _ _ _ _ C E E2) as [P Q]. destruct (H' _ _ _ _ _ C E2 E') as [P' Q']. split.
    - intros c p q Hp Hq. destruct (score_sure n u c I2 O2) as [r Hr]. transitivity r; eauto.
    - intros r r' Hp Hq. destruct (extract_sure n u I2 O2) as [z Hr]. transitivity z; eauto.
  Qed.
  Lemma obs_next m s m' s' c t m1 t' m1' : obs m s m' s' -> 0 <= c ->
    c_next ops m s c = Ok (t, m1) -> c_next ops m' s' c = Ok (t', m1') -> obs m1 t m1' t'.
  Proof.
    intros H Hc E E' w u n u' n' C W W'. apply (H (c :: w)).
    - intros d [<-|D]; auto.
    - cbn [c_walk]. rewrite E. exact W.
    - cbn [c_walk]. rewrite E'. exact W'.
  Qed.
  Lemma obs_score m s m' s' c p q : obs m s m' s' ->
    ans (c_score ops m s c) = Ok p -> ans (c_score ops m' s' c) = Ok q -> p = q.
  Proof. intros H. apply (proj1 (H [] s m s' m' (fun _ K => match K with end) eq_refl eq_refl)). Qed.
  Lemma obs_extract m s m' s' p q : obs m s m' s' ->
    ans (c_extract ops m s) = Ok p -> ans (c_extract ops m' s') = Ok q -> p = q.
  Proof. intros H. apply (proj2 (H [] s m s' m' (fun _ K => match K with end) eq_refl eq_refl)). Qed.

  (** A memory [m'] in which all that [m] has handed out behaves as in [m]. *)
  Definition calm (m m' : M) : Prop := Inv b m' /\ forall s, ok m s -> ok m' s /\ obs m s m' s.
  Lemma calm_refl m : Inv b m -> calm m m.
  Proof. intros I. split; auto. intros s O. split; auto. apply obs_refl. Qed.
  Lemma calm_trans m1 m2 m3 : calm m1 m2 -> calm m2 m3 -> calm m1 m3.
  Proof.
    intros [I2 H2] [I3 H3]. split; auto. intros s O. destruct (H2 s O) as [O2 B2]. destruct (H3 s O2) as [O3 B3].
    split; auto. eapply obs_trans; [exact I2|exact O2|exact B2|exact B3].
  Qed.

  (** Components that queries leave calm. *)
  Record comps_calm : Prop := {
    ca_next : forall m s c t m', Inv b m -> ok m s -> 0 <= c -> c_next ops m s c = Ok (t, m') ->
      forall u, ok m u -> obs m u m' u;
    ca_score : forall m s c p m', Inv b m -> ok m s -> c_score ops m s c = Ok (p, m') ->
      forall u, ok m u -> obs m u m' u;
    ca_extract : forall m s r m', Inv b m -> ok m s -> c_extract ops m s = Ok (r, m') ->
      forall u, ok m u -> obs m u m' u
  }.
  Hypothesis CA : comps_calm.

  Lemma calm_next m s c t m' : Inv b m -> ok m s -> 0 <= c -> c_next ops m s c = Ok (t, m') -> calm m m' /\ ok m' t.
  Proof.
    intros I O C E. destruct (an_next _ _ _ A b m s c I O C) as (t2 & m2 & E2 & I2 & K & O2). rewrite E in E2. injection E2 as <- <-.
    split; [split; [exact I2|]|exact O2]. intros u U. split; [apply K; exact U|]. exact (ca_next CA _ _ _ _ _ I O C E u U).
  Qed.
  Lemma calm_score m s c p m' : Inv b m -> ok m s -> c_score ops m s c = Ok (p, m') -> calm m m'.
  Proof.
    intros I O E. destruct (an_score _ _ _ A b m s c I O) as (t2 & m2 & E2 & I2 & K). rewrite E in E2. injection E2 as <- <-.
    split; [exact I2|]. intros u U. split; [apply K; exact U|]. exact (ca_score CA _ _ _ _ _ I O E u U).
  Qed.
  Lemma calm_extract m s r m' : Inv b m -> ok m s -> c_extract ops m s = Ok (r, m') -> calm m m'.
  Proof.
    intros I O E. destruct (an_extract _ _ _ A b m s I O) as (t2 & m2 & E2 & I2 & K). rewrite E in E2. injection E2 as <- <-.
    split; [exact I2|]. intros u U. split; [apply K; exact U|]. exact (ca_extract CA _ _ _ _ I O E u U).
  Qed.

  (** ** The components together *)
  Inductive obsl : list M -> list Z -> list M -> list Z -> Prop :=
  | obsl_nil : obsl [] [] [] []
  | obsl_cons m s m' s' l xs l' xs' : obs m s m' s' -> obsl l xs l' xs' -> obsl (m :: l) (s :: xs) (m' :: l') (s' :: xs').
  Notation fine := (Forall (Inv b)).
  Notation oks := (Forall2 ok).
  Notation calms := (Forall2 calm).
  Lemma obsl_refl l xs : oks l xs -> obsl l xs l xs.
  Proof. induction 1; constructor; auto. apply obs_refl. Qed.
  Lemma obsl_sym l xs l' xs' : obsl l xs l' xs' -> obsl l' xs' l xs.
  Proof. induction 1; constructor; auto. apply obs_sym; auto. Qed.
  Lemma obsl_trans l1 z1 l2 z2 : fine l2 -> oks l2 z2 -> obsl l1 z1 l2 z2 -> forall l3 z3, obsl l2 z2 l3 z3 -> obsl l1 z1 l3 z3.
  Proof.
    intros I O H. revert I O. induction H; intros I O l3 z3 H3; inversion H3; subst; constructor.
    - inversion I; inversion O; subst. eapply obs_trans with (m2 := m') (s2 := s'); auto.
    - inversion I; inversion O; subst. auto.
  Qed.
  Lemma calms_refl l : fine l -> calms l l.
  Proof. induction 1; constructor; auto. apply calm_refl; auto. Qed.
  Lemma calms_trans l1 l2 l3 : calms l1 l2 -> calms l2 l3 -> calms l1 l3.
  Proof. intros H. revert l3. induction H; intros l3 H3; inversion H3; subst; constructor; auto. eapply calm_trans; eauto. Qed.
  Lemma calms_obsl l l' xs : calms l l' -> oks l xs -> obsl l xs l' xs /\ oks l' xs.
  Proof.
    intros H. revert xs. induction H as [|m m' l l' C H IH]; intros xs O; inversion O; subst; [split; constructor|].
    destruct (IH l'0) as [IH1 IH2]; auto. destruct C as [_ C].
    match goal with K : ok m _ |- _ => destruct (C _ K) end.
    split; constructor; auto.
  Qed.
  Lemma calms_fine l l' : calms l l' -> fine l'.
  Proof. induction 1; constructor; auto. apply H. Qed.

  Lemma comps_next_calm x lms : forall idx c xs lms', 0 <= c -> fine lms -> oks lms (skipn idx (h_models x)) ->
    comps_next ops x idx lms c = Ok (xs, lms') -> calms lms lms' /\ oks lms' xs.
  Proof.
    induction lms as [|m t IH]; intros idx c xs lms' Hc I O E; cbn [comps_next] in E.
    - injection E as <- <-. split; constructor.
    - apply bind_Ok in E. destruct E as [[y m'] [E1 E]]. apply bind_Ok in E. destruct E as [[ys t'] [E2 E]]. injection E as <- <-.
      inversion I; inversion O as [|? z ? zs Oz Ot K1 K2]; subst. symmetry in K2. apply skipn_cons in K2. destruct K2 as [K2 K3].
      assert (Ex : hs_model x idx = z) by (unfold hs_model; rewrite K2; auto). rewrite Ex in E1.
      destruct (calm_next m z c y m') as [C1 C2]; auto.
      assert (O3 : oks t (skipn (S idx) (h_models x))) by (rewrite K3; auto).
      destruct (IH (S idx) c ys t' Hc ltac:(auto) O3 E2) as [D1 D2]. split; constructor; auto.
  Qed.
  Lemma comps_score_calm x lms : forall idx c xs lms', fine lms -> oks lms (skipn idx (h_models x)) ->
    comps_score ops x idx lms c = Ok (xs, lms') -> calms lms lms'.
  Proof.
    induction lms as [|m t IH]; intros idx c xs lms' I O E; cbn [comps_score] in E.
    - injection E as <- <-. constructor.
    - apply bind_Ok in E. destruct E as [[y m'] [E1 E]]. apply bind_Ok in E. destruct E as [[ys t'] [E2 E]]. injection E as <- <-.
      inversion I; inversion O as [|? z ? zs Oz Ot K1 K2]; subst. symmetry in K2. apply skipn_cons in K2. destruct K2 as [K2 K3].
      assert (Ex : hs_model x idx = z) by (unfold hs_model; rewrite K2; auto). rewrite Ex in E1.
      constructor; [eapply calm_score; eauto|]. eapply (IH (S idx)); eauto. rewrite K3; auto.
  Qed.
  Lemma mix_loop_calm x ws : forall idx lms norm acc r lms', fine lms -> oks lms (skipn idx (h_models x)) ->
    mix_loop ops x idx ws lms norm acc = Ok (r, lms') -> calms lms lms'.
  Proof.
    induction ws as [|w ws IH]; intros idx lms norm acc r lms' I O E; cbn [mix_loop] in E.
    - injection E as <- <-. apply calms_refl; auto.
    - destruct lms as [|m t]; [discriminate|]. apply bind_Ok in E. destruct E as [[y m'] [E1 E]].
      inversion I; inversion O as [|? z ? zs Oz Ot K1 K2]; subst. symmetry in K2. apply skipn_cons in K2. destruct K2 as [K2 K3].
      assert (Ex : hs_model x idx = z) by (unfold hs_model; rewrite K2; auto). rewrite Ex in E1.
      destruct y as [sc|].
      + apply bind_Ok in E. destruct E as [[r1 t'] [E2 E]]. injection E as <- <-.
        constructor; [eapply calm_extract; eauto|]. eapply (IH (S idx)); eauto. rewrite K3; auto.
      + injection E as <- <-. constructor; [eapply calm_extract; eauto|apply calms_refl; auto].
  Qed.

  Lemma comps_next_obs x y l1 l2 : forall i j c xs l1' ys l2', 0 <= c ->
    obsl l1 (skipn i (h_models x)) l2 (skipn j (h_models y)) ->
    comps_next ops x i l1 c = Ok (xs, l1') -> comps_next ops y j l2 c = Ok (ys, l2') -> obsl l1' xs l2' ys.
  Proof.
    revert l2. induction l1 as [|m t IH]; intros l2 i j c xs l1' ys l2' Hc H E E'.
    - inversion H; subst. cbn [comps_next] in E, E'. injection E as <- <-. injection E' as <- <-. constructor.
    - inversion H as [|? s ? s' ? us ? us' B H' K1 K2 K3 K4]; subst. cbn [comps_next] in E, E'.
      symmetry in K2, K4. apply skipn_cons in K2, K4. destruct K2 as [K2 K3], K4 as [K4 K5].
      assert (Ex : hs_model x i = s) by (unfold hs_model; rewrite K2; auto).
      assert (Ey : hs_model y j = s') by (unfold hs_model; rewrite K4; auto). rewrite Ex in E. rewrite Ey in E'.
      apply bind_Ok in E. destruct E as [[u m1] [E1 E]]. apply bind_Ok in E. destruct E as [[ys1 t1] [E2 E]]. injection E as <- <-.
      apply bind_Ok in E'. destruct E' as [[u' m1'] [E1' E']]. apply bind_Ok in E'. destruct E' as [[ys1' t1'] [E2' E']]. injection E' as <- <-.
      constructor; [eapply obs_next; eauto|]. eapply (IH _ (S i) (S j)); [exact Hc| |exact E2|exact E2']. rewrite K3, K5. auto.
  Qed.
  Lemma comps_score_obs x y l1 l2 : forall i j c xs l1' ys l2',
    obsl l1 (skipn i (h_models x)) l2 (skipn j (h_models y)) ->
    comps_score ops x i l1 c = Ok (xs, l1') -> comps_score ops y j l2 c = Ok (ys, l2') -> xs = ys.
  Proof.
    revert l2. induction l1 as [|m t IH]; intros l2 i j c xs l1' ys l2' H E E'.
    - inversion H; subst. cbn [comps_score] in E, E'. injection E as <- <-. injection E' as <- <-. reflexivity.
    - inversion H as [|? s ? s' ? us ? us' B H' K1 K2 K3 K4]; subst. cbn [comps_score] in E, E'.
      symmetry in K2, K4. apply skipn_cons in K2, K4. destruct K2 as [K2 K3], K4 as [K4 K5].
      assert (Ex : hs_model x i = s) by (unfold hs_model; rewrite K2; auto).
      assert (Ey : hs_model y j = s') by (unfold hs_model; rewrite K4; auto). rewrite Ex in E. rewrite Ey in E'.
      apply bind_Ok in E. destruct E as [[u m1] [E1 E]]. apply bind_Ok in E. destruct E as [[ys1 t1] [E2 E]]. injection E as <- <-.
      apply bind_Ok in E'. destruct E' as [[u' m1'] [E1' E']]. apply bind_Ok in E'. destruct E' as [[ys1' t1'] [E2' E']]. injection E' as <- <-.
      f_equal; [eapply obs_score; [exact B|rewrite E1; reflexivity|rewrite E1'; reflexivity]|].
      eapply (IH _ (S i) (S j)); [|exact E2|exact E2']. rewrite K3, K5. auto.
  Qed.
  Lemma mix_loop_obs x y ws : forall l1 l2 i j norm acc r l1' r' l2',
    obsl l1 (skipn i (h_models x)) l2 (skipn j (h_models y)) ->
    mix_loop ops x i ws l1 norm acc = Ok (r, l1') -> mix_loop ops y j ws l2 norm acc = Ok (r', l2') -> r = r'.
  Proof.
    induction ws as [|w ws IH]; intros l1 l2 i j norm acc r l1' r' l2' H E E'; cbn [mix_loop] in E, E'.
    - congruence.
    - destruct l1 as [|m t]; [discriminate|].
      inversion H as [|? s ? s' ? us ? us' B H' K1 K2 K3 K4]; subst.
      symmetry in K2, K4. apply skipn_cons in K2, K4. destruct K2 as [K2 K3], K4 as [K4 K5].
      assert (Ex : hs_model x i = s) by (unfold hs_model; rewrite K2; auto).
      assert (Ey : hs_model y j = s') by (unfold hs_model; rewrite K4; auto). rewrite Ex in E. rewrite Ey in E'.
      apply bind_Ok in E. destruct E as [[u m1] [E1 E]]. apply bind_Ok in E'. destruct E' as [[u' m1'] [E1' E']].
      assert (u = u') by (eapply obs_extract; [exact B|rewrite E1; reflexivity|rewrite E1'; reflexivity]). subst u'.
      destruct u as [sc|]; [|congruence].
      apply bind_Ok in E. destruct E as [[r1 t1] [E2 E]]. injection E as <- <-.
      apply bind_Ok in E'. destruct E' as [[r2 t2] [E2' E']]. injection E' as <- <-.
      eapply (IH _ _ (S i) (S j)); [|exact E2|exact E2']. rewrite K3, K5. auto.
  Qed.

  (** ** What stays *)
  (** The contents of the state for [c] after one with contents [x], in components [lms]. *)
  Definition derives (bayes : nat) (lms : list M) x (c : Z) y : Prop :=
    (forall xs lms', comps_next ops x 0 lms c = Ok (xs, lms') -> obsl lms' xs lms (h_models y)) /\
    (if (bayes =? 0)%nat then h_hist y = [] /\ h_sum y = []
     else exists probs, ans (comps_score ops x 0 lms c) = Ok probs /\
            h_hist y = shift_history probs (h_hist x) /\ h_sum y = history_sums probs (h_hist x)).

  Record sext h X : Prop := {
    x_max : h_max X = h_max h;
    x_weights : h_weights X = h_weights h;
    x_bayes : h_bayes X = h_bayes h;
    x_live : hlive Inv ok b X;
    x_lms : calms (h_lms h) (h_lms X);
    x_len : (length (hs h) <= length (hs X))%nat;
    x_old : forall i s, nth_error (hs h) i = Some s -> exists s', nth_error (hs X) i = Some s' /\ sig s' = sig s /\
              forall c j, assoc c (h_next s) = Some j -> assoc c (h_next s') = Some j;
    x_new : forall i s c j, nth_error (hs X) i = Some s -> assoc c (h_next s) = Some j ->
              (exists s0, nth_error (hs h) i = Some s0 /\ assoc c (h_next s0) = Some j) \/
              (Z.of_nat (length (hs h)) <= j /\ 0 <= c /\
               exists t, nth_error (hs X) (Z.to_nat j) = Some t /\ derives (h_bayes h) (h_lms X) s c t)
  }.

  Lemma sext_refl h : hlive Inv ok b h -> sext h h.
  Proof.
    intros L. constructor; auto.
    - apply calms_refl. apply L.
    - intros i s H. exists s. auto.
    - intros i s c j H E. left. eauto.
  Qed.

  Lemma live_nth X i x : hlive Inv ok b X -> nth_error (hs X) i = Some x -> oks (h_lms X) (h_models x).
  Proof. intros L H. apply (hl_live _ _ _ _ L). eapply nth_error_In; eauto. Qed.

  Lemma sig_hist x y : sig x = sig y -> h_models x = h_models y /\ h_hist x = h_hist y /\ h_sum x = h_sum y.
  Proof. unfold sig. intros E. injection E. auto. Qed.
  Lemma comps_next_models x x' : h_models x' = h_models x -> forall l idx c, comps_next ops x' idx l c = comps_next ops x idx l c.
  Proof.
    intros E. induction l as [|m l IH]; intros idx c; cbn [comps_next]; auto. unfold hs_model. rewrite E.
    destruct (c_next ops m _ c) as [[? ?]| | |]; cbn; auto. rewrite IH. auto.
  Qed.
  Lemma comps_score_models x x' : h_models x' = h_models x -> forall l idx c, comps_score ops x' idx l c = comps_score ops x idx l c.
  Proof.
    intros E. induction l as [|m l IH]; intros idx c; cbn [comps_score]; auto. unfold hs_model. rewrite E.
    destruct (c_score ops m _ c) as [[? ?]| | |]; cbn; auto. rewrite IH. auto.
  Qed.
  Lemma derives_sig n lms x x' c t t' : sig x' = sig x -> sig t' = sig t -> derives n lms x c t -> derives n lms x' c t'.
  Proof.
    intros E1 E2 [D1 D2]. apply sig_hist in E1, E2. destruct E1 as (A1 & A2 & A3), E2 as (B1 & B2 & B3).
    unfold derives. rewrite B1, B2, B3, A2.
    split.
    - intros xs lms'. rewrite (comps_next_models _ _ A1). auto.
    - rewrite (comps_score_models _ _ A1). auto.
  Qed.
  Lemma derives_calm n lms lms2 x c t : 0 <= c -> fine lms -> oks lms (h_models x) -> oks lms (h_models t) -> calms lms lms2 ->
    derives n lms x c t -> derives n lms2 x c t.
  Proof.
    intros Hc I Ox Ot C [D1 D2]. destruct (calms_obsl _ _ _ C Ox) as [B1 B2]. destruct (calms_obsl _ _ _ C Ot) as [B3 B4]. split.
    - intros xs lms' E.
      destruct (comps_next_sure ops Inv ok A b x c lms 0 Hc I Ox) as [[xs0 lms0] [E0 [P1 [P2 P3]]]]. cbn [fst snd] in *.
      specialize (D1 _ _ E0).
      pose proof (comps_next_obs x x lms lms2 0 0 c _ _ _ _ Hc B1 E0 E) as B5.
      eapply obsl_trans; [exact P1|exact P3|apply obsl_sym; exact B5|].
      eapply obsl_trans; [exact I|exact Ot|exact D1|exact B3].
    - destruct (n =? 0)%nat; auto. destruct D2 as (probs & E & H1 & H2). exists probs. split; auto.
      apply ans_inv in E. destruct E as [l1 E].
      destruct (comps_score_sure ops Inv ok A b x c lms2 0 (calms_fine _ _ C) B2) as [[ps l2] [E2 _]].
      rewrite E2. cbn. f_equal. symmetry. eapply comps_score_obs; [|exact E|exact E2]. exact B1.
  Qed.

  (** Only the components changed. *)
  Lemma sext_lms h X l : sext h X -> calms (h_lms X) l -> sext h (set_lms X l).
  Proof.
    intros [A1 A2 A3 AL A4 A5 A6 A7] C. constructor; auto.
    - apply live_set_lms; auto; [eapply calms_fine; eauto|].
      clear - C. induction C as [|m m' l l' [_ H] C IH]; constructor; auto. intros t T. apply H; auto.
    - cbn. eapply calms_trans; eauto.
    - cbn [set_lms hs h_lms]. intros i s c j H E. destruct (A7 i s c j H E) as [Q|(Q1 & Q2 & t & Q3 & Q4)]; auto.
      right. split; auto. split; auto. exists t. split; auto.
      eapply derives_calm; [auto|apply AL| | |exact C|exact Q4]; eapply live_nth; eauto.
  Qed.

  Lemma sext_grown h X s c x states hist sum lms : sext h X -> 0 <= s ->
    nth_error (hs X) (Z.to_nat s) = Some x -> 0 <= c ->
    assoc c (h_next x) = None -> calms (h_lms X) lms ->
    hlive Inv ok b (grown X s x c states hist sum lms) ->
    derives (h_bayes h) lms x c (HState states s [] c hist sum) ->
    sext h (grown X s x c states hist sum lms).
  Proof.
    intros [A1 A2 A3 AL A4 A5 A6 A7] S0 Hx C0 N EV GL D. pose proof (nth_error_Some_lt _ _ _ _ Hx) as L.
    set (n := Z.of_nat (length (hs X))) in *.
    set (l := upd (hs X) (Z.to_nat s) (hs_add_next x c n)).
    assert (Ll : length l = length (hs X)) by apply upd_length.
    set (t0 := HState states s [] c hist sum) in *.
    assert (GET : forall i t, nth_error (l ++ [t0]) i = Some t ->
      (i = length (hs X) /\ t = t0) \/
      exists t1, nth_error (hs X) i = Some t1 /\ sig t = sig t1 /\
        ((i = Z.to_nat s /\ t1 = x /\ t = hs_add_next x c n) \/ t = t1)).
    { intros i t Hi. destruct (Nat.lt_ge_cases i (length l)) as [Q|Q].
      - right. rewrite nth_error_app1 in Hi by auto. unfold l in Hi. rewrite nth_error_upd in Hi.
        destruct (Nat.eqb_spec (Z.to_nat s) i) as [<-|]; cbn [andb] in Hi.
        + destruct (Nat.ltb_spec (Z.to_nat s) (length (hs X))); [|lia]. injection Hi as <-. exists x. split; auto.
        + exists t. auto.
      - left. rewrite nth_error_app2 in Hi by auto. destruct (i - length l)%nat as [|d] eqn:E.
        + cbn in Hi. injection Hi as <-. split; auto. lia.
        + destruct d; discriminate. }
    assert (PUT : forall i t1, nth_error (hs X) i = Some t1 -> exists t, nth_error (l ++ [t0]) i = Some t /\ sig t = sig t1 /\
              forall d j, assoc d (h_next t1) = Some j -> assoc d (h_next t) = Some j).
    { intros i t1 Hi. pose proof (nth_error_Some_lt _ _ _ _ Hi) as Li. rewrite nth_error_app1 by lia. unfold l. rewrite nth_error_upd.
      destruct (Nat.eqb_spec (Z.to_nat s) i) as [<-|]; cbn [andb]; [|eauto].
      destruct (Nat.ltb_spec (Z.to_nat s) (length (hs X))); [|lia]. rewrite Hx in Hi. injection Hi as <-.
      eexists. split; [reflexivity|]. split; auto. intros d j E. rewrite assoc_add by auto.
      destruct (Z.eqb_spec c d) as [->|]; [congruence|auto]. }
    constructor; auto; cbn [grown hs h_max h_weights h_bayes h_lms]; fold n; fold l; fold t0; auto.
    - eapply calms_trans; eauto.
    - rewrite app_length. cbn. lia.
    - intros i s0 Hi. destruct (A6 i s0 Hi) as (s1 & B1 & B2 & B3). destruct (PUT i s1 B1) as (t & C1 & C2 & C3).
      exists t. split; auto. split; [congruence|]. auto.
    - intros i t d j Hi E. destruct (GET i t Hi) as [[-> ->]|(t1 & B1 & B2 & B3)]; [discriminate|].
      assert (OLD : assoc d (h_next t1) = Some j ->
        (exists s0, nth_error (hs h) i = Some s0 /\ assoc d (h_next s0) = Some j) \/
        (Z.of_nat (length (hs h)) <= j /\ 0 <= d /\
         exists t2, nth_error (l ++ [t0]) (Z.to_nat j) = Some t2 /\ derives (h_bayes h) lms t d t2)).
      { intros E1. destruct (A7 i t1 d j B1 E1) as [Q|(Q1 & Q2 & t2 & Q3 & Q4)]; auto. right. split; auto. split; auto.
        destruct (PUT _ _ Q3) as (t3 & C1 & C2 & C3). exists t3. split; auto.
        eapply derives_sig; [exact B2|exact C2|].
        eapply derives_calm; [auto|apply AL| | |exact EV|exact Q4]; eapply live_nth; eauto. }
      destruct B3 as [(Ei & -> & ->)| ->]; auto.
      rewrite assoc_add in E by auto. destruct (Z.eqb_spec c d) as [<-|]; auto. injection E as <-. right.
      split; [lia|]. split; auto. exists t0. split.
      + unfold n. rewrite Nat2Z.id, nth_error_app2, Ll, Nat.sub_diag by lia. reflexivity.
      + eapply derives_sig; [| |exact D]; auto.
  Qed.

  (** ** Following the same path in two extensions *)
  Section Pair.
    Variable h : hub.
    Hypothesis (HL : hlive Inv ok b h).
    Let W : hwf h := hl_wf _ _ _ _ HL.

    (** The same behaviour. *)
    Definition alike X x Y y : Prop :=
      obsl (h_lms X) (h_models x) (h_lms Y) (h_models y) /\ h_hist y = h_hist x /\ h_sum y = h_sum x.

    Lemma same_alike X Y i i' : sext h X -> sext h Y -> same h X Y i i' ->
      exists s s', nth_error (hs X) (Z.to_nat i) = Some s /\ nth_error (hs Y) (Z.to_nat i') = Some s' /\ alike X s Y s'.
    Proof.
      intros EX EY S. induction S as [i L|i i' s s' c j j' S IH Hs Hs' E E' L L'].
      - destruct (nth_error (hs h) (Z.to_nat i)) as [s0|] eqn:H0; [|apply nth_error_None in H0; lia].
        destruct (x_old _ _ EX _ _ H0) as (s1 & B1 & B2 & _). destruct (x_old _ _ EY _ _ H0) as (s2 & C1 & C2 & _).
        apply sig_hist in B2, C2. destruct B2 as (P1 & P2 & P3), C2 as (Q1 & Q2 & Q3).
        exists s1, s2. split; auto. split; auto. split; [|split; congruence]. rewrite P1, Q1.
        assert (O : oks (h_lms h) (h_models s0)) by (eapply live_nth; eauto).
        eapply obsl_trans; [apply HL|exact O| |].
        + apply obsl_sym. apply calms_obsl; auto. apply (x_lms _ _ EX).
        + apply calms_obsl; auto. apply (x_lms _ _ EY).
      - destruct IH as (t & t' & H1 & H2 & AL). rewrite Hs in H1. injection H1 as <-. rewrite Hs' in H2. injection H2 as <-.
        destruct (x_new _ _ EX _ _ _ _ Hs E) as [(s0 & B1 & B2)|(B1 & B0 & t & B2 & D)].
        { pose proof (base_edge _ W _ _ _ _ B1 B2). lia. }
        destruct (x_new _ _ EY _ _ _ _ Hs' E') as [(s0 & C1 & C2)|(C1 & C0 & t' & C2 & D')].
        { pose proof (base_edge _ W _ _ _ _ C1 C2). lia. }
        exists t, t'. split; auto. split; auto.
        pose proof (x_live _ _ EX) as LX. pose proof (x_live _ _ EY) as LY.
        assert (Os := live_nth _ _ _ LX Hs). assert (Os' := live_nth _ _ _ LY Hs').
        assert (Ot := live_nth _ _ _ LX B2). assert (Ot' := live_nth _ _ _ LY C2).
        destruct AL as (AL & AH & AS).
        destruct (comps_next_sure ops Inv ok A b s c (h_lms X) 0 B0 (hl_fine _ _ _ _ LX) Os) as [[xs l1] [E1 [P1 [_ P3]]]]. cbn [fst snd] in *.
        destruct (comps_next_sure ops Inv ok A b s' c (h_lms Y) 0 B0 (hl_fine _ _ _ _ LY) Os') as [[xs' l1'] [E1' [P1' [_ P3']]]]. cbn [fst snd] in *.
        destruct D as [D1 D2], D' as [D1' D2']. specialize (D1 _ _ E1). specialize (D1' _ _ E1').
        pose proof (comps_next_obs s s' _ _ 0 0 c _ _ _ _ B0 AL E1 E1') as B5.
        split.
        + eapply obsl_trans; [exact P1|exact P3|apply obsl_sym; exact D1|].
          eapply obsl_trans; [exact P1'|exact P3'|exact B5|exact D1'].
        + destruct (h_bayes h =? 0)%nat.
          * destruct D2 as [-> ->], D2' as [-> ->]. auto.
          * destruct D2 as (p1 & K1 & -> & ->), D2' as (p2 & K2 & -> & ->). rewrite AH.
            apply ans_inv in K1, K2. destruct K1 as [n1 K1], K2 as [n2 K2].
            assert (p1 = p2) by (eapply comps_score_obs; [|exact K1|exact K2]; exact AL). subst p2. auto.
    Qed.

    Lemma sedge_nonneg X i s c j : sext h X -> nth_error (hs X) i = Some s -> assoc c (h_next s) = Some j -> 0 <= j.
    Proof.
      intros E H Q. destruct (x_new _ _ E _ _ _ _ H Q) as [(s0 & B1 & B2)|(B1 & _)]; [|lia].
      pose proof (base_edge _ W _ _ _ _ B1 B2). lia.
    Qed.
    Lemma snext_cases X i s c : sext h X -> nth_error (hs X) i = Some s ->
      (exists j, assoc c (h_next s) = Some j /\ hs_next s c = j /\ 0 <= j) \/ (assoc c (h_next s) = None /\ hs_next s c = -1).
    Proof.
      intros E H. unfold hs_next. destruct (assoc c (h_next s)) as [j|] eqn:Q; [left|right]; auto.
      exists j. split; auto. split; auto. eapply sedge_nonneg; eauto.
    Qed.

    (** One step in one extension: nothing new, or a new state behind a new link. *)
    Lemma sext_step X i c : sext h X -> 0 <= i -> i < Z.of_nat (length (hs X)) -> Z.of_nat (length (hs X)) < h_max h ->
      exists x r X', nth_error (hs X) (Z.to_nat i) = Some x /\ hub_next ops X i c = Ok (r, X') /\
      sext h X' /\ grows X X' /\ (length (hs X') <= length (hs X) + 1)%nat /\
      ((X' = X /\ r = hs_next x c /\ (c < 0 \/ 0 <= r)) \/
       (0 <= c /\ assoc c (h_next x) = None /\ r = Z.of_nat (length (hs X)) /\
        nth_error (hs X') (Z.to_nat i) = Some (hs_add_next x c r))).
    Proof.
      intros E I0 I1 Hm. destruct (nth_error (hs X) (Z.to_nat i)) as [x|] eqn:Hx; [|apply nth_error_None in Hx; lia].
      exists x. pose proof (x_live _ _ E) as LX. assert (Ox := live_nth _ _ _ LX Hx).
      destruct (hub_next_sure ops Inv ok A b X i c LX) as [[r X'] [H LX']]. cbn [snd] in LX'. exists r, X'. split; auto. split; auto.
      rewrite (hub_next_spec ops X i c x) in H by (rewrite ?(x_max _ _ E); auto).
      destruct (snext_cases X _ x c E Hx) as [(j & Q & N & J0)|[Q N]].
      - rewrite N in H. replace ((c <? 0) || (0 <=? j)) with true in H by lia. injection H as <- <-.
        split; auto. split; [apply grows_refl|]. split; [lia|]. left. split; auto.
      - rewrite N in H. destruct (Z.ltb_spec c 0) as [C|C]; cbn [orb] in H.
        { injection H as <- <-. split; auto. split; [apply grows_refl|]. split; [lia|]. left. split; auto. }
        cbn [Z.leb Z.compare] in H.
        destruct (comps_next_sure ops Inv ok A b x c (h_lms X) 0 C (hl_fine _ _ _ _ LX) Ox) as [[states l1] [E1 [P1 [_ P3]]]]. cbn [fst snd] in *.
        destruct (comps_next_calm x (h_lms X) 0 c states l1 C (hl_fine _ _ _ _ LX) Ox E1) as [C1 O1].
        rewrite E1 in H. cbn [bind] in H. rewrite (x_bayes _ _ E) in H.
        destruct (calms_obsl _ _ _ C1 Ox) as [B1 Ox1].
        assert (FIN : forall hist sum lms, nth_error (hs (grown X i x c states hist sum lms)) (Z.to_nat i) = Some (hs_add_next x c (Z.of_nat (length (hs X))))).
        { intros. unfold grown. cbn [hs]. rewrite nth_error_app1 by (rewrite upd_length; lia). apply nth_error_upd_eq. lia. }
        (* the new state behaves as the next state does in the memory afterwards *)
        assert (DER : forall lms2, calms l1 lms2 -> forall xs lms', comps_next ops x 0 lms2 c = Ok (xs, lms') -> obsl lms' xs lms2 states).
        { intros lms2 C2 xs lms' E2. destruct (calms_obsl _ _ _ C2 P3) as [B3 _].
          destruct (calms_obsl _ _ _ C2 Ox1) as [B4 Ox2].
          assert (B5 : obsl (h_lms X) (h_models x) lms2 (h_models x)) by (eapply obsl_trans; [exact P1|exact Ox1|exact B1|exact B4]).
          pose proof (comps_next_obs x x _ _ 0 0 c _ _ _ _ C B5 E1 E2) as B6.
          eapply obsl_trans; [exact P1|exact P3|apply obsl_sym; exact B6|exact B3]. }
        destruct (h_bayes h =? 0)%nat eqn:B.
        + injection H as <- <-. split; [|split; [|split]].
          * eapply sext_grown; eauto. split; [apply DER, calms_refl; auto|]. rewrite B. cbn. auto.
          * apply grows_grown; auto.
          * unfold grown. cbn [hs]. rewrite app_length, upd_length. cbn. lia.
          * right. split; auto. 
        + destruct (comps_score_sure ops Inv ok A b x c l1 0 P1 Ox1) as [[probs l2] [E2 [P4 _]]]. cbn [fst snd] in *.
          pose proof (comps_score_calm x l1 0 c _ _ P1 Ox1 E2) as C2.
          rewrite E2 in H. injection H as <- <-. split; [|split; [|split]].
          * eapply sext_grown; eauto; [eapply calms_trans; eauto|]. split; [apply DER; auto|]. rewrite B.
            destruct (calms_obsl _ _ _ C2 Ox1) as [B4 Ox2].
            destruct (comps_score_sure ops Inv ok A b x c l2 0 P4 Ox2) as [[ps l3] [E3 _]].
            exists probs. split; [|auto]. rewrite E3. cbn. f_equal. symmetry. eapply comps_score_obs; [|exact E2|exact E3]. exact B4.
          * apply grows_grown; auto.
          * unfold grown. cbn [hs]. rewrite app_length, upd_length. cbn. lia.
          * right. split; auto.
    Qed.

    Lemma snth_base X i s : sext h X -> nth_error (hs X) i = Some s -> (i < length (hs h))%nat ->
      exists s0, nth_error (hs h) i = Some s0 /\ forall c j, assoc c (h_next s0) = Some j -> assoc c (h_next s) = Some j.
    Proof.
      intros E H L. destruct (nth_error (hs h) i) as [s0|] eqn:H0; [|apply nth_error_None in H0; lia].
      exists s0. split; auto. destruct (x_old _ _ E _ _ H0) as (s1 & B1 & _ & B3). rewrite H in B1. injection B1 as <-. auto.
    Qed.
    (** Old links are in both. *)
    Lemma old_link X Y i i' x y c j : sext h X -> sext h Y -> same h X Y i i' ->
      nth_error (hs X) (Z.to_nat i) = Some x -> nth_error (hs Y) (Z.to_nat i') = Some y ->
      assoc c (h_next x) = Some j -> j < Z.of_nat (length (hs h)) -> assoc c (h_next y) = Some j.
    Proof.
      intros EX EY S Hx Hy Q J. destruct (x_new _ _ EX _ _ _ _ Hx Q) as [(s0 & B1 & B2)|(B1 & _)]; [|lia].
      pose proof (nth_error_Some_lt _ _ _ _ B1).
      destruct (same_small _ _ _ _ _ S) as [E0 _]; [left; lia|]. subst i'.
      destruct (snth_base Y _ _ EY Hy) as (s1 & C1 & C2); [lia|]. rewrite B1 in C1. injection C1 as <-. auto.
    Qed.
    Lemma same_sym X Y i i' : same h X Y i i' -> same h Y X i' i.
    Proof. induction 1; [constructor; auto|]. eapply same_step; eauto. Qed.

    (** One step in both. *)
    Lemma spair_step X Y i i' c r X' r' Y' : sext h X -> sext h Y -> same h X Y i i' ->
      Z.of_nat (length (hs X)) < h_max h -> Z.of_nat (length (hs Y)) < h_max h ->
      hub_next ops X i c = Ok (r, X') -> hub_next ops Y i' c = Ok (r', Y') ->
      (r < 0 /\ r' < 0) \/ same h X' Y' r r'.
    Proof.
      intros EX EY S LX LY H H'. destruct (same_nonneg _ _ _ _ _ S) as [I0 I0'].
      destruct (same_alike _ _ _ _ EX EY S) as (x & y & Hx & Hy & SG).
      pose proof (nth_error_Some_lt _ _ _ _ Hx) as Lx. pose proof (nth_error_Some_lt _ _ _ _ Hy) as Ly.
      destruct (sext_step X i c EX I0 ltac:(lia) LX) as (x1 & r1 & X1 & Hx1 & H1 & EX1 & G1 & _ & K1).
      rewrite H in H1. injection H1 as <- <-. rewrite Hx in Hx1. injection Hx1 as <-.
      destruct (sext_step Y i' c EY I0' ltac:(lia) LY) as (y1 & r1' & Y1 & Hy1 & H1' & EY1 & G1' & _ & K1').
      rewrite H' in H1'. injection H1' as <- <-. rewrite Hy in Hy1. injection Hy1 as <-.
      pose proof (same_sym _ _ _ _ S) as S'.
      pose proof (x_len _ _ EX) as LNX. pose proof (x_len _ _ EY) as LNY.
      (* a link in the state after the step *)
      assert (LX2 : r < 0 \/ exists x2, nth_error (hs X') (Z.to_nat i) = Some x2 /\ assoc c (h_next x2) = Some r).
      { destruct K1 as [(-> & -> & _)|(C0 & N & -> & Hn)].
        - destruct (snext_cases X _ x c EX Hx) as [(j & Q & N & J0)|[Q N]]; [right; rewrite N; eauto|left; lia].
        - right. eexists. split; [exact Hn|]. rewrite assoc_add, Z.eqb_refl by auto. reflexivity. }
      assert (LY2 : r' < 0 \/ exists y2, nth_error (hs Y') (Z.to_nat i') = Some y2 /\ assoc c (h_next y2) = Some r').
      { destruct K1' as [(-> & -> & _)|(C0 & N & -> & Hn)].
        - destruct (snext_cases Y _ y c EY Hy) as [(j & Q & N & J0)|[Q N]]; [right; rewrite N; eauto|left; lia].
        - right. eexists. split; [exact Hn|]. rewrite assoc_add, Z.eqb_refl by auto. reflexivity. }
      assert (S2 : same h X' Y' i i') by (eapply same_grows; eauto).
      pose proof (same_sym _ _ _ _ S2) as S2'.
      (* negative results only for negative symbols without a link *)
      assert (NEG : forall Z1 Z2 k k' u u', sext h Z1 -> sext h Z2 -> same h Z1 Z2 k k' ->
                nth_error (hs Z1) (Z.to_nat k) = Some u -> nth_error (hs Z2) (Z.to_nat k') = Some u' ->
                c < 0 -> hs_next u c < 0 -> hs_next u' c < 0).
      { intros Z1 Z2 k k' u u' E1 E2 SS U U' C N. destruct (snext_cases Z2 _ u' c E2 U') as [(j & Q & N2 & J0)|[Q N2]]; [|lia].
        exfalso. destruct (x_new _ _ E2 _ _ _ _ U' Q) as [(s0 & D1 & D2)|(_ & D2 & _)]; [|lia].
        pose proof (base_edge _ W _ _ _ _ D1 D2).
        pose proof (old_link Z2 Z1 k' k u' u c j E2 E1 (same_sym _ _ _ _ SS) U' U Q ltac:(lia)) as Q'.
        unfold hs_next in N. rewrite Q' in N. lia. }
      destruct LX2 as [R|(x2 & Hx2 & Q)].
      { left. split; auto. destruct K1 as [(-> & -> & C)|(C0 & N & -> & Hn)]; [|lia]. destruct C as [C|C]; [|lia].
        destruct K1' as [(-> & -> & _)|(C0 & _)]; [|lia]. exact (NEG X Y i i' x y EX EY S Hx Hy C R). }
      destruct LY2 as [R|(y2 & Hy2 & Q')].
      { left. split; auto. destruct K1' as [(-> & -> & C)|(C0 & N & -> & Hn)]; [|lia]. destruct C as [C|C]; [|lia].
        destruct K1 as [(-> & -> & _)|(C0 & _)]; [|lia]. exact (NEG Y X i' i y x EY EX S' Hy Hx C R). }
      right. destruct (Z.lt_ge_cases r (Z.of_nat (length (hs h)))) as [J|J].
      - pose proof (old_link X' Y' i i' x2 y2 c r EX1 EY1 S2 Hx2 Hy2 Q J) as Q2.
        rewrite Q' in Q2. injection Q2 as <-. constructor. split; auto. exact (sedge_nonneg X' _ _ _ _ EX1 Hx2 Q).
      - destruct (Z.lt_ge_cases r' (Z.of_nat (length (hs h)))) as [J'|J'].
        + pose proof (old_link Y' X' i' i y2 x2 c r' EY1 EX1 S2' Hy2 Hx2 Q' J') as Q2. rewrite Q in Q2. injection Q2 as Q2. lia.
        + eapply same_step; eauto.
    Qed.

    (** A context in one, and in both. *)
    Lemma sext_context ctx : forall X i, sext h X -> 0 <= i -> Z.of_nat (length (hs X) + length ctx) < h_max h ->
      exists r X', hub_context_loop ops X i ctx = Ok (r, X') /\ sext h X' /\ grows X X' /\
        (length (hs X') <= length (hs X) + length ctx)%nat.
    Proof.
      induction ctx as [|c ctx IH]; intros X i EX I0 L; cbn [hub_context_loop length] in *.
      - exists i, X. split; auto. split; auto. split; [apply grows_refl|lia].
      - pose proof (wf_nonempty _ (hl_wf _ _ _ _ (x_live _ _ EX))) as N0.
        assert (ST : exists r X1, hub_next ops X i c = Ok (r, X1) /\ sext h X1 /\ grows X X1 /\ (length (hs X1) <= length (hs X) + 1)%nat).
        { destruct (in_range X i) eqn:IR.
          - unfold in_range in IR. destruct (sext_step X i c EX I0 ltac:(lia) ltac:(lia)) as (x & r & X1 & _ & E & E1 & G & LL & _). eauto 8.
          - rewrite hub_next_norm by auto.
            destruct (sext_step X 0 c EX ltac:(lia) ltac:(lia) ltac:(lia)) as (x & r & X1 & _ & E & E1 & G & LL & _). eauto 8. }
        destruct ST as (r & X1 & E & E1 & G & LL). rewrite E. cbn [bind].
        destruct (IH X1 (if r <? 0 then 0 else r) E1) as (r2 & X2 & E2 & E3 & G2 & LL2); [destruct (Z.ltb_spec r 0); lia|lia|].
        exists r2, X2. split; auto. split; auto. split; [eapply grows_trans; eauto|lia].
    Qed.
    Lemma spair_context ctx : forall X Y i i' r X' r' Y', sext h X -> sext h Y -> same h X Y i i' ->
      Z.of_nat (length (hs X) + length ctx) < h_max h -> Z.of_nat (length (hs Y) + length ctx) < h_max h ->
      hub_context_loop ops X i ctx = Ok (r, X') -> hub_context_loop ops Y i' ctx = Ok (r', Y') -> same h X' Y' r r'.
    Proof.
      induction ctx as [|c ctx IH]; intros X Y i i' r X' r' Y' EX EY S LX LY H H'; cbn [hub_context_loop length] in *.
      - injection H as <- <-. injection H' as <- <-. auto.
      - apply bind_Ok in H. destruct H as [[r1 X1] [H1 H2]]. apply bind_Ok in H'. destruct H' as [[r1' Y1] [H1' H2']].
        pose proof (spair_step X Y i i' c r1 X1 r1' Y1 EX EY S ltac:(lia) ltac:(lia) H1 H1') as R.
        destruct (same_nonneg _ _ _ _ _ S) as [I0 I0'].
        destruct (same_alike _ _ _ _ EX EY S) as (x & y & Hx & Hy & _).
        apply nth_error_Some_lt in Hx. apply nth_error_Some_lt in Hy.
        destruct (sext_step X i c EX I0 ltac:(lia) ltac:(lia)) as (? & ? & ? & _ & E1 & EX1 & _ & L1 & _). rewrite H1 in E1. injection E1 as <- <-.
        destruct (sext_step Y i' c EY I0' ltac:(lia) ltac:(lia)) as (? & ? & ? & _ & E1 & EY1 & _ & L1' & _). rewrite H1' in E1. injection E1 as <- <-.
        eapply IH; [exact EX1|exact EY1| | | |exact H2|exact H2']; try lia.
        destruct R as [[R1 R2]|R].
        + destruct (Z.ltb_spec r1 0); [|lia]. destruct (Z.ltb_spec r1' 0); [|lia].
          constructor. pose proof (wf_nonempty _ W). lia.
        + destruct (same_nonneg _ _ _ _ _ R). destruct (Z.ltb_spec r1 0); [lia|]. destruct (Z.ltb_spec r1' 0); [lia|]. auto.
    Qed.

    (** Scores. *)
    Lemma sext_extract X i r X' : sext h X -> hub_extract ops X i = Ok (r, X') -> sext h X' /\ hs X' = hs X.
    Proof.
      intros EX. unfold hub_extract. destruct (in_range X i) eqn:IR; cbn [negb]; [|intros [= <- <-]; auto].
      destruct (vgetZ_range _ (hs X) i) as [x V]; [unfold in_range in IR; lia|]. rewrite V. cbn [bind].
      pose proof (x_live _ _ EX) as LX. assert (Ox : oks (h_lms X) (h_models x)) by (apply (hl_live _ _ _ _ LX); eapply vgetZ_In; eauto).
      intros E. destruct (length (h_weights X) <? 2)%nat.
      - destruct (h_lms X) as [|m t] eqn:EL; [discriminate|]. apply bind_Ok in E. destruct E as [[sc m'] [E1 E]]. injection E as <- <-.
        split; auto. apply sext_lms; auto. rewrite EL. pose proof (hl_fine _ _ _ _ LX) as FI. unfold lms_fine in FI. rewrite EL in FI.
        inversion FI; inversion Ox as [|? z ? zs Oz Ot K1 K2]; subst.
        assert (Ex : hs_model x 0 = z) by (unfold hs_model; rewrite <- K2; auto). rewrite Ex in E1.
        constructor; [|apply calms_refl; auto]. eapply calm_extract; eauto.
      - apply bind_Ok in E. destruct E as [ws [_ E]]. apply bind_Ok in E. destruct E as [[sc l'] [E1 E]]. injection E as <- <-.
        split; auto. apply sext_lms; auto. exact (mix_loop_calm x ws 0 (h_lms X) _ _ _ _ (hl_fine _ _ _ _ LX) Ox E1).
    Qed.
    Lemma spair_extract X Y i i' r X' r' Y' : sext h X -> sext h Y -> same h X Y i i' ->
      hub_extract ops X i = Ok (r, X') -> hub_extract ops Y i' = Ok (r', Y') -> r = r'.
    Proof.
      intros EX EY S. destruct (same_nonneg _ _ _ _ _ S) as [I0 I0'].
      destruct (same_alike _ _ _ _ EX EY S) as (x & y & Hx & Hy & SG & HH & HS).
      pose proof (nth_error_Some_lt _ _ _ _ Hx) as Lx. pose proof (nth_error_Some_lt _ _ _ _ Hy) as Ly.
      assert (RX : in_range X i = true) by (unfold in_range; lia). assert (RY : in_range Y i' = true) by (unfold in_range; lia).
      assert (VX : vgetZ (hs X) i = Ok x) by (apply vgetZ_Ok; auto). assert (VY : vgetZ (hs Y) i' = Ok y) by (apply vgetZ_Ok; auto).
      unfold hub_extract. rewrite RX, RY, VX, VY. cbn [negb bind].
      rewrite (x_weights _ _ EX), (x_weights _ _ EY).
      destruct (length (h_weights h) <? 2)%nat.
      - inversion SG as [K1 K2 K3 K4|m s m' s' l xs l' xs' B H' K1 K2 K3 K4]; [discriminate|].
        assert (Ex : hs_model x 0 = s) by (unfold hs_model; rewrite <- K2; auto).
        assert (Ey : hs_model y 0 = s') by (unfold hs_model; rewrite <- K4; auto). rewrite Ex, Ey.
        intros E E'. apply bind_Ok in E. destruct E as [[sc m1] [E1 E]]. injection E as <- <-.
        apply bind_Ok in E'. destruct E' as [[sc' m1'] [E1' E']]. injection E' as <- <-.
        f_equal. eapply obs_extract; [exact B|rewrite E1; reflexivity|rewrite E1'; reflexivity].
      - assert (MW : mixture_weights_at Y i' = mixture_weights_at X i).
        { unfold mixture_weights_at. rewrite (x_bayes _ _ EX), (x_bayes _ _ EY), RX, RY, VX, VY. cbn [bind negb].
          rewrite (x_weights _ _ EX), (x_weights _ _ EY), HS. reflexivity. }
        rewrite MW. intros E E'. apply bind_Ok in E. destruct E as [ws [E0 E]]. rewrite E0 in E'. cbn [bind] in E'.
        apply bind_Ok in E. destruct E as [[sc l1] [E1 E]]. injection E as <- <-.
        apply bind_Ok in E'. destruct E' as [[sc' l1'] [E1' E']]. injection E' as <- <-.
        f_equal. eapply mix_loop_obs; [|exact E1|exact E1']. exact SG.
    Qed.
  End Pair.
End Sim.
