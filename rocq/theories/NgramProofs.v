(** Proofs about the character n-gram model. *)
From Coq Require Import Field.
From Verif Require Import Base Field LmModel LmProofs HubModel HubProofs PpmModel NgramModel NgramSpec.
Local Open Scope Z_scope.

Section Ng.
  Context {F : ofield}.
  Notation pstate := (@pstate F).
  Notation arc := (@arc F).
  Add Field FfieldNg1 : (f_th F).

  Lemma has_state_fun f s (st st' : pstate) : has_state f s st -> has_state f s st' -> st = st'.
  Proof. intros [_ A] [_ B]. congruence. Qed.

  Lemma has_state_get f s (st : pstate) : has_state f s st -> vgetZ f s = Ok st.
  Proof.
    intros [A B]. unfold vgetZ, vget. destruct (Z.ltb_spec s 0); [lia|]. rewrite B. reflexivity.
  Qed.
  Lemma get_has_state f s (st : pstate) : vgetZ f s = Ok st -> has_state f s st.
  Proof.
    unfold vgetZ, vget. destruct (Z.ltb_spec s 0); [discriminate|].
    destruct (nth_error f (Z.to_nat s)) eqn:E; intros H1; inversion H1; subst. split; auto.
  Qed.
  Lemma has_state_ex f s : (exists st : pstate, has_state f s st) <-> 0 <= s < Z.of_nat (length f).
  Proof.
    split.
    - intros [st [A B]]. apply nth_error_Some_lt in B. lia.
    - intros H. destruct (nth_error f (Z.to_nat s)) as [st|] eqn:E.
      + exists st. split; auto. lia.
      + apply nth_error_None in E. lia.
  Qed.

  Lemma arc_with_In l (arcs : list arc) a : arc_with l arcs = Some a -> In a arcs /\ a_label a = l.
  Proof. unfold arc_with. intros H. apply find_some in H. destruct H as [A B]. split; auto. lia. Qed.

  Lemma arc_with_None l (st : pstate) : arc_with l (ps_arcs st) = None <-> no_arc l st.
  Proof.
    unfold arc_with, no_arc. split.
    - intros H g b I. apply (find_none _ _ H) in I. simpl in I. lia.
    - intros H. destruct (find _ _) as [a|] eqn:E; auto. apply find_some in E as [A B].
      destruct a as [l' g b]. simpl in B. assert (l' = l) by lia. subst. exfalso. eapply H; eauto.
  Qed.

  Lemma NoDup_arc (arcs : list arc) a a' :
    NoDup (map a_label arcs) -> In a arcs -> In a' arcs -> a_label a = a_label a' -> a = a'.
  Proof.
    induction arcs as [|x t IH]; simpl; intros N A B E; [tauto|]. inversion N as [|? ? N1 N2]; subst.
    destruct A as [->|A], B as [->|B]; auto.
    - exfalso. apply N1. rewrite E. apply in_map; auto.
    - exfalso. apply N1. rewrite <- E. apply in_map; auto.
  Qed.

  Lemma arc_with_unique l (arcs : list arc) a :
    NoDup (map a_label arcs) -> In a arcs -> a_label a = l -> arc_with l arcs = Some a.
  Proof.
    intros N I E. destruct (arc_with l arcs) as [b|] eqn:A.
    - apply arc_with_In in A. destruct A as [A B]. f_equal. eapply NoDup_arc; eauto. congruence.
    - unfold arc_with in A. apply (find_none _ _ A) in I. lia.
  Qed.

  Section Can.
    Variable f : list pstate.
    Hypothesis C : canonical f.

    (** The number of states with a smaller rank: a rank below the number of states. *)
    Lemma bounded_rank : exists rk : Z -> nat,
      (forall s st, has_state f s st -> (rk s < length f)%nat) /\
      (forall s st g b, has_state f s st -> In (Arc 0 g b) (ps_arcs st) -> (rk b < rk s)%nat).
    Proof.
      destruct (can_acyclic _ C) as [rank H].
      set (below := fun s => filter (fun i => (rank (Z.of_nat i) <? rank s)%nat) (seq 0 (length f))).
      exists (fun s => length (below s)). split.
      - intros s st Hs. destruct (proj1 (has_state_ex f s) (ex_intro _ st Hs)) as [A B].
        assert (N : ~ In (Z.to_nat s) (below s)).
        { unfold below. rewrite filter_In. intros [_ X]. rewrite Z2Nat.id in X by lia.
          apply Nat.ltb_lt in X. lia. }
        assert (L : NoDup (Z.to_nat s :: below s)).
        { constructor; auto. apply NoDup_filter, seq_NoDup. }
        assert (I : incl (Z.to_nat s :: below s) (seq 0 (length f))).
        { intros i [<-|X]; [apply in_seq; lia|]. apply filter_In in X. tauto. }
        pose proof (NoDup_incl_length L I) as Q. rewrite seq_length in Q. simpl in Q. lia.
      - intros s st g b Hs I. pose proof (H s st g b Hs I) as R.
        destruct (can_dest _ C s st _ Hs I) as [st' Hb]. simpl in Hb.
        destruct (proj1 (has_state_ex f b) (ex_intro _ st' Hb)) as [A B].
        assert (N : ~ In (Z.to_nat b) (below b)).
        { unfold below. rewrite filter_In. intros [_ X]. rewrite Z2Nat.id in X by lia.
          apply Nat.ltb_lt in X. lia. }
        assert (L : NoDup (Z.to_nat b :: below b)).
        { constructor; auto. apply NoDup_filter, seq_NoDup. }
        assert (I2 : incl (Z.to_nat b :: below b) (below s)).
        { intros i [<-|X].
          - apply filter_In. split; [apply in_seq; lia|]. rewrite Z2Nat.id by lia. apply Nat.ltb_lt. lia.
          - apply filter_In in X. destruct X as [X1 X2]. apply filter_In. split; auto.
            apply Nat.ltb_lt in X2. apply Nat.ltb_lt. lia. }
        pose proof (NoDup_incl_length L I2) as Q. simpl in Q. lia.
    Qed.

    Lemma no_self_backoff s st g b : has_state f s st -> In (Arc 0 g b) (ps_arcs st) -> b <> s.
    Proof. intros Hs I ->. destruct (can_acyclic _ C) as [rk H]. pose proof (H _ _ _ _ Hs I). lia. Qed.

    Lemma backoff_some s st g b : has_state f s st -> In (Arc 0 g b) (ps_arcs st) ->
      ng_backoff f s = Ok (b, g).
    Proof.
      intros Hs I. unfold ng_backoff. destruct (Z.eqb_spec s (-1)) as [->|_]; [destruct Hs; lia|].
      rewrite (has_state_get _ _ _ Hs). cbn [bind].
      destruct (find _ (ps_arcs st)) as [a|] eqn:E.
      - apply find_some in E. destruct E as [A B]. apply andb_prop in B. destruct B as [B _].
        assert (a = Arc 0 g b) as ->.
        { eapply NoDup_arc; [apply (can_labels _ C s st Hs)|auto|auto|]. simpl. lia. }
        reflexivity.
      - pose proof (find_none _ _ E _ I) as Q. simpl in Q. apply negb_false_iff in Q.
        apply Z.eqb_eq in Q. exfalso. exact (no_self_backoff s st g b Hs I Q).
    Qed.

    Lemma backoff_none s st : has_state f s st -> no_arc 0 st -> ng_backoff f s = Ok (-1, f1).
    Proof.
      intros Hs N. unfold ng_backoff. destruct (Z.eqb_spec s (-1)) as [->|_]; [destruct Hs; lia|].
      rewrite (has_state_get _ _ _ Hs). cbn [bind].
      destruct (find _ (ps_arcs st)) as [a|] eqn:E; auto.
      apply find_some in E. destruct E as [A B]. apply andb_prop in B. destruct B as [B _].
      destruct a as [l g b]. simpl in B. assert (l = 0) by lia. subst. exfalso. eapply N; eauto.
    Qed.

    Lemma backoff_cases s st : has_state f s st ->
      (exists g b, In (Arc 0 g b) (ps_arcs st)) \/ no_arc 0 st.
    Proof.
      intros Hs. destruct (arc_with 0 (ps_arcs st)) as [a|] eqn:E.
      - left. apply arc_with_In in E. destruct E as [A B]. destruct a as [l g b]. simpl in B. subst.
        eauto.
      - right. apply arc_with_None; auto.
    Qed.

    Lemma arc_cases x (st : pstate) : (exists w d, In (Arc x w d) (ps_arcs st)) \/ no_arc x st.
    Proof.
      destruct (arc_with x (ps_arcs st)) as [a|] eqn:E.
      - left. apply arc_with_In in E. destruct E as [A B]. destruct a as [l g b]. simpl in B. subst.
        eauto.
      - right. apply arc_with_None; auto.
    Qed.

    Lemma match_arc s st x w d : has_state f s st -> x <> 0 -> x <> -1 -> In (Arc x w d) (ps_arcs st) ->
      matcher_find s st x = Some (d, w).
    Proof.
      intros Hs X0 X1 I. unfold matcher_find. destruct (Z.eqb_spec x 0); [lia|].
      destruct (Z.eqb_spec x (-1)); [lia|].
      rewrite (arc_with_unique x (ps_arcs st) (Arc x w d)); auto. apply (can_labels _ C s st Hs).
    Qed.
    Lemma match_none s (st : pstate) x : x <> 0 -> x <> -1 -> no_arc x st -> matcher_find s st x = None.
    Proof.
      intros X0 X1 N. unfold matcher_find. destruct (Z.eqb_spec x 0); [lia|].
      destruct (Z.eqb_spec x (-1)); [lia|]. apply arc_with_None in N. rewrite N. reflexivity.
    Qed.

    (** The specification relations are total functions. *)
    Lemma backoff_ind (P : Z -> Prop) :
      (forall s st, has_state f s st ->
         (forall g b, In (Arc 0 g b) (ps_arcs st) -> P b) -> P s) ->
      forall s st, has_state f s st -> P s.
    Proof.
      intros H. destruct (can_acyclic _ C) as [rk R].
      assert (G : forall n s st, (rk s < n)%nat -> has_state f s st -> P s).
      { induction n as [|n IH]; intros s st L Hs; [lia|]. eapply H; eauto. intros g b I.
        destruct (can_dest _ C s st _ Hs I) as [st' Hb]. simpl in Hb.
        eapply (IH b st'); eauto. pose proof (R _ _ _ _ Hs I). lia. }
      intros s st Hs. eapply (G (S (rk s))); eauto.
    Qed.

    Lemma same_backoff s st g b g' b' : has_state f s st ->
      In (Arc 0 g b) (ps_arcs st) -> In (Arc 0 g' b') (ps_arcs st) -> g = g' /\ b = b'.
    Proof.
      intros Hs A B. assert (E : Arc 0 g b = Arc 0 g' b').
      { eapply NoDup_arc; [apply (can_labels _ C s st Hs)|auto|auto|reflexivity]. }
      inversion E. auto.
    Qed.

    Lemma symbol_prob_ex x s st : has_state f s st -> exists p, symbol_prob f x s p.
    Proof.
      intros Hs. revert s st Hs. apply backoff_ind. intros s st Hs IH.
      destruct (arc_cases x st) as [[w [d I]]|N]; [eexists; eapply prob_here; eauto|].
      destruct (backoff_cases s st Hs) as [[g [b I]]|N0].
      - destruct (IH g b I) as [p Hp]. exists (fmul g p). eapply prob_backoff; eauto.
      - exists f0. eapply prob_none; eauto.
    Qed.
    Lemma end_prob_ex s st : has_state f s st -> exists p, end_prob f s p.
    Proof.
      intros Hs. revert s st Hs. apply backoff_ind. intros s st Hs IH.
      destruct (feqb (ps_final st) f0) eqn:E; [apply feqb_eq in E|apply feqb_neq in E].
      - destruct (backoff_cases s st Hs) as [[g [b I]]|N0].
        + destruct (IH g b I) as [p Hp]. exists (fmul g p). eapply end_backoff; eauto.
        + exists f0. eapply end_none; eauto.
      - eexists; eapply end_here; eauto.
    Qed.

    Lemma symbol_prob_fun x s p p' : symbol_prob f x s p -> symbol_prob f x s p' -> p = p'.
    Proof.
      intros H. revert p'. induction H as [s st w d Hs I|s st g b p Hs N I H IH|s st Hs N N0];
        intros p' H'; inversion H' as [s' st' w' d' Hs' I'|s' st' g' b' q Hs' N' I' H1|s' st' Hs' N' N0'];
        subst; pose proof (has_state_fun _ _ _ _ Hs Hs'); subst st'; try (exfalso; eapply N'; eauto; fail);
        try (exfalso; eapply N; eauto; fail); try (exfalso; eapply N0; eauto; fail);
        try (exfalso; eapply N0'; eauto; fail); auto.
      - assert (E : Arc x w d = Arc x p' d').
        { eapply NoDup_arc; [apply (can_labels _ C s st Hs)|auto|auto|reflexivity]. }
        inversion E; auto.
      - destruct (same_backoff s st _ _ _ _ Hs I I') as [-> ->]. f_equal. auto.
    Qed.
    Lemma end_prob_fun s p p' : end_prob f s p -> end_prob f s p' -> p = p'.
    Proof.
      intros H. revert p'. induction H as [s st Hs I|s st g b p Hs N I H IH|s st Hs N N0];
        intros p' H'; inversion H' as [s' st' Hs' I'|s' st' g' b' q Hs' N' I' H1|s' st' Hs' N' N0'];
        subst; pose proof (has_state_fun _ _ _ _ Hs Hs'); subst st'; try congruence;
        try (exfalso; eapply N0; eauto; fail);
        try (exfalso; eapply N0'; eauto; fail); auto.
      destruct (same_backoff s st _ _ _ _ Hs I I') as [-> ->]. f_equal. auto.
    Qed.
    Lemma symbol_dest_fun x s p p' : symbol_dest f x s p -> symbol_dest f x s p' -> p = p'.
    Proof.
      intros H. revert p'. induction H as [s st w d Hs I|s st g b p Hs N I H IH|s st Hs N N0];
        intros p' H'; inversion H' as [s' st' w' d' Hs' I'|s' st' g' b' q Hs' N' I' H1|s' st' Hs' N' N0'];
        subst; pose proof (has_state_fun _ _ _ _ Hs Hs'); subst st'; try (exfalso; eapply N'; eauto; fail);
        try (exfalso; eapply N; eauto; fail); try (exfalso; eapply N0; eauto; fail);
        try (exfalso; eapply N0'; eauto; fail); auto.
      - assert (E : Arc x w d = Arc x w' d').
        { eapply NoDup_arc; [apply (can_labels _ C s st Hs)|auto|auto|reflexivity]. }
        inversion E; auto.
      - destruct (same_backoff s st _ _ _ _ Hs I I') as [-> ->]. auto.
    Qed.

    Lemma symbol_prob_nonneg x s p : symbol_prob f x s p -> fle f0 p = true.
    Proof.
      intros H. induction H as [s st w d Hs I|s st g b p Hs N I H IH|s st Hs N N0].
      - destruct (can_weights _ C s st Hs) as [_ W]. apply (W _ I).
      - destruct (can_weights _ C s st Hs) as [_ W]. apply fmul_nonneg; auto. apply (W _ I).
      - apply fle_refl.
    Qed.
    Lemma end_prob_nonneg s p : end_prob f s p -> fle f0 p = true.
    Proof.
      intros H. induction H as [s st Hs I|s st g b p Hs N I H IH|s st Hs N N0].
      - destruct (can_weights _ C s st Hs) as [W _]. auto.
      - destruct (can_weights _ C s st Hs) as [_ W]. apply fmul_nonneg; auto. apply (W _ I).
      - apply fle_refl.
    Qed.

    Variable m : ngram F.
    Hypothesis Ef : ng_fst m = f.

    Lemma label_loop_ok rk x : x <> 0 -> x <> -1 ->
      (forall s st g b, has_state f s st -> In (Arc 0 g b) (ps_arcs st) -> (rk b < rk s)%nat) ->
      forall fuel s st cost, has_state f s st -> (rk s < fuel)%nat ->
      exists p, symbol_prob f x s p /\ label_loop fuel m s x cost = Ok (fmul cost p).
    Proof.
      intros X0 X1 R. induction fuel as [|n IH]; intros s st cost Hs L; [lia|].
      cbn [label_loop]. destruct (Z.ltb_spec s 0); [destruct Hs; lia|]. rewrite Ef, (has_state_get _ _ _ Hs).
      cbn [bind]. destruct (arc_cases x st) as [[w [d I]]|N].
      - rewrite (match_arc s st x w d Hs X0 X1 I). exists w. split; auto. eapply prob_here; eauto.
      - rewrite (match_none s st x X0 X1 N).
        destruct (backoff_cases s st Hs) as [[g [b I]]|N0].
        + rewrite (backoff_some s st g b Hs I). cbn [bind].
          destruct (can_dest _ C s st _ Hs I) as [st' Hb]. simpl in Hb.
          destruct (IH b st' (fmul cost g) Hb) as [p [P1 P2]].
          { pose proof (R _ _ _ _ Hs I). lia. }
          exists (fmul g p). split; [eapply prob_backoff; eauto|]. rewrite P2. f_equal. ring.
        + rewrite (backoff_none s st Hs N0). cbn [bind]. exists f0. split; [eapply prob_none; eauto|].
          assert (E : label_loop n m (-1) x (fmul cost f1) = Ok f0) by (destruct n; reflexivity).
          rewrite E. f_equal. ring.
    Qed.

    Lemma final_loop_ok rk :
      (forall s st g b, has_state f s st -> In (Arc 0 g b) (ps_arcs st) -> (rk b < rk s)%nat) ->
      forall fuel s st bo, has_state f s st -> (rk s < fuel)%nat -> ps_final st = f0 ->
      exists p, end_prob f s p /\ final_loop fuel m s bo = Ok (fmul bo p).
    Proof.
      intros R. induction fuel as [|n IH]; intros s st bo Hs L Z0; [lia|].
      cbn [final_loop]. rewrite Ef.
      destruct (backoff_cases s st Hs) as [[g [b I]]|N0].
      - rewrite (backoff_some s st g b Hs I). cbn [bind].
        destruct (can_dest _ C s st _ Hs I) as [st' Hb]. simpl in Hb.
        destruct (Z.leb_spec 0 b); [|destruct Hb; lia]. rewrite (has_state_get _ _ _ Hb). cbn [bind].
        destruct (feqb (ps_final st') f0) eqn:E; [apply feqb_eq in E|apply feqb_neq in E].
        + destruct (IH b st' (fmul bo g) Hb) as [p [P1 P2]]; auto.
          { pose proof (R _ _ _ _ Hs I). lia. }
          exists (fmul g p). split; [eapply end_backoff; eauto|]. rewrite P2. f_equal. ring.
        + exists (fmul g (ps_final st')). split.
          * eapply end_backoff; eauto. apply end_here; auto.
          * f_equal. ring.
      - rewrite (backoff_none s st Hs N0). cbn [bind]. exists f0. split; [eapply end_none; eauto|].
        simpl. f_equal. ring.
    Qed.

    Lemma next_loop_ok rk x : x <> 0 -> x <> -1 ->
      (forall s st g b, has_state f s st -> In (Arc 0 g b) (ps_arcs st) -> (rk b < rk s)%nat) ->
      forall fuel s st, has_state f s st -> (rk s < fuel)%nat ->
      exists r, symbol_dest f x s r /\
        next_model_loop fuel m s x = Ok (match r with Some d => d | None => ng_unigram m end).
    Proof.
      intros X0 X1 R. induction fuel as [|n IH]; intros s st Hs L; [lia|].
      cbn [next_model_loop]. destruct (Z.eqb_spec s (-1)) as [->|_]; [destruct Hs; lia|].
      rewrite Ef, (has_state_get _ _ _ Hs).
      cbn [bind]. destruct (arc_cases x st) as [[w [d I]]|N].
      - rewrite (match_arc s st x w d Hs X0 X1 I). exists (Some d). split; auto. eapply dest_here; eauto.
      - rewrite (match_none s st x X0 X1 N).
        destruct (backoff_cases s st Hs) as [[g [b I]]|N0].
        + rewrite (backoff_some s st g b Hs I). cbn [bind].
          destruct (can_dest _ C s st _ Hs I) as [st' Hb]. simpl in Hb.
          destruct (IH b st' Hb) as [r [P1 P2]].
          { pose proof (R _ _ _ _ Hs I). lia. }
          exists r. split; [eapply dest_backoff; eauto|]. auto.
        + rewrite (backoff_none s st Hs N0). cbn [bind]. exists None. split; [eapply dest_none; eauto|].
          destruct n; reflexivity.
    Qed.

    Lemma label_cost_sym x s st : x <> 0 -> x <> -1 -> has_state f s st ->
      exists p, symbol_prob f x s p /\ label_cost m s x = Ok p.
    Proof.
      intros X0 X1 Hs. destruct bounded_rank as [rk [R1 R2]]. pose proof (R1 s st Hs) as L.
      destruct (label_loop_ok rk x X0 X1 R2 (S (length f)) s st f1 Hs ltac:(lia)) as [p [P1 P2]].
      exists p. split; auto. unfold label_cost. destruct (Z.eqb_spec x 0); [lia|]. rewrite Ef, P2.
      f_equal. ring.
    Qed.
    Lemma label_cost_end s st : has_state f s st ->
      exists p, end_prob f s p /\ label_cost m s 0 = Ok p.
    Proof.
      intros Hs. destruct bounded_rank as [rk [R1 R2]]. pose proof (R1 s st Hs) as L.
      unfold label_cost. cbn [Z.eqb]. unfold final_cost. rewrite Ef, (has_state_get _ _ _ Hs). cbn [bind].
      destruct (feqb (ps_final st) f0) eqn:E; [apply feqb_eq in E|apply feqb_neq in E].
      - destruct (final_loop_ok rk R2 (S (length f)) s st f1 Hs ltac:(lia) E) as [p [P1 P2]].
        exists p. split; auto. rewrite P2. f_equal. ring.
      - eexists; split; [apply end_here; eauto|]. reflexivity.
    Qed.
    Lemma next_model_ok x s st : x <> 0 -> x <> -1 -> has_state f s st ->
      exists r, symbol_dest f x s r /\
        next_model_state m s x = Ok (match r with Some d => d | None => ng_unigram m end).
    Proof.
      intros X0 X1 Hs. destruct bounded_rank as [rk [R1 R2]]. pose proof (R1 s st Hs) as L.
      unfold next_model_state. rewrite Ef. eapply next_loop_ok; eauto.
    Qed.
    Lemma next_model_0 s st : has_state f s st -> next_model_state m s 0 = Ok s.
    Proof.
      intros Hs. unfold next_model_state. cbn [next_model_loop].
      destruct (Z.eqb_spec s (-1)) as [->|_]; [destruct Hs; lia|].
      rewrite Ef, (has_state_get _ _ _ Hs). reflexivity.
    Qed.

    (** No <unk>: label -1 matches the back-off arc. *)
    Lemma next_model_unk s st : has_state f s st ->
      next_model_state m s (-1) =
      Ok (match arc_with 0 (ps_arcs st) with Some a => a_next a | None => ng_unigram m end).
    Proof.
      intros Hs. unfold next_model_state. cbn [next_model_loop].
      destruct (Z.eqb_spec s (-1)) as [->|_]; [destruct Hs; lia|].
      rewrite Ef, (has_state_get _ _ _ Hs). cbn [bind]. unfold matcher_find.
      change (-1 =? 0) with false. change (-1 =? -1) with true. cbv iota.
      destruct (arc_with 0 (ps_arcs st)) as [a|] eqn:E; auto.
      apply arc_with_None in E. rewrite (backoff_none s st Hs E). cbn [bind].
      destruct (length f); reflexivity.
    Qed.
    Lemma label_cost_unk s st : has_state f s st ->
      label_cost m s (-1) =
      Ok (match arc_with 0 (ps_arcs st) with Some a => a_count a | None => f0 end).
    Proof.
      intros Hs. unfold label_cost. cbn [Z.eqb label_loop]. destruct (Z.ltb_spec s 0); [destruct Hs; lia|].
      rewrite Ef, (has_state_get _ _ _ Hs). cbn [bind]. unfold matcher_find.
      change (-1 =? 0) with false. change (-1 =? -1) with true. cbv iota.
      destruct (arc_with 0 (ps_arcs st)) as [a|] eqn:E.
      - f_equal. ring.
      - apply arc_with_None in E. rewrite (backoff_none s st Hs E). cbn [bind].
        destruct (length f); reflexivity.
    Qed.

    (** * Sums *)
    Lemma symbol_arcs_In (st : pstate) a : In a (symbol_arcs st) <-> In a (ps_arcs st) /\ a_label a <> 0.
    Proof. unfold symbol_arcs. rewrite filter_In. split; intros [A B]; split; auto; lia. Qed.

    Lemma symbol_arcs_NoDup s st : has_state f s st -> NoDup (map a_label (symbol_arcs st)).
    Proof.
      intros Hs. pose proof (can_labels _ C s st Hs) as N. unfold symbol_arcs.
      induction (ps_arcs st) as [|a t IH]; simpl; auto. simpl in N. inversion N as [|? ? N1 N2]; subst.
      destruct (negb (a_label a =? 0)); simpl; auto. constructor; auto.
      intros I. apply N1. apply in_map_iff in I. destruct I as [a' [E I]]. apply filter_In in I.
      rewrite <- E. apply in_map. tauto.
    Qed.

    (** Sum over the labels of a state's own arcs. *)
    Lemma sum_over_arcs (st : pstate) (g : Z -> car F) (labels : list Z) :
      NoDup labels -> NoDup (map a_label (symbol_arcs st)) ->
      (forall a, In a (symbol_arcs st) -> In (a_label a) labels) ->
      fsum (map (fun x => match arc_with x (symbol_arcs st) with Some a => g x | None => f0 end) labels) =
      fsum (map (fun a => g (a_label a)) (symbol_arcs st)).
    Proof.
      intros NL. revert g. generalize (symbol_arcs st) as arcs. clear st.
      induction arcs as [|a t IH]; intros g NA I.
      - simpl. apply fsum_map_zero.
      - simpl in NA. inversion NA as [|? ? N1 N2]; subst. cbn [map]. rewrite fsum_cons, <- (IH g); auto.
        2:{ intros a' Ha. apply I. right; auto. }
        assert (Ia : In (a_label a) labels) by (apply I; left; auto).
        assert (T : forall x, arc_with x (a :: t) =
                  if a_label a =? x then Some a else arc_with x t) by (intros; reflexivity).
        assert (G : fsum (map (fun x => if a_label a =? x then g x else f0) labels) = g (a_label a)).
        { clear I N2 NA T IH. induction labels as [|y l IHl]; [destruct Ia|].
          inversion NL as [|? ? M1 M2]; subst. cbn [map]. rewrite fsum_cons.
          destruct Ia as [->|Ia].
          - rewrite Z.eqb_refl.
            replace (fsum (map _ l)) with (@f0 F); [ring|]. symmetry.
            etransitivity; [|apply (fsum_map_zero Z l)]. apply fsum_map_ext. intros x Hx.
            destruct (Z.eqb_spec (a_label a) x); auto. subst. tauto.
          - destruct (Z.eqb_spec (a_label a) y); [subst; tauto|]. rewrite IHl; auto. ring. }
        rewrite <- G at 1. rewrite <- fsum_map_add. apply fsum_map_ext. intros x Hx.
        rewrite T. destruct (Z.eqb_spec (a_label a) x) as [E|E].
        + destruct (arc_with x t) as [a'|] eqn:E2.
          * apply arc_with_In in E2. destruct E2 as [E3 E4]. exfalso. apply N1. rewrite E, <- E4.
            apply in_map; auto.
          * ring.
        + ring.
    Qed.

    Lemma arc_with_symbol x (st : pstate) : x <> 0 -> arc_with x (symbol_arcs st) = arc_with x (ps_arcs st).
    Proof.
      intros X. unfold symbol_arcs. generalize (ps_arcs st) as l. induction l as [|a t IH]; auto.
      cbn [filter]. destruct (Z.eqb_spec (a_label a) 0) as [E|E]; cbn [negb].
      - rewrite IH. unfold arc_with. cbn [find]. destruct (Z.eqb_spec (a_label a) x); [lia|auto].
      - unfold arc_with in *. cbn [find]. rewrite IH. reflexivity.
    Qed.

    Definition pf (s x : Z) : car F := match label_cost m s x with Ok p => p | _ => f0 end.

    Lemma pf_sym s st x : has_state f s st -> x <> 0 -> x <> -1 -> symbol_prob f x s (pf s x).
    Proof.
      intros Hs X0 X1. destruct (label_cost_sym x s st X0 X1 Hs) as [p [P1 P2]]. unfold pf. rewrite P2. auto.
    Qed.
    Lemma pf_end s st : has_state f s st -> end_prob f s (pf s 0).
    Proof.
      intros Hs. destruct (label_cost_end s st Hs) as [p [P1 P2]]. unfold pf. rewrite P2. auto.
    Qed.
    Lemma pf_here s st x w d : has_state f s st -> x <> 0 -> x <> -1 -> In (Arc x w d) (ps_arcs st) -> pf s x = w.
    Proof.
      intros Hs X0 X1 I. eapply symbol_prob_fun; [eapply pf_sym; eauto|]. eapply prob_here; eauto.
    Qed.
    Lemma pf_backoff s st x g b : has_state f s st -> x <> 0 -> x <> -1 -> no_arc x st ->
      In (Arc 0 g b) (ps_arcs st) -> pf s x = fmul g (pf b x).
    Proof.
      intros Hs X0 X1 N I. eapply symbol_prob_fun; [eapply pf_sym; eauto|]. eapply prob_backoff; eauto.
      destruct (can_dest _ C s st _ Hs I) as [st' Hb]. eapply pf_sym; eauto.
    Qed.
    Lemma pf_none s st x : has_state f s st -> x <> 0 -> x <> -1 -> no_arc x st -> no_arc 0 st -> pf s x = f0.
    Proof.
      intros Hs X0 X1 N N0. eapply symbol_prob_fun; [eapply pf_sym; eauto|]. eapply prob_none; eauto.
    Qed.

    Lemma mass_one (labels : list Z) : normalized f -> NoDup labels -> (forall x, In x labels -> 0 < x) ->
      (forall s st a, has_state f s st -> In a (symbol_arcs st) -> In (a_label a) labels) ->
      forall s st, has_state f s st -> fadd (pf s 0) (fsum (map (pf s) labels)) = f1.
    Proof.
      intros NM NL PL IL. apply backoff_ind. intros s st Hs IH.
      pose proof (symbol_arcs_NoDup s st Hs) as NA.
      destruct (NM s st Hs) as [NM1 NM2].
      assert (ID : forall x, In x labels -> arc_with x (symbol_arcs st) = arc_with x (ps_arcs st)).
      { intros x Hx. apply arc_with_symbol. pose proof (PL x Hx). lia. }
      set (wt := fun x => match arc_with x (symbol_arcs st) with Some a' => a_count a' | None => f0 end) in *.
      assert (HW : fsum (map (fun a => wt (a_label a)) (symbol_arcs st)) =
                   fsum (map a_count (symbol_arcs st))).
      { apply fsum_map_ext. intros a Ha. unfold wt.
        rewrite (arc_with_unique (a_label a) (symbol_arcs st) a); auto. }
      pose proof (sum_over_arcs st wt labels NL NA (fun a => IL s st a Hs)) as SW.
      rewrite HW in SW.
      destruct (backoff_cases s st Hs) as [[g [b I]]|N0].
      - pose proof (IH g b I) as Tb. destruct (can_dest _ C s st _ Hs I) as [stb Hb]. simpl in Hb.
        assert (Q : Forall2 (fun a p => symbol_prob f (a_label a) b p) (symbol_arcs st)
                            (map (fun a => pf b (a_label a)) (symbol_arcs st))).
        { assert (PA : forall a, In a (symbol_arcs st) -> 0 < a_label a)
            by (intros a Ha; apply PL; exact (IL s st a Hs Ha)).
          revert PA. generalize (symbol_arcs st) as l. induction l as [|a t IHl]; intros PA; simpl; constructor.
          - eapply pf_sym; eauto; pose proof (PA a (or_introl eq_refl)); lia.
          - apply IHl. intros a' Ha'. apply PA. right; auto. }
        pose proof (NM2 g b (pf b 0) _ I (pf_end b stb Hb) Q) as E. clear Q NM2.
        pose proof (sum_over_arcs st (pf b) labels NL NA (fun a => IL s st a Hs)) as SQ.
        assert (SP : fsum (map (pf s) labels) =
                     fadd (fsum (map (fun x => fmul g (pf b x)) labels))
                      (fsub (fsum (map a_count (symbol_arcs st)))
                        (fmul g (fsum (map (fun a => pf b (a_label a)) (symbol_arcs st)))))).
        { rewrite <- SW, <- SQ.
          assert (X1 : forall x, In x labels -> pf s x =
            fsub (fadd (fmul g (pf b x)) (match arc_with x (symbol_arcs st) with Some _ => wt x | None => f0 end))
                 (fmul g (match arc_with x (symbol_arcs st) with Some _ => pf b x | None => f0 end))).
          { intros x Hx. pose proof (PL x Hx) as Px. unfold wt. rewrite (ID x Hx).
            destruct (arc_with x (ps_arcs st)) as [a|] eqn:Ea.
            - apply arc_with_In in Ea. destruct Ea as [Ea1 Ea2]. destruct a as [l w d]. simpl in Ea2. subst l.
              rewrite (pf_here s st x w d Hs ltac:(lia) ltac:(lia) Ea1). simpl. ring.
            - apply arc_with_None in Ea. rewrite (pf_backoff s st x g b Hs ltac:(lia) ltac:(lia) Ea I). ring. }
          clear - X1. induction labels as [|y l IHl]; [simpl; ring|].
          cbn [map]. rewrite !fsum_cons, IHl by (intros; apply X1; right; auto).
          rewrite (X1 y) by (left; auto). ring. }
        rewrite SP, fsum_map_mul.
        destruct (feqb (ps_final st) f0) eqn:Z0; [apply feqb_eq in Z0|apply feqb_neq in Z0].
        + rewrite Z0 in E.
          assert (PE : pf s 0 = fmul g (pf b 0)).
          { eapply end_prob_fun; [eapply pf_end; eauto|]. eapply end_backoff; eauto. eapply pf_end; eauto. }
          rewrite PE. rewrite <- E. rewrite <- Tb. ring.
        + assert (PE : pf s 0 = ps_final st).
          { eapply end_prob_fun; [eapply pf_end; eauto|]. eapply end_here; eauto. }
          rewrite PE. rewrite <- E. rewrite <- Tb. ring.
      - rewrite <- (NM1 N0).
        assert (PE : pf s 0 = ps_final st).
        { eapply end_prob_fun; [eapply pf_end; eauto|].
          destruct (feqb (ps_final st) f0) eqn:Z0; [apply feqb_eq in Z0|apply feqb_neq in Z0].
          - rewrite Z0. eapply end_none; eauto.
          - eapply end_here; eauto. }
        rewrite PE. f_equal. rewrite <- SW. apply fsum_map_ext. intros x Hx. pose proof (PL x Hx).
        unfold wt. rewrite (ID x Hx). destruct (arc_with x (ps_arcs st)) as [a|] eqn:Ea.
        + apply arc_with_In in Ea. destruct Ea as [Ea1 Ea2]. destruct a as [l w d]. simpl in Ea2. subst l.
          apply (pf_here s st x w d Hs ltac:(lia) ltac:(lia) Ea1).
        + apply arc_with_None in Ea. eapply pf_none; eauto; lia.
    Qed.
  End Can.
End Ng.
