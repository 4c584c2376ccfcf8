(** Queries on the hub leave what is there in place (C40). *)
From Verif Require Import Base Field LmModel HubModel HubSpec HubProofs ServerModel.
Local Open Scope Z_scope.

(** The answer of a call, without the memory it leaves. *)
Definition ans {A M : Type} (o : outcome (A * M)) : outcome A := let* (a, _) := o in Ok a.

Section Query.
  Context {F : ofield} {M : Type}.
  Variable ops : comp_ops F M.
  Notation hub := (hub F M).
  Notation reach := (c_reach ops false).
  Notation evolve := (Forall2 reach).
  Implicit Types (h X Y : hub) (x : hstate F).

  (** A component whose answers are not affected by queries. *)
  Definition query_stable (m : M) : Prop :=
    forall m2, reach m m2 -> forall t,
      (forall c, ans (c_next ops m2 t c) = ans (c_next ops m t c)) /\
      (forall c, ans (c_score ops m2 t c) = ans (c_score ops m t c)) /\
      ans (c_extract ops m2 t) = ans (c_extract ops m t).

  Lemma reach_tr m1 m2 m3 : reach m1 m2 -> reach m2 m3 -> reach m1 m3.
  Proof. intros H1 H2; induction H2; auto. econstructor; eauto. Qed.
  Lemma reach_1 m1 m2 : c_step ops false m1 m2 -> reach m1 m2.
  Proof. intros H. econstructor; [apply reach_refl|exact H]. Qed.
  Lemma ev_refl l : evolve l l.
  Proof. induction l; constructor; auto. apply reach_refl. Qed.
  Lemma ev_trans l1 l2 l3 : evolve l1 l2 -> evolve l2 l3 -> evolve l1 l3.
  Proof. intros H; revert l3; induction H; intros l3 H3; inversion H3; subst; constructor; auto. eapply reach_tr; eauto. Qed.
  Lemma stable_reach m m2 : query_stable m -> reach m m2 -> query_stable m2.
  Proof.
    intros Q R m3 R3 t. destruct (Q m2 R t) as (A1 & A2 & A3). destruct (Q m3 (reach_tr _ _ _ R R3) t) as (B1 & B2 & B3).
    split; [intros c; congruence|]. split; [intros c; rewrite B2, A2; auto|congruence].
  Qed.
  Lemma stable_ev l l2 : Forall query_stable l -> evolve l l2 -> Forall query_stable l2.
  Proof. intros Q E. induction E; inversion Q; subst; constructor; auto. eapply stable_reach; eauto. Qed.

  Lemma ans_Ok {A B} (o : outcome (A * B)) a b : o = Ok (a, b) -> ans o = Ok a.
  Proof. intros ->. reflexivity. Qed.
  Lemma ans_inv {A B} (o : outcome (A * B)) a : ans o = Ok a -> exists b, o = Ok (a, b).
  Proof. destruct o as [[x y]| | |]; cbn; try discriminate. intros E. injection E as ->. eauto. Qed.
  Lemma ans_bind {A B C D} (o : outcome (A * B)) (f : A -> B -> outcome (C * D)) (g : A -> outcome C) :
    (forall a b, o = Ok (a, b) -> ans (f a b) = g a) -> ans (let* (a, b) := o in f a b) = let* a := ans o in g a.
  Proof. intros H. destruct o as [[x y]| | |]; cbn; auto. Qed.

  (** *** the components together *)
  Lemma comps_next_ev s lms : forall idx c xs lms', comps_next ops s idx lms c = Ok (xs, lms') -> evolve lms lms'.
  Proof.
    induction lms as [|m t IH]; intros idx c xs lms'; cbn [comps_next].
    - intros [= <- <-]; constructor.
    - intros E. apply bind_Ok in E. destruct E as [[x m'] [E1 E]]. apply bind_Ok in E. destruct E as [[xs' t'] [E2 E]]. injection E as <- <-.
      constructor; eauto. apply reach_1. eapply step_next; eauto.
  Qed.
  Lemma comps_score_ev s lms : forall idx c xs lms', comps_score ops s idx lms c = Ok (xs, lms') -> evolve lms lms'.
  Proof.
    induction lms as [|m t IH]; intros idx c xs lms'; cbn [comps_score].
    - intros [= <- <-]; constructor.
    - intros E. apply bind_Ok in E. destruct E as [[x m'] [E1 E]]. apply bind_Ok in E. destruct E as [[xs' t'] [E2 E]]. injection E as <- <-.
      constructor; eauto. apply reach_1. eapply step_score; eauto.
  Qed.
  Lemma mix_loop_ev s ws : forall idx lms norm acc r lms', mix_loop ops s idx ws lms norm acc = Ok (r, lms') -> evolve lms lms'.
  Proof.
    induction ws as [|w ws IH]; intros idx lms norm acc r lms'; cbn [mix_loop].
    - intros [= <- <-]. apply ev_refl.
    - destruct lms as [|m t]; [discriminate|]. intros E. apply bind_Ok in E. destruct E as [[x m'] [E1 E]].
      assert (R : reach m m') by (apply reach_1; eapply step_extract; eauto).
      destruct x as [sc|].
      + apply bind_Ok in E. destruct E as [[r1 t'] [E2 E]]. injection E as <- <-. constructor; eauto.
      + injection E as <- <-. constructor; auto. apply ev_refl.
  Qed.

  Lemma comps_next_ans s s2 : h_models s2 = h_models s -> forall lms lms2, Forall query_stable lms -> evolve lms lms2 ->
    forall idx c, ans (comps_next ops s2 idx lms2 c) = ans (comps_next ops s idx lms c).
  Proof.
    intros HM lms lms2 Q E. induction E as [|m m2 l l2 R E IH]; intros idx c; auto.
    inversion Q as [|? ? Qm Ql]; subst. cbn [comps_next].
    assert (X : hs_model s2 idx = hs_model s idx) by (unfold hs_model; rewrite HM; auto).
    rewrite X. destruct (Qm m2 R (hs_model s idx)) as [A _]. specialize (A c). specialize (IH Ql (S idx) c).
    destruct (c_next ops m2 _ c) as [[x y]| | |], (c_next ops m _ c) as [[x' y']| | |]; cbn in A |- *; try discriminate; auto.
    injection A as <-.
    destruct (comps_next ops s2 (S idx) l2 c) as [[a b]| | |], (comps_next ops s (S idx) l c) as [[a' b']| | |]; cbn in IH |- *; congruence.
  Qed.
  Lemma comps_score_ans s s2 : h_models s2 = h_models s -> forall lms lms2, Forall query_stable lms -> evolve lms lms2 ->
    forall idx c, ans (comps_score ops s2 idx lms2 c) = ans (comps_score ops s idx lms c).
  Proof.
    intros HM lms lms2 Q E. induction E as [|m m2 l l2 R E IH]; intros idx c; auto.
    inversion Q as [|? ? Qm Ql]; subst. cbn [comps_score].
    assert (X : hs_model s2 idx = hs_model s idx) by (unfold hs_model; rewrite HM; auto).
    rewrite X. destruct (Qm m2 R (hs_model s idx)) as [_ [A _]]. specialize (A c). specialize (IH Ql (S idx) c).
    destruct (c_score ops m2 _ c) as [[x y]| | |], (c_score ops m _ c) as [[x' y']| | |]; cbn in A |- *; try discriminate; auto.
    injection A as <-.
    destruct (comps_score ops s2 (S idx) l2 c) as [[a b]| | |], (comps_score ops s (S idx) l c) as [[a' b']| | |]; cbn in IH |- *; congruence.
  Qed.
  Lemma mix_loop_ans s s2 : h_models s2 = h_models s -> forall ws lms lms2, Forall query_stable lms -> evolve lms lms2 ->
    forall idx norm acc, ans (mix_loop ops s2 idx ws lms2 norm acc) = ans (mix_loop ops s idx ws lms norm acc).
  Proof.
    intros HM. induction ws as [|w ws IH]; intros lms lms2 Q E idx norm acc; cbn [mix_loop]; auto.
    destruct E as [|m m2 l l2 R E]; auto. inversion Q as [|? ? Qm Ql]; subst.
    assert (X : hs_model s2 idx = hs_model s idx) by (unfold hs_model; rewrite HM; auto).
    rewrite X. destruct (Qm m2 R (hs_model s idx)) as [_ [_ A]].
    destruct (c_extract ops m2 _) as [[x y]| | |], (c_extract ops m _) as [[x' y']| | |]; cbn in A |- *; try discriminate; auto.
    injection A as <-. destruct x as [sc|]; auto.
    specialize (IH l l2 Ql E (S idx) (nadd norm (nmul (Val (sc_norm sc)) w)) (mix_results sc w acc)).
    destruct (mix_loop ops s2 (S idx) ws l2 _ _) as [[a b]| | |], (mix_loop ops s (S idx) ws l _ _) as [[a' b']| | |]; cbn in IH |- *; congruence.
  Qed.

  (** ** What NextState does while the pool is not full *)
  Definition grown X (st : Z) x (c : Z) (states : list Z) (hist : list (list (car F))) (sum : list (car F)) (lms : list M) : hub :=
    Hub (upd (hs X) (Z.to_nat st) (hs_add_next x c (Z.of_nat (length (hs X)))) ++ [HState states st [] c hist sum])
        (Z.of_nat (length (hs X))) (h_max X) (h_weights X) (h_bayes X) lms.

  Lemma upd_last {A} (l : list A) a b : upd (l ++ [a]) (length l) b = l ++ [b].
  Proof. induction l as [|y l IH]; cbn; congruence. Qed.

  Lemma hub_next_spec X s c x : 0 <= s -> nth_error (hs X) (Z.to_nat s) = Some x ->
    Z.of_nat (length (hs X)) < h_max X ->
    hub_next ops X s c =
    (if (c <? 0) || (0 <=? hs_next x c) then Ok (hs_next x c, X)
     else
       let* (states, lms1) := comps_next ops x 0 (h_lms X) c in
       if (h_bayes X =? 0)%nat then Ok (Z.of_nat (length (hs X)), grown X s x c states [] [] lms1)
       else match comps_score ops x 0 lms1 c with
            | Ok (probs, lms2) => Ok (Z.of_nat (length (hs X)),
                 grown X s x c states (shift_history probs (h_hist x)) (history_sums probs (h_hist x)) lms2)
            | Err => Ok (0, set_lms X lms1)
            | Crash => Crash
            | UB => UB
            end).
  Proof.
    intros S0 Hx Hm. pose proof (nth_error_Some_lt _ _ _ _ Hx) as L. unfold hub_next.
    assert (IR : in_range X s = true) by (unfold in_range; lia).
    rewrite IR. assert (V : vgetZ (hs X) s = Ok x) by (apply vgetZ_Ok; auto). rewrite V. cbn [bind].
    destruct ((c <? 0) || (0 <=? hs_next x c)); auto.
    destruct (comps_next ops x 0 (h_lms X) c) as [[states lms1]| | |]; cbn [bind]; auto.
    unfold assign_new_hub_state. cbn [hs h_max h_bayes set_lms].
    destruct (Z.leb_spec (h_max X) (Z.of_nat (length (hs X)))); [lia|]. cbn [bind set_last set_hs hs h_bayes h_weights h_max h_lms set_lms].
    assert (V2 : vgetZ (hs X ++ [new_hstate states s c (h_bayes X)]) s = Ok x).
    { apply vgetZ_Ok. split; auto. rewrite nth_error_app1; auto. }
    rewrite V2. cbn [bind]. rewrite upd_app_l by auto.
    unfold update_bayesian_history, set_hs, set_last, set_lms. cbn [hs h_last h_weights h_max h_bayes h_lms].
    replace (0 <=? Z.of_nat (length (hs X))) with true by (symmetry; apply Z.leb_le; lia). cbn [andb].
    set (l := upd (hs X) (Z.to_nat s) (hs_add_next x c (Z.of_nat (length (hs X))))).
    assert (Ll : length l = length (hs X)) by apply upd_length.
    destruct (Nat.eqb_spec (h_bayes X) 0) as [B0|B0].
    - destruct (Nat.ltb_spec 0 (h_bayes X)); [lia|]. cbn [bind]. unfold grown, new_hstate, set_hs, set_last, set_lms. cbn [hs h_last h_max h_weights h_bayes h_lms]. rewrite B0. reflexivity.
    - destruct (Nat.ltb_spec 0 (h_bayes X)); [|lia].
      assert (V3 : vgetZ (l ++ [new_hstate states s c (h_bayes X)]) (Z.of_nat (length (hs X))) = Ok (new_hstate states s c (h_bayes X))).
      { apply vgetZ_Ok. split; [lia|]. rewrite Nat2Z.id, nth_error_app2, Ll, Nat.sub_diag by lia. reflexivity. }
      rewrite V3. cbn [bind]. change (h_prev (new_hstate states s c (h_bayes X))) with s.
      replace (0 <=? s) with true by (symmetry; apply Z.leb_le; lia).
      assert (V4 : vgetZ (l ++ [new_hstate states s c (h_bayes X)]) s = Ok (hs_add_next x c (Z.of_nat (length (hs X))))).
      { apply vgetZ_Ok. split; auto. rewrite nth_error_app1 by (rewrite Ll; auto). unfold l. apply nth_error_upd_eq. auto. }
      rewrite V4. cbn [bind]. change (h_sym (new_hstate states s c (h_bayes X))) with c.
      change (h_hist (hs_add_next x c (Z.of_nat (length (hs X))))) with (h_hist x).
      assert (CS : forall l0 idx, comps_score ops (hs_add_next x c (Z.of_nat (length (hs X)))) idx l0 c = comps_score ops x idx l0 c).
      { induction l0 as [|m l0 IH]; intros idx; cbn [comps_score]; auto. change (hs_model (hs_add_next x c (Z.of_nat (length (hs X)))) idx) with (hs_model x idx).
        destruct (c_score ops m (hs_model x idx) c) as [[? ?]| | |]; cbn [bind]; auto. rewrite IH. auto. }
      rewrite CS.
      destruct (comps_score ops x 0 lms1 c) as [[probs lms2]| | |]; cbn [bind]; auto.
      unfold grown, set_hs, set_last, set_lms. cbn [hs h_last h_max h_weights h_bayes h_lms].
      rewrite Nat2Z.id. fold l. 
      assert (UL : forall (a b : hstate F), upd (l ++ [a]) (length (hs X)) b = l ++ [b]) by (intros; rewrite <- Ll; apply upd_last).
      rewrite UL. reflexivity.
  Qed.
  (** The same for a state that is not there: the start state. *)
  Lemma hub_next_norm X s c : in_range X s = false -> hub_next ops X s c = hub_next ops X 0 c.
  Proof. intros E. unfold hub_next. rewrite E. destruct (in_range X 0); auto. Qed.

  (** ** What stays *)
  Definition sig (s : hstate F) := (h_models s, h_hist s, h_sum s).

  (** The contents of the state for [c] after one with contents [x], asked of the components [lms]. *)
  Definition derived (bayes : nat) (lms : list M) x (c : Z) t : Prop :=
    ans (comps_next ops x 0 lms c) = Ok (h_models t) /\
    (if (bayes =? 0)%nat then h_hist t = [] /\ h_sum t = []
     else exists probs, ans (comps_score ops x 0 lms c) = Ok probs /\
            h_hist t = shift_history probs (h_hist x) /\ h_sum t = history_sums probs (h_hist x)).

  Record ext h X : Prop := {
    e_max : h_max X = h_max h;
    e_weights : h_weights X = h_weights h;
    e_bayes : h_bayes X = h_bayes h;
    e_lms : evolve (h_lms h) (h_lms X);
    e_len : (length (hs h) <= length (hs X))%nat;
    e_old : forall i s, nth_error (hs h) i = Some s -> exists s', nth_error (hs X) i = Some s' /\ sig s' = sig s /\
              forall c j, assoc c (h_next s) = Some j -> assoc c (h_next s') = Some j;
    e_new : forall i s c j, nth_error (hs X) i = Some s -> assoc c (h_next s) = Some j ->
              (exists s0, nth_error (hs h) i = Some s0 /\ assoc c (h_next s0) = Some j) \/
              (Z.of_nat (length (hs h)) <= j /\ 0 <= c /\
               exists t, nth_error (hs X) (Z.to_nat j) = Some t /\ derived (h_bayes h) (h_lms h) s c t)
  }.

  Lemma ext_refl h : ext h h.
  Proof.
    constructor; auto.
    - apply ev_refl.
    - intros i s H. exists s. auto.
    - intros i s c j H E. left. eauto.
  Qed.

  Lemma ext_lms h X l : ext h X -> evolve (h_lms X) l -> ext h (set_lms X l).
  Proof. intros [] E. constructor; auto. cbn. eapply ev_trans; eauto. Qed.

  Lemma derived_sig b lms x x' c t t' : sig x' = sig x -> sig t' = sig t -> derived b lms x c t -> derived b lms x' c t'.
  Proof.
    unfold sig. intros E1 E2. injection E1 as A1 A2 A3. injection E2 as B1 B2 B3. unfold derived.
    assert (N : forall l idx, comps_next ops x' idx l c = comps_next ops x idx l c).
    { induction l as [|m l IH]; intros idx; cbn [comps_next]; auto. unfold hs_model. rewrite A1. 
      destruct (c_next ops m _ c) as [[? ?]| | |]; cbn; auto. rewrite IH. auto. }
    assert (S : forall l idx, comps_score ops x' idx l c = comps_score ops x idx l c).
    { induction l as [|m l IH]; intros idx; cbn [comps_score]; auto. unfold hs_model. rewrite A1. 
      destruct (c_score ops m _ c) as [[? ?]| | |]; cbn; auto. rewrite IH. auto. }
    rewrite N, S, A2, B1, B2, B3. auto.
  Qed.

  Lemma assoc_add x c i d : assoc c (h_next x) = None ->
    assoc d (h_next (hs_add_next x c i)) = if c =? d then Some i else assoc d (h_next x).
  Proof.
    intros N. cbn [h_next hs_add_next]. rewrite N, assoc_app. cbn [assoc].
    destruct (Z.eqb_spec c d) as [->|]; [rewrite N; auto|]. destruct (assoc d (h_next x)); auto.
  Qed.

  Lemma ext_grown h X s c x states hist sum lms : hwf h -> ext h X -> 0 <= s -> nth_error (hs X) (Z.to_nat s) = Some x -> 0 <= c ->
    assoc c (h_next x) = None -> evolve (h_lms X) lms ->
    derived (h_bayes h) (h_lms h) x c (HState states s [] c hist sum) ->
    ext h (grown X s x c states hist sum lms).
  Proof.
    intros W [A1 A2 A3 A4 A5 A6 A7] S0 Hx C0 N EV D. pose proof (nth_error_Some_lt _ _ _ _ Hx) as L.
    set (n := Z.of_nat (length (hs X))) in *.
    set (l := upd (hs X) (Z.to_nat s) (hs_add_next x c n)).
    assert (Ll : length l = length (hs X)) by apply upd_length.
    set (t0 := HState states s [] c hist sum) in *.
    assert (GET : forall i t, nth_error (l ++ [t0]) i = Some t ->
      (i = length (hs X) /\ t = t0) \/
      exists t1, nth_error (hs X) i = Some t1 /\ sig t = sig t1 /\
        ((i = Z.to_nat s /\ t1 = x /\ t = hs_add_next x c n) \/ t = t1)).
    { intros i t Hi. destruct (Nat.lt_ge_cases i (length l)) as [Q|Q].
      - right. rewrite nth_error_app1 in Hi by auto. unfold l in Hi. rewrite nth_error_upd in Hi.
        destruct (Nat.eqb_spec (Z.to_nat s) i) as [<-|]; cbn [andb] in Hi.
        + destruct (Nat.ltb_spec (Z.to_nat s) (length (hs X))); [|lia]. injection Hi as <-. exists x. split; auto.
        + exists t. auto.
      - left. rewrite nth_error_app2 in Hi by auto. destruct (i - length l)%nat as [|d] eqn:E.
        + cbn in Hi. injection Hi as <-. split; auto. lia.
        + destruct d; discriminate. }
    assert (PUT : forall i t1, nth_error (hs X) i = Some t1 -> exists t, nth_error (l ++ [t0]) i = Some t /\ sig t = sig t1 /\
              forall d j, assoc d (h_next t1) = Some j -> assoc d (h_next t) = Some j).
    { intros i t1 Hi. pose proof (nth_error_Some_lt _ _ _ _ Hi) as Li. rewrite nth_error_app1 by lia. unfold l. rewrite nth_error_upd.
      destruct (Nat.eqb_spec (Z.to_nat s) i) as [<-|]; cbn [andb]; [|eauto].
      destruct (Nat.ltb_spec (Z.to_nat s) (length (hs X))); [|lia]. rewrite Hx in Hi. injection Hi as <-.
      eexists. split; [reflexivity|]. split; auto. intros d j E. rewrite assoc_add by auto.
      destruct (Z.eqb_spec c d) as [->|]; [congruence|auto]. }
    constructor; cbn [grown hs h_max h_weights h_bayes h_lms]; fold n; fold l; fold t0; auto.
    - eapply ev_trans; eauto.
    - rewrite app_length. cbn. lia.
    - intros i s0 Hi. destruct (A6 i s0 Hi) as (s1 & B1 & B2 & B3). destruct (PUT i s1 B1) as (t & C1 & C2 & C3).
      exists t. split; auto. split; [congruence|]. auto.
    - intros i t d j Hi E. destruct (GET i t Hi) as [[-> ->]|(t1 & B1 & B2 & B3)]; [discriminate|].
      assert (OLD : assoc d (h_next t1) = Some j ->
        (exists s0, nth_error (hs h) i = Some s0 /\ assoc d (h_next s0) = Some j) \/
        (Z.of_nat (length (hs h)) <= j /\ 0 <= d /\
         exists t2, nth_error (l ++ [t0]) (Z.to_nat j) = Some t2 /\ derived (h_bayes h) (h_lms h) t d t2)).
      { intros E1. destruct (A7 i t1 d j B1 E1) as [Q|(Q1 & Q2 & t2 & Q3 & Q4)]; auto. right. split; auto. split; auto.
        destruct (PUT _ _ Q3) as (t3 & C1 & C2 & C3). exists t3. split; auto. eapply derived_sig; [| |exact Q4]; auto. }
      destruct B3 as [(Ei & -> & ->)| ->]; auto.
      rewrite assoc_add in E by auto. destruct (Z.eqb_spec c d) as [<-|]; auto. injection E as <-. right.
      split; [lia|]. split; auto. exists t0. split.
      + unfold n. rewrite Nat2Z.id, nth_error_app2, Ll, Nat.sub_diag by lia. reflexivity.
      + eapply derived_sig; [| |exact D]; auto.
  Qed.

  (** ** Following the same path in two extensions *)
  Section Pair.
    Variable h : hub.
    Hypothesis (W : hwf h).
    Hypothesis (Q : Forall query_stable (h_lms h)).

    Inductive same X Y : Z -> Z -> Prop :=
    | same_base i : 0 <= i < Z.of_nat (length (hs h)) -> same X Y i i
    | same_step i i' s s' c j j' : same X Y i i' ->
        nth_error (hs X) (Z.to_nat i) = Some s -> nth_error (hs Y) (Z.to_nat i') = Some s' ->
        assoc c (h_next s) = Some j -> assoc c (h_next s') = Some j' ->
        Z.of_nat (length (hs h)) <= j -> Z.of_nat (length (hs h)) <= j' -> same X Y j j'.

    Lemma base_edge i s0 c j : nth_error (hs h) i = Some s0 -> assoc c (h_next s0) = Some j -> 0 <= j < Z.of_nat (length (hs h)).
    Proof.
      intros H E. apply assoc_In in E. eapply ok_next; [|exact E]. apply (wf_states _ W). eapply nth_error_In; eauto.
    Qed.

    Lemma same_nonneg X Y i i' : same X Y i i' -> 0 <= i /\ 0 <= i'.
    Proof. destruct 1; lia. Qed.
    Lemma same_small X Y i i' : same X Y i i' -> i < Z.of_nat (length (hs h)) \/ i' < Z.of_nat (length (hs h)) -> i = i' /\ i < Z.of_nat (length (hs h)).
    Proof. intros S L. destruct S; lia. Qed.

    Lemma same_sig X Y i i' : ext h X -> ext h Y -> same X Y i i' ->
      exists s s', nth_error (hs X) (Z.to_nat i) = Some s /\ nth_error (hs Y) (Z.to_nat i') = Some s' /\ sig s' = sig s.
    Proof.
      intros EX EY S. induction S as [i L|i i' s s' c j j' S IH Hs Hs' A A' L L'].
      - destruct (nth_error (hs h) (Z.to_nat i)) as [s0|] eqn:H0; [|apply nth_error_None in H0; lia].
        destruct (e_old _ _ EX _ _ H0) as (s1 & B1 & B2 & _). destruct (e_old _ _ EY _ _ H0) as (s2 & C1 & C2 & _).
        exists s1, s2. split; auto. split; auto. congruence.
      - destruct IH as (t & t' & H1 & H2 & E). rewrite Hs in H1. injection H1 as <-. rewrite Hs' in H2. injection H2 as <-.
        destruct (e_new _ _ EX _ _ _ _ Hs A) as [(s0 & B1 & B2)|(B1 & B0 & t & B2 & D)].
        { pose proof (base_edge _ _ _ _ B1 B2). lia. }
        destruct (e_new _ _ EY _ _ _ _ Hs' A') as [(s0 & C1 & C2)|(C1 & C0 & t' & C2 & D')].
        { pose proof (base_edge _ _ _ _ C1 C2). lia. }
        exists t, t'. split; auto. split; auto.
        assert (D2 : derived (h_bayes h) (h_lms h) s' c t) by (eapply derived_sig; [exact E| |exact D]; auto).
        destruct D2 as [G1 G2], D' as [G3 G4]. rewrite G1 in G3. injection G3 as G3. unfold sig. rewrite G3.
        destruct (h_bayes h =? 0)%nat.
        + destruct G2 as [-> ->], G4 as [-> ->]. reflexivity.
        + destruct G2 as (p1 & K1 & -> & ->), G4 as (p2 & K2 & -> & ->). rewrite K1 in K2. injection K2 as <-. reflexivity.
    Qed.

    (** Growth keeps [same]. *)
    Definition grows X X' : Prop := forall i s, nth_error (hs X) i = Some s -> exists s', nth_error (hs X') i = Some s' /\
      forall c j, assoc c (h_next s) = Some j -> assoc c (h_next s') = Some j.
    Lemma grows_refl X : grows X X.
    Proof. intros i s H. eauto. Qed.
    Lemma grows_trans X1 X2 X3 : grows X1 X2 -> grows X2 X3 -> grows X1 X3.
    Proof. intros G1 G2 i s H. destruct (G1 i s H) as (s1 & A & B). destruct (G2 i s1 A) as (s2 & C & D). eauto. Qed.
    Lemma same_grows X Y X' Y' i i' : grows X X' -> grows Y Y' -> same X Y i i' -> same X' Y' i i'.
    Proof.
      intros G G' S. induction S as [i L|i i' s s' c j j' S IH Hs Hs' A A' L L'].
      - constructor. auto.
      - destruct (G _ _ Hs) as (s1 & B1 & B2). destruct (G' _ _ Hs') as (s2 & C1 & C2). eapply same_step; eauto.
    Qed.
    Lemma grows_lms X l : grows X (set_lms X l).
    Proof. intros i s H. cbn. eauto. Qed.
    Lemma grows_grown X s x c states hist sum lms : 0 <= s -> nth_error (hs X) (Z.to_nat s) = Some x -> assoc c (h_next x) = None ->
      grows X (grown X s x c states hist sum lms).
    Proof.
      intros S0 Hx N i t Hi. pose proof (nth_error_Some_lt _ _ _ _ Hi) as Li. unfold grown. cbn [hs].
      rewrite nth_error_app1 by (rewrite upd_length; lia). rewrite nth_error_upd.
      destruct (Nat.eqb_spec (Z.to_nat s) i) as [<-|]; cbn [andb]; [|eauto].
      destruct (Nat.ltb_spec (Z.to_nat s) (length (hs X))); [|lia]. rewrite Hx in Hi. injection Hi as <-.
      eexists. split; [reflexivity|]. intros d j E. rewrite assoc_add by auto. destruct (Z.eqb_spec c d) as [->|]; [congruence|auto].
    Qed.

    (** An edge of an extension is not negative, and its symbol neither if it is new. *)
    Lemma edge_nonneg X i s c j : ext h X -> nth_error (hs X) i = Some s -> assoc c (h_next s) = Some j -> 0 <= j.
    Proof.
      intros E H A. destruct (e_new _ _ E _ _ _ _ H A) as [(s0 & B1 & B2)|(B1 & _)]; [|lia].
      pose proof (base_edge _ _ _ _ B1 B2). lia.
    Qed.
    Lemma next_cases X i s c : ext h X -> nth_error (hs X) i = Some s ->
      (exists j, assoc c (h_next s) = Some j /\ hs_next s c = j /\ 0 <= j) \/ (assoc c (h_next s) = None /\ hs_next s c = -1).
    Proof.
      intros E H. unfold hs_next. destruct (assoc c (h_next s)) as [j|] eqn:A; [left|right]; auto.
      exists j. split; auto. split; auto. eapply edge_nonneg; eauto.
    Qed.

    (** The answers of the components do not depend on which extension is asked. *)
    Lemma ext_next_ans X s c : ext h X -> ans (comps_next ops s 0 (h_lms X) c) = ans (comps_next ops s 0 (h_lms h) c).
    Proof. intros E. apply comps_next_ans; auto. apply (e_lms _ _ E). Qed.

    (** One step in one extension. *)
    Lemma ext_step X i c r X' : ext h X -> 0 <= i -> i < Z.of_nat (length (hs X)) -> Z.of_nat (length (hs X)) < h_max h ->
      hub_next ops X i c = Ok (r, X') ->
      ext h X' /\ grows X X' /\ (length (hs X') <= length (hs X) + 1)%nat.
    Proof.
      intros E I0 I1 Hm H. destruct (nth_error (hs X) (Z.to_nat i)) as [x|] eqn:Hx; [|apply nth_error_None in Hx; lia].
      rewrite (hub_next_spec X i c x) in H by (rewrite ?(e_max _ _ E); auto).
      destruct (next_cases X _ x c E Hx) as [(j & A & N & J0)|[A N]].
      - rewrite N in H. replace ((c <? 0) || (0 <=? j)) with true in H by lia. injection H as <- <-. auto using grows_refl with arith.
      - rewrite N in H. destruct (Z.ltb_spec c 0) as [C|C]; cbn [orb] in H.
        { injection H as <- <-. auto using grows_refl with arith. }
        cbn [Z.leb Z.compare] in H.
        destruct (comps_next ops x 0 (h_lms X) c) as [[states lms1]| | |] eqn:E1; try discriminate H. cbn [bind] in H.
        pose proof (comps_next_ev _ _ _ _ _ _ E1) as V1.
        pose proof (ext_next_ans X x c E) as AN. rewrite (ans_Ok _ _ _ E1) in AN.
        rewrite (e_bayes _ _ E) in H. destruct (h_bayes h =? 0)%nat eqn:B.
        + injection H as <- <-. split; [|split].
          * eapply ext_grown; eauto. unfold derived. rewrite B. cbn. auto.
          * apply grows_grown; auto.
          * unfold grown. cbn [hs]. rewrite app_length, upd_length. cbn. lia.
        + destruct (comps_score ops x 0 lms1 c) as [[probs lms2]| | |] eqn:E2; try discriminate H.
          * injection H as <- <-. pose proof (comps_score_ev _ _ _ _ _ _ E2) as V2.
            assert (V : evolve (h_lms h) lms1) by (eapply ev_trans; [apply (e_lms _ _ E)|auto]).
            pose proof (comps_score_ans x x eq_refl _ _ Q V 0%nat c) as AS. rewrite (ans_Ok _ _ _ E2) in AS.
            split; [|split].
            -- eapply ext_grown; eauto; [eapply ev_trans; eauto|]. unfold derived. rewrite B. cbn. split; auto. exists probs. auto.
            -- apply grows_grown; auto.
            -- unfold grown. cbn [hs]. rewrite app_length, upd_length. cbn. lia.
          * injection H as <- <-. split; [apply ext_lms; auto|]. split; [apply grows_lms|cbn; lia].
    Qed.

    Lemma nth_base X i s : ext h X -> nth_error (hs X) i = Some s -> (i < length (hs h))%nat ->
      exists s0, nth_error (hs h) i = Some s0 /\ forall c j, assoc c (h_next s0) = Some j -> assoc c (h_next s) = Some j.
    Proof.
      intros E H L. destruct (nth_error (hs h) i) as [s0|] eqn:H0; [|apply nth_error_None in H0; lia].
      exists s0. split; auto. destruct (e_old _ _ E _ _ H0) as (s1 & B1 & _ & B3). rewrite H in B1. injection B1 as <-. auto.
    Qed.

    (** One step in both. *)
    Lemma pair_step X Y i i' c r X' : ext h X -> ext h Y -> same X Y i i' ->
      Z.of_nat (length (hs X)) < h_max h -> Z.of_nat (length (hs Y)) < h_max h ->
      hub_next ops X i c = Ok (r, X') ->
      exists r' Y', hub_next ops Y i' c = Ok (r', Y') /\ ((r < 0 /\ r' < 0) \/ same X' Y' r r').
    Proof.
      intros EX EY S LX LY H. destruct (same_nonneg _ _ _ _ S) as [I0 I0'].
      destruct (same_sig _ _ _ _ EX EY S) as (x & y & Hx & Hy & SG).
      pose proof (nth_error_Some_lt _ _ _ _ Hx) as Lx. pose proof (nth_error_Some_lt _ _ _ _ Hy) as Ly.
      pose proof (ext_step X i c r X' EX I0 ltac:(lia) LX H) as (EX' & GX & _).
      rewrite (hub_next_spec Y i' c y) by (rewrite ?(e_max _ _ EY); auto).
      rewrite (hub_next_spec X i c x) in H by (rewrite ?(e_max _ _ EX); auto).
      assert (N0 : (1 <= length (hs h))%nat) by apply (wf_nonempty _ W).
      assert (EDGE : forall j, assoc c (h_next x) = Some j -> (exists s0, nth_error (hs h) (Z.to_nat i) = Some s0 /\ assoc c (h_next s0) = Some j /\ i' = i /\ assoc c (h_next y) = Some j)
           \/ (Z.of_nat (length (hs h)) <= j /\ 0 <= c /\ (forall k, assoc c (h_next y) = Some k -> Z.of_nat (length (hs h)) <= k) /\
               exists t, derived (h_bayes h) (h_lms h) x c t)).
      { intros j A. destruct (e_new _ _ EX _ _ _ _ Hx A) as [(s0 & B1 & B2)|(B1 & B0 & t & B2 & D)].
        - left. exists s0. pose proof (nth_error_Some_lt _ _ _ _ B1).
          destruct (same_small _ _ _ _ S) as [E0 _]; [left; lia|]. subst i'.
          destruct (nth_base Y _ _ EY Hy) as (s1 & C1 & C2); [lia|]. rewrite B1 in C1. injection C1 as <-. auto.
        - right. split; auto. split; auto. split; [|eauto]. intros k Ak.
          destruct (e_new _ _ EY _ _ _ _ Hy Ak) as [(s0 & C1 & C2)|(C1 & _)]; auto. exfalso.
          pose proof (nth_error_Some_lt _ _ _ _ C1).
          destruct (same_small _ _ _ _ S) as [E0 _]; [right; lia|]. subst i'.
          destruct (nth_base X _ _ EX Hx) as (s1 & D1 & D2); [lia|]. rewrite C1 in D1. injection D1 as <-.
          pose proof (D2 _ _ C2). pose proof (base_edge _ _ _ _ C1 C2). rewrite A in H1. injection H1 as <-. lia. }
      assert (SGX : derived (h_bayes h) (h_lms h) x c = derived (h_bayes h) (h_lms h) x c) by auto. clear SGX.
      destruct (next_cases X _ x c EX Hx) as [(j & A & N & J0)|[A N]].
      - (* the edge exists in X *)
        rewrite N in H. replace ((c <? 0) || (0 <=? j)) with true in H by lia. injection H as <- <-.
        destruct (EDGE _ A) as [(s0 & B1 & B2 & -> & B3)|(B1 & B0 & BK & t & D)].
        + unfold hs_next. rewrite B3. replace ((c <? 0) || (0 <=? j)) with true by lia.
          exists j, Y. split; auto. right. constructor. eapply base_edge; eauto.
        + destruct (next_cases Y _ y c EY Hy) as [(k & Ak & Nk & K0)|[Ak Nk]].
          * rewrite Nk. replace ((c <? 0) || (0 <=? k)) with true by lia. exists k, Y. split; auto. right.
            eapply same_step; eauto.
          * (* Y makes it *)
            rewrite Nk. replace ((c <? 0) || (0 <=? -1)) with false by lia.
            assert (D2 : derived (h_bayes h) (h_lms h) y c t) by (eapply derived_sig; [exact SG| |exact D]; auto).
            destruct D2 as [G1 G2]. rewrite <- (ext_next_ans Y y c EY) in G1. apply ans_inv in G1. destruct G1 as [lms1 G1].
            pose proof (comps_next_ev _ _ _ _ _ _ G1) as V1. rewrite G1. cbn [bind]. rewrite (e_bayes _ _ EY).
            assert (FIN : forall hist sum lms, same X (grown Y i' y c (h_models t) hist sum lms) j (Z.of_nat (length (hs Y)))).
            { intros hist sum lms. eapply same_step with (i := i) (i' := i') (s := x) (s' := hs_add_next y c (Z.of_nat (length (hs Y)))).
              - eapply same_grows; [apply grows_refl| |exact S]. apply grows_grown; auto.
              - exact Hx.
              - unfold grown. cbn [hs]. rewrite nth_error_app1 by (rewrite upd_length; auto). apply nth_error_upd_eq. auto.
              - exact A.
              - rewrite assoc_add, Z.eqb_refl by auto. reflexivity.
              - auto.
              - pose proof (e_len _ _ EY). lia. }
            destruct (h_bayes h =? 0)%nat.
            -- do 2 eexists. split; [reflexivity|]. right. apply FIN.
            -- destruct G2 as (probs & G2 & _ & _).
               assert (V : evolve (h_lms h) lms1) by (eapply ev_trans; [apply (e_lms _ _ EY)|auto]).
               rewrite <- (comps_score_ans y y eq_refl _ _ Q V 0%nat c) in G2. apply ans_inv in G2. destruct G2 as [lms2 G2].
               rewrite G2. do 2 eexists. split; [reflexivity|]. right. apply FIN.
      - (* no such edge in X *)
        rewrite N in H. destruct (Z.ltb_spec c 0) as [C|C]; cbn [orb] in H |- *.
        { injection H as <- <-. exists (hs_next y c), Y. split; auto. left. split; [lia|].
          destruct (next_cases Y _ y c EY Hy) as [(k & Ak & Nk & K0)|[Ak Nk]]; [|lia].
          exfalso. destruct (e_new _ _ EY _ _ _ _ Hy Ak) as [(s0 & C1 & C2)|(C1 & C2 & _)]; [|lia].
          pose proof (nth_error_Some_lt _ _ _ _ C1).
          destruct (same_small _ _ _ _ S) as [E0 _]; [right; lia|]. subst i'.
          destruct (nth_base X _ _ EX Hx) as (s1 & D1 & D2); [lia|]. rewrite C1 in D1. injection D1 as <-.
          pose proof (D2 _ _ C2). congruence. }
        cbn [Z.leb Z.compare] in H.
        destruct (comps_next ops x 0 (h_lms X) c) as [[states lms1]| | |] eqn:E1; try discriminate H. cbn [bind] in H.
        pose proof (comps_next_ev _ _ _ _ _ _ E1) as V1.
        pose proof (ext_next_ans X x c EX) as AN. rewrite (ans_Ok _ _ _ E1) in AN. symmetry in AN.
        assert (HM : h_models y = h_models x) by (unfold sig in SG; congruence).
        assert (HH : h_hist y = h_hist x) by (unfold sig in SG; congruence).
        assert (ANy : ans (comps_next ops y 0 (h_lms Y) c) = Ok states).
        { rewrite <- AN. apply comps_next_ans; auto. apply (e_lms _ _ EY). }
        assert (VX : evolve (h_lms h) lms1) by (eapply ev_trans; [apply (e_lms _ _ EX)|auto]).
        rewrite (e_bayes _ _ EX) in H.
        (* whether the scores can be had *)
        assert (SCX := comps_score_ans x x eq_refl _ _ Q VX 0%nat c).
        destruct (next_cases Y _ y c EY Hy) as [(k & Ak & Nk & K0)|[Ak Nk]].
        + rewrite Nk. replace (0 <=? k) with true by lia.
          assert (KN : Z.of_nat (length (hs h)) <= k /\ exists t, derived (h_bayes h) (h_lms h) y c t).
          { destruct (e_new _ _ EY _ _ _ _ Hy Ak) as [(s0 & C1 & C2)|(C1 & C0 & t & C2 & D)]; [|eauto]. exfalso.
            pose proof (nth_error_Some_lt _ _ _ _ C1).
            destruct (same_small _ _ _ _ S) as [E0 _]; [right; lia|]. subst i'.
            destruct (nth_base X _ _ EX Hx) as (s1 & D1 & D2); [lia|]. rewrite C1 in D1. injection D1 as <-.
            pose proof (D2 _ _ C2). congruence. }
          destruct KN as [KN [t [_ D2]]].
          assert (FIN : forall hist sum lms, same (grown X i x c states hist sum lms) Y (Z.of_nat (length (hs X))) k).
          { intros hist sum lms. eapply same_step with (i := i) (i' := i') (s := hs_add_next x c (Z.of_nat (length (hs X)))) (s' := y).
            - eapply same_grows; [|apply grows_refl|exact S]. apply grows_grown; auto.
            - unfold grown. cbn [hs]. rewrite nth_error_app1 by (rewrite upd_length; auto). apply nth_error_upd_eq. auto.
            - exact Hy.
            - rewrite assoc_add, Z.eqb_refl by auto. reflexivity.
            - exact Ak.
            - pose proof (e_len _ _ EX). lia.
            - auto. }
          exists k, Y. split; auto. right. destruct (h_bayes h =? 0)%nat.
          * injection H as <- <-. apply FIN.
          * destruct D2 as (probs & D2 & _ & _).
            assert (D3 : ans (comps_score ops x 0 lms1 c) = Ok probs).
            { rewrite SCX, <- D2. symmetry. apply comps_score_ans; auto. apply ev_refl. }
            apply ans_inv in D3. destruct D3 as [lms2 D3]. rewrite D3 in H. injection H as <- <-. apply FIN.
        + rewrite Nk. cbn [Z.leb Z.compare]. apply ans_inv in ANy. destruct ANy as [lmsy ANy]. rewrite ANy. cbn [bind]. rewrite (e_bayes _ _ EY).
          pose proof (comps_next_ev _ _ _ _ _ _ ANy) as Vy.
          assert (VY : evolve (h_lms h) lmsy) by (eapply ev_trans; [apply (e_lms _ _ EY)|auto]).
          assert (SCY : ans (comps_score ops y 0 lmsy c) = ans (comps_score ops x 0 lms1 c)).
          { rewrite SCX. apply comps_score_ans; auto. }
          assert (FIN : forall hist sum lms hist' sum' lms', same (grown X i x c states hist sum lms) (grown Y i' y c states hist' sum' lms') (Z.of_nat (length (hs X))) (Z.of_nat (length (hs Y)))).
          { intros. eapply same_step with (i := i) (i' := i') (s := hs_add_next x c (Z.of_nat (length (hs X)))) (s' := hs_add_next y c (Z.of_nat (length (hs Y)))).
            - eapply same_grows; [| |exact S]; apply grows_grown; auto.
            - unfold grown. cbn [hs]. rewrite nth_error_app1 by (rewrite upd_length; auto). apply nth_error_upd_eq. auto.
            - unfold grown. cbn [hs]. rewrite nth_error_app1 by (rewrite upd_length; auto). apply nth_error_upd_eq. auto.
            - rewrite assoc_add, Z.eqb_refl by auto. reflexivity.
            - rewrite assoc_add, Z.eqb_refl by auto. reflexivity.
            - pose proof (e_len _ _ EX). lia.
            - pose proof (e_len _ _ EY). lia. }
          destruct (h_bayes h =? 0)%nat.
          * injection H as <- <-. do 2 eexists. split; [reflexivity|]. right. apply FIN.
          * destruct (comps_score ops x 0 lms1 c) as [[probs lms2]| | |] eqn:E2; try discriminate H.
            -- injection H as <- <-. cbn in SCY. apply ans_inv in SCY. destruct SCY as [lmsy2 SCY]. rewrite SCY.
               do 2 eexists. split; [reflexivity|]. right. apply FIN.
            -- injection H as <- <-. cbn in SCY.
               destruct (comps_score ops y 0 lmsy c) as [[? ?]| | |]; cbn in SCY; try discriminate SCY.
               do 2 eexists. split; [reflexivity|]. right. constructor. lia.
    Qed.

    (** A context in both. *)
    Lemma pair_context ctx : forall X Y i i' r X', ext h X -> ext h Y -> same X Y i i' ->
      Z.of_nat (length (hs X) + length ctx) < h_max h -> Z.of_nat (length (hs Y) + length ctx) < h_max h ->
      hub_context_loop ops X i ctx = Ok (r, X') ->
      exists r' Y', hub_context_loop ops Y i' ctx = Ok (r', Y') /\ same X' Y' r r' /\ ext h X' /\ ext h Y'.
    Proof.
      induction ctx as [|c ctx IH]; intros X Y i i' r X' EX EY S LX LY H; cbn [hub_context_loop] in *.
      - injection H as <- <-. exists i', Y. auto.
      - apply bind_Ok in H. destruct H as [[r1 X1] [H1 H2]]. cbn [length] in *.
        destruct (pair_step X Y i i' c r1 X1 EX EY S ltac:(lia) ltac:(lia) H1) as (r1' & Y1 & H1' & R).
        rewrite H1'. cbn [bind].
        destruct (same_nonneg _ _ _ _ S) as [I0 I0'].
        destruct (same_sig _ _ _ _ EX EY S) as (x & y & Hx & Hy & _).
        apply nth_error_Some_lt in Hx. apply nth_error_Some_lt in Hy.
        destruct (ext_step X i c r1 X1 EX I0 ltac:(lia) ltac:(lia) H1) as (EX1 & _ & L1).
        destruct (ext_step Y i' c r1' Y1 EY I0' ltac:(lia) ltac:(lia) H1') as (EY1 & _ & L1').
        eapply IH; [exact EX1|exact EY1| | | |exact H2]; try lia.
        destruct R as [[R1 R2]|R].
        + destruct (Z.ltb_spec r1 0); [|lia]. destruct (Z.ltb_spec r1' 0); [|lia].
          constructor. pose proof (wf_nonempty _ W). lia.
        + destruct (same_nonneg _ _ _ _ R). destruct (Z.ltb_spec r1 0); [lia|]. destruct (Z.ltb_spec r1' 0); [lia|]. auto.
    Qed.

    (** Scores in both. *)
    Lemma pair_extract X Y i i' : ext h X -> ext h Y -> same X Y i i' ->
      ans (hub_extract ops Y i') = ans (hub_extract ops X i).
    Proof.
      intros EX EY S. destruct (same_nonneg _ _ _ _ S) as [I0 I0'].
      destruct (same_sig _ _ _ _ EX EY S) as (x & y & Hx & Hy & SG).
      pose proof (nth_error_Some_lt _ _ _ _ Hx) as Lx. pose proof (nth_error_Some_lt _ _ _ _ Hy) as Ly.
      assert (RX : in_range X i = true) by (unfold in_range; lia). assert (RY : in_range Y i' = true) by (unfold in_range; lia).
      assert (VX : vgetZ (hs X) i = Ok x) by (apply vgetZ_Ok; auto). assert (VY : vgetZ (hs Y) i' = Ok y) by (apply vgetZ_Ok; auto).
      unfold hub_extract. rewrite RX, RY, VX, VY. cbn [negb bind].
      assert (HM : h_models y = h_models x) by (unfold sig in SG; congruence).
      assert (HS : h_sum y = h_sum x) by (unfold sig in SG; congruence).
      rewrite (e_weights _ _ EX), (e_weights _ _ EY).
      pose proof (e_lms _ _ EX) as VX1. pose proof (e_lms _ _ EY) as VY1.
      destruct (length (h_weights h) <? 2)%nat.
      - destruct VX1 as [|m m2 l l2 R1 V1]; inversion VY1 as [|? m3 ? l3 R3 V3]; subst; auto.
        inversion Q as [|? ? Qm Ql]; subst.
        destruct (Qm _ R1 (hs_model x 0)) as [_ [_ A]]. destruct (Qm _ R3 (hs_model x 0)) as [_ [_ B]].
        assert (X0 : hs_model y 0 = hs_model x 0) by (unfold hs_model; rewrite HM; auto). rewrite X0.
        assert (AB : ans (c_extract ops m3 (hs_model x 0)) = ans (c_extract ops m2 (hs_model x 0))) by congruence.
        destruct (c_extract ops m3 (hs_model x 0)) as [[? ?]| | |], (c_extract ops m2 (hs_model x 0)) as [[? ?]| | |]; cbn in AB |- *; congruence.
      - assert (MW : mixture_weights_at Y i' = mixture_weights_at X i).
        { unfold mixture_weights_at. rewrite (e_bayes _ _ EX), (e_bayes _ _ EY), RX, RY, VX, VY. cbn [bind negb].
          rewrite (e_weights _ _ EX), (e_weights _ _ EY), HS. reflexivity. }
        rewrite MW. destruct (mixture_weights_at X i) as [ws| | |]; cbn [bind]; auto.
        assert (ML : ans (mix_loop ops y 0 ws (h_lms Y) (Val f0) []) = ans (mix_loop ops x 0 ws (h_lms X) (Val f0) [])).
        { transitivity (ans (mix_loop ops x 0 ws (h_lms h) (Val f0) [])); [|symmetry]; apply mix_loop_ans; auto. }
        destruct (mix_loop ops y 0 ws (h_lms Y) (Val f0) []) as [[? ?]| | |], (mix_loop ops x 0 ws (h_lms X) (Val f0) []) as [[? ?]| | |]; cbn in ML |- *; congruence.
    Qed.

    (** Queries extend. *)
    Lemma ext_context ctx : forall X i r X', ext h X -> 0 <= i ->
      Z.of_nat (length (hs X')) < h_max h -> hwf X ->
      hub_context_loop ops X i ctx = Ok (r, X') -> ext h X' /\ grows X X'.
    Proof.
      induction ctx as [|c ctx IH]; intros X i r X' EX I0 L WX H; cbn [hub_context_loop] in *.
      - injection H as <- <-. auto using grows_refl.
      - apply bind_Ok in H. destruct H as [[r1 X1] [H1 H2]].
        destruct (hub_next_wf _ _ _ _ _ _ WX H1) as [W1 [C1 _]].
        assert (R0 : 0 <= (if r1 <? 0 then 0 else r1)) by (destruct (Z.ltb_spec r1 0); lia).
        destruct (hub_context_loop_wf ops _ _ _ _ _ W1 R0 H2) as [W2 [C2 _]].
        assert (LX : (length (hs X) <= length (hs X1))%nat) by apply C1.
        assert (LX1 : (length (hs X1) <= length (hs X'))%nat) by apply C2.
        assert (N0 : (1 <= length (hs X))%nat) by apply (wf_nonempty _ WX).
        assert (ST : ext h X1 /\ grows X X1).
        { destruct (in_range X i) eqn:IR.
          - unfold in_range in IR. destruct (ext_step X i c r1 X1 EX I0 ltac:(lia) ltac:(lia) H1) as (? & ? & _). auto.
          - rewrite hub_next_norm in H1 by auto.
            destruct (ext_step X 0 c r1 X1 EX ltac:(lia) ltac:(lia) ltac:(lia) H1) as (? & ? & _). auto. }
        destruct ST as [EX1 G1]. destruct (IH _ _ _ _ EX1 R0 L W1 H2) as [EX2 G2]. split; auto. eapply grows_trans; eauto.
    Qed.
    Lemma ext_extract X i r X' : ext h X -> hub_extract ops X i = Ok (r, X') -> ext h X' /\ hs X' = hs X.
    Proof.
      intros EX. unfold hub_extract. destruct (negb (in_range X i)); [intros [= <- <-]; auto|].
      intros E. apply bind_Ok in E. destruct E as [x [_ E]]. destruct (length (h_weights X) <? 2)%nat.
      - destruct (h_lms X) as [|m t] eqn:EL; [discriminate|]. apply bind_Ok in E. destruct E as [[sc m'] [E1 E]]. injection E as <- <-.
        split; auto. apply ext_lms; auto. rewrite EL. constructor; [|apply ev_refl]. apply reach_1. eapply step_extract; eauto.
      - apply bind_Ok in E. destruct E as [ws [_ E]]. apply bind_Ok in E. destruct E as [[sc l'] [E1 E]]. injection E as <- <-.
        split; auto. apply ext_lms; auto. eapply mix_loop_ev; eauto.
    Qed.
  End Pair.
End Query.
