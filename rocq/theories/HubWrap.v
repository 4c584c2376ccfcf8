(** Proof of property C12: what survives the recycling of hub states. *)
From Verif Require Import Base Field LmModel HubModel HubSpec HubProofs HubTrie.
Local Open Scope Z_scope.

(** The order in which states are going to be recycled: first those after the last one created,
    then the start state, then the others. *)
Definition rank (last mx x : Z) : Z := if (x <=? last) || (x =? 0) then x + mx else x.

Definition core_t : Type := list Z * list (Z * Z) * Z.
Definition core {F} (s : hstate F) : core_t := (h_models s, h_next s, h_sym s).
Definition nthm (ms : list Z) (k : nat) : Z := match nth_error ms k with Some x => x | None => -1 end.

Section Wrap.
  Context {F : ofield} {M : Type}.
  Variable ops : comp_ops F M.
  Variable learning : bool.
  Variable track : bool.
  Notation hub := (hub F M).
  Notation reach := (c_reach ops learning).
  Notation evolve := (Forall2 reach).
  Implicit Types h : hub.

  (** From component state [a], symbol [c] leads to [b], now and later. *)
  Definition stepped (m : M) (a c b : Z) : Prop :=
    forall m2, reach m m2 -> exists m3, c_next ops m2 a c = Ok (b, m3).

  Record linked (lms0 : list M) (cs : list core_t) (last mx : Z) (lms : list M) : Prop := {
    lk_evolved : evolve lms0 lms;
    lk_rep : track = true -> Forall (repeatable ops learning) lms0;
    lk_total : Forall (scores_total ops) lms0;
    lk_size : Z.of_nat (length cs) < mx -> last = Z.of_nat (length cs) - 1;
    lk_root : track = true -> exists nx, nth_error cs 0 = Some (map (c_start ops) lms0, nx, 0);
    lk_link : forall p ms nx sy c i, nth_error cs p = Some (ms, nx, sy) -> In (c, i) nx ->
      exists ms' nx', 0 < i /\ nth_error cs (Z.to_nat i) = Some (ms', nx', c) /\
        (Z.of_nat p = i \/ rank last mx (Z.of_nat p) < rank last mx i) /\
        (track = true -> Z.of_nat p <> i ->
         forall k m, nth_error lms k = Some m -> stepped m (nthm ms k) c (nthm ms' k))
  }.
  Definition linked_hub lms0 h := linked lms0 (map core (hs h)) (h_last h) (h_max h) (h_lms h).

  Lemma stepped_reach m m2 a c b : stepped m a c b -> reach m m2 -> stepped m2 a c b.
  Proof. intros H R m3 R3. apply H. eapply reach_trans; eauto. Qed.

  Lemma linked_lms lms0 cs last mx lms lms' :
    linked lms0 cs last mx lms -> evolve lms lms' -> linked lms0 cs last mx lms'.
  Proof.
    intros [A1 A2 A3 A4 A5 A6] E. constructor; auto.
    - eapply evolve_trans; eauto.
    - intros p ms nx sy c i Hp Hi. destruct (A6 p ms nx sy c i Hp Hi) as (ms' & nx' & B1 & B2 & B3 & B4).
      exists ms', nx'. split; auto. split; auto. split; auto. intros T N k m Hk.
      destruct (evolve_nth _ _ _ _ _ _ E Hk) as [m0 [K0 R0]]. eapply stepped_reach; eauto.
  Qed.

  (** The start states never change. *)
  Lemma starts_same lms0 lms :
    track = true -> (track = true -> Forall (repeatable ops learning) lms0) -> evolve lms0 lms ->
    map (c_start ops) lms = map (c_start ops) lms0.
  Proof.
    intros T HR E. specialize (HR T). induction E as [|m m' l l' R E IH]; auto.
    inversion HR as [|? ? R1 R2]; subst. simpl. rewrite (rep_start _ _ _ R1 m' R), IH; auto.
  Qed.

  (** Recycling the start state drops its links; nothing links to it. *)
  Lemma linked_restart lms0 cs last mx lms c0 :
    linked lms0 cs last mx lms -> nth_error cs 0 = Some c0 ->
    linked lms0 (upd cs 0 (map (c_start ops) lms, [], 0)) last mx lms.
  Proof.
    intros [A1 A2 A3 A4 A5 A6] H0.
    assert (L0 : (0 < length cs)%nat) by (eapply nth_error_Some_lt; eauto).
    constructor; auto; rewrite ?upd_length; auto.
    - intros T. exists []. rewrite nth_error_upd_eq by auto. rewrite (starts_same lms0 lms); auto.
    - intros p ms nx sy c i Hp Hi. rewrite nth_error_upd in Hp.
      destruct ((0 =? p)%nat && (0 <? length cs)%nat) eqn:E; [injection Hp as <- <- <-; destruct Hi|].
      destruct (A6 p ms nx sy c i Hp Hi) as (ms' & nx' & B1 & B2 & B3 & B4).
      exists ms', nx'. split; auto. split; [|auto]. rewrite nth_error_upd_neq; auto. lia.
  Qed.

  (** Writing a fresh state [idx] that nothing else links to, as a continuation of [prev]. *)
  Definition add_link (k : core_t) (c i : Z) : core_t :=
    let '(ms, nx, sy) := k in
    (ms, match assoc c nx with Some _ => nx | None => nx ++ [(c, i)] end, sy).

  Lemma linked_write lms0 cs cs1 last last' mx lms lms' idx prev pc states x c :
    linked lms0 cs last mx lms -> evolve lms lms' ->
    (* [cs1] is [cs] with the core [(states, [], c)] at [idx], overwritten or appended *)
    nth_error cs1 idx = Some (states, [], c) ->
    (forall p, p <> idx -> nth_error cs1 p = nth_error cs p) ->
    (0 < idx)%nat -> last' = Z.of_nat idx ->
    (Z.of_nat (length cs1) < mx -> last' = Z.of_nat (length cs1) - 1) ->
    (* no other state links to [idx] *)
    (forall p ms nx sy d i, nth_error cs p = Some (ms, nx, sy) -> In (d, i) nx ->
       p <> idx -> Z.to_nat i <> idx) ->
    (* the order of the others is kept and [idx] is now the last *)
    (forall p i, (p <> idx)%nat -> 0 < i -> Z.to_nat i <> idx ->
       (Z.of_nat p < Z.of_nat (length cs)) -> i < Z.of_nat (length cs) ->
       (exists ms nx sy d, nth_error cs p = Some (ms, nx, sy) /\ In (d, i) nx) ->
       rank last mx (Z.of_nat p) < rank last mx i ->
       rank last' mx (Z.of_nat p) < rank last' mx i) ->
    (forall p, (p < length cs1)%nat -> p <> idx -> rank last' mx (Z.of_nat p) < rank last' mx (Z.of_nat idx)) ->
    nth_error cs1 prev = Some pc ->
    (prev <> idx -> assoc c (snd (fst pc)) = None) ->
    (* the component states come from those of [prev] *)
    (prev <> idx -> track = true -> x = fst (fst pc)) ->
    (track = true -> forall k m', nth_error lms' k = Some m' -> stepped m' (nthm x k) c (nthm states k)) ->
    linked lms0 (upd cs1 prev (add_link pc c (Z.of_nat idx))) last' mx lms'.
  Proof.
    intros [A1 A2 A3 A4 A5 A6] Ev Hi Hcs Hpos Hl Hsz Hin Hord Hmax Hp Hpn Hx Hst.
    assert (Hlen : (idx < length cs1)%nat) by (eapply nth_error_Some_lt; eauto).
    assert (Hlp : (prev < length cs1)%nat) by (eapply nth_error_Some_lt; eauto).
    (* the final core of a state: same models and symbol, links maybe extended *)
    assert (Get : forall p ms nx sy, nth_error (upd cs1 prev (add_link pc c (Z.of_nat idx))) p = Some (ms, nx, sy) ->
       exists nx0, nth_error cs1 p = Some (ms, nx0, sy) /\
         (nx = nx0 \/ p = prev /\ assoc c nx0 = None /\ nx = nx0 ++ [(c, Z.of_nat idx)])).
    { intros p ms nx sy H. rewrite nth_error_upd in H.
      destruct (Nat.eqb_spec prev p) as [<-|]; simpl in H; [|eauto].
      destruct (Nat.ltb_spec prev (length cs1)); [|eauto].
      destruct pc as [[pm pn] psy]. simpl in H. injection H as <- <- <-. exists pn. split; auto.
      destruct (assoc c pn) eqn:Ea; auto. }
    assert (Put : forall p ms nx sy, nth_error cs1 p = Some (ms, nx, sy) ->
       exists nx', nth_error (upd cs1 prev (add_link pc c (Z.of_nat idx))) p = Some (ms, nx', sy)).
    { intros p ms nx sy H. rewrite nth_error_upd.
      destruct (Nat.eqb_spec prev p) as [<-|]; simpl; [|eauto].
      destruct (Nat.ltb_spec prev (length cs1)); [|lia].
      rewrite Hp in H. injection H as ->. simpl. eauto. }
    constructor; auto; rewrite ?upd_length; auto.
    - eapply evolve_trans; eauto.
    - intros T. destruct (A5 T) as [nx H0]. rewrite <- (Hcs 0%nat) in H0 by lia.
      destruct (Put _ _ _ _ H0) as [nx' H0']. eauto.
    - intros p ms nx sy d i Hq Hd.
      assert (Lp : (p < length cs1)%nat).
      { apply nth_error_Some_lt in Hq. rewrite upd_length in Hq. auto. }
      destruct (Get _ _ _ _ Hq) as (nx0 & G1 & [->|(-> & G2 & ->)]).
      + (* an old link *)
        destruct (Nat.eq_dec p idx) as [->|Np].
        { rewrite Hi in G1. injection G1 as <- <- <-. destruct Hd. }
        rewrite (Hcs p Np) in G1.
        destruct (A6 p ms nx0 sy d i G1 Hd) as (ms' & nx' & B1 & B2 & B3 & B4).
        assert (Ni : Z.to_nat i <> idx) by exact (Hin p ms nx0 sy d i G1 Hd Np).
        assert (B2' := B2). rewrite <- (Hcs _ Ni) in B2'. destruct (Put _ _ _ _ B2') as [nx'' B2''].
        exists ms', nx''. split; auto. split; auto.
        assert (Lc : (p < length cs)%nat) by (eapply nth_error_Some_lt; eauto).
        assert (Li : (Z.to_nat i < length cs)%nat) by (eapply nth_error_Some_lt; eauto).
        split.
        * destruct B3 as [B3|B3]; [auto|]. right. apply Hord; auto; try lia. eauto 10.
        * intros T N k m Hk. destruct (evolve_nth _ _ _ _ _ _ Ev Hk) as [m0 [K0 R0]].
          eapply stepped_reach; [|exact R0]. eapply B4; eauto.
      + apply in_app_or in Hd. destruct Hd as [Hd|[Hd|[]]].
        * (* an old link of prev *)
          destruct (Nat.eq_dec prev idx) as [->|Np].
          { rewrite Hi in G1. injection G1 as <- <- <-. destruct Hd. }
          rewrite (Hcs prev Np) in G1.
          destruct (A6 prev ms nx0 sy d i G1 Hd) as (ms' & nx' & B1 & B2 & B3 & B4).
          assert (Ni : Z.to_nat i <> idx) by exact (Hin prev ms nx0 sy d i G1 Hd Np).
          assert (B2' := B2). rewrite <- (Hcs _ Ni) in B2'. destruct (Put _ _ _ _ B2') as [nx'' B2''].
          exists ms', nx''. split; auto. split; auto.
          assert (Lc : (prev < length cs)%nat) by (eapply nth_error_Some_lt; eauto).
          assert (Li : (Z.to_nat i < length cs)%nat) by (eapply nth_error_Some_lt; eauto).
          split.
          -- destruct B3 as [B3|B3]; [auto|]. right. apply Hord; auto; try lia. eauto 10.
          -- intros T N k m Hk. destruct (evolve_nth _ _ _ _ _ _ Ev Hk) as [m0 [K0 R0]].
             eapply stepped_reach; [|exact R0]. eapply B4; eauto.
        * (* the new link *)
          injection Hd as <- <-. destruct (Put _ _ _ _ Hi) as [nx'' Hi''].
          exists states, nx''. split; [lia|]. rewrite Nat2Z.id. split; auto. split.
          -- destruct (Nat.eq_dec prev idx); [left; lia|right; apply Hmax; auto].
          -- intros T N k m Hk. rewrite Hp in G1. injection G1 as ->.
             assert (Ex : x = ms) by (apply Hx; auto; lia). subst x. apply Hst; auto.
  Qed.

  (** ** The cores of the hub operations *)

  Lemma reset_prevs_cores nexts : forall (l l' : list (hstate F)),
    reset_prevs l nexts = Ok l' -> map core l' = map core l.
  Proof.
    induction nexts as [|[c i] t IH]; intros l l' E; simpl in E; [injection E as <-; auto|].
    apply bind_Ok in E. destruct E as [s [E1 E]]. apply IH in E. rewrite E.
    apply vgetZ_Ok in E1. destruct E1 as [_ E1].
    revert E1. generalize (Z.to_nat i). clear. intros n; revert n.
    induction l as [|y l IH]; intros [|n] E; simpl in *; try discriminate; auto.
    - injection E as ->. reflexivity.
    - f_equal; auto.
  Qed.

  Lemma map_upd A B (f : A -> B) l : forall i a, map f (upd l i a) = upd (map f l) i (f a).
  Proof. induction l as [|y l IH]; intros [|i] a; simpl; auto. f_equal; auto. Qed.

  Lemma upd_same A (l : list A) : forall i a, nth_error l i = Some a -> upd l i a = l.
  Proof. induction l as [|y l IH]; intros [|i] a H; simpl in *; try discriminate; auto; f_equal; auto; congruence. Qed.

  Lemma update_hub_state_cores h idx ms prev sym h' :
    update_hub_state h idx ms prev sym = Ok h' ->
    0 <= idx < Z.of_nat (length (hs h)) /\
    map core (hs h') = upd (map core (hs h)) (Z.to_nat idx) (ms, [], sym) /\
    h_last h' = h_last h /\ h_max h' = h_max h /\ h_lms h' = h_lms h.
  Proof.
    unfold update_hub_state. intros E. apply bind_Ok in E. destruct E as [old [E1 E]].
    destruct (negb _); [discriminate|]. apply bind_Ok in E. destruct E as [l' [E2 E]]. injection E as <-.
    split; [eapply vgetZ_lt; eauto|]. simpl. rewrite (reset_prevs_cores _ _ _ E2), map_upd. auto.
  Qed.

  Lemma update_bayes_cores h i h' :
    update_bayesian_history ops h i = Ok h' ->
    map core (hs h') = map core (hs h) /\ h_last h' = h_last h /\ h_max h' = h_max h /\
    evolve (h_lms h) (h_lms h').
  Proof.
    unfold update_bayesian_history. intros E.
    destruct (_ && _); [|injection E as <-; auto using evolve_refl].
    apply bind_Ok in E. destruct E as [s [E1 E]].
    destruct (0 <=? h_prev s); [|injection E as <-; auto using evolve_refl].
    apply bind_Ok in E. destruct E as [ps [E2 E]].
    apply bind_Ok in E. destruct E as [[probs lms'] [E3 E]]. injection E as <-. simpl.
    split; [|split; [auto|split; [auto|eapply comps_score_evolve; eauto]]].
    rewrite map_upd. apply upd_same. apply vgetZ_Ok in E1. destruct E1 as [_ E1].
    rewrite nth_error_map, E1. reflexivity.
  Qed.

  Lemma linked_bayes lms0 h i h' :
    linked_hub lms0 h -> update_bayesian_history ops h i = Ok h' -> linked_hub lms0 h'.
  Proof.
    unfold linked_hub. intros L E. destruct (update_bayes_cores h i h' E) as (B1 & B2 & B3 & B4).
    rewrite B1, B2, B3. eapply linked_lms; eauto.
  Qed.

  (** Scoring cannot fail with a status. *)
  Lemma bayes_not_Err lms0 h i :
    Forall (scores_total ops) lms0 -> evolve lms0 (h_lms h) -> update_bayesian_history ops h i <> Err.
  Proof.
    intros HT HE E4. unfold update_bayesian_history in E4.
    destruct (_ && _); [|discriminate].
    destruct (vgetZ_cases _ (hs h) i) as [[a Ea']|Ea']; rewrite Ea' in E4; [|discriminate].
    cbn [bind] in E4. destruct (0 <=? h_prev a); [|discriminate].
    destruct (vgetZ_cases _ (hs h) (h_prev a)) as [[b Eb]|Eb]; rewrite Eb in E4; [|discriminate].
    cbn [bind] in E4.
    assert (NE : forall l l0 k, Forall (scores_total ops) l0 -> evolve l0 l ->
              comps_score ops b k l (h_sym a) <> Err).
    { induction l as [|m l IH]; intros l0 k Hr He; simpl; [discriminate|].
      inversion He as [|m0 ? l0' ? Rm Rl]; subst. inversion Hr as [|? ? Hr1 Hr2]; subst.
      pose proof (Hr1 m (hs_model b k) (h_sym a) (reach_true _ _ _ _ Rm)) as N.
      destruct (c_score ops m (hs_model b k) (h_sym a)) as [[? ?]| | |]; simpl; try congruence.
      specialize (IH l0' (S k) Hr2 Rl).
      destruct (comps_score ops b (S k) l (h_sym a)) as [[? ?]| | |]; simpl; congruence. }
    specialize (NE (h_lms h) lms0 0%nat HT HE).
    destruct (comps_score ops b 0 (h_lms h) (h_sym a)) as [[? ?]| | |]; simpl in E4; congruence.
  Qed.

  Lemma update_hub_state_not_Err h idx ms prev sym :
    hwf h -> 0 <= idx < Z.of_nat (length (hs h)) -> length ms = length (h_lms h) ->
    update_hub_state h idx ms prev sym <> Err.
  Proof.
    intros W Hi Hl E. unfold update_hub_state in E.
    destruct (vgetZ_range _ (hs h) idx Hi) as [old Eo]. rewrite Eo in E. cbn [bind] in E.
    pose proof (wf_states _ W _ (vgetZ_In _ _ _ _ Eo)) as Ho.
    rewrite (ok_models _ _ _ _ Ho), Hl, Nat.eqb_refl in E. simpl in E.
    destruct (reset_prevs_total (h_next old)
                (upd (hs h) (Z.to_nat idx) (new_hstate ms prev sym (h_bayes h)))) as [l' El].
    { intros c i Hin. rewrite upd_length. apply (ok_next _ _ _ _ Ho c i Hin). }
    rewrite El in E. discriminate.
  Qed.

  Lemma comps_next_stepped lms0 lms s c states lms' :
    track = true -> (track = true -> Forall (repeatable ops learning) lms0) -> evolve lms0 lms ->
    comps_next ops s 0 lms c = Ok (states, lms') ->
    forall k m', nth_error lms' k = Some m' -> stepped m' (nthm (h_models s) k) c (nthm states k).
  Proof.
    intros T HR Ev E k m' Hk m2 R2.
    destruct (comps_next_len _ _ _ _ _ _ _ E) as [L1 L2].
    assert (Lk : (k < length lms')%nat) by (eapply nth_error_Some_lt; eauto).
    destruct (nth_error states k) as [u|] eqn:Eu; [|apply nth_error_None in Eu; lia].
    destruct (comps_next_nth _ _ _ _ _ _ _ _ _ E Eu) as (m1 & m1' & D1 & D2 & D3). simpl in D3.
    assert (m1' = m') by congruence. subst m1'.
    destruct (evolve_nth _ _ _ _ _ _ Ev D1) as [mi [Hmi Ri]].
    unfold nthm at 2. rewrite Eu. specialize (HR T). rewrite Forall_forall in HR.
    eapply (rep_next _ _ _ (HR mi (nth_error_In _ _ Hmi))); [exact Ri| |exact R2]. exact D3.
  Qed.

  (** The new state is right and the invariant is kept. *)
  Lemma linked_assign lms0 h x st c states lms' :
    hwf h -> linked_hub lms0 h -> 0 <= st < Z.of_nat (length (hs h)) ->
    vgetZ (hs h) st = Ok x -> assoc c (h_next x) = None ->
    comps_next ops x 0 (h_lms h) c = Ok (states, lms') ->
    assign_new_hub_state ops (set_lms h lms') states st c <> Err /\
    forall r h', assign_new_hub_state ops (set_lms h lms') states st c = Ok (r, h') ->
      linked_hub lms0 h' /\ exists nx, nth_error (map core (hs h')) (Z.to_nat r) = Some (states, nx, c) /\ 0 < r.
  Proof.
    intros W L Hst Hx Hn Ec.
    destruct (comps_next_len _ _ _ _ _ _ _ Ec) as [L1 L2].
    assert (Ev : evolve (h_lms h) lms') by (eapply comps_next_evolve; eauto).
    assert (W' : hwf (set_lms h lms')) by (apply set_lms_wf; auto).
    set (h0 := set_lms h lms') in *.
    pose proof (wf_max _ W) as Hmx. pose proof (wf_size _ W) as Hsz. pose proof (wf_last _ W) as Hla.
    assert (Hst2 : track = true -> forall k m', nth_error lms' k = Some m' ->
                   stepped m' (nthm (h_models x) k) c (nthm states k)).
    { intros T. eapply comps_next_stepped; [exact T|apply (lk_rep _ _ _ _ _ L)|apply (lk_evolved _ _ _ _ _ L)|exact Ec]. }
    assert (Ex : nth_error (map core (hs h)) (Z.to_nat st) = Some (core x)).
    { apply vgetZ_Ok in Hx. rewrite nth_error_map, (proj2 Hx). reflexivity. }
    (* what happens after the slot was chosen *)
    assert (Fin : forall idx h1 cs mx0,
       mx0 = h_max h ->
       map core (hs h1) = cs -> h_lms h1 = lms' -> h_max h1 = h_max h ->
       nth_error cs (Z.to_nat idx) = Some (states, [], c) -> 0 < idx ->
       (forall pc, nth_error cs (Z.to_nat st) = Some pc ->
          linked lms0 (upd cs (Z.to_nat st) (add_link pc c idx)) idx mx0 lms') ->
       forall K, K = (let h2 := set_last h1 idx in
          let* ps := vgetZ (hs h2) st in
          let h3 := set_hs h2 (upd (hs h2) (Z.to_nat st) (hs_add_next ps c idx)) in
          let* h4 := update_bayesian_history ops h3 idx in Ok (idx, h4)) ->
       K <> Err /\ forall r h', K = Ok (r, h') -> linked_hub lms0 h' /\
          exists nx, nth_error (map core (hs h')) (Z.to_nat r) = Some (states, nx, c) /\ 0 < r).
    { intros idx h1 cs mx0 Emx Ecs Elm Em Hi Hpos HL K ->. cbn zeta.
      change (hs (set_last h1 idx)) with (hs h1).
      destruct (vgetZ_cases _ (hs h1) st) as [[ps Ep]|Ep]; rewrite Ep; cbn [bind];
        [|split; [discriminate|intros; discriminate]].
      set (h3 := set_hs (set_last h1 idx) (upd (hs h1) (Z.to_nat st) (hs_add_next ps c idx))).
      assert (Hpc : nth_error cs (Z.to_nat st) = Some (core ps)).
      { apply vgetZ_Ok in Ep. rewrite <- Ecs, nth_error_map, (proj2 Ep). reflexivity. }
      assert (L3 : linked_hub lms0 h3).
      { unfold linked_hub, h3; simpl. rewrite map_upd, Ecs, Elm, Em, <- Emx. apply (HL _ Hpc). }
      destruct (update_bayesian_history ops h3 idx) as [h4| | |] eqn:E4; cbn [bind].
      2:{ exfalso. eapply bayes_not_Err; [| |exact E4]; [apply (lk_total _ _ _ _ _ L3)|apply (lk_evolved _ _ _ _ _ L3)]. }
      2,3: split; [discriminate|intros; discriminate].
      split; [discriminate|]. intros r h' E. injection E as <- <-. split; [eapply linked_bayes; eauto|].
      destruct (update_bayes_cores _ _ _ E4) as (B1 & _). rewrite B1. unfold h3; simpl.
      rewrite map_upd, Ecs, nth_error_upd.
      destruct (Nat.eqb_spec (Z.to_nat st) (Z.to_nat idx)) as [E|E]; simpl; [|eauto].
      destruct (Nat.ltb_spec (Z.to_nat st) (length cs)).
      - rewrite E in Hpc. rewrite Hi in Hpc. unfold core in Hpc. injection Hpc as E1 E2 E3.
        unfold core, hs_add_next. simpl. rewrite <- E1, <- E3. eauto.
      - eauto. }
    unfold assign_new_hub_state. change (h_max h0) with (h_max h). change (hs h0) with (hs h).
    change (h_last h0) with (h_last h).
    assert (Root : exists c0, nth_error (map core (hs h)) 0 = Some c0).
    { destruct (hs h) as [|a l] eqn:El; [pose proof (wf_nonempty _ W) as N; rewrite El in N; simpl in N; lia|].
      simpl; eauto. }
    destruct (Z.leb_spec (h_max h) (Z.of_nat (length (hs h)))) as [Hfull|Hfull].
    - assert (Hlen : Z.of_nat (length (hs h)) = h_max h) by lia.
      destruct (Z.leb_spec (h_max h) (h_last h + 1)) as [Hw|Hw].
      + (* wrap around *)
        assert (Hlast : h_last h = h_max h - 1) by lia.
        destruct (initialize_start_hub_state ops h0) as [ha| | |] eqn:E0; cbn [bind].
        2:{ exfalso. unfold initialize_start_hub_state in E0.
            eapply update_hub_state_not_Err; [exact W'| | |exact E0].
            - change (hs h0) with (hs h). lia.
            - apply map_length. }
        2,3: split; [discriminate|intros; discriminate].
        destruct (init_start_wf ops h0 ha W' E0) as (Wa & _ & _ & _ & La).
        unfold initialize_start_hub_state in E0.
        destruct (update_hub_state_cores _ _ _ _ _ _ E0) as (_ & Ca & Cl & Cm & Clm).
        change (h_lms h0) with lms' in *. change (hs h0) with (hs h) in *.
        destruct (update_hub_state ha 1 states st c) as [hb| | |] eqn:E1; cbn [bind].
        2:{ exfalso. eapply update_hub_state_not_Err; [exact Wa| | |exact E1].
            - rewrite La. lia. - rewrite Clm, L1; auto. }
        2,3: split; [discriminate|intros; discriminate].
        destruct (update_hub_state_cores _ _ _ _ _ _ E1) as (_ & Cb & Cbl & Cbm & Cblm).
        eapply (Fin 1 hb); [reflexivity|exact Cb|rewrite Cblm; exact Clm|rewrite Cbm; exact Cm| | | |reflexivity].
        * apply nth_error_upd_eq. rewrite map_length, La. lia.
        * lia.
        * intros pc Hpc.
          assert (La' : linked lms0 (map core (hs ha)) (h_last h) (h_max h) lms').
          { rewrite Ca. destruct Root as [c0 Hc0].
            eapply (linked_restart lms0 (map core (hs h)) _ _ lms'); [|exact Hc0].
            eapply linked_lms; [exact L|exact Ev]. }
          assert (Hd : (Z.to_nat st = 0%nat -> track = true -> h_models x = map (c_start ops) lms')).
          { intros E T. destruct (lk_root _ _ _ _ _ L T) as [nx Hnx]. rewrite E in Ex.
            rewrite Ex in Hnx. unfold core in Hnx. injection Hnx as -> _ _. symmetry.
            apply (starts_same lms0 lms'); auto; [apply L|]. eapply evolve_trans; [apply L|exact Ev]. }
          assert (Hla' : length (map core (hs ha)) = length (hs h)) by (rewrite map_length; auto).
          change 1 with (Z.of_nat 1%nat).
          eapply (linked_write lms0 (map core (hs ha)) _ _ _ _ lms' lms' 1 (Z.to_nat st) pc states (h_models x) c La').
          -- apply evolve_refl.
          -- apply nth_error_upd_eq. rewrite map_length, La. lia.
          -- intros p Hp. apply nth_error_upd_neq. auto.
          -- lia.
          -- reflexivity.
          -- rewrite upd_length, map_length, La. lia.
          -- intros p ms nx sy d i Hp Hin Np Ei.
             destruct (lk_link _ _ _ _ _ La' p ms nx sy d i Hp Hin) as (ms' & nx' & B1 & B2 & [B3|B3] & _); [lia|].
             assert (i = 1) by lia. subst i. unfold rank in B3.
             assert (Hp' : (p < length (hs h))%nat) by (apply nth_error_Some_lt in Hp; rewrite map_length, La in Hp; lia).
             destruct (Nat.eq_dec p 0) as [->|N0].
             { rewrite Ca in Hp. rewrite nth_error_upd_eq in Hp by (rewrite map_length; lia).
               injection Hp as <- <- <-. destruct Hin. }
             destruct (Z.leb_spec (Z.of_nat p) (h_last h)); cbn [orb] in B3; [|lia].
             destruct (Z.leb_spec 1 (h_last h)); cbn [orb] in B3; lia.
          -- intros p i Np Hi0 Ni Hp Hi Hex Hr.
             destruct (Nat.eq_dec p 0) as [->|N0].
             { destruct Hex as (ms & nx & sy & d & Hpp & Hin). rewrite Ca in Hpp.
               rewrite nth_error_upd_eq in Hpp by (rewrite map_length; lia).
               injection Hpp as <- <- <-. destruct Hin. }
             unfold rank in *. rewrite map_length, La in Hp, Hi.
             destruct (Z.leb_spec (Z.of_nat p) (h_last h)); [|lia].
             destruct (Z.leb_spec i (h_last h)); [|lia]. cbn [orb] in Hr.
             destruct (Z.leb_spec (Z.of_nat p) (Z.of_nat 1)); [lia|].
             destruct (Z.eqb_spec (Z.of_nat p) 0); [lia|].
             destruct (Z.leb_spec i (Z.of_nat 1)); [lia|]. destruct (Z.eqb_spec i 0); cbn [orb]; lia.
          -- intros p Hp Np. rewrite upd_length, map_length, La in Hp. unfold rank. rewrite (Z.leb_refl (Z.of_nat 1)).
             destruct (Z.leb_spec (Z.of_nat p) (Z.of_nat 1)); destruct (Z.eqb_spec (Z.of_nat p) 0);
               cbn [orb]; lia.
          -- exact Hpc.
          -- intros Np. rewrite nth_error_upd_neq in Hpc by lia. rewrite Ca in Hpc.
             rewrite nth_error_upd in Hpc.
             destruct (_ && _); [injection Hpc as <-; reflexivity|].
             rewrite Ex in Hpc. injection Hpc as <-. exact Hn.
          -- intros Np T. rewrite nth_error_upd_neq in Hpc by lia. rewrite Ca in Hpc.
             rewrite nth_error_upd in Hpc.
             match type of Hpc with (if ?b then _ else _) = _ => destruct b eqn:E end.
             ++ assert (Epc : pc = (map (c_start ops) lms', [], 0)) by congruence. rewrite Epc.
                cbn [fst]. apply Hd; auto. lia.
             ++ rewrite Ex in Hpc. injection Hpc as <-. reflexivity.
          -- exact Hst2.
      + (* recycle the next state *)
        cbn [bind].
        set (idx := h_last h + 1) in *.
        destruct (update_hub_state h0 idx states st c) as [hb| | |] eqn:E1; cbn [bind].
        2:{ exfalso. eapply update_hub_state_not_Err; [exact W'| | |exact E1].
            - change (hs h0) with (hs h). lia. - simpl. rewrite L1; auto. }
        2,3: split; [discriminate|intros; discriminate].
        destruct (update_hub_state_cores _ _ _ _ _ _ E1) as (_ & Cb & Cbl & Cbm & Cblm).
        change (hs h0) with (hs h) in Cb. change (h_lms h0) with lms' in Cblm.
        eapply (Fin idx hb); [reflexivity|exact Cb|exact Cblm|exact Cbm| | | |reflexivity].
        * apply nth_error_upd_eq. rewrite map_length. lia.
        * lia.
        * intros pc Hpc.
          replace (upd (upd (map core (hs h)) (Z.to_nat idx) (states, [], c)) (Z.to_nat st) (add_link pc c idx))
            with (upd (upd (map core (hs h)) (Z.to_nat idx) (states, [], c)) (Z.to_nat st)
                      (add_link pc c (Z.of_nat (Z.to_nat idx)))) by (rewrite Z2Nat.id by lia; auto).
          eapply (linked_write lms0 (map core (hs h)) _ (h_last h) _ _ (h_lms h) lms' (Z.to_nat idx)
                    (Z.to_nat st) pc states (h_models x) c L Ev).
          -- apply nth_error_upd_eq. rewrite map_length. lia.
          -- intros p Hp. apply nth_error_upd_neq. auto.
          -- lia.
          -- lia.
          -- rewrite upd_length, map_length. lia.
          -- intros p ms nx sy d i Hp Hin Np Ei.
             destruct (lk_link _ _ _ _ _ L p ms nx sy d i Hp Hin) as (ms' & nx' & B1 & B2 & [B3|B3] & _); [lia|].
             assert (i = idx) by lia. subst i. unfold rank in B3.
             assert (Hp' : (p < length (hs h))%nat) by (apply nth_error_Some_lt in Hp; rewrite map_length in Hp; lia).
             destruct (Z.leb_spec idx (h_last h)); [lia|]. destruct (Z.eqb_spec idx 0); [lia|]. cbn [orb] in B3.
             destruct (Z.leb_spec (Z.of_nat p) (h_last h)); cbn [orb] in B3; [lia|].
             destruct (Z.eqb_spec (Z.of_nat p) 0); lia.
          -- intros p i Np Hi0 Ni Hp Hi _ Hr. rewrite map_length in *. unfold rank in *.
             destruct (Z.leb_spec (Z.of_nat p) (h_last h)), (Z.eqb_spec (Z.of_nat p) 0),
               (Z.leb_spec i (h_last h)), (Z.leb_spec (Z.of_nat p) idx), (Z.leb_spec i idx),
               (Z.eqb_spec i 0); cbn [orb] in *; lia.
          -- intros p Hp Np. rewrite upd_length, map_length in Hp. unfold rank.
             rewrite Z2Nat.id by lia.
             destruct (Z.leb_spec (Z.of_nat p) idx), (Z.eqb_spec (Z.of_nat p) 0), (Z.leb_spec idx idx);
               cbn [orb]; lia.
          -- exact Hpc.
          -- intros Np. rewrite nth_error_upd_neq in Hpc by lia. rewrite Ex in Hpc. injection Hpc as <-. exact Hn.
          -- intros Np T. rewrite nth_error_upd_neq in Hpc by lia. rewrite Ex in Hpc. injection Hpc as <-. reflexivity.
          -- exact Hst2.
    - (* a new state *)
      cbn [bind]. set (idx := Z.of_nat (length (hs h))).
      pose proof (lk_size _ _ _ _ _ L) as Hls. rewrite map_length in Hls.
      eapply (Fin idx (set_hs h0 (hs h ++ [new_hstate states st c (h_bayes h0)])) _ (h_max h));
        [reflexivity|reflexivity|reflexivity|reflexivity| | | |reflexivity].
      + simpl. rewrite map_app, nth_error_app2 by (rewrite map_length; unfold idx; lia).
        rewrite map_length. unfold idx. rewrite Nat2Z.id, Nat.sub_diag. reflexivity.
      + unfold idx. pose proof (wf_nonempty _ W). lia.
      + intros pc Hpc. cbn [hs set_hs] in *. rewrite map_app in *.
        assert (Hpc' : nth_error (map core (hs h)) (Z.to_nat st) = Some pc).
        { rewrite nth_error_app1 in Hpc by (rewrite map_length; lia). exact Hpc. }
        unfold idx.
        eapply (linked_write lms0 (map core (hs h)) _ (h_last h) _ _ (h_lms h) lms' (length (hs h))
                    (Z.to_nat st) pc states (h_models x) c L Ev).
        * rewrite nth_error_app2 by (rewrite map_length; lia). rewrite map_length, Nat.sub_diag. reflexivity.
        * intros p Hp. destruct (Nat.lt_ge_cases p (length (hs h))).
          -- apply nth_error_app1. rewrite map_length. auto.
          -- transitivity (@None core_t); [|symmetry]; apply nth_error_None;
               rewrite ?app_length, map_length; simpl; lia.
        * pose proof (wf_nonempty _ W). lia.
        * reflexivity.
        * rewrite app_length, map_length. simpl. lia.
        * intros p ms nx sy d i Hp Hin Np Ei.
          destruct (lk_link _ _ _ _ _ L p ms nx sy d i Hp Hin) as (ms' & nx' & B1 & B2 & _).
          apply nth_error_Some_lt in B2. rewrite map_length in B2. lia.
        * intros p i Np Hi0 Ni Hp Hi _ Hr. rewrite map_length in *. unfold rank in *.
          destruct (Z.leb_spec (Z.of_nat p) (h_last h)); [|lia].
          destruct (Z.leb_spec i (h_last h)); [|lia].
          destruct (Z.leb_spec (Z.of_nat p) (Z.of_nat (length (hs h)))); [|lia].
          destruct (Z.leb_spec i (Z.of_nat (length (hs h)))); [|lia]. exact Hr.
        * intros p Hp Np. rewrite app_length, map_length in Hp. simpl in Hp. unfold rank.
          destruct (Z.leb_spec (Z.of_nat p) (Z.of_nat (length (hs h)))); [|lia].
          destruct (Z.leb_spec (Z.of_nat (length (hs h))) (Z.of_nat (length (hs h)))); [|lia]. simpl. lia.
        * exact Hpc.
        * intros Np. rewrite Ex in Hpc'. injection Hpc' as <-. exact Hn.
        * intros Np T. rewrite Ex in Hpc'. injection Hpc' as <-. reflexivity.
        * exact Hst2.
  Qed.

  (** Links go to positive indices, so a negative lookup means there is no link. *)
  Lemma linked_no_link lms0 h i s c :
    linked_hub lms0 h -> nth_error (hs h) i = Some s -> hs_next s c < 0 -> assoc c (h_next s) = None.
  Proof.
    intros L Hs H. unfold hs_next in H. destruct (assoc c (h_next s)) as [j|] eqn:E; auto.
    apply assoc_In in E.
    destruct (lk_link _ _ _ _ _ L i (h_models s) (h_next s) (h_sym s) c j) as (ms' & nx' & B1 & _); auto; [|lia].
    rewrite nth_error_map, Hs. reflexivity.
  Qed.

  (** NextState: the state returned for a symbol carries that symbol, and its component states
      come from those of the state asked about, unless the state was recycled by this very link. *)
  Lemma linked_next lms0 h s c r h' :
    hwf h -> linked_hub lms0 h -> hub_next ops h s c = Ok (r, h') ->
    linked_hub lms0 h' /\
    (0 <= c -> exists ms nx, nth_error (map core (hs h')) (Z.to_nat r) = Some (ms, nx, c) /\ 0 < r /\
       (track = true -> r <> s ->
        forall x, vgetZ (hs h) (if in_range h s then s else 0) = Ok x ->
        forall k m, nth_error (h_lms h') k = Some m -> stepped m (nthm (h_models x) k) c (nthm ms k))).
  Proof.
    intros W L E. unfold hub_next in E. pose proof (fix_range h s W) as Hr.
    remember (if in_range h s then s else 0) as st eqn:Est.
    apply bind_Ok in E. destruct E as [x [E1 E]].
    assert (E1' := E1). apply vgetZ_Ok in E1'. destruct E1' as [_ E1'].
    destruct ((c <? 0) || (0 <=? hs_next x c)) eqn:Ec.
    - injection E as <- <-. split; auto. intros Hc.
      unfold hs_next in *. destruct (assoc c (h_next x)) as [j|] eqn:Ej; [|lia].
      apply assoc_In in Ej.
      destruct (lk_link _ _ _ _ _ L (Z.to_nat st) (h_models x) (h_next x) (h_sym x) c j)
        as (ms' & nx' & B1 & B2 & B3 & B4); auto; [rewrite nth_error_map, E1'; reflexivity|].
      exists ms', nx'. split; auto. split; auto. intros T N y Ey k m Hk.
      assert (y = x) by congruence. subst y. apply B4; auto.
      rewrite Z2Nat.id by lia. unfold in_range in Est.
      destruct ((0 <=? s) && (s <? Z.of_nat (length (hs h)))); lia.
    - apply bind_Ok in E. destruct E as [[states lms'] [E2 E]].
      assert (Ea : assoc c (h_next x) = None) by (eapply linked_no_link; eauto; lia).
      destruct (linked_assign lms0 h x st c states lms' W L Hr E1 Ea E2) as [NE HA].
      destruct (assign_new_hub_state ops (set_lms h lms') states st c) as [[i h1]| | |] eqn:E3;
        try discriminate; [|congruence].
      injection E as <- <-. destruct (HA i h1 eq_refl) as [L1 [nx [N1 N2]]].
      split; auto. intros Hc. exists states, nx. split; auto. split; auto.
      intros T N y Ey k m Hk. assert (y = x) by congruence. subst y.
      assert (Ev : evolve lms' (h_lms h1)).
      { clear -E3. unfold assign_new_hub_state in E3. apply bind_Ok in E3. destruct E3 as [[idx h2] [A E]].
        assert (El : h_lms h2 = lms').
        { change (h_max (set_lms h lms')) with (h_max h) in A.
          change (hs (set_lms h lms')) with (hs h) in A.
          destruct (h_max h <=? Z.of_nat (length (hs h))); [|injection A as <- <-; reflexivity].
          apply bind_Ok in A. destruct A as [[idx' ha] [A0 A]].
          apply bind_Ok in A. destruct A as [hb [A1 A]]. injection A as <- <-.
          destruct (update_hub_state_cores _ _ _ _ _ _ A1) as (_ & _ & _ & _ & ->).
          destruct (h_max h <=? _); [|injection A0 as <- <-; reflexivity].
          apply bind_Ok in A0. destruct A0 as [hc [A0 A2]]. injection A2 as <- <-.
          unfold initialize_start_hub_state in A0.
          destruct (update_hub_state_cores _ _ _ _ _ _ A0) as (_ & _ & _ & _ & ->). reflexivity. }
        apply bind_Ok in E. destruct E as [ps [_ E]].
        apply bind_Ok in E. destruct E as [h4 [E4 E]]. injection E as <- <-.
        destruct (update_bayes_cores _ _ _ E4) as (_ & _ & _ & B). simpl in B. rewrite El in B. exact B. }
      destruct (evolve_nth _ _ _ _ _ _ Ev Hk) as [m0 [K0 R0]].
      eapply stepped_reach; [|exact R0].
      eapply comps_next_stepped; [exact T|apply (lk_rep _ _ _ _ _ L)|apply (lk_evolved _ _ _ _ _ L)|exact E2|exact K0].
  Qed.

  Lemma linked_context ctx : forall lms0 h s r h',
    hwf h -> linked_hub lms0 h -> hub_context_loop ops h s ctx = Ok (r, h') -> linked_hub lms0 h'.
  Proof.
    induction ctx as [|c t IH]; intros lms0 h s r h' W L E; simpl in E; [injection E as <- <-; auto|].
    apply bind_Ok in E. destruct E as [[s' h1] [E1 E]].
    destruct (hub_next_wf _ _ _ _ _ _ W E1) as [W1 _].
    eapply IH; [exact W1|exact (proj1 (linked_next _ _ _ _ _ _ W L E1))|exact E].
  Qed.

  Lemma linked_extract lms0 h s r h' :
    linked_hub lms0 h -> hub_extract ops h s = Ok (r, h') -> linked_hub lms0 h'.
  Proof.
    intros L E.
    assert (X : map core (hs h') = map core (hs h) /\ h_last h' = h_last h /\ h_max h' = h_max h /\
                evolve (h_lms h) (h_lms h')).
    { unfold hub_extract in E. destruct (negb _); [injection E as <- <-; auto using evolve_refl|].
      apply bind_Ok in E. destruct E as [x [E1 E]].
      destruct (_ <? 2)%nat.
      - destruct (h_lms h) as [|m t] eqn:El; [discriminate|].
        apply bind_Ok in E. destruct E as [[r' m'] [E2 E]]. injection E as <- <-. simpl.
        split; auto. split; auto. split; auto. constructor; [|apply evolve_refl].
        apply reach_one. eapply step_extract; eauto.
      - apply bind_Ok in E. destruct E as [ws [E2 E]].
        apply bind_Ok in E. destruct E as [[r' lms'] [E3 E]]. injection E as <- <-. simpl.
        split; auto. split; auto. split; auto. eapply mix_loop_evolve; eauto. }
    unfold linked_hub. destruct X as (-> & -> & -> & X). eapply linked_lms; eauto.
  Qed.

  Lemma linked_ensure syms : forall lms0 h s h',
    hwf h -> linked_hub lms0 h -> ensure_states ops h s syms = Ok h' -> linked_hub lms0 h'.
  Proof.
    induction syms as [|c t IH]; intros lms0 h s h' W L E; simpl in E; [injection E as <-; auto|].
    apply bind_Ok in E. destruct E as [[s' h1] [E1 E]].
    destruct (hub_next_wf _ _ _ _ _ _ W E1) as [W1 _].
    eapply IH; [exact W1|exact (proj1 (linked_next _ _ _ _ _ _ W L E1))|exact E].
  Qed.

  Lemma linked_refresh_next nexts : forall lms0 h h',
    linked_hub lms0 h -> refresh_next ops h nexts = Ok h' -> linked_hub lms0 h'.
  Proof.
    induction nexts as [|[c i] t IH]; intros lms0 h h' L E; simpl in E; [injection E as <-; auto|].
    apply bind_Ok in E. destruct E as [h1 [E1 E]]. eapply IH; [eapply linked_bayes; eauto|exact E].
  Qed.

  Lemma linked_refresh syms : forall lms0 h s h',
    hwf h -> linked_hub lms0 h -> refresh_bayes ops h s syms = Ok h' -> linked_hub lms0 h'.
  Proof.
    induction syms as [|c t IH]; intros lms0 h s h' W L E; simpl in E; [injection E as <-; auto|].
    apply bind_Ok in E. destruct E as [x [E1 E]].
    apply bind_Ok in E. destruct E as [h1 [E2 E]].
    apply bind_Ok in E. destruct E as [[s' h2] [E3 E]].
    destruct (refresh_next_wf _ _ _ _ W E2) as [W1 _].
    destruct (hub_next_wf _ _ _ _ _ _ W1 E3) as [W2 _].
    eapply IH; [exact W2| |exact E].
    exact (proj1 (linked_next _ _ _ _ _ _ W1 (linked_refresh_next _ _ _ _ L E2) E3)).
  Qed.

  (** Correcting the component states keeps links and symbols (not the component claim). *)
  Lemma linked_verify (Ht : track = false) syms : forall lms0 h s r h',
    linked_hub lms0 h -> verify_states ops h s syms = Ok (r, h') -> linked_hub lms0 h'.
  Proof.
    induction syms as [|c t IH]; intros lms0 h s r h' L E; simpl in E; [injection E as <- <-; auto|].
    apply bind_Ok in E. destruct E as [x [E1 E]].
    destruct (hs_next x c <? 0); [injection E as <- <-; auto|].
    apply bind_Ok in E. destruct E as [[states lms'] [E2 E]].
    apply bind_Ok in E. destruct E as [ns [E3 E]]. simpl in E3.
    assert (L1 : linked_hub lms0 (set_lms h lms')).
    { unfold linked_hub; simpl. eapply linked_lms; [exact L|eapply comps_next_evolve; eauto]. }
    destruct (_ && _); [|injection E as <- <-; exact L1].
    eapply IH; [|exact E].
    unfold linked_hub in *; simpl in *. rewrite map_upd.
    apply vgetZ_Ok in E3. destruct E3 as [_ E3].
    assert (E3' : nth_error (map core (hs h)) (Z.to_nat (hs_next x c)) = Some (core ns))
      by (rewrite nth_error_map, E3; auto).
    unfold core at 1; simpl.
    assert (Same : forall p ms nx sy,
       nth_error (upd (map core (hs h)) (Z.to_nat (hs_next x c))
                      (overwrite (h_models ns) states, h_next ns, h_sym ns)) p = Some (ms, nx, sy) ->
       exists ms0, nth_error (map core (hs h)) p = Some (ms0, nx, sy)).
    { intros p ms nx sy H. rewrite nth_error_upd in H.
      destruct (Nat.eqb_spec (Z.to_nat (hs_next x c)) p) as [<-|]; simpl in H; [|eauto].
      destruct (_ <? _)%nat; [|eauto]. injection H as <- <- <-. unfold core in E3'. eauto. }
    assert (Put : forall p ms nx sy, nth_error (map core (hs h)) p = Some (ms, nx, sy) ->
       exists ms1, nth_error (upd (map core (hs h)) (Z.to_nat (hs_next x c))
                      (overwrite (h_models ns) states, h_next ns, h_sym ns)) p = Some (ms1, nx, sy)).
    { intros p ms nx sy H. rewrite nth_error_upd.
      destruct (Nat.eqb_spec (Z.to_nat (hs_next x c)) p) as [<-|]; simpl; [|eauto].
      destruct (_ <? _)%nat; [|eauto]. rewrite E3' in H. unfold core in H. injection H as <- <- <-. eauto. }
    destruct L1 as [A1 A2 A3 A4 A5 A6]. constructor; auto.
    - rewrite upd_length. auto.
    - congruence.
    - intros p ms nx sy d i Hp Hi. destruct (Same _ _ _ _ Hp) as [ms0 Hp0].
      destruct (A6 p ms0 nx sy d i Hp0 Hi) as (ms' & nx' & B1 & B2 & B3 & B4).
      destruct (Put _ _ _ _ B2) as [ms1 B2']. exists ms1, nx'. split; auto. split; auto. split; auto. congruence.
  Qed.

  Lemma linked_update (Hl : learning = true) (Ht : track = false) lms0 h s syms n r h' :
    hwf h -> linked_hub lms0 h -> hub_update ops h s syms n = Ok (r, h') -> linked_hub lms0 h'.
  Proof.
    intros W L E. unfold hub_update in E.
    apply bind_Ok in E. destruct E as [h1 [E1 E]].
    destruct (ensure_states_wf _ _ _ _ _ W E1) as [W1 _].
    pose proof (linked_ensure _ _ _ _ _ W L E1) as L1.
    apply bind_Ok in E. destruct E as [h2 [E2 E]].
    assert (L2 : linked_hub lms0 h2).
    { destruct (0 <? h_bayes h)%nat; [|injection E2 as <-; auto]. eapply linked_refresh; [exact W1|exact L1|exact E2]. }
    destruct (in_range h s); [|injection E as <- <-; auto].
    apply bind_Ok in E. destruct E as [x [E3 E]].
    apply bind_Ok in E. destruct E as [[ok1 lms'] [E4 E]].
    assert (L3 : linked_hub lms0 (set_lms h2 lms')).
    { unfold linked_hub; simpl. eapply linked_lms; [exact L2|]. eapply update_comps_evolve; eauto. }
    destruct ok1; [|injection E as <- <-; exact L3]. eapply linked_verify; eauto.
  Qed.

  Lemma linked_run l : forall lms0 h h',
    hwf h -> linked_hub lms0 h ->
    ((learning = true /\ track = false) \/ forallb is_query l = true) ->
    hub_run ops h l = Ok h' -> linked_hub lms0 h'.
  Proof.
    induction l as [|o t IH]; intros lms0 h h' W L Q E; simpl in E; [injection E as <-; auto|].
    apply bind_Ok in E. destruct E as [[r h1] [E1 E]].
    assert (L1 : linked_hub lms0 h1).
    { destruct o as [s c|ctx s|s|s|s syms n]; simpl in E1;
        apply bind_Ok in E1; destruct E1 as [a [E2 E1]]; try destruct a as [a h2]; injection E1 as <- <-; auto.
      - exact (proj1 (linked_next _ _ _ _ _ _ W L E2)).
      - eapply linked_context; eauto.
      - eapply linked_extract; eauto.
      - destruct Q as [[Q1 Q2]|Q]; [|simpl in Q; discriminate]. eapply linked_update; eauto. }
    eapply IH; [|exact L1| |exact E].
    - destruct (hub_step_wf _ _ _ _ _ W E1); auto.
    - destruct Q as [Q|Q]; [auto|]. right. simpl in Q. destruct (is_query o); auto; discriminate.
  Qed.

  Lemma linked_init lms cfg h :
    (track = true -> Forall (repeatable ops learning) lms) -> Forall (scores_total ops) lms ->
    initialize_models ops lms cfg = Ok h -> linked_hub lms h.
  Proof.
    intros R T E. destruct (initialize_ok _ _ _ _ E) as (W & A1 & A2 & A3 & A4 & A5 & _).
    unfold linked_hub. rewrite A5, A2, A3. constructor; auto.
    - apply evolve_refl.
    - intros _. simpl. exists []. reflexivity.
    - intros p ms nx sy c i Hp Hi. destruct p as [|[|p]]; simpl in Hp; try discriminate.
      injection Hp as <- <- <-. destruct Hi.
  Qed.
End Wrap.
