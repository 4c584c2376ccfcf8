(** Score replies are probability distributions: vocabulary and proofs for C63. *)
From Coq Require Import Field Permutation.
From Verif Require Import Base Field LmModel HubModel HubSpec HubProofs HubMix HubTrie HubLive HubLive2 ServerModel ServerEvolve.
Local Open Scope Z_scope.

(** A list of scores that names no symbol twice, and whose scores are non-negative numbers that add up
    to one. *)
Definition is_distribution {F : ofield} (l : list (str * num F)) : Prop :=
  NoDup (map fst l) /\ (forall k v, In (k, v) l -> exists p, v = Val p /\ fle f0 p = true) /\ fsum (values l) = f1.
(** A list of scores of which none is a number (0/0 in exact arithmetic). *)
Definition no_numbers {F : ofield} (l : list (str * num F)) : Prop := forall k v, In (k, v) l -> v = NaN.

(** Components whose scores are distributions, or (only if [silent]) empty lists. *)
Record comps_dist {F : ofield} {M : Type} (ops : comp_ops F M) (Inv : Z -> M -> Prop) (ok : M -> Z -> Prop)
  (silent : M -> Prop) : Prop := {
  cd_extract : forall b m s r m', Inv b m -> ok m s -> c_extract ops m s = Ok (r, m') ->
    exists sc, r = Some sc /\ NoDup (map fst (sc_entries sc)) /\ (forall k p, In (k, p) (sc_entries sc) -> fle f0 p = true) /\
      (fsum (map snd (sc_entries sc)) = f1 \/ (sc_entries sc = [] /\ silent m));
  cd_score : forall b m s c p m', Inv b m -> ok m s -> c_score ops m s c = Ok (p, m') -> fle f0 p = true
}.

Section Dist.
  Context {F : ofield} {M : Type}.
  Add Field FfieldDist : (f_th F).
  Variable ops : comp_ops F M.
  Variable Inv : Z -> M -> Prop.
  Variable ok : M -> Z -> Prop.
  Variable silent : M -> Prop.
  Hypothesis A : comps_answer ops Inv ok.
  Hypothesis D : comps_dist ops Inv ok silent.
  Notation hub := (hub F M).
  Implicit Types (h : hub).

  Definition nn (v : num F) : Prop := forall p, v = Val p -> fle f0 p = true.
  Lemma nn_add a c : nn a -> nn c -> nn (nadd a c).
  Proof. destruct a, c; cbn [nadd]; intros HA HC p E; try discriminate. injection E as <-. apply fadd_nonneg; auto. Qed.
  Lemma nn_mul a c : nn a -> nn c -> nn (nmul a c).
  Proof. destruct a, c; cbn [nmul]; intros HA HC p E; try discriminate. injection E as <-. apply fmul_nonneg; auto. Qed.
  Lemma nn_val p : fle f0 p = true -> nn (Val p).
  Proof. intros H q E. injection E as <-. auto. Qed.

  (** ** Mixing *)
  Lemma mix_add_nn key v acc : nn v -> (forall k x, In (k, x) acc -> nn x) -> forall k x, In (k, x) (mix_add key v acc) -> nn x.
  Proof.
    intros Hv. induction acc as [|[k0 x0] t IH]; cbn [mix_add]; intros H k x; [intros [E|[]]; injection E as <- <-; auto|].
    destruct (str_eqb k0 key); intros [E|I].
    - injection E as <- <-. apply nn_add; [exact Hv|]. apply (H k0 x0). left; reflexivity.
    - eapply H. right; eauto.
    - injection E as <- <-. apply (H k0 x0). left; reflexivity.
    - eapply IH; eauto. intros. eapply H. right; eauto.
  Qed.
  Lemma mix_add_in key v acc k : In k (map fst (mix_add key v acc)) -> k = key \/ In k (map fst (acc : list (str * num F))).
  Proof.
    induction acc as [|[k0 x0] t IH]; cbn [mix_add map fst]; [intros [<-|[]]; auto|].
    destruct (str_eqb k0 key); cbn [map fst In]; tauto.
  Qed.
  Lemma mix_add_keys key v acc : NoDup (map fst acc) -> NoDup (map fst (mix_add (F := F) key v acc)).
  Proof.
    induction acc as [|[k0 x0] t IH]; cbn [mix_add map fst]; intros H; [repeat constructor; auto|].
    inversion H as [|? ? H1 H2]; subst. destruct (str_eqb k0 key) eqn:E; cbn [map fst]; constructor; auto.
    intros I. apply mix_add_in in I. destruct I as [->|I]; [rewrite str_eqb_refl in E; discriminate|auto].
  Qed.
  Lemma mix_results_ok sc w acc : nn w -> (forall k p, In (k, p) (sc_entries sc) -> fle f0 p = true) ->
    NoDup (map fst acc) -> (forall k x, In (k, x) acc -> nn x) ->
    NoDup (map fst (mix_results sc w acc)) /\ forall k x, In (k, x) (mix_results sc w acc) -> nn x.
  Proof.
    intros Hw. unfold mix_results. revert acc. induction (sc_entries sc) as [|[key p] t IH]; cbn [fold_left]; intros acc Hp Hd Hn; [auto|].
    apply IH; [intros; eapply Hp; right; eauto|apply mix_add_keys; auto|].
    apply mix_add_nn; auto. apply nn_mul; auto. apply nn_val. eapply Hp. left; reflexivity.
  Qed.

  Lemma live_model b (st : hstate F) k m lms : Forall2 ok lms (h_models st) -> Forall (Inv b) lms -> nth_error lms k = Some m ->
    Inv b m /\ ok m (hs_model st k).
  Proof.
    intros L I E. split; [rewrite Forall_forall in I; apply I; eapply nth_error_In; eauto|].
    unfold hs_model. revert k E. induction L as [|x y l l' Hx HL IH]; intros [|k] E; try discriminate; cbn [nth_error] in *.
    - injection E as <-. exact Hx.
    - inversion I; subst. apply IH; auto.
  Qed.

  Lemma mix_loop_nn b (st : hstate F) lms0 ws : Forall2 ok lms0 (h_models st) -> Forall (Inv b) lms0 -> (forall w, In w ws -> nn w) ->
    forall idx lms norm acc r lms', lms = skipn idx lms0 ->
    NoDup (map fst acc) -> (forall k x, In (k, x) acc -> nn x) ->
    mix_loop ops st idx ws lms norm acc = Ok (Some r, lms') ->
    NoDup (map fst (snd r)) /\ forall k x, In (k, x) (snd r) -> nn x.
  Proof.
    intros L I. induction ws as [|w ws IH]; intros Hw idx lms norm acc r lms' El Hd Hn E; cbn [mix_loop] in E.
    - injection E as <- <-. auto.
    - destruct lms as [|m t]; [discriminate|]. symmetry in El. apply skipn_cons in El. destruct El as [El Et].
      apply bind_Ok in E. destruct E as [[x m'] [E1 E]]. destruct (live_model b st idx m lms0 L I El) as [Im Om].
      destruct (cd_extract _ _ _ _ D _ _ _ _ _ Im Om E1) as (sc & -> & _ & Hp & _).
      apply bind_Ok in E. destruct E as [[r2 t'] [E2 E]]. injection E as -> <-.
      destruct (mix_results_ok sc w acc) as [N1 N2]; auto; [apply Hw; left; auto|].
      eapply (IH (fun v Hv => Hw v (or_intror Hv)) (S idx) t); eauto.
  Qed.

  (** Normalising: all or nothing. *)
  Lemma nsum_val_all (l : list (num F)) t : l <> [] -> nsum l = Val t -> exists ps, l = map Val ps /\ t = fsum ps.
  Proof.
    intros Hn E.
    assert (X : exists ps, l = map Val ps).
    { destruct l as [|x l]; [congruence|]. cbn [nsum] in E. clear Hn. revert x E.
      induction l as [|y l IH]; intros x E; cbn [fold_left] in E; [subst; exists [t]; reflexivity|].
      destruct (IH _ E) as [[|p ps] Ep]; [discriminate|]. cbn [map] in Ep. injection Ep as Ep ->.
      destruct x, y; try discriminate. do 1 eexists (_ :: _ :: ps). reflexivity. }
    destruct X as [ps ->]. exists ps. split; auto. rewrite nsum_vals in E by (intros ->; apply Hn; reflexivity). injection E as <-. auto.
  Qed.
  Lemma extract_mixture_dist norm acc : NoDup (map fst acc) -> (forall k x, In (k, x) acc -> nn x) ->
    NoDup (map fst (sc_entries (extract_mixture acc norm))) /\
    (no_numbers (sc_entries (extract_mixture acc norm)) \/ is_distribution (sc_entries (extract_mixture (F := F) acc norm))).
  Proof.
    intros Hd Hn. unfold extract_mixture. cbn [sc_entries].
    pose proof (sort_keys_perm acc) as P.
    assert (ND : NoDup (map fst (map (fun '(k, v) => (k, ndiv v (nsum (map snd acc)))) (sort_keys acc)))).
    { rewrite map_map. rewrite (map_ext _ fst) by (intros [? ?]; auto). eapply Permutation_NoDup; [|exact Hd]. apply Permutation_map; auto. }
    split; auto.
    destruct acc as [|e acc0] eqn:Ea; [left; intros k v []|]. rewrite <- Ea in *. assert (Ne : map snd acc <> []) by (rewrite Ea; discriminate).
    destruct (nsum (map snd acc)) as [t|] eqn:Et.
    2:{ left. intros k v I. apply in_map_iff in I. destruct I as [[k0 v0] [E _]]. injection E as <- <-. destruct v0; reflexivity. }
    destruct (nsum_val_all _ _ Ne Et) as [ps [Ep ->]].
    destruct (feqb (fsum ps) f0) eqn:Z.
    { left. intros k v I. apply in_map_iff in I. destruct I as [[k0 v0] [E _]]. injection E as <- <-. destruct v0; auto.
      cbn [ndiv]. unfold num_div. rewrite Z. reflexivity. }
    right. split; auto.
    assert (PP : forall p, In p ps -> fle f0 p = true).
    { intros p Hp. assert (I : In (Val p) (map snd acc)) by (rewrite Ep; apply in_map; auto).
      apply in_map_iff in I. destruct I as [[k v] [E I]]. cbn [snd] in E. subst v. eapply Hn; eauto. }
    assert (TP : flt f0 (fsum ps) = true).
    { apply flt_iff. split; [apply fsum_nonneg; auto|]. intros E. apply eq_sym, feqb_eq in E. congruence. }
    split.
    - intros k v I. apply in_map_iff in I. destruct I as [[k0 v0] [E I]]. injection E as <- <-.
      apply (Permutation_in _ (Permutation_sym P)) in I. pose proof (in_map snd _ _ I) as J. cbn [snd] in J. rewrite Ep in J.
      apply in_map_iff in J. destruct J as [p [<- J]]. cbn [ndiv]. unfold num_div. rewrite Z. eexists. split; [reflexivity|].
      apply fdiv_nonneg; auto.
    - unfold values.
      transitivity (fsum (map (fun v : num F => match ndiv v (Val (fsum ps)) with Val x => x | NaN => f0 end) (map snd (sort_keys acc)))).
      { rewrite !map_map. f_equal. apply map_ext. intros [k v]. reflexivity. }
      transitivity (fsum (map (fun v : num F => match ndiv v (Val (fsum ps)) with Val x => x | NaN => f0 end) (map snd acc))).
      { apply fsum_perm, Permutation_map, Permutation_map, Permutation_sym, P. }
      rewrite Ep, map_map. cbn [ndiv]. unfold num_div. rewrite Z. rewrite fsum_map_div, map_id by (intros E; rewrite E, feqb_refl in Z; discriminate).
      apply fdiv_self. intros E. rewrite E, feqb_refl in Z. discriminate.
  Qed.

  (** ** Histories are not negative *)
  Definition spos (s : hstate F) : Prop :=
    (forall row p, In row (h_hist s) -> In p row -> fle f0 p = true) /\ (forall p, In p (h_sum s) -> fle f0 p = true).
  Definition hpos h : Prop := forall s, In s (hs h) -> spos s.
  Lemma one_nonneg : fle (f0 : car F) f1 = true.
  Proof. apply flt_le, f1_pos. Qed.
  Lemma new_pos ms prev sym bay : spos (new_hstate ms prev sym bay).
  Proof.
    unfold new_hstate. split; cbn [h_hist h_sum]; destruct (0 <? bay)%nat; intros.
    - apply repeat_spec in H. subst. apply repeat_spec in H0. subst. apply one_nonneg.
    - destruct H.
    - apply repeat_spec in H. subst. apply one_nonneg.
    - destruct H.
  Qed.
  Lemma reset_prevs_pos nexts : forall (l l' : list (hstate F)), reset_prevs l nexts = Ok l' ->
    (forall s, In s l -> spos s) -> forall s, In s l' -> spos s.
  Proof.
    induction nexts as [|[c i] t IH]; intros l l' E H; cbn [reset_prevs] in E; [injection E as <-; auto|].
    apply bind_Ok in E. destruct E as [x [E1 E]]. eapply IH; [exact E|]. intros s Hs. apply in_upd in Hs. destruct Hs as [->|Hs]; auto.
    apply (H x). eapply vgetZ_In; eauto.
  Qed.
  Lemma update_hub_state_pos h idx ms prev sym h' : update_hub_state h idx ms prev sym = Ok h' -> hpos h -> hpos h'.
  Proof.
    unfold update_hub_state. intros E H. apply bind_Ok in E. destruct E as [old [_ E]]. destruct (negb _); [discriminate|].
    apply bind_Ok in E. destruct E as [l [E1 E]]. injection E as <-. unfold hpos; cbn [set_hs hs]. eapply reset_prevs_pos; [exact E1|].
    intros s Hs. apply in_upd in Hs. destruct Hs as [->|Hs]; auto using new_pos.
  Qed.
  Lemma set_pos h l : hpos h -> hpos (set_lms h l).
  Proof. auto. Qed.

  Lemma comps_score_pos b st c lms0 : Forall2 ok lms0 (h_models st) -> Forall (Inv b) lms0 ->
    forall idx lms xs lms', lms = skipn idx lms0 -> comps_score ops st idx lms c = Ok (xs, lms') -> forall p, In p xs -> fle f0 p = true.
  Proof.
    intros L I idx lms. revert idx. induction lms as [|m t IH]; intros idx xs lms' El E; cbn [comps_score] in E; [injection E as <- <-; intros p []|].
    symmetry in El. apply skipn_cons in El. destruct El as [El Et].
    apply bind_Ok in E. destruct E as [[x m'] [E1 E]]. apply bind_Ok in E. destruct E as [[xs2 t'] [E2 E]]. injection E as <- <-.
    destruct (live_model b st idx m lms0 L I El) as [Im Om].
    intros p [<-|Hp]; [eapply (cd_score _ _ _ _ D); eauto|]. eapply IH; eauto.
  Qed.
  Lemma fold_mul_nonneg (l : list (car F)) : forall p, fle f0 p = true -> (forall q, In q l -> fle f0 q = true) -> fle f0 (fold_left fmul l p) = true.
  Proof.
    induction l as [|q l IH]; intros p Hp H; cbn [fold_left]; auto. apply IH; [|intros; apply H; right; auto].
    apply fmul_nonneg; auto. apply H. left; auto.
  Qed.
  Lemma tl_In {T} (x : T) l : In x (tl l) -> In x l.
  Proof. destruct l; cbn [tl]; auto. right; auto. Qed.
  Lemma bayes_pos b h i h' : hlive Inv ok b h -> hpos h -> update_bayesian_history ops h i = Ok h' -> hpos h'.
  Proof.
    intros HL H E. unfold update_bayesian_history in E. destruct (_ && _); [|injection E as <-; auto].
    apply bind_Ok in E. destruct E as [s [E1 E]]. destruct (0 <=? h_prev s); [|injection E as <-; auto].
    apply bind_Ok in E. destruct E as [ps [E2 E]]. apply bind_Ok in E. destruct E as [[probs lms'] [E3 E]]. injection E as <-.
    pose proof (vgetZ_In _ _ _ _ E2) as Ip. destruct (H _ Ip) as [P1 P2].
    assert (PR : forall p, In p probs -> fle f0 p = true).
    { eapply (comps_score_pos b ps (h_sym s) (h_lms h)); [apply (hl_live _ _ _ _ HL _ Ip)|apply HL| |exact E3]. reflexivity. }
    intros s' Hs. cbn [set_lms set_hs hs] in Hs. apply in_upd in Hs. destruct Hs as [->|Hs]; auto.
    split; cbn [h_hist h_sum].
    - intros row p Hr Hp. apply in_map_iff in Hr. destruct Hr as [[q r] [<- I]].
      pose proof (in_combine_l _ _ _ _ I). pose proof (in_combine_r _ _ _ _ I).
      apply in_app_or in Hp. destruct Hp as [Hp|[<-|[]]]; auto. apply (P1 r); auto. apply tl_In; auto.
    - intros p Hp. apply in_map_iff in Hp. destruct Hp as [[q r] [<- I]].
      pose proof (in_combine_l _ _ _ _ I). pose proof (in_combine_r _ _ _ _ I).
      apply fold_mul_nonneg; auto. intros x Hx. apply (P1 r); auto. apply tl_In; auto.
  Qed.

  (** All the hub keeps. *)
  Definition fit b h : Prop := hlive Inv ok b h /\ hpos h.
  Lemma link_pos h prev ps sym idx : hpos h -> vgetZ (hs h) prev = Ok ps -> hpos (set_hs h (upd (hs h) (Z.to_nat prev) (hs_add_next ps sym idx))).
  Proof.
    intros H E s Hs. cbn [set_hs hs] in Hs. apply in_upd in Hs. destruct Hs as [->|Hs]; auto.
    apply vgetZ_In in E. apply (H _ E).
  Qed.
  Lemma assign_pos b h ms prev sym r h' : hlive Inv ok b h -> hpos h -> 0 <= prev < Z.of_nat (length (hs h)) -> Forall2 ok (h_lms h) ms -> 0 <= sym ->
    assign_new_hub_state ops h ms prev sym = Ok (r, h') -> hpos h'.
  Proof.
    intros H P Hp Hms Hs E. pose proof (hl_wf _ _ _ _ H) as W. unfold assign_new_hub_state in E.
    pose proof (wf_max _ W). pose proof (wf_last _ W). pose proof (wf_size _ W).
    apply bind_Ok in E. destruct E as [[idx h1] [E1 E]].
    assert (X : hlive Inv ok b h1 /\ hpos h1 /\ 0 <= idx < Z.of_nat (length (hs h1)) /\ (length (hs h) <= length (hs h1))%nat).
    { destruct (Z.leb_spec (h_max h) (Z.of_nat (length (hs h)))) as [Hfull|Hfull].
      - apply bind_Ok in E1. destruct E1 as [[idx0 ha] [E1 E2]].
        assert (Y : hlive Inv ok b ha /\ hpos ha /\ h_lms ha = h_lms h /\ length (hs ha) = length (hs h) /\ 0 <= idx0 < Z.of_nat (length (hs h))).
        { destruct (Z.leb_spec (h_max h) (h_last h + 1)).
          - destruct (init_start_sure ops Inv ok A b h H) as [hh [Eh (A1 & A2 & A3 & _)]]. rewrite Eh in E1. cbn [bind] in E1. injection E1 as <- <-.
            split; auto. split; [eapply update_hub_state_pos; [exact Eh|auto]|]. split; auto. split; auto. lia.
          - injection E1 as <- <-. split; auto. split; auto. split; auto. split; auto. lia. }
        destruct Y as (Y1 & Y2 & Y3 & Y4 & Y5). apply bind_Ok in E2. destruct E2 as [hb [E2 E3]]. injection E3 as <- <-.
        destruct (update_hub_state_sure Inv ok b ha idx0 ms prev sym Y1) as [hb' [E4 (B1 & B2 & B3 & _)]]; [lia|lia|rewrite Y3; auto|].
        assert (hb' = hb) by congruence. subst hb'.
        split; auto. split; [eapply update_hub_state_pos; [exact E2|auto]|]. lia.
      - injection E1 as <- <-. cbn [set_hs hs]. rewrite app_length. cbn [length]. split; [|split; [|lia]].
        + destruct H as [_ I L]. constructor; auto.
          * destruct W as [W1 W2 W3 W4 W5]. constructor; cbn [set_hs hs h_max h_last h_lms h_bayes]; rewrite ?app_length; cbn [length]; auto; try lia.
            intros s Hin. apply in_app_or in Hin. destruct Hin as [Hin|[<-|[]]].
            -- eapply hsok_mono; [|apply W5; auto]; lia.
            -- apply new_hstate_ok; [|lia]. symmetry. eapply Forall2_length; eauto.
          * cbn [set_hs hs h_lms]. intros s Hin. apply in_app_or in Hin. destruct Hin as [Hin|[<-|[]]]; auto.
            apply new_live; auto.
        + intros s Hin. cbn [set_hs hs] in Hin. apply in_app_or in Hin. destruct Hin as [Hin|[<-|[]]]; auto using new_pos. }
    destruct X as (X1 & X2 & X3 & X4). apply bind_Ok in E. destruct E as [ps [E2 E]]. apply bind_Ok in E. destruct E as [h4 [E3 E]]. injection E as <- <-.
    eapply (bayes_pos b); [| |exact E3].
    - apply link_live; [apply set_last_live; auto|exact E2|exact X3|exact Hs].
    - apply link_pos; [exact X2|exact E2].
  Qed.
  Lemma next_pos b h s c r h' : hlive Inv ok b h -> hpos h -> hub_next ops h s c = Ok (r, h') -> hpos h'.
  Proof.
    intros H P E. unfold hub_next in E. pose proof (fix_range h s (hl_wf _ _ _ _ H)) as Hr. set (st := if in_range h s then s else 0) in *.
    apply bind_Ok in E. destruct E as [x [E1 E]]. destruct (Z.ltb_spec c 0); cbn [orb] in E; [injection E as <- <-; auto|].
    destruct (0 <=? hs_next x c); [injection E as <- <-; auto|]. apply bind_Ok in E. destruct E as [[states lms'] [E2 E]].
    destruct (comps_next_sure ops Inv ok A b x c (h_lms h) 0%nat) as [[st2 l2] [E3 (B1 & B2 & B3)]]; [lia|apply H|apply (hl_live _ _ _ _ H _ (vgetZ_In _ _ _ _ E1))|].
    rewrite E3 in E2. injection E2 as -> ->. cbn [fst snd] in *.
    pose proof (live_set_lms Inv ok b h lms' H B1 B2) as H1.
    destruct (assign_sure ops Inv ok A b (set_lms h lms') states st c H1) as [[i h1] [E4 _]]; auto.
    rewrite E4 in E. injection E as <- <-. eapply (assign_pos b (set_lms h lms')); eauto.
  Qed.
  Lemma next_fit b h s c r h' : fit b h -> hub_next ops h s c = Ok (r, h') -> fit b h'.
  Proof.
    intros [H P] E. split; [|eapply next_pos; eauto]. destruct (hub_next_sure ops Inv ok A b h s c H) as [[r2 h2] [E2 H2]].
    rewrite E2 in E. injection E as -> ->. exact H2.
  Qed.
  Lemma context_fit b ctx : forall h s r h', fit b h -> hub_context_loop ops h s ctx = Ok (r, h') -> fit b h'.
  Proof.
    induction ctx as [|c t IH]; intros h s r h' H E; cbn [hub_context_loop] in E; [injection E as <- <-; auto|].
    apply bind_Ok in E. destruct E as [[s1 h1] [E1 E]]. eapply IH; [|exact E]. eapply next_fit; eauto.
  Qed.
  Lemma next_states_fit b w : forall h s r h', fit b h -> next_states ops h s w = Ok (r, h') -> fit b h'.
  Proof.
    induction w as [|c t IH]; intros h s r h' H E; cbn [next_states] in E; [injection E as <- <-; auto|].
    apply bind_Ok in E. destruct E as [[s1 h1] [E1 E]]. eapply IH; [|exact E]. eapply next_fit; eauto.
  Qed.
  Lemma ensure_fit b w : forall h s h', fit b h -> ensure_states ops h s w = Ok h' -> fit b h'.
  Proof.
    induction w as [|c t IH]; intros h s h' H E; cbn [ensure_states] in E; [injection E as <-; auto|].
    apply bind_Ok in E. destruct E as [[s1 h1] [E1 E]]. eapply IH; [|exact E]. eapply next_fit; eauto.
  Qed.
  Lemma refresh_next_fit b l : forall h h', fit b h -> (forall c i, In (c, i) l -> i < Z.of_nat (length (hs h))) ->
    refresh_next ops h l = Ok h' -> fit b h'.
  Proof.
    induction l as [|[c i] t IH]; intros h h' [H P] Hi E; cbn [refresh_next] in E; [injection E as <-; split; auto|].
    destruct (update_bayes_sure ops Inv ok A b h i H) as [h1 [E1 (H1 & L1 & _)]]; [eapply Hi; left; eauto|]. rewrite E1 in E. cbn [bind] in E.
    apply (IH h1); [split; [exact H1|exact (bayes_pos b h i h1 H P E1)]| |exact E]. intros c' i' Hc. rewrite L1. eapply Hi. right; eauto.
  Qed.
  Lemma refresh_fit b w : forall h s h', fit b h -> refresh_bayes ops h s w = Ok h' -> fit b h'.
  Proof.
    induction w as [|c t IH]; intros h s h' H E; cbn [refresh_bayes] in E; [injection E as <-; auto|].
    apply bind_Ok in E. destruct E as [x [E1 E]]. apply bind_Ok in E. destruct E as [h1 [E2 E]]. apply bind_Ok in E. destruct E as [[s1 h2] [E3 E]].
    eapply IH; [|exact E]. eapply next_fit; [|exact E3]. eapply refresh_next_fit; [exact H| |exact E2].
    intros c' i Hi. pose proof (ok_next _ _ _ _ (wf_states _ (hl_wf _ _ _ _ (proj1 H)) _ (vgetZ_In _ _ _ _ E1)) _ _ Hi). lia.
  Qed.
  Lemma verify_pos w : forall h s r h', hpos h -> verify_states ops h s w = Ok (r, h') -> hpos h'.
  Proof.
    induction w as [|c t IH]; intros h s r h' P E; cbn [verify_states] in E; [injection E as <- <-; auto|].
    apply bind_Ok in E. destruct E as [x [E1 E]]. destruct (hs_next x c <? 0); [injection E as <- <-; auto|].
    apply bind_Ok in E. destruct E as [[st l] [E2 E]]. apply bind_Ok in E. destruct E as [ns [E3 E]].
    destruct (_ && _); [|injection E as <- <-; auto]. eapply IH; [|exact E].
    intros y Hy. cbn [set_hs set_lms hs] in Hy. apply in_upd in Hy. destruct Hy as [->|Hy]; auto.
    apply vgetZ_In in E3. apply (P _ E3).
  Qed.
  Lemma update_pos b h s w n r h' : fit b h -> hub_update ops h s w n = Ok (r, h') -> hpos h'.
  Proof.
    intros H E. unfold hub_update in E. apply bind_Ok in E. destruct E as [h1 [E1 E]]. pose proof (ensure_fit _ _ _ _ _ H E1) as H1.
    apply bind_Ok in E. destruct E as [h2 [E2 E]].
    assert (H2 : fit b h2) by (destruct (0 <? h_bayes h)%nat; [eapply refresh_fit; eauto|injection E2 as <-; auto]).
    destruct (in_range h s); [|injection E as <- <-; apply H2].
    apply bind_Ok in E. destruct E as [x [E3 E]]. apply bind_Ok in E. destruct E as [[o l] [E4 E]].
    destruct o; [|injection E as <- <-; apply H2]. eapply verify_pos; [|exact E]. apply H2.
  Qed.
  Lemma extract_hs h s r h' : hub_extract ops h s = Ok (r, h') -> hs h' = hs h.
  Proof.
    unfold hub_extract. intros E. destruct (negb _); [injection E as <- <-; auto|]. apply bind_Ok in E. destruct E as [st [_ E]].
    destruct (_ <? 2)%nat.
    - destruct (h_lms h); [discriminate|]. apply bind_Ok in E. destruct E as [[x m'] [_ E]]. injection E as <- <-. reflexivity.
    - apply bind_Ok in E. destruct E as [ws [_ E]]. apply bind_Ok in E. destruct E as [[x l] [_ E]]. injection E as <- <-. reflexivity.
  Qed.

  (** ** What an extracted list is *)
  Lemma weights_nn h s ws : hpos h -> (forall w, In w (h_weights h) -> nn w) -> mixture_weights_at h s = Ok ws -> forall w, In w ws -> nn w.
  Proof.
    intros P Hw E. unfold mixture_weights_at in E. destruct (_ || _); [injection E as <-; auto|].
    apply bind_Ok in E. destruct E as [st [E1 E]]. apply bind_Ok in E. destruct E as [zs [E2 E]]. injection E as <-.
    destruct (P _ (vgetZ_In _ _ _ _ E1)) as [_ P2].
    assert (Z : forall z, In z zs -> nn z).
    { clear E1. revert zs E2 Hw P2. generalize (h_weights h) as ws. generalize (h_sum st) as sums. intros sums ws. revert sums.
      induction ws as [|w ws IH]; intros sums zs E2 Hw P2; cbn [zip_weights] in E2; [injection E2 as <-; intros z []|].
      destruct sums as [|p sums]; [discriminate|]. apply bind_Ok in E2. destruct E2 as [r [E2 E]]. injection E as <-.
      intros z [<-|I].
      - apply nn_mul; [apply Hw; left; auto|apply nn_val, P2; left; auto].
      - eapply IH; eauto; intros; [apply Hw|apply P2]; right; auto. }
    intros w Iw. apply in_map_iff in Iw. destruct Iw as [z [<- I]].
    intros p Ep. destruct z as [z|]; [|discriminate]. destruct (nsum zs) as [t|] eqn:Et; [|discriminate]. cbn [ndiv] in Ep. unfold num_div in Ep.
    destruct (feqb t f0) eqn:Z0; [discriminate|]. injection Ep as <-.
    destruct (nsum_val_all zs t) as [ps [-> ->]]; auto; [intros ->; destruct I|].
    apply fdiv_nonneg; [apply (Z _ I z); auto|]. apply flt_iff. split.
    - apply fsum_nonneg. intros x Hx. apply (Z (Val x)); auto. apply in_map; auto.
    - intros X. apply eq_sym, feqb_eq in X. congruence.
  Qed.

  Lemma dist_vals (sc : lm_scores (car F)) : NoDup (map fst (sc_entries sc)) -> (forall k p, In (k, p) (sc_entries sc) -> fle f0 p = true) ->
    fsum (map snd (sc_entries sc)) = f1 -> is_distribution (map (fun '(k, p) => (k, Val p)) (sc_entries sc)).
  Proof.
    intros H1 H2 H3. split; [|split].
    - rewrite map_map. rewrite (map_ext _ fst) by (intros [? ?]; auto). auto.
    - intros k v I. apply in_map_iff in I. destruct I as [[k0 p] [E I]]. injection E as <- <-. eauto.
    - unfold values. rewrite map_map. rewrite (map_ext _ snd) by (intros [? ?]; auto). auto.
  Qed.

  (** A reply without numbers, or a distribution. *)
  Lemma extract_dist b h s resp h' : fit b h -> (forall w, In w (h_weights h) -> nn w) ->
    hub_extract ops h s = Ok (Some resp, h') ->
    NoDup (map fst (sc_entries resp)) /\ (no_numbers (sc_entries resp) \/ is_distribution (sc_entries resp)).
  Proof.
    intros [H P] Hw E. unfold hub_extract in E. destruct (in_range h s) eqn:Er; cbn [negb] in E; [|discriminate].
    apply bind_Ok in E. destruct E as [st [E1 E]]. destruct (hl_live _ _ _ _ H _ (vgetZ_In _ _ _ _ E1)) as [L _].
    destruct (_ <? 2)%nat.
    - destruct (h_lms h) as [|m t] eqn:El; [discriminate|]. apply bind_Ok in E. destruct E as [[x m'] [E2 E]].
      destruct (live_model b st 0 m (m :: t) L) as [Im Om]; [rewrite <- El; apply H|reflexivity|].
      destruct (cd_extract _ _ _ _ D _ _ _ _ _ Im Om E2) as (sc & -> & N1 & N2 & [N3|[N3 _]]);
        cbn [option_map] in E; injection E as <- <-; cbn [sc_entries].
      + pose proof (dist_vals sc N1 N2 N3) as HD. split; [apply HD|auto].
      + rewrite N3. split; [constructor|]. left. intros k v [].
    - apply bind_Ok in E. destruct E as [ws [E2 E]]. apply bind_Ok in E. destruct E as [[r lms'] [E3 E]].
      destruct r as [[norm acc]|]; [|discriminate]. cbn [option_map] in E. injection E as <- <-.
      destruct (mix_loop_nn b st (h_lms h) ws L (hl_fine _ _ _ _ H) (weights_nn h s ws P Hw E2) 0 (h_lms h) (Val f0) [] (norm, acc) lms') as [N1 N2];
        [reflexivity|constructor|intros k x []|exact E3|].
      apply extract_mixture_dist; auto.
  Qed.

  (** With weights that are positive and fixed: a distribution, unless there is nothing to tell. *)
  Lemma mix_total_pos (ws : list (car F)) scs : length ws = length scs -> (forall w, In w ws -> flt f0 w = true) ->
    (forall sc, In sc scs -> fsum (map snd (sc_entries sc)) = f1 \/ sc_entries sc = []) ->
    flt f0 (mix_total ws scs) = true \/ (forall sc, In sc scs -> sc_entries sc = []).
  Proof.
    unfold mix_total. revert scs. induction ws as [|w ws IH]; intros [|sc scs] Hl Hw Hs; try discriminate; [right; intros ? []|].
    cbn [combine map]. rewrite fsum_cons.
    assert (NN : forall (ws : list (car F)) scs, (forall w, In w ws -> flt f0 w = true) ->
               (forall sc, In sc scs -> fsum (map snd (sc_entries sc)) = f1 \/ sc_entries sc = []) ->
               fle f0 (fsum (map (fun '(w, sc) => fmul w (fsum (map snd (sc_entries sc)))) (combine ws scs))) = true).
    { clear. intros ws scs Hw Hs. apply fsum_nonneg. intros x Hx. apply in_map_iff in Hx. destruct Hx as [[w sc] [<- I]].
      pose proof (in_combine_l _ _ _ _ I). pose proof (in_combine_r _ _ _ _ I). apply fmul_nonneg; [apply flt_le; auto|].
      destruct (Hs sc) as [-> | ->]; auto; [apply one_nonneg|]. apply fle_refl. }
    destruct (Hs sc (or_introl eq_refl)) as [S1|S1].
    - left. apply fadd_pos_l; [|apply NN; [intros; apply Hw|intros; apply Hs]; right; auto]. rewrite S1.
      replace (fmul w f1) with w by field. apply Hw. left; auto.
    - destruct (IH scs) as [I|I]; [injection Hl as Hl; auto|intros; apply Hw; right; auto|intros; apply Hs; right; auto| |].
      + left. apply fadd_pos_r; auto. rewrite S1. cbn [map]. unfold fsum; cbn [fold_right].
        replace (fmul w f0) with (f0 : car F) by field. apply fle_refl.
      + right. intros x [<-|Hx]; auto.
  Qed.

  Lemma extract_static b h s ws resp h' : fit b h -> h_bayes h = 0%nat \/ (length ws < 2)%nat -> h_weights h = map Val ws -> (forall w, In w ws -> flt f0 w = true) ->
    hub_extract ops h s = Ok (Some resp, h') ->
    is_distribution (sc_entries resp) \/
    (sc_entries resp = [] /\ forall k m, (k < Nat.max 1 (length ws))%nat -> nth_error (h_lms h) k = Some m -> silent m).
  Proof.
    intros H B Hw Hp E. pose proof (extract_dist b h s resp h' H) as X. destruct X as [ND X]; auto.
    { intros w Iw. rewrite Hw in Iw. apply in_map_iff in Iw. destruct Iw as [p [<- I]]. apply nn_val, flt_le; auto. }
    destruct X as [X|X]; [|auto]. right. destruct H as [H P].
    unfold hub_extract in E. destruct (in_range h s) eqn:Er; cbn [negb] in E; [|discriminate].
    apply bind_Ok in E. destruct E as [st [E1 E]]. destruct (hl_live _ _ _ _ H _ (vgetZ_In _ _ _ _ E1)) as [L _].
    assert (Lw : length (h_weights h) = length ws) by (rewrite Hw; apply map_length).
    destruct (Nat.ltb_spec (length (h_weights h)) 2).
    - destruct (h_lms h) as [|m t] eqn:El; [discriminate|]. apply bind_Ok in E. destruct E as [[x m'] [E2 E]].
      destruct (live_model b st 0 m (m :: t) L) as [Im Om]; [rewrite <- El; apply H|reflexivity|].
      destruct (cd_extract _ _ _ _ D _ _ _ _ _ Im Om E2) as (sc & -> & N1 & N2 & N3);
        cbn [option_map] in E; injection E as <- <-; cbn [sc_entries] in *.
      assert (Z : sc_entries sc = []).
      { destruct (sc_entries sc) as [|[k p] e]; auto. specialize (X k (Val p) (or_introl eq_refl)). discriminate. }
      rewrite Z in *. split; auto. intros [|k] m0 Hk Hm; [|lia]. injection Hm as <-. destruct N3 as [N3|[_ N3]]; auto.
      exfalso. apply (f1_neq_0 (F := F)). symmetry. exact N3.
    - destruct B as [B|B]; [|lia]. unfold mixture_weights_at in E. rewrite B in E. cbn [Nat.eqb orb bind] in E. rewrite Hw in E.
      apply bind_Ok in E. destruct E as [[r lms'] [E3 E]]. destruct r as [r|]; [|discriminate]. cbn [option_map] in E.
      change (@nil (str * num F)) with (vals (F := F) []) in E3.
      destruct (mix_loop_spec ops st ws 0 (h_lms h) f0 [] r lms' (NoDup_nil _) E3) as (scs & acc' & B1 & B2 & B3 & B4 & B5 & B6 & B7).
      assert (SC : forall k, (k < length ws)%nat -> exists m sc, nth_error (h_lms h) k = Some m /\ nth_error scs k = Some sc /\
                   (fsum (map snd (sc_entries sc)) = f1 \/ (sc_entries sc = [] /\ silent m))).
      { intros k Hk. destruct (B2 k Hk) as (m & sc & m' & C1 & C2 & C3). exists m, sc. split; auto. split; auto.
        destruct (live_model b st k m (h_lms h) L (hl_fine _ _ _ _ H) C1) as [Im Om].
        destruct (cd_extract _ _ _ _ D _ _ _ _ _ Im Om C3) as (sc' & Es & _ & _ & N3). injection Es as <-. exact N3. }
      destruct (mix_total_pos ws scs) as [MT|MT]; auto.
      { intros sc I. apply In_nth_error in I. destruct I as [k I]. assert (Hk : (k < length ws)%nat) by (rewrite <- B1; apply nth_error_Some; congruence).
        destruct (SC k Hk) as (m & sc' & _ & C2 & C3). rewrite I in C2. injection C2 as <-. tauto. }
      + exfalso. subst r. cbn [option_map] in E. injection E as <- <-.
        destruct (extract_mixture_spec ws scs acc' (fsum (map (fun '(w, sc) => fmul w (sc_norm sc)) (combine ws scs)))) as [MX MS]; auto.
        { intros k. rewrite B5. split; [intros [[]|Z]; auto|auto]. }
        { intros k. rewrite B6. change (prob_at k []) with (f0 : car F). field. }
        { rewrite B7. cbn. field. }
        { apply not_eq_sym, flt_neq; auto. }
        match type of MX with is_mixture _ _ ?r => set (R := r) in * end.
        match type of X with no_numbers (sc_entries ?r) => change (sc_entries r) with (sc_entries R) in X end.
        destruct (sc_entries R) as [|[k v] e] eqn:Ee; [apply (f1_neq_0 (F := F)); symmetry; exact MS|].
        pose proof (mx_probs _ _ _ MX k v) as MP. rewrite Ee in MP. specialize (MP (or_introl eq_refl)).
        rewrite (X k v (or_introl eq_refl)) in MP. discriminate.
      + assert (Z : acc' = []).
        { destruct acc' as [|[k v] e]; auto. destruct (proj1 (B5 k) (or_introl eq_refl)) as [[]|[sc [I1 I2]]].
          rewrite (MT sc I1) in I2. destruct I2. }
        subst r acc'. injection E as <- <-. split; [reflexivity|].
        intros k m Hk Hm. destruct (SC k) as (m' & sc & C1 & C2 & C3); [lia|]. rewrite Hm in C1. injection C1 as <-.
        destruct C3 as [C3|[_ C3]]; auto. rewrite (MT sc) in C3 by (eapply nth_error_In; eauto).
        exfalso. apply (f1_neq_0 (F := F)). symmetry. exact C3.
  Qed.

  (** ** Requests *)
  Lemma handle_fit b h q rep h' : fit b h -> enough_models h -> req_cost q <= b -> (h_bayes h = 0%nat \/ req_guarded h q) ->
    handle ops h q = Ok (rep, h') ->
    fit (b - req_cost q) h' /\ same_config h h' /\
    (forall sc, rep = ScoresReply sc -> exists h1 b1 s, fit b1 h1 /\ same_config h h1 /\ hub_extract ops h1 s = Ok (Some sc, h') /\
       Forall2 (c_reach ops true) (h_lms h) (h_lms h1)).
  Proof.
    intros [H P] En Hc G E. destruct (handle_sure ops Inv ok A b h q H En Hc G) as [[x hx] [Ex [Hx Cx]]].
    rewrite Ex in E. injection E as -> ->. cbn [snd] in *. pose proof (hl_wf _ _ _ _ H) as W.
    assert (FX : fit b h) by (split; auto).
    destruct q as [s w|s w|s w n]; cbn [handle req_cost] in *.
    - unfold handle_get_next_state in Ex. apply bind_Ok in Ex. destruct Ex as [[r h1] [E1 E]]. injection E as <- <-.
      split; [split; [auto|apply (context_fit b _ _ _ _ _ FX E1)]|]. split; auto. intros sc Es. discriminate.
    - unfold handle_get_lm_scores in Ex. apply bind_Ok in Ex. destruct Ex as [[r h1] [E1 E]]. apply bind_Ok in E. destruct E as [[sc h2] [E2 E]].
      injection E as <- <-. pose proof (context_fit b _ _ _ _ _ FX E1) as F1.
      split; [split; [auto|]|].
      + intros y Hy. rewrite (extract_hs _ _ _ _ E2) in Hy. apply F1; auto.
      + split; auto. intros sc0 Es. destruct sc as [sc|]; [|discriminate]. injection Es as <-. exists h1, b, r. split; auto.
        split; [eapply hub_context_wf; eauto|]. split; auto. eapply context_evolve; exact E1.
    - unfold handle_update_lm_scores in Ex. apply bind_Ok in Ex. destruct Ex as [[cur h1] [E1 E]]. apply bind_Ok in E. destruct E as [[o h2] [E2 E]].
      pose proof (next_states_fit b _ _ _ _ _ FX E1) as F1. destruct (next_states_wf _ _ _ _ _ _ W E1) as [W1 C1].
      pose proof (update_pos b _ _ _ _ _ _ F1 E2) as P2. destruct (hub_update_wf _ _ _ _ _ _ _ W1 E2) as [W2 C2].
      assert (H2 : hlive Inv ok (b - learn_cost w n) h2).
      { destruct (hub_update_sure ops Inv ok A b h1 (to_int s) w n (proj1 F1) Hc) as [[o2 h2'] [E3 H3]].
        - eapply enough_same; eauto.
        - destruct C1 as (_ & _ & B1 & _ & L1). destruct G as [G|[G1 G2]]; [left; congruence|right]. split; auto. unfold in_range in *. lia.
        - rewrite E3 in E2. injection E2 as -> ->. exact H3. }
      destruct o; [|injection E as <- <-; split; [split; auto|split; [auto|intros sc Es; discriminate]]].
      apply bind_Ok in E. destruct E as [[sc h3] [E3 E]]. injection E as <- <-.
      split; [split; [auto|]|].
      + intros y Hy. rewrite (extract_hs _ _ _ _ E3) in Hy. apply P2; auto.
      + split; auto. intros sc0 Es. destruct sc as [sc|]; [|discriminate]. injection Es as <-. exists h2, (b - learn_cost w n), cur.
        split; [split; auto|]. split; [eapply same_config_trans; eauto|]. split; auto.
        eapply evolve_trans; [eapply next_states_evolve; exact E1|eapply update_evolve; [|exact E2]; auto].
  Qed.
  Lemma all_scores l : forall b h rs h', fit b h -> enough_models h -> reqs_cost l <= b -> (h_bayes h = 0%nat \/ reqs_guarded ops h l) ->
    handle_all ops h l = Ok (rs, h') ->
    forall sc, In (ScoresReply sc) rs -> exists h1 b1 s h2, fit b1 h1 /\ same_config h h1 /\ hub_extract ops h1 s = Ok (Some sc, h2) /\
       Forall2 (c_reach ops true) (h_lms h) (h_lms h1).
  Proof.
    induction l as [|q t IH]; intros b h rs h' H En Hc G E sc I; cbn [handle_all] in E; [injection E as <- <-; destruct I|].
    cbn [reqs_cost fold_right] in Hc. fold (reqs_cost t) in Hc. pose proof (reqs_cost_nonneg t).
    apply bind_Ok in E. destruct E as [[x h1] [E1 E]]. apply bind_Ok in E. destruct E as [[xs h2] [E2 E]]. injection E as <- <-.
    assert (G1 : h_bayes h = 0%nat \/ req_guarded h q) by (destruct G as [G|[G _]]; auto).
    destruct (handle_fit b h q x h1 H En ltac:(lia) G1 E1) as (F1 & C1 & X1).
    destruct I as [Ix|I].
    - destruct (X1 sc Ix) as (ha & ba & s & K1 & K2 & K3 & K4). exists ha, ba, s, h1. auto.
    - destruct (IH (b - req_cost q) h1 xs h2 F1) with (sc := sc) as (ha & ba & s & hb & K1 & K2 & K3 & K4); auto.
      + eapply enough_same; eauto.
      + lia.
      + destruct G as [G|[_ G]]; [left; destruct C1 as (_ & _ & C & _); congruence|right]. rewrite E1 in G. exact G.
      + exists ha, ba, s, hb. split; auto. split; [eapply same_config_trans; eauto|]. split; auto.
        eapply evolve_trans; [|exact K4]. eapply handle_ok; [apply H|exact E1].
  Qed.
End Dist.
