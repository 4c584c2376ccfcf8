(** The calls of the PPM model against the reference description. *)
From Coq Require Import Field.
From Verif Require Import Base Field LmModel TextModel HubModel PpmModel PpmSpec PpmStruct PpmVals PpmCache PpmWf PpmUpdate PpmObserve.
Local Open Scope Z_scope.

Section Api.
  Context {F : ofield}.
  Add Field FfieldPpm6 : (f_th F).
  Variable V : nat.
  Variable u : Z.

  Definition inv (m : ppm F) (ctx : list history) : Prop := minv V u (fun _ => False) m ctx.

  (** What a chain of back-off states computes is the reference description. *)
  Section Rel.
    Variables (m : ppm F) (ctx : list history).
    Hypothesis H : inv m ctx.
    Let C := table ctx (p_fst m).
    Let Hw := mi_wf _ _ _ _ _ H.

    Lemma no_D (h : history) : forall (d : Z) (g : history), False -> getZ ctx d = Some g -> ~ suffix g h.
    Proof. intros d g []. Qed.

    Lemma state_ex s h : getZ ctx s = Some h -> exists st, getZ (p_fst m) s = Some st.
    Proof. intros Hs. apply getZ_ex. rewrite <- (wf_len _ _ _ _ _ _ _ _ Hw). eapply getZ_range; eauto. Qed.

    Lemma count_table s h st x : getZ ctx s = Some h -> getZ (p_fst m) s = Some st -> count st x = C h x.
    Proof. intros Hs Hst. symmetry. apply (table_get ctx (p_fst m) s h st x); auto. apply (wf_nodup _ _ _ _ _ _ _ _ Hw). Qed.

    Lemma stotal_total s h st : getZ ctx s = Some h -> getZ (p_fst m) s = Some st -> stotal V st = total V C h.
    Proof.
      intros Hs Hst. unfold stotal, total. f_equal. apply map_ext. intros x. eapply count_table; eauto.
    Qed.
    Lemma skinds_kinds s h st : getZ ctx s = Some h -> getZ (p_fst m) s = Some st -> skinds V st = kinds V C h.
    Proof.
      intros Hs Hst. unfold skinds, kinds. do 2 f_equal. apply filter_ext. intros x.
      rewrite (count_table s h st x); auto.
    Qed.

    Lemma chain_rel : forall h s l, getZ ctx s = Some h -> chain (p_fst m) s l ->
      (forall x, cprob V (p_alpha m) (p_beta m) l x = prob V (p_alpha m) (p_beta m) C h x) /\
      cnorm V (p_alpha m) l = norm V (p_alpha m) C h /\
      (forall x, getZ ctx (corigin l x) = Some (seen C h x)) /\
      (forall x, 1 <= x <= Z.of_nat V -> getZ ctx (cdest (p_start m) l x) = Some (longest ctx (h ++ [x]))) /\
      cdest (p_start m) l 0 = p_start m.
    Proof.
      pose proof (wf_nodup _ _ _ _ _ _ _ _ Hw) as Hnd.
      assert (Hlong : forall s h st x a, getZ ctx s = Some h -> getZ (p_fst m) s = Some st -> x <> 0 ->
        find_arc (ps_arcs st) x = Some a ->
        (forall b, In b (ps_arcs st) -> a_label b = x -> b = a) ->
        getZ ctx (a_next a) = Some (longest ctx (h ++ [x]))).
      { intros s h st x a Hs Hst Hx Hf Huniq. destruct (find_arc_In _ _ _ Hf) as [Hin Hla].
        destruct (wf_arc _ _ _ _ _ _ _ _ Hw s st a h Hst Hs Hin ltac:(congruence)) as (t & Ht & Hsuf & Hle).
        rewrite Hla in Hsuf. rewrite Ht. f_equal.
        destruct (Nat.eq_dec (length t) (length h)) as [El|El].
        - assert (Hni : ~ @In history (h ++ [x]) ctx).
          { eapply not_known; eauto. intros b Hb Hlb. rewrite (Huniq b Hb Hlb). eauto. }
          pose proof (tl_suffix _ _ _ Hsuf El) as Et.
          destruct h as [|c h]; cbn [app tl] in *.
          + cbn [longest]. rewrite mem_false by auto. subst t.
            destruct (existsb (hist_eqb []) ctx); reflexivity.
          + cbn [longest]. rewrite mem_false by auto. subst t.
            destruct (h ++ [x]) as [|d r] eqn:E; [destruct h; discriminate|]. cbn [longest].
            rewrite (proj2 (mem_In ctx (d :: r))); auto. eapply getZ_In; eauto.
        - assert (E : t = h ++ [x]).
          { apply suffix_same_len; auto. apply suffix_len in Hsuf. rewrite app_length in *. simpl in *. lia. }
          subst t. destruct (h ++ [x]) as [|d r] eqn:E; [destruct h; discriminate|]. cbn [longest].
          rewrite (proj2 (mem_In ctx (d :: r))); auto. eapply getZ_In; eauto. }
      induction h as [|c h IH]; intros s l Hs Hc.
      - destruct (chain_hd _ _ _ Hc) as (st & l' & -> & Hst).
        pose proof (getZ_nodup _ _ _ _ Hnd Hs (wf_u _ _ _ _ _ _ _ _ Hw)) as ->.
        destruct (wf_uni _ _ _ _ _ _ _ _ Hw st Hst) as (Hg & Hl & Hfp).
        assert (l' = []) as ->.
        { inversion Hc as [? ? ? ? ? ? ? E1 E2|s0 st0 S0 b0 t0 l0 Hs0 Ha Hc0 E1 E2]; subst; auto.
          destruct Hg as [_ Hg]. rewrite Ha in Hg. specialize (Hg _ (or_introl eq_refl)). simpl in Hg. lia. }
        split; [|split; [|split; [|split]]].
        + intros x. cbn [cprob prob]. rewrite (stotal_total _ _ _ Hs Hst), (count_table _ _ _ x Hs Hst). reflexivity.
        + cbn [cnorm norm]. rewrite (stotal_total _ _ _ Hs Hst). reflexivity.
        + intros x. cbn [corigin seen]. exact Hs.
        + intros x Hx. cbn [cdest]. unfold sdest. destruct (Z.eqb_spec x 0); [lia|].
          destruct (uni_count V st x Hg Hl Hx) as [a Ha]. rewrite Ha.
          apply (Hlong u [] st x a); auto. intros b Hb Hlb.
          assert (Some b = Some a) as K; [|congruence]. rewrite <- Ha, <- Hlb. symmetry. apply find_arc_nodup; auto. apply Hg.
        + reflexivity.
      - destruct (state_ex _ _ Hs) as [st Hst].
        destruct (wf_state _ _ _ _ _ _ _ _ Hw s st c h Hst Hs) as (S & b & rest & Ha & Hb & Hg & Hf & HS).
        assert (exists l', l = (s, st) :: l' /\ chain (p_fst m) b l') as (l' & -> & Hc').
        { inversion Hc as [s0 st0 a0 t0 Hs0 Ha0 Hl E1 E2|s0 st0 S0 b0 t0 l0 Hs0 Ha0 Hc0 E1 E2]; subst;
            rewrite Hst in Hs0; injection Hs0 as <-; rewrite Ha in Ha0; injection Ha0; intros; subst.
          - simpl in Hl. congruence.
          - eauto. }
        destruct (chain_hd _ _ _ Hc') as (stb & lb & El & _).
        destruct (IH b l' Hb Hc') as (I1 & I2 & I3 & I4 & I5).
        pose proof (stotal_total _ _ _ Hs Hst) as Et. pose proof (skinds_kinds _ _ _ Hs Hst) as Ek.
        assert (Ec : forall x, count st x = C (c :: h) x) by (intros; eapply count_table; eauto).
        split; [|split; [|split; [|split]]].
        + intros x. cbn [cprob prob]. rewrite El in *. rewrite Et, Ek, Ec, I1. reflexivity.
        + cbn [cnorm norm]. rewrite El in *. rewrite Et, I2. reflexivity.
        + intros x. cbn [corigin seen]. rewrite El in *. rewrite Ec. destruct (flt f0 (C (c :: h) x)); auto.
        + intros x Hx. cbn [cdest]. rewrite El in *.
          assert (Hrest : find_arc (ps_arcs st) x = find_arc rest x).
          { rewrite Ha, find_arc_cons. cbn [a_label]. destruct (Z.eqb_spec 0 x); [lia|reflexivity]. }
          assert (Hcx : count st x = match find_arc rest x with Some a => a_count a | None => f0 end).
          { unfold count. destruct (Z.eqb_spec x 0); [lia|]. rewrite Hrest. reflexivity. }
          assert (Huq : forall a a', find_arc rest x = Some a -> In a' (ps_arcs st) -> a_label a' = x -> a' = a).
          { intros a a' Hfa Hin Hla. rewrite Ha in Hin. destruct Hin as [<-|Hin]; [simpl in Hla; lia|].
            assert (Some a' = Some a) as K; [|congruence]. rewrite <- Hfa, <- Hla. symmetry.
            apply find_arc_nodup; auto. apply Hg. }
          destruct (find_arc rest x) as [a|] eqn:Efa.
          * assert (P : flt f0 (count st x) = true).
            { rewrite Hcx. apply find_arc_In in Efa. destruct Efa as [Hin _]. apply Hg in Hin.
              eapply flt_trans; [apply (mi_beta _ _ _ _ _ H)|apply Hin]. }
            rewrite P. unfold sdest. destruct (Z.eqb_spec x 0); [lia|]. rewrite Hrest.
            apply (Hlong s (c :: h) st x a); auto.
          * rewrite Hcx, flt_00.
            assert (Hni : ~ @In history ((c :: h) ++ [x]) ctx).
            { apply (not_known V u (fun _ => False) (p_beta m) (p_max_order m) (p_start m) (p_fst m) ctx s (c :: h) st x Hw Hs Hst ltac:(lia)).
              intros a Hin Hla. rewrite Ha in Hin.
              destruct Hin as [<-|Hin]; [simpl in Hla; lia|]. apply find_arc_None in Efa. elim Efa.
              rewrite <- Hla. apply in_map; auto. }
            cbn [app longest]. cbn [app] in Hni. rewrite mem_false by auto. apply I4; auto.
        + cbn [cdest]. rewrite El in *. unfold sdest. replace (0 =? 0) with true by reflexivity.
          destruct (flt f0 (count st 0)); auto.
    Qed.

    Lemma good_state s h : getZ ctx s = Some h -> exists l, good_at V m s l.
    Proof.
      intros Hs. destruct (wf_chain V _ _ _ u _ _ _ Hw h s Hs (no_D h)) as (l & Hch & Hgc & Hall).
      exists l. split; [auto|]. split; [auto|]. apply Forall2_length in Hall. rewrite Hall, suffixes_length.
      eapply wf_order_lt; eauto.
    Qed.
  End Rel.

  (** A query only changes the cache. *)
  Definition queried (m m' : ppm F) : Prop := exists a ci cs, m' = set_cache m a ci cs.
  Lemma queried_refl m : queried m m.
  Proof. exists (p_accessed m), (p_cindex m), (p_caches m). destruct m; reflexivity. Qed.
  Lemma queried_trans m m1 m2 : queried m m1 -> queried m1 m2 -> queried m m2.
  Proof. intros (a & b & c & ->) (a' & b' & c' & ->). exists a', b', c'. reflexivity. Qed.
  Lemma queried_fst m m' : queried m m' -> p_fst m' = p_fst m.
  Proof. intros (a & b & c & ->). reflexivity. Qed.
  Lemma queried_same m m' : queried m m' -> same m m'.
  Proof. intros (a & b & c & ->). constructor; reflexivity. Qed.

  Lemma inv_cache m ctx a ci cs : inv m ctx -> cinv V (fun _ => False) (set_cache m a ci cs) ->
    inv (set_cache m a ci cs) ctx.
  Proof. intros [] Hc. constructor; auto. Qed.

  Section Reads.
    Variables (m : ppm F) (ctx : list history) (s : Z) (h : history).
    Hypothesis H : inv m ctx.
    Hypothesis Hs : getZ ctx s = Some h.
    Let C := table ctx (p_fst m).

    Lemma ensure_spec : exists m' v, ensure_cache m s = Ok (Some v, m') /\ inv m' ctx /\ queried m m' /\
      v_probs v = map (prob V (p_alpha m) (p_beta m) C h) (symbols V) /\
      v_norm v = norm V (p_alpha m) C h.
    Proof.
      destruct (good_state m ctx H s h Hs) as (l & Hga).
      destruct (chain_rel m ctx H h s l Hs (proj1 Hga)) as (R1 & R2 & _).
      destruct (ensure_cache_ok V (fun _ => False) m s l (mi_alpha _ _ _ _ _ H) (mi_beta _ _ _ _ _ H) (mi_c _ _ _ _ _ H) Hga)
        as (a & ci & cs & E & Hc & _); [tauto|].
      eexists _, _. split; [exact E|]. split; [apply inv_cache; auto|]. split; [eexists _, _, _; reflexivity|].
      cbn [v_probs v_norm cvals]. split; [|exact R2]. apply map_ext. exact R1.
    Qed.

    Lemma prob_spec x : In x (symbols V) -> exists m', get_prob m s x = Ok (Some (prob V (p_alpha m) (p_beta m) C h x), m') /\
      inv m' ctx /\ queried m m'.
    Proof.
      intros Hx. destruct (good_state m ctx H s h Hs) as (l & Hga).
      destruct (chain_rel m ctx H h s l Hs (proj1 Hga)) as (R1 & _).
      destruct (cached_ok V v_probs (cprob V (p_alpha m) (p_beta m) l) (fun _ => False) m s l x
                  (mi_alpha _ _ _ _ _ H) (mi_beta _ _ _ _ _ H) (mi_c _ _ _ _ _ H) Hga ltac:(tauto) eq_refl Hx)
        as (a & ci & cs & E & Hc & _).
      eexists. split; [unfold get_prob; rewrite E, R1; reflexivity|]. split; [apply inv_cache; auto|eexists _, _, _; reflexivity].
    Qed.

    Lemma origin_spec x : In x (symbols V) -> exists m' o, get_arc_origin_state m s x = Ok (Some o, m') /\
      getZ ctx o = Some (seen C h x) /\ inv m' ctx /\ queried m m'.
    Proof.
      intros Hx. destruct (good_state m ctx H s h Hs) as (l & Hga).
      destruct (chain_rel m ctx H h s l Hs (proj1 Hga)) as (_ & _ & R & _).
      destruct (cached_ok V v_origins (corigin l) (fun _ => False) m s l x
                  (mi_alpha _ _ _ _ _ H) (mi_beta _ _ _ _ _ H) (mi_c _ _ _ _ _ H) Hga ltac:(tauto) eq_refl Hx)
        as (a & ci & cs & E & Hc & _).
      eexists _, _. split; [exact E|]. split; [apply R|]. split; [apply inv_cache; auto|eexists _, _, _; reflexivity].
    Qed.

    Lemma dest_spec x : In x (symbols V) -> exists m' d, get_destination_state m s x = Ok (Some d, m') /\
      (1 <= x -> getZ ctx d = Some (longest ctx (h ++ [x]))) /\ (x = 0 -> d = p_start m) /\ inv m' ctx /\ queried m m'.
    Proof.
      intros Hx. destruct (good_state m ctx H s h Hs) as (l & Hga).
      destruct (chain_rel m ctx H h s l Hs (proj1 Hga)) as (_ & _ & _ & R & R0).
      destruct (cached_ok V v_dests (cdest (p_start m) l) (fun _ => False) m s l x
                  (mi_alpha _ _ _ _ _ H) (mi_beta _ _ _ _ _ H) (mi_c _ _ _ _ _ H) Hga ltac:(tauto) eq_refl Hx)
        as (a & ci & cs & E & Hc & _).
      eexists _, _. split; [exact E|]. split; [|split].
      - intros Hx1. apply R. apply symbols_In in Hx. lia.
      - intros ->. exact R0.
      - split; [apply inv_cache; auto|eexists _, _, _; reflexivity].
    Qed.
  End Reads.

  (** Labels. *)
  Lemma find_sym_label l : forall i c, find_sym i l c = label_from i l c.
  Proof. induction l as [|d t IH]; intros i c; cbn [find_sym label_from]; [reflexivity|]. rewrite IH. reflexivity. Qed.
  Lemma label_range l : forall i c, 0 <= i -> label_from i l c = -1 \/ i <= label_from i l c < i + Z.of_nat (length l).
  Proof.
    induction l as [|d t IH]; intros i c Hi; cbn [label_from length]; auto.
    destruct (d =? c); [right; lia|]. destruct (IH (i + 1) c); [lia|auto|right; lia].
  Qed.
  Definition labels (m : ppm F) : Z -> Z := label_from 1 (p_syms m).
  Lemma sym_index_labels m c : sym_index m c = labels m c.
  Proof. apply find_sym_label. Qed.
  Lemma labels_range m ctx c : inv m ctx -> labels m c = -1 \/ 1 <= labels m c <= Z.of_nat V.
  Proof.
    intros H. unfold labels. destruct (label_range (p_syms m) 1 c); [lia|auto|].
    rewrite (mi_syms _ _ _ _ _ H) in *. right; lia.
  Qed.

  (** NextState. *)
  Lemma next_spec m ctx s h c : inv m ctx -> getZ ctx s = Some h ->
    exists m' s', ppm_next m s c = Ok (s', m') /\ inv m' ctx /\ queried m m' /\
      getZ ctx s' = Some (next_history ctx h (labels m c)).
  Proof.
    intros H Hs. unfold ppm_next, next_history. rewrite sym_index_labels.
    destruct (Z.ltb_spec 0 (labels m c)) as [Hp|Hp].
    - destruct (labels_range m ctx c H) as [E|Hr]; [lia|].
      destruct (dest_spec m ctx s h H Hs (labels m c)) as (m' & d & E & Hd & _ & Hi & Hq).
      { apply symbols_In. lia. }
      rewrite E. cbn [bind]. exists m', d. split; [reflexivity|]. split; auto. split; auto. apply Hd. lia.
    - cbn [bind]. pose proof (mi_wf _ _ _ _ _ H) as Hw.
      destruct (state_ex m ctx H _ _ (wf_start _ _ _ _ _ _ _ _ Hw)) as [st Hst].
      destruct (wf_state _ _ _ _ _ _ _ _ Hw (p_start m) st 0 [] Hst (wf_start _ _ _ _ _ _ _ _ Hw))
        as (S & b & rest & Ha & Hb & _).
      rewrite (backoff_step _ _ _ _ _ _ Hst Ha). cbn [bind].
      exists m, b. split; [reflexivity|]. split; auto. split; [apply queried_refl|auto].
  Qed.

  (** SymLMScore. *)
  Lemma score_spec m ctx s h c : inv m ctx -> getZ ctx s = Some h ->
    exists m', ppm_score m s c =
      Ok (let x := if c =? 0 then 0 else labels m c in
          if 0 <=? x then prob V (p_alpha m) (p_beta m) (table ctx (p_fst m)) h x else f0, m') /\
      inv m' ctx /\ queried m m'.
  Proof.
    intros H Hs. unfold ppm_score. rewrite sym_index_labels. cbn zeta.
    set (x := if c =? 0 then 0 else labels m c).
    assert (Hx : x = -1 \/ In x (symbols V)).
    { unfold x. destruct (c =? 0); [right; apply symbols_In; lia|].
      destruct (labels_range m ctx c H) as [E|E]; auto. right. apply symbols_In. lia. }
    destruct (Z.leb_spec 0 x) as [Hp|Hp].
    - destruct Hx as [Hx|Hx]; [lia|]. destruct (prob_spec m ctx s h H Hs x Hx) as (m' & E & Hi & Hq).
      rewrite E. cbn [bind]. exists m'. auto.
    - cbn [bind]. exists m. split; [reflexivity|]. split; auto. apply queried_refl.
  Qed.

  (** ExtractLMScores. *)
  Lemma combine_map {A B C} (f : A -> B) (g : A -> C) l : combine (map f l) (map g l) = map (fun a => (f a, g a)) l.
  Proof. induction l; cbn; congruence. Qed.
  Lemma extract_spec m ctx s h : inv m ctx -> getZ ctx s = Some h ->
    exists m', ppm_extract m s =
      Ok (Some (LmScores (norm V (p_alpha m) (table ctx (p_fst m)) h)
            (combine ([] :: map (fun c => [c]) (p_syms m))
               (map (prob V (p_alpha m) (p_beta m) (table ctx (p_fst m)) h) (symbols V)))), m') /\
      inv m' ctx /\ queried m m'.
  Proof.
    intros H Hs. destruct (ensure_spec m ctx s h H Hs) as (m' & v & E & Hi & Hq & Ep & En).
    exists m'. split; [|auto]. unfold ppm_extract. rewrite E. cbn [bind].
    rewrite symbols_cons in Ep. cbn [map] in Ep. destruct (v_probs v) as [|p0 ps] eqn:Ev; [discriminate|].
    unfold fill_lm_scores. rewrite Ev, En, Ep. destruct Hq as (a & ci & cs & ->). rewrite symbols_cons. reflexivity.
  Qed.

  (** UpdateModel from outside. *)
  Lemma update_model_spec m ctx s h x highest : inv m ctx -> p_static m = false -> getZ ctx s = Some h ->
    In x (symbols V) -> let C := table ctx (p_fst m) in getZ ctx highest = Some (seen C h x) ->
    exists m' d, let ctx' := extended (p_max_order m) ctx C h x in
      update_model m s highest x = Ok (Some d, m') /\ inv m' ctx' /\ same m m' /\
      (forall g y, table ctx' (p_fst m') g y = observe C h x g y) /\
      (x <> 0 -> target (p_max_order m) ctx' h x d).
  Proof.
    intros H Hns Hs Hx C Hhi.
    destruct (update_ok V u h (S (length (p_fst m))) (fun _ => False) m ctx s highest x H Hns Hs) as
      (m' & d & E & Hm & Hsm & Ht & _ & _ & Htg); auto.
    { pose proof (wf_order_lt V _ _ _ u _ _ _ s h (mi_wf _ _ _ _ _ H) Hs). lia. }
    { tauto. }
    exists m', d. cbn zeta. auto.
  Qed.

  Lemma extended_again mo (C : @counts F) ctx h x d : flt f0 (C h x) = true -> x <> 0 ->
    target mo ctx h x d -> extended mo ctx C h x = ctx.
  Proof.
    intros Hp Hx (t & Ht & Hsuf & Hl). rewrite (extended_found mo ctx C h x Hp Hx). unfold fits.
    destruct (Z.ltb_spec (Z.of_nat (length (h ++ [x]))) mo) as [Hlt|Hge].
    - assert (t = h ++ [x]) as ->.
      { apply suffix_same_len; auto. unfold olen in Hl. rewrite app_length in *. simpl in *. lia. }
      rewrite (proj2 (mem_In ctx (h ++ [x]))); [apply app_nil_r|eapply getZ_In; exact Ht].
    - apply app_nil_r.
  Qed.

  Lemma ofZ_1_add n : 0 <= n -> @ofZ F (n + 1) = fadd f1 (ofZ n).
  Proof. intros Hn. rewrite ofZ_add, ofZ_1. ring. Qed.

  Lemma update_again_spec : forall n m ctx s h x d, inv m ctx -> p_static m = false -> getZ ctx s = Some h ->
    In x (symbols V) -> flt f0 (table ctx (p_fst m) h x) = true ->
    (x <> 0 -> target (p_max_order m) ctx h x d) ->
    exists m', update_again n m s x = Ok (true, m') /\ inv m' ctx /\ same m m' /\
      (forall g y, table ctx (p_fst m') g y = add_count (table ctx (p_fst m)) h x (Z.of_nat n) g y).
  Proof.
    induction n as [|n IH]; intros m ctx s h x d H Hns Hs Hx Hp Ht; cbn [update_again].
    - exists m. split; [reflexivity|]. split; auto. split; [apply same_refl|]. intros g y. unfold add_count.
      rewrite ofZ_0. destruct ((y =? x) && hist_eqb g h); [ring|reflexivity].
    - destruct (update_model_spec m ctx s h x s H Hns Hs Hx) as (m1 & d1 & E & Hm & Hsm & Htab & Htg).
      { rewrite (seen_found _ h x Hp). exact Hs. }
      rewrite E. cbn [bind].
      assert (Ee : extended (p_max_order m) ctx (table ctx (p_fst m)) h x = ctx).
      { destruct (Z.eq_dec x 0) as [->|Hx0]; [reflexivity|]. eapply extended_again; eauto. }
      rewrite Ee in *.
      assert (Htab' : forall g y, table ctx (p_fst m1) g y =
        if (y =? x) && hist_eqb g h then fadd (table ctx (p_fst m) g y) f1 else table ctx (p_fst m) g y).
      { intros g y. rewrite Htab. apply observe_found; auto. }
      destruct (IH m1 ctx s h x d1 Hm) as (m' & E' & Hm' & Hsm' & Htab2); auto.
      { rewrite (sm_static _ _ Hsm). auto. }
      { rewrite Htab', Z.eqb_refl, hist_eqb_refl. cbn [andb]. apply fadd_pos_r; [apply flt_le; auto|apply f1_pos]. }
      { rewrite (sm_mo _ _ Hsm). auto. }
      exists m'. split; [exact E'|]. split; auto. split; [eapply same_trans; eauto|].
      intros g y. rewrite Htab2. unfold add_count. rewrite Htab'.
      destruct ((y =? x) && hist_eqb g h); [|reflexivity].
      replace (Z.of_nat (S n)) with (Z.of_nat n + 1) by lia. rewrite ofZ_1_add by lia. ring.
  Qed.

  (** The reference description only depends on the counts as a function. *)
  Lemma learn_ext mo lab : forall cs K (C C' : @counts F) h n, (forall g y, C g y = C' g y) ->
    fst (learn mo lab K C h cs n) = fst (learn mo lab K C' h cs n) /\
    (forall g y, snd (learn mo lab K C h cs n) g y = snd (learn mo lab K C' h cs n) g y).
  Proof.
    induction cs as [|c t IH]; intros K C C' h n HC; cbn [learn]; [auto|].
    destruct ((if 0 <? c then lab c else c) <? 0); [apply IH; auto|].
    rewrite (extended_ext mo K C C' h _ HC). apply IH.
    intros g y. unfold add_count. rewrite (observe_ext C C') by auto. reflexivity.
  Qed.

  Lemma table_pos m ctx h x : inv m ctx -> In h ctx -> In x (symbols V) -> fle f0 (table ctx (p_fst m) h x) = true.
  Proof.
    intros H Hin Hx. apply In_getZ in Hin. destruct Hin as [s Hs].
    pose proof (mi_wf _ _ _ _ _ H) as Hw. pose proof (wf_nodup _ _ _ _ _ _ _ _ Hw) as Hnd.
    destruct (state_ex m ctx H s h Hs) as [st Hst]. rewrite (table_get ctx (p_fst m) s h st x Hnd Hs Hst).
    destruct h as [|c h].
    - pose proof (getZ_nodup _ _ _ _ Hnd Hs (wf_u _ _ _ _ _ _ _ _ Hw)) as ->.
      destruct (wf_uni _ _ _ _ _ _ _ _ Hw st Hst) as (Hg & Hl & Hfp). apply flt_le, (uni_pos V); auto.
    - destruct (wf_state _ _ _ _ _ _ _ _ Hw s st c h Hst Hs) as (S0 & b0 & rest & Ha & _ & Hg & Hf & _).
      eapply (count_nonneg V (p_beta m)); eauto. apply flt_le, (mi_beta _ _ _ _ _ H).
  Qed.

  (** UpdateLMCounts. *)
  Lemma update_loop_spec : forall cs m ctx s h n, inv m ctx -> p_static m = false -> 0 < n ->
    getZ ctx s = Some h ->
    exists m', update_loop m s cs n = Ok (true, m') /\ same m m' /\
      let (K', C') := learn (p_max_order m) (labels m) ctx (table ctx (p_fst m)) h cs n in
      inv m' K' /\ (forall g y, table K' (p_fst m') g y = C' g y) /\ exists N, K' = ctx ++ N.
  Proof.
    induction cs as [|c t IH]; intros m ctx s h n H Hns Hn Hs; cbn [update_loop learn].
    - exists m. split; [reflexivity|]. split; [apply same_refl|]. split; auto. split; [auto|].
      exists []. rewrite app_nil_r; auto.
    - rewrite sym_index_labels. set (x := if 0 <? c then labels m c else c).
      assert (Hxr : x < 0 \/ In x (symbols V)).
      { unfold x. destruct (Z.ltb_spec 0 c).
        - destruct (labels_range m ctx c H) as [E|E]; [left; lia|right; apply symbols_In; lia].
        - destruct (Z.eq_dec c 0); [right; apply symbols_In; lia|left; lia]. }
      destruct (Z.ltb_spec x 0) as [Hneg|Hpos].
      + apply (IH m ctx (p_start m) [0] n H Hns Hn). apply (wf_start _ _ _ _ _ _ _ _ (mi_wf _ _ _ _ _ H)).
      + destruct Hxr as [Hxr|Hx]; [lia|].
        destruct (origin_spec m ctx s h H Hs x Hx) as (m1 & o & Eo & Ho & H1 & Hq1).
        rewrite Eo. cbn [bind].
        pose proof (queried_fst _ _ Hq1) as Ef1. pose proof (queried_same _ _ Hq1) as S1.
        destruct (update_model_spec m1 ctx s h x o H1) as (m2 & d & Eu & H2 & S2 & Ht2 & Htg2); auto.
        { rewrite (sm_static _ _ S1). auto. }
        { rewrite Ef1. exact Ho. }
        rewrite Eu. cbn [bind]. rewrite Ef1, (sm_mo _ _ S1) in *.
        set (C := table ctx (p_fst m)) in *. set (K1 := extended (p_max_order m) ctx C h x) in *.
        destruct (extended_app (p_max_order m) ctx C h x) as [N HN]. fold K1 in HN.
        assert (Hs2 : getZ K1 s = Some h) by (rewrite HN; apply getZ_app_l; auto).
        assert (Hobs : observe C h x h x = fadd (C h x) f1).
        { unfold observe. rewrite Z.eqb_refl. rewrite (proj2 (mem_In (suffixes h) h)) by (apply suffixes_In, suffix_refl).
          pose proof (suffix_len _ _ (seen_suffix C h x)).
          destruct (Nat.leb_spec (length (seen C h x)) (length h)); [reflexivity|lia]. }
        destruct (update_again_spec (Z.to_nat (n - 1)) m2 K1 s h x d H2) as (m3 & Ea & H3 & S3 & Ht3); auto.
        { rewrite (sm_static _ _ S2), (sm_static _ _ S1). auto. }
        { rewrite Ht2, Hobs. apply fadd_pos_r; [|apply f1_pos]. apply table_pos; auto. eapply getZ_In; eauto. }
        { rewrite (sm_mo _ _ S2), (sm_mo _ _ S1). auto. }
        rewrite Ea. cbn [bind].
        destruct (next_spec m3 K1 s h c H3 Hs2) as (m4 & s' & En & H4 & Hq4 & Hs').
        rewrite En. cbn [bind].
        pose proof (queried_same _ _ Hq4) as S4.
        assert (S14 : same m m4) by (eapply same_trans; [exact S1|eapply same_trans; [exact S2|eapply same_trans; [exact S3|exact S4]]]).
        assert (S13 : same m m3) by (eapply same_trans; [exact S1|eapply same_trans; [exact S2|exact S3]]).
        assert (El4 : labels m4 = labels m) by (unfold labels; rewrite (sm_syms _ _ S14); reflexivity).
        assert (El3 : labels m3 = labels m) by (unfold labels; rewrite (sm_syms _ _ S13); reflexivity).
        rewrite El3 in Hs'.
        destruct (IH m4 K1 s' (next_history K1 h (labels m c)) n H4) as (m' & E' & S' & HL); auto.
        { rewrite (sm_static _ _ S14). auto. }
        exists m'. split; [exact E'|]. split; [exact (same_trans _ _ _ S14 S')|].
        rewrite El4, (sm_mo _ _ S14) in HL.
        destruct (learn_ext (p_max_order m) (labels m) t K1 (table K1 (p_fst m4))
                    (add_count (observe C h x) h x (n - 1)) (next_history K1 h (labels m c)) n) as [L1 L2].
        { intros g y. rewrite (queried_fst _ _ Hq4), Ht3. unfold add_count. rewrite Ht2.
          rewrite Z2Nat.id by lia. reflexivity. }
        destruct (learn (p_max_order m) (labels m) K1 (table K1 (p_fst m4)) _ t n) as [K' C'].
        destruct (learn (p_max_order m) (labels m) K1 (add_count (observe C h x) h x (n - 1)) _ t n) as [K'' C''].
        cbn [fst snd] in L1, L2. subst K''. destruct HL as (I1 & I2 & N2 & I3).
        split; auto. split; [intros g y; rewrite I2; apply L2|].
        exists (N ++ N2). rewrite I3, HN, app_assoc. reflexivity.
  Qed.

  Lemma update_spec m ctx s h cs n : inv m ctx -> getZ ctx s = Some h ->
    exists m', ppm_update m s cs n = Ok (true, m') /\ same m m' /\
      let (K', C') := if p_static m || (n <=? 0) then (ctx, table ctx (p_fst m))
                      else learn (p_max_order m) (labels m) ctx (table ctx (p_fst m)) h cs n in
      inv m' K' /\ (forall g y, table K' (p_fst m') g y = C' g y) /\ exists N, K' = ctx ++ N.
  Proof.
    intros H Hs. unfold ppm_update. destruct (p_static m) eqn:Es; cbn [orb].
    - exists m. split; [reflexivity|]. split; [apply same_refl|]. split; auto. split; auto.
      exists []. rewrite app_nil_r; auto.
    - destruct (Z.leb_spec n 0).
      + exists m. split; [reflexivity|]. split; [apply same_refl|]. split; auto. split; auto.
        exists []. rewrite app_nil_r; auto.
      + apply update_loop_spec; auto.
  Qed.
End Api.
