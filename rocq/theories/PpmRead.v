(** What Read of ppm_as_fst_model.cc builds: a sound automaton with an empty cache. *)
From Coq Require Import Field.
From Verif Require Import Base Field LmModel TextModel HubModel PpmModel PpmSpec PpmReadModel PpmStruct PpmVals PpmCache PpmWf PpmUpdate PpmObserve PpmApi.
Local Open Scope Z_scope.

Section Read.
  Context {F : ofield}.
  Add Field FfieldPpm7 : (f_th F).

  Notation none := (fun _ : Z => False).


  (** The bound on the length of histories can be changed. *)
  Lemma wf_change_mo V beta mo mo' start u D (f : list (pstate F)) ctx : wf V beta mo start u D f ctx ->
    (forall s h, getZ ctx s = Some h -> Z.of_nat (length h) < mo') -> wf V beta mo' start u D f ctx.
  Proof. intros [] H. constructor; auto. Qed.

  Lemma start_backoff V beta mo start u D (f : list (pstate F)) ctx : wf V beta mo start u D f ctx ->
    backoff_state f start = Ok u.
  Proof.
    intros Hw. pose proof (wf_start _ _ _ _ _ _ _ _ Hw) as Hs. pose proof (wf_len _ _ _ _ _ _ _ _ Hw) as Hl.
    destruct (getZ_ex f start) as [st Hst]; [rewrite <- Hl; eapply getZ_range; eauto|].
    destruct (wf_state _ _ _ _ _ _ _ _ Hw start st 0 [] Hst Hs) as (S & b & rest & Ha & Hb & _).
    rewrite (backoff_step _ _ _ _ _ _ Hst Ha). f_equal.
    exact (getZ_nodup _ _ _ _ (wf_nodup _ _ _ _ _ _ _ _ Hw) Hb (wf_u _ _ _ _ _ _ _ _ Hw)).
  Qed.

  (** State orders. *)
  Section Orders.
    Variables (V : nat) (beta : car F) (mo start u : Z) (f : list (pstate F)) (ctx : list history).
    Hypothesis Hw : wf V beta mo start u none f ctx.

    Definition good_orders (o : list Z) : Prop :=
      length o = length f /\ getZ o u = Some 0 /\
      (forall s v, getZ o s = Some v -> v = -1 \/ exists h, getZ ctx s = Some h /\ v = olen h).

    Lemma state_order_ok : forall h k o s, good_orders o -> getZ ctx s = Some h -> (length h < k)%nat ->
      exists o', state_order k f o s = Ok (olen h, o') /\ good_orders o' /\ getZ o' s = Some (olen h) /\
        (forall s' h', getZ o s' = Some (olen h') -> getZ o' s' = Some (olen h')).
    Proof.
      pose proof (wf_nodup _ _ _ _ _ _ _ _ Hw) as Hnd. pose proof (wf_len _ _ _ _ _ _ _ _ Hw) as Hlen.
      induction h as [|c h IH]; intros k o s Ho Hs Hk; (destruct k as [|k]; [simpl in Hk; lia|]); cbn [state_order].
      - pose proof (getZ_nodup _ _ _ _ Hnd Hs (wf_u _ _ _ _ _ _ _ _ Hw)) as ->.
        destruct Ho as (Hl & Hu & Hv). rewrite (vgetZ_Some _ _ _ Hu). cbn [bind].
        exists o. split; [reflexivity|]. split; [repeat split; auto|]. split; auto.
      - pose proof (getZ_range _ _ _ Hs) as Hr.
        destruct Ho as (Hl & Hu & Hv).
        destruct (getZ_ex o s ltac:(lia)) as [v Hvs]. rewrite (vgetZ_Some _ _ _ Hvs). cbn [bind].
        destruct (Hv s v Hvs) as [->|(h' & Hh' & ->)].
        + replace (0 <=? -1) with false by reflexivity.
          destruct (getZ_ex f s ltac:(lia)) as [st Hst].
          destruct (wf_state _ _ _ _ _ _ _ _ Hw s st c h Hst Hs) as (S & b & rest & Ha & Hb & _).
          rewrite (backoff_step _ _ _ _ _ _ Hst Ha). cbn [bind]. pose proof (getZ_range _ _ _ Hb) as Hrb.
          destruct (Z.ltb_spec b 0); [lia|].
          destruct (IH k o b ltac:(repeat split; auto) Hb ltac:(simpl in Hk; lia)) as (o1 & E & (Hl1 & Hu1 & Hv1) & Hb1 & Hm1).
          rewrite E. cbn [bind]. rewrite vsetZ_Ok by lia. cbn [bind].
          assert (Eo : olen h + 1 = olen (c :: h)) by (unfold olen; simpl length; lia).
          rewrite Eo. assert (Hr1 : 0 <= s < Z.of_nat (length o1)) by lia.
          eexists. split; [reflexivity|]. split; [split; [rewrite upd_length; lia|split]|split].
          * rewrite getZ_upd by auto. destruct (Z.eqb_spec u s) as [->|]; [|exact Hu1].
            rewrite (wf_u _ _ _ _ _ _ _ _ Hw) in Hs. discriminate.
          * intros s' v' Hs'. rewrite getZ_upd in Hs' by auto. destruct (Z.eqb_spec s' s) as [->|]; [|auto].
            injection Hs' as <-. right. eauto.
          * rewrite getZ_upd, Z.eqb_refl by auto. reflexivity.
          * intros s' h' Hs'. rewrite getZ_upd by auto. destruct (Z.eqb_spec s' s) as [->|]; [|auto].
            rewrite Hvs in Hs'. injection Hs' as E'. unfold olen in E'. lia.
        + rewrite Hs in Hh'. injection Hh' as <-. destruct (Z.leb_spec 0 (olen (c :: h))); [|unfold olen in *; lia].
          exists o. split; [reflexivity|]. split; [repeat split; auto|]. auto.
    Qed.

    Lemma orders_loop_ok : forall ss o maxo, good_orders o -> (forall s, In s ss -> (s < length f)%nat) ->
      exists o' M, orders_loop f o maxo ss = Ok (o', M) /\ good_orders o' /\ maxo <= M /\
        (M = maxo \/ exists s h, getZ ctx s = Some h /\ M = olen h) /\
        (forall s' h', getZ o s' = Some (olen h') -> getZ o' s' = Some (olen h')) /\
        (forall s h, In s ss -> getZ ctx (Z.of_nat s) = Some h -> getZ o' (Z.of_nat s) = Some (olen h) /\ olen h <= M).
    Proof.
      pose proof (wf_len _ _ _ _ _ _ _ _ Hw) as Hlen.
      induction ss as [|s t IH]; intros o maxo Ho Hss; cbn [orders_loop].
      - exists o, maxo. split; [reflexivity|]. split; auto. split; [lia|]. split; auto. split; auto. intros s h [].
      - destruct (getZ_ex ctx (Z.of_nat s)) as [h Hs]; [specialize (Hss s (or_introl eq_refl)); lia|].
        destruct (state_order_ok h (S (length f)) o (Z.of_nat s) Ho Hs) as (o1 & E & Ho1 & Hs1 & Hm1).
        { pose proof (wf_order_lt V beta mo start u none f ctx _ _ Hw Hs). lia. }
        rewrite E. cbn [bind].
        destruct (IH o1 (if maxo <? olen h then olen h else maxo) Ho1 ltac:(intros; apply Hss; right; auto))
          as (o' & M & E' & Ho' & HM & HM2 & Hmono & Hall).
        exists o', M. split; [exact E'|]. split; auto.
        assert (maxo <= M /\ olen h <= M) as [HMa HMb] by (destruct (Z.ltb_spec maxo (olen h)); lia).
        split; auto. split; [|split].
        + destruct HM2 as [->|K]; auto. destruct (maxo <? olen h); [right; eauto|auto].
        + intros s' h' Hs'. apply Hmono, Hm1; auto.
        + intros s' h' [<-|Hin] Hs'; [|apply Hall; auto]. rewrite Hs in Hs'. injection Hs' as <-. split; auto.
    Qed.

    Lemma state_orders_ok : exists M, state_orders start f = Ok (map olen ctx, M) /\ 1 <= M /\
      (forall s h, getZ ctx s = Some h -> olen h <= M) /\
      (M = 1 \/ exists s h, getZ ctx s = Some h /\ M = olen h).
    Proof.
      pose proof (wf_len _ _ _ _ _ _ _ _ Hw) as Hlen.
      pose proof (wf_start _ _ _ _ _ _ _ _ Hw) as Hst. pose proof (wf_u _ _ _ _ _ _ _ _ Hw) as Hu.
      pose proof (getZ_range _ _ _ Hst) as Hrs. pose proof (getZ_range _ _ _ Hu) as Hru.
      unfold state_orders. rewrite vsetZ_Ok by (rewrite repeat_length; lia). cbn [bind].
      rewrite (start_backoff _ _ _ _ _ _ _ _ Hw). cbn [bind]. destruct (Z.ltb_spec u 0); [lia|].
      set (o1 := upd (repeat (-1) (length f)) (Z.to_nat start) 1).
      assert (Ho1 : length o1 = length f) by (unfold o1; rewrite upd_length, repeat_length; auto).
      rewrite vsetZ_Ok by lia. cbn [bind].
      assert (Hr1 : 0 <= u < Z.of_nat (length o1)) by lia.
      assert (Hr2 : 0 <= start < Z.of_nat (length (repeat (-1) (length f)))) by (rewrite repeat_length; lia).
      destruct (orders_loop_ok (seq 0 (length f)) (upd o1 (Z.to_nat u) 0) 1) as (o' & M & E & Ho' & HM & HM2 & Hmono & Hall).
      { split; [rewrite upd_length; auto|]. split; [rewrite getZ_upd, Z.eqb_refl by auto; reflexivity|].
        intros s v Hs. rewrite getZ_upd in Hs by auto. destruct (Z.eqb_spec s u) as [->|].
        - injection Hs as <-. right. exists []. auto.
        - unfold o1 in Hs. rewrite getZ_upd in Hs by auto. destruct (Z.eqb_spec s start) as [->|].
          + injection Hs as <-. right. exists [0]. auto.
          + left. unfold getZ in Hs. destruct (s <? 0); [discriminate|]. apply nth_error_In, repeat_spec in Hs. auto. }
      { intros s Hin. apply in_seq in Hin. lia. }
      exists M. rewrite E.
      assert (Eo : o' = map olen ctx).
      { destruct Ho' as (Hl & _ & _). apply nth_ext_eq. intros i. rewrite nth_error_map.
        destruct (nth_error ctx i) as [h|] eqn:Ei; cbn [option_map].
        - assert (Hi : (i < length f)%nat) by (rewrite <- Hlen; eapply nth_error_Some_lt; eauto).
          destruct (Hall i h) as [K _].
          + apply in_seq. lia.
          + rewrite getZ_nat. exact Ei.
          + rewrite getZ_nat in K. exact K.
        - apply nth_error_None in Ei. apply nth_error_None. lia. }
      rewrite Eo. split; [reflexivity|]. split; [lia|]. split; [|exact HM2].
      intros s h Hs. pose proof (getZ_range _ _ _ Hs) as Hr. destruct (Hall (Z.to_nat s) h) as [_ K]; auto.
      + apply in_seq. lia.
      + rewrite Z2Nat.id by lia. exact Hs.
    Qed.
  End Orders.

  (** Parameters. *)
  Lemma half_ok : flt f0 (@k_alpha F) = true /\ flt (@k_alpha F) f1 = true.
  Proof.
    assert (P2 : flt f0 (@ofZ F 2) = true) by (apply ofZ_pos; lia).
    unfold k_alpha. split; [apply fdiv_pos; [apply f1_pos|auto]|]. apply flt_sub.
    replace (fsub f1 (fdiv f1 (ofZ 2))) with (@fdiv F f1 (ofZ 2)).
    - apply fdiv_pos; [apply f1_pos|auto].
    - assert (N : @ofZ F 2 <> f0) by (intros E; rewrite E in P2; elim (flt_irrefl _ P2)).
      replace (@ofZ F 2) with (fadd (@f1 F) f1) in * by (change 2 with (1 + 1); rewrite ofZ_add, ofZ_1; reflexivity).
      field. exact N.
  Qed.
  Lemma beta_ok : flt f0 (@k_beta F) = true /\ flt (@k_beta F) f1 = true.
  Proof.
    assert (P3 : flt f0 (@ofZ F 3) = true) by (apply ofZ_pos; lia).
    assert (P4 : flt f0 (@ofZ F 4) = true) by (apply ofZ_pos; lia).
    unfold k_beta. split; [apply fdiv_pos; auto|]. apply flt_sub.
    replace (fsub f1 (fdiv (ofZ 3) (ofZ 4))) with (@fdiv F f1 (ofZ 4)).
    - apply fdiv_pos; [apply f1_pos|auto].
    - assert (N : @ofZ F 4 <> f0) by (intros E; rewrite E in P4; elim (flt_irrefl _ P4)).
      replace (@ofZ F 4) with (fadd (@ofZ F 3) f1) in * by (change 4 with (3 + 1); rewrite ofZ_add, ofZ_1; reflexivity).
      field. exact N.
  Qed.
  Lemma range_ok (x : car F) : fle x f0 || fle f1 x = false -> flt f0 x = true /\ flt x f1 = true.
  Proof.
    intros H. apply orb_false_iff in H. destruct H as [H1 H2]. split; unfold flt; [rewrite H1|rewrite H2]; reflexivity.
  Qed.
  Lemma init_alpha_ok (o : ppm_options F) : flt f0 (init_alpha o) = true /\ flt (init_alpha o) f1 = true.
  Proof. unfold init_alpha. destruct (fle (po_alpha o) f0 || fle f1 (po_alpha o)) eqn:E; [apply half_ok|apply range_ok; auto]. Qed.
  Lemma init_beta_ok (o : ppm_options F) : flt f0 (init_beta o) = true /\ flt (init_beta o) f1 = true.
  Proof. unfold init_beta. destruct (fle (po_beta o) f0 || fle f1 (po_beta o)) eqn:E; [apply beta_ok|apply range_ok; auto]. Qed.
  Lemma init_order_ok (o : ppm_options F) : 0 < init_order o.
  Proof. unfold init_order. destruct (Z.ltb_spec 0 (po_max_order o)); [auto|reflexivity]. Qed.

  (** The end of Read on a sound automaton. *)
  Definition read_end (o : ppm_options F) (f : list (pstate F)) (start : Z) (syms : list Z) : outcome (ppm F) :=
    let* (orders, maxo) := state_orders start f in
    let mo := if init_order o <=? maxo then maxo + 1 else init_order o in
    let cache := if init_cache o <? mo then mo + 1 else init_cache o in
    Ok (Ppm f start syms (if po_static o then [] else orders) mo (init_alpha o) (init_beta o)
            (po_static o) cache 0 (repeat (-1) (length f)) []).

  Lemma read_end_ok o (f : list (pstate F)) start syms ctx u mo0 :
    wf (length syms) (init_beta o) mo0 start u none f ctx ->
    exists m, read_end o f start syms = Ok m /\ inv (length syms) u m ctx /\
      p_fst m = f /\ p_start m = start /\ p_syms m = syms /\ p_alpha m = init_alpha o /\
      p_beta m = init_beta o /\ p_static m = po_static o /\ 2 <= p_max_order m /\ init_order o <= p_max_order m /\
      p_max_order m <= p_max_cache m /\
      (p_max_order m = Z.max (init_order o) 2 \/ exists h, In h ctx /\ p_max_order m = olen h + 1) /\ p_caches m = [].
  Proof.
    intros Hw. destruct (state_orders_ok _ _ _ _ _ _ _ Hw) as (M & E & HM & Hb & HM2).
    unfold read_end. rewrite E. cbn [bind]. eexists. split; [reflexivity|].
    set (mo := if init_order o <=? M then M + 1 else init_order o).
    assert (Hmo : M < mo /\ init_order o <= mo) by (unfold mo; destruct (Z.leb_spec (init_order o) M); lia).
    split; [|cbn [p_fst p_start p_syms p_alpha p_beta p_static p_max_order p_max_cache p_caches]].
    - constructor; cbn [p_fst p_start p_syms p_alpha p_beta p_static p_max_order p_max_cache p_orders p_cindex p_caches].
      + eapply wf_change_mo; [exact Hw|]. intros s h Hs. specialize (Hb s h Hs). unfold olen in Hb. lia.
      + constructor.
        * constructor; cbn [p_fst p_cindex p_caches p_max_cache p_accessed].
          -- rewrite repeat_length. reflexivity.
          -- fold mo. destruct (Z.ltb_spec (init_cache o) mo); cbn [length]; lia.
          -- intros j c Hj. unfold getZ in Hj. destruct (j <? 0); [discriminate|]. destruct (Z.to_nat j); discriminate.
          -- intros s i Hs. left. unfold getZ in Hs. destruct (s <? 0); [discriminate|].
             apply nth_error_In, repeat_spec in Hs. auto.
          -- intros j c Hj. unfold getZ in Hj. destruct (j <? 0); [discriminate|]. destruct (Z.to_nat j); discriminate.
        * intros s c (i & _ & Hj). cbn [p_caches] in Hj. unfold getZ in Hj. destruct (i <? 0); [discriminate|].
          destruct (Z.to_nat i); discriminate.
      + intros ->. reflexivity.
      + apply init_alpha_ok.
      + apply init_beta_ok.
      + apply init_beta_ok.
      + reflexivity.
    - fold mo. repeat (split; [reflexivity|]). split; [lia|]. split; [lia|].
      split; [destruct (Z.ltb_spec (init_cache o) mo); lia|]. split; [|reflexivity].
      unfold mo. destruct (Z.leb_spec (init_order o) M).
      + destruct HM2 as [->|(s & h & Hs & ->)]; [left|right].
        * pose proof (init_order_ok o). lia.
        * exists h. split; auto. eapply getZ_In; eauto.
      + left. pose proof (init_order_ok o). lia.
  Qed.
End Read.
