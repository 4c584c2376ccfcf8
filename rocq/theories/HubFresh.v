(** A hub that has only been queried scores a context as its components, as they were loaded, score it. *)
From Verif Require Import Base Field LmModel HubModel HubSpec HubProofs HubLive HubQuery HubTrie HubMix HubSim HubProps HubProps2.
Local Open Scope Z_scope.

Section Fresh.
  Context {F : ofield} {M : Type}.
  Variable ops : comp_ops F M.
  Variable Inv : Z -> M -> Prop.
  Variable ok : M -> Z -> Prop.
  Hypothesis A : comps_answer ops Inv ok.
  Variable b : Z.
  Hypothesis CA : comps_calm ops Inv ok b.
  Notation hub := (hub F M).
  Implicit Types (h X Y : hub) (x y : hstate F).
  Notation obsl := (obsl ops).
  Notation fine := (Forall (Inv b)).
  Notation oks := (Forall2 ok).

  (** The components after the symbols [w], from their start states. *)
  Inductive walks (w : list Z) : list M -> list Z -> list M -> Prop :=
  | wk_nil : walks w [] [] []
  | wk_cons m t m1 l ts l1 : c_walk ops m (c_start ops m) w = Ok (t, m1) -> walks w l ts l1 ->
      walks w (m :: l) (t :: ts) (m1 :: l1).
  Lemma walks_nil lms : walks [] lms (map (c_start ops) lms) lms.
  Proof. induction lms; cbn [map]; constructor; auto. Qed.
  Lemma walks_snoc x c w : forall lms ts l1 idx xs l2, walks w lms ts l1 -> skipn idx (h_models x) = ts ->
    comps_next ops x idx l1 c = Ok (xs, l2) -> walks (w ++ [c]) lms xs l2.
  Proof.
    induction lms as [|m lms IH]; intros ts l1 idx xs l2 H K E; inversion H; subst; cbn [comps_next] in E.
    - injection E as <- <-. constructor.
    - apply bind_Ok in E. destruct E as [[y m'] [E1 E]]. apply bind_Ok in E. destruct E as [[ys t'] [E2 E]]. injection E as <- <-.
      match goal with K : _ :: _ = skipn _ _ |- _ => symmetry in K; apply skipn_cons in K; destruct K as [K1 K2] end.
      assert (Ex : hs_model x idx = t) by (unfold hs_model; rewrite K1; auto). rewrite Ex in E1.
      constructor.
      + rewrite c_walk_app. match goal with K : c_walk _ _ _ _ = _ |- _ => rewrite K end. cbn [bind c_walk]. rewrite E1. reflexivity.
      + eapply (IH _ _ (S idx)); eauto.
  Qed.

  (** The probabilities they give to the symbols of [w]. *)
  Definition all_give (w : list Z) (lms : list M) (pss : list (list (car F))) : Prop :=
    Forall2 (fun m ps => gives_probs ops m w ps) lms pss.
  Definition snocs (ps : list (car F)) (pss : list (list (car F))) : list (list (car F)) :=
    map (fun '(p, row) => row ++ [p]) (combine ps pss).
  Lemma gives_snoc m w c t m1 p m2 ps : c_walk ops m (c_start ops m) w = Ok (t, m1) -> c_score ops m1 t c = Ok (p, m2) ->
    gives_probs ops m w ps -> gives_probs ops m (w ++ [c]) (ps ++ [p]).
  Proof.
    intros Ew Es [L H]. split; [rewrite !app_length; cbn; lia|]. intros i d p' Hd Hp.
    destruct (Nat.lt_ge_cases i (length w)) as [Li|Li].
    - rewrite nth_error_app1 in Hd by lia. rewrite nth_error_app1 in Hp by lia.
      rewrite firstn_app. replace (i - length w)%nat with 0%nat by lia. cbn [firstn]. rewrite app_nil_r. eauto.
    - rewrite nth_error_app2 in Hd by lia. rewrite nth_error_app2 in Hp by lia. rewrite L in Hp.
      destruct (i - length w)%nat as [|n] eqn:Ei; [|destruct n; discriminate]. cbn [nth_error] in Hd, Hp.
      injection Hd as <-. injection Hp as <-. replace i with (length w) by lia.
      rewrite firstn_app, Nat.sub_diag, firstn_all. cbn [firstn]. rewrite app_nil_r.
      unfold c_prob. rewrite Ew. cbn [bind]. eauto.
  Qed.
  Lemma gives_nil m : gives_probs ops m [] [].
  Proof. split; auto. intros [|i] c p; discriminate. Qed.
  Lemma all_give_nil lms : all_give [] lms (map (fun _ => []) lms).
  Proof. induction lms; cbn [map]; constructor; auto. apply gives_nil. Qed.
  Lemma all_give_snoc x c w : forall lms ts l1 idx ps l2 pss, walks w lms ts l1 -> skipn idx (h_models x) = ts ->
    comps_score ops x idx l1 c = Ok (ps, l2) -> all_give w lms pss -> all_give (w ++ [c]) lms (snocs ps pss).
  Proof.
    induction lms as [|m lms IH]; intros ts l1 idx ps l2 pss H K E G; inversion H; inversion G; subst; cbn [comps_score] in E.
    - injection E as <- <-. constructor.
    - apply bind_Ok in E. destruct E as [[p m'] [E1 E]]. apply bind_Ok in E. destruct E as [[ys t'] [E2 E]]. injection E as <- <-.
      match goal with K : _ :: _ = skipn _ _ |- _ => symmetry in K; apply skipn_cons in K; destruct K as [K1 K2] end.
      assert (Ex : hs_model x idx = t) by (unfold hs_model; rewrite K1; auto). rewrite Ex in E1.
      unfold snocs. cbn [combine map]. constructor; [eapply gives_snoc; eauto|].
      eapply (IH _ _ (S idx)); eauto.
  Qed.

  Lemma hist_row_snoc n qs (p : car F) : (0 < n)%nat -> hist_row n (qs ++ [p]) = tl (hist_row n qs) ++ [p].
  Proof. intros N. unfold hist_row. rewrite app_assoc. apply last_n_snoc; [lia|]. rewrite app_length, repeat_length. lia. Qed.
  Lemma shift_rows n ps pss : (0 < n)%nat -> shift_history ps (map (hist_row n) pss) = map (hist_row n) (snocs ps pss).
  Proof.
    intros N. unfold shift_history, snocs. revert pss. induction ps as [|p ps IH]; intros [|q pss]; cbn [combine map]; auto.
    rewrite hist_row_snoc by auto. f_equal. apply IH.
  Qed.
  Lemma sum_rows n ps pss : (0 < n)%nat ->
    history_sums ps (map (hist_row n) pss) = map (fun ps => fprod (hist_row n ps)) (snocs ps pss).
  Proof.
    intros N. unfold history_sums, snocs. revert pss. induction ps as [|p ps IH]; intros [|q pss]; cbn [combine map]; auto.
    rewrite hist_row_snoc by auto. f_equal; [apply fold_mul_prod|apply IH].
  Qed.

  (** ** A hub that was just made *)
  Variable h : hub.
  Hypothesis HL : hlive Inv ok b h.
  Hypothesis ROOT : hs h = [new_hstate (map (c_start ops) (h_lms h)) (-1) 0 (h_bayes h)].
  Notation sext := (sext ops Inv ok b).
  Notation n := (h_bayes h).

  (** The state [i] stands for the context [w]. *)
  Inductive spells X : list Z -> Z -> Prop :=
  | sp_root : spells X [] 0
  | sp_step w i x c j : spells X w i -> nth_error (hs X) (Z.to_nat i) = Some x -> assoc c (h_next x) = Some j ->
      spells X (w ++ [c]) j.
  Lemma spells_grows X X' w i : grows X X' -> spells X w i -> spells X' w i.
  Proof.
    intros G S. induction S as [|w i x c j S IH Hx E]; [constructor|].
    destruct (G _ _ Hx) as (x' & Hx' & K). econstructor; eauto.
  Qed.
  Lemma old_links i s0 c j : nth_error (hs h) i = Some s0 -> assoc c (h_next s0) = Some j -> False.
  Proof.
    rewrite ROOT. destruct i as [|i]; cbn [nth_error]; [intros [= <-]; cbn; discriminate|].
    destruct i; discriminate.
  Qed.

  (** What a state of a queried hub holds. *)
  Definition fresh_at X w x : Prop := exists ts l1 pss,
    walks w (h_lms h) ts l1 /\ fine l1 /\ oks l1 ts /\ obsl l1 ts (h_lms X) (h_models x) /\
    ((0 < n)%nat -> all_give w (h_lms h) pss /\ h_hist x = map (hist_row n) pss /\
       h_sum x = map (fun ps => fprod (hist_row n ps)) pss).

  Definition holds (ts : list Z) : hstate F := HState ts (-1) [] 0 [] [].
  Lemma spells_fresh X w i : sext h X -> spells X w i -> exists x, nth_error (hs X) (Z.to_nat i) = Some x /\ 0 <= i /\
    (forall c, In c w -> 0 <= c) /\ fresh_at X w x.
  Proof.
    intros EX S. induction S as [|w i x c j S IH Hx E].
    - assert (H0 : nth_error (hs h) 0 = Some (new_hstate (map (c_start ops) (h_lms h)) (-1) 0 n)) by (rewrite ROOT; reflexivity).
      assert (O : oks (h_lms h) (map (c_start ops) (h_lms h))).
      { apply (live_nth Inv ok b h 0 _ HL H0). }
      destruct (x_old _ _ _ _ _ _ EX _ _ H0) as (x & Hx & Sg & _). exists x. split; [exact Hx|]. split; [lia|].
      split; [intros d []|]. apply sig_hist in Sg. destruct Sg as (S1 & S2 & S3).
      exists (map (c_start ops) (h_lms h)), (h_lms h), (map (fun _ => []) (h_lms h)).
      split; [apply walks_nil|]. split; [apply HL|]. split; [exact O|]. split.
      + rewrite S1. cbn [new_hstate h_models]. eapply calms_obsl; [|exact O]. exact (x_lms _ _ _ _ _ _ EX).
      + intros N. split; [apply all_give_nil|]. rewrite S2, S3. cbn [new_hstate h_hist h_sum].
        destruct (Nat.ltb_spec 0 n); [|lia]. rewrite map_length.
        assert (R : hist_row n [] = repeat (f1 : car F) n) by (unfold hist_row; rewrite app_nil_r; apply last_n_all, repeat_length).
        rewrite !map_map, R, fprod_ones. split.
        * clear. induction (h_lms h) as [|? ? IHl]; cbn [length repeat map]; congruence.
        * clear. induction (h_lms h) as [|? ? IHl]; cbn [length repeat map]; congruence.
    - destruct IH as (x0 & Hx0 & I0 & Pos & ts & l1 & pss & Wk & Fi & Ok & Ob & By). rewrite Hx in Hx0. injection Hx0 as <-.
      destruct (x_new _ _ _ _ _ _ EX _ _ _ _ Hx E) as [(s0 & B1 & B2)|(B1 & B0 & t & B2 & D1 & D2)]; [destruct (old_links _ _ _ _ B1 B2)|].
      exists t. split; auto. split; [lia|]. split; [intros d Hd; apply in_app_or in Hd; destruct Hd as [Hd|[<-|[]]]; auto|].
      pose proof (x_live _ _ _ _ _ _ EX) as LX. pose proof (live_nth _ _ _ _ _ _ LX Hx) as Ox.
      assert (Ok0 : oks l1 (skipn 0 (h_models (holds ts)))) by exact Ok.
      destruct (comps_next_sure ops Inv ok A b (holds ts) c l1 0 B0 Fi Ok0) as [[ts' l1'] [E1 [P1 [_ P3]]]]. cbn [fst snd] in *.
      destruct (comps_next_sure ops Inv ok A b x c (h_lms X) 0 B0 (hl_fine _ _ _ _ LX) Ox) as [[xs lx] [E2 [P1' [_ P3']]]]. cbn [fst snd] in *.
      specialize (D1 _ _ E2).
      pose proof (comps_next_obs ops (holds ts) x _ _ 0 0 c _ _ _ _ B0 Ob E1 E2) as B5.
      assert (EXP : exists pss', (0 < n)%nat -> all_give (w ++ [c]) (h_lms h) pss' /\ h_hist t = map (hist_row n) pss' /\
         h_sum t = map (fun ps => fprod (hist_row n ps)) pss').
      { destruct (Nat.eqb_spec n 0) as [Z0|Z0]; [exists []; lia|].
        destruct By as (G & H1 & H2); [lia|]. destruct D2 as (probs & Es & H3 & H4).
        destruct (comps_score_sure ops Inv ok A b (holds ts) c l1 0 Fi Ok0) as [[ps l2] [E3 _]]. cbn [fst snd] in *.
        unfold ans in Es. destruct (comps_score ops x 0 (h_lms X) c) as [[ps' l2']| | |] eqn:E4; try discriminate. injection Es as <-.
        assert (ps = ps') by (exact (comps_score_obs ops (holds ts) x _ _ 0 0 c _ _ _ _ Ob E3 E4)). subst ps'.
        exists (snocs ps pss). intros N. rewrite H3, H4, H1, shift_rows, sum_rows by auto.
        split; auto. eapply all_give_snoc; [exact Wk| |exact E3|exact G]. reflexivity. }
      destruct EXP as [pss' By']. exists ts', l1', pss'. split; [eapply walks_snoc; [exact Wk| |exact E1]; reflexivity|].
      split; auto. split; auto. split; auto.
      eapply (obsl_trans ops Inv ok A b); [exact P1'|exact P3'|exact B5|exact D1].
  Qed.

  (** Walking on. *)
  Lemma spells_context u : forall X w i r X', sext h X -> spells X w i -> (forall c, In c u -> 0 <= c) ->
    Z.of_nat (length (hs X) + length u) < h_max h -> hub_context_loop ops X i u = Ok (r, X') ->
    sext h X' /\ grows X X' /\ spells X' (w ++ u) r.
  Proof.
    induction u as [|c u IH]; intros X w i r X' EX S Pos L H; cbn [hub_context_loop length] in *.
    - injection H as <- <-. rewrite app_nil_r. split; auto. split; [apply grows_refl|auto].
    - apply bind_Ok in H. destruct H as [[r1 X1] [H1 H2]].
      destruct (spells_fresh X w i EX S) as (x & Hx & I0 & _). pose proof (nth_error_Some_lt _ _ _ _ Hx) as Li.
      destruct (sext_step ops Inv ok A b CA h HL X i c EX I0 ltac:(lia) ltac:(lia)) as (x1 & r2 & X2 & Hx1 & E & E1 & G & LL & K).
      rewrite H1 in E. injection E as <- <-. rewrite Hx in Hx1. injection Hx1 as <-.
      assert (C0 : 0 <= c) by (apply Pos; left; auto).
      assert (S1 : spells X1 (w ++ [c]) r1 /\ 0 <= r1).
      { destruct K as [(-> & -> & K)|(_ & Q & -> & Hn)].
        - destruct K as [K|K]; [lia|]. split; auto. econstructor; [exact S|exact Hx|].
          unfold hs_next in *. destruct (assoc c (h_next x)); [auto|lia].
        - split; [|lia]. econstructor; [eapply spells_grows; eauto|exact Hn|]. rewrite assoc_add, Z.eqb_refl by auto. reflexivity. }
      destruct S1 as [S1 R1]. destruct (Z.ltb_spec r1 0); [lia|].
      destruct (IH X1 (w ++ [c]) r1 r X' E1 S1) as (E3 & G3 & S3); auto; [intros d D; apply Pos; right; auto|lia|].
      rewrite <- app_assoc in S3. split; auto. split; auto. eapply grows_trans; eauto.
  Qed.

  (** The components on their own, put together. *)
  Definition fresh_hub (ts : list Z) (l1 : list M) (pss : list (list (car F))) : hub :=
    Hub [HState ts (-1) [] 0 (map (hist_row n) pss) (map (fun ps => fprod (hist_row n ps)) pss)] 0 (h_max h) (h_weights h) n l1.
  Lemma fresh_extract X w i r X' : sext h X -> spells X w i -> (length (h_weights h) <= length (h_lms h))%nat -> h_lms h <> [] ->
    hub_extract ops X i = Ok (r, X') ->
    exists ts l1 pss Y, walks w (h_lms h) ts l1 /\ ((0 < n)%nat -> all_give w (h_lms h) pss) /\
      hub_extract ops (fresh_hub ts l1 pss) 0 = Ok (r, Y).
  Proof.
    intros EX S Lw Ne E. destruct (spells_fresh X w i EX S) as (x & Hx & I0 & _ & ts & l1 & pss & Wk & Fi & OK & Ob & By).
    exists ts, l1, pss. assert (Ll : length l1 = length (h_lms h)) by (clear - Wk; induction Wk; cbn; auto).
    pose proof (nth_error_Some_lt _ _ _ _ Hx) as Li.
    assert (RX : in_range X i = true) by (unfold in_range; lia).
    assert (VX : vgetZ (hs X) i = Ok x) by (apply vgetZ_Ok; auto).
    unfold hub_extract in E. rewrite RX, VX in E. cbn [negb bind] in E. rewrite (x_weights _ _ _ _ _ _ EX) in E.
    set (y := HState ts (-1) [] 0 (map (hist_row n) pss) (map (fun ps => fprod (hist_row n ps)) pss)).
    assert (Oy : oks l1 (skipn 0 (h_models y))) by exact OK.
    assert (Hw : mixture_weights_at (fresh_hub ts l1 pss) 0 = mixture_weights_at X i).
    { unfold mixture_weights_at. rewrite (x_bayes _ _ _ _ _ _ EX), RX, VX. cbn [fresh_hub h_bayes h_weights hs]. fold y.
      change (in_range (fresh_hub ts l1 pss) 0) with true. change (vgetZ [y] 0) with (Ok y). cbn [bind negb].
      rewrite (x_weights _ _ _ _ _ _ EX). destruct (Nat.eqb_spec n 0); cbn [orb]; auto.
      destruct By as (_ & _ & By); [lia|]. rewrite By. reflexivity. }
    unfold hub_extract. change (in_range (fresh_hub ts l1 pss) 0) with true. rewrite Hw. cbn [fresh_hub hs h_weights h_lms]. fold y.
    change (vgetZ [y] 0) with (Ok y). cbn [bind negb].
    destruct (length (h_weights h) <? 2)%nat.
    - destruct l1 as [|m1 l1]; [destruct (h_lms h); [congruence|discriminate]|].
      inversion Ob as [|? s ? s' ? us ? us' B H' K1 K2 K3 K4]; subst. rewrite <- K3 in E.
      assert (Ex : hs_model x 0 = s') by (unfold hs_model; rewrite <- K4; auto).
      change (hs_model y 0) with s. rewrite Ex in E.
      apply bind_Ok in E. destruct E as [[sc m2] [E1 E]]. injection E as <- <-.
      assert (I1 : Inv b m1) by (inversion Fi; auto). assert (O1 : ok m1 s) by (inversion OK; auto).
      destruct (an_extract _ _ _ A b m1 s I1 O1) as (sc' & m3 & E2 & _).
      assert (sc' = sc) by (eapply obs_extract; [exact B|rewrite E2; reflexivity|rewrite E1; reflexivity]). subst sc'.
      rewrite E2. cbn [bind]. eexists. split; [auto|]. split; [intros N0; apply By; auto|]. reflexivity.
    - apply bind_Ok in E. destruct E as [ws [E0 E]]. rewrite E0. cbn [bind].
      apply bind_Ok in E. destruct E as [[sc l'] [E1 E]]. injection E as <- <-.
      assert (Lws : (length ws <= length l1)%nat).
      { rewrite Ll. etransitivity; [|exact Lw]. unfold mixture_weights_at in E0. rewrite (x_weights _ _ _ _ _ _ EX) in E0.
        destruct (_ || _) in E0; [injection E0 as <-; auto|]. rewrite VX in E0. cbn [bind] in E0. apply bind_Ok in E0.
        destruct E0 as [zs [E0 E2]]. injection E2 as <-. rewrite map_length. clear - E0. revert zs E0. generalize (h_sum x).
        induction (h_weights h) as [|v vs IH]; intros s zs E; cbn [zip_weights] in E; [injection E as <-; auto|].
        destruct s as [|p s]; [discriminate|]. apply bind_Ok in E. destruct E as [r [E1 E]]. injection E as <-. cbn [length].
        specialize (IH _ _ E1). lia. }
      destruct (mix_loop_sure ops Inv ok A b y ws 0 l1 (Val f0) [] Fi Oy Lws) as [[sc' l2] [E2 _]].
      rewrite E2. cbn [bind].
      assert (sc' = sc) by (eapply mix_loop_obs; [|exact E2|exact E1]; exact Ob). subst sc'.
      eexists. split; [auto|]. split; [intros N0; apply By; auto|]. reflexivity.
  Qed.
End Fresh.
