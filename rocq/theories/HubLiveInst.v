(** The four kinds of component answer every call made on a state they have handed out. *)
From Coq Require Import Field.
From Verif Require Import Base Field LmModel LmProofs HubModel HubSpec HubProofs HubMix HubLive.
From Verif Require Import TextModel BigramModel BigramProofs BigramComp.
From Verif Require Import PpmModel PpmSpec PpmReadModel PpmStruct PpmRef PpmRefine.
From Verif Require Import NgramModel NgramSpec NgramProofs NgramProps.
From Verif Require Import WordModel WordSpec WordLex WordIndex WordRange WordState WordNext WordCache WordScores
  WordPredict WordInit WordProps FactoryModel.
Local Open Scope Z_scope.

Section Inst.
  Context {F : ofield}.
  Add Field FfieldLive : (f_th F).

  (** ** The bigram model: every state number is fine. *)
  Lemma bigram_answers : comps_answer (bigram_ops (F := F)) bg_room (fun _ _ => True).
  Proof.
    constructor.
    - auto.
    - intros b m s c (v & C & R & H) _ _. rewrite (bg_next m v C s c R). do 2 eexists. split; [reflexivity|].
      split; [exists v, C; auto|]. split; [intros t _; exact I|exact I].
    - intros b m s c (v & C & R & H) _. rewrite (bg_score_eq m v C s c R). do 2 eexists. split; [reflexivity|].
      split; [exists v, C; auto|intros t _; exact I].
    - intros b m s (v & C & R & H) _. rewrite (bg_extract m v C s R). do 2 eexists. split; [reflexivity|].
      split; [exists v, C; auto|intros t _; exact I].
    - intros b m s w n Hi _ Hb. pose proof (safe_update _ _ (bigram_safe (F := F)) b m s w n Hi Hb) as H.
      destruct Hi as (v & C & R & _).
      destruct (bg_update (F := F) m v C s w n R) as [[m' [E _]]|E]; rewrite E in *; [|contradiction].
      exists true, m'. split; auto. split; auto. intros t _. exact I.
    - intros b b' m Hb H. eapply (safe_mono _ _ (bigram_safe (F := F))); eauto.
  Qed.

  (** ** The character n-gram model *)
  Record ng_inv (m : ngram F) : Prop := {
    ni_loaded : NgramProps.loaded m;
    ni_cover : forall t st a, has_state (ng_fst m) t st -> In a (symbol_arcs st) ->
                 In (a_label a) (map fst (tl (ng_syms m)))
  }.
  Lemma ng_next_valid (m : ngram F) s c : NgramProps.loaded m -> valid_state m s ->
    exists t, ng_next_state m s c = Ok t /\ valid_state m t.
  Proof.
    intros L V. destruct (C33_walks_stay_in_the_model F m [c] s L V) as [t [E V']].
    simpl in E. apply bind_Ok in E. destruct E as [[t' m'] [E1 E2]]. apply bind_Ok in E1.
    destruct E1 as [t2 [E1 E3]]. injection E3 as <- <-. injection E2 as <-. eauto.
  Qed.
  Lemma ng_score_ok (m : ngram F) s c : NgramProps.loaded m -> valid_state m s -> exists p, ng_score m s c = Ok p.
  Proof.
    intros L V. destruct (ld_facts m L) as [C _]. apply has_state_ex in V. destruct V as [st Hs].
    unfold ng_score. set (x := sym_label m c).
    destruct (Z.eq_dec x 0) as [->|X0]; [|destruct (Z.eq_dec x (-1)) as [->|X1]].
    - destruct (label_cost_end _ C m eq_refl s st Hs) as [p [_ P]]. eauto.
    - rewrite (label_cost_unk _ m eq_refl s st Hs). eauto.
    - destruct (label_cost_sym _ C m eq_refl x s st X0 X1 Hs) as [p [_ P]]. eauto.
  Qed.
  Lemma plain_vals n (l : list (str * num F)) : (forall k p, In (k, p) l -> exists q, p = Val q) ->
    exists e, plain_scores (LmScores (Val n) l) = Ok (LmScores n e).
  Proof.
    intros H. unfold plain_scores. cbn [sc_norm sc_entries].
    match goal with |- exists e, bind (?g l) _ = _ => set (go := g) end.
    assert (X : exists e, go l = Ok e).
    { revert H. induction l as [|[k p] t IH]; intros H; [exists []; reflexivity|].
      destruct (H k p (or_introl eq_refl)) as [q ->]. destruct IH as [e E]; [intros; eapply H; right; eauto|].
      exists ((k, q) :: e). unfold go in *. cbn. rewrite E. reflexivity. }
    destruct X as [e ->]. exists e. reflexivity.
  Qed.
  Lemma ng_extract_ok (m : ngram F) s : ng_inv m -> valid_state m s ->
    exists sc, (let* r := ng_extract m s in let* p := plain_scores r in Ok (Some p, m)) = Ok (Some sc, m).
  Proof.
    intros [L CV] V.
    destruct (C31_scores_are_a_distribution F m s s L) as (e & ps & E & _); auto.
    { destruct (Z.eqb_spec s (-1)); auto. unfold valid_state in V. lia. }
    rewrite E. cbn [bind].
    destruct (plain_vals f1 (([], Val e) :: combine (map snd (tl (ng_syms m))) (map Val ps))) as [en ->].
    - intros k p [X|X]; [injection X as <- <-; eauto|]. apply in_combine_r, in_map_iff in X. destruct X as [q [<- _]]. eauto.
    - cbn [bind]. eauto.
  Qed.
  Lemma start_valid (m : ngram F) : NgramProps.loaded m -> valid_state m 0.
  Proof. intros L. destruct (ld_facts m L) as [_ [_ [V _]]]. unfold valid_state in *. lia. Qed.

  Lemma ngram_answers : comps_answer (ngram_ops (F := F)) (fun _ => ng_inv) valid_state.
  Proof.
    constructor.
    - intros b m [L _]. apply start_valid; auto.
    - intros b m s c H V _. destruct (ng_next_valid m s c (ni_loaded _ H) V) as [t [E V']].
      exists t, m. cbn [c_next ngram_ops]. rewrite E. split; auto. split; auto. split; auto. intros u Hu; exact Hu.
    - intros b m s c H V. destruct (ng_score_ok m s c (ni_loaded _ H) V) as [p E].
      exists p, m. cbn [c_score ngram_ops]. rewrite E. split; auto. split; auto. intros u Hu; exact Hu.
    - intros b m s H V. destruct (ng_extract_ok m s H V) as [sc E]. exists (Some sc), m. split; [exact E|].
      split; auto. intros u Hu; exact Hu.
    - intros b m s w n H V _. exists true, m. split; auto. split; auto. intros u Hu; exact Hu.
    - auto.
  Qed.

  (** ** The PPM model *)
  Definition ppm_inv (m : ppm F) : Prop := (exists u K C, tracks m u K C) /\ NoDup (p_syms m).
  Lemma tracked_call_ok (m : ppm F) k : (exists u K C, tracks m u K C) -> PpmRefine.valid m (call_state k) ->
    exists a m', ppm_call m k = Ok (a, m') /\ (exists u K C, tracks m' u K C) /\ PpmUpdate.same m m' /\ keeps PpmRefine.valid m m' /\
      (forall s' : Z, a = ANext s' -> PpmRefine.valid m' s').
  Proof.
    intros (u & K & C & H) V. pose proof (tracks_len _ _ _ _ H) as HL.
    assert (Hh : exists h, getZ K (call_state k) = Some h) by (apply getZ_ex; rewrite HL; exact V).
    destruct Hh as [h Hh]. destruct (tracks_step m u K C k h H Hh) as (m' & E & SM & H').
    destruct (ref_next _ _ _ K C h k) as [K' C'] eqn:En. destruct H' as [H' [N ->]].
    assert (KP : keeps PpmRefine.valid m m').
    { intros t Ht. unfold PpmRefine.valid in *. rewrite <- (tracks_len _ _ _ _ H'), app_length. lia. }
    do 2 eexists. split; [exact E|].
    split; [do 3 eexists; exact H'|]. split; [exact SM|]. split; auto.
    intros s' Es. destruct k as [s c|s c|s|s cs n]; cbn [ref_answer] in Es; try discriminate.
    injection Es as Es. apply KP. unfold PpmRefine.valid. rewrite <- HL.
    pose proof (proj1 H) as HI. destruct (PpmApi.next_spec _ _ m K s h c HI Hh) as (m2 & s2 & E2 & _ & _ & Hs2).
    cbn [ppm_call] in E. rewrite E2 in E. cbn [bind ref_answer] in E. injection E as E3 _. rewrite <- Es, <- E3.
    eapply getZ_range; eauto.
  Qed.

  Lemma ppm_call_ok (m : ppm F) k : ppm_inv m -> PpmRefine.valid m (call_state k) ->
    exists a m', ppm_call m k = Ok (a, m') /\ ppm_inv m' /\ keeps PpmRefine.valid m m' /\
      (forall s' : Z, a = ANext s' -> PpmRefine.valid m' s').
  Proof.
    intros [H ND] V. destruct (tracked_call_ok m k H V) as (a & m' & E & H' & SM & KP & P).
    exists a, m'. split; auto. split; [|auto]. split; auto. rewrite (PpmUpdate.sm_syms _ _ SM). exact ND.
  Qed.

  Lemma ppm_answers : comps_answer (ppm_ops (F := F)) (fun _ => ppm_inv) PpmRefine.valid.
  Proof.
    constructor.
    - intros b m [(u & K & C & H) _]. cbn [c_start ppm_ops]. unfold PpmRefine.valid. rewrite <- (tracks_len _ _ _ _ H).
      destruct H as [H _]. eapply getZ_range, (PpmStruct.wf_start _ _ _ _ _ _ _ _ (PpmUpdate.mi_wf _ _ _ _ _ H)).
    - intros b m s c H V _. destruct (ppm_call_ok m (CNext s c) H V) as (a & m' & E & H' & KP & Hn).
      cbn [ppm_call] in E. apply bind_Ok in E. destruct E as [[t m2] [E1 E]]. injection E as <- <-.
      exists t, m2. split; [exact E1|]. auto.
    - intros b m s c H V. destruct (ppm_call_ok m (CScore s c) H V) as (a & m' & E & H' & KP & _).
      cbn [ppm_call] in E. apply bind_Ok in E. destruct E as [[t m2] [E1 E]]. injection E as <- <-.
      exists t, m2. split; [exact E1|]. auto.
    - intros b m s H V. destruct (ppm_call_ok m (CExtract s) H V) as (a & m' & E & H' & KP & _).
      cbn [ppm_call] in E. apply bind_Ok in E. destruct E as [[t m2] [E1 E]]. injection E as <- <-.
      exists t, m2. split; [exact E1|]. auto.
    - intros b m s w n H V _. destruct (ppm_call_ok m (CUpdate s w n) H V) as (a & m' & E & H' & KP & _).
      cbn [ppm_call] in E. apply bind_Ok in E. destruct E as [[t m2] [E1 E]]. injection E as <- <-.
      exists t, m2. split; [exact E1|]. auto.
    - auto.
  Qed.

  (** ** The word model *)
  (** Every word is possible in every context (otherwise a prefix without mass gives 0/0, see
      C36_zero_mass_refuted). *)
  Definition words_possible (m : word F) : Prop :=
    forall s x w q, In (x, w) (wvocab m) -> symbol_prob (w_fst m) x s q -> q <> f0.
  Definition word_inv (m : word F) : Prop := (exists ws, winv m ws) /\ words_possible m.
  Definition word_valid (m : word F) (s : Z) : Prop := 0 <= s < w_num m + Z.of_nat (length (im_states (wm_im m))).

  Lemma fsum_pos_all (l : list (car F)) : l <> [] -> (forall q, In q l -> fle f0 q = true /\ q <> f0) -> flt f0 (fsum l) = true.
  Proof.
    intros Hn H. destruct l as [|x t]; [congruence|]. rewrite fsum_cons. destruct (H x (or_introl eq_refl)) as [H1 H2].
    apply fadd_pos_l; [apply flt_iff; auto|]. apply fsum_nonneg. intros q Hq. apply (H q). right; auto.
  Qed.
  Lemma total_pos (m : word F) ws s0 p b e total : winv m ws -> words_possible m -> range ws p b e ->
    total_mass (w_fst m) (wvocab m) s0 p total -> flt f0 total = true.
  Proof.
    intros W P R [v [[ps [M1 M2]] M3]]. pose proof (wi_base _ _ W) as B.
    pose proof (proj1 (ld_facts _ (wb_loaded _ _ B))) as CAN.
    assert (V : flt f0 v = true).
    { rewrite M2. apply fsum_pos_all.
      - destruct R as [R1 [R2 R3]]. assert (Hw : prefixb p (wat ws b) = true) by (apply R3; lia).
        assert (Iw : In (wat ws b) ws) by (apply wat_In; lia).
        pose proof (word_label m ws B _ Iw) as I.
        assert (I2 : In (find_label (ng_syms (wm_ng m)) (wat ws b), wat ws b)
                        (filter (fun '(_, w) => prefixb p w) (wvocab m))) by (apply filter_In; auto).
        intros ->. inversion M1 as [E|]. rewrite <- E in I2. destruct I2.
      - intros q Hq.
        assert (X : exists x w, In (x, w) (wvocab m) /\ symbol_prob (w_fst m) x s0 q).
        { assert (G : forall (l : list (Z * str)) ps, Forall2 (fun '(x, _) q => symbol_prob (w_fst m) x s0 q) l ps -> In q ps ->
                        exists x w, In (x, w) l /\ symbol_prob (w_fst m) x s0 q).
          { clear. induction 1 as [|[x w] q' l ps H1 H2 IH]; [intros []|]. intros [->|I].
            - exists x, w. split; [left; auto|auto].
            - destruct (IH I) as (x' & w' & I' & H'). exists x', w'. split; [right; auto|auto]. }
          destruct (G _ _ M1 Hq) as (x & w & I & H). apply filter_In in I. destruct I. eauto. }
        destruct X as (x & w & I & H). split; [|eapply P; eauto]. eapply symbol_prob_nonneg; eauto. }
    destruct p as [|c p]; [|congruence]. destruct M3 as [e0 [M3 ->]].
    apply fadd_pos_r; auto. eapply end_prob_nonneg; eauto.
  Qed.

  Lemma word_extract_plain (m : word F) s : word_inv m -> word_valid m s ->
    exists n l m', w_extract m s = Ok (Some (LmScores (Val n) (map (fun '(k, p) => (k, Val p)) l)), m') /\
      word_inv m' /\ keeps word_valid m m'.
  Proof.
    intros [[ws W] P] V. pose proof (wi_base _ _ W) as B.
    destruct (stands_total _ _ _ (wb_im _ _ B) s V) as [pl Hp].
    assert (CK : forall m', winv m' ws -> core m m' -> word_inv m' /\ keeps word_valid m m').
    { intros m' W' CO. destruct (core_fields _ _ CO) as [F1 [_ [_ [_ [_ [_ [_ [_ F9]]]]]]]]. split; [split; eauto|].
      - intros s1 x w q I H. unfold wvocab, w_fst in *. rewrite F1 in *. eapply P; eauto.
      - intros t Ht. unfold word_valid, w_num, w_fst in *. rewrite F1, F9. exact Ht. }
    destruct pl as [s0 p|].
    - destruct (extract_place m ws s s0 p W Hp) as (ps & syms & m' & E & W' & CO & _ & _ & _ & _ & TM & b & e & _ & _ & R & _).
      pose proof (total_pos m ws s0 p b e _ W P R TM) as T. apply flt_neq in T.
      exists f1, (combine syms (map (fun q => fdiv q (fsum ps)) ps)), m'. split; [|auto].
      rewrite E. do 4 f_equal. revert T. generalize (fsum ps) as t. intros t T. clear - T.
      revert syms. induction ps as [|x ps IH]; intros [|y syms]; cbn [combine map]; auto.
      f_equal; auto. f_equal. unfold num_div. destruct (feqb t f0) eqn:Q; auto. apply feqb_eq in Q. congruence.
    - simpl in Hp. subst s. rewrite (oov_extract m ws B). exists f0, [], m. split; [reflexivity|].
      apply CK; auto. apply core_refl.
  Qed.

  Lemma word_answers : comps_answer (word_ops (F := F)) (fun _ => word_inv) word_valid.
  Proof.
    constructor.
    - intros b m [[ws W] P]. cbn [c_start word_ops].
      destruct (ld_facts _ (wb_loaded _ _ (wi_base _ _ W))) as [_ [_ [V _]]].
      unfold valid_state in V. unfold word_valid, w_num, w_fst. lia.
    - intros b m s c [[ws W] P] V Hc. pose proof (wi_base _ _ W) as B.
      destruct (stands_total _ _ _ (wb_im _ _ B) s V) as [pl Hp].
      destruct (next_ok m ws B s pl c Hp ltac:(lia)) as (s' & im' & pl' & E & I & EX & T & Hp').
      exists s', (set_im m im'). split; [exact E|]. split; [|split].
      + split; [exists ws; apply winv_im; auto|exact P].
      + intros t Ht. destruct EX as [ext Ex]. unfold word_valid in *. cbn [wm_im set_im]. rewrite Ex, app_length.
        change (w_num (set_im m im')) with (w_num m). lia.
      + exact (stands_valid _ _ _ I _ _ Hp').
    - intros b m s c H V. destruct (word_extract_plain m s H V) as (n & l & m' & E & H' & KP).
      cbn [c_score word_ops]. unfold w_score. rewrite E. cbn [bind sc_entries].
      destruct (find _ _) as [[k p]|] eqn:Fd.
      + apply find_some in Fd. destruct Fd as [Fd _]. apply in_map_iff in Fd. destruct Fd as [[k' q] [X _]].
        injection X as -> <-. cbn [snd]. eauto.
      + eauto.
    - intros b m s H V. destruct (word_extract_plain m s H V) as (n & l & m' & E & H' & KP).
      cbn [c_extract word_ops]. rewrite E. cbn [bind].
      destruct (plain_vals n (map (fun '(k, p) => (k, Val p)) l)) as [en ->].
      { intros k p I. apply in_map_iff in I. destruct I as [[k' q] [X _]]. injection X as -> <-. eauto. }
      cbn [bind]. eauto.
    - intros b m s w n H V _. exists true, m. split; [reflexivity|]. split; auto. intros t Ht; exact Ht.
    - auto.
  Qed.

  (** ** Any of the four *)
  Definition any_inv (b : Z) (m : any_model F) : Prop :=
    match m with Bg m => bg_room b m | Ng m => ng_inv m | Pp m => ppm_inv m | Wd m => word_inv m end.
  Definition any_valid (m : any_model F) (s : Z) : Prop :=
    match m with Bg m => True | Ng m => valid_state m s | Pp m => PpmRefine.valid m s | Wd m => word_valid m s end.

  Lemma any_answers : comps_answer (any_ops (F := F)) any_inv any_valid.
  Proof.
    constructor.
    - intros b [m|m|m|m] H; cbn [any_inv any_valid any_ops c_start] in *; [exact I| | |].
      + apply (an_start _ _ _ ngram_answers b m H).
      + apply (an_start _ _ _ ppm_answers b m H).
      + apply (an_start _ _ _ word_answers b m H).
    - intros b [m|m|m|m] s c H V Hc; cbn [any_inv any_valid any_ops c_next] in *.
      + destruct (an_next _ _ _ bigram_answers b m s c H V Hc) as (t & m' & -> & H' & KP & Ht).
        exists t, (Bg m'). split; [reflexivity|]. auto.
      + destruct (an_next _ _ _ ngram_answers b m s c H V Hc) as (t & m' & -> & H' & KP & Ht).
        exists t, (Ng m'). split; [reflexivity|]. auto.
      + destruct (an_next _ _ _ ppm_answers b m s c H V Hc) as (t & m' & -> & H' & KP & Ht).
        exists t, (Pp m'). split; [reflexivity|]. auto.
      + destruct (an_next _ _ _ word_answers b m s c H V Hc) as (t & m' & -> & H' & KP & Ht).
        exists t, (Wd m'). split; [reflexivity|]. auto.
    - intros b [m|m|m|m] s c H V; cbn [any_inv any_valid any_ops c_score] in *.
      + destruct (an_score _ _ _ bigram_answers b m s c H V) as (t & m' & -> & H' & KP).
        exists t, (Bg m'). split; [reflexivity|]. auto.
      + destruct (an_score _ _ _ ngram_answers b m s c H V) as (t & m' & -> & H' & KP).
        exists t, (Ng m'). split; [reflexivity|]. auto.
      + destruct (an_score _ _ _ ppm_answers b m s c H V) as (t & m' & -> & H' & KP).
        exists t, (Pp m'). split; [reflexivity|]. auto.
      + destruct (an_score _ _ _ word_answers b m s c H V) as (t & m' & -> & H' & KP).
        exists t, (Wd m'). split; [reflexivity|]. auto.
    - intros b [m|m|m|m] s H V; cbn [any_inv any_valid any_ops c_extract] in *.
      + destruct (an_extract _ _ _ bigram_answers b m s H V) as (t & m' & -> & H' & KP).
        exists t, (Bg m'). split; [reflexivity|]. auto.
      + destruct (an_extract _ _ _ ngram_answers b m s H V) as (t & m' & -> & H' & KP).
        exists t, (Ng m'). split; [reflexivity|]. auto.
      + destruct (an_extract _ _ _ ppm_answers b m s H V) as (t & m' & -> & H' & KP).
        exists t, (Pp m'). split; [reflexivity|]. auto.
      + destruct (an_extract _ _ _ word_answers b m s H V) as (t & m' & -> & H' & KP).
        exists t, (Wd m'). split; [reflexivity|]. auto.
    - intros b [m|m|m|m] s w n H V Hb; cbn [any_inv any_valid any_ops c_update] in *.
      + destruct (an_update _ _ _ (bigram_answers) b m s w n H V Hb) as (t & m' & -> & H' & KP).
        exists t, (Bg m'). split; [reflexivity|]. auto.
      + destruct (an_update _ _ _ ngram_answers b m s w n H V Hb) as (t & m' & -> & H' & KP).
        exists t, (Ng m'). split; [reflexivity|]. auto.
      + destruct (an_update _ _ _ ppm_answers b m s w n H V Hb) as (t & m' & -> & H' & KP).
        exists t, (Pp m'). split; [reflexivity|]. auto.
      + destruct (an_update _ _ _ word_answers b m s w n H V Hb) as (t & m' & -> & H' & KP).
        exists t, (Wd m'). split; [reflexivity|]. auto.
    - intros b b' [m|m|m|m] Hb H; cbn [any_inv] in *; auto. eapply (an_mono _ _ _ (bigram_answers)); eauto.
  Qed.
End Inst.
