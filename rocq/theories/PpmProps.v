(** Properties C20-C29: the PPM model.

    In the statements below, [readable counter o model vocab] (PpmRef.v) says that the files and
    options are such as Read is meant for; [ppm_read .. = Ok m0] that m0 was read from them;
    [served m0 ks l m] (PpmRefine.v) that m0 was then asked the calls ks (NextState, SymLMScore,
    ExtractLMScores, UpdateLMCounts, each with a state number the model then had), answered l and
    became m.  [ref_run] is the reference machine of PpmRef.v, which knows histories K and counts C
    and no automaton or cache; [described] says which histories and counts an input stands for. *)
From Coq Require Import Field.
From Verif Require Import Base Field LmModel TextModel HubModel PpmModel PpmSpec PpmReadModel PpmStruct PpmTrainSpec PpmRef PpmVals PpmCache PpmWf PpmUpdate PpmObserve PpmApi PpmRead PpmRead2 PpmTrain PpmRead3 PpmRefine PpmCounter.
Local Open Scope Z_scope.

(** State number s of m is history K[s], and the count of x on that state of the automaton is C. *)
Definition stands_for {F : ofield} (m : ppm F) (K : list history) (C : @counts F) : Prop :=
  NoDup K /\ length K = length (p_fst m) /\ getZ K (p_start m) = Some [0] /\ In [] K /\
  (forall s h st, getZ K s = Some h -> getZ (p_fst m) s = Some st ->
     C h 0 = ps_final st /\
     forall x, x <> 0 ->
       C h x = match find (fun a => a_label a =? x) (ps_arcs st) with Some a => a_count a | None => f0 end) /\
  (forall h x, ~ In h K -> C h x = f0).

(** m was read from the input and has answered ks with l, as the reference machine, now in state
    (K, C), did. *)
Definition agrees {F : ofield} counter (o : ppm_options F) model vocab ks l m K C : Prop :=
  exists m0 K0 C0, ppm_read counter o model (vocab_file vocab) = Ok m0 /\
    described o model vocab (p_syms m0) K0 C0 /\ stands_for m0 K0 C0 /\
    p_max_order m = Z.max (Z.max (init_order o) 2) (1 + fold_right Z.max 0 (map (fun h => Z.of_nat (length h)) K0)) /\
    ref_run (p_syms m0) (init_alpha o) (init_beta o) (p_max_order m) (po_static o) K0 C0 ks = Some (l, (K, C)) /\
    stands_for m K C /\ (exists N, K = K0 ++ N) /\ p_syms m = p_syms m0 /\ p_start m = p_start m0.

Lemma tracks_stands {F : ofield} (m : ppm F) u K C : tracks m u K C -> stands_for m K C.
Proof.
  intros [H HC]. pose proof (mi_wf _ _ _ _ _ H) as Hw. pose proof (wf_nodup _ _ _ _ _ _ _ _ Hw) as Hn.
  split; auto. split; [apply (wf_len _ _ _ _ _ _ _ _ Hw)|]. split; [apply (wf_start _ _ _ _ _ _ _ _ Hw)|].
  split; [eapply getZ_In, (wf_u _ _ _ _ _ _ _ _ Hw)|]. split.
  - intros s h st Hs Hst. rewrite <- !HC. rewrite (table_get K (p_fst m) s h st 0 Hn Hs Hst). split; [reflexivity|].
    intros x Hx. rewrite <- HC, (table_get K (p_fst m) s h st x Hn Hs Hst). unfold count.
    destruct (Z.eqb_spec x 0); [contradiction|]. reflexivity.
  - intros h x Hh. rewrite <- HC. apply table_none; auto.
Qed.

Section Setup.
  Context {F : ofield}.
  Add Field FfieldPpm13 : (f_th F).
  Lemma fadd3 (a b c : car F) : fadd (fadd a b) c = fadd a (fadd b c).
  Proof. ring. Qed.
  Variable counter : Z -> list (list Z) -> outcome (list (pstate F) * Z).
  Lemma setup o model vocab m0 ks l m : readable counter o model vocab ->
    ppm_read counter o model (vocab_file vocab) = Ok m0 -> served m0 ks l m ->
    exists u K C, tracks m u K C /\ agrees counter o model vocab ks l m K C /\ same m0 m /\ NoDup (p_syms m) /\
      p_alpha m = init_alpha o /\ p_beta m = init_beta o /\ p_static m = po_static o.
  Proof.
    intros Hr E Hs. destruct (read_loaded counter o model vocab Hr) as (m0' & u & syms & K0 & C0 & E' & Hd & Hl).
    rewrite E in E'. injection E' as <-. pose proof (loaded_tracks _ _ _ _ _ _ Hl) as Ht.
    destruct (served_tracks m0 u K0 C0 ks l m Ht Hs) as (K & C & Er & Ep & Hsm & HT & HN).
    exists u, K, C. split; auto. destruct Hsm as [e1 e2 e3 e4 e5 e6 e7]. destruct Hl as [l1 l2 l3 l4 l5 l6 l7 l8 l9].
    split; [|split; [constructor; auto|]].
    - exists m0, K0, C0. split; auto. split; [rewrite l3; auto|]. split; [eapply tracks_stands; eauto|].
      split; [congruence|]. split; [rewrite e3, <- l4, <- l5, <- l6; exact Er|]. split; [eapply tracks_stands; eauto|].
      auto.
    - split; [|repeat split; congruence]. rewrite e2, l3. eapply described_NoDup; eauto.
  Qed.
End Setup.

(** * C21: the documented formula *)

(** Read succeeds, and from then on every call is answered as by the reference machine. *)
Theorem C21_refines_reference :
  forall (F : ofield) counter (o : ppm_options F) model vocab,
  readable counter o model vocab ->
  exists m0, ppm_read counter o model (vocab_file vocab) = Ok m0 /\
    forall ks l m, served m0 ks l m -> exists K C, agrees counter o model vocab ks l m K C.
Proof.
  intros F counter o model vocab Hr.
  destruct (read_loaded counter o model vocab Hr) as (m0 & u & syms & K0 & C0 & E & _).
  exists m0. split; auto. intros ks l m Hs. destruct (setup counter o model vocab m0 ks l m Hr E Hs) as (u' & K & C & _ & H & _).
  eauto.
Qed.
Print Assumptions C21_refines_reference.

(** In the state that stands for h, the probability of the x-th symbol is [prob .. C h x]: at the
    empty history the count over the total; at a longer history the discounted count plus the
    discounted mass times the probability after the next shorter history, over total plus alpha.
    Characters that are not in the vocabulary have probability 0. *)
Theorem C21_scores_follow_the_formula :
  forall (F : ofield) counter (o : ppm_options F) model vocab m0 ks l m,
  readable counter o model vocab -> ppm_read counter o model (vocab_file vocab) = Ok m0 -> served m0 ks l m ->
  exists K C, agrees counter o model vocab ks l m K C /\
    let P := prob (length (p_syms m)) (init_alpha o) (init_beta o) C in
    forall s h, getZ K s = Some h ->
      (exists m', ppm_score m s 0 = Ok (P h 0, m')) /\
      (forall i c, c <> 0 -> nth_error (p_syms m) i = Some c -> exists m', ppm_score m s c = Ok (P h (Z.of_nat i + 1), m')) /\
      (forall c, c <> 0 -> ~ In c (p_syms m) -> exists m', ppm_score m s c = Ok (f0, m')).
Proof.
  intros F counter o model vocab m0 ks l m Hr E Hs.
  destruct (setup counter o model vocab m0 ks l m Hr E Hs) as (u & K & C & Ht & Ha & Hsm & Hnd & Ea & Eb & Est).
  exists K, C. split; auto. cbn zeta. intros s h Hh. destruct Ht as [Hi HC].
  assert (G : forall c, exists m', ppm_score m s c =
    Ok (let x := if c =? 0 then 0 else label_from 1 (p_syms m) c in
        if 0 <=? x then prob (length (p_syms m)) (init_alpha o) (init_beta o) C h x else f0, m')).
  { intros c. destruct (score_spec _ _ m K s h c Hi Hh) as (m' & E' & _). exists m'. rewrite E'. cbn zeta.
    unfold labels. rewrite Ea, Eb. destruct (0 <=? _); [|reflexivity]. rewrite (prob_ext _ _ _ _ C) by auto. reflexivity. }
  assert (L1 : forall l i k c, NoDup l -> nth_error l i = Some c -> label_from k l c = k + Z.of_nat i).
  { induction l0 as [|d t IH]; intros i k c Hn Hc; [destruct i; discriminate|]. cbn [label_from].
    inversion Hn as [|? ? Hd Hn']; subst. destruct i as [|i]; cbn [nth_error] in Hc.
    - injection Hc as ->. rewrite Z.eqb_refl. lia.
    - destruct (Z.eqb_spec d c) as [->|]; [elim Hd; eapply nth_error_In; eauto|]. rewrite (IH i) by auto. lia. }
  assert (L2 : forall l k c, ~ In c l -> label_from k l c = -1).
  { induction l0 as [|d t IH]; intros k c Hc; [reflexivity|]. cbn [label_from].
    destruct (Z.eqb_spec d c) as [->|]; [elim Hc; left; auto|]. apply IH. intros K0; apply Hc; right; auto. }
  split; [|split].
  - apply (G 0).
  - intros i c Hc Hn. destruct (G c) as [m' E']. exists m'. rewrite E'. destruct (Z.eqb_spec c 0); [contradiction|].
    cbn zeta. rewrite (L1 _ i) by auto. destruct (Z.leb_spec 0 (1 + Z.of_nat i)); [|lia].
    rewrite (Z.add_comm 1). reflexivity.
  - intros c Hc Hn. destruct (G c) as [m' E']. exists m'. rewrite E'. destruct (Z.eqb_spec c 0); [contradiction|].
    cbn zeta. rewrite L2 by auto. reflexivity.
Qed.
Print Assumptions C21_scores_follow_the_formula.

(** * C20: a distribution *)

Theorem C20_scores_are_a_distribution :
  forall (F : ofield) counter (o : ppm_options F) model vocab m0 ks l m s,
  readable counter o model vocab -> ppm_read counter o model (vocab_file vocab) = Ok m0 -> served m0 ks l m ->
  valid m s ->
  exists r m', ppm_extract m s = Ok (Some r, m') /\
    map fst (sc_entries r) = [] :: map (fun c => [c]) (p_syms m) /\ NoDup (p_syms m) /\
    (forall e, In e (sc_entries r) -> flt f0 (snd e) = true) /\
    fsum (map snd (sc_entries r)) = f1 /\ flt f0 (sc_norm r) = true.
Proof.
  intros F counter o model vocab m0 ks l m s Hr E Hs Hv.
  destruct (setup counter o model vocab m0 ks l m Hr E Hs) as (u & K & C & Ht & Ha & Hsm & Hnd & Ea & Eb & Est).
  assert (Hh : exists h, getZ K s = Some h) by (apply getZ_ex; rewrite (tracks_len _ _ _ _ Ht); exact Hv).
  destruct Hh as [h Hh]. destruct (tracks_prob m u K C h Ht (getZ_In _ _ _ Hh)) as [Pp Ps].
  destruct Ht as [Hi HC]. destruct (extract_spec _ _ m K s h Hi Hh) as (m' & E' & _).
  eexists _, m'. split; [exact E'|]. cbn [sc_entries sc_norm].
  set (V := length (p_syms m)) in *.
  assert (Ep : map (prob V (p_alpha m) (p_beta m) (table K (p_fst m)) h) (symbols V) =
               map (prob V (p_alpha m) (p_beta m) C h) (symbols V)).
  { apply map_ext. intros x. apply prob_ext. auto. }
  rewrite Ep.
  assert (El : length ([] :: map (fun c : Z => [c]) (p_syms m)) = length (map (prob V (p_alpha m) (p_beta m) C h) (symbols V))).
  { cbn [length]. rewrite !map_length, symbols_length. reflexivity. }
  assert (Cm : forall (A B : Type) (a : list A) (b : list B), length a = length b ->
    map fst (combine a b) = a /\ map snd (combine a b) = b).
  { intros A B. induction a as [|x a IH]; intros [|y b] Hl; try discriminate; [split; reflexivity|].
    cbn [combine map fst snd]. destruct (IH b) as [I1 I2]; [simpl in Hl; lia|]. rewrite I1, I2. auto. }
  destruct (Cm _ _ _ _ El) as [C1 C2].
  split; [exact C1|]. split; auto. split; [|split].
  - intros e He. assert (Hin : In (snd e) (map (prob V (p_alpha m) (p_beta m) C h) (symbols V))).
    { pose proof (in_map snd _ _ He) as He'. exact (eq_ind _ (fun z => In (snd e) z) He' _ C2). }
    apply in_map_iff in Hin. destruct Hin as (x & <- & Hx). apply Pp; auto.
  - etransitivity; [apply f_equal; exact C2|exact Ps].
  - rewrite (norm_ext _ _ _ C) by auto.
    assert (Hna : forall h, In h K \/ True -> flt f0 (norm V (p_alpha m) C h) = true).
    { assert (Hpos : forall g x, fle f0 (C g x) = true \/ ~ In x (symbols V)).
      { intros g x. destruct (in_dec Z.eq_dec x (symbols V)) as [Hx|Hx]; auto. left.
        destruct (in_dec (list_eq_dec Z.eq_dec) g K) as [Hg|Hg].
        - rewrite <- HC. apply (table_pos V u m K); auto.
        - rewrite <- HC, table_none by auto. apply fle_refl. }
      assert (Ht0 : forall g, fle f0 (total V C g) = true).
      { intros g. unfold total. apply fsum_nonneg. intros y Hy. apply in_map_iff in Hy. destruct Hy as (x & <- & Hx).
        destruct (Hpos g x); [auto|contradiction]. }
      induction h0 as [|c h0 IH]; intros _; cbn [norm].
      - apply fadd_pos_r; [apply Ht0|apply (mi_alpha _ _ _ _ _ Hi)].
      - destruct (feqb (total V C (c :: h0)) f0); [apply IH; auto|].
        apply fadd_pos_r; [apply Ht0|apply (mi_alpha _ _ _ _ _ Hi)]. }
    apply Hna; auto.
Qed.
Print Assumptions C20_scores_are_a_distribution.

(** * C22: stored totals *)

(** In every reachable model, a state stores its total on its first arc, the back-off arc (label
    0), unless it is the unigram state, which has none: the total is the sum of its final weight and
    of the counts of its other arcs, or 1 in a state in which nothing was seen. There is at most one
    arc for each label. *)
Theorem C22_totals_are_consistent :
  forall (F : ofield) counter (o : ppm_options F) model vocab m0 ks l m,
  readable counter o model vocab -> ppm_read counter o model (vocab_file vocab) = Ok m0 -> served m0 ks l m ->
  exists u, valid m u /\
    forall s st, getZ (p_fst m) s = Some st ->
      NoDup (map (@a_label F) (ps_arcs st)) /\
      (s = u -> forall a, In a (ps_arcs st) -> a_label a <> 0) /\
      (s <> u -> exists S b rest, ps_arcs st = Arc 0 S b :: rest /\ valid m b /\ flt f0 S = true /\
         S = (if feqb (ps_final st) f0 && (length rest =? 0)%nat then f1
              else fadd (ps_final st) (fsum (map (@a_count F) rest)))).
Proof.
  intros F counter o model vocab m0 ks l m Hr E Hs.
  destruct (setup counter o model vocab m0 ks l m Hr E Hs) as (u & K & C & [Hi HC] & Ha & Hsm & Hnd & Ea & Eb & Est).
  pose proof (mi_wf _ _ _ _ _ Hi) as Hw. pose proof (wf_len _ _ _ _ _ _ _ _ Hw) as Hlen.
  exists u. assert (Hval : forall s h, getZ K s = Some h -> valid m s).
  { intros s h Hh. apply getZ_range in Hh. unfold valid. lia. }
  split; [eapply Hval, (wf_u _ _ _ _ _ _ _ _ Hw)|]. intros s st Hst.
  assert (Hh : exists h, getZ K s = Some h) by (apply getZ_ex; rewrite Hlen; eapply getZ_range; eauto).
  destruct Hh as [h Hh]. destruct h as [|c h].
  - pose proof (getZ_nodup _ _ _ _ (wf_nodup _ _ _ _ _ _ _ _ Hw) Hh (wf_u _ _ _ _ _ _ _ _ Hw)) as ->.
    destruct (wf_uni _ _ _ _ _ _ _ _ Hw st Hst) as ([Hg1 Hg2] & _). split; auto. split; [|congruence].
    intros _ a Ha0. apply Hg2 in Ha0. lia.
  - assert (Hne : s <> u) by (intros ->; rewrite (wf_u _ _ _ _ _ _ _ _ Hw) in Hh; discriminate).
    destruct (wf_state _ _ _ _ _ _ _ _ Hw s st c h Hst Hh) as (S & b & rest & Harcs & Hb & Hg & Hf & [[]|HS]).
    split; [|split; [congruence|]].
    + rewrite Harcs. cbn [map a_label]. constructor; [|apply Hg]. intros Hin. apply in_map_iff in Hin.
      destruct Hin as (a & E0 & Ha0). apply Hg in Ha0. lia.
    + intros _. exists S, b, rest. split; auto. split; [eapply Hval; eauto|]. split; [|exact HS].
      rewrite HS. unfold seen_nothing. destruct (feqb (ps_final st) f0) eqn:Ef; cbn [andb].
      * apply feqb_eq in Ef. destruct rest as [|a rest]; cbn [length Nat.eqb]; [apply f1_pos|].
        rewrite Ef. apply fadd_pos_r; [apply fle_refl|]. apply fsum_pos_all; [discriminate|].
        intros y Hy. apply in_map_iff in Hy. destruct Hy as (x & <- & Hx). apply Hg in Hx.
        eapply flt_trans; [apply (mi_beta _ _ _ _ _ Hi)|apply Hx].
      * apply fadd_pos_l.
        -- destruct Hf as [Hf|Hf]; [rewrite Hf, feqb_refl in Ef; discriminate|].
           eapply flt_trans; [apply (mi_beta _ _ _ _ _ Hi)|exact Hf].
        -- apply fsum_nonneg. intros y Hy. apply in_map_iff in Hy. destruct Hy as (x & <- & Hx). apply Hg in Hx.
           apply flt_le. eapply flt_trans; [apply (mi_beta _ _ _ _ _ Hi)|apply Hx].
Qed.
Print Assumptions C22_totals_are_consistent.

(** * C23: update exclusion *)

(** The longest suffix of h after which x was seen, as used by [observe] (the empty history counts
    as seen). *)
Lemma seen_spec {F : ofield} (C : @counts F) h x : suffix (seen C h x) h /\
  (seen C h x = [] \/ flt f0 (C (seen C h x) x) = true) /\
  (forall g, suffix g h -> flt f0 (C g x) = true -> (length g <= length (seen C h x))%nat).
Proof.
  split; [apply seen_suffix|]. induction h as [|c h [IH1 IH2]]; cbn [seen].
  - split; auto. intros g [p E] _. symmetry in E. apply app_eq_nil in E. destruct E as [_ ->]. auto.
  - destruct (flt f0 (C (c :: h) x)) eqn:E.
    + split; auto. intros g Hg _. apply suffix_len in Hg. auto.
    + split; auto. intros g Hg Hp. apply suffix_cons in Hg. destruct Hg as [->|Hg]; [congruence|auto].
Qed.

(** Telling a model that is not static that the i-th symbol of the vocabulary, or the end of the
    string (c = 0), was seen n > 0 times after h: every suffix of h that is at least as long as the
    longest one after which the symbol was seen before gets one more count, h itself gets n - 1
    further ones, and no other count changes; the new states are those of these suffixes followed by
    the symbol that are shorter than the order of the model and had no state. *)
Theorem C23_update_exclusion :
  forall (F : ofield) counter (o : ppm_options F) model vocab m0 ks l m,
  readable counter o model vocab -> ppm_read counter o model (vocab_file vocab) = Ok m0 -> served m0 ks l m ->
  po_static o = false ->
  exists K C, agrees counter o model vocab ks l m K C /\
    forall s h c x n, getZ K s = Some h -> 0 < n ->
      (c = 0 /\ x = 0 \/ 0 < c /\ exists i, nth_error (p_syms m) i = Some c /\ x = Z.of_nat i + 1) ->
      exists m' K' C', ppm_update m s [c] n = Ok (true, m') /\ stands_for m' K' C' /\
        (forall g y, C' g y =
           if (y =? x) && existsb (hist_eqb g) (suffixes h) && (length (seen C h x) <=? length g)%nat
           then fadd (C g y) (if hist_eqb g h then ofZ n else f1) else C g y) /\
        (forall g, In g K' <-> In g K \/
           x <> 0 /\ Z.of_nat (length g) < p_max_order m /\
           exists g0, g = g0 ++ [x] /\ suffix g0 h /\ (length (seen C h x) <= length g0)%nat) /\
        exists N, K' = K ++ N.
Proof.
  intros F counter o model vocab m0 ks l m Hr E Hs Hstat.
  destruct (setup counter o model vocab m0 ks l m Hr E Hs) as (u & K & C & Ht & Ha & Hsm & Hnd & Ea & Eb & Est).
  exists K, C. split; auto. intros s h c x n Hh Hn Hc.
  destruct (tracks_step m u K C (CUpdate s [c] n) h Ht Hh) as (m' & E' & S' & HT).
  cbn [ppm_call ref_answer ref_next] in *. rewrite Est, Hstat in HT. cbn [orb] in HT.
  destruct (Z.leb_spec n 0); [lia|]. cbn [learn] in HT.
  assert (L1 : forall l i k d, NoDup l -> nth_error l i = Some d -> label_from k l d = k + Z.of_nat i).
  { induction l0 as [|d t IH]; intros i k d0 Hn0 Hc0; [destruct i; discriminate|]. cbn [label_from].
    inversion Hn0 as [|? ? Hd Hn']; subst. destruct i as [|i]; cbn [nth_error] in Hc0.
    - injection Hc0 as ->. rewrite Z.eqb_refl. lia.
    - destruct (Z.eqb_spec d d0) as [->|]; [elim Hd; eapply nth_error_In; eauto|]. rewrite (IH i) by auto. lia. }
  assert (Hx : (if 0 <? c then label_from 1 (p_syms m) c else c) = x /\ 0 <= x).
  { destruct Hc as [[-> ->]|[Hp (i & Hi & ->)]]; [split; [reflexivity|lia]|].
    destruct (Z.ltb_spec 0 c); [|lia]. rewrite (L1 _ i) by auto. lia. }
  destruct Hx as [Hx Hx0]. rewrite Hx in HT. destruct (Z.ltb_spec x 0); [lia|].
  destruct HT as [HT [N HN]].
  exists m', (extended (p_max_order m) K C h x), (add_count (observe C h x) h x (n - 1)).
  split; [|split; [eapply tracks_stands; eauto|split; [|split; [|eauto]]]].
  - destruct (ppm_update m s [c] n) as [[b m2]| | |]; cbn [bind] in E'; try discriminate. injection E' as -> ->. reflexivity.
  - intros g y. unfold add_count, observe. destruct (Z.eqb_spec y x) as [->|]; cbn [andb]; [|reflexivity].
    destruct (hist_eqb g h) eqn:Eg.
    + apply hist_eqb_eq in Eg. subst g.
      rewrite (proj2 (mem_In (suffixes h) h)) by (apply suffixes_In, suffix_refl). cbn [andb].
      pose proof (suffix_len _ _ (seen_suffix C h x)).
      destruct (Nat.leb_spec (length (seen C h x)) (length h)); [|lia].
      replace n with (n - 1 + 1) at 2 by lia. rewrite ofZ_1_add by lia.
      apply fadd3.
    + destruct (existsb (hist_eqb g) (suffixes h)); cbn [andb]; reflexivity.
  - intros g. unfold extended. destruct (Z.eqb_spec x 0) as [->|Hne].
    + split; [auto|]. intros [G|[G _]]; [auto|contradiction].
    + rewrite in_app_iff, filter_In, in_map_iff. split.
      * intros [G|[(g0 & <- & Hg0) Hf]]; auto. right. split; auto. apply filter_In in Hg0.
        destruct Hg0 as [Hg0 Hl]. apply in_rev, suffixes_In in Hg0. apply Nat.leb_le in Hl.
        apply andb_true_iff in Hf. destruct Hf as [Hf _]. apply Z.ltb_lt in Hf. eauto.
      * intros [G|(_ & Hl & g0 & -> & Hsuf & Hle)]; auto.
        destruct (existsb (hist_eqb (g0 ++ [x])) K) eqn:Em; [left; apply mem_In; auto|]. right. split.
        -- exists g0. split; auto. apply filter_In. split; [apply in_rev; rewrite rev_involutive; apply suffixes_In; auto|].
           apply Nat.leb_le; auto.
        -- apply andb_true_iff. split; [apply Z.ltb_lt; auto|]. reflexivity.
Qed.
Print Assumptions C23_update_exclusion.
