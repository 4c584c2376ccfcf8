(** The PPM model answers as the reference machine of PpmRef.v. *)
From Coq Require Import Field Permutation.
From Verif Require Import Base Field LmModel TextModel HubModel PpmModel PpmSpec PpmReadModel PpmStruct PpmTrainSpec PpmRef PpmVals PpmCache PpmWf PpmUpdate PpmObserve PpmApi PpmRead PpmRead2 PpmTrain PpmRead3.
Local Open Scope Z_scope.

Lemma index_from_getZ (K : list history) : forall i h s, NoDup K -> getZ K s = Some h -> index_from i K h = i + s.
Proof.
  induction K as [|g t IH]; intros i h s Hn Hs.
  - apply getZ_range in Hs. cbn [length] in Hs. lia.
  - inversion Hn as [|? ? Hg Ht]; subst. pose proof (getZ_range _ _ _ Hs) as Hr.
    cbn [index_from]. unfold getZ in Hs. destruct (Z.ltb_spec s 0); [discriminate|].
    destruct (Z.to_nat s) as [|n] eqn:En; cbn [nth_error] in Hs.
    + injection Hs as ->. rewrite hist_eqb_refl. lia.
    + destruct (hist_eqb g h) eqn:E.
      * apply hist_eqb_eq in E. subst g. elim Hg. eapply nth_error_In; eauto.
      * rewrite (IH (i + 1) h (s - 1) Ht); [lia|]. unfold getZ. destruct (Z.ltb_spec (s - 1) 0); [lia|].
        replace (Z.to_nat (s - 1)) with n by lia. auto.
Qed.

Section Refine.
  Context {F : ofield}.
  Add Field FfieldPpm12 : (f_th F).

  (** The formulas depend on the counts as a function only. *)
  Lemma total_ext V (C C' : @counts F) h : (forall g y, C g y = C' g y) -> total V C h = total V C' h.
  Proof. intros H. unfold total. f_equal. apply map_ext. intros x. apply H. Qed.
  Lemma kinds_ext V (C C' : @counts F) h : (forall g y, C g y = C' g y) -> kinds V C h = kinds V C' h.
  Proof. intros H. unfold kinds. do 2 f_equal. apply filter_ext. intros x. rewrite H. reflexivity. Qed.
  Lemma prob_ext V a b (C C' : @counts F) h x : (forall g y, C g y = C' g y) -> prob V a b C h x = prob V a b C' h x.
  Proof.
    intros H. induction h as [|c h IH]; cbn [prob].
    - rewrite H, (total_ext V C C') by auto. reflexivity.
    - rewrite H, (total_ext V C C'), (kinds_ext V C C'), IH by auto. reflexivity.
  Qed.
  Lemma norm_ext V a (C C' : @counts F) h : (forall g y, C g y = C' g y) -> norm V a C h = norm V a C' h.
  Proof.
    intros H. induction h as [|c h IH]; cbn [norm]; rewrite (total_ext V C C') by auto; [reflexivity|].
    rewrite IH. reflexivity.
  Qed.

  (** A model that stands for histories K and counts C. *)
  Definition tracks (m : ppm F) (u : Z) (K : list history) (C : @counts F) : Prop :=
    inv (length (p_syms m)) u m K /\ forall h x, table K (p_fst m) h x = C h x.

  Lemma tracks_prob m u K C h : tracks m u K C -> In h K ->
    (forall x, In x (symbols (length (p_syms m))) ->
      flt f0 (prob (length (p_syms m)) (p_alpha m) (p_beta m) C h x) = true) /\
    fsum (map (prob (length (p_syms m)) (p_alpha m) (p_beta m) C h) (symbols (length (p_syms m)))) = f1.
  Proof.
    intros [H HC] Hin. apply In_getZ in Hin. destruct Hin as [s Hs].
    destruct (good_state _ _ m K H s h Hs) as (l & Hc & Hg & _).
    destruct (chain_rel _ _ m K H h s l Hs Hc) as (R & _).
    assert (R' : forall x, cprob (length (p_syms m)) (p_alpha m) (p_beta m) l x =
                           prob (length (p_syms m)) (p_alpha m) (p_beta m) C h x).
    { intros x. rewrite R. apply prob_ext. auto. }
    split.
    - intros x Hx. rewrite <- R'. apply cprob_pos; auto; [apply (mi_alpha _ _ _ _ _ H)|apply (mi_beta _ _ _ _ _ H)].
    - rewrite (map_ext _ _ (fun x => eq_sym (R' x))). apply cprob_sum; auto; [apply (mi_alpha _ _ _ _ _ H)|apply (mi_beta _ _ _ _ _ H)].
  Qed.

  Lemma tracks_step m u K C k h : tracks m u K C -> getZ K (call_state k) = Some h ->
    exists m', ppm_call m k = Ok (ref_answer (p_syms m) (p_alpha m) (p_beta m) K C h k, m') /\ same m m' /\
      let (K', C') := ref_next (p_syms m) (p_max_order m) (p_static m) K C h k in
      tracks m' u K' C' /\ exists N, K' = K ++ N.
  Proof.
    intros [H HC] Hs. destruct k as [s c|s c|s|s cs n]; cbn [call_state ppm_call ref_answer ref_next] in *.
    - destruct (next_spec _ _ m K s h c H Hs) as (m' & s' & E & Hi & Hq & Hs'). rewrite E. cbn [bind].
      exists m'. split; [|split; [apply (queried_same _ _ Hq)|]].
      + unfold labels in Hs'.
        rewrite (index_from_getZ K 0 _ s' (wf_nodup _ _ _ _ _ _ _ _ (mi_wf _ _ _ _ _ H)) Hs'). reflexivity.
      + split; [|exists []; rewrite app_nil_r; auto]. split; [rewrite (sm_syms _ _ (queried_same _ _ Hq)); auto|].
        rewrite (queried_fst _ _ Hq). auto.
    - destruct (score_spec _ _ m K s h c H Hs) as (m' & E & Hi & Hq). rewrite E. cbn [bind].
      exists m'. split; [|split; [apply (queried_same _ _ Hq)|]].
      + cbn zeta. do 3 f_equal. fold (labels m). destruct (0 <=? (if c =? 0 then 0 else labels m c)); [|reflexivity].
        apply prob_ext. auto.
      + split; [|exists []; rewrite app_nil_r; auto]. split; [rewrite (sm_syms _ _ (queried_same _ _ Hq)); auto|].
        rewrite (queried_fst _ _ Hq). auto.
    - destruct (extract_spec _ _ m K s h H Hs) as (m' & E & Hi & Hq). rewrite E. cbn [bind].
      exists m'. split; [|split; [apply (queried_same _ _ Hq)|]].
      + do 5 f_equal; [apply norm_ext; auto|]. f_equal. apply map_ext. intros x. apply prob_ext. auto.
      + split; [|exists []; rewrite app_nil_r; auto]. split; [rewrite (sm_syms _ _ (queried_same _ _ Hq)); auto|].
        rewrite (queried_fst _ _ Hq). auto.
    - destruct (update_spec _ _ m K s h cs n H Hs) as (m' & E & Hsm & Hu). rewrite E. cbn [bind].
      exists m'. split; [reflexivity|]. split; auto. unfold labels in Hu.
      destruct (p_static m || (n <=? 0)).
      + destruct Hu as (I1 & I2 & N). split; auto. split; [rewrite (sm_syms _ _ Hsm); auto|]. intros g y. rewrite I2. auto.
      + destruct (learn_ext (p_max_order m) (label_from 1 (p_syms m)) cs K (table K (p_fst m)) C h n HC) as [L1 L2].
        destruct (learn _ _ K (table K (p_fst m)) h cs n) as [K' C'].
        destruct (learn _ _ K C h cs n) as [K'' C'']. cbn [fst snd] in *. subst K''.
        destruct Hu as (I1 & I2 & N). split; auto. split; [rewrite (sm_syms _ _ Hsm); auto|].
        intros g y. rewrite I2. apply L2.
  Qed.

  Lemma tracks_run u : forall ks m K C l K' C', tracks m u K C ->
    ref_run (p_syms m) (p_alpha m) (p_beta m) (p_max_order m) (p_static m) K C ks = Some (l, (K', C')) ->
    exists m', ppm_run m ks = Ok (l, m') /\ same m m' /\ tracks m' u K' C' /\ exists N, K' = K ++ N.
  Proof.
    induction ks as [|k ks IH]; intros m K C l K' C' H E; cbn [ref_run ppm_run] in *.
    - injection E as <- <- <-. exists m. split; [reflexivity|]. split; [apply same_refl|]. split; auto.
      exists []. rewrite app_nil_r; auto.
    - destruct (getZ K (call_state k)) as [h|] eqn:Hs; [|discriminate].
      destruct (tracks_step m u K C k h H Hs) as (m1 & E1 & S1 & H1).
      destruct (ref_next _ _ _ K C h k) as [K1 C1]. destruct H1 as [H1 [N1 HN1]].
      destruct (ref_run _ _ _ _ _ K1 C1 ks) as [[l1 r1]|] eqn:Er; [|discriminate]. injection E as <- E. subst r1.
      rewrite E1. cbn [bind]. destruct S1 as [e1 e2 e3 e4 e5 e6 e7].
      destruct (IH m1 K1 C1 l1 K' C' H1) as (m2 & E2 & S2 & H2 & N2 & HN2).
      { rewrite e2, e3, e4, e5, e6. exact Er. }
      rewrite E2. cbn [bind]. exists m2. split; [reflexivity|]. split; [|split; auto].
      + destruct S2 as [f1 f2 f3 f4 f5 f6 f7]. constructor; congruence.
      + exists (N1 ++ N2). rewrite HN2, HN1, app_assoc. reflexivity.
  Qed.

  Lemma tracks_len m u K C : tracks m u K C -> length K = length (p_fst m).
  Proof. intros [H _]. apply (wf_len _ _ _ _ _ _ _ _ (mi_wf _ _ _ _ _ H)). Qed.

  Lemma run_app ks : forall (m : ppm F) ks', ppm_run m (ks ++ ks') =
    let* (l, m1) := ppm_run m ks in let* (l', m2) := ppm_run m1 ks' in Ok (l ++ l', m2).
  Proof.
    induction ks as [|k ks IH]; intros m ks'; cbn [app ppm_run bind].
    - destruct (ppm_run m ks') as [[l' m2]| | |]; reflexivity.
    - destruct (ppm_call m k) as [[a m1]| | |]; cbn [bind]; auto. rewrite IH.
      destruct (ppm_run m1 ks) as [[l m2]| | |]; cbn [bind]; auto.
      destruct (ppm_run m2 ks') as [[l' m3]| | |]; reflexivity.
  Qed.
  Lemma ref_run_app syms a b mo st ks : forall K (C : @counts F) ks', ref_run syms a b mo st K C (ks ++ ks') =
    match ref_run syms a b mo st K C ks with
    | None => None
    | Some (l, (K1, C1)) =>
        match ref_run syms a b mo st K1 C1 ks' with
        | None => None
        | Some (l', r) => Some (l ++ l', r)
        end
    end.
  Proof.
    induction ks as [|k ks IH]; intros K C ks'; cbn [app ref_run].
    - destruct (ref_run syms a b mo st K C ks') as [[l r]|]; reflexivity.
    - destruct (getZ K (call_state k)) as [h|]; auto. destruct (ref_next _ _ _ K C h k) as [K1 C1]. rewrite IH.
      destruct (ref_run syms a b mo st K1 C1 ks) as [[l [K2 C2]]|]; auto.
      destruct (ref_run syms a b mo st K2 C2 ks') as [[l' r]|]; reflexivity.
  Qed.

  Variable counter : Z -> list (list Z) -> outcome (list (pstate F) * Z).

  Lemma loaded_tracks o m u syms K C : loaded o m u syms K C -> tracks m u K C.
  Proof. intros H. split; [rewrite (ld_syms _ _ _ _ _ _ H); apply (ld_inv _ _ _ _ _ _ H)|apply (ld_counts _ _ _ _ _ _ H)]. Qed.

  Lemma read_loaded o model vocab : readable counter o model vocab ->
    exists m u syms K C, ppm_read counter o model (vocab_file vocab) = Ok m /\
      described o model vocab syms K C /\ loaded o m u syms K C.
  Proof.
    intros [Hv H]. destruct model as [|[[[f start] syms]|]|[lines|]]; try contradiction.
    - destruct vocab as [lines|]; [|elim H; reflexivity]. cbn [vocab_chars] in H.
      destruct (read_vocabulary counter o lines H) as (m & E & Hl).
      exists m, 1, (with_chars [] (concat lines)), [[0]; []], (prior_counts (length (with_chars [] (concat lines)))).
      split; [exact E|]. split; auto. cbn [described vocab_chars]. auto.
    - destruct H as (_ & mo & u & K & Hw).
      destruct (read_fst counter o f start syms K u mo vocab Hv Hw) as (m & E & Hl).
      eexists m, u, _, K, _. split; [exact E|]. split; [|exact Hl]. cbn [described]. split; auto. split; eauto.
    - destruct H as (Hc & Ho & Hne).
      destruct (read_text counter o lines vocab Hc Ho Hne Hv) as (m & u & K & E & HK & Hl).
      eexists m, u, _, K, _. split; [exact E|]. split; [|exact Hl]. cbn [described]. cbn zeta. split; auto.
      split; auto. apply (wf_nodup _ _ _ _ _ _ _ _ (mi_wf _ _ _ _ _ (ld_inv _ _ _ _ _ _ Hl))).
  Qed.

  (** The parameters of a model, whatever is read. *)
  Lemma read_params o model vocab m : ppm_read counter o model vocab = Ok m ->
    p_alpha m = init_alpha o /\ p_beta m = init_beta o /\ p_static m = po_static o /\
    init_order o <= p_max_order m /\
    p_max_cache m = (if init_cache o <? p_max_order m then p_max_order m + 1 else init_cache o) /\
    p_caches m = [].
  Proof.
    rewrite read_unfold. intros H.
    match type of H with bind ?e _ = _ => destruct e as [[[f start] syms]| | |] eqn:E1 end; cbn [bind] in H; try discriminate.
    match type of H with bind ?e _ = _ => destruct e as [[f' syms']| | |] eqn:E2 end; cbn [bind] in H; try discriminate.
    unfold read_end in H. destruct (state_orders start f') as [[orders maxo]| | |]; cbn [bind] in H; try discriminate.
    injection H as <-. cbn [p_alpha p_beta p_static p_max_order p_max_cache p_caches].
    repeat (split; [reflexivity|]). split; [|auto]. destruct (Z.leb_spec (init_order o) maxo); lia.
  Qed.

  (** Calls with state numbers the automaton has. *)
  Definition valid (m : ppm F) (s : Z) : Prop := 0 <= s < Z.of_nat (length (p_fst m)).
  Inductive served (m0 : ppm F) : list call -> list (answer F) -> ppm F -> Prop :=
  | served_none : served m0 [] [] m0
  | served_call ks l m k a m' : served m0 ks l m -> valid m (call_state k) -> ppm_call m k = Ok (a, m') ->
      served m0 (ks ++ [k]) (l ++ [a]) m'.

  Lemma served_tracks m0 u K0 C0 ks l m : tracks m0 u K0 C0 -> served m0 ks l m ->
    exists K C, ref_run (p_syms m0) (p_alpha m0) (p_beta m0) (p_max_order m0) (p_static m0) K0 C0 ks = Some (l, (K, C)) /\
      ppm_run m0 ks = Ok (l, m) /\ same m0 m /\ tracks m u K C /\ exists N, K = K0 ++ N.
  Proof.
    intros H0 Hs. induction Hs as [|ks l m k a m' Hs IH Hv E].
    - exists K0, C0. split; [reflexivity|]. split; [reflexivity|]. split; [apply same_refl|]. split; auto.
      exists []. rewrite app_nil_r; auto.
    - destruct IH as (K & C & Er & Ep & Hsm & Ht & N & HN).
      assert (Hr : exists h, getZ K (call_state k) = Some h).
      { apply getZ_ex. rewrite (tracks_len _ _ _ _ Ht). exact Hv. }
      destruct Hr as [h Hh]. destruct (tracks_step m u K C k h Ht Hh) as (m1 & E1 & S1 & H1).
      rewrite E in E1. injection E1 as -> <-.
      destruct (ref_next (p_syms m) (p_max_order m) (p_static m) K C h k) as [K1 C1] eqn:En.
      destruct H1 as [H1 [N1 HN1]]. exists K1, C1. destruct Hsm as [e1 e2 e3 e4 e5 e6 e7].
      split; [|split; [|split; [|split; [auto|]]]].
      + rewrite ref_run_app, Er. cbn [ref_run]. rewrite Hh, <- e2, <- e3, <- e6, En, <- e4, <- e5. reflexivity.
      + rewrite run_app, Ep. cbn [bind ppm_run]. rewrite E. reflexivity.
      + destruct S1. constructor; congruence.
      + exists (N ++ N1). rewrite HN1, HN, app_assoc. reflexivity.
  Qed.
End Refine.

Section More.
  Context {F : ofield}.
  Variable counter : Z -> list (list Z) -> outcome (list (pstate F) * Z).

  Lemma described_NoDup o model vocab syms K (C : @counts F) : readable counter o model vocab ->
    described o model vocab syms K C -> NoDup syms.
  Proof.
    intros [Hv H] D. destruct model as [|[[[f start] syms0]|]|[lines|]]; try contradiction; cbn [described] in D.
    - destruct D as (-> & _). apply with_chars_NoDup. constructor.
    - destruct D as (-> & _), H as [H _]. apply with_chars_NoDup; auto.
    - destruct D as (-> & _). apply with_chars_NoDup, with_chars_NoDup. constructor.
  Qed.

  (** What the cache size does not influence. *)
  Definition with_cache (o : ppm_options F) (n : Z) : ppm_options F :=
    PpmOptions (po_max_order o) (po_alpha o) (po_beta o) (po_static o) n.
  Definition set_max (m : ppm F) (n : Z) : ppm F :=
    Ppm (p_fst m) (p_start m) (p_syms m) (p_orders m) (p_max_order m) (p_alpha m) (p_beta m) (p_static m) n
        (p_accessed m) (p_cindex m) (p_caches m).
  Lemma read_with_cache o n model vocab m : ppm_read counter o model vocab = Ok m ->
    exists n', ppm_read counter (with_cache o n) model vocab = Ok (set_max m n') /\ p_max_order m <= n'.
  Proof.
    rewrite !read_unfold. intros H. change (init_order (with_cache o n)) with (init_order o).
    match type of H with bind ?e _ = _ => destruct e as [[[f start] syms]| | |] eqn:E1 end; cbn [bind] in *; try discriminate.
    match type of H with bind ?e _ = _ => destruct e as [[f' syms']| | |] eqn:E2 end; cbn [bind] in *; try discriminate.
    unfold read_end in *. destruct (state_orders start f') as [[orders maxo]| | |]; cbn [bind] in *; try discriminate.
    injection H as <-. eexists. split; [reflexivity|]. cbn [p_max_order].
    change (init_order (with_cache o n)) with (init_order o).
    match goal with |- _ <= if ?b then _ else _ => destruct b eqn:E end.
    - lia.
    - apply Z.ltb_ge in E. exact E.
  Qed.
  Lemma tracks_set_max (m : ppm F) u K C n : tracks m u K C -> p_caches m = [] -> 1 <= n -> tracks (set_max m n) u K C.
  Proof. clear counter.
    intros [[] HC] He Hn. split; auto. constructor; auto. destruct mi_c as [[] cv]. constructor.
    - constructor; auto. cbn [set_max p_caches p_max_cache]. rewrite He. cbn [length]. lia.
    - intros s c (i & _ & Hj). cbn [set_max p_caches] in Hj. rewrite He in Hj. unfold getZ in Hj.
      destruct (i <? 0); [discriminate|]. destruct (Z.to_nat i); discriminate.
  Qed.

  Lemma served_run (m0 : ppm F) ks l m : served m0 ks l m -> ppm_run m0 ks = Ok (l, m).
  Proof.
    induction 1 as [|ks l m k a m' Hs IH Hv E]; [reflexivity|]. rewrite run_app, IH. cbn [bind ppm_run]. rewrite E. reflexivity.
  Qed.

  (** Only updates with a positive count matter, and only if the model is not static. *)
  Definition effective (static : bool) (k : call) : bool :=
    match k with CUpdate _ _ n => negb static && (0 <? n) | _ => false end.
  Lemma ref_run_effective syms a b mo st : forall ks K (C : @counts F) l r, ref_run syms a b mo st K C ks = Some (l, r) ->
    exists l', ref_run syms a b mo st K C (filter (effective st) ks) = Some (l', r).
  Proof. clear counter.
    induction ks as [|k ks IH]; intros K C l r E; cbn [filter ref_run] in *.
    - injection E as <- <-. eauto.
    - destruct (getZ K (call_state k)) as [h|] eqn:Hh; [|discriminate].
      destruct (ref_next syms mo st K C h k) as [K1 C1] eqn:En.
      destruct (ref_run syms a b mo st K1 C1 ks) as [[l1 r1]|] eqn:Er; [|discriminate]. injection E as <- <-.
      destruct (effective st k) eqn:Ee.
      + cbn [ref_run]. rewrite Hh, En. destruct (IH _ _ _ _ Er) as [l' ->]. eauto.
      + assert (K1 = K /\ C1 = C) as [-> ->]; [|eapply IH; eauto].
        destruct k as [s c|s c|s|s cs n]; cbn [ref_next effective] in *; try (injection En as <- <-; auto).
        destruct st; cbn [orb negb andb] in *; [injection En as <- <-; auto|].
        destruct (Z.ltb_spec 0 n); [discriminate|]. destruct (Z.leb_spec n 0); [|lia]. injection En as <- <-; auto.
  Qed.
End More.
