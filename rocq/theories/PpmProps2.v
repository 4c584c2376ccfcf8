(** Properties C24-C29: the PPM model, continued (see PpmProps.v for the vocabulary). *)
From Verif Require Import Base Field LmModel TextModel HubModel PpmModel PpmSpec PpmReadModel PpmStruct PpmTrainSpec PpmRef PpmVals PpmCache PpmWf PpmUpdate PpmObserve PpmApi PpmRead PpmRead2 PpmTrain PpmRead3 PpmRefine PpmCounter PpmProps.
Local Open Scope Z_scope.

(** * C25: the cache is transparent *)

(** Two copies of a model, possibly read with different cache sizes, are asked different calls, in
    particular different queries in different orders, but the same effective updates (those with a
    positive count, if the model is not static) in the same order. Then any further call, on any
    state one of them has, is answered the same by both. *)
Theorem C25_cache_is_transparent :
  forall (F : ofield) counter (o : ppm_options F) size model vocab m0 m0' ks l m ks' l' m' k,
  readable counter o model vocab ->
  ppm_read counter o model (vocab_file vocab) = Ok m0 ->
  ppm_read counter (with_cache o size) model (vocab_file vocab) = Ok m0' ->
  served m0 ks l m -> served m0' ks' l' m' ->
  filter (effective (po_static o)) ks = filter (effective (po_static o)) ks' ->
  valid m (call_state k) ->
  exists a m1 m1', ppm_call m k = Ok (a, m1) /\ ppm_call m' k = Ok (a, m1').
Proof.
  intros F counter o size model vocab m0 m0' ks l m ks' l' m' k Hr E E' Hs Hs' Heff Hv.
  destruct (read_loaded counter o model vocab Hr) as (m0b & u & syms & K0 & C0 & Eb & Hd & Hl).
  rewrite E in Eb. injection Eb as <-. pose proof (loaded_tracks _ _ _ _ _ _ Hl) as Ht.
  destruct (read_with_cache counter o size model (vocab_file vocab) m0 E) as (n' & Eb & Hn').
  rewrite E' in Eb. injection Eb as ->.
  assert (H2 : 2 <= p_max_order m0).
  { destruct Hl as [_ _ _ _ _ _ e7 _ _]. lia. }
  assert (Ht' : tracks (set_max m0 n') u K0 C0).
  { apply tracks_set_max; auto; [apply (ld_empty _ _ _ _ _ _ Hl)|lia]. }
  destruct (served_tracks _ u K0 C0 ks l m Ht Hs) as (K & C & Er & _ & S1 & T1 & _).
  destruct (served_tracks _ u K0 C0 ks' l' m' Ht' Hs') as (K' & C' & Er' & _ & S2 & T2 & _).
  assert (Est : p_static m0 = po_static o) by apply (ld_static _ _ _ _ _ _ Hl).
  cbn [set_max p_syms p_alpha p_beta p_max_order p_static] in Er'.
  destruct (ref_run_effective _ _ _ _ _ _ _ _ _ _ Er) as [l1 X1].
  destruct (ref_run_effective _ _ _ _ _ _ _ _ _ _ Er') as [l2 X2].
  rewrite Est, Heff in X1. rewrite Est in X2. rewrite X1 in X2. injection X2 as _ <- <-.
  assert (Hh : exists h, getZ K (call_state k) = Some h) by (apply getZ_ex; rewrite (tracks_len _ _ _ _ T1); exact Hv).
  destruct Hh as [h Hh].
  destruct (tracks_step m u K C k h T1 Hh) as (m1 & E1 & _).
  destruct (tracks_step m' u K C k h T2 Hh) as (m2 & E2 & _).
  destruct S1 as [e1 e2 e3 e4 e5 e6 e7], S2 as [g1 g2 g3 g4 g5 g6 g7].
  cbn [set_max p_syms p_alpha p_beta p_max_order p_static p_start p_max_cache] in *.
  rewrite e2, e4, e5 in E1. rewrite g2, g4, g5 in E2. eauto.
Qed.
Print Assumptions C25_cache_is_transparent.

(** * C24: static models *)

(** After any calls, a static model answers any call as it did when it was read, and updates
    succeed; so it does if the calls only were updates with a count that is not positive. *)
Theorem C24_static_model_never_changes :
  forall (F : ofield) counter (o : ppm_options F) model vocab m0 ks l m k,
  readable counter o model vocab ->
  ppm_read counter o model (vocab_file vocab) = Ok m0 -> served m0 ks l m ->
  po_static o = true \/ (forall s cs n, In (CUpdate s cs n) ks -> n <= 0) ->
  valid m0 (call_state k) ->
  exists a m1 m2, ppm_call m k = Ok (a, m1) /\ ppm_call m0 k = Ok (a, m2) /\
    (is_query k = false -> a = AUpdate true).
Proof.
  intros F counter o model vocab m0 ks l m k Hr E Hs Hst Hv.
  assert (E' : ppm_read counter (with_cache o (po_max_cache o)) model (vocab_file vocab) = Ok m0).
  { destruct o. exact E. }
  assert (Hf : filter (effective (po_static o)) ks = []).
  { assert (G : forall ks0, incl ks0 ks -> filter (effective (po_static o)) ks0 = []); [|apply G; apply incl_refl].
    induction ks0 as [|k0 t IH]; intros Hi; [reflexivity|]. cbn [filter].
    assert (effective (po_static o) k0 = false) as ->; [|apply IH; intros x Hx; apply Hi; right; auto].
    destruct k0 as [s c|s c|s|s cs n]; auto. cbn [effective]. destruct Hst as [->|Hst]; [reflexivity|].
    specialize (Hst s cs n ltac:(apply Hi; left; auto)). destruct (Z.ltb_spec 0 n); [lia|]. apply andb_false_r. }
  destruct (C25_cache_is_transparent F counter o (po_max_cache o) model vocab m0 m0 [] [] m0 ks l m k Hr E E') as (a & m1 & m2 & A1 & A2); auto.
  { constructor. }
  exists a, m2, m1. split; auto. split; auto. intros Hq. destruct k as [s c|s c|s|s cs n]; try discriminate.
  destruct (read_loaded counter o model vocab Hr) as (m0b & u & syms & K0 & C0 & Eb & Hd & Hl).
  rewrite E in Eb. injection Eb as <-. pose proof (loaded_tracks _ _ _ _ _ _ Hl) as Ht.
  assert (Hh : exists h, getZ K0 s = Some h) by (apply getZ_ex; rewrite (tracks_len _ _ _ _ Ht); exact Hv).
  destruct Hh as [h Hh]. destruct (tracks_step m0 u K0 C0 (CUpdate s cs n) h Ht Hh) as (m3 & E3 & _).
  rewrite A1 in E3. injection E3 as -> _. reflexivity.
Qed.
Print Assumptions C24_static_model_never_changes.

(** * C26: the cache is bounded *)

(** The size configured is used if it is larger than the order configured (and an int), 2000
    otherwise; if the order of the model turns out to be larger than that, one more than the order of
    the model. At no time are more states than that in the cache; no state is there twice; all of
    them are states of the model. *)
Theorem C26_cache_is_bounded :
  forall (F : ofield) counter (o : ppm_options F) model vocab m0 ks l m,
  readable counter o model vocab -> ppm_read counter o model (vocab_file vocab) = Ok m0 -> served m0 ks l m ->
  Z.of_nat (length (p_caches m)) <= p_max_cache m /\
  NoDup (map (@pc_state F) (p_caches m)) /\
  (forall c, In c (p_caches m) -> valid m (pc_state c)) /\
  (0 < init_order o -> po_max_cache o < 2147483648 ->
   let size := if init_order o <? po_max_cache o then po_max_cache o else 2000 in
   p_max_cache m = if size <? p_max_order m then p_max_order m + 1 else size).
Proof.
  intros F counter o model vocab m0 ks l m Hr E Hs.
  destruct (setup counter o model vocab m0 ks l m Hr E Hs) as (u & K & C & [Hi HC] & Ha & Hsm & Hnd & Ea & Eb & Est).
  destruct (mi_c _ _ _ _ _ Hi) as [Hsi _]. destruct Hsi as [S1 S2 S3 S4 S5].
  split; [apply S2|]. split; [|split].
  - apply (NoDup_nth_error (map (@pc_state F) (p_caches m))). intros i j Hij Heq.
    rewrite map_length in Hij. rewrite !nth_error_map in Heq.
    destruct (nth_error (p_caches m) i) as [ci|] eqn:Ei; [|apply nth_error_None in Ei; lia].
    destruct (nth_error (p_caches m) j) as [cj|] eqn:Ej; [|discriminate]. cbn [option_map] in Heq.
    injection Heq as Heq. rewrite <- (getZ_nat (p_caches m) i) in Ei. rewrite <- (getZ_nat (p_caches m) j) in Ej.
    apply S3 in Ei. apply S3 in Ej. rewrite Heq in Ei. rewrite Ei in Ej. injection Ej as Ej. lia.
  - intros c Hc. apply In_getZ in Hc. destruct Hc as [j Hj]. apply S3, getZ_range in Hj. unfold valid. lia.
  - intros Ho Hc size. destruct (read_params counter o model (vocab_file vocab) m0 E) as (_ & _ & _ & _ & Emc & _).
    rewrite (sm_max _ _ Hsm), (sm_mo _ _ Hsm), Emc. unfold init_cache, size.
    destruct (Z.ltb_spec (init_order o) (po_max_cache o)); [|reflexivity].
    unfold narrow32. rewrite Z.mod_small by lia.
    replace (po_max_cache o + 2147483648 - 2147483648) with (po_max_cache o) by lia. reflexivity.
Qed.
Print Assumptions C26_cache_is_bounded.

(** * C27: calls on live states succeed; the order is respected *)

Theorem C27_calls_succeed :
  forall (F : ofield) counter (o : ppm_options F) model vocab m0 ks l m,
  readable counter o model vocab -> ppm_read counter o model (vocab_file vocab) = Ok m0 -> served m0 ks l m ->
  valid m (p_start m) /\
  forall k, valid m (call_state k) -> exists a m', ppm_call m k = Ok (a, m') /\
    (forall s, valid m s -> valid m' s) /\
    match k with
    | CNext _ _ => exists s', a = ANext s' /\ valid m' s'
    | CScore _ _ => exists p, a = AScore p /\ fle f0 p = true /\ fle p f1 = true
    | CExtract _ => exists r, a = AExtract (Some r)
    | CUpdate _ _ _ => a = AUpdate true
    end.
Proof.
  intros F counter o model vocab m0 ks l m Hr E Hs.
  destruct (setup counter o model vocab m0 ks l m Hr E Hs) as (u & K & C & Ht & Ha & Hsm & Hnd & Ea & Eb & Est).
  pose proof (mi_wf _ _ _ _ _ (proj1 Ht)) as Hw.
  assert (Hval : forall s h, getZ K s = Some h -> valid m s).
  { intros s h Hh. apply getZ_range in Hh. rewrite (tracks_len _ _ _ _ Ht) in Hh. exact Hh. }
  split; [eapply Hval, (wf_start _ _ _ _ _ _ _ _ Hw)|]. intros k Hv.
  assert (Hh : exists h, getZ K (call_state k) = Some h) by (apply getZ_ex; rewrite (tracks_len _ _ _ _ Ht); exact Hv).
  destruct Hh as [h Hh]. destruct (tracks_step m u K C k h Ht Hh) as (m' & E' & S' & HT).
  eexists _, m'. split; [exact E'|].
  assert (Hmono : forall K1 C1, tracks m' u K1 C1 -> (exists N, K1 = K ++ N) -> forall s, valid m s -> valid m' s).
  { intros K1 C1 T1 [N ->] s Hs0. unfold valid in *. rewrite <- (tracks_len _ _ _ _ T1), app_length.
    rewrite <- (tracks_len _ _ _ _ Ht) in Hs0. lia. }
  destruct (ref_next (p_syms m) (p_max_order m) (p_static m) K C h k) as [K1 C1] eqn:En.
  destruct HT as [HT HN]. split; [eapply Hmono; eauto|].
  destruct k as [s c|s c|s|s cs n]; cbn [ref_answer ref_next] in *.
  - eexists. split; [reflexivity|]. injection En as <- <-. eapply Hmono; eauto.
    assert (Hin : In (next_history K h (label_from 1 (p_syms m) c)) K).
    { assert (Hn0 : In [] K) by (eapply getZ_In, (wf_u _ _ _ _ _ _ _ _ Hw)).
      unfold next_history. destruct (0 <? label_from 1 (p_syms m) c); auto.
      destruct (longest_In K (h ++ [label_from 1 (p_syms m) c])) as [G|[_ G]]; [auto|contradiction]. }
    apply In_getZ in Hin. destruct Hin as [s' Hs'].
    rewrite (index_from_getZ K 0 _ s' (wf_nodup _ _ _ _ _ _ _ _ Hw) Hs'). eapply Hval; eauto.
  - eexists. split; [reflexivity|].
    set (x := if c =? 0 then 0 else label_from 1 (p_syms m) c).
    destruct (Z.leb_spec 0 x) as [Hx|Hx].
    + destruct (tracks_prob m u K C h Ht (getZ_In _ _ _ Hh)) as [Pp Ps].
      assert (Hxs : In x (symbols (length (p_syms m)))).
      { apply symbols_In. unfold x in *. destruct (c =? 0); [lia|]. destruct (label_range (p_syms m) 1 c); lia. }
      split; [apply flt_le, Pp; auto|]. rewrite <- Ps.
      apply fsum_ge_elem.
      * intros y Hy. apply in_map_iff in Hy. destruct Hy as (z & <- & Hz). apply flt_le, Pp; auto.
      * apply in_map; auto.
    + split; [apply fle_refl|apply flt_le, f1_pos].
  - eexists. reflexivity.
  - reflexivity.
Qed.
Print Assumptions C27_calls_succeed.

Theorem C27_order_is_bounded :
  forall (F : ofield) counter (o : ppm_options F) model vocab m0 ks l m,
  readable counter o model vocab -> ppm_read counter o model (vocab_file vocab) = Ok m0 -> served m0 ks l m ->
  exists K C, agrees counter o model vocab ks l m K C /\
    (forall h, In h K -> Z.of_nat (length h) < p_max_order m) /\ p_max_order m = p_max_order m0 /\
    init_order o <= p_max_order m.
Proof.
  intros F counter o model vocab m0 ks l m Hr E Hs.
  destruct (setup counter o model vocab m0 ks l m Hr E Hs) as (u & K & C & Ht & Ha & Hsm & Hnd & Ea & Eb & Est).
  exists K, C. split; auto. split; [|split; [apply (sm_mo _ _ Hsm)|]].
  - intros h Hh. apply In_getZ in Hh. destruct Hh as [s Hh].
    eapply (wf_ord _ _ _ _ _ _ _ _ (mi_wf _ _ _ _ _ (proj1 Ht))); eauto.
  - rewrite (sm_mo _ _ Hsm). apply (read_params counter o model (vocab_file vocab) m0 E).
Qed.
Print Assumptions C27_order_is_bounded.

(** * C28: NextState *)

(** In the state that stands for h, the i-th symbol of the vocabulary leads to the state of the
    longest suffix of h followed by the symbol that has a state, any other character to the state of
    the empty history. *)
Theorem C28_next_state_is_longest_suffix :
  forall (F : ofield) counter (o : ppm_options F) model vocab m0 ks l m,
  readable counter o model vocab -> ppm_read counter o model (vocab_file vocab) = Ok m0 -> served m0 ks l m ->
  exists K C, agrees counter o model vocab ks l m K C /\
    forall s h, getZ K s = Some h ->
      (forall c i, nth_error (p_syms m) i = Some c ->
         exists s' m' g, ppm_next m s c = Ok (s', m') /\ getZ K s' = Some g /\
           suffix g (h ++ [Z.of_nat i + 1]) /\
           forall g', In g' K -> suffix g' (h ++ [Z.of_nat i + 1]) -> (length g' <= length g)%nat) /\
      (forall c, ~ In c (p_syms m) -> exists s' m', ppm_next m s c = Ok (s', m') /\ getZ K s' = Some []).
Proof.
  intros F counter o model vocab m0 ks l m Hr E Hs.
  destruct (setup counter o model vocab m0 ks l m Hr E Hs) as (u & K & C & Ht & Ha & Hsm & Hnd & Ea & Eb & Est).
  exists K, C. split; auto. intros s h Hh. destruct Ht as [Hi HC].
  assert (L1 : forall l i k c, NoDup l -> nth_error l i = Some c -> label_from k l c = k + Z.of_nat i).
  { induction l0 as [|d t IH]; intros i k c Hn Hc; [destruct i; discriminate|]. cbn [label_from].
    inversion Hn as [|? ? Hd Hn']; subst. destruct i as [|i]; cbn [nth_error] in Hc.
    - injection Hc as ->. rewrite Z.eqb_refl. lia.
    - destruct (Z.eqb_spec d c) as [->|]; [elim Hd; eapply nth_error_In; eauto|]. rewrite (IH i) by auto. lia. }
  assert (L2 : forall l k c, ~ In c l -> label_from k l c = -1).
  { induction l0 as [|d t IH]; intros k c Hc; [reflexivity|]. cbn [label_from].
    destruct (Z.eqb_spec d c) as [->|]; [elim Hc; left; auto|]. apply IH. intros K0; apply Hc; right; auto. }
  split.
  - intros c i Hc. destruct (next_spec _ _ m K s h c Hi Hh) as (m' & s' & E' & _ & _ & Hs').
    unfold labels, next_history in Hs'. rewrite (L1 _ i) in Hs' by auto.
    destruct (Z.ltb_spec 0 (1 + Z.of_nat i)); [|lia]. rewrite (Z.add_comm 1) in Hs'.
    exists s', m'. eexists. split; [exact E'|]. split; [exact Hs'|]. split; [apply longest_suffix|].
    intros g' Hg Hsuf. apply longest_ge; auto.
  - intros c Hc. destruct (next_spec _ _ m K s h c Hi Hh) as (m' & s' & E' & _ & _ & Hs').
    unfold labels, next_history in Hs'. rewrite L2 in Hs' by auto. eauto.
Qed.
Print Assumptions C28_next_state_is_longest_suffix.

(** * C29: parameters *)

(** Whatever is read, whatever the options: the parameters are in range, options in range are kept,
    others are replaced by 0.5, 0.75 and 4. *)
Theorem C29_parameters_in_range :
  forall (F : ofield) counter (o : ppm_options F) model vocab m,
  ppm_read counter o model vocab = Ok m ->
  flt f0 (p_alpha m) = true /\ flt (p_alpha m) f1 = true /\
  flt f0 (p_beta m) = true /\ flt (p_beta m) f1 = true /\
  0 < p_max_order m /\ p_max_order m <= p_max_cache m /\
  p_alpha m = (if flt f0 (po_alpha o) && flt (po_alpha o) f1 then po_alpha o else fdiv f1 (ofZ 2)) /\
  p_beta m = (if flt f0 (po_beta o) && flt (po_beta o) f1 then po_beta o else fdiv (ofZ 3) (ofZ 4)) /\
  (if 0 <? po_max_order o then po_max_order o else 4) <= p_max_order m.
Proof.
  intros F counter o model vocab m E.
  destruct (read_params counter o model vocab m E) as (Ea & Eb & _ & Eo & Ec & _).
  destruct (init_alpha_ok o) as [A1 A2]. destruct (init_beta_ok o) as [B1 B2]. pose proof (init_order_ok o) as O1.
  rewrite Ea, Eb. repeat (split; [assumption|]). split; [lia|].
  split; [rewrite Ec; destruct (Z.ltb_spec (init_cache o) (p_max_order m)); lia|].
  split; [|split].
  - unfold init_alpha, k_alpha, flt. destruct (fle (po_alpha o) f0), (fle f1 (po_alpha o)); reflexivity.
  - unfold init_beta, k_beta, flt. destruct (fle (po_beta o) f0), (fle f1 (po_beta o)); reflexivity.
  - exact Eo.
Qed.
Print Assumptions C29_parameters_in_range.

(** The size of the cache, for every size asked for (an int64): what is asked for if that is more than the order asked
    for, otherwise 2000; kept in an int, so that only the last 32 bits of a larger number count (n below); and one more
    than the order of the model if that is larger. *)
Theorem C29_cache_size :
  forall (F : ofield) counter (o : ppm_options F) model vocab m,
  ppm_read counter o model vocab = Ok m ->
  let order := if 0 <? po_max_order o then po_max_order o else 4 in
  forall n, - 2 ^ 31 <= n < 2 ^ 31 -> (2 ^ 32 | po_max_cache o - n) ->
  let size := if order <? po_max_cache o then n else 2000 in
  p_max_cache m = if size <? p_max_order m then p_max_order m + 1 else size.
Proof.
  intros F counter o model vocab m E order n Hn [q Hq] size.
  destruct (read_params counter o model vocab m E) as (_ & _ & _ & _ & Ec & _). rewrite Ec.
  replace (init_cache o) with size; [reflexivity|]. unfold size, order, init_cache, init_order, k_max_order, k_max_cache.
  destruct (_ <? po_max_cache o); [|reflexivity]. unfold narrow32.
  replace (po_max_cache o + 2147483648) with (n + 2147483648 + q * 4294967296) by lia.
  rewrite Z.mod_add, Z.mod_small by lia. lia.
Qed.
Print Assumptions C29_cache_size.
Example C29_cache_size_met : let n := 5 - 2 ^ 31 in - 2 ^ 31 <= n < 2 ^ 31 /\ (2 ^ 32 | (2 ^ 31 + 5) - n).
Proof. split; [lia|]. exists 1. reflexivity. Qed.
