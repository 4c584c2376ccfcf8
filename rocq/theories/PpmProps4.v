(** Properties C50 and C51: training a PPM model; writing it and reading the file back.

    [readable], [ppm_read], [served]: see PpmProps.v. [write_fst m] (PpmReadModel.v) is the model
    after WriteFst and the content of the file it writes. *)
From Coq Require Import Field Permutation.
From Verif Require Import Base Field LmModel TextModel HubModel PpmModel PpmSpec PpmReadModel PpmStruct PpmTrainSpec PpmRef PpmVals PpmCache PpmWf PpmUpdate PpmObserve PpmApi PpmRead PpmRead2 PpmTrain PpmRead3 PpmRefine PpmCounter PpmProps PpmProps3.
Local Open Scope Z_scope.

(** * C50: training *)

(** The count of x after h in a model of order n trained from the strings, with V symbols: at full
    length, or if h reaches back to the beginning of the string, how often x occurred after h; for
    the other histories, how many different symbols c came before h when x occurred after h (update
    exclusion). The empty history counts one more for each symbol. *)
Definition taught (n : Z) (V : nat) (strings : list (list Z)) (h : history) (x : Z) : Z :=
  (if (Z.of_nat (length h) + 1 =? n) || (match h with c :: _ => c =? 0 | [] => false end)
   then occurrences strings h x
   else Z.of_nat (length (filter (fun c => 0 <? occurrences strings (c :: h) x) (symbols V))))
  + (match h with [] => 1 | _ => 0 end).

Lemma taught_ok n V strings K h x : (forall s x, In s strings -> In x s -> 1 <= x <= Z.of_nat V) ->
  NoDup K -> (forall h, In h K <-> context n strings h) -> In h K -> 0 <= x <= Z.of_nat V -> 2 <= n ->
  trained_counts V strings K h x = taught n V strings h x.
Proof.
  intros Hl Hn HK Hh Hx H2. unfold trained_counts, taught.
  rewrite (proj2 (mem_In K h) Hh). pose proof (proj1 (HK h) Hh) as [Hlen (p & y & Hp & Hsuf)].
  assert (Epr : (if hist_eqb h [] && (0 <=? x) && (x <=? Z.of_nat V) then 1 else 0) = match h with [] => 1 | _ => 0 end).
  { destruct h as [|c h]; [|rewrite hist_eqb_neq by discriminate; reflexivity]. rewrite hist_eqb_refl.
    destruct (Z.leb_spec 0 x), (Z.leb_spec x (Z.of_nat V)); try lia. reflexivity. }
  rewrite Epr. f_equal.
  destruct (event_head V strings Hl p y Hp) as (t & Ep & Ht).
  assert (Hc : forall c g, suffix (c :: g) p -> 0 <= c <= Z.of_nat V).
  { intros c g (q & Eq). assert (Hin : In c p) by (rewrite Eq; apply in_app_iff; right; left; auto).
    unfold events in Hp. apply in_flat_map in Hp. destruct Hp as (s & Hs & Hp).
    apply events_from_history in Hp. destruct Hp as (t' & E' & Hi). rewrite E' in Hin.
    destruct Hin as [<-|Hin]; [lia|]. specialize (Hl s c Hs (Hi c Hin)). lia. }
  destruct (Z.eqb_spec (Z.of_nat (length h) + 1) n) as [En|En]; cbn [orb].
  - replace (existsb (longer h) K) with false; [reflexivity|]. symmetry.
    destruct (existsb (longer h) K) eqn:Ee; auto. exfalso. apply existsb_exists in Ee. destruct Ee as (g & Hg & Eg).
    destruct g as [|c g]; [discriminate|]. cbn [longer] in Eg. apply hist_eqb_eq in Eg. subst g.
    apply HK in Hg. destruct Hg as [Hg _]. cbn [length] in Hg. lia.
  - assert (Hstart : (match h with c :: _ => c =? 0 | [] => false end) = true -> existsb (longer h) K = false).
    { destruct h as [|c0 h]; [discriminate|]. intros E0. apply Z.eqb_eq in E0. subst c0.
      destruct (existsb (longer (0 :: h)) K) eqn:Ee; auto. exfalso. apply existsb_exists in Ee. destruct Ee as (g & Hg & Eg).
      destruct g as [|c g]; [discriminate|]. cbn [longer] in Eg. apply hist_eqb_eq in Eg. subst g.
      apply HK in Hg. destruct Hg as (_ & p' & y' & Hp' & (q & Eq)).
      destruct (event_head V strings Hl p' y' Hp') as (t' & Ep' & Ht'). rewrite Ep' in Eq.
      apply Ht'. destruct q as [|d q].
      - cbn [app] in Eq. injection Eq as _ Eq. rewrite Eq. left; auto.
      - cbn [app] in Eq. injection Eq as _ Eq. rewrite Eq. apply in_app_iff. right. right. left. auto. }
    destruct (match h with c :: _ => c =? 0 | [] => false end) eqn:Eh.
    + rewrite (Hstart eq_refl). reflexivity.
    + replace (existsb (longer h) K) with true.
      2: { symmetry. apply existsb_exists. destruct Hsuf as (q & Eq). destruct q as [|d q0] eqn:Edq.
        - cbn [app] in Eq. rewrite <- Eq in Eh. rewrite Ep in Eh. discriminate.
        - destruct (@exists_last _ (d :: q0)) as (q1 & c & Eq1); [discriminate|].
          exists (c :: h). cbn [longer]. rewrite hist_eqb_refl. split; auto. apply HK. split; [cbn [length]; lia|].
          exists p, y. split; auto. exists q1. rewrite Eq, Eq1, <- app_assoc. reflexivity. }
      f_equal. rewrite <- (map_length (fun c => c :: h)). apply Permutation_length. apply NoDup_Permutation.
      * apply NoDup_filter. auto.
      * apply FinFun.Injective_map_NoDup; [intros a b [= ->]; reflexivity|]. apply NoDup_filter, symbols_NoDup.
      * intros g. rewrite filter_In, in_map_iff. split.
        -- intros [Hg Eg]. apply andb_true_iff in Eg. destruct Eg as [Eg Eo].
           destruct g as [|c g]; [discriminate|]. cbn [longer] in Eg. apply hist_eqb_eq in Eg. subst g.
           exists c. split; auto. apply filter_In. split; [|exact Eo]. apply symbols_In.
           apply HK in Hg. destruct Hg as (_ & p' & y' & Hp' & (q & Eq)).
           assert (Hin : In c p') by (rewrite Eq; apply in_app_iff; right; left; auto).
           unfold events in Hp'. apply in_flat_map in Hp'. destruct Hp' as (s & Hs & Hp').
           apply events_from_history in Hp'. destruct Hp' as (t' & E' & Hi). rewrite E' in Hin.
           destruct Hin as [<-|Hin]; [lia|]. specialize (Hl s c Hs (Hi c Hin)). lia.
        -- intros (c & <- & Hin). apply filter_In in Hin. destruct Hin as [_ Eo]. cbn [longer].
           rewrite hist_eqb_refl, Eo. split; auto. apply HK. split; [cbn [length]; lia|].
           apply Z.ltb_lt, occ_pos in Eo. destruct Eo as (p' & Hp' & Hs'). eauto.
Qed.

(** A model trained from the lines of a text with at least one character, order 2 or more: labels
    1..V stand for the characters in order of first occurrence; there is one state for each string
    of fewer than n labels after which something occurred (0 stands for the beginning of a line),
    and none else; a state's count for a symbol (0: the end of the line) is as defined above. *)
Theorem C50_training_counts :
  forall (F : ofield) counter (o : ppm_options F) lines,
  counter_contract counter -> 2 <= init_order o -> concat lines <> [] ->
  let syms := with_chars [] (concat lines) in
  let strings := strings_of syms lines in
  exists m K, ppm_read counter o (TextModel (Some lines)) None = Ok m /\ p_syms m = syms /\
    length K = length (p_fst m) /\ NoDup K /\
    (forall h, In h K <-> context (init_order o) strings h) /\ getZ K (p_start m) = Some [0] /\
    forall s h st, getZ K s = Some h -> getZ (p_fst m) s = Some st ->
      ps_final st = ofZ (taught (init_order o) (length syms) strings h 0) /\
      forall x, 1 <= x <= Z.of_nat (length syms) ->
        match find (fun a => a_label a =? x) (ps_arcs st) with Some a => a_count a | None => f0 end =
        ofZ (taught (init_order o) (length syms) strings h x).
Proof.
  intros F counter o lines Hcon Hn Hne syms strings.
  destruct (read_text counter o lines None Hcon Hn Hne ltac:(discriminate)) as (m & u & K & E & HK & Hl).
  fold syms in HK, Hl. fold strings in HK, Hl. cbn [vocab_chars with_chars] in Hl.
  exists m, K. split; [exact E|]. split; [apply (ld_syms _ _ _ _ _ _ Hl)|].
  destruct (tracks_stands _ _ _ _ (loaded_tracks _ _ _ _ _ _ Hl)) as (S1 & S2 & S3 & S4 & S5 & S6).
  split; [exact S2|]. split; [exact S1|]. split; [exact HK|]. split; [exact S3|].
  assert (Hlab : forall s x, In s strings -> In x s -> 1 <= x <= Z.of_nat (length syms)).
  { intros s x Hs Hx. unfold strings, strings_of in Hs. apply in_map_iff in Hs. destruct Hs as (line & <- & Hline).
    apply filter_In in Hline. destruct Hline as [Hline _]. apply in_map_iff in Hx. destruct Hx as (c & <- & Hc).
    assert (Hin : In c syms) by (apply with_chars_In; right; apply in_concat; eauto).
    clear -Hin. assert (G : forall l i, In c l -> i <= label_from i l c < i + Z.of_nat (length l)).
    { induction l as [|d t IH]; intros i H; [destruct H|]. cbn [label_from length]. destruct (Z.eqb_spec d c); [lia|].
      destruct H as [H|H]; [congruence|]. specialize (IH (i + 1) H). lia. }
    specialize (G syms 1 Hin). lia. }
  intros s h st Hs Hst. pose proof (getZ_In _ _ _ Hs) as Hin. destruct (S5 s h st Hs Hst) as [F0 Fx].
  assert (G : forall x, 0 <= x <= Z.of_nat (length syms) -> taught (init_order o) (length syms) strings h x =
    trained_counts (length syms) strings K h x) by (intros x Hx; symmetry; apply taught_ok; auto).
  split.
  - rewrite G by lia. rewrite <- F0, add_sym_same. reflexivity.
  - intros x Hx. rewrite G by lia. rewrite <- Fx by lia. rewrite add_sym_same. reflexivity.
Qed.
Print Assumptions C50_training_counts.

(** "aabaab" and "abab" at order 3 ('a' is 1, 'b' is 2): the histories "aa" and "ab" after which "b"
    and "a" occurred, the beginning, and "a", which "b" followed after "a", "b" and the beginning. *)
Example C50_example :
  let strings := [[1; 1; 2; 1; 1; 2]; [1; 2; 1; 2]] in
  map (taught 3 2 strings [1; 1]) [0; 1; 2] = [0; 0; 2] /\
  map (taught 3 2 strings [1; 2]) [0; 1; 2] = [2; 2; 0] /\
  map (taught 3 2 strings [0]) [0; 1; 2] = [0; 2; 0] /\
  map (taught 3 2 strings [1]) [0; 1; 2] = [0; 2; 3] /\
  map (taught 3 2 strings []) [0; 1; 2] = [2; 4; 2] /\
  (let* m := qread (test_options false) test_text None in Ok (map (@ps_final _) (p_fst m))) =
    Ok (map (fun h => ofZ (taught 3 2 strings h 0)) [[1; 1]; [0]; [0; 1]; [2; 1]; [1]; [1; 2]; [2]; []]).
Proof. repeat split; vmr. Qed.

(** * C51: writing and reading *)

Section Written.
  Context {F : ofield}.
  Notation none := (fun _ : Z => False).
  Definition sort1 (p : Z * pstate F) : Z * pstate F := (fst p, sorted (snd p)).

  Section OneAutomaton.
    Variables (V : nat) (beta : car F) (mo start u : Z) (f : list (pstate F)) (ctx : list history).
    Hypothesis Hw : wf V beta mo start u none f ctx.

    Lemma chain_sorted s l : chain f s l -> chain (sort_states f) s (map sort1 l).
    Proof.
      assert (G : forall s st, getZ f s = Some st ->
        (exists S b rest, ps_arcs st = Arc 0 S b :: rest /\ ps_arcs (sorted st) = Arc 0 S b :: arc_sort rest) \/
        (forall a, In a (ps_arcs st) -> a_label a <> 0)).
      { intros s0 st Hst. pose proof (getZ_range _ _ _ Hst) as Hr. rewrite <- (wf_len _ _ _ _ _ _ _ _ Hw) in Hr.
        destruct (getZ_ex ctx s0 Hr) as [[|c h] Hs].
        - right. pose proof (getZ_nodup _ _ _ _ (wf_nodup _ _ _ _ _ _ _ _ Hw) Hs (wf_u _ _ _ _ _ _ _ _ Hw)) as ->.
          intros a Ha. apply (proj1 (wf_uni _ _ _ _ _ _ _ _ Hw _ Hst)) in Ha. lia.
        - left. destruct (wf_state _ _ _ _ _ _ _ _ Hw s0 st c h Hst Hs) as (S & b & rest & Ha & _ & G & _).
          exists S, b, rest. split; auto. cbn [sorted ps_arcs]. rewrite Ha. apply sorted_eps.
          intros a Hin. apply (proj2 G) in Hin. lia. }
      intros H. induction H as [s st a t Hg Ha Hl|s st S b t l Hg Ha Hc IH]; cbn [map sort1 fst snd].
      - destruct (G s st Hg) as [(S & b & rest & E & _)|G'].
        + rewrite Ha in E. injection E as -> ->. elim Hl. reflexivity.
        + destruct (ps_arcs (sorted st)) as [|a' t'] eqn:Es.
          * pose proof (arc_sort_perm (ps_arcs st)) as Hp. cbn [sorted ps_arcs] in Es. rewrite Es, Ha in Hp.
            apply Permutation_nil in Hp. discriminate.
          * apply (chain_end _ s (sorted st) a' t'); [rewrite sort_states_get, Hg; reflexivity|exact Es|]. apply G'.
            eapply Permutation_in; [apply arc_sort_perm|]. cbn [sorted ps_arcs] in Es. rewrite Es. left; reflexivity.
      - destruct (G s st Hg) as [(S0 & b0 & rest & E & E')|G'].
        + rewrite Ha in E. injection E as <- <- <-. apply (chain_step _ s (sorted st) S b (arc_sort t)); [rewrite sort_states_get, Hg; reflexivity|exact E'|exact IH].
        + elim (G' (Arc 0 S b)); [rewrite Ha; left; reflexivity|reflexivity].
    Qed.

    Lemma cvals_sorted alpha s l : chain f s l ->
      cvals V alpha beta start (map sort1 l) = cvals V alpha beta start l.
    Proof.
      intros Hc. pose proof (chain_states_ok _ _ _ Hc) as Hall. clear Hc.
      assert (C1 : forall d st x, In (d, st) l -> count (sorted st) x = count st x)
        by (intros; eapply count_sorted; eauto).
      assert (C2 : forall d st x, In (d, st) l -> sdest start (sorted st) x = sdest start st x).
      { intros d st x Hin. unfold sdest. destruct (x =? 0); [reflexivity|]. cbn [sorted ps_arcs].
        rewrite (find_arc_perm (arc_sort (ps_arcs st)) (ps_arcs st)); [reflexivity| |apply arc_sort_perm].
        eapply Permutation_NoDup; [apply Permutation_map, Permutation_sym, arc_sort_perm|].
        eapply wf_nodup_labels; eauto. }
      assert (C3 : forall d st, In (d, st) l -> stotal V (sorted st) = stotal V st /\ skinds V (sorted st) = skinds V st).
      { intros d st Hin. unfold stotal, skinds. split.
        - f_equal. apply map_ext. intros x. eauto.
        - do 2 f_equal. apply filter_ext. intros x. erewrite C1; eauto. }
      clear Hall.
      assert (G : (forall x, corigin (map sort1 l) x = corigin l x) /\
                  (forall x, cdest start (map sort1 l) x = cdest start l x) /\
                  (forall x, cprob V alpha beta (map sort1 l) x = cprob V alpha beta l x) /\
                  cnorm V alpha (map sort1 l) = cnorm V alpha l).
      { induction l as [|[s0 st] t IH]; [repeat split|].
        destruct IH as (I1 & I2 & I3 & I4); [intros; eapply C1; right; eauto|intros; eapply C2; right; eauto|
          intros; eapply C3; right; eauto|].
        destruct (C3 s0 st (or_introl eq_refl)) as [T1 T2].
        assert (T3 := fun x => C1 s0 st x (or_introl eq_refl)). assert (T4 := fun x => C2 s0 st x (or_introl eq_refl)).
        destruct t as [|p t].
        - cbn [map sort1 fst snd corigin cdest cprob cnorm]. rewrite T1. repeat split; intros; rewrite ?T3, ?T4; reflexivity.
        - change (map sort1 ((s0, st) :: p :: t)) with ((s0, sorted st) :: map sort1 (p :: t)) in *.
          change (map sort1 (p :: t)) with (sort1 p :: map sort1 t) in *.
          set (L := sort1 p :: map sort1 t) in *.
          assert (EL : exists q L', L = q :: L') by (unfold L; eauto). destruct EL as (q & L' & EL). clearbody L. subst L.
          repeat split; intros; cbn [corigin cdest cprob cnorm] in *; rewrite ?T1, ?T2, ?T3, ?T4, ?I1, ?I2, ?I3, ?I4; reflexivity. }
      destruct G as (G1 & G2 & G3 & G4). unfold cvals. rewrite G4. f_equal; apply map_ext; auto.
    Qed.
  End OneAutomaton.

  Lemma minv_sorted u (m : ppm F) K : inv (length (p_syms m)) u m K ->
    inv (length (p_syms m)) u (set_fst m (sort_states (p_fst m))) K.
  Proof.
    intros []. constructor; auto; cbn [set_fst p_fst p_beta p_max_order p_start p_syms p_static p_orders p_alpha].
    - apply sort_wf. exact mi_wf.
    - destruct mi_c as [[] cv]. constructor.
      + constructor; auto. cbn [set_fst p_cindex p_fst]. unfold sort_states. rewrite map_length. auto.
      + intros s c He. change (entry m s c) in He.
        assert (Hm : forall l : list (Z * pstate F), map fst (map sort1 l) = map fst l).
        { intros l. rewrite map_map. reflexivity. }
        destruct (cv s c He) as [(l & Hc & Ev)|[(d & cd & (p & l & Hc & Hin) & Hd & U & A)|(d & [] & _)]].
        * left. exists (map sort1 l). split; [eapply chain_sorted; eauto|].
          cbn [set_fst p_alpha p_beta p_start]. rewrite Ev. symmetry. eapply cvals_sorted; eauto.
        * right; left. exists d, cd. split; [|auto]. exists (sort1 p), (map sort1 l).
          split; [apply (chain_sorted _ _ _ _ _ _ _ mi_wf _ _ Hc)|]. rewrite Hm. auto.
  Qed.
  Lemma tracks_sorted (m : ppm F) u K C : tracks m u K C -> tracks (set_fst m (sort_states (p_fst m))) u K C.
  Proof.
    intros [Hi HC]. split; [exact (minv_sorted u m K Hi)|]. intros h x. cbn [set_fst p_fst].
    rewrite (table_sorted _ _ _ _ _ _ _ _ _ _ (mi_wf _ _ _ _ _ Hi)). auto.
  Qed.
End Written.

(** The automaton the file holds is in the format Read expects. *)
Theorem C51_file_is_readable :
  forall (F : ofield) counter (o : ppm_options F) model vocab m0 ks l m,
  readable counter o model vocab -> ppm_read counter o model (vocab_file vocab) = Ok m0 -> served m0 ks l m ->
  readable counter o (FstModel (Some (snd (write_fst m)))) None.
Proof.
  intros F counter o model vocab m0 ks l m Hr E Hs.
  destruct (setup counter o model vocab m0 ks l m Hr E Hs) as (u & K & C & [Hi HC] & Ha & Hsm & Hnd & Ea & Eb & Est).
  split; [discriminate|]. cbn [write_fst snd set_fst p_fst p_start p_syms]. split; auto.
  exists (p_max_order m), u, K. rewrite <- Eb. apply sort_wf. apply (mi_wf _ _ _ _ _ Hi).
Qed.
Print Assumptions C51_file_is_readable.

(** After any history of calls, write the model to a file. Reading that file with the same options
    and no vocabulary succeeds, and from then on the model that was read answers any calls exactly
    as the model that was written would have answered them: the same states, the same scores, and
    the same answers after further updates. Nor does writing change the answers of the model that is
    written. *)
Theorem C51_write_then_read :
  forall (F : ofield) counter (o : ppm_options F) model vocab m0 ks l m,
  readable counter o model vocab -> ppm_read counter o model (vocab_file vocab) = Ok m0 -> served m0 ks l m ->
  let (m', file) := write_fst m in
  exists m2, ppm_read counter o (FstModel (Some file)) None = Ok m2 /\
    p_start m2 = p_start m /\ p_syms m2 = p_syms m /\ length (p_fst m2) = length (p_fst m) /\
    p_max_order m2 = p_max_order m /\
    forall ks1 l1 m1, served m ks1 l1 m1 ->
      (exists m1', served m' ks1 l1 m1') /\ (exists m3, served m2 ks1 l1 m3).
Proof.
  intros F counter o model vocab m0 ks l m Hr E Hs.
  destruct (setup counter o model vocab m0 ks l m Hr E Hs) as (u & K & C & Ht & Ha & Hsm & Hnd & Ea & Eb & Est).
  pose proof (tracks_sorted _ _ _ _ Ht) as Ht'. cbn [write_fst].
  set (m' := set_fst m (sort_states (p_fst m))) in *.
  pose proof Ht as [Hi HC]. pose proof (mi_wf _ _ _ _ _ Hi) as Hw. pose proof Ht' as [Hi' HC'].
  pose proof (mi_wf _ _ _ _ _ Hi') as Hw'. cbn [m' set_fst p_beta p_start] in Hw'. rewrite Eb in Hw'.
  destruct (read_fst counter o (p_fst m') (p_start m') (p_syms m') K u (p_max_order m') None ltac:(discriminate) Hw')
    as (m2 & E2 & Hl2). cbn [vocab_chars with_chars] in Hl2.
  pose proof (loaded_tracks _ _ _ _ _ _ Hl2) as Ht2. destruct Hl2 as [i1 i2 i3 i4 i5 i6 i7 i8 i9].
  assert (Em : p_max_order m2 = p_max_order m).
  { rewrite i7. destruct Ha as (m0' & K0 & C0 & _ & _ & _ & Eo & _ & _ & (N & HN) & _).
    assert (B : fold_right Z.max 0 (map (fun h : history => Z.of_nat (length h)) K) <= p_max_order m - 1).
    { apply (max_len_le (F := F) counter); [|intros h Hh; apply In_getZ in Hh; destruct Hh as [s Hh]].
      - pose proof (wf_ord _ _ _ _ _ _ _ _ Hw _ _ (wf_start _ _ _ _ _ _ _ _ Hw)) as Z0. cbn [length] in Z0. lia.
      - pose proof (wf_ord _ _ _ _ _ _ _ _ Hw _ _ Hh). lia. }
    assert (B' : fold_right Z.max 0 (map (fun h : history => Z.of_nat (length h)) K0) <=
                 fold_right Z.max 0 (map (fun h : history => Z.of_nat (length h)) K)).
    { apply (max_len_le (F := F) counter).
      - clear. induction K as [|g t IH]; cbn [map fold_right]; lia.
      - intros h Hh. apply (max_len_ge (F := F) counter). rewrite HN. apply in_app_iff; auto. }
    unfold history in *. lia. }
  assert (Est2 : p_start m2 = p_start m).
  { assert (G : getZ K (p_start m2) = Some [0]) by apply (wf_start _ _ _ _ _ _ _ _ (mi_wf _ _ _ _ _ i1)).
    eapply getZ_nodup; [apply (wf_nodup _ _ _ _ _ _ _ _ Hw)|exact G|apply (wf_start _ _ _ _ _ _ _ _ Hw)]. }
  exists m2. split; [exact E2|]. split; [exact Est2|]. split; [rewrite i3; reflexivity|].
  split; [rewrite <- (tracks_len _ _ _ _ Ht2), (tracks_len _ _ _ _ Ht); reflexivity|]. split; [exact Em|].
  (* any model that tracks the same counts with the same parameters *)
  assert (Sim : forall n : ppm F, tracks n u K C -> p_syms n = p_syms m -> p_alpha n = p_alpha m -> p_beta n = p_beta m ->
    p_max_order n = p_max_order m -> p_static n = p_static m ->
    forall ks1 l1 m1, served m ks1 l1 m1 -> exists n1, served n ks1 l1 n1 /\ exists K1 C1, tracks m1 u K1 C1 /\ tracks n1 u K1 C1 /\ same n n1 /\ same m m1).
  { intros n Hn e1 e2 e3 e4 e5 ks1 l1 m1 Hs1. induction Hs1 as [|ks1 l1 m1 k a m1' Hs1 IH Hv Ek].
    - exists n. split; [constructor|]. exists K, C. split; [exact Ht|]. split; [exact Hn|]. split; apply same_refl.
    - destruct IH as (n1 & Hn1 & K1 & C1 & T1 & T2 & S1 & S2).
      assert (Hh : exists h, getZ K1 (call_state k) = Some h).
      { apply getZ_ex. rewrite (tracks_len _ _ _ _ T1). exact Hv. }
      destruct Hh as [h Hh].
      destruct (tracks_step m1 u K1 C1 k h T1 Hh) as (ma & Ea1 & Sa & Ta).
      destruct (tracks_step n1 u K1 C1 k h T2 Hh) as (na & Ea2 & Sb & Tb).
      rewrite Ek in Ea1. injection Ea1 as Ea0 <-.
      assert (P : p_syms n1 = p_syms m1 /\ p_alpha n1 = p_alpha m1 /\ p_beta n1 = p_beta m1 /\
                  p_max_order n1 = p_max_order m1 /\ p_static n1 = p_static m1)
        by (destruct S1, S2; repeat split; congruence).
      destruct P as (q1 & q2 & q3 & q4 & q5). rewrite q1, q2, q3 in Ea2. rewrite q1, q4, q5 in Tb.
      exists na. split.
      + econstructor; [exact Hn1| |rewrite Ea0; exact Ea2].
        unfold valid in *. rewrite <- (tracks_len _ _ _ _ T2), (tracks_len _ _ _ _ T1). exact Hv.
      + destruct (ref_next _ _ _ K1 C1 h k) as [K2 C2]. exists K2, C2. split; [apply Ta|]. split; [apply Tb|].
        split; eapply same_trans; eauto. }
  intros ks1 l1 m1 Hs1. split.
  - destruct (Sim m' Ht' eq_refl eq_refl eq_refl eq_refl eq_refl ks1 l1 m1 Hs1) as (n1 & H & _). eauto.
  - assert (Ht2' : tracks m2 u K C).
    { destruct Ht2 as [T1 T2]. split; auto. intros h x. rewrite T2, add_sym_same. apply HC'. }
    destruct (Sim m2 Ht2') with (ks1 := ks1) (l1 := l1) (m1 := m1) as (n1 & H & _); eauto; try congruence.
Qed.
Print Assumptions C51_write_then_read.

(** A model over "ab" learns "b", "a" and "ba" from the start, so that its arcs are out of order; it is
    written and read back; the model that was read answers as the one that was written. *)
Definition labels_of (f : list (pstate Qc_field)) : list (list Z) := map (fun st => map (@a_label _) (ps_arcs st)) f.
Definition learned : outcome (ppm Qc_field) :=
  let* m0 := qread (PpmOptions 3 (q 1 2) (q 3 4) false 0) NoModel (Some (Some [[97]; [98]])) in
  let* (_, m) := ppm_run m0 [CUpdate 0 [98] 1; CUpdate 0 [97] 1; CUpdate 0 [98; 97] 2; CExtract 3] in Ok m.
Definition again : outcome (ppm Qc_field) :=
  let* m := learned in
  qread (PpmOptions 3 (q 1 2) (q 3 4) false 0) (FstModel (Some (snd (write_fst m)))) None.
Definition later : list call := [CNext 0 98; CUpdate 0 [97; 98] 1; CScore 0 97; CNext 3 98; CScore 3 97].
Example C51_example :
  (let* m := learned in Ok (labels_of (p_fst m))) =
    Ok [[0; 2; 1]; [1; 2]; [0; 1]; [0; 1]; [0]; [0]; [0]] /\
  (let* m := again in Ok (labels_of (p_fst m))) =
    Ok [[0; 1; 2]; [1; 2]; [0; 1]; [0; 1]; [0]; [0]; [0]] /\
  run_all learned later = Ok [ANext 3; AUpdate true; AScore (q 59 154); ANext 2; AScore (q 16 21)] /\
  run_all again later = Ok [ANext 3; AUpdate true; AScore (q 59 154); ANext 2; AScore (q 16 21)].
Proof. repeat split; vmr. Qed.
