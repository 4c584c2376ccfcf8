(** Property C64: scoring a whole string with the PPM model (GetSymsVector, GetNegLogProbs). *)
From Verif Require Import Base Field LmModel TextModel HubModel PpmModel PpmSpec PpmReadModel PpmStruct PpmTrainSpec PpmRef PpmVals PpmCache PpmWf PpmUpdate PpmObserve PpmApi PpmRead PpmRead2 PpmTrain PpmRead3 PpmRefine PpmCounter PpmString PpmProps PpmProps2 PpmProps3.
Local Open Scope Z_scope.

(** [ref_string] (PpmString.v) is the reference: from the beginning of a string, each label has its
    probability [prob] (PpmSpec.v) after the history so far, is then observed there unless the model
    is static, and extends the history.  In a model that has answered any calls, scoring any numbers
    does exactly that; afterwards the model answers all calls as the reference machine does from the
    histories and counts it then has. *)
Theorem C64_string_scores :
  forall (F : ofield) counter (o : ppm_options F) model vocab m0 ks l m xs,
  readable counter o model vocab -> ppm_read counter o model (vocab_file vocab) = Ok m0 -> served m0 ks l m ->
  exists K C, agrees counter o model vocab ks l m K C /\
    let '(r, (K', C')) := ref_string (length (p_syms m)) (init_alpha o) (init_beta o) (p_max_order m) (po_static o) K C [0] xs in
    exists m', get_probs m xs = Ok (r, m') /\ stands_for m' K' C' /\
      forall ks' l' m'', served m' ks' l' m'' -> exists kc,
        ref_run (p_syms m) (init_alpha o) (init_beta o) (p_max_order m) (po_static o) K' C' ks' = Some (l', kc).
Proof.
  intros F counter o model vocab m0 ks l m xs Hr E Hs.
  destruct (setup counter o model vocab m0 ks l m Hr E Hs) as (u & K & C & Ht & Ha & Hsm & Hnd & Ea & Eb & Est).
  exists K, C. split; auto.
  pose proof (wf_start _ _ _ _ _ _ _ _ (mi_wf _ _ _ _ _ (proj1 Ht))) as Hst.
  destruct (string_spec u xs m K C (p_start m) [0] Ht Hst) as (m' & E' & S' & T'). rewrite Ea, Eb, Est in E', T'.
  destruct (ref_string _ _ _ _ _ K C [0] xs) as [r [K' C']]. cbn [fst snd] in *. destruct T' as [T' _].
  exists m'. split; [exact E'|]. split; [eapply tracks_stands; eauto|]. intros ks' l' m'' Hs'.
  destruct (served_tracks m' u K' C' ks' l' m'' T' Hs') as (K2 & C2 & Er & _). exists (K2, C2).
  rewrite (sm_syms _ _ S'), (sm_alpha _ _ S'), (sm_beta _ _ S'), (sm_mo _ _ S'), (sm_static _ _ S'), Ea, Eb, Est in Er. exact Er.
Qed.
Print Assumptions C64_string_scores.

(** Every string of labels (0 the end of string, then the vocabulary) has as many scores as labels; a
    string with any other number is an error. *)
Theorem C64_defined :
  forall (F : ofield) counter (o : ppm_options F) model vocab m0 ks l m xs,
  readable counter o model vocab -> ppm_read counter o model (vocab_file vocab) = Ok m0 -> served m0 ks l m ->
  exists r m', get_probs m xs = Ok (r, m') /\
    ((forall x, In x xs -> 0 <= x <= Z.of_nat (length (p_syms m))) -> exists ps, r = Some ps /\ length ps = length xs) /\
    ((exists x, In x xs /\ ~ 0 <= x <= Z.of_nat (length (p_syms m))) -> r = None).
Proof.
  intros F counter o model vocab m0 ks l m xs Hr E Hs.
  destruct (setup counter o model vocab m0 ks l m Hr E Hs) as (u & K & C & Ht & Ha & Hsm & Hnd & Ea & Eb & Est).
  pose proof (wf_start _ _ _ _ _ _ _ _ (mi_wf _ _ _ _ _ (proj1 Ht))) as Hst.
  destruct (string_spec u xs m K C (p_start m) [0] Ht Hst) as (m' & E' & _).
  eexists _, m'. split; [exact E'|]. split.
  - intros Hx. apply ref_string_ok. exact Hx.
  - intros (x & Hin & Hx). eapply ref_string_bad; eauto.
Qed.
Print Assumptions C64_defined.

(** The probabilities of all strings of n labels, for any n, add up to one - also in a model that learns
    while it scores. *)
Theorem C64_chain_rule :
  forall (F : ofield) counter (o : ppm_options F) model vocab m0 ks l m n,
  readable counter o model vocab -> ppm_read counter o model (vocab_file vocab) = Ok m0 -> served m0 ks l m ->
  fsum (map (fun xs => match get_probs m xs with Ok (Some ps, _) => fprod ps | _ => f0 end)
    (all_strings (length (p_syms m)) n)) = f1.
Proof.
  intros F counter o model vocab m0 ks l m n Hr E Hs.
  destruct (setup counter o model vocab m0 ks l m Hr E Hs) as (u & K & C & Ht & Ha & Hsm & Hnd & Ea & Eb & Est).
  pose proof (wf_start _ _ _ _ _ _ _ _ (mi_wf _ _ _ _ _ (proj1 Ht))) as Hst.
  rewrite <- (chain_rule u n m K C (p_start m) [0] Ht Hst). f_equal. apply map_ext. intros xs.
  destruct (string_spec u xs m K C (p_start m) [0] Ht Hst) as (m' & E' & _). unfold get_probs. rewrite E'.
  destruct (fst (ref_string _ _ _ _ _ K C [0] xs)); reflexivity.
Qed.
Print Assumptions C64_chain_rule.

(** The labels of a string of code points: each is the position of the code point in the vocabulary,
    counted from 1; a string with any other code point is an error. *)
Theorem C64_symbols :
  forall (F : ofield) counter (o : ppm_options F) model vocab m0 ks l m cs,
  readable counter o model vocab -> ppm_read counter o model (vocab_file vocab) = Ok m0 -> served m0 ks l m ->
  match get_syms_vector m cs with
  | Some xs => Forall2 (fun c x => 1 <= x /\ nth_error (p_syms m) (Z.to_nat (x - 1)) = Some c) cs xs
  | None => exists c, In c cs /\ ~ In c (p_syms m)
  end.
Proof.
  intros F counter o model vocab m0 ks l m cs Hr E Hs. rewrite syms_vector_spec.
  destruct (forallb (fun c => 0 <? label_from 1 (p_syms m) c) cs) eqn:A.
  - rewrite forallb_forall in A. clear -A. induction cs as [|c t IH]; cbn [map]; constructor.
    + specialize (A c (or_introl eq_refl)). apply Z.ltb_lt in A.
      assert (G : forall l i, 1 <= i -> 0 < label_from i l c -> i <= label_from i l c /\ nth_error l (Z.to_nat (label_from i l c - i)) = Some c).
      { induction l as [|d l IHl]; intros i Hi; cbn [label_from]; [lia|]. destruct (Z.eqb_spec d c) as [->|N].
        - intros _. split; [lia|]. replace (i - i) with 0 by lia. reflexivity.
        - intros H. destruct (IHl (i + 1)) as [G1 G2]; [lia|auto|]. split; [lia|].
          replace (label_from (i + 1) l c - i) with (Z.succ (label_from (i + 1) l c - (i + 1))) by lia.
          rewrite Z2Nat.inj_succ by lia. exact G2. }
      apply G; auto. lia.
    + apply IH. intros y Hy. apply A. right; auto.
  - assert (X : exists c, In c cs /\ (0 <? label_from 1 (p_syms m) c) = false).
    { clear -A. induction cs as [|c t IH]; [discriminate|]. cbn [forallb] in A. apply andb_false_iff in A.
      destruct A as [A|A]; [exists c; split; [left|]; auto|]. destruct (IH A) as (c' & I & N). exists c'. split; [right|]; auto. }
    destruct X as (c & I & N). exists c. split; auto. intros H. apply (label_from_pos _ 1) in H; [|lia]. apply Z.ltb_ge in N. lia.
Qed.
Print Assumptions C64_symbols.

(** A model that is not static learns from scoring a string what it learns from being told it once at
    the start state; a static one learns nothing: all calls from then on are answered the same. *)
Theorem C64_scoring_learns :
  forall (F : ofield) counter (o : ppm_options F) model vocab m0 ks l m cs xs r m1 m2,
  readable counter o model vocab -> ppm_read counter o model (vocab_file vocab) = Ok m0 -> served m0 ks l m ->
  (forall c, In c cs -> 0 < c) -> get_syms_vector m cs = Some xs -> get_probs m xs = Ok (r, m1) ->
  m2 = m /\ po_static o = true \/ ppm_update m (p_start m) cs 1 = Ok (true, m2) ->
  forall ks' l' m1', served m1 ks' l' m1' -> exists m2', served m2 ks' l' m2'.
Proof.
  intros F counter o model vocab m0 ks l m cs xs r m1 m2 Hr E Hs Hc Ex Ep H2.
  destruct (setup counter o model vocab m0 ks l m Hr E Hs) as (u & K & C & Ht & Ha & Hsm & Hnd & Ea & Eb & Est).
  pose proof (wf_start _ _ _ _ _ _ _ _ (mi_wf _ _ _ _ _ (proj1 Ht))) as Hst.
  destruct (string_spec u xs m K C (p_start m) [0] Ht Hst) as (m1b & E1 & S1 & T1).
  unfold get_probs in Ep. rewrite Ep in E1. injection E1 as _ <-.
  assert (St : p_static m = true -> m2 = m).
  { intros Hst'. destruct H2 as [[-> _]|H2]; auto. unfold ppm_update in H2. rewrite Hst' in H2. cbn [orb] in H2. injection H2 as <-. auto. }
  destruct (p_static m) eqn:Es.
  - rewrite (St eq_refl) in *. rewrite ref_string_static in T1. destruct T1 as [T1 _].
    eapply tracks_alike; [exact T1|exact Ht|auto|]. destruct S1. constructor; congruence.
  - destruct H2 as [[_ H2]|H2]; [congruence|].
    destruct (tracks_step m u K C (CUpdate (p_start m) cs 1) [0] Ht Hst) as (m2b & E2 & S2 & T2).
    cbn [ppm_call ref_next] in E2, T2. rewrite H2 in E2. cbn [bind] in E2. injection E2 as <-. rewrite Es in T2. cbn [orb Z.leb Z.compare] in T2.
    rewrite syms_vector_spec in Ex. destruct (forallb (fun c => 0 <? label_from 1 (p_syms m) c) cs) eqn:A; [|discriminate]. injection Ex as <-.
    rewrite forallb_forall in A.
    destruct (ref_string_learn (length (p_syms m)) (p_alpha m) (p_beta m) (p_max_order m) (label_from 1 (p_syms m)) cs) with (K := K) (C := C) (h := [0]) as [L1 L2].
    { intros c Hin. split; auto. specialize (A c Hin). apply Z.ltb_lt in A. split; auto.
      destruct (label_range (p_syms m) 1 c) as [X|X]; lia. }
    destruct (ref_string _ _ _ _ false K C [0] _) as [r1 [K1 C1]]. destruct (learn _ _ K C [0] cs 1) as [K2 C2].
    cbn [fst snd] in *. subst K2. destruct T1 as [T1 _]. destruct T2 as [T2 _].
    eapply tracks_alike; [exact T1|exact T2|exact L2|]. destruct S1, S2. constructor; congruence.
Qed.
Print Assumptions C64_scoring_learns.

(** "bab" scored in a static and in a learning model (the examples C21_C24_example and C21_C23_example of
    PpmProps3.v continue it with the end of string); the 27 strings of three labels add up to one. *)
Example C64_example :
  (let* m := qread (test_options false) test_text None in Ok (get_syms_vector m [98; 97; 98], get_syms_vector m [98; 99])) = Ok (Some [2; 1; 2], None) /\
  (let* m := qread (test_options true) test_text None in let* (r, _) := get_probs m [2; 1; 2] in Ok r) = Ok (Some [q 1 8; q 1 2; q 1 2]) /\
  (let* m := qread (test_options false) test_text None in let* (r, _) := get_probs m [2; 1; 2] in Ok r) = Ok (Some [q 1 8; q 41 90; q 173 330]) /\
  (let* m := qread (test_options false) test_text None in let* (r, _) := get_probs m [2; 3] in Ok r) = Ok None /\
  (let* m := qread (test_options false) test_text None in
   Ok (length (all_strings (length (p_syms m)) 3),
       fsum (map (fun xs => match get_probs m xs with Ok (Some ps, _) => fprod ps | _ => f0 end) (all_strings (length (p_syms m)) 3)))) = Ok (27%nat, q 1 1).
Proof. repeat split; vmr. Qed.
