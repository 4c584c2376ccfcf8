(** An executable check of the contract [checks_model] (NgramProps.v), and concrete models: the
    hypotheses of C30-C33 are met, and the claims that are false of the code. *)
From Verif Require Import Base Field LmModel LmProofs HubModel HubSpec HubProofs HubTrie HubMix PpmModel
  NgramModel NgramSpec NgramProofs NgramProps.
Local Open Scope Z_scope.

Fixpoint nodupb {A} (eqb : A -> A -> bool) (l : list A) : bool :=
  match l with [] => true | x :: t => negb (existsb (eqb x) t) && nodupb eqb t end.
Lemma nodupb_sound {A} (eqb : A -> A -> bool) (R : forall x, eqb x x = true) (l : list A) :
  nodupb eqb l = true -> NoDup l.
Proof.
  induction l as [|x t IH]; simpl; intros H; constructor; apply andb_prop in H; destruct H as [H1 H2]; auto.
  intros I. apply negb_true_iff in H1. assert (X : existsb (eqb x) t = true)
    by (apply existsb_exists; eauto). congruence.
Qed.
Definition nodup_z : list Z -> bool := nodupb Z.eqb.

Section Check.
  Context {F : ofield}.
  Notation pstate := (@pstate F).
  Notation arc := (@arc F).
  Variable f : list pstate.

  Fixpoint chain_len (fuel : nat) (s : Z) : option nat :=
    match fuel with
    | O => None
    | S n => match vgetZ f s with
             | Ok st => match arc_with 0 (ps_arcs st) with
                        | Some a => option_map S (chain_len n (a_next a))
                        | None => Some O
                        end
             | _ => None
             end
    end.

  Lemma chain_len_mono n : forall s k n', (n <= n')%nat -> chain_len n s = Some k -> chain_len n' s = Some k.
  Proof.
    induction n as [|n IH]; intros s k n' L H; [discriminate|]. destruct n' as [|n']; [lia|].
    cbn [chain_len] in *. destruct (vgetZ f s) as [st| | |]; try discriminate.
    destruct (arc_with 0 (ps_arcs st)) as [a|]; auto.
    destruct (chain_len n (a_next a)) as [k'|] eqn:E; [|discriminate].
    rewrite (IH _ _ n' ltac:(lia) E). auto.
  Qed.

  Definition the_model (start : Z) : ngram F := Ngram f start [] (-1) start.

  Definition state_ok (start s : Z) : bool :=
    match vgetZ f s with
    | Ok st =>
        forallb (fun a => (0 <=? a_label a) && fle f0 (a_count a) && (0 <=? a_next a)
                          && (a_next a <? Z.of_nat (length f))) (ps_arcs st)
        && nodup_z (map a_label (ps_arcs st)) && fle f0 (ps_final st)
        && (match chain_len (S (length f)) s with Some _ => true | None => false end)
        && (match arc_with 0 (ps_arcs st) with
            | None => feqb (fadd (ps_final st) (fsum (map a_count (symbol_arcs st)))) f1
            | Some a =>
                feqb (fadd (fadd (ps_final st) (fsum (map a_count (symbol_arcs st))))
                  (fmul (a_count a)
                    (fsub (fsub f1 (if feqb (ps_final st) f0 then f0 else pf (the_model start) (a_next a) 0))
                          (fsum (map (fun x => pf (the_model start) (a_next a) (a_label x))
                                     (symbol_arcs st)))))) f1
            end)
    | _ => false
    end.

  Definition check_fst (start : Z) : bool :=
    (0 <=? start) && (start <? Z.of_nat (length f)) &&
    forallb (fun i => state_ok start (Z.of_nat i)) (seq 0 (length f)).
End Check.

Lemma check_fst_sound (F : ofield) : checks_model (@check_fst F).
Proof.
  intros f s H. unfold check_fst in H. apply andb_prop in H. destruct H as [H0 H].
  rewrite forallb_forall in H.
  assert (S1 : forall t st, has_state f t st -> state_ok f s t = true).
  { intros t st Ht. pose proof (proj1 (has_state_ex f t) (ex_intro _ st Ht)) as [A B].
    rewrite <- (Z2Nat.id t) by lia. apply H. apply in_seq. lia. }
  assert (S2 : forall t st, has_state f t st ->
    (forall a, In a (ps_arcs st) -> 0 <= a_label a /\ fle f0 (a_count a) = true /\
                 exists st', has_state f (a_next a) st') /\
    NoDup (map a_label (ps_arcs st)) /\ fle f0 (ps_final st) = true /\
    exists k, chain_len f (S (length f)) t = Some k).
  { intros t st Ht. pose proof (S1 t st Ht) as Q. unfold state_ok in Q.
    rewrite (has_state_get _ _ _ Ht) in Q.
    apply andb_prop in Q. destruct Q as [Q _]. apply andb_prop in Q. destruct Q as [Q Q4].
    apply andb_prop in Q. destruct Q as [Q Q3]. apply andb_prop in Q. destruct Q as [Q1 Q2].
    split; [|split; [|split]]; auto.
    - intros a Ha. rewrite forallb_forall in Q1. pose proof (Q1 a Ha) as X.
      apply andb_prop in X. destruct X as [X X4]. apply andb_prop in X. destruct X as [X X3].
      apply andb_prop in X. destruct X as [X1 X2]. split; [lia|]. split; auto.
      apply has_state_ex. lia.
    - eapply nodupb_sound; [|exact Q2]. apply Z.eqb_refl.
    - destruct (chain_len f (S (length f)) t); [eauto|discriminate]. }
  assert (C : canonical f).
  { constructor.
    - intros t st a Ht Ha. destruct (S2 t st Ht) as [X _]. apply X; auto.
    - intros t st Ht. apply (S2 t st Ht).
    - intros t st a Ht Ha. destruct (S2 t st Ht) as [X _]. apply X; auto.
    - intros t st Ht. destruct (S2 t st Ht) as [X [_ [Y _]]]. split; auto. intros a Ha. apply X; auto.
    - exists (fun t => match chain_len f (S (length f)) t with Some k => k | None => O end).
      intros t st g b Ht Hb. destruct (S2 t st Ht) as [_ [N [_ [k E]]]]. rewrite E.
      cbn [chain_len] in E. rewrite (has_state_get _ _ _ Ht) in E.
      rewrite (arc_with_unique 0 (ps_arcs st) (Arc 0 g b) N Hb eq_refl) in E. simpl in E.
      destruct (chain_len f (length f) b) as [k'|] eqn:E2; [|discriminate]. injection E as <-.
      rewrite (chain_len_mono f (length f) b k' (S (length f)) ltac:(lia) E2). lia. }
  split; auto. split.
  - intros t st Ht. pose proof (S1 t st Ht) as Q. unfold state_ok in Q.
    rewrite (has_state_get _ _ _ Ht) in Q. apply andb_prop in Q. destruct Q as [_ Q]. split.
    + intros N. apply arc_with_None in N. rewrite N in Q. apply feqb_eq in Q. auto.
    + intros g b e ps I E FP.
      rewrite (arc_with_unique 0 (ps_arcs st) (Arc 0 g b) (can_labels _ C t st Ht) I eq_refl) in Q.
      cbn [a_count a_next] in Q. apply feqb_eq in Q.
      destruct (can_dest _ C t st _ Ht I) as [stb Hb]. simpl in Hb.
      assert (Ee : e = pf (the_model f s) b 0).
      { eapply end_prob_fun; eauto. apply (pf_end f C (the_model f s) eq_refl b stb Hb). }
      assert (Eps : ps = map (fun x => pf (the_model f s) b (a_label x)) (symbol_arcs st)).
      { assert (PA : forall a, In a (symbol_arcs st) -> 0 < a_label a).
        { intros a Ha. apply symbol_arcs_In in Ha. destruct Ha as [Ha1 Ha2].
          pose proof (can_label_nonneg _ C t st a Ht Ha1). lia. }
        clear Q. induction FP as [|a p l l' Hp FP IH]; auto. simpl. f_equal.
        - eapply symbol_prob_fun; eauto. pose proof (PA a (or_introl eq_refl)).
          apply (pf_sym f C (the_model f s) eq_refl b stb (a_label a) Hb); lia.
        - apply IH. intros a' Ha'. apply PA. right; auto. }
      rewrite Ee, Eps. exact Q.
  - apply has_state_ex. lia.
Qed.

Definition table_okb (tab : list (Z * str)) : bool :=
  match tab with (0, _) :: _ => true | _ => false end
  && nodup_z (map fst tab)
  && nodupb str_eqb (map snd tab)
  && forallb (fun '(x, w) => (0 <? x) && match w with [] => false | _ => true end) (tl tab).

Lemma table_okb_sound tab : table_okb tab = true -> table_ok tab.
Proof.
  unfold table_okb. intros H. apply andb_prop in H. destruct H as [H H4].
  apply andb_prop in H. destruct H as [H H3]. apply andb_prop in H. destruct H as [H1 H2].
  constructor.
  - destruct tab as [|[[| |] e] rest]; try discriminate. eauto.
  - eapply nodupb_sound; [|exact H2]. apply Z.eqb_refl.
  - eapply nodupb_sound; [|exact H3]. apply str_eqb_refl.
  - intros x w I. rewrite forallb_forall in H4. pose proof (H4 _ I) as X. simpl in X.
    apply andb_prop in X. destruct X as [X1 X2]. split; [lia|]. intros ->. discriminate.
Qed.

(** A bigram character model: state 0 is the unigram state, 1 the start, 2 the context "a". *)
Definition ex_states : list (@pstate Qc_field) :=
  [ PState [Arc 1 (q 1 2) 2; Arc 2 (q 1 4) 0] (q 1 4);
    PState [Arc 0 (q 2 3) 0; Arc 1 (q 2 3) 2] (q 0 1);
    PState [Arc 0 (q 1 2) 0; Arc 2 (q 1 2) 0] (q 1 4) ].
Definition ex_syms : list (Z * str) := [(0, [949]); (1, [97]); (2, [98])].
Definition ex_file := FstFile ex_states 1 (Some ex_syms).
Definition ex_model : ngram Qc_field := Ngram ex_states 1 ex_syms (-1) 0.

Example ex_read : ng_read check_fst (Storage (Some (Some ex_file)) None) = Ok ex_model.
Proof. vmr. Qed.
Example ex_loaded : loaded ex_model.
Proof.
  constructor.
  - exists check_fst, (Storage (Some (Some ex_file)) None). split; [apply check_fst_sound|apply ex_read].
  - apply table_okb_sound. vmr.
Qed.
Example ex_covered : forall t st a, has_state (ng_fst ex_model) t st -> In a (symbol_arcs st) ->
  In (a_label a) (map fst (tl (ng_syms ex_model))).
Proof.
  intros t st a [A B] I. simpl in B.
  destruct (Z.to_nat t) as [|[|[|n]]]; simpl in B; try (injection B as <-);
    try (destruct n; discriminate); simpl in I; simpl; intuition (subst; simpl; auto).
Qed.

(** In the context "a": the end of the string is explicit, "a" is reached by backing off. *)
Example C31_example : ng_extract ex_model 2 =
  Ok (LmScores (Val (q 1 1)) [([], Val (q 1 4)); ([97], Val (q 1 4)); ([98], Val (q 1 2))]).
Proof. vmr. Qed.
Example C30_example : (ng_score ex_model 2 97, ng_score ex_model 1 0, ng_score ex_model 1 98) =
  (Ok (q 1 4), Ok (q 1 6), Ok (q 1 6)).
Proof. vmr. Qed.
Example C33_example : (ng_next_state ex_model 2 97, ng_next_state ex_model (-1) 98, ng_next_state ex_model 1 0) =
  (Ok 2, Ok 0, Ok 1).
Proof. vmr. Qed.

(** The claim of C32 for models without <unk> is false: the unknown symbol "z" in the context "a"
    has the finite cost of the back-off arc and, in a model with longer contexts, does not lead to
    the unigram state. *)
Definition tri_states : list (@pstate Qc_field) :=
  [ PState [Arc 1 (q 1 2) 1] (q 1 2);
    PState [Arc 0 (q 1 2) 0; Arc 1 (q 3 4) 2] (q 0 1);
    PState [Arc 0 (q 1 1) 1; Arc 1 (q 3 4) 2] (q 0 1) ].
Definition tri_syms : list (Z * str) := [(0, [949]); (1, [97])].
Definition tri_model : ngram Qc_field := Ngram tri_states 0 tri_syms (-1) 0.
Example tri_loaded : loaded tri_model.
Proof.
  constructor.
  - exists check_fst, (Storage (Some (Some (FstFile tri_states 0 (Some tri_syms)))) None).
    split; [apply check_fst_sound|vmr].
  - apply table_okb_sound. vmr.
Qed.
Theorem C32_unknown_without_unk_refuted :
  exists (m : ngram Qc_field) s c,
    loaded m /\ valid_state m s /\ c <> 0 /\ ~ In [c] (map snd (ng_syms m)) /\
    ~ In [60; 117; 110; 107; 62] (map snd (ng_syms m)) /\
    (exists p, ng_score m s c = Ok p /\ p <> f0) /\
    (exists s', ng_next_state m s c = Ok s' /\ s' <> ng_unigram m).
Proof.
  exists tri_model, 2, 122. split; [exact tri_loaded|].
  split; [unfold valid_state; simpl; lia|]. split; [lia|].
  split; [simpl; intuition discriminate|].
  split; [simpl; intuition discriminate|]. split.
  - exists (q 1 1). split; [vmr|]. intros E. assert (X : feqb (q 1 1) f0 = true) by (apply feqb_eq; exact E).
    vm_compute in X. discriminate.
  - exists 1. split; [vmr|]. simpl. lia.
Qed.
Print Assumptions C32_unknown_without_unk_refuted.

(** With <unk> (label 3). *)
Definition unk_model : ngram Qc_field :=
  Ngram [PState [Arc 1 (q 1 2) 0; Arc 3 (q 1 4) 0] (q 1 4)] 0 [(0, [949]); (1, [97]); (3, unk_symbol)] 3 0.
Example C32_unk_example :
  loaded unk_model /\ ~ In [122] (map snd (ng_syms unk_model)) /\ ng_score unk_model 0 122 = Ok (q 1 4).
Proof.
  split; [constructor|split].
  - exists check_fst, (Storage (Some (Some (FstFile (ng_fst unk_model) 0 None))) (Some (Some (ng_syms unk_model)))).
    split; [apply check_fst_sound|vmr].
  - apply table_okb_sound. vmr.
  - simpl. intuition discriminate.
  - vmr.
Qed.

(** The sibling calls disagree about the state -1 that NextState and ExtractLMScores accept: the
    score of every symbol there is 0, and asking for the end of the string is undefined. *)
Theorem C30_state_minus_one_refuted :
  exists (m : ngram Qc_field) c p, loaded m /\
    (exists sc, ng_extract m (-1) = Ok sc /\ In ([c], Val p) (sc_entries sc)) /\ p <> f0 /\
    ng_score m (-1) c = Ok f0 /\ ng_score m (-1) 0 = UB.
Proof.
  exists ex_model, 97, (q 1 2). split; [exact ex_loaded|]. split; [|split; [|split; vmr]].
  - exists (LmScores (Val (q 1 1)) [([], Val (q 1 4)); ([97], Val (q 1 2)); ([98], Val (q 1 4))]).
    split; [vmr|]. right. left. reflexivity.
  - intros E. assert (X : feqb (q 1 2) f0 = true) by (apply feqb_eq; exact E).
    vm_compute in X. discriminate.
Qed.
Print Assumptions C30_state_minus_one_refuted.

(** * C52 *)

(** A walk over an empty or non-empty context begins in the start state of the model.  False for
    the character n-gram model, which never sets the start state of the base class: it begins in
    state 0 of the automaton, whatever that is. *)
Theorem C52_context_starts_at_start_refuted :
  exists (m : ngram Qc_field), loaded m /\
    context_state (c_next ngram_ops) (c_start ngram_ops m) m [] (-1) = Ok (0, m) /\
    ng_start m <> 0 /\
    (exists p p', ng_score m 0 97 = Ok p /\ ng_score m (ng_start m) 97 = Ok p' /\ p <> p').
Proof.
  exists ex_model. split; [exact ex_loaded|]. split; [reflexivity|]. split; [simpl; lia|].
  exists (q 1 2), (q 2 3). split; [vmr|]. split; [vmr|].
  intros E. assert (X : feqb (q 1 2) (q 2 3) = true) by (apply feqb_eq; exact E).
  vm_compute in X. discriminate.
Qed.
Print Assumptions C52_context_starts_at_start_refuted.
