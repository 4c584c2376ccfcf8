(** C49: relabelling with code points.  The specification is the handful of definitions just
    below; [new_label m] is the label a label is replaced with. *)
From Coq Require Import String.
From Verif Require Import Base RelabelModel RelabelProofs.
Local Open Scope Z_scope.

Section Spec.
  Variable decode : string -> option Z.
  Variable keep : list string.
  Variable syms : symtab.

  (** A symbol table: labels and symbols are unique. *)
  Definition table_ok : Prop := NoDup (map fst syms) /\ NoDup (map snd syms).
  (** Symbols to be relabelled and symbols to be kept (label 0 is epsilon). *)
  Definition to_relabel (l : Z) (s : string) : Prop := In (l, s) syms /\ l <> 0 /\ ~ In s keep.
  Definition to_keep (l : Z) (s : string) : Prop := In (l, s) syms /\ l <> 0 /\ In s keep.
  (** [z] is the code point of some symbol to be relabelled. *)
  Definition is_codepoint (z : Z) : Prop :=
    exists l s, to_relabel l s /\ decode s = Some z.
  (** The kept labels in the way of a code point. *)
  Definition in_the_way (ks : list Z) : Prop :=
    NoDup ks /\ forall l, In l ks <-> (exists s, to_keep l s) /\ is_codepoint l.
End Spec.

Section Thms.
  Variable decode : string -> option Z.
  Variable keep : list string.

  Lemma in_normal syms l s : In (l, s) (normal keep syms) <-> to_relabel keep syms l s.
  Proof.
    unfold normal, to_relabel. rewrite filter_In. cbn. rewrite andb_true_iff, !negb_true_iff.
    rewrite Z.eqb_neq, <- not_true_iff_false, in_strings_In. tauto.
  Qed.
  Lemma in_kept syms l s : In (l, s) (kept keep syms) <-> to_keep keep syms l s.
  Proof.
    unfold kept, to_keep. rewrite filter_In. cbn. rewrite andb_true_iff, negb_true_iff.
    rewrite Z.eqb_neq, in_strings_In. tauto.
  Qed.

  Lemma codes_are syms mc :
    Forall2 (fun e p => fst e = fst p /\ decode (snd e) = Some (snd p)) (normal keep syms) mc ->
    map fst mc = map fst (normal keep syms) /\
    (forall l c, In (l, c) mc <-> exists s, to_relabel keep syms l s /\ decode s = Some c) /\
    (forall z, In z (map snd mc) <-> is_codepoint decode keep syms z).
  Proof.
    intro F.
    assert (A : map fst mc = map fst (normal keep syms)).
    { induction F as [|e p n mc [E _] _ IH]; [reflexivity|]. cbn. congruence. }
    assert (B : forall l c, In (l, c) mc <->
              exists s, In (l, s) (normal keep syms) /\ decode s = Some c).
    { clear A. induction F as [|[l1 s1] [l2 c2] n mc [E D] _ IH]; intros l c.
      - split; [intros []|intros (s & [] & _)].
      - cbn in E, D. subst l2. split.
        + intros [H|H].
          * injection H as <- <-. exists s1. split; [left; reflexivity|exact D].
          * apply IH in H. destruct H as (s & H & H'). exists s. split; [right; exact H|exact H'].
        + intros (s & [H|H] & H').
          * injection H as <- <-. left. congruence.
          * right. apply IH. exists s. auto. }
    assert (C : forall l c, In (l, c) mc <->
              exists s, to_relabel keep syms l s /\ decode s = Some c).
    { intros l c. rewrite B. split; intros (s & H & H'); exists s; split; auto;
        apply in_normal; exact H. }
    split; [exact A|]. split; [exact C|].
    intro z. rewrite in_map_iff. unfold is_codepoint. split.
    - intros ([l c] & E & H). cbn in E. subst. apply C in H.
      destruct H as (s & H). exists l, s. exact H.
    - intros (l & s & H). exists (l, z). split; [reflexivity|]. apply C. exists s. exact H.
  Qed.

  Lemma collisions_in_the_way syms mc : table_ok syms ->
    Forall2 (fun e p => fst e = fst p /\ decode (snd e) = Some (snd p)) (normal keep syms) mc ->
    in_the_way decode keep syms (collisions keep (map snd mc) syms).
  Proof.
    intros [N _] F. destruct (codes_are syms mc F) as (_ & _ & C). split.
    - unfold collisions. apply NoDup_filter. apply filter_NoDup. exact N.
    - intro l. unfold collisions. rewrite filter_In, inZ_In, C. split.
      + intros [H H']. split; [|exact H']. apply in_map_iff in H.
        destruct H as ([l' s] & E & H). cbn in E. subst. exists s. apply in_kept. exact H.
      + intros [(s & H) H']. split; [|exact H']. apply in_map_iff. exists (l, s).
        split; [reflexivity|]. apply in_kept. exact H.
  Qed.

  Lemma label_unique (syms : symtab) l s s' : NoDup (map fst syms) -> In (l, s) syms -> In (l, s') syms -> s = s'.
  Proof.
    induction syms as [|[l1 s1] syms IH]; [intros _ []|].
    cbn. intros N H H'. inversion N as [|? ? N1 N2]; subst.
    assert (G : forall t, In (l1, t) syms -> False).
    { intros t Ht. apply N1. apply in_map_iff. exists (l1, t). auto. }
    destruct H as [H|H], H' as [H'|H'].
    - congruence.
    - injection H as <- <-. exfalso. eauto.
    - injection H' as <- <-. exfalso. eauto.
    - auto.
  Qed.

  Lemma combine_fst {A B} (a : list A) (b : list B) : (length a <= length b)%nat ->
    map fst (combine a b) = a.
  Proof.
    revert b; induction a as [|x a IH]; intros [|y b] H; cbn in *; try reflexivity; try lia.
    f_equal. apply IH. lia.
  Qed.

  Lemma mapping_facts syms m : table_ok syms -> codepoint_mapping decode keep syms = Ok m ->
    exists mc ks,
      Forall2 (fun e p => fst e = fst p /\ decode (snd e) = Some (snd p)) (normal keep syms) mc /\
      in_the_way decode keep syms ks /\ (length ks <= 27)%nat /\
      m = (mc ++ combine ks (firstn (length ks) allowed_withheld))%list /\
      NoDup (map fst m) /\
      map fst m = (map fst (normal keep syms) ++ ks)%list.
  Proof.
    intros T E. destruct (mapping_cases decode keep syms) as [(mc & F & [[L E']|[L E']])|[_ E']];
      rewrite E' in E; try discriminate. injection E as <-.
    pose proof (collisions_in_the_way syms mc T F) as W.
    set (ks := collisions keep (map snd mc) syms) in *.
    exists mc, ks. split; [exact F|]. split; [exact W|]. split; [exact L|]. split; [reflexivity|].
    assert (M : map fst (mc ++ combine ks (firstn (length ks) allowed_withheld))%list
                = (map fst (normal keep syms) ++ ks)%list).
    { rewrite map_app, combine_fst.
      - f_equal. apply codes_are. exact F.
      - rewrite firstn_length, allowed_length. lia. }
    split; [|exact M]. rewrite M. destruct T as [T _].
    destruct W as [W1 W2].
    assert (D : forall l, In l (map fst (normal keep syms)) -> ~ In l ks).
    { intros l H H'. apply W2 in H'. destruct H' as [(s & H1 & _ & H2) _].
      apply in_map_iff in H. destruct H as ([l' s'] & Ee & H). cbn in Ee. subst.
      apply in_normal in H. destruct H as (H & _ & H3).
      rewrite (label_unique _ _ _ _ T H H1) in H3. contradiction. }
    clear -W1 T D. assert (N : NoDup (map fst (normal keep syms))) by (apply filter_NoDup; exact T).
    revert N D. induction (map fst (normal keep syms)) as [|x xs IH]; intros N D; [exact W1|].
    cbn. inversion N as [|? ? N1 N2]; subst. constructor.
    - intro H. apply in_app_or in H. destruct H as [H|H]; [contradiction|].
      apply (D x); [left; reflexivity|exact H].
    - apply IH; [exact N2|]. intros l H. apply D. right. exact H.
  Qed.

  (** Where every label goes: a relabelled symbol to its code point, epsilon to itself, a
      kept symbol to itself unless its label is somebody's code point, in which case to one
      of the withheld control characters. *)
  Theorem C49_codepoints : forall syms m, table_ok syms ->
    codepoint_mapping decode keep syms = Ok m ->
    (forall l s, to_relabel keep syms l s -> decode s = Some (new_label m l)) /\
    new_label m 0 = 0 /\
    (forall l s, to_keep keep syms l s -> ~ is_codepoint decode keep syms l -> new_label m l = l) /\
    (forall l s, to_keep keep syms l s -> is_codepoint decode keep syms l ->
       In (new_label m l) allowed_withheld).
  Proof.
    intros syms m T E.
    destruct (mapping_facts syms m T E) as (mc & ks & F & W & L & -> & N & M).
    destruct (codes_are syms mc F) as (_ & C & D). destruct W as [_ W].
    split; [|split; [|split]].
    - intros l s H. destruct (decode s) as [c|] eqn:Ds.
      + f_equal. symmetry. apply new_label_in; [exact N|]. apply in_or_app. left.
        apply C. exists s. auto.
      + exfalso. apply in_normal in H. clear -F H Ds.
        induction F as [|e p n mc [_ E] _ IH]; [contradiction|].
        destruct H as [->|H]; [cbn in E; congruence|auto].
    - apply new_label_notin. rewrite M. intro H. apply in_app_or in H. destruct H as [H|H].
      + apply in_map_iff in H. destruct H as ([l s] & Ee & H). cbn in Ee. subst.
        apply in_normal in H. destruct H as (_ & H & _). lia.
      + apply W in H. destruct H as [(s & _ & H & _) _]. lia.
    - intros l s H Nc. apply new_label_notin. rewrite M. intro H'. apply in_app_or in H'.
      destruct H' as [H'|H'].
      + apply in_map_iff in H'. destruct H' as ([l' s'] & Ee & H'). cbn in Ee. subst.
        apply in_normal in H'. destruct H' as (H' & _ & H3), H as (H & _ & H4), T as [T _].
        rewrite (label_unique _ _ _ _ T H' H) in H3. contradiction.
      + apply W in H'. tauto.
    - intros l s H Hc.
      assert (K : In l ks) by (apply W; split; [exists s; exact H|exact Hc]).
      destruct (In_nth_error _ _ K) as [i Ei].
      assert (Li : (i < length ks)%nat) by (apply nth_error_Some; congruence).
      destruct (nth_error allowed_withheld i) as [a|] eqn:Ea.
      2:{ apply nth_error_None in Ea. rewrite allowed_length in Ea. lia. }
      assert (Ha : In (l, a) (combine ks (firstn (length ks) allowed_withheld))).
      { apply (nth_error_In _ i). clear -Ei Ea Li.
        revert Ei Ea Li. generalize allowed_withheld as al. revert i.
        induction ks as [|k ks IH]; intros [|i] [|b al] Ei Ea Li; try discriminate; cbn in *; try lia.
        - congruence.
        - apply IH; auto. lia. }
      rewrite (new_label_in _ l a N); [|apply in_or_app; right; exact Ha].
      eapply nth_error_In; exact Ea.
  Qed.

  (** Errors, exactly: a symbol that is neither kept nor a single character, or more than 27
      kept labels in the way. *)
  Theorem C49_errors : forall syms, table_ok syms ->
    (codepoint_mapping decode keep syms = Err <->
     (exists l s, to_relabel keep syms l s /\ decode s = None) \/
     (exists ks, in_the_way decode keep syms ks /\ (27 < length ks)%nat)) /\
    (codepoint_mapping decode keep syms = Err \/
     exists m, codepoint_mapping decode keep syms = Ok m).
  Proof.
    intros syms T.
    destruct (mapping_cases decode keep syms) as [(mc & F & [[L E]|[L E]])|[(e & H & D) E]];
      rewrite E.
    - split; [|right; eexists; reflexivity]. split; [discriminate|].
      intros [(l & s & H & D)|(ks & [K1 K2] & L')].
      + exfalso. apply in_normal in H. clear -F H D.
        induction F as [|e p n mc [_ E] _ IH]; [contradiction|].
        destruct H as [->|H]; [cbn in E; congruence|auto].
      + exfalso. destruct (collisions_in_the_way syms mc T F) as [C1 C2].
        assert (I : incl ks (collisions keep (map snd mc) syms)).
        { intros x Hx. apply C2. apply K2. exact Hx. }
        pose proof (NoDup_incl_length K1 I). lia.
    - split; [|left; reflexivity]. split; [|reflexivity]. intros _. right.
      eexists. split; [apply (collisions_in_the_way syms mc T F)|exact L].
    - split; [|left; reflexivity]. split; [|reflexivity]. intros _. left.
      destruct e as [l s]. exists l, s. split; [apply in_normal; exact H|exact D].
  Qed.

  (** Distinct symbols keep distinct labels, if different characters have different, non-zero
      code points and the withheld labels handed out ([n] of them, one per kept label in the
      way) are free: neither code points of the table nor labels of kept symbols. *)
  Theorem C49_distinct_partial : forall syms m ks, table_ok syms ->
    codepoint_mapping decode keep syms = Ok m ->
    in_the_way decode keep syms ks ->
    (forall l s l' s' c, to_relabel keep syms l s -> to_relabel keep syms l' s' ->
       decode s = Some c -> decode s' = Some c -> s = s') ->
    ~ is_codepoint decode keep syms 0 ->
    (forall a, In a (firstn (length ks) allowed_withheld) ->
       ~ is_codepoint decode keep syms a /\ (forall s, ~ to_keep keep syms a s)) ->
    forall l s l' s', In (l, s) ((0, "<epsilon>"%string) :: syms) ->
      In (l', s') ((0, "<epsilon>"%string) :: syms) ->
      new_label m l = new_label m l' -> l = l'.
  Proof.
    intros syms m ks T E K Inj Nz Free l s l' s' H H' Eq.
    destruct (C49_codepoints syms m T E) as (P1 & P2 & P3 & _).
    destruct (mapping_facts syms m T E) as (mc & ks' & F & W & L & -> & N & M).
    destruct (codes_are syms mc F) as (_ & C & D).
    assert (Lk : length ks' = length ks).
    { destruct W as [W1 W2], K as [K1 K2].
      apply Nat.le_antisymm; apply NoDup_incl_length; auto; intros x Hx;
        [apply K2, W2|apply W2, K2]; exact Hx. }
    (* position of a kept label in the way *)
    assert (P4 : forall l s, to_keep keep syms l s -> is_codepoint decode keep syms l ->
      exists i, nth_error ks' i = Some l /\
        nth_error (firstn (length ks) allowed_withheld) i =
        Some (new_label (mc ++ combine ks' (firstn (length ks') allowed_withheld)) l)).
    { intros l0 s0 H0 Hc.
      assert (Kk : In l0 ks') by (apply (proj2 W); split; [exists s0; exact H0|exact Hc]).
      destruct (In_nth_error _ _ Kk) as [i Ei]. exists i. split; [exact Ei|].
      assert (Li : (i < length ks')%nat) by (apply nth_error_Some; congruence).
      destruct (nth_error (firstn (length ks') allowed_withheld) i) as [a|] eqn:Ea.
      2:{ apply nth_error_None in Ea. rewrite firstn_length, allowed_length in Ea. lia. }
      rewrite <- Lk, Ea. f_equal. symmetry.
      apply new_label_in; [exact N|]. apply in_or_app. right.
      apply (nth_error_In _ i). clear -Ei Ea.
      revert Ei Ea. generalize (firstn (length ks') allowed_withheld) as al. revert i.
      induction ks' as [|k ks IH]; intros [|i] [|b al] Ei Ea; try discriminate; cbn in *.
      - congruence.
      - apply IH; auto. }
    set (m := (mc ++ combine ks' (firstn (length ks') allowed_withheld))%list) in *.
    assert (Dec : forall z, {is_codepoint decode keep syms z} + {~ is_codepoint decode keep syms z}).
    { intro z. destruct (in_dec Z.eq_dec z (map snd mc)) as [i|i]; [left|right];
        rewrite <- D; exact i. }
    (* the kinds of labels *)
    assert (Kind : forall l s, In (l, s) ((0, "<epsilon>"%string) :: syms) ->
      (l = 0 /\ new_label m l = 0) \/
      (exists s, to_relabel keep syms l s /\ decode s = Some (new_label m l)) \/
      ((exists s, to_keep keep syms l s) /\ ~ is_codepoint decode keep syms l /\ new_label m l = l) \/
      (exists i, nth_error ks' i = Some l /\
        nth_error (firstn (length ks) allowed_withheld) i = Some (new_label m l))).
    { intros l0 s0 [H0|H0]; [injection H0 as <- <-; left; auto|].
      destruct (Z.eq_dec l0 0) as [->|Nz0]; [left; auto|].
      destruct (in_dec string_dec s0 keep) as [Ik|Ik].
      - assert (Kp : to_keep keep syms l0 s0) by (repeat split; auto).
        destruct (Dec l0) as [Hc|Hc].
        + right; right; right. apply (P4 l0 s0); assumption.
        + right; right; left. split; [exists s0; exact Kp|]. split; [exact Hc|].
          apply (P3 l0 s0); assumption.
      - right; left. exists s0. assert (Rl : to_relabel keep syms l0 s0) by (repeat split; auto).
        split; [exact Rl|]. apply P1. exact Rl. }
    assert (Cp : forall l s, to_relabel keep syms l s -> decode s = Some (new_label m l) ->
             is_codepoint decode keep syms (new_label m l)).
    { intros l0 s0 A B. exists l0, s0. auto. }
    assert (Al : forall i z, nth_error (firstn (length ks) allowed_withheld) i = Some z ->
             In z (firstn (length ks) allowed_withheld) /\ z <> 0).
    { intros i z Hz. apply nth_error_In in Hz. split; [exact Hz|].
      apply allowed_nonzero. rewrite <- (firstn_skipn (length ks) allowed_withheld).
      apply in_or_app. left. exact Hz. }
    destruct (Kind l s H) as [[-> A]|[(s1 & A & B)|[((s1 & A0) & A & B)|(i & A & B)]]];
    destruct (Kind l' s' H') as [[-> A']|[(s1' & A' & B')|[((s1' & A0') & A' & B')|(i' & A' & B')]]].
    - reflexivity.
    - exfalso. apply Nz. rewrite <- A, Eq. eapply Cp; eassumption.
    - destruct A0' as (_ & A0' & _). exfalso. congruence.
    - exfalso. apply Al in B'. destruct B' as [_ B']. congruence.
    - exfalso. apply Nz. rewrite <- A', <- Eq. eapply Cp; eassumption.
    - rewrite <- Eq in B'. pose proof (Inj _ _ _ _ _ A A' B B') as <-.
      destruct A as (A & _), A' as (A' & _), T as [_ T]. clear -A A' T.
      induction syms as [|[z t] syms IH]; [contradiction|].
      inversion T as [|? ? T1 T2]; subst.
      destruct A as [A|A], A' as [A'|A'].
      + congruence.
      + injection A as -> ->. exfalso. apply T1. apply in_map_iff. exists (l', s1). auto.
      + injection A' as -> ->. exfalso. apply T1. apply in_map_iff. exists (l, s1). auto.
      + auto.
    - exfalso. apply A'. rewrite <- B', <- Eq. eapply Cp; eassumption.
    - exfalso. apply Al in B'. destruct B' as [B' _]. apply (proj1 (Free _ B')).
      rewrite <- Eq. eapply Cp; eassumption.
    - destruct A0 as (_ & A0 & _). exfalso. congruence.
    - exfalso. apply A. rewrite <- B, Eq. eapply Cp; eassumption.
    - congruence.
    - exfalso. apply Al in B'. destruct B' as [B' _].
      apply (proj2 (Free _ B') s1). rewrite <- Eq, B. exact A0.
    - exfalso. apply Al in B. destruct B as [_ B]. congruence.
    - exfalso. apply Al in B. destruct B as [B _]. apply (proj1 (Free _ B)).
      rewrite Eq. eapply Cp; eassumption.
    - exfalso. apply Al in B. destruct B as [B _].
      apply (proj2 (Free _ B) s1'). rewrite Eq, B'. exact A0'.
    - assert (Ei : i = i').
      { rewrite Eq in B. rewrite <- B' in B.
        assert (Nf : NoDup (firstn (length ks) allowed_withheld)).
        { pose proof allowed_NoDup as Na.
          rewrite <- (firstn_skipn (length ks) allowed_withheld) in Na.
          clear - Na. revert Na. generalize (firstn (length ks) allowed_withheld) (skipn (length ks) allowed_withheld).
          intros a b. induction a as [|x a IH]; cbn [app]; intro N; [constructor|].
          inversion N; subst. constructor; [|auto]. intro I. apply H1. apply in_or_app. auto. }
        apply (proj1 (NoDup_nth_error _) Nf); [|exact B].
        apply nth_error_Some. congruence. }
      subst i'. congruence.
  Qed.
End Thms.

(** The last hypothesis is needed: with the kept symbols "k1" at 98 (the code point of "b")
    and "k2" at 1, "k1" is moved onto the label of "k2". *)
Definition ex_decode (s : string) : option Z :=
  match s with
  | String c EmptyString => Some (Z.of_N (Ascii.N_of_ascii c))
  | _ => None
  end.
Definition ex_bad : symtab := [(0, "<eps>"); (1, "k2"); (2, "a"); (3, "b"); (98, "k1")]%string.
Theorem C49_collision_refuted :
  ~ forall decode keep syms m, table_ok syms -> codepoint_mapping decode keep syms = Ok m ->
      forall l s l' s', In (l, s) syms -> In (l', s') syms ->
      new_label m l = new_label m l' -> l = l'.
Proof.
  intro P.
  assert (T : table_ok ex_bad).
  { split; repeat (constructor; [cbn; intuition discriminate|]); constructor. }
  specialize (P ex_decode ["k1"; "k2"]%string ex_bad _ T eq_refl 1 "k2"%string 98 "k1"%string).
  discriminate P; [cbn; auto| cbn; auto 10 | reflexivity].
Qed.

(** A table meeting the hypotheses of C49_distinct_partial with a kept label in the way (the
    "naughty" table of ngram_fst_relabel_test.cc:104-117). *)
Definition ex_good : symtab := [(0, "<epsilon>"); (1, "a"); (2, "b"); (3, "c"); (98, "keep")]%string.
Example C49_example :
  codepoint_mapping ex_decode ["keep"%string] ex_good = Ok [(1, 97); (2, 98); (3, 99); (98, 1)] /\
  codepoint_mapping ex_decode [] ex_good = Err.
Proof. split; reflexivity. Qed.
Example C49_example_hyps : table_ok ex_good /\
  in_the_way ex_decode ["keep"%string] ex_good [98] /\
  (forall a, In a (firstn 1 allowed_withheld) ->
     ~ is_codepoint ex_decode ["keep"%string] ex_good a /\
     forall s, ~ to_keep ["keep"%string] ex_good a s).
Proof.
  assert (K : forall l s, to_keep ["keep"%string] ex_good l s <-> (l, s) = (98, "keep"%string)).
  { intros l s. unfold to_keep, ex_good. cbn. split.
    - intros (A & B & [<-|[]]). destruct A as [A|[A|[A|[A|[A|[]]]]]]; congruence.
    - intro E. injection E as -> ->. repeat split; [auto 10|discriminate|auto]. }
  assert (C : forall z, is_codepoint ex_decode ["keep"%string] ex_good z ->
              z = 97 \/ z = 98 \/ z = 99).
  { intros z (l & s & (A & B & N) & D). unfold ex_good in A. cbn in A.
    destruct A as [A|[A|[A|[A|[A|[]]]]]]; injection A as <- <-; cbn in D, N;
      try (injection D as <-; auto); try congruence; exfalso; apply N; auto. }
  split; [|split].
  - split; repeat (constructor; [cbn; intuition discriminate|]); constructor.
  - split; [repeat constructor; auto|]. intro l. split.
    + intros [<-|[]]. split; [exists "keep"%string; apply K; reflexivity|].
      exists 2, "b"%string. repeat split; cbn; auto 10; try lia. intuition discriminate.
    + intros [(s & H) _]. apply K in H. injection H as -> _. left. reflexivity.
  - intros a [<-|[]]. split; [intro H; apply C in H; lia|].
    intros s H. apply K in H. discriminate.
Qed.

(** ** The transducer *)
Section Fst.
  Context {Wt : Type}.
  Variable arcsort : list (rarc Wt) -> list (rarc Wt).
  Hypothesis Harcsort : forall l, Permutation l (arcsort l) /\
    StronglySorted (fun a b => ra_il a <= ra_il b) (arcsort l).
  Variable decode : string -> option Z.

  Lemma sortedZ_of l : StronglySorted (fun a b : rarc Wt => ra_il a <= ra_il b) l ->
    sortedZ (map ra_il l) = true.
  Proof.
    induction 1 as [|a l S IH A]; [reflexivity|].
    cbn [map sortedZ]. rewrite IH. destruct l as [|b l]; [reflexivity|].
    cbn. inversion A; subst. rewrite (proj2 (Z.leb_le _ _)); auto.
  Qed.

  (** On success, when the new labels are distinct (see C49_distinct_partial) and the arcs of
      the transducer use labels of the table, the transducer is the old one with its labels
      replaced: per state the same arcs up to order (hence the same weights and destinations),
      still an acceptor, deterministic, and sorted; start and final weights are untouched and
      both symbol tables give every symbol its new label. *)
  Theorem C49_transducer : forall keep f f' syms m,
    rf_isyms f = Some syms ->
    codepoint_mapping decode keep syms = Ok m ->
    (forall l l', In l (0 :: map fst syms) -> In l' (0 :: map fst syms) ->
       new_label m l = new_label m l' -> l = l') ->
    (forall st a, In st (rf_states f) -> In a (fst st) -> In (ra_il a) (0 :: map fst syms)) ->
    relabel_with_codepoints arcsort decode keep f = Ok f' ->
    rf_start f' = rf_start f /\
    Forall2 (fun st st' => snd st' = snd st /\
       Permutation (map (fun a => mk_rarc (new_label m (ra_il a)) (new_label m (ra_ol a))
                                   (ra_w a) (ra_next a)) (fst st)) (fst st'))
      (rf_states f) (rf_states f') /\
    check_properties f' = true /\
    rf_isyms f' = Some (map (fun e => (new_label m (fst e), snd e)) syms) /\
    rf_osyms f' = rf_isyms f'.
  Proof.
    intros keep f f' syms m Es Em Inj Lab E.
    unfold relabel_with_codepoints in E.
    destruct (check_properties f) eqn:Cp; [|discriminate]. cbn [negb] in E.
    rewrite Es, Em in E. cbn [bind] in E. injection E as <-. cbn [rf_start rf_states rf_isyms rf_osyms].
    split; [reflexivity|]. split; [|split; [|split; reflexivity]].
    - clear -Harcsort. induction (rf_states f) as [|st l IH]; [constructor|].
      cbn [map]. constructor; [|exact IH]. cbn. split; [reflexivity|].
      exact (proj1 (Harcsort _)).
    - unfold check_properties in *. cbn [rf_states].
      apply andb_true_iff in Cp. destruct Cp as [Cp C3].
      apply andb_true_iff in Cp. destruct Cp as [C1 C2].
      rewrite forallb_forall in C1, C2, C3.
      rewrite !andb_true_iff, !forallb_forall. repeat split; intros st' H;
        apply in_map_iff in H; destruct H as (st & <- & H); cbn [fst];
        destruct (Harcsort (map (relabel_arc m) (fst st))) as [Pm So].
      + unfold arcs_acceptor. apply forallb_forall. intros a Ha.
        apply (Permutation_in _ (Permutation_sym Pm)) in Ha. apply in_map_iff in Ha.
        destruct Ha as (b & <- & Hb). specialize (C1 st H). unfold arcs_acceptor in C1.
        rewrite forallb_forall in C1. specialize (C1 b Hb). apply Z.eqb_eq in C1.
        cbn. rewrite C1. apply Z.eqb_refl.
      + specialize (C2 st H). unfold arcs_deterministic in *.
        apply nodupZ_NoDup in C2. apply nodupZ_NoDup.
        apply (Permutation_NoDup (Permutation_map ra_il Pm)).
        rewrite map_map. cbn [relabel_arc ra_il].
        specialize (Lab st). revert C2. assert (L : forall a, In a (fst st) ->
          In (ra_il a) (0 :: map fst syms)) by (intros a; apply Lab; exact H).
        clear -L Inj. induction (fst st) as [|a l IH]; intro N; [constructor|].
        cbn [map] in *. inversion N as [|? ? N1 N2]; subst. constructor.
        * intro Hin. apply in_map_iff in Hin. destruct Hin as (b & Eb & Hb).
          apply Inj in Eb; [|apply L; right; exact Hb|apply L; left; reflexivity].
          apply N1. rewrite <- Eb. apply in_map. exact Hb.
        * apply IH; [|exact N2]. intros b Hb. apply L. right. exact Hb.
      + apply sortedZ_of. exact So.
  Qed.

  (** The only failures are refused inputs and the errors of the mapping; nothing else. *)
  Theorem C49_transducer_errors : forall keep f,
    (check_properties f = false \/ rf_isyms f = None \/
     (exists syms, rf_isyms f = Some syms /\ codepoint_mapping decode keep syms = Err)) <->
    relabel_with_codepoints arcsort decode keep f = Err.
  Proof.
    intros keep f. unfold relabel_with_codepoints.
    destruct (check_properties f); cbn [negb]; [|split; auto].
    destruct (rf_isyms f) as [syms|]; [|split; auto].
    destruct (mapping_cases decode keep syms) as [(mc & F & [[L E]|[L E]])|[_ E]]; rewrite E;
      cbn [bind].
    - split; [|discriminate]. intros [H|[H|(s & H & H')]]; try discriminate.
      injection H as <-. congruence.
    - split; [reflexivity|]. intros _. right; right. exists syms. auto.
    - split; [reflexivity|]. intros _. right; right. exists syms. auto.
  Qed.
End Fst.

(** With colliding labels the result is a non-deterministic transducer, reported as success. *)
Fixpoint ins_arc {Wt} (a : rarc Wt) (l : list (rarc Wt)) : list (rarc Wt) :=
  match l with
  | [] => [a]
  | b :: t => if ra_il a <=? ra_il b then a :: l else b :: ins_arc a t
  end.
Definition sort_arcs {Wt} (l : list (rarc Wt)) := fold_right ins_arc [] l.
Theorem C49_transducer_refuted :
  exists (f f' : rfst unit), rf_isyms f = Some ex_bad /\
    relabel_with_codepoints sort_arcs ex_decode ["k1"; "k2"]%string f = Ok f' /\
    check_properties f' = false.
Proof.
  eexists (mk_rfst 0 [([mk_rarc 1 1 tt 0%nat; mk_rarc 98 98 tt 0%nat], Some tt)] (Some ex_bad) None).
  eexists. repeat split; reflexivity.
Qed.
Lemma sort_arcs_ok {Wt} (l : list (rarc Wt)) : Permutation l (sort_arcs l) /\
  StronglySorted (fun a b => ra_il a <= ra_il b) (sort_arcs l).
Proof.
  assert (I : forall (a : rarc Wt) l, Permutation (a :: l) (ins_arc a l) /\
    (StronglySorted (fun a b => ra_il a <= ra_il b) l ->
     StronglySorted (fun a b => ra_il a <= ra_il b) (ins_arc a l))).
  { intros a l0. induction l0 as [|b l0 [P IH]]; cbn; [split; [reflexivity|repeat constructor]|].
    destruct (Z.leb_spec (ra_il a) (ra_il b)) as [L|L].
    - split; [reflexivity|]. intro S. constructor; [exact S|].
      inversion S as [|? ? S1 S2]; subst. constructor; [exact L|].
      eapply Forall_impl; [|exact S2]. cbn. intros; lia.
    - split; [rewrite perm_swap; constructor; exact P|].
      intro S. inversion S as [|? ? S1 S2]; subst. constructor; [auto|].
      eapply Permutation_Forall; [exact P|]. constructor; [lia|exact S2]. }
  induction l as [|a l [P S]]; cbn; [split; constructor|].
  destruct (I a (sort_arcs l)) as [P' S']. split; [|auto].
  rewrite <- P'. constructor. exact P.
Qed.
Print Assumptions C49_codepoints.
Print Assumptions C49_errors.
Print Assumptions C49_distinct_partial.
Print Assumptions C49_collision_refuted.
Print Assumptions C49_transducer.
Print Assumptions C49_transducer_errors.
Print Assumptions C49_transducer_refuted.
