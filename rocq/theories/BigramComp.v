(** The bigram model as a component of a hub (language_model.h interface), and the facts about
    components the hub theorems ask for. *)
From Verif Require Import Base Field LmModel TextModel BigramModel BigramProofs HubModel HubSpec.
Local Open Scope Z_scope.

Section Comp.
  Context {F : ofield}.

  (** The entries of a bigram response under the response key of their symbol
      (nisaba EncodeUnicodeChar is external: one code point). A NaN cannot occur in a loaded model
      (theorem C04). *)
  Fixpoint plain_entries (l : list (Z * num F)) : outcome (list (str * car F)) :=
    match l with
    | [] => Ok []
    | (c, Val p) :: t => let* r := plain_entries t in Ok (([c], p) :: r)
    | (_, NaN) :: _ => UB
    end.

  (** simple_bigram_char_model.cc:151-220 behind the virtual interface of language_model.h.  The
      start state of the base class is 0 and the bigram model does not change it. *)
  Definition bigram_ops : comp_ops F bigram := {|
    c_start := fun _ => 0;
    c_next := fun m s c => let* r := next_state m s c in Ok (r, m);
    c_score := fun m s c => let* r := sym_lm_score m s c in
                            match r with Val p => Ok (p, m) | NaN => UB end;
    c_extract := fun m s => let* (total, l) := extract_lm_scores m s in
                            let* e := plain_entries l in Ok (Some (LmScores (ofZ total) e), m);
    c_update := fun m s w n => let* m' := update_lm_counts m s w n in Ok (true, m')
  |}.

  Lemma plain_entries_vals (v : list Z) (f : Z -> car F) :
    plain_entries (map (fun c => (c, Val (f c))) v) = Ok (map (fun c => ([c], f c)) v).
  Proof. induction v as [|c t IH]; simpl; auto. rewrite IH. reflexivity. Qed.

  Definition bg_score (v : list Z) (C : Z -> Z -> Z) (a c : Z) : car F :=
    fdiv (ofZ (C a c)) (ofZ (zsum (map (C a) v))).

  Lemma bg_next m v C s c : repr m v C -> c_next bigram_ops m s c = Ok (pos_or_neg1 c v, m).
  Proof. intros R. simpl. unfold next_state. rewrite (repr_table _ _ _ R). reflexivity. Qed.

  Lemma bg_score_eq m v C s c : repr m v C ->
    c_score bigram_ops m s c =
    Ok (if existsb (Z.eqb c) v then bg_score v C (state_symbol v s) c else f0, m).
  Proof. intros R. simpl. rewrite (sym_score_repr m v C s c R). reflexivity. Qed.

  Lemma bg_extract m v C s : repr m v C ->
    c_extract bigram_ops m s =
    Ok (Some (LmScores (ofZ (zsum (map (C (state_symbol v s)) v)))
                       (map (fun c => ([c], bg_score v C (state_symbol v s) c)) v)), m).
  Proof.
    intros R. simpl. rewrite (extract_repr m v C s R). unfold freq_scores. cbn [bind].
    rewrite plain_entries_vals. reflexivity.
  Qed.

  Lemma bg_update m v C s w n : repr m v C ->
    (exists m', c_update bigram_ops m s w n = Ok (true, m') /\
       repr m' v (fun a c => C a c + learned v [(s, w, n)] a c)) \/
    c_update bigram_ops m s w n = UB.
  Proof.
    intros R. destruct (update_repr m v C s w n R) as [H1 [_ [H3|[m' H3]]]]; simpl; rewrite H3; simpl; auto.
    left. exists m'. split; auto.
  Qed.

  Lemma bg_step learning m v C m' : repr m v C -> c_step bigram_ops learning m m' ->
    exists C', repr m' v C' /\ (learning = false -> m' = m).
  Proof.
    intros R H. inversion H as [? s c r ? E|? s c r ? E|? s r ? E|? s w n r ? Hl E]; subst.
    - rewrite (bg_next m v C s c R) in E. injection E as <- <-. eauto.
    - rewrite (bg_score_eq m v C s c R) in E. injection E as <- <-. eauto.
    - rewrite (bg_extract m v C s R) in E. injection E as <- <-. eauto.
    - destruct (bg_update m v C s w n R) as [[m2 [E2 R2]]|E2]; rewrite E2 in E; [|discriminate].
      injection E as <- <-. eexists; split; eauto. discriminate.
  Qed.

  Lemma bg_reach learning m v C m' : repr m v C -> c_reach bigram_ops learning m m' ->
    exists C', repr m' v C' /\ (learning = false -> m' = m).
  Proof.
    intros R H. induction H as [|m1 m2 H IH Hs]; eauto.
    destruct IH as [C1 [R1 E1]]. destruct (bg_step learning m1 v C1 m2 R1 Hs) as [C2 [R2 E2]].
    exists C2. split; auto. intros Hl. rewrite (E2 Hl); auto.
  Qed.

  Lemma bigram_repeatable learning m v C : repr m v C -> repeatable bigram_ops learning m.
  Proof.
    intros R. constructor; [|reflexivity].
    intros m1 t c u m2 m3 H1 E H2. destruct (bg_reach learning m v C m1 R H1) as [C1 [R1 _]].
    rewrite (bg_next m1 v C1 t c R1) in E. injection E as <- <-.
    destruct (bg_reach learning m1 v C1 m3 R1 H2) as [C3 [R3 _]].
    exists m3. apply (bg_next m3 v C3 t c R3).
  Qed.

  Lemma bigram_scores_total m v C : repr m v C -> scores_total bigram_ops m.
  Proof.
    intros R m1 t c H. destruct (bg_reach true m v C m1 R H) as [C1 [R1 _]].
    rewrite (bg_score_eq m1 v C1 t c R1). discriminate.
  Qed.

  Lemma bigram_repeatable_scores m v C : repr m v C -> repeatable_scores bigram_ops false m.
  Proof.
    intros R m1 t c p m2 m3 H1 E H2. destruct (bg_reach false m v C m1 R H1) as [C1 [R1 _]].
    destruct (bg_reach false m1 v C1 m2 R1) as [C2 [R2 E2]].
    { eapply reach_step; [constructor|]. eapply step_score; eauto. }
    rewrite (E2 eq_refl) in *. destruct (bg_reach false m1 v C1 m3 R1 H2) as [_ [_ E3]].
    rewrite (E3 eq_refl). eauto.
  Qed.

  (** Room for [b] more observations in every counter. *)
  Definition bg_room (b : Z) (m : bigram) : Prop :=
    exists v C, repr m v C /\ forall a c, In a v -> In c v -> C a c + b <= int64_max.

  Lemma bigrams_told_length v syms : forall a, (length (bigrams_told v a syms) <= length syms)%nat.
  Proof.
    induction syms as [|c t IH]; intros a; simpl; [lia|].
    destruct (existsb _ _); simpl; [pose proof (IH c)|pose proof (IH (nth 0 v 0))]; lia.
  Qed.

  Lemma filter_length_le A (f : A -> bool) l : (length (filter f l) <= length l)%nat.
  Proof. induction l as [|x t IH]; simpl; [lia|]. destruct (f x); simpl; lia. Qed.

  Lemma learned_cost v s w n a c : learned v [(s, w, n)] a c <= learn_cost w n.
  Proof.
    simpl. unfold learn_cost. destruct (Z.leb_spec n 0).
    - rewrite Z.max_l by lia. lia.
    - rewrite Z.max_r, Z.add_0_r by lia. apply Z.mul_le_mono_nonneg_l; [lia|].
      unfold times. pose proof (bigrams_told_length v w (state_symbol v s)).
      pose proof (filter_length_le _ (fun p => (fst p =? a) && (snd p =? c))
                    (bigrams_told v (state_symbol v s) w)). lia.
  Qed.

  Lemma bigram_safe : comps_safe bigram_ops bg_room.
  Proof.
    constructor.
    - intros b m s c (v & C & R & H). rewrite (bg_next m v C s c R). exists v, C; auto.
    - intros b m s c (v & C & R & H). rewrite (bg_score_eq m v C s c R). exists v, C; auto.
    - intros b m s (v & C & R & H). rewrite (bg_extract m v C s R). exists v, C; auto.
    - intros b m s w n (v & C & R & H) Hb.
      assert (Hc := learned_cost v s w n).
      destruct (update_repr m v C s w n R) as [H1 [H2 _]].
      destruct H2 as [m' E].
      { intros x d Hx Hd. specialize (H x d Hx Hd). specialize (Hc x d). lia. }
      simpl. rewrite E. simpl. exists v, (fun x d => C x d + learned v [(s, w, n)] x d).
      split; [apply H1; auto|].
      intros x d Hx Hd. specialize (H x d Hx Hd). specialize (Hc x d). lia.
    - intros b b' m Hb (v & C & R & H). exists v, C. split; auto.
      intros a c Ha Hc. specialize (H a c Ha Hc). lia.
  Qed.
End Comp.
