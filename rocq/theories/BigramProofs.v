(** Proofs about BigramModel.v. *)
From Coq Require Import Field.
From Verif Require Import Base Field LmModel TextModel BigramModel.
Local Open Scope Z_scope.

(** * A small specification: vocabulary positions, integer sums, bigram frequencies *)

Definition zsum (l : list Z) : Z := fold_right Z.add 0 l.

Fixpoint index_of (c : Z) (l : list Z) : option nat :=
  match l with
  | [] => None
  | x :: t => if x =? c then Some 0%nat else option_map S (index_of c t)
  end.

Definition pos_or_neg1 (c : Z) (l : list Z) : Z :=
  match index_of c l with Some i => Z.of_nat i | None => -1 end.

Lemma index_of_Some c l i : index_of c l = Some i -> nth_error l i = Some c.
Proof.
  revert i; induction l as [|x t IH]; simpl; intros i; [discriminate|].
  destruct (Z.eqb_spec x c) as [->|].
  - intros [= <-]; auto.
  - destruct (index_of c t) as [j|]; simpl; [|discriminate]. intros [= <-]. simpl; auto.
Qed.

Lemma index_of_None c l : index_of c l = None <-> ~ In c l.
Proof.
  induction l as [|x t IH]; simpl; [tauto|].
  destruct (Z.eqb_spec x c) as [->|].
  - split; [discriminate|tauto].
  - destruct (index_of c t) as [j|]; simpl.
    + split; [discriminate|]. intros H; exfalso. assert (~ In c t) by tauto.
      apply IH in H0; discriminate.
    + split; auto. intros _ [H|H]; auto. apply IH in H; auto.
Qed.

Lemma index_of_lt c l i : index_of c l = Some i -> (i < length l)%nat.
Proof. intros H; apply index_of_Some in H. eapply nth_error_Some_lt; eauto. Qed.

Lemma index_of_nth l i c :
  NoDup l -> nth_error l i = Some c -> index_of c l = Some i.
Proof.
  revert i; induction l as [|x t IH]; intros [|i]; simpl; intros Hnd H; try discriminate.
  - injection H as ->. rewrite Z.eqb_refl; auto.
  - inversion Hnd; subst. destruct (Z.eqb_spec x c) as [->|].
    + apply nth_error_In in H; contradiction.
    + rewrite (IH i); auto.
Qed.

(** Representation: the matrix and the normalizers are those of the counting function [C] over
    the vocabulary [v]. *)
Record repr (m : bigram) (v : list Z) (C : Z -> Z -> Z) : Prop := {
  repr_idx : utf8_indices m = v;
  repr_ne : v <> [];
  repr_nonneg : forall x, In x v -> 0 <= x;
  repr_sorted : StronglySorted Z.lt v;
  repr_table : forall c, sym_state m c = Ok (pos_or_neg1 c v);
  repr_counts : bigram_counts m = map (fun a => map (C a) v) v;
  repr_norm : utf8_normalizer m = map (fun a => zsum (map (C a) v)) v;
  repr_pos : forall a c, In a v -> In c v -> 1 <= C a c
}.

Lemma sorted_NoDup l : StronglySorted Z.lt l -> NoDup l.
Proof.
  induction 1 as [|a l Hs IH Hf]; constructor; auto.
  intros Hin. rewrite Forall_forall in Hf. specialize (Hf _ Hin). lia.
Qed.

Lemma repr_nodup m v C : repr m v C -> NoDup v.
Proof. intros H; apply sorted_NoDup, (repr_sorted _ _ _ H). Qed.

Lemma valid_state_iff m v C s :
  repr m v C -> valid_state m s = true <-> 0 <= s < Z.of_nat (length v).
Proof. intros H. unfold valid_state. rewrite (repr_idx _ _ _ H). lia. Qed.

(** The vocabulary symbol a request state stands for: out-of-range states are state 0. *)
Definition state_symbol (v : list Z) (s : Z) : Z :=
  if (0 <=? s) && (s <? Z.of_nat (length v)) then nth (Z.to_nat s) v 0 else nth 0%nat v 0.

Lemma fix_state_spec m v C s :
  repr m v C ->
  0 <= fix_state m s < Z.of_nat (length v) /\
  nth_error v (Z.to_nat (fix_state m s)) = Some (state_symbol v s).
Proof.
  intros H. unfold fix_state, state_symbol.
  pose proof (valid_state_iff m v C s H) as Hv.
  pose proof (repr_ne _ _ _ H) as Hne.
  assert (Hl : (length v <> 0)%nat) by (destruct v; simpl; congruence).
  destruct (valid_state m s) eqn:E.
  - destruct Hv as [Hv _]. specialize (Hv eq_refl). split; [lia|].
    replace ((0 <=? s) && (s <? Z.of_nat (length v))) with true by lia.
    apply nth_error_nth'; lia.
  - replace ((0 <=? s) && (s <? Z.of_nat (length v))) with false.
    2:{ symmetry; apply not_true_iff_false. intros E2. assert (false = true) by (apply Hv; lia). discriminate. }
    split; [lia|]. apply nth_error_nth'; lia.
Qed.

Lemma vgetZ_map A B (f : A -> B) l s a :
  0 <= s -> nth_error l (Z.to_nat s) = Some a -> vgetZ (map f l) s = Ok (f a).
Proof.
  intros Hs H. unfold vgetZ, vget. destruct (Z.ltb_spec s 0); [lia|].
  rewrite (map_nth_error f _ _ H). reflexivity.
Qed.

Section Scores.
  Context {F : ofield}.
  Add Field Ff_bigram : (f_th F).

  (** The distribution a bigram model over counts [C] should report after symbol [a]. *)
  Definition freq_scores (v : list Z) (C : Z -> Z -> Z) (a : Z) : Z * list (Z * num F) :=
    let total := zsum (map (C a) v) in
    (total, map (fun c => (c, Val (fdiv (ofZ (C a c)) (ofZ total)))) v).

  Lemma extract_loop_spec f norm w v :
    norm <> 0 ->
    extract_loop (F := F) (length w) (map f v) (w ++ v) norm =
    Ok (map (fun c => (c, Val (fdiv (ofZ (f c)) (ofZ norm)))) v).
  Proof.
    intros Hn. revert w. induction v as [|x v IH]; intros w; simpl; auto.
    unfold vget. rewrite nth_error_app2 by lia. rewrite Nat.sub_diag; simpl.
    replace (w ++ x :: v) with ((w ++ [x]) ++ v) by (rewrite <- app_assoc; auto).
    replace (S (length w)) with (length (w ++ [x])) by (rewrite app_length; simpl; lia).
    rewrite IH; simpl. unfold num_div.
    destruct (feqb (ofZ norm) f0) eqn:E; auto.
    apply feqb_eq in E. apply ofZ_neq0 in E; [contradiction|auto].
  Qed.

  Lemma zsum_pos (f : Z -> Z) v : v <> [] -> (forall c, In c v -> 1 <= f c) -> 1 <= zsum (map f v).
  Proof.
    intros Hne H. destruct v as [|x v]; [congruence|]. simpl.
    assert (0 <= zsum (map f v)).
    { assert (Hv : forall c, In c v -> 1 <= f c) by (intros; apply H; simpl; auto).
      clear H Hne. induction v as [|y v IH]; simpl; [lia|].
      assert (1 <= f y) by (apply Hv; simpl; auto).
      assert (0 <= zsum (map f v)) by (apply IH; intros; apply Hv; simpl; auto). lia. }
    assert (1 <= f x) by (apply H; simpl; auto). lia.
  Qed.

  Lemma extract_repr m v C s :
    repr m v C -> extract_lm_scores (F := F) m s = Ok (freq_scores v C (state_symbol v s)).
  Proof.
    intros H. destruct (fix_state_spec m v C s H) as [Hr Hn].
    unfold extract_lm_scores.
    rewrite (repr_norm _ _ _ H), (repr_counts _ _ _ H), (repr_idx _ _ _ H).
    rewrite (vgetZ_map _ _ _ _ _ _ (proj1 Hr) Hn). simpl.
    rewrite (vgetZ_map _ _ _ _ _ _ (proj1 Hr) Hn). simpl.
    set (a := state_symbol v s) in *.
    assert (Ha : In a v) by (eapply nth_error_In; eauto).
    assert (Hp : 1 <= zsum (map (C a) v)).
    { apply zsum_pos; [apply (repr_ne _ _ _ H)|]. intros c Hc. apply (repr_pos _ _ _ H); auto. }
    pose proof (extract_loop_spec (C a) (zsum (map (C a) v)) [] v) as E.
    simpl in E. rewrite E by lia. reflexivity.
  Qed.

  Lemma sym_score_repr m v C s c :
    repr m v C ->
    sym_lm_score (F := F) m s c =
    Ok (Val (if existsb (Z.eqb c) v
             then fdiv (ofZ (C (state_symbol v s) c)) (ofZ (zsum (map (C (state_symbol v s)) v)))
             else f0)).
  Proof.
    intros H. destruct (fix_state_spec m v C s H) as [Hr Hn].
    unfold sym_lm_score, next_state. rewrite (repr_table _ _ _ H). simpl.
    replace (valid_state m (fix_state m s)) with true by (symmetry; apply (valid_state_iff m v C); auto).
    simpl. unfold pos_or_neg1. destruct (index_of c v) as [i|] eqn:E.
    - assert (Hc := index_of_Some _ _ _ E). assert (Hi := index_of_lt _ _ _ E).
      replace (valid_state m (Z.of_nat i)) with true
        by (symmetry; apply (valid_state_iff m v C); auto; lia).
      rewrite (repr_counts _ _ _ H), (repr_norm _ _ _ H).
      rewrite (vgetZ_map _ _ _ _ _ _ (proj1 Hr) Hn). simpl.
      rewrite (vgetZ_map _ _ _ _ _ c); [|lia|rewrite Nat2Z.id; auto]. simpl.
      rewrite (vgetZ_map _ _ _ _ _ _ (proj1 Hr) Hn). simpl.
      replace (existsb (Z.eqb c) v) with true.
      2:{ symmetry. apply existsb_exists. exists c. split; [eapply nth_error_In; eauto|apply Z.eqb_refl]. }
      set (a := state_symbol v s) in *.
      assert (Ha : In a v) by (eapply nth_error_In; eauto).
      assert (Hp : 1 <= zsum (map (C a) v)).
      { apply zsum_pos; [apply (repr_ne _ _ _ H)|]. intros d Hd. apply (repr_pos _ _ _ H); auto. }
      unfold num_div. destruct (feqb (ofZ (zsum (map (C a) v))) f0) eqn:E2; auto.
      apply feqb_eq in E2. apply ofZ_neq0 in E2; [contradiction|lia].
    - replace (valid_state m (-1)) with false by (symmetry; unfold valid_state; lia).
      replace (existsb (Z.eqb c) v) with false; auto.
      symmetry. apply not_true_iff_false. intros Hx. apply existsb_exists in Hx.
      destruct Hx as [x [Hin Heq]]. apply Z.eqb_eq in Heq. subst x.
      apply index_of_None in E; auto.
  Qed.

  Lemma freq_scores_sum v C a :
    v <> [] -> (forall c, In c v -> 1 <= C a c) ->
    exists ps, snd (freq_scores v C a) = combine v (map Val ps) /\
      length ps = length v /\ fsum ps = f1 /\ (forall p, In p ps -> flt f0 p = true).
  Proof.
    intros Hne Hp. pose proof (zsum_pos (C a) v Hne Hp) as Ht.
    exists (map (fun c => fdiv (ofZ (C a c)) (ofZ (zsum (map (C a) v)))) v).
    assert (Hz : ofZ (zsum (map (C a) v)) <> (f0 : car F)) by (apply ofZ_neq0; lia).
    split; [|split; [|split]].
    - unfold freq_scores; simpl. generalize (zsum (map (C a) v)) as N; intros N.
      clear. induction v as [|x v IH]; simpl; auto. rewrite IH; auto.
    - apply map_length.
    - rewrite (fsum_map_div _ (fun c => ofZ (C a c)) _ v Hz).
      rewrite <- (map_map (C a) ofZ), <- ofZ_sum. apply fdiv_self; exact Hz.
    - intros p Hin. apply in_map_iff in Hin. destruct Hin as [c [<- Hc]].
      apply fdiv_pos; apply ofZ_pos; [specialize (Hp c Hc)|]; lia.
  Qed.
End Scores.

(** * Updates *)

(** The bigrams one update call tells the model about: (previous symbol, symbol) pairs; an
    unknown symbol contributes nothing and makes the next symbol follow the start symbol. *)
Fixpoint bigrams_told (v : list Z) (prev : Z) (syms : list Z) : list (Z * Z) :=
  match syms with
  | [] => []
  | c :: rest => if existsb (Z.eqb c) v then (prev, c) :: bigrams_told v c rest
                 else bigrams_told v (nth 0%nat v 0) rest
  end.

Definition times (a c : Z) (l : list (Z * Z)) : Z :=
  Z.of_nat (length (filter (fun p => (fst p =? a) && (snd p =? c)) l)).

(** What a history of update calls adds to the count of [c] after [a]. *)
Fixpoint learned (v : list Z) (h : list bg_call) (a c : Z) : Z :=
  match h with
  | [] => 0
  | (state, syms, count) :: rest =>
      (if count <=? 0 then 0
       else count * times a c (bigrams_told v (state_symbol v state) syms))
      + learned v rest a c
  end.

Lemma upd_map_same {A B} (f g : A -> B) l i a :
  NoDup l -> nth_error l i = Some a ->
  (forall x, In x l -> x <> a -> f x = g x) ->
  upd (map f l) i (g a) = map g l.
Proof.
  revert i; induction l as [|x t IH]; intros [|i]; simpl; intros Hnd H Hfg; try discriminate.
  - injection H as ->. inversion Hnd; subst. f_equal. apply map_ext_in. intros y Hy.
    apply Hfg; auto. intros ->; auto.
  - inversion Hnd; subst. f_equal.
    + apply Hfg; auto. intros ->. apply nth_error_In in H; auto.
    + apply IH; auto.
Qed.

Definition bump (C : Z -> Z -> Z) (a0 c0 n : Z) (a c : Z) : Z :=
  if (a =? a0) && (c =? c0) then C a c + n else C a c.

Lemma zsum_bump_in (f : Z -> Z) v c0 n :
  NoDup v -> In c0 v ->
  zsum (map (fun c => if c =? c0 then f c + n else f c) v) = zsum (map f v) + n.
Proof.
  induction v as [|x v IH]; intros Hnd Hin; [contradiction|]. inversion Hnd; subst. simpl.
  destruct (Z.eqb_spec x c0) as [->|Hne].
  - replace (map (fun c => if c =? c0 then f c + n else f c) v) with (map f v); [lia|].
    apply map_ext_in. intros y Hy. destruct (Z.eqb_spec y c0) as [->|]; auto; contradiction.
  - destruct Hin as [|Hin]; [congruence|]. rewrite IH; auto. lia.
Qed.

Lemma update_step m v C a st c j n :
  repr m v C -> 0 < n -> 0 <= st -> nth_error v (Z.to_nat st) = Some a ->
  index_of c v = Some j ->
  repr {| utf8_indices := utf8_indices m; vocab_indices := vocab_indices m;
          utf8_normalizer := upd (utf8_normalizer m) (Z.to_nat st) (zsum (map (C a) v) + n);
          bigram_counts := upd (bigram_counts m) (Z.to_nat st)
                               (upd (map (C a) v) (Z.to_nat (Z.of_nat j)) (C a c + n)) |}
       v (bump C a c n).
Proof.
  intros H Hn Hst Ha Hj.
  assert (Hnd := repr_nodup _ _ _ H).
  assert (Hc := index_of_Some _ _ _ Hj).
  assert (Hcin : In c v) by (eapply nth_error_In; eauto).
  rewrite Nat2Z.id.
  assert (Hrow : upd (map (C a) v) j (C a c + n) = map (bump C a c n a) v).
  { replace (C a c + n) with (bump C a c n a c) by (unfold bump; rewrite !Z.eqb_refl; auto).
    apply upd_map_same; auto. intros x _ Hx. unfold bump.
    destruct (Z.eqb_spec x c); [contradiction|]. rewrite andb_false_r; auto. }
  constructor; simpl.
  - apply (repr_idx _ _ _ H).
  - apply (repr_ne _ _ _ H).
  - apply (repr_nonneg _ _ _ H).
  - apply (repr_sorted _ _ _ H).
  - intros d. pose proof (repr_table _ _ _ H d) as T. unfold sym_state, valid_sym in *. exact T.
  - rewrite (repr_counts _ _ _ H), Hrow.
    apply (upd_map_same (fun a => map (C a) v) (fun a' => map (bump C a c n a') v)); auto.
    intros x _ Hx. apply map_ext. intros d. unfold bump.
    destruct (Z.eqb_spec x a); [contradiction|]; auto.
  - rewrite (repr_norm _ _ _ H).
    replace (zsum (map (C a) v) + n) with (zsum (map (bump C a c n a) v)).
    + apply (upd_map_same (fun a => zsum (map (C a) v)) (fun a' => zsum (map (bump C a c n a') v))); auto.
      intros x _ Hx. f_equal. apply map_ext. intros d. unfold bump.
      destruct (Z.eqb_spec x a); [contradiction|]; auto.
    + rewrite <- (zsum_bump_in (C a) v c n); auto. f_equal. apply map_ext. intros d.
      unfold bump. rewrite Z.eqb_refl; auto.
  - intros x d Hx Hd. pose proof (repr_pos _ _ _ H x d Hx Hd). unfold bump.
    destruct ((x =? a) && (d =? c)); lia.
Qed.

Lemma existsb_index c v : existsb (Z.eqb c) v = match index_of c v with Some _ => true | None => false end.
Proof.
  induction v as [|x v IH]; simpl; auto. rewrite (Z.eqb_sym c x).
  destruct (x =? c); auto. rewrite IH. destruct (index_of c v); auto.
Qed.

Lemma times_cons a c a0 c0 l :
  times a c ((a0, c0) :: l) = (if (a0 =? a) && (c0 =? c) then 1 else 0) + times a c l.
Proof.
  unfold times; simpl. destruct ((a0 =? a) && (c0 =? c)); simpl length; lia.
Qed.

(** One pass over the symbols, either completing with exactly the told bigrams added, or
    overflowing; it completes if no count can exceed [int64_max]. *)
Lemma update_loop_repr n syms : 0 < n ->
  forall m v C st a, repr m v C -> 0 <= st -> nth_error v (Z.to_nat st) = Some a ->
  (forall m', update_loop m st syms n = Ok m' ->
     repr m' v (fun x d => C x d + n * times x d (bigrams_told v a syms))) /\
  ((forall x d, In x v -> In d v ->
       C x d + n * times x d (bigrams_told v a syms) <= int64_max) ->
   exists m', update_loop m st syms n = Ok m') /\
  (update_loop m st syms n = UB \/ exists m', update_loop m st syms n = Ok m').
Proof.
  intros Hn. induction syms as [|c rest IH]; intros m v C st a H Hst Ha; simpl.
  - split; [|split; [eexists; eauto|right; eauto]]. intros m' [= <-].
    destruct H; constructor; auto.
    + rewrite repr_counts0. apply map_ext; intros; apply map_ext; intros; unfold times; simpl; lia.
    + rewrite repr_norm0. apply map_ext; intros; f_equal; apply map_ext; intros; unfold times; simpl; lia.
    + intros x d Hx Hd. specialize (repr_pos0 x d Hx Hd). unfold times; simpl; lia.
  - unfold next_state. rewrite (repr_table _ _ _ H), existsb_index. simpl. unfold pos_or_neg1.
    destruct (index_of c v) as [j|] eqn:Ej.
    + destruct (Z.ltb_spec (Z.of_nat j) 0); [lia|].
      assert (Hc := index_of_Some _ _ _ Ej).
      assert (Hain : In a v) by (eapply nth_error_In; eauto).
      assert (Hcin : In c v) by (eapply nth_error_In; eauto).
      rewrite (repr_norm _ _ _ H), (repr_counts _ _ _ H).
      rewrite (vgetZ_map _ _ _ _ _ _ Hst Ha). simpl.
      rewrite (vgetZ_map _ _ _ _ _ _ Hst Ha). simpl.
      rewrite (vgetZ_map _ _ _ _ _ c); [|lia|rewrite Nat2Z.id; auto]. simpl.
      pose proof (update_step m v C a st c j n H Hn Hst Ha Ej) as Hs.
      rewrite (repr_norm _ _ _ H), (repr_counts _ _ _ H) in Hs.
      assert (Hnn : forall x d l, 0 <= times x d l) by (unfold times; lia).
      destruct (IH _ v _ (Z.of_nat j) c Hs) as [IH1 [IH2 IH3]]; [lia|rewrite Nat2Z.id; auto|].
      assert (Eq : forall x d, bump C a c n x d + n * times x d (bigrams_told v c rest) =
                C x d + n * times x d ((a, c) :: bigrams_told v c rest)).
      { intros x d. rewrite times_cons. unfold bump.
        rewrite (Z.eqb_sym a x), (Z.eqb_sym c d). destruct ((x =? a) && (d =? c)); lia. }
      destruct (Z.ltb_spec int64_max (C a c + n)) as [Hov|Hov].
      * split; [discriminate|]. split; [|auto]. intros Hb.
        specialize (Hb a c Hain Hcin). rewrite times_cons, !Z.eqb_refl in Hb; cbn [andb] in Hb.
        specialize (Hnn a c (bigrams_told v c rest)). nia.
      * split; [|split; [|exact IH3]].
        -- intros m' Hm'. specialize (IH1 m' Hm').
           destruct IH1; constructor; auto.
           ++ rewrite repr_counts0. apply map_ext; intros; apply map_ext; intros; apply Eq.
           ++ rewrite repr_norm0. apply map_ext; intros; f_equal; apply map_ext; intros; apply Eq.
           ++ intros x d Hx Hd. rewrite <- Eq. auto.
        -- intros Hb. apply IH2. intros x d Hx Hd. rewrite Eq; auto.
    + simpl. apply IH; auto; [lia|].
      pose proof (repr_ne _ _ _ H). destruct v; [congruence|]; auto.
Qed.

Lemma update_repr m v C s syms n :
  repr m v C ->
  let C' := fun x d => C x d + learned v [(s, syms, n)] x d in
  (forall m', update_lm_counts m s syms n = Ok m' -> repr m' v C') /\
  ((forall x d, In x v -> In d v -> C' x d <= int64_max) ->
   exists m', update_lm_counts m s syms n = Ok m') /\
  (update_lm_counts m s syms n = UB \/ exists m', update_lm_counts m s syms n = Ok m').
Proof.
  intros H C'. unfold update_lm_counts, C', learned.
  destruct (Z.leb_spec n 0) as [Hn|Hn].
  - split; [|split; eauto]. intros m' [= <-].
    destruct H; constructor; auto.
    + rewrite repr_counts0. apply map_ext; intros; apply map_ext; intros; lia.
    + rewrite repr_norm0. apply map_ext; intros; f_equal; apply map_ext; intros; lia.
    + intros x d Hx Hd. specialize (repr_pos0 x d Hx Hd). lia.
  - destruct (fix_state_spec m v C s H) as [Hr Hs].
    destruct (update_loop_repr n syms Hn m v C _ _ H (proj1 Hr) Hs) as [U1 [U2 U3]].
    split; [|split; [|exact U3]].
    + intros m' Hm'. specialize (U1 m' Hm').
      destruct U1; constructor; auto.
      * rewrite repr_counts0. apply map_ext; intros; apply map_ext; intros; lia.
      * rewrite repr_norm0. apply map_ext; intros; f_equal; apply map_ext; intros; lia.
      * intros x d Hx Hd. specialize (repr_pos0 x d Hx Hd). lia.
    + intros Hb. apply U2. intros x d Hx Hd. specialize (Hb x d Hx Hd). lia.
Qed.

Lemma repr_ext m v C C' : (forall x d, C x d = C' x d) -> repr m v C -> repr m v C'.
Proof.
  intros E []; constructor; auto.
  - rewrite repr_counts0. apply map_ext; intros; apply map_ext; intros; auto.
  - rewrite repr_norm0. apply map_ext; intros; f_equal; apply map_ext; intros; auto.
  - intros x d Hx Hd; rewrite <- E; auto.
Qed.

Lemma learned_nonneg v h a c : 0 <= learned v h a c.
Proof.
  induction h as [|[[s syms] n] h IH]; simpl; [lia|].
  destruct (Z.leb_spec n 0); [lia|]. unfold times. nia.
Qed.

Lemma run_repr h : forall m v C, repr m v C ->
  let C' := fun x d => C x d + learned v h x d in
  (forall m', bigram_run m h = Ok m' -> repr m' v C') /\
  ((forall x d, In x v -> In d v -> C' x d <= int64_max) -> exists m', bigram_run m h = Ok m') /\
  (bigram_run m h = UB \/ exists m', bigram_run m h = Ok m').
Proof.
  induction h as [|[[s syms] n] h IH]; intros m v C H C'.
  - simpl. split; [|split; eauto]. intros m' [= <-]. eapply repr_ext; [|exact H].
    intros; unfold C'; simpl; lia.
  - cbn [bigram_run]. destruct (update_repr m v C s syms n H) as [U1 [U2 U3]].
    assert (Eq : forall x d, C' x d =
        C x d + learned v [(s, syms, n)] x d + learned v h x d) by (intros; unfold C'; simpl; lia).
    split; [|split].
    + intros m' Hm'. apply bind_Ok in Hm'. destruct Hm' as [m1 [E1 E2]].
      specialize (U1 m1 E1). destruct (IH m1 v _ U1) as [I1 _].
      eapply repr_ext; [|apply (I1 m' E2)]. intros; rewrite Eq; auto.
    + intros Hb. destruct U2 as [m1 E1].
      { intros x d Hx Hd. specialize (Hb x d Hx Hd). rewrite Eq in Hb.
        pose proof (learned_nonneg v h x d). lia. }
      rewrite E1; simpl. destruct (IH m1 v _ (U1 m1 E1)) as [_ [I2 _]]. apply I2.
      intros x d Hx Hd. rewrite <- Eq; auto.
    + destruct U3 as [E|[m1 E]]; rewrite E; simpl; auto.
      destruct (IH m1 v _ (U1 m1 E)) as [_ [_ I3]]; exact I3.
Qed.
