(** Proofs about the bigram loader (BigramModel.bigram_read). *)
From Verif Require Import Base Field LmModel TextModel BigramModel BigramProofs.
Local Open Scope Z_scope.

(** The fields of the lines of a file. *)
Definition file_fields (content : bytes) : list (list bytes) := map split_space (getlines content).

(** The vocabulary written in a file: one integer per line. *)
Definition vocab_of (content : bytes) (v : list Z) : Prop :=
  Forall2 (fun fields x => exists f, fields = [f] /\ stoi f = Ok x) (file_fields content) v.

(** The counts written in a file: row [a], column [c]; values below one count as one. *)
Definition counts_of (content : bytes) (v : list Z) (C : Z -> Z -> Z) : Prop :=
  Forall2 (fun fields a =>
             Forall2 (fun f c => exists z, stol f = Ok z /\ C a c = Z.max 1 z) fields v)
          (file_fields content) v.

Lemma read_vocab_lines_ok lines : forall last v,
  read_vocab_lines last lines = Ok v ->
  Forall2 (fun fields x => exists f, fields = [f] /\ stoi f = Ok x) (map split_space lines) v /\
  StronglySorted Z.lt v /\ (forall x, In x v -> last < x).
Proof.
  induction lines as [|str rest IH]; intros last v; cbn [read_vocab_lines map].
  - intros [= <-]. split; [constructor|split; [constructor|intros x []]].
  - destruct str as [|c0 str']; [discriminate|].
    destruct (split_space (c0 :: str')) as [|f [|g l]]; try discriminate.
    destruct (stoi f) as [x| | |] eqn:Ex; cbn [bind]; try discriminate.
    destruct (Z.leb_spec x last); [discriminate|].
    intros H1. apply bind_Ok in H1. destruct H1 as [v' [E1 E2]]. injection E2 as <-.
    destruct (IH x v' E1) as [I1 [I2 I3]].
    split; [constructor; eauto|]. split.
    + constructor; auto. apply Forall_forall. auto.
    + intros y [<-|Hy]; [lia|]. specialize (I3 y Hy); lia.
Qed.

Lemma read_count_fields_ok fields : forall idx norm row norm',
  read_count_fields idx fields norm = Ok (row, norm') ->
  Forall2 (fun f c => exists z, stol f = Ok z /\ c = Z.max 1 z) fields row /\
  length norm' = length norm /\
  (forall j, nth_error norm' j =
     if (j =? idx)%nat then option_map (fun n => n + zsum row) (nth_error norm j)
     else nth_error norm j).
Proof.
  induction fields as [|f rest IH]; intros idx norm row norm'; cbn [read_count_fields].
  - intros [= <- <-]. split; [constructor|]. split; auto. intros j.
    destruct (j =? idx)%nat; auto. destruct (nth_error norm j); simpl; auto. f_equal; lia.
  - destruct (stol f) as [z| | |] eqn:Ez; cbn [bind]; try discriminate.
    set (c := if 1 <? z then z else 1).
    destruct (vget norm idx) as [n| | |] eqn:En; cbn [bind]; try discriminate.
    apply vget_Ok in En. unfold vset.
    destruct (Nat.ltb_spec idx (length norm)); cbn [bind]; [|discriminate].
    intros E. apply bind_Ok in E. destruct E as [[row1 norm1] [E1 E2]]. injection E2 as <- <-.
    destruct (IH _ _ _ _ E1) as [I1 [I2 I3]]. rewrite upd_length in I2.
    split; [|split; auto].
    + constructor; auto. exists z; split; auto. unfold c. destruct (Z.ltb_spec 1 z); lia.
    + intros j. rewrite I3, nth_error_upd.
      destruct (Nat.eqb_spec j idx) as [->|Hne].
      * rewrite Nat.eqb_refl. destruct (Nat.ltb_spec idx (length norm)); [|lia]. simpl.
        rewrite En; simpl. f_equal; lia.
      * destruct (Nat.eqb_spec idx j); [congruence|]; auto.
Qed.

Definition row_spec (fields : list bytes) (row : list Z) : Prop :=
  Forall2 (fun f c => exists z, stol f = Ok z /\ c = Z.max 1 z) fields row.

Lemma read_count_lines_ok rows lines : forall idx norm m norm',
  read_count_lines rows idx lines norm = Ok (m, norm') ->
  (length lines + idx = rows)%nat /\
  Forall2 row_spec (map split_space lines) m /\
  (forall row, In row m -> length row = rows) /\
  length norm' = length norm /\
  (forall j, nth_error norm' j =
     if (j <? idx)%nat then nth_error norm j
     else match nth_error m (j - idx) with
          | Some row => option_map (fun n => n + zsum row) (nth_error norm j)
          | None => nth_error norm j
          end).
Proof.
  induction lines as [|str rest IH]; intros idx norm m norm'; cbn [read_count_lines map].
  - destruct (Nat.eqb_spec idx rows); [|discriminate]. intros [= <- <-].
    split; [simpl; lia|]. split; [constructor|]. split; [intros ? []|]. split; auto.
    intros j. destruct (j <? idx)%nat; auto. destruct (j - idx)%nat; auto.
  - destruct str as [|c0 str']; [discriminate|].
    set (fields := split_space (c0 :: str')).
    destruct (Nat.eqb_spec (length fields) rows) as [Hl|]; simpl negb; cbn iota; [|discriminate].
    intros E. apply bind_Ok in E. destruct E as [[row norm1] [E1 E2]].
    apply bind_Ok in E2. destruct E2 as [[m1 norm2] [E2 E3]]. injection E3 as <- <-.
    destruct (read_count_fields_ok _ _ _ _ _ E1) as [R1 [R2 R3]].
    destruct (IH _ _ _ _ E2) as [I1 [I2 [I3 [I4 I5]]]].
    split; [simpl; lia|]. split; [constructor; auto|]. split; [|split; [lia|]].
    + intros r [<-|Hr]; auto. rewrite <- (Forall2_length _ _ _ R1). auto.
    + intros j. rewrite I5, R3.
      destruct (Nat.ltb_spec j (S idx)) as [H1|H1]; destruct (Nat.ltb_spec j idx) as [H2|H2]; try lia.
      * destruct (Nat.eqb_spec j idx); [lia|]; auto.
      * assert (j = idx) by lia; subst j. rewrite Nat.eqb_refl, Nat.sub_diag; auto.
      * destruct (Nat.eqb_spec j idx); [lia|].
        replace (j - idx)%nat with (S (j - S idx)) by lia. auto.
Qed.

Lemma fill_ok syms : forall i table,
  NoDup syms -> (forall x, In x syms -> 0 <= x < Z.of_nat (length table)) ->
  exists table', fill_vocab_indices i syms table = Ok table' /\
    length table' = length table /\
    (forall k, nth_error table' k =
       match index_of (Z.of_nat k) syms with
       | Some j => Some (Z.of_nat (i + j))
       | None => nth_error table k
       end).
Proof.
  induction syms as [|x rest IH]; intros i table Hnd Hr; simpl.
  - eexists; split; [reflexivity|]. split; auto.
  - inversion Hnd; subst. assert (Hx : 0 <= x < Z.of_nat (length table)) by (apply Hr; simpl; auto).
    destruct (Z.leb_spec (Z.of_nat (length table)) x); [lia|].
    destruct (Z.ltb_spec x 0); [lia|].
    unfold vset. destruct (Nat.ltb_spec (Z.to_nat x) (length table)); [|lia]. simpl.
    destruct (IH (S i) (upd table (Z.to_nat x) (Z.of_nat i))) as [t [E1 [E2 E3]]]; auto.
    { intros y Hy. rewrite upd_length. apply Hr; simpl; auto. }
    exists t. split; auto. split; [rewrite E2; apply upd_length|].
    intros k. rewrite E3, nth_error_upd.
    destruct (Z.eqb_spec x (Z.of_nat k)) as [->|Hne].
    + replace (index_of (Z.of_nat k) rest) with (@None nat).
      2:{ symmetry. apply index_of_None; auto. }
      rewrite Nat2Z.id, Nat.eqb_refl.
      destruct (Nat.ltb_spec k (length table)); [|lia]. simpl. f_equal; lia.
    + destruct (index_of (Z.of_nat k) rest) as [j|]; simpl; [f_equal; lia|].
      destruct (Nat.eqb_spec (Z.to_nat x) k); [lia|]; auto.
Qed.

Lemma sorted_last v x : StronglySorted Z.lt v -> In x v -> x <= last v 0.
Proof.
  intros Hs0; revert x; induction Hs0 as [|a l Hs IH Hf]; intros x; [intros []|].
  intros Hin. destruct l as [|y l]; [destruct Hin as [<-|[]]; simpl; lia|].
  change (last (a :: y :: l) 0) with (last (y :: l) 0).
  destruct Hin as [<-|Hin]; auto.
  rewrite Forall_forall in Hf. specialize (Hf y (or_introl eq_refl)).
  assert (y <= last (y :: l) 0) by (apply IH; simpl; auto). lia.
Qed.

(** Building the final object from a vocabulary and counts. *)
Lemma finish_repr v C norm counts m :
  v <> [] -> (forall x, In x v -> 0 <= x) -> StronglySorted Z.lt v ->
  counts = map (fun a => map (C a) v) v ->
  norm = map (fun a => zsum (map (C a) v)) v ->
  (forall a c, In a v -> In c v -> 1 <= C a c) ->
  (let* last := match v with [] => UB | _ => Ok (List.last v 0) end in
   if last =? int32_max then UB
   else
    let* table := fill_vocab_indices 0 v (repeat (-1) (Z.to_nat (last + 1))) in
    Ok {| utf8_indices := v; vocab_indices := table;
          utf8_normalizer := norm; bigram_counts := counts |}) = Ok m ->
  repr m v C.
Proof.
  intros Hne Hnn Hs Hc Hn Hp E.
  destruct v as [|v0 v']; [congruence|]. cbn [bind] in E. set (v := v0 :: v') in *.
  destruct (Z.eqb_spec (last v 0) int32_max); [discriminate|].
  assert (Hl : 0 <= last v 0).
  { assert (v0 <= last v 0) by (apply sorted_last; simpl; auto).
    assert (0 <= v0) by (apply Hnn; simpl; auto). lia. }
  destruct (fill_ok v 0 (repeat (-1) (Z.to_nat (last v 0 + 1)))) as [t [E1 [E2 E3]]].
  { apply sorted_NoDup; auto. }
  { intros x Hx. rewrite repeat_length. pose proof (sorted_last v x Hs Hx).
    specialize (Hnn x Hx). lia. }
  rewrite E1 in E; cbn [bind] in E. injection E as <-.
  constructor; cbn [utf8_indices vocab_indices utf8_normalizer bigram_counts]; auto.
  intros c. unfold sym_state, valid_sym; cbn [vocab_indices]. rewrite E2, repeat_length.
  unfold pos_or_neg1.
  destruct (Z.ltb_spec c (Z.of_nat (Z.to_nat (last v 0 + 1)))); destruct (Z.leb_spec 0 c); cbn [andb].
  - unfold vgetZ, vget. destruct (Z.ltb_spec c 0); [lia|]. rewrite E3, Z2Nat.id by lia.
    destruct (index_of c v) as [j|]; auto.
    rewrite nth_error_repeat; auto. lia.
  - destruct (index_of c v) as [j|] eqn:Ej; auto.
    apply index_of_Some, nth_error_In in Ej. specialize (Hnn c Ej). lia.
  - destruct (index_of c v) as [j|] eqn:Ej; auto.
    apply index_of_Some, nth_error_In in Ej. pose proof (sorted_last v c Hs Ej). lia.
  - lia.
Qed.

Lemma map_const_repeat {A B} (x : B) (l : list A) : map (fun _ => x) l = repeat x (length l).
Proof. induction l; simpl; congruence. Qed.

Lemma zsum_repeat_one n : zsum (repeat 1 n) = Z.of_nat n.
Proof. induction n; cbn [repeat zsum fold_right]; [reflexivity|]. fold zsum. unfold zsum in IHn. rewrite IHn. lia. Qed.

(** The counting function of a matrix. *)
Definition matrix_fun (v : list Z) (M : list (list Z)) (a c : Z) : Z :=
  match index_of a v, index_of c v with
  | Some i, Some j => nth j (nth i M []) 1
  | _, _ => 1
  end.

Lemma nth_error_ext' {A} (l l' : list A) :
  length l = length l' ->
  (forall i x y, nth_error l i = Some x -> nth_error l' i = Some y -> x = y) -> l = l'.
Proof.
  revert l'; induction l as [|x l IH]; intros [|y l']; simpl; intros Hl H; try lia; auto.
  f_equal.
  - apply (H 0%nat); auto.
  - apply IH; [lia|]. intros i a b Ha Hb. apply (H (S i)); auto.
Qed.

Lemma matrix_fun_row v M i a :
  NoDup v -> length M = length v -> (forall row, In row M -> length row = length v) ->
  nth_error v i = Some a -> nth_error M i = Some (map (matrix_fun v M a) v).
Proof.
  intros Hnd Hl Hr Ha.
  assert (Hi : (i < length M)%nat) by (rewrite Hl; eapply nth_error_Some_lt; eauto).
  destruct (nth_error M i) as [row|] eqn:E.
  2:{ apply nth_error_None in E; lia. }
  f_equal. apply nth_error_ext'.
  - rewrite map_length. apply Hr. eapply nth_error_In; eauto.
  - intros j x y Hx Hy. apply nth_error_In in E as Hin.
    assert (Hj : (j < length v)%nat) by (rewrite <- (Hr row Hin); eapply nth_error_Some_lt; eauto).
    destruct (nth_error v j) as [c|] eqn:Ec; [|apply nth_error_None in Ec; lia].
    rewrite (map_nth_error _ _ _ Ec) in Hy. injection Hy as <-.
    unfold matrix_fun. rewrite (index_of_nth v i a), (index_of_nth v j c) by auto.
    rewrite (nth_error_nth M i [] E). symmetry. apply nth_error_nth; auto.
Qed.

Lemma matrix_fun_counts v M :
  NoDup v -> length M = length v -> (forall row, In row M -> length row = length v) ->
  M = map (fun a => map (matrix_fun v M a) v) v.
Proof.
  intros Hnd Hl Hr. apply nth_error_ext'; [rewrite map_length; auto|].
  intros i x y Hx Hy.
  destruct (nth_error v i) as [a|] eqn:Ea.
  - rewrite (map_nth_error _ _ _ Ea) in Hy. injection Hy as <-.
    rewrite (matrix_fun_row v M i a) in Hx by auto. congruence.
  - apply nth_error_None in Ea. apply nth_error_Some_lt in Hx. lia.
Qed.

Lemma Forall2_nth {A B} (R : A -> B -> Prop) l l' :
  Forall2 R l l' <->
  length l = length l' /\
  (forall i x y, nth_error l i = Some x -> nth_error l' i = Some y -> R x y).
Proof.
  split.
  - induction 1 as [|x y l l' Hxy H [IH1 IH2]]; split; simpl; auto.
    + intros [|i] ? ? H1; discriminate.
    + intros [|i] a b Ha Hb; simpl in *; [congruence|eauto].
  - revert l'; induction l as [|x l IH]; intros [|y l'] [Hl H]; simpl in Hl; try lia.
    + constructor.
    + constructor; [apply (H 0%nat); auto|]. apply IH. split; [lia|].
      intros i a b Ha Hb. apply (H (S i)); auto.
Qed.

Definition loaded_from (vf cf : file_arg) (v : list Z) (C : Z -> Z -> Z) : Prop :=
  match vf with
  | None => v = default_vocab /\ (forall a c, C a c = 1)
  | Some f =>
      exists content, f = Some content /\ vocab_of content v /\
      match cf with
      | None => forall a c, C a c = 1
      | Some g => exists matrix, g = Some matrix /\ counts_of matrix v C
      end
  end.

Lemma default_vocab_sorted : StronglySorted Z.lt default_vocab /\ forall x, In x default_vocab -> 0 <= x.
Proof.
  split.
  - unfold default_vocab. repeat (constructor; [|repeat (constructor; [simpl; lia|]); constructor]). constructor.
  - intros x Hx. unfold default_vocab in Hx. simpl in Hx. intuition lia.
Qed.

Lemma uniform_repr v m :
  v <> [] -> (forall x, In x v -> 0 <= x) -> StronglySorted Z.lt v ->
  (let* last := match v with [] => UB | _ => Ok (List.last v 0) end in
   if last =? int32_max then UB
   else
    let* table := fill_vocab_indices 0 v (repeat (-1) (Z.to_nat (last + 1))) in
    Ok {| utf8_indices := v; vocab_indices := table;
          utf8_normalizer := repeat (Z.of_nat (length v)) (length v);
          bigram_counts := repeat (repeat 1 (length v)) (length v) |}) = Ok m ->
  repr m v (fun _ _ => 1).
Proof.
  intros Hne Hnn Hs. apply finish_repr; auto; try lia.
  - rewrite !map_const_repeat. reflexivity.
  - rewrite !map_const_repeat. rewrite zsum_repeat_one. reflexivity.
Qed.

Lemma read_loaded vf cf m :
  bigram_read vf cf = Ok m -> exists v C, repr m v C /\ loaded_from vf cf v C.
Proof.
  unfold bigram_read. destruct vf as [vf|].
  - intros E. apply bind_Ok in E. destruct E as [[[idx norm] counts] [E1 E2]].
    apply bind_Ok in E1. destruct E1 as [v [Ev E1]].
    destruct vf as [content|]; [|discriminate]. simpl in Ev.
    apply read_vocab_lines_ok in Ev. destruct Ev as [V1 [V2 V3]].
    assert (Hnn : forall x, In x v -> 0 <= x) by (intros x Hx; specialize (V3 x Hx); lia).
    destruct cf as [cf|].
    + apply bind_Ok in E1. destruct E1 as [[M norm'] [Em E1]].
      injection E1 as <- <- <-. destruct cf as [matrix|]; [|discriminate]. simpl in Em.
      destruct (read_count_lines_ok _ _ _ _ _ _ Em) as [R1 [R2 [R3 [R4 R5]]]].
      assert (Hlen : length M = length v).
      { rewrite <- (Forall2_length _ _ _ R2), map_length. lia. }
      destruct v as [|v0 v'].
      { destruct M; [|discriminate]. simpl in E2. discriminate. }
      set (v := v0 :: v') in *.
      destruct M as [|row0 M']; [discriminate|]. set (M := row0 :: M') in *.
      assert (Hnd := sorted_NoDup v V2).
      exists v, (matrix_fun v M). split.
      * eapply finish_repr; [| | | | | |exact E2]; auto; try (unfold v; congruence).
        -- apply matrix_fun_counts; auto.
        -- apply nth_error_ext'; [rewrite map_length, R4, repeat_length; auto|].
           intros i x y Hx Hy. rewrite R5, Nat.sub_0_r in Hx.
           destruct (Nat.ltb_spec i 0); [lia|].
           destruct (nth_error v i) as [a|] eqn:Ea.
           ++ rewrite (map_nth_error _ _ _ Ea) in Hy. injection Hy as <-.
              rewrite (matrix_fun_row v M i a) in Hx by auto.
              rewrite nth_error_repeat in Hx by (eapply nth_error_Some_lt; eauto).
              simpl in Hx. injection Hx as <-. reflexivity.
           ++ apply nth_error_None in Ea. apply nth_error_Some_lt in Hy.
              rewrite map_length in Hy. lia.
        -- intros a c Ha Hc. apply In_nth_error in Ha. destruct Ha as [i Hi].
           apply In_nth_error in Hc. destruct Hc as [j Hj].
           pose proof (matrix_fun_row v M i a Hnd Hlen R3 Hi) as Hrow.
           apply Forall2_nth in R2. destruct R2 as [L2 R2].
           assert (Hfi : exists fields, nth_error (map split_space (getlines matrix)) i = Some fields).
           { destruct (nth_error (map split_space (getlines matrix)) i) eqn:E; eauto.
             apply nth_error_None in E. apply nth_error_Some_lt in Hi. lia. }
           destruct Hfi as [fields Hf]. specialize (R2 i fields _ Hf Hrow).
           apply Forall2_nth in R2. destruct R2 as [L3 R2]. rewrite map_length in L3.
           assert (Hfj : exists f, nth_error fields j = Some f).
           { destruct (nth_error fields j) eqn:E; eauto.
             apply nth_error_None in E. apply nth_error_Some_lt in Hj. lia. }
           destruct Hfj as [f Hfj].
           destruct (R2 j f _ Hfj (map_nth_error _ _ _ Hj)) as [z [_ Hz]]. lia.
      * exists content. split; auto. split; [exact V1|]. exists matrix. split; auto.
        unfold counts_of, file_fields. apply Forall2_nth. apply Forall2_nth in R2.
        destruct R2 as [L2 R2]. split; [congruence|].
        intros i fields a Hf Ha. specialize (R2 i fields _ Hf (matrix_fun_row v M i a Hnd Hlen R3 Ha)).
        apply Forall2_nth in R2. destruct R2 as [L3 R2]. rewrite map_length in L3.
        apply Forall2_nth. split; auto. intros j f c Hfj Hc.
        apply (R2 j f); auto. apply map_nth_error; auto.
    + injection E1 as <- <- <-.
      assert (v <> []) by (intros ->; discriminate).
      exists v, (fun _ _ => 1). split.
      * apply uniform_repr; auto.
      * exists content. split; auto.
  - cbn [bind]. intros E. exists default_vocab, (fun _ _ => 1).
    destruct default_vocab_sorted as [S1 S2]. split; [|simpl; auto].
    apply uniform_repr; auto. discriminate.
Qed.

(** * When loading cannot touch memory out of bounds *)

Lemma stoi_not_UB f : stoi f <> UB.
Proof. unfold stoi, parse_int. destruct (match skip_spaces f with [] => _ | _ :: _ => _ end); [|discriminate]. destruct (_ && _); discriminate. Qed.
Lemma stol_not_UB f : stol f <> UB.
Proof. unfold stol, parse_int. destruct (match skip_spaces f with [] => _ | _ :: _ => _ end); [|discriminate]. destruct (_ && _); discriminate. Qed.

Lemma bind_UB A B (x : outcome A) (f : A -> outcome B) :
  bind x f = UB -> x = UB \/ exists a, x = Ok a /\ f a = UB.
Proof. destruct x; simpl; intros; try discriminate; eauto. Qed.

Lemma read_vocab_not_UB lines : forall last, read_vocab_lines last lines <> UB.
Proof.
  induction lines as [|str rest IH]; intros last; cbn [read_vocab_lines]; [discriminate|].
  destruct str as [|c0 str']; [discriminate|].
  destruct (split_space (c0 :: str')) as [|f [|g l]]; try discriminate.
  intros E. apply bind_UB in E. destruct E as [E|[x [_ E]]]; [eapply stoi_not_UB; eauto|].
  destruct (x <=? last); [discriminate|].
  apply bind_UB in E. destruct E as [E|[y [_ E]]]; [eapply IH; eauto|discriminate].
Qed.

Lemma read_count_fields_not_UB fields : forall idx norm,
  (idx < length norm)%nat -> read_count_fields idx fields norm <> UB.
Proof.
  induction fields as [|f rest IH]; intros idx norm Hi; cbn [read_count_fields]; [discriminate|].
  intros E. apply bind_UB in E. destruct E as [E|[z [_ E]]]; [eapply stol_not_UB; eauto|].
  apply bind_UB in E. destruct E as [E|[n [_ E]]].
  { unfold vget in E. destruct (nth_error norm idx) eqn:En; [discriminate|].
    apply nth_error_None in En; lia. }
  unfold vset in E. destruct (Nat.ltb_spec idx (length norm)); [|lia]. cbn [bind] in E.
  apply bind_UB in E. destruct E as [E|[[r n'] [_ E]]]; [|discriminate].
  revert E. apply IH. rewrite upd_length; auto.
Qed.

Lemma read_count_lines_not_UB rows lines : forall idx norm,
  (idx + length lines <= length norm)%nat -> read_count_lines rows idx lines norm <> UB.
Proof.
  induction lines as [|str rest IH]; intros idx norm Hl; cbn [read_count_lines].
  - destruct (idx =? rows)%nat; discriminate.
  - destruct str as [|c0 str']; [discriminate|]. simpl in Hl.
    destruct (negb _); [discriminate|].
    intros E. apply bind_UB in E. destruct E as [E|[[row n'] [E1 E]]].
    + revert E. apply read_count_fields_not_UB. lia.
    + apply bind_UB in E. destruct E as [E|[[m n''] [_ E]]]; [|discriminate].
      revert E. apply IH. apply read_count_fields_ok in E1. destruct E1 as [_ [-> _]]. lia.
Qed.

Lemma fill_not_UB syms : forall i table, fill_vocab_indices i syms table <> UB.
Proof.
  induction syms as [|x rest IH]; intros i table; cbn [fill_vocab_indices]; [discriminate|].
  destruct (Z.leb_spec (Z.of_nat (length table)) x); [discriminate|].
  destruct (Z.ltb_spec x 0); [discriminate|].
  unfold vset. destruct (Nat.ltb_spec (Z.to_nat x) (length table)); [|lia]. cbn [bind]. apply IH.
Qed.

Lemma read_not_UB vf cf :
  (forall content, vf = Some (Some content) ->
     getlines content <> [] /\
     (forall v, vocab_of content v -> ~ In int32_max v) /\
     (forall matrix, cf = Some (Some matrix) ->
        (length (getlines matrix) <= length (getlines content))%nat)) ->
  bigram_read vf cf <> UB.
Proof.
  intros H. unfold bigram_read. intros E. apply bind_UB in E.
  destruct E as [E|[[[idx norm] counts] [E1 E]]].
  - destruct vf as [vf|]; [|discriminate]. apply bind_UB in E. destruct E as [E|[v [Ev E]]].
    + destruct vf as [content|]; [|discriminate]. revert E. apply read_vocab_not_UB.
    + destruct cf as [cf|]; [|discriminate]. apply bind_UB in E.
      destruct E as [E|[[M n'] [_ E]]]; [|discriminate].
      destruct cf as [matrix|]; [|discriminate]. destruct vf as [content|]; [|discriminate].
      revert E. apply read_count_lines_not_UB. rewrite repeat_length. simpl.
      destruct (H content eq_refl) as [_ [_ H3]]. specialize (H3 matrix eq_refl).
      simpl in Ev. apply read_vocab_lines_ok in Ev. destruct Ev as [V1 _].
      apply Forall2_length in V1. rewrite map_length in V1. lia.
  - assert (Hidx : idx <> [] /\ last idx 0 <> int32_max).
    { destruct vf as [vf|].
      - apply bind_Ok in E1. destruct E1 as [v [Ev E1]].
        destruct vf as [content|]; [|discriminate]. simpl in Ev.
        apply read_vocab_lines_ok in Ev. destruct Ev as [V1 _].
        assert (Hv : idx = v).
        { destruct cf as [cf|].
          - apply bind_Ok in E1. destruct E1 as [[M n'] [_ E1]]. congruence.
          - congruence. }
        subst idx. destruct (H content eq_refl) as [H1 [H2 _]].
        assert (Hne : v <> []).
        { intros ->. inversion V1 as [Hnil|]. symmetry in Hnil. apply map_eq_nil in Hnil. auto. }
        split; auto. intros Hl. apply (H2 v V1). rewrite <- Hl.
        destruct (exists_last Hne) as [l [x ->]]. rewrite last_last.
        apply in_or_app; right; simpl; auto.
      - injection E1 as <- <- <-. split; discriminate. }
    destruct Hidx as [Hne Hl].
    destruct (match counts with [] => _ | _ => _ end) as [norm' counts'].
    destruct idx as [|x idx']; [congruence|]. cbn [bind] in E.
    destruct (Z.eqb_spec (last (x :: idx') 0) int32_max); [contradiction|].
    apply bind_UB in E. destruct E as [E|[t [_ E]]]; [|discriminate].
    revert E. apply fill_not_UB.
Qed.

Lemma vocab_of_unique content v v' :
  read_vocab (Some content) = Ok v -> vocab_of content v' -> v' = v.
Proof.
  intros E H. apply read_vocab_lines_ok in E. destruct E as [E _].
  unfold vocab_of, file_fields in H. revert v E. induction H as [|fs x l l' Hx H IH]; intros v E.
  - inversion E; auto.
  - inversion E as [|? y ? l2 Hy E']; subst. f_equal; auto.
    destruct Hx as [f [Hf Hx]], Hy as [g [Hg Hy]]. congruence.
Qed.
