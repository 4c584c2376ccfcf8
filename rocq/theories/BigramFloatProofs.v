(** The double-precision bigram model simulates the exact one as far as control flow and counts
    are concerned, and its normalizers stand for the exact totals in the sense of [near]. *)
From Coq Require Import ZArith Reals.
From Flocq Require Import Core BinarySingleNaN.
From Coq Require Import Ascii String List Lia Sorted.
From Verif Require Import Base Field LmModel TextModel BigramModel BigramProofs BigramReadProofs
  BigramFloatModel BigramFloatNum.
Close Scope string_scope.
Open Scope list_scope.
Local Notation length := List.length.
Local Open Scope Z_scope.

(** Two outcomes of the same kind, with related values. *)
Inductive orel {A B} (R : A -> B -> Prop) : outcome A -> outcome B -> Prop :=
| orel_Ok a b : R a b -> orel R (Ok a) (Ok b)
| orel_Err : orel R Err Err
| orel_Crash : orel R Crash Crash
| orel_UB : orel R UB UB.

Lemma orel_bind {A B A' B'} (R : A -> B -> Prop) (S : A' -> B' -> Prop) x y f g :
  orel R x y -> (forall a b, R a b -> orel S (f a) (g b)) -> orel S (bind x f) (bind y g).
Proof. intros [a b H| | |] K; cbn [bind]; [apply K, H|constructor|constructor|constructor]. Qed.

Lemma orel_same {A A' B'} (S : A' -> B' -> Prop) (x : outcome A) f g :
  (forall a, x = Ok a -> orel S (f a) (g a)) -> orel S (bind x f) (bind x g).
Proof. intros K. destruct x; cbn [bind]; [apply K; reflexivity|constructor..]. Qed.

Lemma orel_vget {A B} (R : A -> B -> Prop) l l' i : Forall2 R l l' -> orel R (vget l i) (vget l' i).
Proof.
  intros H. revert i. induction H as [|x y l l' Hxy H IH]; intros [|i]; unfold vget; simpl; try constructor; auto.
  apply IH.
Qed.

Lemma orel_vgetZ {A B} (R : A -> B -> Prop) l l' i : Forall2 R l l' -> orel R (vgetZ l i) (vgetZ l' i).
Proof. intros H. unfold vgetZ. destruct (i <? 0); [constructor|apply orel_vget; auto]. Qed.

Lemma Forall2_upd {A B} (R : A -> B -> Prop) l l' i x y :
  Forall2 R l l' -> R x y -> Forall2 R (upd l i x) (upd l' i y).
Proof.
  intros H. revert i. induction H as [|a b l l' Hab H IH]; intros [|i] Hxy; simpl; constructor; auto.
Qed.

Lemma orel_vset {A B} (R : A -> B -> Prop) l l' i x y :
  Forall2 R l l' -> R x y -> orel (Forall2 R) (vset l i x) (vset l' i y).
Proof.
  intros H Hxy. unfold vset. rewrite (Forall2_length _ _ _ H).
  destruct (i <? length l')%nat; [|constructor]. constructor. apply Forall2_upd; auto.
Qed.

Lemma stol_range f z : stol f = Ok z -> z <= int64_max.
Proof.
  unfold stol, parse_int. destruct (match skip_spaces f with [] => _ | _ => _ end); [|discriminate].
  destruct ((int64_min <=? z0) && (z0 <=? int64_max)) eqn:E; [|discriminate]. intros [= <-].
  apply andb_prop in E. destruct E as [_ E]. apply Z.leb_le. exact E.
Qed.

Lemma stoi_range f z : stoi f = Ok z -> z <= int32_max.
Proof.
  unfold stoi, parse_int. destruct (match skip_spaces f with [] => _ | _ => _ end); [|discriminate].
  destruct ((int32_min <=? z0) && (z0 <=? int32_max)) eqn:E; [|discriminate]. intros [= <-].
  apply andb_prop in E. destruct E as [_ E]. apply Z.leb_le. exact E.
Qed.

Definition row_ok (r : list Z) : Prop := Forall (fun c => 1 <= c <= int64_max) r.

Definition sim_rows (p : list Z * list double) (q : list Z * list Z) : Prop :=
  fst p = fst q /\ row_ok (fst p) /\ Forall2 near (snd p) (snd q).
Definition sim_matrix (p : list (list Z) * list double) (q : list (list Z) * list Z) : Prop :=
  fst p = fst q /\ Forall row_ok (fst p) /\ Forall2 near (snd p) (snd q).

Lemma sim_fields fields : forall idx n1 n2, Forall2 near n1 n2 ->
  orel sim_rows (d_read_count_fields idx fields n1) (read_count_fields idx fields n2).
Proof.
  induction fields as [|f rest IH]; intros idx n1 n2 N; cbn [d_read_count_fields read_count_fields].
  - constructor. split; [reflexivity|]. split; [constructor|exact N].
  - apply orel_same. intros z Ez. cbv zeta. set (c := if 1 <? z then z else 1).
    assert (Hc : 1 <= c <= int64_max).
    { pose proof (stol_range f z Ez). unfold c. destruct (Z.ltb_spec 1 z); [lia|unfold int64_max; lia]. }
    eapply orel_bind; [apply orel_vget; exact N|]. intros x n Hx.
    eapply orel_bind; [apply orel_vset; [exact N|]|].
    { apply near_add; [exact Hx|]. lia. }
    intros m1 m2 M. eapply orel_bind; [apply (IH idx m1 m2 M)|].
    intros [r1 k1] [r2 k2] [E [O K]]. cbn [fst snd] in *. subst r2. constructor.
    split; [reflexivity|]. split; [constructor; [exact Hc|exact O]|exact K].
Qed.

Lemma sim_lines rows lines : forall idx n1 n2, Forall2 near n1 n2 ->
  orel sim_matrix (d_read_count_lines rows idx lines n1) (read_count_lines rows idx lines n2).
Proof.
  induction lines as [|str rest IH]; intros idx n1 n2 N; cbn [d_read_count_lines read_count_lines].
  - destruct (idx =? rows)%nat; constructor. split; [reflexivity|]. split; [constructor|exact N].
  - destruct str as [|c0 str']; [constructor|]. cbv zeta.
    destruct (negb _); [constructor|].
    eapply orel_bind; [apply sim_fields; exact N|]. intros [r1 k1] [r2 k2] [E [O K]]. cbn [fst snd] in *.
    eapply orel_bind; [apply IH; exact K|]. intros [m1 j1] [m2 j2] [E' [O' K']]. cbn [fst snd] in *.
    subst. constructor. split; [reflexivity|]. split; [constructor; auto|exact K'].
Qed.

(** The same model, with related normalizers. *)
Record sim (d : dbigram) (m : bigram) : Prop := {
  sim_idx : d_indices d = utf8_indices m;
  sim_table : d_table d = vocab_indices m;
  sim_counts : d_counts d = bigram_counts m;
  sim_ok : Forall row_ok (d_counts d);
  sim_norm : Forall2 near (d_norm d) (utf8_normalizer m)
}.

Lemma Forall2_repeat {A B} (R : A -> B -> Prop) x y n : R x y -> Forall2 R (repeat x n) (repeat y n).
Proof. intros H. induction n; simpl; constructor; auto. Qed.

Lemma row_ok_ones n : row_ok (repeat 1 n).
Proof. apply Forall_forall. intros x Hx. apply repeat_spec in Hx. unfold int64_max. lia. Qed.

Lemma sorted_short v B : 0 <= B + 1 -> StronglySorted Z.lt v -> (forall x, In x v -> 0 <= x <= B) ->
  Z.of_nat (length v) <= B + 1.
Proof.
  intros L S H.
    assert (I : incl v (map Z.of_nat (seq 0 (Z.to_nat (B + 1))))).
    { intros x Hx. apply in_map_iff. exists (Z.to_nat x). specialize (H x Hx). split; [lia|].
      apply in_seq. lia. }
    apply NoDup_incl_length in I; [|apply sorted_NoDup; exact S].
    rewrite map_length, seq_length in I. lia.
Qed.

Lemma read_vocab_short f v : read_vocab f = Ok v -> Z.of_nat (length v) <= 2 ^ 31.
Proof.
  destruct f as [content|]; [|discriminate]. cbn [read_vocab]. intros E.
  apply read_vocab_lines_ok in E. destruct E as [V1 [V2 V3]].
  assert (U : Forall (fun x => x <= int32_max) v).
  { clear V2 V3. induction V1 as [|? ? ? ? [f [_ Hf]] _ IH]; constructor; auto.
    eapply stoi_range; eauto. }
  rewrite Forall_forall in U.
  pose proof (sorted_short v int32_max ltac:(vm_compute; discriminate) V2) as K. unfold int32_max in *.
  apply Z.le_trans with (2147483647 + 1); [|lia]. apply K. intros x Hx.
  specialize (V3 x Hx). specialize (U x Hx). cbv beta in U. lia.
Qed.

Definition sim_start (p : list Z * list double * list (list Z)) (q : list Z * list Z * list (list Z)) : Prop :=
  fst (fst p) = fst (fst q) /\ snd p = snd q /\ Forall row_ok (snd p) /\
  Z.of_nat (length (fst (fst p))) <= 2 ^ 31 /\
  (snd p <> [] -> Forall2 near (snd (fst p)) (snd (fst q))).

Lemma sim_read vf cf : orel sim (d_bigram_read vf cf) (bigram_read vf cf).
Proof.
  unfold d_bigram_read, bigram_read.
  apply (orel_bind sim_start).
  - destruct vf as [vf|].
    + apply orel_same. intros v Ev. pose proof (read_vocab_short vf v Ev) as Sv. cbv zeta.
      destruct cf as [cf|].
      * apply (orel_bind sim_matrix).
        -- destruct cf as [content|]; [|constructor]. apply sim_lines. apply Forall2_repeat.
           apply near_of_Z. lia.
        -- intros [m1 n1] [m2 n2] [E [O K]]. cbn [fst snd] in *. subst m2. constructor.
           repeat split; auto.
      * constructor. repeat split; cbn [fst snd]; auto. congruence.
    + constructor. repeat split; cbn [fst snd]; auto; try congruence; vm_compute; discriminate.
  - intros [[i1 n1] c1] [[i2 n2] c2] [E1 [E2 [O [L N]]]]. cbn [fst snd] in *. subst i2 c2. cbv zeta.
    assert (K : forall nn1 nn2 cc, Forall2 near nn1 nn2 -> Forall row_ok cc ->
      orel sim
        (let* last := match i1 with [] => UB | _ => Ok (List.last i1 0) end in
         if last =? int32_max then UB
         else let* table := fill_vocab_indices 0 i1 (repeat (-1) (Z.to_nat (last + 1))) in
              Ok {| d_indices := i1; d_table := table; d_norm := nn1; d_counts := cc |})
        (let* last := match i1 with [] => UB | _ => Ok (List.last i1 0) end in
         if last =? int32_max then UB
         else let* table := fill_vocab_indices 0 i1 (repeat (-1) (Z.to_nat (last + 1))) in
              Ok {| utf8_indices := i1; vocab_indices := table; utf8_normalizer := nn2; bigram_counts := cc |})).
    { intros nn1 nn2 cc Hn Hc. apply orel_same. intros last _.
      destruct (last =? int32_max); [constructor|]. apply orel_same. intros table _. constructor.
      constructor; auto. }
    destruct c1 as [|r c1].
    + apply K.
      * apply Forall2_repeat. apply near_of_Z. lia.
      * apply Forall_forall. intros x Hx. apply repeat_spec in Hx. subst x. apply row_ok_ones.
    + apply K; [apply N; discriminate|exact O].
Qed.

Lemma sim_sym d m c : sim d m -> sym_state (d_view d) c = sym_state m c.
Proof. intros S. unfold sym_state, valid_sym, d_view; cbn. rewrite (sim_table _ _ S). reflexivity. Qed.

Lemma sim_valid d m s : sim d m -> valid_state (d_view d) s = valid_state m s.
Proof. intros S. unfold valid_state, d_view; cbn. rewrite (sim_idx _ _ S). reflexivity. Qed.

Lemma sim_fix d m s : sim d m -> fix_state (d_view d) s = fix_state m s.
Proof. intros S. unfold fix_state. rewrite (sim_valid d m s S). reflexivity. Qed.

Lemma vgetZ_In {A} (l : list A) i x : vgetZ l i = Ok x -> In x l.
Proof.
  unfold vgetZ, vget. destruct (i <? 0); [discriminate|]. destruct (nth_error l (Z.to_nat i)) eqn:E; [|discriminate].
  intros [= <-]. eapply nth_error_In; eauto.
Qed.

Lemma Forall_upd {A} (P : A -> Prop) l i x : Forall P l -> P x -> Forall P (upd l i x).
Proof. intros H. revert i. induction H; intros [|i] Hx; simpl; constructor; auto. Qed.

Lemma sim_loop n syms : 0 < n -> forall d m s, sim d m ->
  orel sim (d_update_loop d s syms n) (update_loop m s syms n).
Proof.
  intros Hn. induction syms as [|c t IH]; intros d m s S; cbn [d_update_loop update_loop].
  - constructor. exact S.
  - unfold next_state. rewrite (sim_sym d m c S). apply orel_same. intros next _.
    destruct (next <? 0); [apply IH; exact S|].
    eapply orel_bind; [apply orel_vgetZ, (sim_norm _ _ S)|]. intros x k Hx.
    rewrite (sim_counts _ _ S). apply orel_same. intros row Er. apply orel_same. intros cnt Ec.
    destruct (Z.ltb_spec int64_max (cnt + n)) as [L|L]; [constructor|]. cbv zeta.
    apply IH. pose proof (sim_ok _ _ S) as O. rewrite (sim_counts _ _ S) in O.
    assert (Or : row_ok row) by (rewrite Forall_forall in O; apply O; eapply vgetZ_In; eauto).
    assert (Oc : 1 <= cnt <= int64_max).
    { unfold row_ok in Or. rewrite Forall_forall in Or. apply Or. eapply vgetZ_In; eauto. }
    constructor; cbn [d_indices d_table d_norm d_counts utf8_indices vocab_indices utf8_normalizer bigram_counts].
    + apply (sim_idx _ _ S).
    + apply (sim_table _ _ S).
    + reflexivity.
    + apply Forall_upd; [exact O|]. apply Forall_upd; [exact Or|lia].
    + apply Forall2_upd; [apply (sim_norm _ _ S)|]. apply near_add; [exact Hx|lia].
Qed.

Lemma sim_update d m s syms n : sim d m ->
  orel sim (d_update_lm_counts d s syms n) (update_lm_counts m s syms n).
Proof.
  intros S. unfold d_update_lm_counts, update_lm_counts. destruct (Z.leb_spec n 0).
  - constructor. exact S.
  - rewrite (sim_fix d m s S). apply sim_loop; auto.
Qed.

Lemma sim_run h : forall d m, sim d m -> orel sim (d_bigram_run d h) (bigram_run m h).
Proof.
  induction h as [|[[s syms] n] h IH]; intros d m S; cbn [d_bigram_run bigram_run].
  - constructor. exact S.
  - eapply orel_bind; [apply sim_update; exact S|]. intros d' m' S'. apply IH. exact S'.
Qed.

(** ** The reply *)

Lemma d_extract_loop_spec f norm w v :
  d_extract_loop (length w) (map f v) (w ++ v) norm =
  Ok (map (fun c => (c, d_div (d_of_Z (f c)) norm)) v).
Proof.
  revert w. induction v as [|x v IH]; intros w; cbn [d_extract_loop map]; auto.
  unfold vget. rewrite nth_error_app2 by lia. rewrite Nat.sub_diag. cbn [nth_error bind].
  replace (w ++ x :: v) with ((w ++ [x]) ++ v) by (rewrite <- app_assoc; auto).
  replace (S (length w)) with (length (w ++ [x])) by (rewrite app_length; simpl; lia).
  rewrite IH. reflexivity.
Qed.

(** What a double-precision model reports, given its exact counterpart. *)
Lemma d_extract_repr d m v C s : sim d m -> repr m v C ->
  let a := state_symbol v s in
  exists norm, near norm (zsum (map (C a) v)) /\ In a v /\
    d_extract_lm_scores d s = Ok (norm, map (fun c => (c, d_div (d_of_Z (C a c)) norm)) v).
Proof.
  intros S H a. destruct (fix_state_spec m v C s H) as [Hr Hn].
  assert (Ha : In a v) by (eapply nth_error_In; eauto).
  pose proof (orel_vgetZ near _ _ (fix_state m s) (sim_norm _ _ S)) as N.
  rewrite (repr_norm _ _ _ H) in N. rewrite (vgetZ_map _ _ _ _ _ _ (proj1 Hr) Hn) in N.
  inversion N as [norm b Hb E1 E2| | |]; subst.
  exists norm. split; [exact Hb|]. split; [exact Ha|].
  unfold d_extract_lm_scores. rewrite (sim_fix d m s S). rewrite <- E1. cbn [bind].
  rewrite (sim_counts _ _ S), (repr_counts _ _ _ H).
  rewrite (vgetZ_map _ _ _ _ _ _ (proj1 Hr) Hn). cbn [bind].
  rewrite (sim_idx _ _ S), (repr_idx _ _ _ H).
  pose proof (d_extract_loop_spec (C a) norm [] v) as E. cbn [length app] in E. fold a. rewrite E.
  reflexivity.
Qed.

Lemma d_sym_repr d m v C s c : sim d m -> repr m v C -> In c v ->
  forall norm scores, d_extract_lm_scores d s = Ok (norm, scores) ->
  d_sym_lm_score d s c = Ok (d_div (d_of_Z (C (state_symbol v s) c)) norm).
Proof.
  intros S H Hc norm scores. destruct (fix_state_spec m v C s H) as [Hr Hn].
  unfold d_extract_lm_scores, d_sym_lm_score. rewrite (sim_fix d m s S).
  destruct (vgetZ (d_norm d) (fix_state m s)) as [x| | |]; cbn [bind]; try discriminate.
  rewrite (sim_counts _ _ S), (repr_counts _ _ _ H).
  rewrite (vgetZ_map _ _ _ _ _ _ (proj1 Hr) Hn). cbn [bind].
  rewrite (sim_idx _ _ S), (repr_idx _ _ _ H).
  pose proof (d_extract_loop_spec (C (state_symbol v s)) x [] v) as E. cbn [length app] in E. rewrite E.
  cbn [bind]. intros [= <- _].
  unfold next_state. rewrite (sim_sym d m c S), (repr_table _ _ _ H). unfold pos_or_neg1.
  destruct (index_of c v) as [j|] eqn:Ej; [|apply index_of_None in Ej; contradiction].
  cbn [bind]. pose proof (index_of_lt _ _ _ Ej) as Lj. apply index_of_Some in Ej.
  rewrite !(sim_valid d m _ S).
  replace (valid_state m (fix_state m s)) with true.
  replace (valid_state m (Z.of_nat j)) with true. cbn [andb].
  - rewrite (vgetZ_map _ _ (C (state_symbol v s)) v (Z.of_nat j) c); [reflexivity|lia|rewrite Nat2Z.id; exact Ej].
  - symmetry. apply (valid_state_iff m v C _ H). lia.
  - symmetry. apply (valid_state_iff m v C _ H). exact Hr.
Qed.
