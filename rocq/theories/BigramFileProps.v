(** Property C69: the bigram model loads exactly the table that is written in its files. *)
From Coq Require Import Ascii String.
From Verif Require Import Base Field LmModel TextModel TextSpec TextProofs BigramModel BigramProofs BigramReadProofs BigramProps.
Close Scope string_scope.
Open Scope list_scope.
Local Open Scope Z_scope.

(** ** Reading succeeds *)
Lemma spaced_nonempty f fs : ~ spaced [] (f :: fs).
Proof. intros H. apply spaced_split in H. discriminate H. Qed.

Lemma vocab_lines_ok : forall ls v last,
  Forall2 (fun l x => exists f, spaced l [f] /\ says f x) ls v ->
  StronglySorted Z.lt v -> (forall x, In x v -> last < x /\ int32_min <= x <= int32_max) ->
  read_vocab_lines last ls = Ok v.
Proof.
  intros ls v last H. revert last. induction H as [|l x ls v (f & S & Y) H IH]; intros last So R; [reflexivity|].
  cbn [read_vocab_lines]. destruct l as [|c l]; [destruct (spaced_nonempty _ _ S)|].
  rewrite (spaced_split _ _ S). destruct (R x (or_introl eq_refl)) as [R1 R2].
  rewrite (stoi_says _ _ Y R2). cbn [bind]. destruct (Z.leb_spec x last); [lia|].
  inversion So as [|? ? So1 So2]; subst. rewrite (IH x So1); [reflexivity|].
  intros y Hy. rewrite Forall_forall in So2. split; [apply So2; auto|apply R; right; auto].
Qed.

Lemma count_fields_ok idx : forall fs row norm, (idx < List.length norm)%nat ->
  Forall2 says fs row -> Forall (fun z => int64_min <= z <= int64_max) row ->
  exists norm', read_count_fields idx fs norm = Ok (map (Z.max 1) row, norm') /\ List.length norm' = List.length norm.
Proof.
  intros fs row norm L H. revert norm L. induction H as [|f z fs row Y H IH]; intros norm L R; cbn [read_count_fields].
  - exists norm. auto.
  - inversion R as [|? ? R1 R2]; subst. rewrite (stol_says _ _ Y R1). cbn [bind].
    unfold vget. destruct (nth_error norm idx) as [n|] eqn:E; [|apply nth_error_None in E; lia]. cbn [bind].
    unfold vset. destruct (Nat.ltb_spec idx (List.length norm)); [|lia]. cbn [bind].
    destruct (IH (upd norm idx (n + (if 1 <? z then z else 1)))) as (norm' & E1 & E2); [rewrite upd_length; auto|auto|].
    rewrite E1. cbn [bind]. exists norm'. rewrite upd_length in E2. split; [|auto]. cbn [map].
    destruct (Z.ltb_spec 1 z); do 3 f_equal; lia.
Qed.

Lemma count_lines_ok rows : forall ls m idx norm,
  Forall2 (fun l row => exists fs, spaced l fs /\ Forall2 says fs row) ls m ->
  Forall (fun row => List.length row = rows /\ Forall (fun z => int64_min <= z <= int64_max) row) m ->
  (0 < rows)%nat -> (idx + List.length m = rows)%nat -> List.length norm = rows ->
  exists norm', read_count_lines rows idx ls norm = Ok (map (map (Z.max 1)) m, norm').
Proof.
  intros ls m idx norm H. revert idx norm. induction H as [|l row ls m (fs & S & Y) H IH]; intros idx norm R P L Ln; cbn [read_count_lines].
  - destruct (Nat.eqb_spec idx rows); [|cbn in L; lia]. eexists. reflexivity.
  - apply Forall_cons_iff in R. destruct R as [[R1 R2] R3]. cbn [List.length] in L.
    destruct l as [|c l]; [apply spaced_split in S; cbn in S; subst fs; inversion Y; subst; cbn in *; lia|].
    rewrite (spaced_split _ _ S). rewrite (Forall2_length _ _ _ Y).
    match goal with |- context [negb ?b] => replace b with true by (symmetry; apply Nat.eqb_eq; auto; congruence) end. cbn [negb].
    destruct (count_fields_ok idx fs row norm) as (norm1 & E1 & E2); [lia|auto..|]. rewrite E1. cbn [bind].
    destruct (IH (Datatypes.S idx) norm1) as (norm2 & E3); [auto|auto|lia|lia|]. rewrite E3. cbn [bind]. eexists. reflexivity.
Qed.

(** A vocabulary that can be loaded: symbols in strictly increasing order, from zero to INT_MAX - 1. *)
Definition good_vocabulary (v : list Z) : Prop :=
  v <> [] /\ StronglySorted Z.lt v /\ forall x, In x v -> 0 <= x < 2147483647.
Definition square (n : nat) (rows : list (list Z)) : Prop :=
  List.length rows = n /\ forall row, In row rows -> List.length row = n.
Definition int64s (rows : list (list Z)) : Prop :=
  forall row z, In row rows -> In z row -> - 2 ^ 63 <= z < 2 ^ 63.

Lemma finish_ok v norm counts : good_vocabulary v ->
  exists m, (let* last := match v with [] => UB | _ => Ok (List.last v 0) end in
  if last =? int32_max then UB
  else
    let* table := fill_vocab_indices 0 v (repeat (-1) (Z.to_nat (last + 1))) in
    Ok {| utf8_indices := v; vocab_indices := table; utf8_normalizer := norm; bigram_counts := counts |}) = Ok m /\
   utf8_indices m = v /\ bigram_counts m = counts.
Proof.
  intros (N & So & R).
  assert (E : match v with [] => UB | _ => Ok (List.last v 0) end = Ok (List.last v 0)) by (destruct v; [contradiction|reflexivity]).
  rewrite E. cbn [bind].
  assert (Il : In (List.last v 0) v). { destruct (exists_last N) as (v' & x & ->). rewrite last_last. apply in_or_app. right. left. reflexivity. }
  pose proof (R _ Il) as Rl. unfold int32_max. destruct (Z.eqb_spec (List.last v 0) 2147483647); [lia|].
  destruct (fill_ok v 0 (repeat (-1) (Z.to_nat (List.last v 0 + 1)))) as (t & E1 & _).
  - apply sorted_NoDup; auto.
  - intros x Hx. rewrite repeat_length. pose proof (sorted_last v x So Hx). pose proof (R x Hx). lia.
  - rewrite E1. cbn [bind]. eexists. split; [reflexivity|]. split; reflexivity.
Qed.

Lemma vocab_reads vtext v : good_vocabulary v -> vocabulary_file vtext v -> read_vocab (Some vtext) = Ok v.
Proof.
  intros (N & So & R) (ls & L & H). cbn [read_vocab]. rewrite (lined_getlines _ _ L). apply vocab_lines_ok; auto.
  intros x Hx. specialize (R x Hx). unfold int32_min, int32_max. lia.
Qed.

Lemma symbol_nth v i x : nth_error v i = Some x -> state_symbol v (Z.of_nat i) = x.
Proof.
  intros H. assert (L := H); apply nth_error_Some_lt in L; unfold state_symbol.
  destruct (Z.leb_spec 0 (Z.of_nat i)); [|lia]. destruct (Z.ltb_spec (Z.of_nat i) (Z.of_nat (List.length v))); [|lia].
  cbn [andb]. rewrite Nat2Z.id. apply nth_error_nth. exact H.
Qed.

(** Every table of counts, written in decimal with blanks between the numbers and one row per line, is loaded as it
    is, counts below one as one; and the first thing the model tells about the i-th symbol is the i-th row, divided by
    its sum. *)
Theorem C69_written_counts_load : forall v rows vtext ctext,
  good_vocabulary v -> square (List.length v) rows -> int64s rows ->
  vocabulary_file vtext v -> table_file ctext rows ->
  exists m, bigram_read (Some (Some vtext)) (Some (Some ctext)) = Ok m /\ utf8_indices m = v /\
    bigram_counts m = map (map (Z.max 1)) rows /\
    forall (F : ofield) i row, nth_error rows i = Some row ->
      let counts := map (Z.max 1) row in
      extract_lm_scores (F := F) m (Z.of_nat i) =
        Ok (zsum counts, combine v (map (fun c => Val (fdiv (ofZ c) (ofZ (zsum counts)))) counts)).
Proof.
  intros v rows vtext ctext G [Sq1 Sq2] I V (ls & L & H).
  assert (Nv : v <> []) by apply G.
  pose proof (vocab_reads _ _ G V) as Ev.
  assert (P : (0 < List.length v)%nat) by (destruct v; [contradiction|cbn; lia]).
  destruct (count_lines_ok (List.length v) ls rows 0 (repeat 0 (List.length v)) H) as (norm & Ec); [|auto|cbn; auto|apply repeat_length|].
  { apply Forall_forall. intros row Hr. split; [auto|]. apply Forall_forall. intros z Hz. specialize (I row z Hr Hz). unfold int64_min, int64_max. lia. }
  destruct (finish_ok v norm (map (map (Z.max 1)) rows) G) as (m & Em & M1 & M2).
  assert (Er : bigram_read (Some (Some vtext)) (Some (Some ctext)) = Ok m).
  { unfold bigram_read. rewrite Ev. cbn [bind read_counts]. rewrite (lined_getlines _ _ L), Ec. cbn [bind].
    destruct rows as [|r0 rows0]; [cbn in Sq1; lia|]. exact Em. }
  exists m. split; [exact Er|]. split; [exact M1|]. split; [exact M2|].
  intros F i row Hi counts. destruct (read_loaded _ _ _ Er) as (v' & C & Rp & _).
  pose proof (repr_idx _ _ _ Rp) as Ei. rewrite M1 in Ei. subst v'.
  rewrite (extract_repr m v C (Z.of_nat i) Rp). unfold freq_scores.
  assert (Hv : exists x, nth_error v i = Some x).
  { destruct (nth_error v i) eqn:E; [eauto|]. apply nth_error_None in E. apply nth_error_Some_lt in Hi. lia. }
  destruct Hv as (x & Hx). rewrite (symbol_nth _ _ _ Hx).
  assert (Ex : map (C x) v = counts).
  { pose proof (repr_counts _ _ _ Rp) as Rc. rewrite M2 in Rc.
    assert (A : nth_error (map (map (Z.max 1)) rows) i = Some counts) by (apply map_nth_error; auto).
    rewrite Rc in A. rewrite (map_nth_error _ _ _ Hx) in A. injection A as A. exact A. }
  rewrite <- Ex. do 2 f_equal. generalize (zsum (map (C x) v)). clear. intros n. induction v as [|y t IH]; [reflexivity|]. cbn [map combine]. rewrite IH. reflexivity.
Qed.
Print Assumptions C69_written_counts_load.

(** In particular what one writes with [write_vocabulary] and [write_table]. *)
Corollary C69_round_trip : forall v rows,
  good_vocabulary v -> square (List.length v) rows -> int64s rows ->
  exists m, bigram_read (Some (Some (write_vocabulary v))) (Some (Some (write_table rows))) = Ok m /\
    utf8_indices m = v /\ bigram_counts m = map (map (Z.max 1)) rows.
Proof.
  intros v rows G S I.
  destruct (C69_written_counts_load v rows _ _ G S I (write_vocabulary_file v) (write_table_file rows)) as (m & E1 & E2 & E3 & _). eauto.
Qed.
Print Assumptions C69_round_trip.

(** ** Other tables are refused *)
Lemma vocab_lines_err : forall ls v last,
  Forall2 (fun l x => exists f, spaced l [f] /\ says f x) ls v ->
  (forall x, In x v -> int32_min <= x <= int32_max) ->
  ~ (StronglySorted Z.lt v /\ forall x, In x v -> last < x) ->
  read_vocab_lines last ls = Err.
Proof.
  intros ls v last H. revert last. induction H as [|l x ls v (f & S & Y) H IH]; intros last R N.
  - exfalso. apply N. split; [constructor|intros x []].
  - cbn [read_vocab_lines]. destruct l as [|c l]; [destruct (spaced_nonempty _ _ S)|].
    rewrite (spaced_split _ _ S), (stoi_says _ _ Y) by (apply R; left; auto). cbn [bind].
    destruct (Z.leb_spec x last) as [|Lt]; [reflexivity|]. rewrite IH; [reflexivity|intros y Hy; apply R; right; auto|].
    intros [So Gt]. apply N. split; [constructor; [auto|apply Forall_forall; auto]|].
    intros y [<-|Hy]; [auto|]. specialize (Gt y Hy). lia.
Qed.

Lemma count_lines_err rows : forall ls m idx norm,
  Forall2 (fun l row => exists fs, spaced l fs /\ Forall2 says fs row) ls m ->
  Forall (fun row => Forall (fun z => int64_min <= z <= int64_max) row) m ->
  (idx + List.length m <= rows)%nat -> List.length norm = rows ->
  ~ ((idx + List.length m)%nat = rows /\ forall row, In row m -> List.length row = rows) ->
  read_count_lines rows idx ls norm = Err.
Proof.
  intros ls m idx norm H. revert idx norm. induction H as [|l row ls m (fs & S & Y) H IH]; intros idx norm R L Ln N; cbn [read_count_lines].
  - destruct (Nat.eqb_spec idx rows); [|reflexivity]. exfalso. apply N. split; [cbn; lia|intros row []].
  - apply Forall_cons_iff in R. destruct R as [R1 R2]. cbn [List.length] in L.
    destruct l as [|c l]; [reflexivity|]. rewrite (spaced_split _ _ S), (Forall2_length _ _ _ Y).
    destruct (Nat.eqb_spec (List.length row) rows) as [El|]; [|reflexivity]. cbn [negb].
    destruct (count_fields_ok idx fs row norm) as (norm1 & E1 & E2); [lia|auto..|]. rewrite E1. cbn [bind].
    rewrite IH; [reflexivity|auto|lia|lia|]. intros [N1 N2]. apply N. split; [cbn [List.length]; lia|]. intros r [<-|Hr]; auto.
Qed.

(** A vocabulary that is not increasing or has a negative symbol is refused, and so is a count file with too few rows
    or a row of the wrong length (too many rows: C08_too_many_rows_refuted). *)
Theorem C69_disorder_refused : forall v vtext cf,
  vocabulary_file vtext v -> (forall x, In x v -> - 2 ^ 31 <= x < 2 ^ 31) ->
  ~ (StronglySorted Z.lt v /\ forall x, In x v -> 0 <= x) ->
  bigram_read (Some (Some vtext)) cf = Err.
Proof.
  intros v vtext cf (ls & L & H) R N. unfold bigram_read, read_vocab. rewrite (lined_getlines _ _ L).
  rewrite (vocab_lines_err _ _ _ H); [reflexivity| |].
  - intros x Hx. specialize (R x Hx). unfold int32_min, int32_max. lia.
  - intros [N1 N2]. apply N. split; [auto|]. intros x Hx. specialize (N2 x Hx). lia.
Qed.
Print Assumptions C69_disorder_refused.

Theorem C69_wrong_shape_refused : forall v rows vtext ctext,
  good_vocabulary v -> vocabulary_file vtext v -> table_file ctext rows -> int64s rows ->
  (List.length rows <= List.length v)%nat -> ~ square (List.length v) rows ->
  bigram_read (Some (Some vtext)) (Some (Some ctext)) = Err.
Proof.
  intros v rows vtext ctext G V (ls & L & H) I Le N.
  unfold bigram_read. rewrite (vocab_reads _ _ G V). cbn [bind read_counts]. rewrite (lined_getlines _ _ L).
  rewrite (count_lines_err _ _ _ _ _ H); [reflexivity| |cbn; auto|apply repeat_length|].
  - apply Forall_forall. intros row Hr. apply Forall_forall. intros z Hz. specialize (I row z Hr Hz). unfold int64_min, int64_max. lia.
  - cbn. intros [N1 N2]. apply N. split; auto.
Qed.
Print Assumptions C69_wrong_shape_refused.

Ltac lines_computed := match goal with |- context [getlines ?c] => let x := eval vm_compute in (getlines c) in
  replace (getlines c) with x by (vm_compute; reflexivity) end.
Ltac fields_computed := match goal with |- exists fs, spaced ?l _ /\ _ => let x := eval vm_compute in (split_space l) in
  let E := fresh "E" in assert (E : split_space l = x) by (vm_compute; reflexivity); exists x; split; [rewrite <- E; apply split_spaced|clear E] end.
Ltac field_computed := match goal with |- exists f, spaced ?l [f] /\ _ => let x := eval vm_compute in (split_space l) in
  let y := eval cbv in (hd [] x) in
  let E := fresh "E" in assert (E : split_space l = x) by (vm_compute; reflexivity); exists y; split; [change [y] with x; rewrite <- E; apply split_spaced|clear E] end.
(** The hypotheses are met, by files written in different ways: blanks before and between the numbers, a carriage
    return, no newline at the end. *)
Definition odd_vocab : bytes := bstr "0
 97
98 ".
Definition odd_counts : bytes := bstr "1 2 -3" ++ [ascii_of_nat 13] ++ bstr "
   " ++ [ascii_of_nat 9] ++ bstr "+5   0 6
7 8 9223372036854775807".
Example C69_hypotheses_met :
  good_vocabulary [0; 97; 98] /\ square 3 [[1; 2; -3]; [5; 0; 6]; [7; 8; 9223372036854775807]] /\
  int64s [[1; 2; -3]; [5; 0; 6]; [7; 8; 9223372036854775807]] /\
  vocabulary_file odd_vocab [0; 97; 98] /\ table_file odd_counts [[1; 2; -3]; [5; 0; 6]; [7; 8; 9223372036854775807]] /\
  (let* m := bigram_read (Some (Some odd_vocab)) (Some (Some odd_counts)) in Ok (bigram_counts m)) =
    Ok [[1; 2; 1]; [5; 1; 6]; [7; 8; 9223372036854775807]].
Proof.
  split. { split; [discriminate|]. split; [repeat constructor|]. cbn [In]. intuition lia. }
  split. { split; [reflexivity|]. cbn [In]. intuition (subst; reflexivity). }
  split. { intros row z. cbn [In]. intros [<-|[<-|[<-|[]]]]; cbn [In]; intuition lia. }
  assert (ND : forall c t, (nat_of_ascii c <? 48)%nat || (57 <? nat_of_ascii c)%nat = true -> no_digit_first (c :: t)).
  { intros c t K c' t' [= <- <-]. destruct (Nat.ltb_spec (nat_of_ascii c) 48); [lia|]. destruct (Nat.ltb_spec 57 (nat_of_ascii c)); [lia|discriminate K]. }
  assert (N0 : no_digit_first []) by (intros c t K; discriminate K).
  assert (Sd : forall z f, f = decimal z -> says f z) by (intros z f ->; apply says_decimal).
  split.
  { exists (getlines odd_vocab). split; [apply getlines_lined|]. lines_computed.
    constructor; [|constructor; [|constructor; [|constructor]]]; (field_computed; apply Sd; vm_compute; reflexivity). }
  split; [|vmr].
  exists (getlines odd_counts). split; [apply getlines_lined|]. lines_computed.
  constructor; [|constructor; [|constructor; [|constructor]]];
    fields_computed.
  - constructor; [apply Sd; vm_compute; reflexivity|]. constructor; [apply Sd; vm_compute; reflexivity|]. constructor; [|constructor].
    exists [], [], [ascii_of_nat 13]. split; [vm_compute; reflexivity|]. split; [constructor|]. split; [left; reflexivity|]. apply ND. reflexivity.
  - constructor.
    { exists [ascii_of_nat 9], ["+"%char], []. split; [vm_compute; reflexivity|]. split; [|split; [right; split; [reflexivity|lia] | exact N0]].
      constructor; [left; vm_compute; lia | constructor]. }
    repeat (constructor; [apply Sd; vm_compute; reflexivity|]). constructor.
  - repeat (constructor; [apply Sd; vm_compute; reflexivity|]). constructor.
Qed.
Example C69_refused_met : vocabulary_file (bstr "98
97
") [98; 97] /\ ~ (StronglySorted Z.lt [98; 97] /\ forall x, In x [98; 97] -> 0 <= x).
Proof.
  split.
  - exists (getlines (bstr "98
97
")). split; [apply getlines_lined|]. lines_computed. constructor; [|constructor; [|constructor]]; (field_computed; exists [], [], []; split; [vm_compute; reflexivity|]; split; [constructor|]; split; [left; reflexivity|]; intros c t K; discriminate K).
  - intros [S _]. inversion S as [|? ? ? F]; subst. inversion F; lia.
Qed.
