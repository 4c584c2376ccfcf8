(** Read of ppm_as_fst_model.cc for each kind of input. *)
From Coq Require Import Field Permutation.
From Verif Require Import Base Field LmModel TextModel HubModel PpmModel PpmSpec PpmReadModel PpmStruct PpmTrainSpec PpmRef PpmVals PpmCache PpmWf PpmUpdate PpmObserve PpmApi PpmRead PpmRead2 PpmTrain.
Local Open Scope Z_scope.

(** Interning. *)
Lemma mem_Z c l : existsb (Z.eqb c) l = true <-> In c l.
Proof.
  rewrite existsb_exists. split.
  - intros (d & Hd & E). apply Z.eqb_eq in E. subst; auto.
  - intros H. exists c. split; auto. apply Z.eqb_refl.
Qed.
Lemma with_chars_ext text : forall l, exists e, with_chars l text = l ++ e.
Proof.
  induction text as [|c t IH]; intros l; cbn [with_chars]; [exists []; rewrite app_nil_r; auto|].
  destruct (IH (if existsb (Z.eqb c) l then l else l ++ [c])) as [e E]. rewrite E.
  destruct (existsb (Z.eqb c) l); [eauto|]. exists (c :: e). rewrite <- app_assoc. reflexivity.
Qed.
Lemma with_chars_In text : forall l c, In c (with_chars l text) <-> In c l \/ In c text.
Proof.
  induction text as [|d t IH]; intros l c; cbn [with_chars In]; [tauto|]. rewrite IH.
  destruct (existsb (Z.eqb d) l) eqn:E.
  - apply mem_Z in E. split; [tauto|]. intros [H|[->|H]]; auto.
  - rewrite in_app_iff. cbn [In]. tauto.
Qed.
Lemma with_chars_NoDup text : forall l, NoDup l -> NoDup (with_chars l text).
Proof.
  induction text as [|d t IH]; intros l H; cbn [with_chars]; auto. apply IH.
  destruct (existsb (Z.eqb d) l) eqn:E; auto. apply NoDup_snoc; auto. intros K. apply mem_Z in K. congruence.
Qed.
Lemma label_from_app l e : forall i c, In c l -> label_from i (l ++ e) c = label_from i l c.
Proof.
  induction l as [|d t IH]; intros i c H; [destruct H|]. cbn [label_from app].
  destruct (Z.eqb_spec d c); [reflexivity|]. apply IH. destruct H; [congruence|auto].
Qed.
Lemma label_In l : forall i c, In c l -> i <= label_from i l c < i + Z.of_nat (length l).
Proof.
  induction l as [|d t IH]; intros i c H; [destruct H|]. cbn [label_from]. simpl length.
  destruct (Z.eqb_spec d c); [lia|]. destruct H; [congruence|]. specialize (IH (i + 1) c H). lia.
Qed.
Lemma label_nth l : NoDup l -> forall i k c, nth_error l k = Some c -> label_from i l c = i + Z.of_nat k.
Proof.
  induction 1 as [|d t Hd Hn IH]; intros i [|k] c H; cbn [nth_error label_from] in *; try discriminate.
  - injection H as ->. rewrite Z.eqb_refl. lia.
  - destruct (Z.eqb_spec d c) as [->|]; [elim Hd; eapply nth_error_In; eauto|]. rewrite (IH (i + 1) k c H). lia.
Qed.

Lemma intern_ok line : forall syms,
  intern syms line = (map (label_from 1 (with_chars syms line)) line, with_chars syms line).
Proof.
  induction line as [|c t IH]; intros syms; cbn [intern with_chars map]; [reflexivity|].
  rewrite find_sym_label, label_absent by lia.
  assert (Eif : (if negb (existsb (Z.eqb c) syms) then syms ++ [c] else syms) = (if existsb (Z.eqb c) syms then syms else syms ++ [c]))
    by (destruct (existsb (Z.eqb c) syms); reflexivity).
  rewrite Eif, IH. set (s1 := if existsb (Z.eqb c) syms then syms else syms ++ [c]).
  f_equal. f_equal. rewrite find_sym_label. destruct (with_chars_ext t s1) as [e E]. rewrite E. symmetry. apply label_from_app.
  unfold s1. destruct (existsb (Z.eqb c) syms) eqn:Ec; [apply mem_Z; auto|]. apply in_app_iff. right; left; auto.
Qed.
Lemma intern_lines_ok lines : forall syms,
  intern_lines syms lines =
    (map (map (label_from 1 (with_chars syms (concat lines)))) (filter not_blank lines), with_chars syms (concat lines)).
Proof.
  induction lines as [|line t IH]; intros syms; cbn [intern_lines concat filter map].
  - reflexivity.
  - destruct line as [|c line]; [cbn [not_blank app]; apply IH|]. cbn [not_blank].
    rewrite intern_ok, IH, with_chars_app. cbn [map]. f_equal. f_equal.
    destruct (with_chars_ext (concat t) (with_chars syms (c :: line))) as [e E]. rewrite E.
    apply (map_ext_in _ _ (c :: line)). intros d Hd. symmetry. apply label_from_app. apply with_chars_In. auto.
Qed.

Lemma strings_labels lines s x : let syms := with_chars [] (concat lines) in
  In s (strings_of syms lines) -> In x s -> 1 <= x <= Z.of_nat (length syms).
Proof.
  intros syms Hs Hx. unfold strings_of in Hs. apply in_map_iff in Hs. destruct Hs as (line & <- & Hl).
  apply in_map_iff in Hx. destruct Hx as (c & <- & Hc). apply filter_In in Hl. destruct Hl as [Hl _].
  pose proof (label_In syms 1 c) as H. lapply H; [lia|]. apply with_chars_In. right. apply in_concat. eauto.
Qed.
Lemma strings_all lines x : let syms := with_chars [] (concat lines) in
  1 <= x <= Z.of_nat (length syms) -> exists s, In s (strings_of syms lines) /\ In x s.
Proof.
  intros syms Hx. destruct (nth_error syms (Z.to_nat (x - 1))) as [c|] eqn:E; [|apply nth_error_None in E; lia].
  pose proof (nth_error_In _ _ E) as Hin. apply with_chars_In in Hin. destruct Hin as [[]|Hin].
  apply in_concat in Hin. destruct Hin as (line & Hl & Hc). exists (map (label_from 1 syms) line). split.
  - unfold strings_of. apply in_map. apply filter_In. split; auto. destruct line; [destruct Hc|reflexivity].
  - apply in_map_iff. exists c. split; auto.
    rewrite (label_nth syms (with_chars_NoDup _ _ (NoDup_nil _)) 1 _ c E). lia.
Qed.

Section Read3.
  Context {F : ofield}.
  Add Field FfieldPpm11 : (f_th F).
  Notation none := (fun _ : Z => False).

  Variable counter : Z -> list (list Z) -> outcome (list (pstate F) * Z).

  Lemma train_ok n lines beta : counter_contract counter -> 2 <= n -> concat lines <> [] ->
    flt f0 beta = true -> flt beta f1 = true ->
    let syms := with_chars [] (concat lines) in
    exists f start u ctx, train counter n lines = Ok (f, start, syms) /\
      wf (length syms) beta n start u none f ctx /\
      (forall h, In h ctx <-> context n (strings_of syms lines) h) /\
      (forall h x, table ctx f h x = ofZ (trained_counts (length syms) (strings_of syms lines) ctx h x)).
  Proof.
    intros Hcon Hn Hne Hb0 Hb1 syms. unfold train. rewrite intern_lines_ok. fold syms. fold (strings_of syms lines).
    assert (HV : (0 < length syms)%nat).
    { destruct (concat lines) as [|c t] eqn:E; [congruence|]. assert (In c syms).
      { unfold syms. apply with_chars_In. right. left. auto. } destruct syms; [destruct H|simpl; lia]. }
    pose proof (strings_labels lines) as Hok. pose proof (strings_all lines) as Hall. cbn zeta in Hok, Hall. fold syms in Hok, Hall.
    destruct (Hcon n (strings_of syms lines) Hn) as (raw & start & ctx & E & Hc).
    { destruct (Hall 1) as (s & Hs & _); [lia|]. intros K. rewrite K in Hs. destruct Hs. }
    { intros s Hs. split; [|intros x Hx; specialize (Hok s x Hs Hx); lia].
      unfold strings_of in Hs. apply in_map_iff in Hs. destruct Hs as (line & <- & Hl). apply filter_In in Hl.
      destruct line; [destruct Hl; discriminate|discriminate]. }
    rewrite E. cbn [bind].
    destruct (exclusions_ok (length syms) (strings_of syms lines) n raw start ctx Hok Hall HV Hc) as (f1 & E1 & Hsk1).
    unfold f1s in E1. rewrite E1. cbn [bind].
    destruct (prior_ok (length syms) (strings_of syms lines) n raw start ctx Hok Hall HV Hc syms f1 eq_refl Hsk1) as (f2 & E2 & Hsk2).
    rewrite E2. cbn [bind].
    destruct (sk_wf (length syms) (strings_of syms lines) n raw start ctx Hok Hall HV Hn Hc f2 beta Hsk2 Hb1 Hb0) as (u & Hw & Ht).
    exists f2, start, u, ctx. split; [reflexivity|]. split; auto. split; auto. intros h. eapply In_ctx; eauto.
  Qed.

  (** What holds of a model after Read: its histories and counts, and its parameters. *)
  Record loaded (o : ppm_options F) (m : ppm F) (u : Z) (syms : list Z) (K : list history) (C : @counts F) : Prop := {
    ld_inv : inv (length syms) u m K;
    ld_counts : forall h x, table K (p_fst m) h x = C h x;
    ld_syms : p_syms m = syms;
    ld_alpha : p_alpha m = init_alpha o;
    ld_beta : p_beta m = init_beta o;
    ld_static : p_static m = po_static o;
    ld_order : p_max_order m = Z.max (Z.max (init_order o) 2) (1 + fold_right Z.max 0 (map (fun h => Z.of_nat (length h)) K));
    ld_cache : p_max_order m <= p_max_cache m;
    ld_empty : p_caches m = []
  }.

  Lemma max_len_ge (K : list history) h : In h K -> Z.of_nat (length h) <= fold_right Z.max 0 (map (fun h => Z.of_nat (length h)) K).
  Proof. induction K as [|g t IH]; intros H; [destruct H|]. cbn [map fold_right]. destruct H as [->|H]; [lia|]. specialize (IH H). lia. Qed.
  Lemma max_len_le (K : list history) b : 0 <= b -> (forall h, In h K -> Z.of_nat (length h) <= b) ->
    fold_right Z.max 0 (map (fun h => Z.of_nat (length h)) K) <= b.
  Proof.
    intros Hb. induction K as [|g t IH]; intros H; cbn [map fold_right]; [auto|].
    pose proof (H g (or_introl eq_refl)). pose proof (IH ltac:(intros; apply H; right; auto)). lia.
  Qed.

  Lemma end_loaded o (f : list (pstate F)) start syms ctx u mo0 C :
    wf (length syms) (init_beta o) mo0 start u none f ctx -> (forall h x, table ctx f h x = C h x) ->
    exists m, read_end o f start syms = Ok m /\ loaded o m u syms ctx C.
  Proof.
    intros Hw HC. destruct (read_end_ok o f start syms ctx u mo0 Hw) as (m & E & Hi & Hf & Hs & Hsy & Ha & Hb & Hst & H2 & Ho & Hca & Hm & He).
    exists m. split; auto. constructor; auto; [congruence|].
    assert (Hub : forall h, In h ctx -> Z.of_nat (length h) < p_max_order m).
    { intros h Hh. apply In_getZ in Hh. destruct Hh as [s Hh]. eapply (wf_ord _ _ _ _ _ _ _ _ (mi_wf _ _ _ _ _ Hi)); eauto. }
    pose proof (max_len_le ctx (p_max_order m - 1) ltac:(lia) ltac:(intros h Hh; specialize (Hub h Hh); lia)).
    destruct Hm as [Hm|(h & Hh & Hm)]; [lia|]. pose proof (max_len_ge ctx h Hh). unfold olen in Hm. lia.
  Qed.

  (** Reading the vocabulary, after which comes [read_end]. *)
  Lemma read_unfold o model vocab : ppm_read counter o model vocab =
    let* (f, start, syms) :=
      match model with
      | FstModel None => Err
      | FstModel (Some r) => Ok r
      | TextModel None => Err
      | TextModel (Some []) => Ok ([], -1, [])
      | TextModel (Some lines) => train counter (init_order o) lines
      | NoModel => match vocab with None => Err | Some _ => Ok (make_empty, 0, []) end
      end in
    let* (f, syms) :=
      match vocab with
      | None => Ok (f, syms)
      | Some None => Err
      | Some (Some []) => Err
      | Some (Some lines) =>
          let* (f', syms') := add_lines start f syms lines in
          Ok (match model with NoModel => sort_states f' | _ => f' end, syms')
      end in
    read_end o f start syms.
  Proof. reflexivity. Qed.

  Lemma read_vocabulary o lines : concat lines <> [] ->
    let syms := with_chars [] (concat lines) in
    exists m, ppm_read counter o NoModel (Some (Some lines)) = Ok m /\
      loaded o m 1 syms [[0]; []] (prior_counts (length syms)).
  Proof.
    intros Hne syms. rewrite read_unfold. cbn [bind].
    assert (Hready : @ready F (init_beta o) 2 0 1 [[0]; []] make_empty []) by (left; repeat (split; auto); lia).
    destruct (add_lines_ok (init_beta o) 2 0 1 [[0]; []] lines make_empty [] Hready) as (f & E & Hr & Ht).
    assert (HV : (0 < length syms)%nat).
    { destruct (concat lines) as [|c t] eqn:E0; [congruence|]. assert (In c syms).
      { unfold syms. apply with_chars_In. right. left. auto. } destruct syms; [destruct H|simpl; lia]. }
    fold syms in E, Hr, Ht. destruct Hr as [(K & _)|Hw]; [rewrite K in HV; simpl in HV; lia|].
    destruct (end_loaded o (sort_states f) 0 syms [[0]; []] 1 2 (prior_counts (length syms))) as (m & Em & Hm).
    { apply sort_wf. exact Hw. }
    { intros h x. rewrite (table_sorted _ _ _ _ _ _ _ _ _ _ Hw), Ht. unfold add_sym_count, prior_counts.
      destruct (hist_eqb h []) eqn:Eh; cbn [andb].
      - apply hist_eqb_eq in Eh. subst h. cbn [length]. destruct (Z.ltb_spec (Z.of_nat 0) x), (Z.leb_spec x (Z.of_nat (length syms))),
          (Z.leb_spec 0 x); cbn [andb]; try reflexivity; try lia;
        unfold make_empty; cbn [table]; rewrite (hist_eqb_neq [0] []) by discriminate; rewrite hist_eqb_refl; unfold count;
        destruct (Z.eqb_spec x 0); cbn [find_arc ps_final ps_arcs find]; try reflexivity; lia.
      - unfold make_empty. cbn [table]. destruct (hist_eqb [0] h); [unfold count, find_arc; cbn [ps_final ps_arcs find a_label]|].
        + destruct (Z.eqb_spec x 0); [reflexivity|]. destruct (Z.eqb_spec 0 x); [lia|reflexivity].
        + rewrite (hist_eqb_neq [] h) by (intros <-; discriminate). reflexivity. }
    exists m. split; auto. rewrite <- Em. rewrite E. cbn [bind].
    destruct lines; [elim Hne; reflexivity|]. reflexivity.
  Qed.

  (** A further vocabulary. *)
  Definition vocab_file (vocab : option (list (list Z))) : option (option (list (list Z))) :=
    option_map Some vocab.

  Lemma read_more o (f : list (pstate F)) start syms ctx u mo0 C vocab (model : model_file F) : model <> NoModel -> vocab <> Some [] ->
    wf (length syms) (init_beta o) mo0 start u none f ctx -> (forall h x, table ctx f h x = C h x) ->
    let syms' := with_chars syms (vocab_chars vocab) in
    exists m, (let* (f, syms) :=
      match vocab_file vocab with
      | None => Ok (f, syms)
      | Some None => Err
      | Some (Some []) => Err
      | Some (Some lines) =>
          let* (f', syms') := add_lines start f syms lines in
          Ok (match model with NoModel => sort_states f' | _ => f' end, syms')
      end in read_end o f start syms) = Ok m /\
      loaded o m u syms' ctx (add_sym_count (length syms) (length syms') C).
  Proof.
    intros Hm Hv Hw HC. destruct vocab as [lines|]; cbn [vocab_file option_map vocab_chars with_chars].
    - destruct (add_lines_ok (init_beta o) mo0 start u ctx lines f syms ltac:(right; exact Hw)) as (f' & E & Hr & Ht).
      destruct lines as [|line t]; [congruence|]. rewrite E. cbn [bind].
      assert (Hw' : wf (length (with_chars syms (concat (line :: t)))) (init_beta o) mo0 start u none f' ctx).
      { destruct Hr as [(K & _ & _ & _ & _ & _)|Hw']; auto. exfalso. pose proof (with_chars_len (concat (line :: t)) syms) as HL.
        rewrite K in HL. pose proof (wf_V _ _ _ _ _ _ _ _ Hw). simpl in HL. lia. }
      destruct (end_loaded o f' start _ ctx u mo0 (add_sym_count (length syms) (length (with_chars syms (concat (line :: t)))) C) Hw')
        as (m & Em & Hl).
      { intros h x. rewrite Ht. apply add_sym_ext. auto. }
      exists m. split; auto. destruct model; [congruence|exact Em|exact Em].
    - cbn [bind]. destruct (end_loaded o f start syms ctx u mo0 C Hw HC) as (m & Em & Hl). exists m. split; auto.
      destruct Hl. constructor; auto. intros h x. rewrite add_sym_same. auto.
  Qed.

  Lemma read_text o lines vocab : counter_contract counter -> 2 <= init_order o -> concat lines <> [] -> vocab <> Some [] ->
    let syms := with_chars [] (concat lines) in
    let syms' := with_chars syms (vocab_chars vocab) in
    exists m u K, ppm_read counter o (TextModel (Some lines)) (vocab_file vocab) = Ok m /\
      (forall h, In h K <-> context (init_order o) (strings_of syms lines) h) /\
      loaded o m u syms' K (add_sym_count (length syms) (length syms')
        (fun h x => ofZ (trained_counts (length syms) (strings_of syms lines) K h x))).
  Proof.
    intros Hcon Hn Hne Hv syms syms'. destruct (init_beta_ok o) as [Hb0 Hb1].
    destruct (train_ok (init_order o) lines (init_beta o) Hcon Hn Hne Hb0 Hb1) as (f & start & u & ctx & E & Hw & HK & Ht).
    fold syms in E, Hw, HK, Ht.
    destruct (read_more o f start syms ctx u (init_order o) _ vocab (TextModel (Some lines)) ltac:(discriminate) Hv Hw Ht) as (m & Em & Hl).
    exists m, u, ctx. split; [|split; auto]. rewrite <- Em, read_unfold.
    destruct lines as [|line t] eqn:El; [elim Hne; reflexivity|]. rewrite <- El in *. rewrite E. reflexivity.
  Qed.

  Lemma read_fst o f start syms ctx u mo0 vocab : vocab <> Some [] ->
    wf (length syms) (init_beta o) mo0 start u none f ctx ->
    let syms' := with_chars syms (vocab_chars vocab) in
    exists m, ppm_read counter o (FstModel (Some (f, start, syms))) (vocab_file vocab) = Ok m /\
      loaded o m u syms' ctx (add_sym_count (length syms) (length syms') (table ctx f)).
  Proof.
    intros Hv Hw syms'.
    destruct (read_more o f start syms ctx u mo0 _ vocab (FstModel (Some (f, start, syms))) ltac:(discriminate) Hv Hw (fun h x => eq_refl))
      as (m & Em & Hl).
    exists m. split; auto.
  Qed.
End Read3.
