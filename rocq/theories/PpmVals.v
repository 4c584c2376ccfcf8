(** The vectors computed for a cache entry are those of the blending along the back-off chain. *)
From Coq Require Import Field.
From Verif Require Import Base Field LmModel TextModel HubModel PpmModel PpmSpec PpmStruct.
Local Open Scope Z_scope.

Section Symbols.
  Variable V : nat.
  Notation symbols := (symbols V).

  Lemma symbols_length : length symbols = S V.
  Proof. unfold PpmSpec.symbols. rewrite map_length, seq_length. reflexivity. Qed.
  Lemma symbols_In x : In x symbols <-> 0 <= x <= Z.of_nat V.
  Proof.
    unfold PpmSpec.symbols. rewrite in_map_iff. split.
    - intros (n & <- & Hn). apply in_seq in Hn. lia.
    - intros H. exists (Z.to_nat x). rewrite in_seq. lia.
  Qed.
  Lemma symbols_NoDup : NoDup symbols.
  Proof.
    unfold PpmSpec.symbols. apply FinFun.Injective_map_NoDup; [|apply seq_NoDup].
    intros a b; lia.
  Qed.
  Lemma symbols_nth i : nth_error symbols i = if (i <=? V)%nat then Some (Z.of_nat i) else None.
  Proof.
    unfold PpmSpec.symbols. destruct (Nat.leb_spec i V).
    - rewrite nth_error_map. rewrite (nth_error_nth' _ 0%nat) by (rewrite seq_length; lia).
      rewrite seq_nth by lia. reflexivity.
    - apply nth_error_None. rewrite map_length, seq_length. lia.
  Qed.
  Lemma symbols_cons : symbols = 0 :: map Z.of_nat (seq 1 V).
  Proof. reflexivity. Qed.

  Lemma nth_ext_eq {A} (l l' : list A) : (forall i, nth_error l i = nth_error l' i) -> l = l'.
  Proof.
    revert l'; induction l as [|a t IH]; intros [|b t'] H; auto.
    - specialize (H 0%nat); discriminate.
    - specialize (H 0%nat); discriminate.
    - f_equal; [specialize (H 0%nat); injection H; auto|].
      apply IH. intros i. apply (H (S i)).
  Qed.

  Lemma upd_map_symbols {A} (g : Z -> A) x a : 0 <= x <= Z.of_nat V ->
    upd (map g symbols) (Z.to_nat x) a = map (fun y => if y =? x then a else g y) symbols.
  Proof.
    intros Hx. apply nth_ext_eq. intros i.
    rewrite nth_error_upd, map_length, symbols_length, !nth_error_map, symbols_nth.
    destruct (Nat.leb_spec i V); simpl.
    - destruct (Nat.eqb_spec (Z.to_nat x) i); simpl.
      + destruct (Nat.ltb_spec (Z.to_nat x) (S V)); [|lia].
        destruct (Z.eqb_spec (Z.of_nat i) x); [reflexivity|lia].
      + destruct (Z.eqb_spec (Z.of_nat i) x); [lia|reflexivity].
    - destruct (Nat.eqb_spec (Z.to_nat x) i); simpl; [lia|reflexivity].
  Qed.

  Lemma vsetZ_map_symbols {A} (g : Z -> A) x a : 0 <= x <= Z.of_nat V ->
    vsetZ (map g symbols) x a = Ok (map (fun y => if y =? x then a else g y) symbols).
  Proof.
    intros Hx. rewrite vsetZ_Ok by (rewrite map_length, symbols_length; lia).
    rewrite upd_map_symbols by lia. reflexivity.
  Qed.
  Lemma getZ_map_symbols {A} (g : Z -> A) x : 0 <= x <= Z.of_nat V ->
    getZ (map g symbols) x = Some (g x).
  Proof.
    intros Hx. unfold getZ. destruct (Z.ltb_spec x 0); [lia|].
    rewrite nth_error_map, symbols_nth. destruct (Nat.leb_spec (Z.to_nat x) V); [|lia].
    simpl. rewrite Z2Nat.id by lia. reflexivity.
  Qed.
  Lemma repeat_symbols {A} (a : A) : repeat a (S V) = map (fun _ => a) symbols.
  Proof.
    assert (G : forall n k, repeat a n = map (fun _ : Z => a) (map Z.of_nat (seq k n))).
    { induction n as [|n IH]; intros k; simpl; [reflexivity|]. rewrite (IH (S k)). reflexivity. }
    apply G.
  Qed.
End Symbols.

Section Vals.
  Context {F : ofield}.
  Add Field FfieldPpm2 : (f_th F).

  (** Sums. *)
  Lemma fold_left_fadd (l : list (car F)) x : fold_left fadd l x = fadd x (fsum l).
  Proof.
    revert x; induction l as [|a t IH]; intros x; simpl; [ring|].
    rewrite IH. unfold fsum; simpl. ring.
  Qed.

  Lemma softmax_plain (ps : list (car F)) : fsum ps <> f0 ->
    (let* ps' := softmax_renormalize ps in plain_probs ps') =
    Ok (map (fun p => fdiv p (fsum ps)) ps).
  Proof.
    intros H. destruct ps as [|x t]; [elim H; reflexivity|].
    unfold softmax_renormalize. rewrite fold_left_fadd.
    change (fadd x (fsum t)) with (fsum (x :: t)). cbn [bind].
    set (tot := fsum (x :: t)) in *. clearbody tot.
    generalize (x :: t). induction l as [|p l IH]; [reflexivity|].
    cbn [map plain_probs]. unfold num_div at 1.
    destruct (feqb tot f0) eqn:E; [apply feqb_eq in E; congruence|].
    rewrite IH. reflexivity.
  Qed.

  (** Arcs. *)
  Lemma find_arc_In (l : list (arc F)) x a : find_arc l x = Some a -> In a l /\ a_label a = x.
  Proof. intros H. apply find_some in H. destruct H as [H E]. apply Z.eqb_eq in E. auto. Qed.
  Lemma find_arc_None (l : list (arc F)) x : find_arc l x = None <-> ~ In x (map (@a_label F) l).
  Proof.
    split.
    - intros H Hin. apply in_map_iff in Hin. destruct Hin as (a & E & Hin).
      pose proof (find_none _ _ H _ Hin) as K. simpl in K. apply Z.eqb_neq in K. auto.
    - intros H. destruct (find_arc l x) as [a|] eqn:E; auto. apply find_arc_In in E.
      destruct E as [Hin E]. elim H. apply in_map_iff. eauto.
  Qed.
  Lemma find_arc_nodup (l : list (arc F)) a : NoDup (map (@a_label F) l) -> In a l ->
    find_arc l (a_label a) = Some a.
  Proof.
    induction l as [|b t IH]; simpl; intros Hn Hin; [tauto|].
    inversion Hn as [|? ? Hnb Hnt]; subst.
    destruct Hin as [->|Hin]; [rewrite Z.eqb_refl; reflexivity|].
    destruct (Z.eqb_spec (a_label b) (a_label a)) as [E|E].
    - elim Hnb. rewrite E. apply in_map; auto.
    - apply IH; auto.
  Qed.
  Lemma find_arc_cons (a : arc F) l x :
    find_arc (a :: l) x = if a_label a =? x then Some a else find_arc l x.
  Proof. reflexivity. Qed.

  Variable V : nat.
  Notation symbols := (symbols V).

  Lemma good_find_0 low (l : list (arc F)) : good_arcs V low l -> find_arc l 0 = None.
  Proof.
    intros [_ H]. apply find_arc_None. intros Hin. apply in_map_iff in Hin.
    destruct Hin as (a & E & Hin). apply H in Hin. lia.
  Qed.

  (** The total and the number of symbols seen at a state. *)
  Lemma fsum_filter_pos {A} (g : A -> car F) (p : A -> bool) l :
    (forall x, In x l -> p x = false -> g x = f0) ->
    fsum (map g (filter p l)) = fsum (map g l).
  Proof.
    induction l as [|x t IH]; simpl; intros H; [reflexivity|].
    destruct (p x) eqn:E; simpl; rewrite IH by (intros; apply H; auto); [reflexivity|].
    rewrite (H x) by auto. unfold fsum; simpl; ring.
  Qed.

  Lemma good_perm low (l : list (arc F)) : good_arcs V low l ->
    Permutation (filter (fun x => match find_arc l x with Some _ => true | None => false end)
                   (map Z.of_nat (seq 1 V)))
                (map (@a_label F) l).
  Proof.
    intros [Hn Hl]. apply NoDup_Permutation; auto.
    - apply NoDup_filter. apply FinFun.Injective_map_NoDup; [|apply seq_NoDup]. intros a b; lia.
    - intros x. rewrite filter_In. split.
      + intros [_ H]. destruct (find_arc l x) as [a|] eqn:E; [|discriminate].
        apply find_arc_In in E. destruct E as [Hin <-]. apply in_map; auto.
      + intros H. apply in_map_iff in H. destruct H as (a & <- & Hin).
        rewrite (find_arc_nodup _ _ Hn Hin). split; auto.
        apply Hl in Hin. apply in_map_iff. exists (Z.to_nat (a_label a)). rewrite in_seq. lia.
  Qed.

  Definition rcount (l : list (arc F)) (x : Z) : car F :=
    match find_arc l x with Some a => a_count a | None => f0 end.

  Lemma good_sum low l : good_arcs V low l ->
    fsum (map (rcount l) (map Z.of_nat (seq 1 V))) = fsum (map (@a_count F) l).
  Proof.
    intros H. rewrite <- (fsum_filter_pos _ (fun x => match find_arc l x with Some _ => true | None => false end)).
    2:{ intros x _ E. unfold rcount. destruct (find_arc l x); [discriminate|reflexivity]. }
    rewrite (fsum_perm _ _ (Permutation_map (rcount l) (good_perm _ _ H))).
    rewrite map_map. f_equal. apply map_ext_in. intros a Hin. unfold rcount.
    rewrite (find_arc_nodup l a); auto. apply H.
  Qed.

  Lemma good_kinds low l : fle f0 low = true -> good_arcs V low l ->
    length (filter (fun x => flt f0 (rcount l x)) (map Z.of_nat (seq 1 V))) = length l.
  Proof.
    intros Hlow H. rewrite <- (map_length (@a_label F) l), <- (Permutation_length (good_perm _ _ H)).
    f_equal. apply filter_ext. intros x. unfold rcount.
    destruct (find_arc l x) as [a|] eqn:E.
    - apply find_arc_In in E. apply (fle_lt_trans _ low); auto. apply H; tauto.
    - destruct (flt f0 f0) eqn:E2; auto. elim (flt_irrefl _ E2).
  Qed.

  Lemma flt_00 : flt (@f0 F) f0 = false.
  Proof. destruct (flt f0 f0) eqn:E; auto. elim (flt_irrefl _ E). Qed.

  (** A state with a back-off arc. *)
  Section State.
    Variables (beta : car F) (st : pstate F) (S : car F) (b : Z) (rest : list (arc F)).
    Hypothesis Hbeta : fle f0 beta = true.
    Hypothesis Harcs : ps_arcs st = Arc 0 S b :: rest.
    Hypothesis Hgood : good_arcs V beta rest.
    Hypothesis Hfin : ps_final st = f0 \/ flt beta (ps_final st) = true.

    Lemma count_eps x : x <> 0 -> count st x = rcount rest x.
    Proof.
      intros Hx. unfold count, rcount. destruct (Z.eqb_spec x 0); [congruence|].
      rewrite Harcs, find_arc_cons. cbn [a_label]. destruct (Z.eqb_spec 0 x); [congruence|]. reflexivity.
    Qed.
    Lemma stotal_eps : stotal V st = fadd (ps_final st) (fsum (map (@a_count F) rest)).
    Proof.
      unfold stotal. rewrite symbols_cons. cbn [map]. unfold fsum at 1. cbn [fold_right].
      fold (fsum (map (count st) (map Z.of_nat (seq 1 V)))). f_equal.
      rewrite <- (good_sum _ _ Hgood). f_equal. apply map_ext_in. intros x Hx.
      apply count_eps. apply in_map_iff in Hx. destruct Hx as (n & <- & Hn). apply in_seq in Hn. lia.
    Qed.
    Lemma skinds_eps : skinds V st =
      Z.of_nat (length rest) + (if feqb (ps_final st) f0 then 0 else 1).
    Proof.
      unfold skinds. rewrite symbols_cons. cbn [filter]. unfold count at 1.
      replace (0 =? 0) with true by reflexivity.
      assert (E : length (filter (fun x => flt f0 (count st x)) (map Z.of_nat (seq 1 V))) = length rest).
      { rewrite <- (good_kinds _ _ Hbeta Hgood). f_equal. apply filter_ext_in. intros x Hx.
        rewrite count_eps; auto. apply in_map_iff in Hx. destruct Hx as (n & <- & Hn).
        apply in_seq in Hn. lia. }
      destruct Hfin as [E0|E1].
      - rewrite E0, flt_00, feqb_refl, E. lia.
      - assert (P : flt f0 (ps_final st) = true) by (eapply fle_lt_trans; eauto).
        rewrite P. cbn [length]. rewrite E.
        destruct (feqb (ps_final st) f0) eqn:E2; [|lia].
        apply feqb_eq in E2. rewrite E2 in P. elim (flt_irrefl _ P).
    Qed.
    Lemma pos_eps x : x <> 0 ->
      flt f0 (count st x) = match find_arc rest x with Some _ => true | None => false end.
    Proof.
      intros Hx. rewrite count_eps by auto. unfold rcount.
      destruct (find_arc rest x) as [a|] eqn:E; [|apply flt_00].
      apply find_arc_In in E. apply (fle_lt_trans _ beta); auto. apply Hgood; tauto.
    Qed.
    Lemma final_eps : flt f0 (ps_final st) = negb (feqb (ps_final st) f0).
    Proof.
      destruct Hfin as [E0|E1].
      - rewrite E0, flt_00, feqb_refl. reflexivity.
      - assert (P : flt f0 (ps_final st) = true) by (eapply fle_lt_trans; eauto).
        rewrite P. destruct (feqb (ps_final st) f0) eqn:E2; auto.
        apply feqb_eq in E2. rewrite E2 in P. elim (flt_irrefl _ P).
    Qed.
    Lemma count_nonneg x : fle f0 (count st x) = true.
    Proof.
      destruct (Z.eqb_spec x 0) as [->|Hx].
      - unfold count. simpl. destruct Hfin as [->|E]; [apply fle_refl|].
        apply flt_le. eapply fle_lt_trans; eauto.
      - rewrite count_eps by auto. unfold rcount. destruct (find_arc rest x) as [a|] eqn:E; [|apply fle_refl].
        apply find_arc_In in E. apply flt_le, (fle_lt_trans _ beta); auto. apply Hgood; tauto.
    Qed.
    Lemma count_low x : flt f0 (count st x) = true -> flt beta (count st x) = true.
    Proof.
      destruct (Z.eqb_spec x 0) as [->|Hx].
      - unfold count. simpl. intros H. destruct Hfin as [E|E]; auto.
        rewrite E in H. elim (flt_irrefl _ H).
      - rewrite count_eps by auto. unfold rcount. destruct (find_arc rest x) as [a|] eqn:E.
        + intros _. apply find_arc_In in E. apply Hgood; tauto.
        + intros H. elim (flt_irrefl _ H).
    Qed.
  End State.

  Lemma fill_arcs_ok (m : ppm F) s uni den (l : list (arc F)) : forall o d p,
    NoDup (map (@a_label F) l) ->
    (forall a, In a l -> 1 <= a_label a <= Z.of_nat V /\
                         (uni = false -> flt (p_beta m) (a_count a) = true)) ->
    fill_arcs m s uni den l (map o symbols, map d symbols, map p symbols) =
    Ok (Some (map (fun y => match find_arc l y with Some _ => s | None => o y end) symbols,
              map (fun y => match find_arc l y with Some a => a_next a | None => d y end) symbols,
              map (fun y => match find_arc l y with
                            | Some a => if uni then fdiv (a_count a) den
                                        else fadd (p y) (fdiv (fsub (a_count a) (p_beta m)) den)
                            | None => p y end) symbols)).
  Proof.
    induction l as [|a t IH]; intros o d p Hn Hl; [reflexivity|].
    inversion Hn as [|? ? Hna Hnt]; subst.
    destruct (Hl a (or_introl eq_refl)) as [Hr Hc].
    cbn [fill_arcs]. destruct (Z.leb_spec (a_label a) 0); [lia|].
    rewrite map_length, symbols_length. destruct (Z.leb_spec (Z.of_nat (S V)) (a_label a)); [lia|].
    rewrite !vsetZ_map_symbols by lia. cbn [bind].
    rewrite (vgetZ_Some _ _ _ (getZ_map_symbols V p (a_label a) ltac:(lia))). cbn [bind].
    unfold update_index_prob.
    replace (if uni then Some (fdiv (a_count a) den)
             else if fle (a_count a) (p_beta m) then None
                  else Some (fadd (p (a_label a)) (fdiv (fsub (a_count a) (p_beta m)) den)))
      with (Some (if uni then fdiv (a_count a) den
                  else fadd (p (a_label a)) (fdiv (fsub (a_count a) (p_beta m)) den))).
    2:{ destruct uni; [reflexivity|]. specialize (Hc eq_refl). unfold flt in Hc.
        destruct (fle (a_count a) (p_beta m)); [discriminate|reflexivity]. }
    rewrite vsetZ_map_symbols by lia. cbn [bind].
    rewrite IH; [|exact Hnt|intros; apply Hl; right; auto].
    apply find_arc_None in Hna.
    do 2 f_equal. f_equal; [f_equal|]; apply map_ext; intros y; rewrite find_arc_cons, (Z.eqb_sym (a_label a));
      (destruct (Z.eqb_spec y (a_label a)) as [->|Hne]; [rewrite Hna|]; reflexivity).
  Qed.

  (** Chains of sound states. *)
  Inductive good_chain (beta : car F) : list (Z * pstate F) -> Prop :=
  | gc_u u st : good_arcs V f0 (ps_arcs st) -> length (ps_arcs st) = V -> (0 < V)%nat ->
      flt f0 (ps_final st) = true -> good_chain beta [(u, st)]
  | gc_s s st S b rest p l : ps_arcs st = Arc 0 S b :: rest -> good_arcs V beta rest ->
      (ps_final st = f0 \/ flt beta (ps_final st) = true) ->
      S = (if seen_nothing st rest then f1
           else fadd (ps_final st) (fsum (map (@a_count F) rest))) ->
      good_chain beta (p :: l) -> good_chain beta ((s, st) :: p :: l).

  (** The unigram state. *)
  Lemma uni_count (st : pstate F) x : good_arcs V f0 (ps_arcs st) -> length (ps_arcs st) = V ->
    1 <= x <= Z.of_nat V -> exists a, find_arc (ps_arcs st) x = Some a.
  Proof.
    intros H Hlen Hx. destruct (find_arc (ps_arcs st) x) eqn:E; eauto.
    apply find_arc_None in E. exfalso. apply E.
    assert (I : incl (map Z.of_nat (seq 1 V)) (map (@a_label F) (ps_arcs st))).
    { apply NoDup_length_incl.
      - apply H.
      - rewrite !map_length, seq_length. lia.
      - intros y Hy. apply in_map_iff in Hy. destruct Hy as (a & <- & Ha). apply H in Ha.
        apply in_map_iff. exists (Z.to_nat (a_label a)). rewrite in_seq. lia. }
    apply I. apply in_map_iff. exists (Z.to_nat x). rewrite in_seq. lia.
  Qed.
  Lemma uni_pos (st : pstate F) x : good_arcs V f0 (ps_arcs st) -> length (ps_arcs st) = V ->
    flt f0 (ps_final st) = true -> In x symbols -> flt f0 (count st x) = true.
  Proof.
    intros H Hlen Hf Hx. apply symbols_In in Hx. unfold count. destruct (Z.eqb_spec x 0); auto.
    destruct (uni_count st x H Hlen ltac:(lia)) as [a E]. rewrite E. apply find_arc_In in E.
    apply H; tauto.
  Qed.
  Lemma stotal_uni (st : pstate F) : good_arcs V f0 (ps_arcs st) ->
    stotal V st = fadd (ps_final st) (fsum (map (@a_count F) (ps_arcs st))).
  Proof.
    intros H. unfold stotal. rewrite symbols_cons. cbn [map]. unfold fsum at 1. cbn [fold_right].
    fold (fsum (map (count st) (map Z.of_nat (seq 1 V)))). f_equal.
    rewrite <- (good_sum _ _ H). f_equal. apply map_ext_in. intros x Hx.
    apply in_map_iff in Hx. destruct Hx as (n & <- & Hn). apply in_seq in Hn.
    unfold count. destruct (Z.eqb_spec (Z.of_nat n) 0); [lia|]. reflexivity.
  Qed.
  Lemma total_from_noeps (l : list (arc F)) acc : (forall a, In a l -> a_label a <> 0) ->
    total_from acc l = fadd acc (fsum (map (@a_count F) l)).
  Proof.
    revert acc; induction l as [|a t IH]; intros acc H; cbn [total_from map]; [unfold fsum; simpl; ring|].
    destruct (Z.eqb_spec (a_label a) 0) as [E|E]; [elim (H a); auto; left; auto|].
    rewrite IH by (intros; apply H; right; auto). unfold fsum; simpl. ring.
  Qed.

  Section Alpha.
    Variables alpha beta : car F.
    Hypothesis Halpha : flt f0 alpha = true.
    Hypothesis Hbeta : flt f0 beta = true.

    Lemma gc_total_nonneg p l : good_chain beta (p :: l) -> fle f0 (stotal V (snd p)) = true.
    Proof.
      intros H. unfold stotal. apply fsum_nonneg. intros y Hy. apply in_map_iff in Hy.
      destruct Hy as (x & <- & Hx). inversion H; subst; simpl.
      - apply flt_le, uni_pos; auto.
      - eapply count_nonneg; eauto. apply flt_le; auto.
    Qed.

    Lemma cprob_pos l : good_chain beta l -> forall x, In x symbols ->
      flt f0 (cprob V alpha beta l x) = true.
    Proof.
      induction 1 as [u st Hg Hlen HV Hf|s st S b rest p l Ha Hg Hf HS Hc IH]; intros x Hx.
      - cbn [cprob]. apply fdiv_pos; [apply uni_pos; auto|].
        unfold stotal. apply fsum_pos_all.
        + rewrite symbols_cons. discriminate.
        + intros y Hy. apply in_map_iff in Hy. destruct Hy as (z & <- & Hz). apply uni_pos; auto.
      - specialize (IH x Hx). destruct p as [s' st']. cbn [cprob] in *. apply fdiv_pos.
        + apply fadd_pos_r.
          * destruct (flt f0 (count st x)) eqn:E; [|apply fle_refl].
            apply flt_le. apply flt_sub. rewrite <- flt_sub.
            replace (fsub (count st x) beta) with (fsub (count st x) beta) by reflexivity.
            apply -> (flt_sub beta). eapply (count_low beta st S b rest); eauto; apply flt_le; auto.
          * apply fmul_pos; auto. apply fadd_pos_r; auto. apply fmul_nonneg; [|apply flt_le; auto].
            apply ofZ_nonneg. unfold skinds. lia.
        + apply fadd_pos_r; auto.
          apply (gc_total_nonneg (s, st) ((s', st') :: l)). econstructor; eauto.
    Qed.

    Lemma fsum_if_pos (c : Z -> car F) l :
      (forall x, In x l -> flt f0 (c x) = true \/ c x = f0) ->
      fsum (map (fun x => if flt f0 (c x) then fsub (c x) beta else f0) l) =
      fsub (fsum (map c l)) (fmul (ofZ (Z.of_nat (length (filter (fun x => flt f0 (c x)) l)))) beta).
    Proof.
      induction l as [|x t IH]; intros H; cbn [map filter].
      - unfold fsum; simpl. ring.
      - unfold fsum in *. cbn [fold_right]. rewrite IH by (intros; apply H; right; auto).
        destruct (flt f0 (c x)) eqn:E.
        + cbn [length]. rewrite Nat2Z.inj_succ, <- Z.add_1_r, ofZ_add, ofZ_1. ring.
        + destruct (H x (or_introl eq_refl)) as [E2|E2]; [congruence|]. rewrite E2. ring.
    Qed.

    Lemma cprob_sum l : good_chain beta l -> fsum (map (cprob V alpha beta l) symbols) = f1.
    Proof.
      induction 1 as [u st Hg Hlen HV Hf|s st S b rest p l Ha Hg Hf HS Hc IH].
      - cbn [cprob]. rewrite (fsum_map_div _ (count st)).
        2:{ apply fpos_neq. apply fsum_pos_all.
            + rewrite symbols_cons. discriminate.
            + intros y Hy. apply in_map_iff in Hy. destruct Hy as (z & <- & Hz). apply uni_pos; auto. }
        apply fdiv_self. apply fpos_neq. apply fsum_pos_all.
        + rewrite symbols_cons. discriminate.
        + intros y Hy. apply in_map_iff in Hy. destruct Hy as (z & <- & Hz). apply uni_pos; auto.
      - destruct p as [s' st'].
        assert (HD : flt f0 (fadd (stotal V st) alpha) = true).
        { apply fadd_pos_r; auto. apply (gc_total_nonneg (s, st) ((s', st') :: l)). econstructor; eauto. }
        change (cprob V alpha beta ((s, st) :: (s', st') :: l)) with
          (fun x => fdiv (fadd (if flt f0 (count st x) then fsub (count st x) beta else f0)
                         (fmul (fadd (fmul (ofZ (skinds V st)) beta) alpha)
                               (cprob V alpha beta ((s', st') :: l) x)))
                         (fadd (stotal V st) alpha)).
        rewrite (fsum_map_div _ (fun x => fadd (if flt f0 (count st x) then fsub (count st x) beta else f0)
                         (fmul (fadd (fmul (ofZ (skinds V st)) beta) alpha)
                               (cprob V alpha beta ((s', st') :: l) x)))) by (apply fpos_neq; auto).
        rewrite fsum_map_add, fsum_map_mul, IH, fsum_if_pos.
        2:{ intros x _. destruct (flt f0 (count st x)) eqn:E; auto. right.
            assert (fle f0 (count st x) = true)
              by (eapply (count_nonneg beta st S b rest); eauto; apply flt_le; auto).
            unfold flt in E. rewrite negb_false_iff in E. apply fle_antisym; auto. }
        fold (skinds V st). fold (stotal V st).
        replace (fadd (fsub (stotal V st) (fmul (ofZ (skinds V st)) beta))
                      (fmul (fadd (fmul (ofZ (skinds V st)) beta) alpha) f1))
          with (fadd (stotal V st) alpha) by ring.
        apply fdiv_self, fpos_neq; auto.
    Qed.

    (** A state without observations has the vectors of its back-off state. *)
    Lemma cvals_nothing start s st S b rest p l :
      good_chain beta ((s, st) :: p :: l) -> ps_arcs st = Arc 0 S b :: rest ->
      seen_nothing st rest = true ->
      cvals V alpha beta start ((s, st) :: p :: l) = cvals V alpha beta start (p :: l).
    Proof.
      intros H Ha Hn. unfold seen_nothing in Hn. apply andb_true_iff in Hn. destruct Hn as [E1 E2].
      apply feqb_eq in E1. apply Nat.eqb_eq in E2. destruct rest; [|discriminate].
      assert (C0 : forall x, count st x = f0).
      { intros x. unfold count. rewrite Ha, E1. destruct (Z.eqb_spec x 0); [reflexivity|].
        rewrite find_arc_cons. cbn [a_label]. destruct (Z.eqb_spec 0 x); [congruence|]. reflexivity. }
      assert (T0 : stotal V st = f0).
      { unfold stotal. rewrite (map_ext _ (fun _ => f0)) by auto. apply fsum_map_zero. }
      assert (K0 : skinds V st = 0).
      { unfold skinds. rewrite (filter_ext _ (fun _ => false)).
        - induction symbols; auto.
        - intros x. rewrite C0. apply flt_00. }
      destruct p as [s' st']. unfold cvals. f_equal.
      - apply map_ext. intros x. cbn [corigin]. rewrite C0, flt_00. reflexivity.
      - apply map_ext. intros x. cbn [cdest]. rewrite C0, flt_00. reflexivity.
      - apply map_ext. intros x.
        change (cprob V alpha beta ((s, st) :: (s', st') :: l) x) with
          (fdiv (fadd (if flt f0 (count st x) then fsub (count st x) beta else f0)
                         (fmul (fadd (fmul (ofZ (skinds V st)) beta) alpha)
                               (cprob V alpha beta ((s', st') :: l) x)))
                         (fadd (stotal V st) alpha)).
        rewrite C0, flt_00, T0, K0, ofZ_0.
        set (c := cprob _ _ _ _ _).
        replace (fadd f0 alpha) with alpha by ring.
        replace (fadd f0 (fmul (fadd (fmul f0 beta) alpha) c)) with (fmul alpha c) by ring.
        field. apply fpos_neq; auto.
      - cbn [cnorm]. rewrite T0, feqb_refl. reflexivity.
    Qed.
  End Alpha.

  Lemma find_arc_pos0 low (l : list (arc F)) y : good_arcs V low l -> y = 0 -> find_arc l y = None.
  Proof. intros H ->. eapply good_find_0; eauto. Qed.

  (** UpdateCacheAtNonEmptyState computes the vectors of the chain. *)
  Lemma nonempty_state_ok (m : ppm F) s st p l b S rest :
    flt f0 (p_alpha m) = true -> flt f0 (p_beta m) = true ->
    getZ (p_fst m) s = Some st -> good_chain (p_beta m) ((s, st) :: p :: l) ->
    ps_arcs st = Arc 0 S b :: rest -> 0 <= b -> seen_nothing st rest = false ->
    update_cache_at_nonempty m s b (cvals V (p_alpha m) (p_beta m) (p_start m) (p :: l)) =
    allocate_and_store m s (cvals V (p_alpha m) (p_beta m) (p_start m) ((s, st) :: p :: l)).
  Proof.
    intros Halpha Hbeta Hst Hgc Harcs Hb Hobs.
    inversion Hgc as [|s0 st0 S0 b0 rest0 p0 l0 Ha Hg Hf HS Hc]; subst.
    rewrite Harcs in Ha. injection Ha as Ha1 Ha2 Ha3. rewrite <- Ha3 in *. subst b0. clear rest0 Ha3.
    assert (Hbl : fle f0 (p_beta m) = true) by (apply flt_le; auto).
    rewrite Hobs in Ha1.
    pose proof (stotal_eps (p_beta m) st S b rest Hbl Harcs Hg Hf) as HT.
    pose proof (skinds_eps (p_beta m) st S b rest Hbl Harcs Hg Hf) as HK.
    assert (HD : flt f0 (fadd (stotal V st) (p_alpha m)) = true).
    { apply fadd_pos_r; auto. exact (gc_total_nonneg (p_beta m) Hbeta _ _ Hgc). }
    assert (HSt : S = stotal V st) by (rewrite HT; exact Ha1).
    unfold update_cache_at_nonempty. rewrite (vgetZ_Some _ _ _ Hst). cbn [bind].
    destruct (Z.leb_spec 0 b); [|lia]. cbn [negb].
    unfold total_state_count. rewrite Harcs. cbn [total_from a_label a_count].
    replace (0 =? 0) with true by reflexivity. cbn iota. rewrite HSt.
    set (den := fadd (stotal V st) (p_alpha m)) in *.
    unfold init_cache_states, init_cache_probs. cbn [v_origins v_dests v_probs cvals].
    rewrite Harcs. cbn [length].
    replace (if feqb (ps_final st) f0 then Z.of_nat (Datatypes.S (length rest)) - 1
             else Z.of_nat (Datatypes.S (length rest))) with (skinds V st).
    2:{ rewrite HK. destruct (feqb (ps_final st) f0); lia. }
    set (gamma := fdiv (fadd (fmul (ofZ (skinds V st)) (p_beta m)) (p_alpha m)) den).
    set (pl := p :: l) in *.
    rewrite map_map.
    (* the final weight *)
    unfold update_cache_states_and_probs.
    assert (V1 : (if negb (feqb (ps_final st) f0)
       then
        let* o' := vset (map (corigin pl) symbols) 0 s in
        let* d' := vset (map (cdest (p_start m) pl) symbols) 0 (p_start m) in
        let* p0 := vget (map (fun x => fmul (cprob V (p_alpha m) (p_beta m) pl x) gamma) symbols) 0 in
        match update_index_prob (ps_final st) (p_beta m) den p0 false with
        | Some p' =>
            let* ps' := vset (map (fun x => fmul (cprob V (p_alpha m) (p_beta m) pl x) gamma) symbols) 0 p' in
            Ok (Some (o', d', ps'))
        | None => Ok None
        end
       else Ok (Some (map (corigin pl) symbols, map (cdest (p_start m) pl) symbols,
                      map (fun x => fmul (cprob V (p_alpha m) (p_beta m) pl x) gamma) symbols))) =
      Ok (Some (map (fun y => if (y =? 0) && flt f0 (ps_final st) then s else corigin pl y) symbols,
                map (fun y => if (y =? 0) && flt f0 (ps_final st) then p_start m
                              else cdest (p_start m) pl y) symbols,
                map (fun y => if (y =? 0) && flt f0 (ps_final st)
                              then fadd (fmul (cprob V (p_alpha m) (p_beta m) pl y) gamma)
                                        (fdiv (fsub (ps_final st) (p_beta m)) den)
                              else fmul (cprob V (p_alpha m) (p_beta m) pl y) gamma) symbols))).
    { rewrite (final_eps (p_beta m) st Hbl Hf).
      destruct (feqb (ps_final st) f0) eqn:E0; cbn [negb].
      - do 2 f_equal. f_equal; [f_equal|]; apply map_ext; intros y; rewrite andb_false_r; reflexivity.
      - destruct Hf as [Hf|Hf]; [apply feqb_eq in Hf; congruence|].
        assert (VS : forall A (g : Z -> A) a,
          vset (map g symbols) 0 a = Ok (map (fun y => if y =? 0 then a else g y) symbols)).
        { intros A g a. rewrite <- vsetZ_map_symbols by lia. reflexivity. }
        rewrite !VS. cbn [bind].
        change (vget ?l 0) with (vgetZ l 0).
        rewrite (vgetZ_Some _ _ _ (getZ_map_symbols V _ 0 ltac:(lia))). cbn [bind].
        unfold update_index_prob, flt in *. destruct (fle (ps_final st) (p_beta m)); [discriminate|].
        rewrite VS. cbn [bind]. do 2 f_equal. f_equal; [f_equal|]; apply map_ext; intros y;
          rewrite andb_true_r; destruct (Z.eqb_spec y 0) as [->|]; reflexivity. }
    rewrite V1. clear V1. cbn [bind].
    rewrite Harcs. cbn [fill_arcs a_label]. replace (0 <=? 0) with true by reflexivity. cbn iota.
    rewrite fill_arcs_ok.
    2:{ apply Hg. }
    2:{ intros a Hin. destruct Hg as [_ Hg]. destruct (Hg a Hin). split; auto. }
    cbn [bind].
    assert (HP : map (fun y => match find_arc rest y with
            | Some a => fadd (if (y =? 0) && flt f0 (ps_final st)
                              then fadd (fmul (cprob V (p_alpha m) (p_beta m) pl y) gamma)
                                        (fdiv (fsub (ps_final st) (p_beta m)) den)
                              else fmul (cprob V (p_alpha m) (p_beta m) pl y) gamma)
                             (fdiv (fsub (a_count a) (p_beta m)) den)
            | None => if (y =? 0) && flt f0 (ps_final st)
                              then fadd (fmul (cprob V (p_alpha m) (p_beta m) pl y) gamma)
                                        (fdiv (fsub (ps_final st) (p_beta m)) den)
                              else fmul (cprob V (p_alpha m) (p_beta m) pl y) gamma
            end) symbols = map (cprob V (p_alpha m) (p_beta m) ((s, st) :: pl)) symbols).
    { apply map_ext_in. intros y Hy. apply symbols_In in Hy.
      change (cprob V (p_alpha m) (p_beta m) ((s, st) :: pl) y) with
        (fdiv (fadd (if flt f0 (count st y) then fsub (count st y) (p_beta m) else f0)
                    (fmul (fadd (fmul (ofZ (skinds V st)) (p_beta m)) (p_alpha m))
                          (cprob V (p_alpha m) (p_beta m) pl y))) den).
      unfold gamma. set (c := cprob _ _ _ _ _). assert (Hne : den <> f0) by (apply fpos_neq; auto).
      destruct (Z.eqb_spec y 0) as [->|Hy0]; cbn [andb].
      - rewrite (good_find_0 _ _ Hg). change (count st 0) with (ps_final st).
        destruct (flt f0 (ps_final st)); field; auto.
      - rewrite (pos_eps (p_beta m) st S b rest Hbl Harcs Hg) by auto.
        rewrite (count_eps st S b rest Harcs) by auto. unfold rcount.
        destruct (find_arc rest y); field; auto. }
    rewrite HP. clear HP.
    assert (HS1 : fsum (map (cprob V (p_alpha m) (p_beta m) ((s, st) :: pl)) symbols) = f1).
    { apply cprob_sum; auto. }
    pose proof (softmax_plain (map (cprob V (p_alpha m) (p_beta m) ((s, st) :: pl)) symbols)) as HSP.
    rewrite HS1 in HSP. specialize (HSP (@f1_neq_0 F)).
    destruct (softmax_renormalize (map (cprob V (p_alpha m) (p_beta m) ((s, st) :: pl)) symbols)) as [ps1| | |];
      try discriminate HSP.
    cbn [bind] in HSP |- *. rewrite HSP. cbn [bind]. rewrite map_map.
    rewrite (map_ext _ (cprob V (p_alpha m) (p_beta m) ((s, st) :: pl))) by (intros; apply fdiv_1).
    f_equal. unfold cvals. f_equal.
    - apply map_ext_in. intros y Hy. unfold pl. cbn [corigin]. fold pl.
      destruct (Z.eqb_spec y 0) as [->|Hy0]; cbn [andb].
      + rewrite (good_find_0 _ _ Hg). reflexivity.
      + rewrite (pos_eps (p_beta m) st S b rest Hbl Harcs Hg) by auto.
        destruct (find_arc rest y); reflexivity.
    - apply map_ext_in. intros y Hy. unfold pl. cbn [cdest]. fold pl. unfold sdest.
      destruct (Z.eqb_spec y 0) as [->|Hy0]; cbn [andb].
      + rewrite (good_find_0 _ _ Hg). reflexivity.
      + rewrite (pos_eps (p_beta m) st S b rest Hbl Harcs Hg) by auto.
        rewrite Harcs, find_arc_cons. cbn [a_label]. destruct (Z.eqb_spec 0 y); [congruence|].
        destruct (find_arc rest y); reflexivity.
    - unfold pl. cbn [cnorm]. fold pl. destruct (feqb (stotal V st) f0) eqn:E; [|reflexivity].
      exfalso. apply feqb_eq in E. unfold seen_nothing in Hobs.
      assert (Hz : forall x, In x symbols -> count st x = f0).
      { intros x Hx. apply (fsum_zero_all (map (count st) symbols)); auto; [|apply in_map; auto].
        intros y Hy. apply in_map_iff in Hy. destruct Hy as (z & <- & Hz).
        exact (count_nonneg (p_beta m) st S b rest Hbl Harcs Hg Hf z). }
      assert (H0 : ps_final st = f0).
      { apply (Hz 0). apply symbols_In. lia. }
      rewrite H0, feqb_refl in Hobs. cbn [andb] in Hobs. destruct rest as [|a rest]; [discriminate|].
      destruct Hg as [Hn Hg]. destruct (Hg a (or_introl eq_refl)) as [Hr Hc2].
      specialize (Hz (a_label a)). rewrite symbols_In in Hz. specialize (Hz ltac:(lia)).
      unfold count in Hz. destruct (Z.eqb_spec (a_label a) 0); [lia|].
      rewrite Harcs, find_arc_cons in Hz. cbn [a_label] in Hz. destruct (Z.eqb_spec 0 (a_label a)); [lia|].
      rewrite find_arc_cons, Z.eqb_refl in Hz. rewrite Hz in Hc2.
      apply (flt_irrefl (@f0 F)). exact (flt_trans _ _ _ Hbeta Hc2).
  Qed.

  (** The same for the unigram state. *)
  Lemma unigram_state_ok (m : ppm F) u st bv :
    flt f0 (p_alpha m) = true ->
    getZ (p_fst m) u = Some st -> good_chain (p_beta m) [(u, st)] ->
    update_cache_at_nonempty m u (-1) bv =
    allocate_and_store m u (cvals V (p_alpha m) (p_beta m) (p_start m) [(u, st)]).
  Proof.
    intros Halpha Hst Hgc. inversion Hgc as [u0 st0 Hg Hlen HV Hf|]; subst.
    unfold update_cache_at_nonempty. rewrite (vgetZ_Some _ _ _ Hst). cbn [bind].
    replace (0 <=? -1) with false by reflexivity. cbn [negb].
    unfold total_state_count. rewrite total_from_noeps.
    2:{ intros a Hin. apply Hg in Hin. lia. }
    rewrite <- (stotal_uni _ Hg).
    unfold init_cache_states, init_cache_probs. rewrite Hlen.
    rewrite !repeat_symbols.
    set (den := fadd (stotal V st) (p_alpha m)).
    assert (HTp : flt f0 (stotal V st) = true).
    { apply fsum_pos_all.
      + rewrite symbols_cons. discriminate.
      + intros y Hy. apply in_map_iff in Hy. destruct Hy as (z & <- & Hz). apply uni_pos; auto. }
    assert (Hden : flt f0 den = true).
    { apply fadd_pos_l; auto. apply flt_le; auto. }
    assert (VS : forall A (g : Z -> A) a,
          vset (map g symbols) 0 a = Ok (map (fun y => if y =? 0 then a else g y) symbols)).
    { intros A g a. rewrite <- vsetZ_map_symbols by lia. reflexivity. }
    unfold update_cache_states_and_probs.
    destruct (feqb (ps_final st) f0) eqn:E0.
    { apply feqb_eq in E0. rewrite E0 in Hf. elim (flt_irrefl _ Hf). }
    cbn [negb]. rewrite !VS. cbn [bind]. change (vget ?l 0) with (vgetZ l 0).
    rewrite (vgetZ_Some _ _ _ (getZ_map_symbols V _ 0 ltac:(lia))). cbn [bind].
    unfold update_index_prob. rewrite VS. cbn [bind].
    rewrite fill_arcs_ok.
    2:{ apply Hg. }
    2:{ intros a Hin. destruct Hg as [_ Hg]. destruct (Hg a Hin). split; auto. discriminate. }
    cbn [bind].
    rewrite (map_ext_in (fun y => match find_arc (ps_arcs st) y with
       | Some a => fdiv (a_count a) den
       | None => if y =? 0 then fdiv (ps_final st) den else f1 end) (fun y => fdiv (count st y) den)).
    2:{ intros y Hy. apply symbols_In in Hy. unfold count. destruct (Z.eqb_spec y 0) as [->|Hy0].
        - rewrite (good_find_0 _ _ Hg). reflexivity.
        - destruct (uni_count st y Hg Hlen ltac:(lia)) as [a Ea]. rewrite Ea. reflexivity. }
    assert (Hdn : den <> f0) by (apply fpos_neq; auto).
    assert (HTn : stotal V st <> f0) by (apply fpos_neq; auto).
    pose proof (softmax_plain (map (fun y => fdiv (count st y) den) symbols)) as HSP.
    rewrite (fsum_map_div _ (count st)) in HSP by auto.
    fold (stotal V st) in HSP.
    lapply HSP; [clear HSP; intros HSP|].
    2:{ apply fpos_neq, fdiv_pos; auto. }
    destruct (softmax_renormalize (map (fun y => fdiv (count st y) den) symbols)) as [ps1| | |];
      try discriminate HSP.
    cbn [bind] in HSP |- *. rewrite HSP. cbn [bind]. rewrite map_map.
    f_equal. unfold cvals. f_equal.
    - apply map_ext_in. intros y Hy. apply symbols_In in Hy. cbn [corigin].
      destruct (Z.eqb_spec y 0) as [->|Hy0].
      + rewrite (good_find_0 _ _ Hg). reflexivity.
      + destruct (uni_count st y Hg Hlen ltac:(lia)) as [a Ea]. rewrite Ea. reflexivity.
    - apply map_ext_in. intros y Hy. apply symbols_In in Hy. cbn [cdest]. unfold sdest.
      destruct (Z.eqb_spec y 0) as [->|Hy0].
      + rewrite (good_find_0 _ _ Hg). reflexivity.
      + destruct (uni_count st y Hg Hlen ltac:(lia)) as [a Ea]. rewrite Ea. reflexivity.
    - apply map_ext. intros y. cbn [cprob]. apply fdiv_div; auto.
  Qed.
End Vals.
