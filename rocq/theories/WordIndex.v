(** The tables EstablishLexicographicOrdering builds describe the sorted vocabulary. *)
From Verif Require Import Base Field LmModel HubModel HubSpec HubProofs HubMix PpmModel NgramModel NgramSpec
  NgramProofs NgramProps WordModel WordSpec WordLex.
Local Open Scope Z_scope.

Lemma vsetZ_inv {A} (l : list A) i a l' : vsetZ l i a = Ok l' ->
  0 <= i < Z.of_nat (length l) /\ length l' = length l /\ vgetZ l' i = Ok a /\
  (forall j, j <> i -> vgetZ l' j = vgetZ l j).
Proof.
  unfold vsetZ, vset. destruct (Z.ltb_spec i 0); [discriminate|].
  destruct (Nat.ltb_spec (Z.to_nat i) (length l)) as [L|L]; [|discriminate]. intros E. injection E as <-.
  rewrite upd_length. split; [lia|]. split; auto. split.
  - unfold vgetZ. destruct (Z.ltb_spec i 0); [lia|]. apply vget_Ok. apply nth_error_upd_eq; auto.
  - intros j Hj. unfold vgetZ. destruct (Z.ltb_spec j 0); auto. unfold vget.
    rewrite nth_error_upd_neq by lia. reflexivity.
Qed.
Lemma vsetZ_total {A} (l : list A) i a : 0 <= i < Z.of_nat (length l) -> exists l', vsetZ l i a = Ok l'.
Proof.
  intros H. unfold vsetZ, vset. destruct (Z.ltb_spec i 0); [lia|].
  destruct (Nat.ltb_spec (Z.to_nat i) (length l)) as [L|L]; [eauto|lia].
Qed.

Lemma filter_length_le {A} (g : A -> bool) l : (length (filter g l) <= length l)%nat.
Proof. induction l as [|x t IH]; simpl; auto. destruct (g x); simpl; lia. Qed.

(** * Runs of equal next characters *)
Inductive grp (g : Z -> Z) : Z -> Z -> list Z -> list str -> Prop :=
| grp_last b e : b <= e -> (forall i, b <= i <= e -> g i = g b) -> grp g b e [e] [[g b]]
| grp_cons b x e ends chars : b <= x < e -> (forall i, b <= i <= x -> g i = g b) -> g (x + 1) <> g b ->
    grp g (x + 1) e ends chars -> grp g b e (x :: ends) ([g b] :: chars).

Lemma grp_le g b e ends chars : grp g b e ends chars -> b <= e.
Proof. induction 1; lia. Qed.
Lemma grp_end g b e ends chars : grp g b e ends chars -> exists t, ends = t ++ [e].
Proof.
  induction 1 as [|b x e ends chars H1 H2 H3 H4 [t IH]]; [exists []; auto|]. exists (x :: t). rewrite IH. auto.
Qed.
Lemma grp_snoc_same g b e t chars : grp g b e (t ++ [e]) chars -> g (e + 1) = g e ->
  grp g b (e + 1) (t ++ [e + 1]) chars.
Proof.
  intros G E. remember (t ++ [e]) as ends eqn:Q. revert t Q.
  induction G as [b e L U|b x e ends chars L U N G IH]; intros t Q.
  - destruct t as [|y t]; [|destruct t; discriminate]. simpl. constructor; [lia|].
    intros i Hi. destruct (Z.eq_dec i (e + 1)) as [->|]; [|apply U; lia]. rewrite E. apply U. lia.
  - destruct t as [|y t].
    + simpl in Q. injection Q as -> ->. inversion G.
    + simpl in Q. injection Q as <- Q. simpl. constructor; auto. lia.
Qed.
Lemma grp_snoc_new g b e t chars : grp g b e (t ++ [e]) chars -> g (e + 1) <> g e ->
  grp g b (e + 1) ((t ++ [e]) ++ [e + 1]) (chars ++ [[g (e + 1)]]).
Proof.
  intros G E. remember (t ++ [e]) as ends eqn:Q. revert t Q.
  induction G as [b e L U|b x e ends chars L U N G IH]; intros t Q.
  - simpl. apply grp_cons; [lia|auto| |].
    + intros X. apply E. rewrite X. symmetry. apply U. lia.
    + constructor; [lia|]. intros i Hi. f_equal. lia.
  - destruct t as [|y t].
    + simpl in Q. injection Q as -> ->. inversion G.
    + simpl in Q. injection Q as <- Q. simpl. constructor; auto; [lia|]. eapply IH; eauto.
Qed.

(** * The vocabulary *)
(** The words of a symbol table, with their labels: everything but epsilon and the unknown-word
    token. *)
Definition vocab_of (tab : list (Z * str)) : list (Z * str) :=
  filter (fun e => negb (str_eqb (snd e) [60; 117; 110; 107; 62])) (tl tab).

(** [ws] in order, with the label of each word at its position, and the other tables. *)
Record indexed {F} (m : word F) (ws : list str) : Prop := {
  ix_sorted : StronglySorted str_lt ws;
  ix_perm : Permutation ws (map snd (vocab_of (ng_syms (wm_ng m))));
  ix_small : (length ws < length (ng_syms (wm_ng m)))%nat;
  ix_len_order : length (wm_order m) = length (ng_syms (wm_ng m));
  ix_len_pos : length (wm_pos m) = length (ng_syms (wm_ng m));
  ix_order : forall i, 1 <= i <= Z.of_nat (length ws) ->
    vgetZ (wm_order m) i = Ok (find_label (ng_syms (wm_ng m)) (wat ws i));
  ix_pos : forall i, 1 <= i <= Z.of_nat (length ws) ->
    vgetZ (wm_pos m) (find_label (ng_syms (wm_ng m)) (wat ws i)) = Ok i;
  ix_pos_other : forall l, 0 <= l < Z.of_nat (length (ng_syms (wm_ng m))) ->
    ~ In l (map fst (vocab_of (ng_syms (wm_ng m)))) -> vgetZ (wm_pos m) l = Ok 0;
  ix_prev : forall i, 2 <= i <= Z.of_nat (length ws) ->
    vgetZ (wm_prev m) i = Ok (lcp (wat ws (i - 1)) (wat ws i));
  ix_groups : ws <> [] -> grp (nc ws 0) 1 (Z.of_nat (length ws)) (wm_first_ends m) (wm_first_chars m);
  ix_dense : forall x w, In (x, w) (ng_syms (wm_ng m)) -> 0 <= x < Z.of_nat (length (ng_syms (wm_ng m)))
}.

Section Establish.
  Context {F : ofield}.
  Variable ng : ngram F.
  Hypothesis LD : loaded ng.
  Let tab := ng_syms ng.
  Let oov := ng_oov ng.
  Let n := length tab.
  Let lab := find_label tab.

  Definition validb (w : str) : bool := negb ((lab w =? 0) || (lab w =? oov)).

  Lemma lex_loop_filter l : forall lx lx', lex_loop tab oov lx l = Ok lx' ->
    lex_loop tab oov lx (filter validb l) = Ok lx'.
  Proof.
    induction l as [|w t IH]; intros lx lx' H; auto. cbn [filter lex_loop] in *. unfold validb at 1, lab.
    apply bind_Ok in H. destruct H as [lx1 [H1 H2]]. unfold lex_step in H1.
    destruct ((find_label tab w =? 0) || (find_label tab w =? oov)) eqn:E; cbn [negb].
    - injection H1 as <-. apply IH; auto.
    - cbn [lex_loop]. unfold lex_step. rewrite E. rewrite H1. cbn [bind]. apply IH; auto.
  Qed.

  Lemma lab_In w : 0 <= lab w -> In (lab w, w) tab.
  Proof.
    unfold lab, find_label. destruct (find _ _) as [[l w']|] eqn:Q; [|lia]. intros _.
    apply find_some in Q. destruct Q as [Q1 Q2]. simpl in Q2. apply str_eqb_eq in Q2. subst. auto.
  Qed.
  Lemma oov_lab : oov = lab unk_symbol.
  Proof. unfold oov, lab, tab. destruct (ld_facts ng LD) as [_ [_ [_ [_ [H _]]]]]. auto. Qed.
  Lemma in_tl x w : In (x, w) tab -> x <> 0 -> In (x, w) (tl tab).
  Proof.
    unfold tab. destruct (tab_eps _ (ld_table _ LD)) as [e [rest E]]. rewrite E. simpl.
    intros [H|H]; auto. congruence.
  Qed.
  Lemma tl_in x w : In (x, w) (tl tab) -> In (x, w) tab.
  Proof.
    unfold tab. destruct (tab_eps _ (ld_table _ LD)) as [e [rest E]]. rewrite E. simpl. auto.
  Qed.
  Lemma valid_vocab w : validb w = true -> 0 <= lab w -> In (lab w, w) (vocab_of tab) /\ 0 < lab w.
  Proof.
    unfold validb. intros V L. apply negb_true_iff in V. apply orb_false_iff in V. destruct V as [V1 V2].
    apply Z.eqb_neq in V1. apply Z.eqb_neq in V2. split; [|lia]. apply filter_In. split.
    - apply in_tl; auto. apply lab_In; auto.
    - apply negb_true_iff. apply str_eqb_neq. simpl. intros ->. apply V2. symmetry. apply oov_lab.
  Qed.
  Lemma vocab_valid x w : In (x, w) (vocab_of tab) -> lab w = x /\ 0 < x /\ w <> [] /\ validb w = true.
  Proof.
    intros I. apply filter_In in I. destruct I as [I N]. cbn [snd] in N. apply negb_true_iff in N.
    pose proof (label_of ng LD x w I) as E. fold tab in E. fold (lab w) in E.
    destruct (tab_positive _ (ld_table _ LD) _ _ I) as [P1 P2]. split; auto. split; auto. split; auto.
    unfold validb. rewrite E. apply negb_true_iff. apply orb_false_iff. split; [apply Z.eqb_neq; lia|].
    apply Z.eqb_neq. intros E2.
    assert (X : lab unk_symbol = x) by (rewrite <- oov_lab; auto).
    assert (I2 : In (x, unk_symbol) tab) by (rewrite <- X at 1; apply lab_In; lia).
    apply tl_in in I.
    pose proof (symbol_of ng LD x w I) as S1. pose proof (symbol_of ng LD x unk_symbol I2) as S2.
    rewrite <- S1, S2 in N.
    pose proof (proj2 (str_eqb_eq unk_symbol unk_symbol) eq_refl) as RF. unfold unk_symbol in *. congruence.
  Qed.
  Lemma lab_inj w w' : 0 <= lab w -> lab w = lab w' -> w = w'.
  Proof.
    intros L E. pose proof (lab_In w L) as I. assert (I' : In (lab w, w') tab) by (rewrite E; apply lab_In; lia).
    pose proof (symbol_of ng LD _ _ I) as S1. pose proof (symbol_of ng LD _ _ I') as S2. congruence.
  Qed.

  (** The loop over the valid words [ws], after [d] of them. *)
  Section Loop.
    Variable ws : list str.
    Hypothesis VW : forall w, In w ws -> validb w = true.
    Hypothesis NE : forall w, In w ws -> 0 <= lab w -> w <> [].
    Hypothesis ND : NoDup ws.

    Record linv (d : Z) (lx : lex) : Prop := {
      li_d : 0 <= d <= Z.of_nat (length ws);
      li_idx : lx_idx lx = d + 1;
      li_order_len : length (lx_order lx) = n;
      li_pos_len : length (lx_pos lx) = n;
      li_prev_len : length (lx_prev lx) = n;
      li_lab : forall i, 1 <= i <= d -> 0 < lab (wat ws i) < Z.of_nat n;
      li_order : forall i, 1 <= i <= d -> vgetZ (lx_order lx) i = Ok (lab (wat ws i));
      li_pos : forall i, 1 <= i <= d -> vgetZ (lx_pos lx) (lab (wat ws i)) = Ok i;
      li_other : forall l, 0 <= l < Z.of_nat n -> (forall i, 1 <= i <= d -> lab (wat ws i) <> l) ->
        vgetZ (lx_pos lx) l = Ok 0;
      li_prev : forall i, 2 <= i <= d -> vgetZ (lx_prev lx) i = Ok (lcp (wat ws (i - 1)) (wat ws i));
      li_last : lx_last lx = if d =? 0 then [[]] else split_chars (wat ws d);
      li_grp0 : d = 0 -> lx_chars lx = [] /\ lx_ends lx = [];
      li_grp : 0 < d -> grp (nc ws 0) 1 d (lx_ends lx ++ [d]) (lx_chars lx)
    }.

    Lemma nc_first i c w : wat ws i = c :: w -> nc ws 0 i = c.
    Proof. intros E. unfold nc, next_char. rewrite E. reflexivity. Qed.
    Lemma wat_distinct i j : 1 <= i <= Z.of_nat (length ws) -> 1 <= j <= Z.of_nat (length ws) ->
      wat ws i = wat ws j -> i = j.
    Proof.
      intros Hi Hj E. pose proof (wat_nth ws i Hi) as A. pose proof (wat_nth ws j Hj) as B. rewrite E, <- B in A.
      apply (proj1 (NoDup_nth_error ws) ND) in A; [lia|lia].
    Qed.

    Lemma linv_step d lx lx' : d < Z.of_nat (length ws) -> linv d lx ->
      lex_step tab oov lx (wat ws (d + 1)) = Ok lx' -> linv (d + 1) lx'.
    Proof.
      intros Hd I H. set (w := wat ws (d + 1)) in *.
      pose proof (li_d _ _ I) as D0.
      assert (Iw : In w ws) by (apply wat_In; lia).
      unfold lex_step in H. fold (lab w) in H.
      pose proof (VW w Iw) as V. unfold validb in V. apply negb_true_iff in V. rewrite V in H.
      apply bind_Ok in H. destruct H as [prev [E1 H]]. apply bind_Ok in H. destruct H as [order [E2 H]].
      apply bind_Ok in H. destruct H as [pos [E3 H]]. injection H as <-.
      rewrite (li_idx _ _ I) in *.
      apply vsetZ_inv in E1. destruct E1 as [P1 [P2 [P3 P4]]].
      apply vsetZ_inv in E2. destruct E2 as [O1 [O2 [O3 O4]]].
      apply vsetZ_inv in E3. destruct E3 as [Q1 [Q2 [Q3 Q4]]].
      rewrite (li_pos_len _ _ I) in *. rewrite (li_order_len _ _ I) in *. rewrite (li_prev_len _ _ I) in *.
      destruct (valid_vocab w (VW w Iw) ltac:(lia)) as [_ Lpos].
      pose proof (NE w Iw ltac:(lia)) as Nw. destruct w as [|c w'] eqn:Ew; [congruence|]. rewrite <- Ew in *.
      assert (LABS : forall i, 1 <= i <= d -> lab (wat ws i) <> lab w).
      { intros i Hi X. pose proof (li_lab _ _ I i Hi). apply lab_inj in X; [|lia].
        apply wat_distinct in X; lia. }
      assert (PM : prefix_match (lx_last lx) (split_chars w) = if d =? 0 then 0 else lcp (wat ws d) w).
      { rewrite (li_last _ _ I). destruct (d =? 0).
        - rewrite Ew. reflexivity.
        - apply prefix_match_lcp. }
      assert (NCW : nc ws 0 (d + 1) = c) by (apply (nc_first _ c w'); subst w; auto).
      constructor; cbn [lx_idx lx_order lx_pos lx_prev lx_chars lx_ends lx_last].
      - lia.
      - lia.
      - lia.
      - lia.
      - lia.
      - intros i Hi. destruct (Z.eq_dec i (d + 1)) as [->|]; [fold w; lia|apply (li_lab _ _ I); lia].
      - intros i Hi. destruct (Z.eq_dec i (d + 1)) as [->|Ni]; [auto|]. rewrite O4 by lia.
        apply (li_order _ _ I). lia.
      - intros i Hi. destruct (Z.eq_dec i (d + 1)) as [->|Ni]; [auto|].
        rewrite Q4 by (apply LABS; lia). apply (li_pos _ _ I). lia.
      - intros l Hl Hn. rewrite Q4 by (intros ->; apply (Hn (d + 1)); [lia|reflexivity]).
        apply (li_other _ _ I); auto. intros i Hi. apply Hn. lia.
      - intros i Hi. destruct (Z.eq_dec i (d + 1)) as [->|Ni].
        + rewrite P3, PM. destruct (Z.eqb_spec d 0); [lia|]. replace (d + 1 - 1) with d by lia. reflexivity.
        + rewrite P4 by lia. apply (li_prev _ _ I). lia.
      - destruct (Z.eqb_spec (d + 1) 0); [lia|]. reflexivity.
      - intros; lia.
      - intros _. rewrite PM. destruct (Z.eqb_spec d 0) as [D|D].
        + destruct (li_grp0 _ _ I D) as [-> ->]. subst d. cbn [Z.eqb andb]. cbn [app].
          rewrite Ew. cbn [split_chars map]. replace (0 + 1) with 1 in * by lia. rewrite <- NCW.
          replace (nc ws 0 1) with (nc ws 0 1) by auto. constructor; [lia|]. intros i Hi. f_equal. lia.
        + assert (Dp : 0 < d) by lia. pose proof (li_grp _ _ I Dp) as G.
          destruct (Z.ltb_spec 1 (d + 1)); [|lia]. rewrite andb_true_r.
          pose proof (li_lab _ _ I d ltac:(lia)) as Ld.
          assert (Id : In (wat ws d) ws) by (apply wat_In; lia).
          pose proof (NE _ Id ltac:(lia)) as Nd. destruct (wat ws d) as [|c0 w0] eqn:Ed; [congruence|].
          pose proof (nc_first d c0 w0 Ed) as NCd.
          rewrite Ew. cbn [lcp split_chars map]. destruct (Z.eqb_spec c0 c) as [->|Nc].
          * pose proof (lcp_nonneg w0 w').
            destruct (Z.eqb_spec (1 + lcp w0 w') 0); [lia|]. apply grp_snoc_same; auto. congruence.
          * cbn [Z.eqb]. replace (d + 1 - 1) with d by lia. rewrite <- NCW. apply grp_snoc_new; auto.
            rewrite NCW, NCd. congruence.
    Qed.

    Lemma linv_loop todo : forall d lx lx', linv d lx -> todo = skipn (Z.to_nat d) ws ->
      lex_loop tab oov lx todo = Ok lx' -> linv (Z.of_nat (length ws)) lx'.
    Proof.
      induction todo as [|w t IH]; intros d lx lx' I E H.
      - pose proof (li_d _ _ I). assert (L : length (skipn (Z.to_nat d) ws) = 0%nat) by (rewrite <- E; auto).
        rewrite skipn_length in L. simpl in H. injection H as <-.
        replace (Z.of_nat (length ws)) with d by lia. auto.
      - cbn [lex_loop] in H. apply bind_Ok in H. destruct H as [lx1 [H1 H2]].
        pose proof (li_d _ _ I) as D.
        assert (L : (Z.to_nat d < length ws)%nat).
        { assert (X : (0 < length (skipn (Z.to_nat d) ws))%nat) by (rewrite <- E; simpl; lia).
          rewrite skipn_length in X. lia. }
        assert (W : wat ws (d + 1) = w).
        { unfold wat. replace (d + 1 - 1) with d by lia.
          rewrite <- (firstn_skipn (Z.to_nat d) ws), <- E, app_nth2 by (rewrite firstn_length; lia).
          rewrite firstn_length, Nat.min_l, Nat.sub_diag by lia. reflexivity. }
        apply (IH (d + 1) lx1); auto.
        + rewrite <- W in H1. eapply linv_step; eauto. lia.
        + replace (Z.to_nat (d + 1)) with (1 + Z.to_nat d)%nat by lia.
          rewrite <- (firstn_skipn (Z.to_nat d) ws), <- E.
          replace (1 + Z.to_nat d)%nat with (length (firstn (Z.to_nat d) ws ++ [w])).
          * replace (firstn (Z.to_nat d) ws ++ w :: t) with ((firstn (Z.to_nat d) ws ++ [w]) ++ t)
              by (rewrite <- app_assoc; reflexivity).
            rewrite skipn_app, skipn_all, Nat.sub_diag. reflexivity.
          * rewrite app_length, firstn_length. simpl. lia.
    Qed.
  End Loop.

  Lemma loop_labels l : forall lx lx', (forall w, In w l -> validb w = true) ->
    lex_loop tab oov lx l = Ok lx' -> length (lx_pos lx) = n -> forall w, In w l -> 0 <= lab w.
  Proof.
    induction l as [|w t IH]; intros lx lx' V H L v Hv; [destruct Hv|].
    cbn [lex_loop] in H. apply bind_Ok in H. destruct H as [lx1 [H1 H2]].
    pose proof (V w (or_introl eq_refl)) as Vw. unfold validb in Vw. apply negb_true_iff in Vw.
    unfold lex_step in H1. fold (lab w) in H1. rewrite Vw in H1.
    apply bind_Ok in H1. destruct H1 as [prev [E1 H1]]. apply bind_Ok in H1. destruct H1 as [order [E2 H1]].
    apply bind_Ok in H1. destruct H1 as [pos [E3 H1]]. injection H1 as <-.
    apply vsetZ_inv in E3. destruct E3 as [Q1 [Q2 _]].
    destruct Hv as [<-|Hv]; [lia|]. eapply IH; eauto; [intros; apply V; right; auto|]. simpl. lia.
  Qed.

  Definition sym_at (i : nat) : str := find_symbol tab (Z.of_nat i).
  Lemma valid_sym_at i : validb (sym_at i) = true -> 0 <= lab (sym_at i) -> lab (sym_at i) = Z.of_nat i.
  Proof.
    intros V L. destruct (valid_vocab _ V L) as [I P]. apply filter_In in I. destruct I as [I _].
    destruct (tab_positive _ (ld_table _ LD) _ _ I) as [_ Nn].
    unfold sym_at, find_symbol in *. destruct (find _ _) as [[l w]|] eqn:Q; [|congruence].
    apply find_some in Q. destruct Q as [Q1 Q2]. apply Z.eqb_eq in Q2. simpl in Q2. subst l.
    apply tl_in in I.
    (* both (i, w) and (lab w, w) are in the table: symbols are distinct *)
    assert (G : forall t : list (Z * str), NoDup (map snd t) -> forall a b u, In (a, u) t -> In (b, u) t -> a = b).
    { clear. induction t as [|[a0 u0] t IH]; simpl; intros N a b u A B; [tauto|].
      inversion N as [|? ? N1 N2]; subst. destruct A as [A|A], B as [B|B].
      - congruence.
      - injection A as -> ->. exfalso. apply N1. apply (in_map snd) in B. auto.
      - injection B as -> ->. exfalso. apply N1. apply (in_map snd) in A. auto.
      - eapply IH; eauto. }
    eapply (G tab); eauto. apply (tab_symbols _ (ld_table _ LD)).
  Qed.

  Lemma valid_nodup is : NoDup is -> (forall i, In i is -> validb (sym_at i) = true -> 0 <= lab (sym_at i)) ->
    NoDup (filter validb (map sym_at is)).
  Proof.
    induction is as [|i t IH]; intros N V; [constructor|]. inversion N as [|? ? N1 N2]; subst.
    cbn [map filter]. destruct (validb (sym_at i)) eqn:Vi; [|apply IH; auto; intros; apply V; auto; right; auto].
    constructor; [|apply IH; auto; intros; apply V; auto; right; auto].
    intros I. apply filter_In in I. destruct I as [I _]. apply in_map_iff in I. destruct I as [j [E Ij]].
    assert (Ei : lab (sym_at i) = Z.of_nat i) by (apply valid_sym_at; auto; apply V; auto; left; auto).
    assert (Ej : lab (sym_at j) = Z.of_nat j).
    { apply valid_sym_at; [rewrite E; auto|]. rewrite E. apply V; auto. left; auto. }
    rewrite E in Ej. assert (i = j) by lia. subst. tauto.
  Qed.

  Lemma filter_drops {A} (g : A -> bool) l x : In x l -> g x = false -> (length (filter g l) < length l)%nat.
  Proof.
    induction l as [|y t IH]; simpl; [tauto|]. intros [->|I] G.
    - rewrite G. pose proof (filter_length_le g t). lia.
    - specialize (IH I G). destruct (g y); simpl; lia.
  Qed.

  Definition max_len : Z := fold_left (fun mx e => Z.max mx (Z.of_nat (length (snd e)))) tab 0.

  Theorem establish_indexed m :
    (oov = -1 \/ oov = Z.of_nat n - 1) -> establish ng = Ok m ->
    exists ws, indexed m ws /\ wm_ng m = ng /\ wm_oov_state m = Z.of_nat (length (ng_fst ng)) /\
      wm_im m = Implicit (Z.of_nat (length (ng_fst ng))) max_len 1 (Z.of_nat (length ws))
                         [(-1, 1, -1, -1)] [[((-1, -1), Z.of_nat (length (ng_fst ng)))]].
  Proof.
    intros UK H. unfold establish in H. fold tab in H. fold oov in H. fold n in H.
    apply bind_Ok in H. destruct H as [z [Z0 H]]. apply bind_Ok in H. destruct H as [lx [LL H]].
    change (map (fun i : nat => find_symbol tab (Z.of_nat i)) (seq 0 n)) with (map sym_at (seq 0 n)) in LL.
    set (symbols := sort_str (map sym_at (seq 0 n))) in *.
    pose proof (lex_loop_filter _ _ _ LL) as LF. set (ws := filter validb symbols) in *.
    assert (VW : forall w, In w ws -> validb w = true) by (intros w I; apply filter_In in I; tauto).
    assert (LABW : forall w, In w ws -> 0 <= lab w).
    { eapply loop_labels; eauto. simpl. apply repeat_length. }
    assert (P : Permutation (filter validb (map sym_at (seq 0 n))) ws).
    { unfold ws, symbols. generalize (map sym_at (seq 0 n)) as l. intros l.
      assert (G : forall a b : list str, Permutation a b -> Permutation (filter validb a) (filter validb b)).
      { induction 1; simpl; auto.
        - destruct (validb x); auto.
        - destruct (validb x), (validb y); auto. constructor.
        - eapply perm_trans; eauto. }
      apply G. apply sort_str_perm. }
    assert (ND : NoDup ws).
    { eapply Permutation_NoDup; [exact P|]. apply valid_nodup; [apply seq_NoDup|].
      intros i I V. apply LABW. eapply Permutation_in; [exact P|]. apply filter_In. split; auto.
      apply in_map; auto. }
    assert (SS : StronglySorted str_lt ws).
    { apply strict_sorted; auto. unfold ws, symbols. apply filter_sorted. apply sort_str_sorted. }
    assert (NE : forall w, In w ws -> 0 <= lab w -> w <> []).
    { intros w I L. destruct (valid_vocab w (VW w I) L) as [J _].
      apply vocab_valid in J. tauto. }
    assert (npos : (0 < n)%nat).
    { apply vget_Ok in Z0. apply nth_error_Some_lt in Z0. rewrite repeat_length in Z0. auto. }
    assert (I0 : linv ws 0 (Lex 1 (repeat 0 n) (repeat 0 n) (repeat 0 n) [] [] [[]])).
    { constructor; cbn [lx_idx lx_order lx_pos lx_prev lx_chars lx_ends lx_last]; try lia;
        try apply repeat_length; auto.
      intros l Hl _. unfold vgetZ. destruct (Z.ltb_spec l 0); [lia|]. apply vget_Ok. apply nth_error_repeat. lia. }
    pose proof (linv_loop ws VW NE ND ws 0 _ _ I0 eq_refl LF) as I.
    set (k := Z.of_nat (length ws)) in *.
    apply bind_Ok in H. destruct H as [[[idx order] prev] [HU H]].
    destruct (Z.eqb_spec idx (Z.of_nat n)) as [EI|]; [|discriminate]. cbn [negb] in H.
    (* the number of words *)
    assert (INC : incl ws (map snd (vocab_of tab))).
    { intros w Iw. destruct (valid_vocab w (VW w Iw) (LABW w Iw)) as [J _]. apply (in_map snd) in J. auto. }
    assert (LT : length (tl tab) = (n - 1)%nat) by (unfold n; generalize tab; intros [|? ?]; simpl; lia).
    assert (KEY : (length (vocab_of tab) <= length ws)%nat /\ (length ws < n)%nat /\
                  (forall i, 1 <= i <= k -> vgetZ order i = Ok (lab (wat ws i))) /\ length order = n /\
                  (forall i, 2 <= i <= k -> vgetZ prev i = Ok (lcp (wat ws (i - 1)) (wat ws i)))).
    { pose proof (li_idx _ _ _ I) as X. destruct (Z.leb_spec 0 oov) as [O|O].
      - apply bind_Ok in HU. destruct HU as [o1 [U1 HU]]. apply bind_Ok in HU. destruct HU as [p1 [U2 HU]].
        apply bind_Ok in HU. destruct HU as [o2 [U3 HU]]. injection HU as Q1 Q2 Q3. subst idx order prev.
        apply vsetZ_inv in U1. destruct U1 as [A1 [A2 [A3 A4]]].
        apply vsetZ_inv in U2. destruct U2 as [B1 [B2 [B3 B4]]].
        apply vsetZ_inv in U3. destruct U3 as [C1 [C2 [C3 C4]]].
        rewrite X in *. rewrite (li_order_len _ _ _ I) in *.
        assert (O2 : oov = Z.of_nat n - 1) by lia. split; [|split; [|split; [|split]]].
        + assert (IU : In (oov, unk_symbol) (tl tab)).
          { apply in_tl; [|lia]. rewrite oov_lab. apply lab_In. rewrite <- oov_lab. auto. }
          pose proof (filter_drops (fun e => negb (str_eqb (snd e) [60; 117; 110; 107; 62])) (tl tab) _ IU) as D.
          cbn [snd] in D. change (str_eqb unk_symbol [60; 117; 110; 107; 62]) with (str_eqb unk_symbol unk_symbol) in D.
          rewrite (proj2 (str_eqb_eq unk_symbol unk_symbol) eq_refl) in D.
          specialize (D eq_refl). unfold vocab_of. unfold k in *. lia.
        + unfold k in *. lia.
        + intros i Hi. rewrite C4 by lia. rewrite A4 by lia. apply (li_order _ _ _ I). auto.
        + congruence.
        + intros i Hi. rewrite B4 by lia. apply (li_prev _ _ _ I). auto.
      - injection HU as Q1 Q2 Q3. subst idx order prev. rewrite X in EI. split; [|split; [|split; [|split]]].
        + unfold vocab_of. pose proof (filter_length_le (fun e => negb (str_eqb (snd e) [60; 117; 110; 107; 62])) (tl tab)).
          unfold k in *. lia.
        + unfold k in *. lia.
        + apply (li_order _ _ _ I).
        + apply (li_order_len _ _ _ I).
        + apply (li_prev _ _ _ I). }
    destruct KEY as [K1 [K2 [K3 [K4 K5]]]].
    assert (PV : Permutation ws (map snd (vocab_of tab))).
    { apply NoDup_Permutation_bis; auto. rewrite map_length. auto. }
    assert (ENDS : ws <> [] -> grp (nc ws 0) 1 k (lx_ends lx ++ [k]) (lx_chars lx)).
    { intros N. apply (li_grp _ _ _ I). unfold k. destruct ws; [congruence|]. simpl. lia. }
    assert (XI : lx_idx lx - 1 = k) by (pose proof (li_idx _ _ _ I); lia). rewrite XI in H.
    rewrite last_last in H.
    set (im := new_implicit (Z.of_nat (length (ng_fst ng))) tab 1 k) in *.
    assert (GS : get_state im (-1) 1 (-1) (-1) =
       if max_len <? 1 then None else
       Some (Z.of_nat (length (ng_fst ng)),
             Implicit (Z.of_nat (length (ng_fst ng))) max_len 1 k [(-1, 1, -1, -1)]
                      [[((-1, -1), Z.of_nat (length (ng_fst ng)))]])).
    { unfold get_state. change (1 =? 0) with false. cbv iota. unfold find_existing. change (1 =? 0) with false.
      cbv iota. unfold get_prefix_idx. change (1 <=? 0) with false. cbv iota.
      change (im_max_prefix im) with max_len. destruct (Z.ltb_spec max_len 1) as [ML|ML].
      - change (0 <=? -1) with false. cbv iota. unfold add_new_state, get_prefix_idx.
        change (1 <=? 0) with false. cbv iota. change (im_max_prefix im) with max_len.
        destruct (Z.ltb_spec max_len 1); [reflexivity|lia].
      - cbn [im im_map new_implicit length]. change (Z.to_nat (1 - 1)) with 0%nat. cbn [Nat.ltb Nat.leb Nat.eqb].
        cbn [im_map app nth map_find find]. unfold map_find. cbn [find]. change (0 <=? -1) with false. cbv iota.
        unfold add_new_state, get_prefix_idx. change (1 <=? 0) with false. cbv iota. cbn [im_max_prefix].
        destruct (Z.ltb_spec max_len 1); [lia|]. change (Z.to_nat (1 - 1)) with 0%nat.
        cbn [im_map length Nat.ltb Nat.leb Nat.eqb nth map_find find im_explicit im_states im_begin im_end app upd].
        unfold map_find. cbn [find]. rewrite Z.add_0_r. reflexivity. }
    rewrite GS in H. destruct (max_len <? 1); [discriminate|]. injection H as <-.
    exists ws. split; [|auto].
    constructor; cbn [wm_ng wm_order wm_pos wm_prev wm_first_chars wm_first_ends]; fold tab; fold n; auto.
    - apply (li_pos_len _ _ _ I).
    - apply (li_pos _ _ _ I).
    - intros l Hl N. apply (li_other _ _ _ I); auto. intros i Hi E. apply N.
      assert (Iw : In (wat ws i) ws) by (apply wat_In; auto).
      destruct (valid_vocab _ (VW _ Iw) (LABW _ Iw)) as [J _]. rewrite E in J. apply (in_map fst) in J. auto.
    - intros x w Ixw. destruct (Z.eq_dec x 0) as [->|Nx]; [lia|].
      destruct (str_eqb w unk_symbol) eqn:Ew.
      + apply str_eqb_eq in Ew. subst w. apply in_tl in Ixw; auto.
        pose proof (label_of ng LD _ _ Ixw) as E. fold tab in E. fold (lab unk_symbol) in E.
        rewrite <- oov_lab in E. destruct (tab_positive _ (ld_table _ LD) _ _ Ixw). lia.
      + assert (J : In (x, w) (vocab_of tab)).
        { apply filter_In. split; [apply in_tl; auto|]. cbn [snd]. unfold unk_symbol in Ew. rewrite Ew. auto. }
        destruct (vocab_valid _ _ J) as [El _].
        assert (Iw : In w ws) by (eapply Permutation_in; [apply Permutation_sym, PV|]; apply (in_map snd) in J; auto).
        apply In_wat in Iw. destruct Iw as [i [Hi Ei]]. subst w.
        pose proof (li_lab _ _ _ I i Hi). rewrite El in *. lia.
  Qed.
End Establish.
