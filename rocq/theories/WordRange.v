(** The searches of NextState and ExtractLMScores in the sorted vocabulary. *)
From Verif Require Import Base Field LmModel HubModel HubSpec HubProofs HubMix PpmModel NgramModel NgramSpec
  NgramProofs NgramProps WordModel WordSpec WordLex WordIndex.
Local Open Scope Z_scope.

Section Search.
  Context {F : ofield}.
  Variable m : word F.
  Variable ws : list str.
  Hypothesis LD : loaded (wm_ng m).
  Hypothesis IX : indexed m ws.
  Hypothesis NS : no_spaces ws.
  Let K := Z.of_nat (length ws).
  Let n := length (wm_order m).

  Lemma K_lt_n : K < Z.of_nat n.
  Proof. unfold K, n. rewrite (ix_len_order _ _ IX). pose proof (ix_small _ _ IX). lia. Qed.

  Lemma wat_vocab i : 1 <= i <= K ->
    In (find_label (ng_syms (wm_ng m)) (wat ws i), wat ws i) (vocab_of (ng_syms (wm_ng m))).
  Proof.
    intros H. assert (I : In (wat ws i) ws) by (apply wat_In; auto).
    apply (Permutation_in _ (ix_perm _ _ IX)) in I. apply in_map_iff in I. destruct I as [[x w] [E I]].
    simpl in E. subst w. destruct (vocab_valid (wm_ng m) LD _ _ I) as [E _]. rewrite E. auto.
  Qed.
  Lemma word_at_ok i : 1 <= i <= K -> word_at m i = Ok (wat ws i).
  Proof.
    intros H. unfold word_at. rewrite (ix_order _ _ IX i H). cbn [bind]. f_equal.
    apply symbol_of; auto. apply (tl_in (wm_ng m) LD). pose proof (wat_vocab i H) as I. apply filter_In in I. tauto.
  Qed.

  Section InRange.
    Variables (p : str) (b e : Z).
    Hypothesis R : range ws p b e.
    Let k := Z.of_nat (length p).
    Let g := nc ws k.

    Lemma R_bounds : 1 <= b /\ b <= e /\ e <= K.
    Proof. destruct R as [A [B _]]. unfold K. lia. Qed.

    Lemma skip_same_ok fuel : forall i, b < i <= e + 1 -> e + 1 - i <= Z.of_nat fuel ->
      exists j, skip_same fuel m k e i = Ok j /\ i <= j <= e + 1 /\
        (forall l, i - 1 <= l < j -> g l = g (i - 1)) /\ (j <= e -> g j <> g (i - 1)).
    Proof.
      pose proof R_bounds as RB.
      induction fuel as [|fuel IH]; intros i Hi Hf; cbn [skip_same].
      - assert (i = e + 1) by lia. destruct (Z.ltb_spec e i); [|lia]. exists i. split; auto. split; [lia|].
        split; [|lia]. intros l Hl. f_equal. lia.
      - destruct (Z.ltb_spec e i).
        + exists i. split; auto. split; [lia|]. split; [|lia]. intros l Hl. f_equal. lia.
        + rewrite (ix_prev _ _ IX i) by (unfold K in *; lia). cbn [bind].
          pose proof (same_char ws (ix_sorted _ _ IX) NS p b e R i ltac:(lia)) as SC. fold k g in SC.
          destruct (Z.ltb_spec k (lcp (wat ws (i - 1)) (wat ws i))) as [L|L].
          * assert (Ei : g i = g (i - 1)) by (apply SC; auto).
            destruct (IH (i + 1) ltac:(lia) ltac:(lia)) as [j [J1 [J2 [J3 J4]]]].
            replace (i + 1 - 1) with i in * by lia.
            exists j. split; auto. split; [lia|]. rewrite Ei in J3, J4. split; auto.
            intros l Hl. destruct (Z.eq_dec l (i - 1)) as [->|]; auto. apply J3. lia.
          * exists i. split; auto. split; [lia|]. split; [intros l Hl; f_equal; lia|].
            intros _ E. apply SC in E. lia.
    Qed.

    Lemma find_begin_ok c fuel : forall i bc, b <= i <= e + 1 -> e + 1 - i < Z.of_nat fuel -> c <> bc ->
      exists j, find_begin fuel m k e c bc i = Ok j /\ i <= j <= e + 1 /\
        (forall l, i <= l < j -> g l <> c) /\ (j <= e -> g j = c).
    Proof.
      pose proof R_bounds as RB. pose proof K_lt_n as KN.
      induction fuel as [|fuel IH]; intros i bc Hi Hf Hc; cbn [find_begin]; [lia|].
      destruct (Z.eqb_spec c bc); [congruence|]. rewrite orb_false_r.
      destruct (Z.ltb_spec e i).
      - exists i. split; auto. split; [lia|]. split; intros; lia.
      - rewrite word_at_ok by lia. cbn [bind]. change (next_char (wat ws i) k) with (g i).
        destruct (Z.eqb_spec (g i) c) as [E|E].
        + exists i. split; [|split; [lia|split; [intros; lia|auto]]].
          destruct fuel; cbn [find_begin]; rewrite E, Z.eqb_refl, orb_true_r; reflexivity.
        + destruct (skip_same_ok (length (wm_order m)) (i + 1) ltac:(lia) ltac:(fold n; lia))
            as [j [J1 [J2 [J3 J4]]]].
          replace (i + 1 - 1) with i in * by lia. rewrite J1. cbn [bind].
          destruct (IH j (g i) ltac:(lia) ltac:(lia) ltac:(congruence)) as [j' [A1 [A2 [A3 A4]]]].
          exists j'. split; auto. split; [lia|]. split; auto. intros l Hl.
          destruct (Z_lt_dec l j); [rewrite J3 by lia; auto|]. apply A3. lia.
    Qed.

    (** lines 249-287: the range of the longer prefix. *)
    Lemma begin_end_ok s c : im_symbol_begin (wm_im m) s = Some b -> im_symbol_end (wm_im m) s = Some e ->
      c <> 32 -> c <> -1 ->
      exists b' e', begin_end m s k c = Ok (b', e') /\
        (if existsb (prefixb (p ++ [c])) ws then range ws (p ++ [c]) b' e' else b' = -1 /\ e' = -1).
    Proof.
      intros Hb He Hc Hm. pose proof R_bounds as RB. pose proof K_lt_n as KN.
      unfold begin_end. rewrite Hb, He.
      destruct (find_begin_ok c (S (length (wm_order m))) b (-1) ltac:(lia) ltac:(fold n; lia) Hm)
        as [i [A1 [A2 [A3 A4]]]].
      rewrite A1. cbn [bind].
      assert (CP : forall l, b <= l <= e -> (g l = c <-> prefixb (p ++ [c]) (wat ws l) = true))
        by (intros l Hl; apply (char_prefix ws p b e R l c Hl Hc)).
      destruct (Z.ltb_spec e i) as [L|L].
      - exists (-1), (-1). split; auto. destruct (existsb _ _) eqn:X; auto. exfalso.
        apply existsb_exists in X. destruct X as [w [Iw Pw]]. apply In_wat in Iw. destruct Iw as [j [Hj Ej]]. subst w.
        assert (Bj : b <= j <= e).
        { destruct R as [_ [_ R3]]. apply R3; auto. apply prefixb_snoc in Pw. tauto. }
        apply (A3 j); [lia|]. apply CP; auto.
      - destruct (skip_same_ok (length (wm_order m)) (i + 1) ltac:(lia) ltac:(fold n; lia))
          as [j [J1 [J2 [J3 J4]]]].
        replace (i + 1 - 1) with i in * by lia. rewrite J1. cbn [bind]. exists i, (j - 1). split; auto.
        specialize (A4 L). rewrite A4 in *.
        assert (RG : range ws (p ++ [c]) i (j - 1)).
        { split; [lia|]. split; [fold K; lia|]. intros l Hl. split.
          - intros Pl. assert (Bl : b <= l <= e).
            { destruct R as [_ [_ R3]]. apply R3; auto. apply prefixb_snoc in Pl. tauto. }
            apply CP in Pl; auto.
            destruct (Z_lt_dec l i); [exfalso; apply (A3 l); auto; lia|].
            destruct (Z_lt_dec l j); [lia|]. exfalso. apply J4; [lia|].
            rewrite <- A4. apply (char_convex ws (ix_sorted _ _ IX) NS p b e R i l j); try lia. fold k g. congruence.
          - intros Bl. apply CP; [lia|]. apply J3. lia. }
        rewrite (range_begins _ _ _ _ RG). auto.
    Qed.

    (** lines 375-385. *)
    Lemma char_ends_ok fuel : forall b0 i, b <= b0 < i -> i <= e + 1 -> e + 1 - i < Z.of_nat fuel ->
      (forall l, b0 <= l < i -> g l = g b0) ->
      exists ends chars, char_ends fuel m k e i = Ok (ends, chars) /\ grp g b0 e ends ([g b0] :: chars).
    Proof.
      pose proof R_bounds as RB. pose proof K_lt_n as KN.
      induction fuel as [|fuel IH]; intros b0 i Hb Hi Hf U; cbn [char_ends]; [lia|].
      destruct (Z.ltb_spec e i).
      - exists [e], []. split; auto. constructor; [lia|]. intros l Hl. apply U. lia.
      - destruct (skip_same_ok (length (wm_order m)) i ltac:(lia) ltac:(fold n; lia)) as [j [J1 [J2 [J3 J4]]]].
        rewrite J1. cbn [bind]. rewrite (U (i - 1)) in J3, J4 by lia.
        assert (U' : forall l, b0 <= l < j -> g l = g b0).
        { intros l Hl. destruct (Z_lt_dec l i); [apply U; lia|]. apply J3. lia. }
        destruct (Z.ltb_spec e j).
        + exists [e], []. split; auto. constructor; [lia|]. intros l Hl. apply U'. lia.
        + rewrite word_at_ok by lia. cbn [bind]. change (next_char (wat ws j) k) with (g j).
          destruct (IH j (j + 1)) as [ends [chars [E G]]]; try lia.
          { intros l Hl. f_equal. lia. }
          rewrite E. cbn [bind]. exists (j - 1 :: ends), ([g j] :: chars). split; auto.
          apply grp_cons; [lia|intros l Hl; apply U'; lia| |]; replace (j - 1 + 1) with j by lia; auto.
    Qed.

    Lemma implicit_char_ends_ok :
      exists ends chars, char_ends (S (length (wm_order m))) m k e (b + 1) = Ok (ends, chars) /\
        grp g b e ends ([g b] :: chars).
    Proof.
      pose proof R_bounds as RB. pose proof K_lt_n as KN. apply char_ends_ok; try lia.
      - intros l Hl. f_equal. lia.
    Qed.
  End InRange.

  Lemma range_nil : ws <> [] -> range ws [] 1 K.
  Proof.
    intros N. unfold K. destruct ws as [|w t] eqn:E; [congruence|]. split; [simpl length; lia|]. split; [lia|].
    intros i Hi. split; auto.
  Qed.

  (** lines 313-320: a first letter. *)
  Lemma first_range_grp g c e : (forall i l j, i <= l <= j -> 1 <= i -> j <= e -> g i = g j -> g l = g i) ->
    forall b ends chars, 1 <= b -> grp g b e ends chars ->
    exists b' e', first_range chars ends b c = Ok (b', e') /\
      ((e' = -1 /\ forall i, b <= i <= e -> g i <> c) \/
       (b <= b' <= e' /\ e' <= e /\ forall i, b <= i <= e -> (g i = c <-> b' <= i <= e'))).
  Proof.
    intros CV b ends chars Hb G. induction G as [b e L U|b x e ends chars L U N G IH].
    - cbn [first_range]. rewrite str_eqb_single. destruct (Z.eqb_spec (g b) c) as [E|E].
      + exists b, e. split; auto. right. split; [lia|]. split; [lia|]. intros i Hi. rewrite U by lia. tauto.
      + exists (e + 1), (-1). split; auto. left. split; auto. intros i Hi. rewrite U by lia. auto.
    - cbn [first_range]. rewrite str_eqb_single. destruct (Z.eqb_spec (g b) c) as [E|E].
      + exists b, x. split; auto. right. split; [lia|]. split; [lia|]. intros i Hi. split.
        * intros Ei. destruct (Z_le_dec i x); [lia|]. exfalso. apply N.
          apply (CV b (x + 1) i); try lia.
        * intros Hx. rewrite U by lia. auto.
      + destruct (IH CV ltac:(lia)) as [b' [e' [A1 A2]]]. exists b', e'. split; auto.
        destruct A2 as [[A2 A3]|[A2 [A3 A4]]].
        * left. split; auto. intros i Hi. destruct (Z_le_dec i x); [rewrite U by lia; auto|]. apply A3; lia.
        * right. split; [lia|]. split; auto. intros i Hi.
          destruct (Z_le_dec i x); [rewrite U by lia; split; [tauto|lia]|]. apply A4. lia.
  Qed.

  Lemma first_range_ok c : ws <> [] -> c <> 32 ->
    exists b' e', first_range (wm_first_chars m) (wm_first_ends m) 1 c = Ok (b', e') /\
      (if existsb (prefixb [c]) ws then range ws [c] b' e' else e' = -1).
  Proof.
    intros N Hc. pose proof (range_nil N) as R.
    destruct (first_range_grp (nc ws 0) c K) with (b := 1) (ends := wm_first_ends m) (chars := wm_first_chars m)
      as [b' [e' [A1 A2]]].
    - intros i l j H1 H2 H3 E. apply (char_convex ws (ix_sorted _ _ IX) NS [] 1 K R i j l); auto.
    - lia.
    - apply (ix_groups _ _ IX N).
    - exists b', e'. split; auto.
      assert (CP : forall i, 1 <= i <= K -> (nc ws 0 i = c <-> prefixb [c] (wat ws i) = true))
        by (intros i Hi; apply (char_prefix ws [] 1 K R i c Hi Hc)).
      destruct A2 as [[A2 A3]|[A2 [A3 A4]]].
      + destruct (existsb _ _) eqn:X; auto. exfalso.
        apply existsb_exists in X. destruct X as [w [Iw Pw]]. apply In_wat in Iw. destruct Iw as [j [Hj Ej]]. subst w.
        apply (A3 j Hj). apply CP; auto.
      + assert (RG : range ws [c] b' e').
        { split; [lia|]. split; [fold K; lia|]. intros i Hi. rewrite <- CP by auto. apply A4. auto. }
        rewrite (range_begins _ _ _ _ RG). auto.
  Qed.
End Search.
