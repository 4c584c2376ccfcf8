(** Sorted vocabularies: prefixes are contiguous, and the tables built by Read describe them. *)
From Verif Require Import Base Field LmModel HubModel HubSpec HubProofs HubMix PpmModel NgramModel NgramSpec
  WordModel WordSpec.
Local Open Scope Z_scope.

(** * Strings *)
Lemma prefixb_spec p : forall w, prefixb p w = true <-> exists t, w = p ++ t.
Proof.
  induction p as [|x p IH]; intros w; simpl.
  - split; eauto.
  - destruct w as [|y w]; [split; [discriminate|intros [t H]; discriminate]|].
    split.
    + intros H. apply andb_prop in H. destruct H as [H1 H2]. apply IH in H2. destruct H2 as [t ->].
      apply Z.eqb_eq in H1. subst. eauto.
    + intros [t H]. injection H as -> ->. rewrite Z.eqb_refl. simpl. apply IH. eauto.
Qed.
Lemma prefixb_firstn p w : prefixb p w = true <-> firstn (length p) w = p.
Proof.
  rewrite prefixb_spec. split.
  - intros [t ->]. rewrite firstn_app, Nat.sub_diag, firstn_all. apply app_nil_r.
  - intros H. exists (skipn (length p) w). rewrite <- H at 1. symmetry. apply firstn_skipn.
Qed.
Lemma prefixb_length p w : prefixb p w = true -> (length p <= length w)%nat.
Proof. intros H. apply prefixb_spec in H. destruct H as [t ->]. rewrite app_length. lia. Qed.
Lemma prefixb_refl p : prefixb p p = true.
Proof. apply prefixb_spec. exists []. symmetry. apply app_nil_r. Qed.

Lemma prefixb_snoc p c w :
  prefixb (p ++ [c]) w = true <-> prefixb p w = true /\ nth_error w (length p) = Some c.
Proof.
  rewrite !prefixb_spec. split.
  - intros [t ->]. split.
    + exists (c :: t). rewrite <- app_assoc. reflexivity.
    + rewrite <- app_assoc. rewrite nth_error_app2, Nat.sub_diag by lia. reflexivity.
  - intros [[t ->] H]. rewrite nth_error_app2, Nat.sub_diag in H by lia. destruct t as [|d t]; [discriminate|].
    simpl in H. injection H as ->. exists t. rewrite <- app_assoc. reflexivity.
Qed.

Lemma str_lt_cons x a y b : str_lt (x :: a) (y :: b) <-> x < y \/ (x = y /\ str_lt a b).
Proof.
  unfold str_lt. simpl. destruct (Z.compare_spec x y) as [E|E|E]; split; intros H.
  - right; auto.
  - destruct H as [H|[_ H]]; [lia|auto].
  - left; auto.
  - reflexivity.
  - discriminate.
  - destruct H as [H|[H _]]; lia.
Qed.
Lemma str_lt_nil a : ~ str_lt a [].
Proof. destruct a; unfold str_lt; simpl; discriminate. Qed.
Lemma str_lt_irrefl a : ~ str_lt a a.
Proof. unfold str_lt. rewrite (proj2 (str_cmp_eq a a) eq_refl). discriminate. Qed.

(** Words between two words that begin with [p] begin with [p]. *)
Lemma prefix_convex p : forall a b c, str_lt a b -> str_lt b c ->
  prefixb p a = true -> prefixb p c = true -> prefixb p b = true.
Proof.
  induction p as [|x p IH]; intros a b c L1 L2 A C; auto.
  destruct a as [|y a]; [discriminate|]. destruct c as [|z c]; [discriminate|].
  destruct b as [|w b]; [exfalso; eapply str_lt_nil; eauto|].
  simpl in A, C. apply andb_prop in A. destruct A as [A1 A2]. apply andb_prop in C. destruct C as [C1 C2].
  apply Z.eqb_eq in A1. apply Z.eqb_eq in C1. subst y z.
  apply str_lt_cons in L1. apply str_lt_cons in L2.
  assert (w = x) by lia. subst w. simpl. rewrite Z.eqb_refl. simpl.
  destruct L1 as [L1|[_ L1]]; [lia|]. destruct L2 as [L2|[_ L2]]; [lia|]. eapply IH; eauto.
Qed.

(** * Sorting *)
Lemma str_leb_total a b : str_leb a b = true \/ str_lt b a.
Proof.
  unfold str_leb, str_lt. rewrite (str_cmp_antisym a b). destruct (str_cmp a b); auto.
Qed.
Definition str_le (a b : str) : Prop := a = b \/ str_lt a b.
Lemma str_leb_le a b : str_leb a b = true -> str_le a b.
Proof.
  unfold str_leb, str_le, str_lt. destruct (str_cmp a b) eqn:E; try discriminate; auto.
  left. apply str_cmp_eq; auto.
Qed.
Lemma str_le_trans a b c : str_le a b -> str_le b c -> str_le a c.
Proof.
  intros [->|H1] [->|H2]; [left|right|right|right]; auto. eapply str_lt_trans; eauto.
Qed.

Lemma insert_str_perm w l : Permutation (w :: l) (insert_str w l).
Proof.
  induction l as [|v t IH]; simpl; auto. destruct (str_leb w v); auto.
  eapply perm_trans; [apply perm_swap|]. constructor. auto.
Qed.
Lemma insert_str_sorted w l : StronglySorted str_le l -> StronglySorted str_le (insert_str w l).
Proof.
  induction l as [|v t IH]; simpl; intros H.
  - repeat constructor.
  - inversion H as [|? ? H1 H2]; subst. destruct (str_leb w v) eqn:E.
    + apply str_leb_le in E. constructor; auto. constructor; auto.
      rewrite Forall_forall in *. intros x Hx. eapply str_le_trans; eauto.
    + destruct (str_leb_total w v) as [|L]; [congruence|]. constructor; auto.
      rewrite Forall_forall in *. intros x Hx.
      apply (Permutation_in _ (Permutation_sym (insert_str_perm w t))) in Hx.
      destruct Hx as [<-|Hx]; [right; auto|auto].
Qed.
Lemma sort_str_perm l : Permutation l (sort_str l).
Proof.
  induction l as [|w t IH]; simpl; auto. eapply perm_trans; [|apply insert_str_perm]. auto.
Qed.
Lemma sort_str_sorted l : StronglySorted str_le (sort_str l).
Proof. induction l; simpl; [constructor|]. apply insert_str_sorted; auto. Qed.

Lemma filter_sorted {A} (R : A -> A -> Prop) g (l : list A) :
  StronglySorted R l -> StronglySorted R (filter g l).
Proof.
  induction 1 as [|a l H1 IH H2]; simpl; [constructor|]. destruct (g a); auto. constructor; auto.
  rewrite Forall_forall in *. intros x Hx. apply filter_In in Hx. apply H2. tauto.
Qed.
Lemma strict_sorted (l : list str) : StronglySorted str_le l -> NoDup l -> StronglySorted str_lt l.
Proof.
  induction 1 as [|a l H1 IH H2]; intros N; constructor; inversion N as [|? ? N1 N2]; subst; auto.
  rewrite Forall_forall in *. intros x Hx. destruct (H2 x Hx) as [->|L]; auto. tauto.
Qed.

Lemma sorted_nth {A} (R : A -> A -> Prop) (l : list A) : StronglySorted R l ->
  forall i j a b, (i < j)%nat -> nth_error l i = Some a -> nth_error l j = Some b -> R a b.
Proof.
  induction 1 as [|x l H1 IH H2]; intros i j a b L Hi Hj.
  - destruct i; discriminate.
  - destruct j as [|j]; [lia|]. simpl in Hj. destruct i as [|i].
    + simpl in Hi. injection Hi as ->. rewrite Forall_forall in H2. apply H2. eapply nth_error_In; eauto.
    + simpl in Hi. eapply (IH i j); eauto. lia.
Qed.

(** * Common prefixes *)
Fixpoint lcp (a b : str) : Z :=
  match a, b with
  | x :: a', y :: b' => if x =? y then 1 + lcp a' b' else 0
  | _, _ => 0
  end.
Lemma lcp_nonneg a : forall b, 0 <= lcp a b.
Proof.
  induction a as [|x a IH]; intros [|y b]; cbn [lcp]; try lia. destruct (x =? y); [|lia].
  pose proof (IH b). lia.
Qed.
Lemma str_eqb_single x y : str_eqb [x] [y] = (x =? y).
Proof.
  destruct (Z.eqb_spec x y) as [->|N]; [apply str_eqb_refl|]. apply str_eqb_neq. congruence.
Qed.
Lemma prefix_match_lcp a : forall b, prefix_match (split_chars a) (split_chars b) = lcp a b.
Proof.
  induction a as [|x a IH]; intros [|y b]; auto. cbn [split_chars map prefix_match lcp].
  rewrite str_eqb_single. destruct (x =? y); auto. f_equal. apply IH.
Qed.

(** Characters are compared one by one. *)
Lemma lcp_gt a : forall b k, (k < Z.to_nat (lcp a b))%nat <->
  (firstn (S k) a = firstn (S k) b /\ (k < length a)%nat /\ (k < length b)%nat).
Proof.
  induction a as [|x a IH]; intros [|y b] k; cbn [lcp].
  - simpl. split; [lia|intros [_ [H _]]; lia].
  - simpl. split; [lia|intros [_ [H _]]; lia].
  - simpl. split; [lia|intros [_ [_ H]]; lia].
  - destruct (Z.eqb_spec x y) as [->|N].
    + pose proof (lcp_nonneg a b) as P.
      assert (E : Z.to_nat (1 + lcp a b) = S (Z.to_nat (lcp a b))) by lia. rewrite E.
      destruct k as [|k].
      * simpl. split; [intros _|intros _; lia]. split; auto. lia.
      * specialize (IH b k). cbn [firstn length] in *. split.
        -- intros H. destruct (proj1 IH ltac:(lia)) as [I1 [I2 I3]]. split; [f_equal; auto|lia].
        -- intros [I1 [I2 I3]]. injection I1 as I1.
           assert (k < Z.to_nat (lcp a b))%nat by (apply IH; repeat split; auto; lia). lia.
    + split; [simpl; lia|]. intros [H _]. simpl in H. congruence.
Qed.

(** * Positions *)
Definition no_spaces (ws : list str) : Prop := forall w, In w ws -> ~ In 32 w.

(** The word at position [i] (from 1) of a vocabulary. *)
Definition wat (ws : list str) (i : Z) : str := nth (Z.to_nat (i - 1)) ws [].
Lemma wat_nth ws i : 1 <= i <= Z.of_nat (length ws) -> nth_error ws (Z.to_nat (i - 1)) = Some (wat ws i).
Proof. intros H. unfold wat. apply nth_error_nth'. lia. Qed.
Lemma wat_In ws i : 1 <= i <= Z.of_nat (length ws) -> In (wat ws i) ws.
Proof. intros H. eapply nth_error_In. apply wat_nth; auto. Qed.
Lemma In_wat ws w : In w ws -> exists i, 1 <= i <= Z.of_nat (length ws) /\ wat ws i = w.
Proof.
  intros H. apply In_nth_error in H. destruct H as [n H]. pose proof (nth_error_Some_lt _ _ _ _ H).
  exists (Z.of_nat n + 1). split; [lia|]. unfold wat. replace (Z.to_nat (Z.of_nat n + 1 - 1)) with n by lia.
  eapply nth_error_nth; eauto.
Qed.
Lemma wat_lt ws i j : StronglySorted str_lt ws -> 1 <= i -> i < j -> j <= Z.of_nat (length ws) ->
  str_lt (wat ws i) (wat ws j).
Proof.
  intros S Hi L Hj. eapply (sorted_nth str_lt ws S (Z.to_nat (i - 1)) (Z.to_nat (j - 1))); [lia| |];
    apply wat_nth; lia.
Qed.
Lemma wat_inj ws i j : StronglySorted str_lt ws -> 1 <= i <= Z.of_nat (length ws) ->
  1 <= j <= Z.of_nat (length ws) -> wat ws i = wat ws j -> i = j.
Proof.
  intros S Hi Hj E. destruct (Z.lt_trichotomy i j) as [L|[L|L]]; auto.
  - pose proof (wat_lt ws i j S ltac:(lia) L ltac:(lia)) as Q. rewrite E in Q. exfalso. eapply str_lt_irrefl; eauto.
  - pose proof (wat_lt ws j i S ltac:(lia) L ltac:(lia)) as Q. rewrite E in Q. exfalso. eapply str_lt_irrefl; eauto.
Qed.

(** [b..e] are exactly the positions of the words beginning with [p]. *)
Definition range (ws : list str) (p : str) (b e : Z) : Prop :=
  1 <= b <= e /\ e <= Z.of_nat (length ws) /\
  forall i, 1 <= i <= Z.of_nat (length ws) -> (prefixb p (wat ws i) = true <-> b <= i <= e).

Lemma range_unique ws p b e b' e' : range ws p b e -> range ws p b' e' -> b = b' /\ e = e'.
Proof.
  intros [A1 [A2 A3]] [B1 [B2 B3]].
  assert (X : b' <= b <= e') by (apply B3; [lia|]; apply A3; lia).
  assert (Y : b <= b' <= e) by (apply A3; [lia|]; apply B3; lia).
  assert (X2 : b' <= e <= e') by (apply B3; [lia|]; apply A3; lia).
  assert (Y2 : b <= e' <= e) by (apply A3; [lia|]; apply B3; lia).
  lia.
Qed.

Lemma range_ex ws p : StronglySorted str_lt ws -> existsb (prefixb p) ws = true -> exists b e, range ws p b e.
Proof.
  intros S H. apply existsb_exists in H. destruct H as [w [I P]]. apply In_wat in I.
  destruct I as [i0 [Hi0 Ei0]]. subst w.
  (* smallest and largest *)
  assert (L : forall n i, 1 <= i <= Z.of_nat (length ws) -> prefixb p (wat ws i) = true -> i <= Z.of_nat n ->
     exists b, 1 <= b <= i /\ prefixb p (wat ws b) = true /\ forall j, 1 <= j < b -> prefixb p (wat ws j) = false).
  { induction n as [|n IH]; intros i Hi Pi Ln; [lia|].
    destruct (Z.eq_dec i 1) as [->|Ne].
    - exists 1. split; [lia|]. split; auto. intros j Hj. lia.
    - destruct (prefixb p (wat ws (i - 1))) eqn:Q.
      + destruct (IH (i - 1)) as [b [B1 [B2 B3]]]; [lia|auto|lia|]. exists b. split; [lia|]. auto.
      + exists i. split; [lia|]. split; auto. intros j Hj.
        destruct (prefixb p (wat ws j)) eqn:Qj; auto. exfalso.
        destruct (Z.eq_dec j (i - 1)) as [->|Nj]; [congruence|].
        assert (prefixb p (wat ws (i - 1)) = true); [|congruence].
        eapply (prefix_convex p (wat ws j) _ (wat ws i)); eauto; apply wat_lt; auto; lia. }
  assert (U : forall n i, 1 <= i <= Z.of_nat (length ws) -> prefixb p (wat ws i) = true ->
     Z.of_nat (length ws) - i <= Z.of_nat n ->
     exists e, i <= e <= Z.of_nat (length ws) /\ prefixb p (wat ws e) = true /\
       forall j, e < j <= Z.of_nat (length ws) -> prefixb p (wat ws j) = false).
  { induction n as [|n IH]; intros i Hi Pi Ln.
    - exists i. split; [lia|]. split; auto. intros; lia.
    - destruct (Z.eq_dec i (Z.of_nat (length ws))) as [E|Ne].
      + exists i. split; [lia|]. split; auto. intros j Hj. lia.
      + destruct (prefixb p (wat ws (i + 1))) eqn:Q.
        * destruct (IH (i + 1)) as [e [B1 [B2 B3]]]; [lia|auto|lia|]. exists e. split; [lia|]. auto.
        * exists i. split; [lia|]. split; auto. intros j Hj.
          destruct (prefixb p (wat ws j)) eqn:Qj; auto. exfalso.
          destruct (Z.eq_dec j (i + 1)) as [->|Nj]; [congruence|].
          assert (prefixb p (wat ws (i + 1)) = true); [|congruence].
          eapply (prefix_convex p (wat ws i) _ (wat ws j)); eauto; apply wat_lt; auto; lia. }
  destruct (L (Z.to_nat i0) i0 Hi0 P ltac:(lia)) as [b [B1 [B2 B3]]].
  destruct (U (length ws) i0 Hi0 P ltac:(lia)) as [e [E1 [E2 E3]]].
  exists b, e. split; [lia|]. split; [lia|]. intros i Hi. split.
  - intros Q. destruct (Z_lt_dec i b); [rewrite B3 in Q by lia; discriminate|].
    destruct (Z_lt_dec e i); [rewrite E3 in Q by lia; discriminate|]. lia.
  - intros Q. destruct (Z.eq_dec i b) as [->|]; auto. destruct (Z.eq_dec i e) as [->|]; auto.
    eapply (prefix_convex p (wat ws b) _ (wat ws e)); eauto; apply wat_lt; auto; lia.
Qed.

Lemma range_begins ws p b e : range ws p b e -> existsb (prefixb p) ws = true.
Proof.
  intros [A1 [A2 A3]]. apply existsb_exists. exists (wat ws b). split; [apply wat_In; lia|]. apply A3; lia.
Qed.

(** The character after the prefix; a space for a complete word. *)
Definition nc (ws : list str) (k i : Z) : Z := next_char (wat ws i) k.

Lemma next_char_nth w k c : 0 <= k -> c <> 32 ->
  (next_char w k = c <-> nth_error w (Z.to_nat k) = Some c).
Proof.
  intros Hk Hc. unfold next_char. destruct (Z.ltb_spec k 0); [lia|]. cbn [orb].
  destruct (Z.leb_spec (Z.of_nat (length w)) k).
  - split; [congruence|]. intros E. apply nth_error_Some_lt in E. lia.
  - destruct (nth_error w (Z.to_nat k)) as [d|] eqn:E.
    + split; congruence.
    + apply nth_error_None in E. lia.
Qed.
Lemma next_char_space w k : 0 <= k -> ~ In 32 w -> (next_char w k = 32 <-> Z.of_nat (length w) <= k).
Proof.
  intros Hk Hw. unfold next_char. destruct (Z.ltb_spec k 0); [lia|]. cbn [orb].
  destruct (Z.leb_spec (Z.of_nat (length w)) k); [split; auto|].
  destruct (nth_error w (Z.to_nat k)) as [d|] eqn:E.
  - split; [|lia]. intros ->. apply nth_error_In in E. tauto.
  - apply nth_error_None in E. lia.
Qed.

Section Range.
  Variable ws : list str.
  Hypothesis S : StronglySorted str_lt ws.
  Hypothesis NS : no_spaces ws.
  Variables (p : str) (b e : Z).
  Hypothesis R : range ws p b e.
  Let k := Z.of_nat (length p).

  Lemma in_range i : b <= i <= e -> 1 <= i <= Z.of_nat (length ws) /\ prefixb p (wat ws i) = true /\ In (wat ws i) ws.
  Proof.
    intros H. destruct R as [A1 [A2 A3]]. assert (B : 1 <= i <= Z.of_nat (length ws)) by lia.
    split; auto. split; [apply A3; auto|apply wat_In; auto].
  Qed.

  (** Same next character exactly when more than the prefix is shared. *)
  Lemma same_char i : b < i <= e ->
    (k < lcp (wat ws (i - 1)) (wat ws i) <-> nc ws k i = nc ws k (i - 1)).
  Proof.
    intros Hi. destruct (in_range i ltac:(lia)) as [I1 [I2 I3]].
    destruct (in_range (i - 1) ltac:(lia)) as [J1 [J2 J3]].
    pose proof (prefixb_length _ _ I2) as LI. pose proof (prefixb_length _ _ J2) as LJ.
    pose proof (lcp_nonneg (wat ws (i - 1)) (wat ws i)) as LN.
    assert (Q : k < lcp (wat ws (i - 1)) (wat ws i) <->
                (length p < Z.to_nat (lcp (wat ws (i - 1)) (wat ws i)))%nat) by (unfold k; lia).
    rewrite Q, lcp_gt.
    assert (PF : forall w, prefixb p w = true -> (length p < length w)%nat ->
                 exists c, nth_error w (length p) = Some c /\ firstn (Datatypes.S (length p)) w = p ++ [c]).
    { intros w P L. apply prefixb_spec in P. destruct P as [t ->]. rewrite app_length in L.
      destruct t as [|c t]; [simpl in L; lia|]. exists c.
      rewrite nth_error_app2, Nat.sub_diag by lia. split; auto.
      replace (Datatypes.S (length p)) with (length (p ++ [c])) by (rewrite app_length; simpl; lia).
      replace (p ++ c :: t) with ((p ++ [c]) ++ t) by (rewrite <- app_assoc; reflexivity).
      rewrite firstn_app, Nat.sub_diag, firstn_all. apply app_nil_r. }
    unfold nc. split.
    - intros [E [L1 L2]]. destruct (PF _ J2 L1) as [c1 [N1 F1]]. destruct (PF _ I2 L2) as [c2 [N2 F2]].
      rewrite F1, F2 in E. apply app_inv_head in E. injection E as ->.
      assert (C : c2 <> 32) by (intros ->; apply nth_error_In in N2; apply (NS _ I3); auto).
      transitivity c2; [|symmetry]; apply next_char_nth; auto; unfold k; try lia; rewrite Nat2Z.id; auto.
    - intros E. destruct (Z.eq_dec (next_char (wat ws i) k) 32) as [E32|N32].
      + pose proof E32 as E32'. rewrite E in E32'.
        apply next_char_space in E32; [|unfold k; lia|apply NS; auto].
        apply next_char_space in E32'; [|unfold k; lia|apply NS; auto].
        exfalso. assert (X : wat ws (i - 1) = wat ws i).
        { apply prefixb_firstn in I2. apply prefixb_firstn in J2.
          rewrite firstn_all2 in I2 by (unfold k in *; lia). rewrite firstn_all2 in J2 by (unfold k in *; lia).
          congruence. }
        apply (wat_inj ws _ _ S J1 I1) in X. lia.
      + set (c := next_char (wat ws i) k) in *.
        assert (X1 : nth_error (wat ws i) (length p) = Some c).
        { replace (length p) with (Z.to_nat k) by (unfold k; lia). apply next_char_nth; auto. unfold k; lia. }
        assert (X2 : nth_error (wat ws (i - 1)) (length p) = Some c).
        { replace (length p) with (Z.to_nat k) by (unfold k; lia). apply next_char_nth; auto. unfold k; lia. }
        pose proof (nth_error_Some_lt _ _ _ _ X1). pose proof (nth_error_Some_lt _ _ _ _ X2).
        destruct (PF _ J2 ltac:(lia)) as [c1 [N1 F1]]. destruct (PF _ I2 ltac:(lia)) as [c2 [N2 F2]].
        rewrite F1, F2. split; [congruence|]. split; lia.
  Qed.

  (** Positions with next character [c <> 32] are those of the longer prefix. *)
  Lemma char_prefix i c : b <= i <= e -> c <> 32 ->
    (nc ws k i = c <-> prefixb (p ++ [c]) (wat ws i) = true).
  Proof.
    intros Hi Hc. destruct (in_range i Hi) as [I1 [I2 I3]]. unfold nc.
    rewrite prefixb_snoc, next_char_nth by (unfold k; lia || auto).
    unfold k. rewrite Nat2Z.id. tauto.
  Qed.
  Lemma char_complete i : b <= i <= e -> (nc ws k i = 32 <-> wat ws i = p).
  Proof.
    intros Hi. destruct (in_range i Hi) as [I1 [I2 I3]]. unfold nc.
    rewrite next_char_space; [|unfold k; lia|apply NS; auto].
    pose proof (prefixb_length _ _ I2). apply prefixb_firstn in I2. unfold k. split.
    - intros L. rewrite firstn_all2 in I2 by lia. auto.
    - intros ->. lia.
  Qed.
  (** A complete word comes first. *)
  Lemma complete_first i : b <= i <= e -> wat ws i = p -> i = b.
  Proof.
    intros Hi E. destruct (in_range i Hi) as [I1 [I2 I3]]. destruct (in_range b ltac:(lia)) as [J1 [J2 J3]].
    destruct (Z.eq_dec i b); auto. exfalso.
    pose proof (wat_lt ws b i S ltac:(lia) ltac:(lia) ltac:(lia)) as L. rewrite E in L.
    apply prefixb_spec in J2. destruct J2 as [t J2]. rewrite J2 in L. clear - L.
    induction p as [|x q IH]; simpl in L; [eapply str_lt_nil; eauto|].
    apply str_lt_cons in L. destruct L as [L|[_ L]]; [lia|]. auto.
  Qed.

  (** The run of positions with one next character: contiguous. *)
  Lemma char_convex i j l : b <= i -> i <= l <= j -> j <= e -> nc ws k i = nc ws k j -> nc ws k l = nc ws k i.
  Proof.
    intros H1 H2 H3 E. destruct (Z.eq_dec l i) as [->|]; auto. destruct (Z.eq_dec l j) as [->|]; auto.
    destruct (Z.eq_dec (nc ws k i) 32) as [C|C].
    - pose proof C as C'. rewrite E in C'. apply char_complete in C; [|lia]. apply char_complete in C'; [|lia].
      apply complete_first in C; [|lia]. apply complete_first in C'; [|lia]. lia.
    - apply char_prefix; [lia|auto|].
      assert (Pi : prefixb (p ++ [nc ws k i]) (wat ws i) = true) by (apply char_prefix; auto; lia).
      assert (Pj : prefixb (p ++ [nc ws k i]) (wat ws j) = true) by (apply char_prefix; auto; lia).
      destruct R as [A1 [A2 A3]].
      eapply (prefix_convex _ (wat ws i) _ (wat ws j)); eauto; apply wat_lt; auto; lia.
  Qed.
End Range.
