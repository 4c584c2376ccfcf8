(** The implicit states of the word model stand for (context, prefix) pairs. *)
From Verif Require Import Base Field LmModel HubModel HubSpec HubProofs HubMix PpmModel NgramModel NgramSpec
  NgramProofs NgramProps WordModel WordSpec WordLex WordIndex WordRange.
Local Open Scope Z_scope.

(** [num] automaton states, vocabulary [ws]. *)
Record im_ok (num : Z) (ws : list str) (im : implicit) : Prop := {
  io_num : 0 <= num;
  io_explicit : im_explicit im = num;
  io_begin : im_begin im = 1;
  io_end : im_end im = Z.of_nat (length ws);
  io_max : forall w, In w ws -> Z.of_nat (length w) <= im_max_prefix im;
  io_zero : nth_error (im_states im) 0 = Some (-1, 1, -1, -1);
  io_states : forall j ms pl b e, nth_error (im_states im) j = Some (ms, pl, b, e) -> j <> 0%nat ->
    0 <= ms < num /\ exists p, p <> [] /\ Z.of_nat (length p) = pl /\ range ws p b e;
  io_map : forall j k s, map_find (nth j (im_map im) []) k = Some s ->
    exists e, num <= s /\
      nth_error (im_states im) (Z.to_nat (s - num)) = Some (fst k, Z.of_nat j + 1, snd k, e);
  io_complete : forall j ms pl b e, nth_error (im_states im) j = Some (ms, pl, b, e) ->
    map_find (nth (Z.to_nat (pl - 1)) (im_map im) []) (ms, b) = Some (num + Z.of_nat j)
}.

(** What a state stands for. *)
Definition stands (num : Z) (ws : list str) (im : implicit) (s : Z) (pl : place) : Prop :=
  match pl with
  | Unknown => s = num
  | Typing s0 [] => s = s0 /\ 0 <= s0 < num
  | Typing s0 p => num < s /\ 0 <= s0 < num /\
      exists b e, nth_error (im_states im) (Z.to_nat (s - num)) = Some (s0, Z.of_nat (length p), b, e) /\
                  range ws p b e
  end.

Lemma pair_eqb_eq a b : pair_eqb a b = true <-> a = b.
Proof.
  destruct a as [a1 a2], b as [b1 b2]. unfold pair_eqb. simpl. rewrite andb_true_iff, !Z.eqb_eq.
  split; [intros [-> ->]; auto|intros E; injection E; auto].
Qed.
Lemma map_find_app l k v k' : map_find (l ++ [(k, v)]) k' =
  match map_find l k' with Some s => Some s | None => if pair_eqb k k' then Some v else None end.
Proof.
  unfold map_find. induction l as [|[a b] t IH]; cbn [app find fst].
  - destruct (pair_eqb k k'); reflexivity.
  - destruct (pair_eqb a k'); auto.
Qed.

Section States.
  Variables (num : Z) (ws : list str).
  Hypothesis SRT : StronglySorted str_lt ws.

  Lemma range_prefix_len p b e : range ws p b e -> exists w, In w ws /\ (length p <= length w)%nat /\
    wat ws b = w /\ p = firstn (length p) w.
  Proof.
    intros [R1 [R2 R3]]. exists (wat ws b). split; [apply wat_In; lia|].
    assert (P : prefixb p (wat ws b) = true) by (apply R3; lia).
    split; [apply prefixb_length; auto|]. split; auto. symmetry. apply prefixb_firstn. auto.
  Qed.
  Lemma range_same_prefix p p' b e e' : range ws p b e -> range ws p' b e' -> length p = length p' -> p = p'.
  Proof.
    intros A B E. apply range_prefix_len in A. destruct A as [w [_ [_ [W P]]]].
    apply range_prefix_len in B. destruct B as [w' [_ [_ [W' P']]]]. rewrite P, P'. congruence.
  Qed.

  Variable im : implicit.
  Hypothesis I : im_ok num ws im.

  Lemma stands_fun s pl pl' : stands num ws im s pl -> stands num ws im s pl' -> pl = pl'.
  Proof.
    destruct pl as [s0 [|c p]|], pl' as [s1 [|d q]|]; simpl; intros A B; auto; try lia.
    - destruct A as [-> _], B as [-> _]. auto.
    - destruct A as [A1 [A2 [b [e [A3 A4]]]]], B as [B1 [B2 [b' [e' [B3 B4]]]]].
      rewrite A3 in B3. injection B3 as -> L -> ->.
      f_equal. eapply range_same_prefix; eauto. simpl. lia.
  Qed.
  Lemma stands_inj s s' pl : stands num ws im s pl -> stands num ws im s' pl -> s = s'.
  Proof.
    destruct pl as [s0 [|c p]|]; simpl; intros A B; try lia.
    destruct A as [A1 [A2 [b [e [A3 A4]]]]], B as [B1 [B2 [b' [e' [B3 B4]]]]].
    destruct (range_unique _ _ _ _ _ _ A4 B4) as [-> ->].
    apply (io_complete _ _ _ I) in A3. apply (io_complete _ _ _ I) in B3. rewrite A3 in B3. injection B3. lia.
  Qed.
  (** Every state stands for something. *)
  Lemma stands_total s : 0 <= s < num + Z.of_nat (length (im_states im)) -> exists pl, stands num ws im s pl.
  Proof.
    intros H. destruct (Z_lt_dec s num); [exists (Typing s []); simpl; lia|].
    destruct (Z.eq_dec s num) as [->|]; [exists Unknown; simpl; auto|].
    destruct (nth_error (im_states im) (Z.to_nat (s - num))) as [[[[ms pl] b] e]|] eqn:E.
    - destruct (io_states _ _ _ I _ _ _ _ _ E ltac:(lia)) as [M [p [P1 [P2 P3]]]].
      exists (Typing ms p). destruct p as [|c p]; [congruence|]. simpl. split; [lia|]. split; auto.
      exists b, e. rewrite E. split; auto. simpl in P2. rewrite P2. auto.
    - apply nth_error_None in E. lia.
  Qed.

  Lemma stands_valid s pl : stands num ws im s pl -> 0 <= s < num + Z.of_nat (length (im_states im)).
  Proof.
    pose proof (io_num _ _ _ I). pose proof (nth_error_Some_lt _ _ _ _ (io_zero _ _ _ I)).
    destruct pl as [s0 [|c p]|]; simpl; try lia.
    intros [A1 [A2 [b [e [A3 _]]]]]. apply nth_error_Some_lt in A3. lia.
  Qed.

  (** The accessors. *)
  Lemma entry_of s0 p s : p <> [] -> stands num ws im s (Typing s0 p) ->
    exists b e, implicit_entry im s = Some (s0, Z.of_nat (length p), b, e) /\ range ws p b e.
  Proof.
    intros N A. pose proof (stands_valid _ _ A) as V.
    destruct p as [|c p]; [congruence|]. destruct A as [A1 [A2 [b [e [A3 A4]]]]].
    exists b, e. split; auto. unfold implicit_entry. rewrite (io_explicit _ _ _ I).
    destruct (Z.ltb_spec s num); [lia|].
    destruct (Z.leb_spec (num + Z.of_nat (length (im_states im))) s); [lia|]. auto.
  Qed.
  Lemma entry_explicit s : 0 <= s < num -> implicit_entry im s = Some (s, 0, 1, Z.of_nat (length ws)).
  Proof.
    intros H. unfold implicit_entry. rewrite (io_explicit _ _ _ I), (io_begin _ _ _ I), (io_end _ _ _ I).
    destruct (Z.ltb_spec s num); [auto|lia].
  Qed.
  Lemma entry_oov : implicit_entry im num = Some (-1, 1, -1, -1).
  Proof.
    unfold implicit_entry. rewrite (io_explicit _ _ _ I). destruct (Z.ltb_spec num num); [lia|].
    pose proof (nth_error_Some_lt _ _ _ _ (io_zero _ _ _ I)).
    destruct (Z.leb_spec (num + Z.of_nat (length (im_states im))) num); [lia|].
    rewrite Z.sub_diag. apply (io_zero _ _ _ I).
  Qed.

  (** lines 588-666: a state for a prefix one character longer than a known one. *)
  Lemma get_prefix_idx_ok pl : 1 <= pl <= im_max_prefix im -> pl <= Z.of_nat (length (im_map im)) + 1 ->
    exists im1, get_prefix_idx im pl = Some (Z.to_nat (pl - 1), im1) /\
      im_explicit im1 = im_explicit im /\ im_max_prefix im1 = im_max_prefix im /\
      im_begin im1 = im_begin im /\ im_end im1 = im_end im /\ im_states im1 = im_states im /\
      (forall j, nth j (im_map im1) [] = nth j (im_map im) []) /\
      (Z.to_nat (pl - 1) < length (im_map im1))%nat.
  Proof.
    intros H L. unfold get_prefix_idx. destruct (Z.leb_spec pl 0); [lia|].
    destruct (Z.ltb_spec (im_max_prefix im) pl); [lia|].
    destruct (Nat.ltb_spec (length (im_map im)) (Z.to_nat (pl - 1))); [lia|].
    destruct (Nat.eqb_spec (Z.to_nat (pl - 1)) (length (im_map im))) as [E|E].
    - eexists. split; [reflexivity|]. cbn [im_explicit im_max_prefix im_begin im_end im_states im_map].
      do 5 (split; [reflexivity|]). split; [|rewrite app_length; simpl; lia]. intros j.
      destruct (Nat.lt_ge_cases j (length (im_map im))) as [Lj|Lj].
      + rewrite app_nth1 by auto. auto.
      + rewrite app_nth2 by auto. rewrite (nth_overflow (im_map im)) by auto.
        destruct (j - length (im_map im))%nat as [|[|]]; reflexivity.
    - exists im. do 6 (split; [reflexivity|]). split; auto. lia.
  Qed.
End States.

Lemma get_state_ok num ws im ms p b e : StronglySorted str_lt ws -> im_ok num ws im -> 0 <= ms < num -> p <> [] -> range ws p b e ->
  Z.of_nat (length p) <= Z.of_nat (length (im_map im)) + 1 ->
  exists t im', get_state im ms (Z.of_nat (length p)) b e = Some (t, im') /\ im_ok num ws im' /\
    stands num ws im' t (Typing ms p) /\ (exists ext, im_states im' = im_states im ++ ext).
Proof.
  intros SRT I M N R L.
  destruct p as [|c p']; [congruence|]. set (p := c :: p') in *.
  assert (PL : 1 <= Z.of_nat (length p)) by (unfold p; simpl length; lia).
  destruct (range_prefix_len ws p b e R) as [w [Iw [Lw [Ww Pw]]]].
  pose proof (io_max _ _ _ I w Iw) as MX.
  set (pl := Z.of_nat (length p)) in *.
  destruct (get_prefix_idx_ok im pl ltac:(lia) L)
    as [im1 [G1 [G2 [G3 [G4 [G5 [G6 [G7 G8]]]]]]]].
  assert (I1 : im_ok num ws im1).
  { destruct I. constructor; rewrite ?G2, ?G3, ?G4, ?G5, ?G6; auto; intros; rewrite ?G7 in *; eauto. }
  unfold get_state. destruct (Z.eqb_spec pl 0); [lia|]. unfold find_existing.
  destruct (Z.eqb_spec pl 0); [lia|]. rewrite G1.
  destruct (map_find (nth (Z.to_nat (pl - 1)) (im_map im1) []) (ms, b)) as [s|] eqn:MF.
  - destruct (io_map _ _ _ I1 _ _ _ MF) as [e' [S1 S2]]. cbn [fst snd] in S2.
    pose proof (io_num _ _ _ I). destruct (Z.leb_spec 0 s); [|lia].
    exists s, im1. split; auto. split; auto. split; [|exists []; rewrite app_nil_r; auto].
    simpl. assert (S3 : s <> num).
    { intros ->. rewrite Z.sub_diag in S2. change (Z.to_nat 0) with 0%nat in S2.
      rewrite (io_zero _ _ _ I1) in S2. injection S2. lia. }
    split; [lia|]. split; auto. exists b, e'.
    assert (Q : Z.of_nat (Z.to_nat (pl - 1)) + 1 = pl) by lia. rewrite Q in S2. split; [exact S2|].
    destruct (io_states _ _ _ I1 _ _ _ _ _ S2 ltac:(lia)) as [_ [p2 [P1 [P2 P3]]]].
    assert (p2 = p) as -> by (eapply range_same_prefix; eauto; unfold pl in P2; lia). auto.
  - change (0 <=? -1) with false. cbv iota. unfold add_new_state.
    pose proof (io_num _ _ _ I) as NP.
    (* the prefix index exists now *)
    assert (G9 : get_prefix_idx im1 pl = Some (Z.to_nat (pl - 1), im1)).
    { unfold get_prefix_idx. destruct (Z.leb_spec pl 0); [lia|]. rewrite G3.
      destruct (Z.ltb_spec (im_max_prefix im) pl); [lia|].
      destruct (Nat.ltb_spec (length (im_map im1)) (Z.to_nat (pl - 1))); [lia|].
      destruct (Nat.eqb_spec (Z.to_nat (pl - 1)) (length (im_map im1))); [lia|]. auto. }
    rewrite G9, MF. rewrite (io_explicit _ _ _ I1).
    set (t := num + Z.of_nat (length (im_states im1))).
    set (i := Z.to_nat (pl - 1)) in *.
    eexists t, _. split; [reflexivity|].
    pose proof (nth_error_Some_lt _ _ _ _ (io_zero _ _ _ I1)) as L0.
    assert (NU : forall j, nth j (upd (im_map im1) i (nth i (im_map im1) [] ++ [((ms, b), t)])) [] =
                 if (j =? i)%nat then nth i (im_map im1) [] ++ [((ms, b), t)] else nth j (im_map im1) []).
    { intros j. destruct (Nat.eqb_spec j i) as [->|Nj].
      - apply nth_error_nth. apply nth_error_upd_eq. auto.
      - destruct (Nat.lt_ge_cases j (length (im_map im1))) as [Lj|Lj].
        + erewrite nth_error_nth; [reflexivity|]. rewrite nth_error_upd_neq by auto. apply nth_error_nth'. auto.
        + rewrite !nth_overflow; auto. rewrite upd_length. auto. }
    split; [|split].
    + constructor; cbn [im_explicit im_max_prefix im_begin im_end im_states im_map].
      * auto.
      * auto.
      * apply (io_begin _ _ _ I1).
      * apply (io_end _ _ _ I1).
      * apply (io_max _ _ _ I1).
      * rewrite nth_error_app1 by auto. apply (io_zero _ _ _ I1).
      * intros j ms' pl' b' e' E J. destruct (Nat.lt_ge_cases j (length (im_states im1))) as [Lj|Lj].
        -- rewrite nth_error_app1 in E by auto. eapply (io_states _ _ _ I1); eauto.
        -- rewrite nth_error_app2 in E by auto. destruct (j - length (im_states im1))%nat as [|[|]]; try discriminate.
           simpl in E. injection E as <- <- <- <-. split; auto. exists p. split; [discriminate|]. auto.
      * intros j k s E. rewrite NU in E.
        assert (OLD : map_find (nth j (im_map im1) []) k = Some s -> exists e0, num <= s /\
           nth_error (im_states im1 ++ [(ms, pl, b, e)]) (Z.to_nat (s - num)) = Some (fst k, Z.of_nat j + 1, snd k, e0)).
        { intros X. destruct (io_map _ _ _ I1 _ _ _ X) as [e0 [X1 X2]]. exists e0. split; auto.
          rewrite nth_error_app1; auto. eapply nth_error_Some_lt; eauto. }
        destruct (Nat.eqb_spec j i) as [->|Nj]; auto. rewrite map_find_app in E.
        destruct (map_find (nth i (im_map im1) []) k) as [s'|] eqn:X; [injection E as ->; apply OLD; auto|].
        destruct (pair_eqb (ms, b) k) eqn:PQ; [|discriminate]. injection E as <-.
        apply pair_eqb_eq in PQ. subst k. exists e. split; [unfold t; lia|]. cbn [fst snd].
        replace (Z.to_nat (t - num)) with (length (im_states im1)) by (unfold t; lia).
        rewrite nth_error_app2, Nat.sub_diag by lia. simpl. do 4 f_equal. unfold i; lia.
      * intros j ms' pl' b' e' E. rewrite NU. destruct (Nat.lt_ge_cases j (length (im_states im1))) as [Lj|Lj].
        -- rewrite nth_error_app1 in E by auto. pose proof (io_complete _ _ _ I1 _ _ _ _ _ E) as X.
           destruct (Nat.eqb_spec (Z.to_nat (pl' - 1)) i) as [Ei|]; auto.
           rewrite map_find_app. rewrite Ei in X. rewrite X. auto.
        -- rewrite nth_error_app2 in E by auto. destruct (j - length (im_states im1))%nat as [|[|]] eqn:D; try discriminate.
           simpl in E. injection E as <- <- <- <-. fold i. rewrite Nat.eqb_refl, map_find_app, MF.
           rewrite (proj2 (pair_eqb_eq _ _) eq_refl). unfold t. f_equal. lia.
    + simpl. split; [unfold t; lia|]. split; auto. exists b, e. split; auto.
      replace (Z.to_nat (t - num)) with (length (im_states im1)) by (unfold t; lia).
      rewrite nth_error_app2, Nat.sub_diag by lia. reflexivity.
    + cbn [im_states]. rewrite G6. eauto.
Qed.
