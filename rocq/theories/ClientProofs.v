(** Proofs about ClientModel.v. *)
From Coq Require Import Field String.
From Verif Require Import Base Field LmModel LmProofs ServerModel ClientModel ClientSpec.

Lemma to_int_idem z : to_int (to_int z) = to_int z.
Proof.
  unfold to_int. rewrite Z.sub_add. rewrite Z.mod_mod by lia. reflexivity.
Qed.

Lemma append_assoc (a b c : string) : ((a ++ b) ++ c)%string = (a ++ (b ++ c))%string.
Proof. induction a as [|x a IH]; simpl; [reflexivity | f_equal; exact IH]. Qed.
Lemma append_nil_r (a : string) : (a ++ "")%string = a.
Proof. induction a as [|x a IH]; simpl; [reflexivity | f_equal; exact IH]. Qed.
Lemma length_append (a b : string) :
  String.length (a ++ b) = (String.length a + String.length b)%nat.
Proof. induction a as [|x a IH]; simpl; [reflexivity | f_equal; exact IH]. Qed.
Lemma length_pos (s : string) : s <> ""%string -> (1 <= String.length s)%nat.
Proof. destruct s; [contradiction | simpl; lia]. Qed.

Section P.
  Context {F : ofield}.
  Add Field FfieldCl : (f_th F).
  Local Open Scope F_scope.
  Implicit Types l : list (car F * string).
  Implicit Types u p t : car F.

  Lemma cumulative_0 l : cumulative l 0 = 0.
  Proof. reflexivity. Qed.
  Lemma cumulative_S l i e : nth_error l i = Some e -> cumulative l (S i) = cumulative l i + fst e.
  Proof.
    revert i; induction l as [|x l IH]; intros [|i] E; try discriminate E.
    - injection E as ->. unfold cumulative; cbn. ring.
    - simpl in E. specialize (IH _ E). unfold cumulative in *.
      cbn [firstn map] in *. rewrite !fsum_cons, IH. ring.
  Qed.
  Lemma cumulative_all l i : (length l <= i)%nat -> cumulative l i = total l.
  Proof. intro H. unfold cumulative, total. rewrite firstn_all2 by exact H. reflexivity. Qed.

  Lemma cumulative_mono l i j : nonneg l -> (i <= j)%nat -> cumulative l i <= cumulative l j.
  Proof.
    intros N H. induction H as [|j H IH]; [apply fle_refl|].
    destruct (nth_error l j) as [e|] eqn:E.
    - rewrite (cumulative_S _ _ _ E). eapply fle_trans; [exact IH|].
      apply nth_error_In in E. apply N in E.
      replace (cumulative l j) with (cumulative l j + 0) at 1 by ring.
      apply fle_add_l. exact E.
    - apply nth_error_None in E. replace (cumulative l (S j)) with (cumulative l j); [exact IH|].
      rewrite !cumulative_all by lia. reflexivity.
  Qed.

  (** The loop stops at the first number of entries reaching the threshold. *)
  Lemma loop_spec l : forall u t pos, exists j,
    random_position_loop u t l pos = (pos + j)%nat /\ (j <= length l)%nat /\
    (forall i, (i < j)%nat -> t + cumulative l i < u) /\
    (j = length l \/ u <= t + cumulative l j).
  Proof.
    induction l as [|[p s] l IH]; intros u t pos; cbn [random_position_loop].
    - exists 0%nat. destruct (t <? u); rewrite Nat.add_0_r; repeat split; auto; intros; lia.
    - destruct (t <? u) eqn:E.
      + destruct (IH u (t + p) (S pos)) as (j & E1 & L & A & B).
        exists (S j). rewrite E1. split; [lia|]. split; [cbn; lia|]. split.
        * intros [|i] Hi.
          { rewrite cumulative_0. replace (t + 0) with t by ring. exact E. }
          unfold cumulative. cbn [firstn map fst]. rewrite fsum_cons.
          replace (t + (p + fsum (map fst (firstn i l))))
            with (t + p + cumulative l i) by (unfold cumulative; ring).
          apply A. lia.
        * destruct B as [B|B]; [left; cbn; lia|right].
          unfold cumulative. cbn [firstn map fst]. rewrite fsum_cons.
          replace (t + (p + fsum (map fst (firstn j l))))
            with (t + p + cumulative l j) by (unfold cumulative; ring). exact B.
      + exists 0%nat. rewrite Nat.add_0_r. repeat split; [lia | intros; lia | right].
        rewrite cumulative_0. replace (t + 0) with t by ring.
        unfold flt in E. apply negb_false_iff in E. exact E.
  Qed.

  Lemma position_spec l u : exists j,
    get_random_position l u = Nat.pred j /\ (j <= length l)%nat /\
    (forall i, (i < j)%nat -> cumulative l i < u) /\
    (j = length l \/ u <= cumulative l j).
  Proof.
    unfold get_random_position.
    destruct (loop_spec l u 0 0) as (j & E & L & A & B).
    exists j. rewrite E. split; [reflexivity|]. split; [exact L|].
    assert (Z0 : forall x : car F, 0 + x = x) by (intro; ring).
    split.
    - intros i Hi. rewrite <- (Z0 (cumulative l i)). auto.
    - rewrite Z0 in B. exact B.
  Qed.

  Lemma position_in_bounds l u : l <> [] -> (get_random_position l u < length l)%nat.
  Proof.
    intro N. destruct (position_spec l u) as (j & -> & L & _).
    destruct l; [contradiction|]. cbn in *. lia.
  Qed.

  Lemma position_selects l u p s :
    nth_error l (get_random_position l u) = Some (p, s) ->
    (cumulative l (get_random_position l u) < u \/ get_random_position l u = O) /\
    (u <= cumulative l (S (get_random_position l u)) \/
     S (get_random_position l u) = length l \/ u <= 0).
  Proof.
    intro E. destruct (position_spec l u) as (j & Ej & L & A & B).
    rewrite Ej in *. destruct j as [|j]; cbn [Nat.pred] in *.
    - split; [right; reflexivity|]. destruct B as [B|B].
      + destruct l; discriminate.
      + right; right. exact B.
    - split; [left; apply A; lia|]. destruct B as [B|B]; [right; left; auto|left; exact B].
  Qed.

  Lemma position_selects' l u p s : nonneg l ->
    nth_error l (get_random_position l u) = Some (p, s) -> selects l u s.
  Proof.
    intros N E. destruct (position_selects _ _ _ _ E) as [A B].
    exists (get_random_position l u), p. split; [exact E|]. split; [exact A|].
    destruct B as [B|[B|B]]; auto. left. eapply fle_trans; [exact B|].
    rewrite <- (cumulative_0 l). apply cumulative_mono; [exact N|lia].
  Qed.

  Lemma selects_unique l u s s' : nonneg l -> selects l u s -> selects l u s' -> s = s'.
  Proof.
    intros N (i & p & E & A & B) (i' & p' & E' & A' & B').
    assert (Bi : (i < length l)%nat) by (apply nth_error_Some; congruence).
    assert (Bi' : (i' < length l)%nat) by (apply nth_error_Some; congruence).
    assert (H : forall a b, (a < b)%nat -> (b < length l)%nat ->
              (u <= cumulative l (S a) \/ S a = length l) ->
              (cumulative l b < u \/ b = O) -> False).
    { intros a b Hab Hb C D. destruct D as [D|D]; [|lia].
      destruct C as [C|C]; [|lia].
      apply (flt_irrefl u). eapply fle_lt_trans; [exact C|].
      eapply fle_lt_trans; [apply (cumulative_mono l (S a) b N); lia | exact D]. }
    destruct (lt_eq_lt_dec i i') as [[L|L]|L].
    - exfalso. eapply (H i i'); eauto.
    - subst. congruence.
    - exfalso. eapply (H i' i); eauto.
  Qed.

  (** *** Ranking *)
  Variable sort : list (car F * string) -> list (car F * string).
  Hypothesis Hsort : sort_spec sort.
  Definition rank_by (r : scores_msg F) : list (car F * string) :=
    sort (combine (msg_probs r) (msg_symbols r)).

  Lemma rank_by_ranking r : well_formed r -> ranking r (rank_by r).
  Proof. intro H. split; [exact H|]. exact (Hsort _). Qed.

  Lemma hyps_of_cases (r : scores_msg F) :
    (well_formed r /\ hyps_of sort r = Ok (rank_by r)) \/
    (~ well_formed r /\ hyps_of sort r = Err).
  Proof.
    unfold hyps_of, get_top_hypotheses, well_formed.
    destruct (Nat.eqb_spec (length (msg_probs r)) (length (msg_symbols r))) as [E|E];
      cbn [negb]; [|right; split; [tauto|reflexivity]].
    destruct (Z.leb_spec (Z.of_nat (length (msg_probs r))) (-1)); [lia|].
    destruct (Z.eqb_spec (Z.of_nat (length (msg_probs r))) 0) as [Z0|Z0].
    - right. split; [|reflexivity]. intros [_ N]. apply N.
      destruct (msg_probs r); [reflexivity|cbn in Z0; lia].
    - left. split; [split; [exact E|]; intro N; rewrite N in Z0; cbn in Z0; lia|].
      reflexivity.
  Qed.

  Lemma rank_nonneg r : (forall p, In p (msg_probs r) -> 0 <= p) -> nonneg (rank_by r).
  Proof.
    intros N [p s] H. apply N.
    apply (Permutation_in _ (Permutation_sym (proj1 (Hsort _)))) in H.
    apply in_combine_l in H. exact H.
  Qed.

  Lemma rank_not_nil r : well_formed r -> rank_by r <> [].
  Proof.
    intros [E N] H. unfold rank_by in H.
    pose proof (proj1 (Hsort (combine (msg_probs r) (msg_symbols r)))) as P.
    rewrite H in P. apply Permutation_length in P. rewrite combine_length, <- E, Nat.min_id in P.
    destruct (msg_probs r); [contradiction|discriminate P].
  Qed.

  (** *** Random generation *)
  Context {W : Type}.
  Variable unicode : string -> list Z.
  Variable srv : server F W.
  Variable draws : nat -> car F.

  Lemma helper_update_cases w s st :
    (exists st' n r' w', moves srv unicode w st s st' r' w' /\
       helper_update sort unicode (Some srv) w s st 1 = (Ok (st', n, rank_by r'), w') /\
       n = msg_norm r') \/
    (exists w', fails srv unicode w st s w' /\
       helper_update sort unicode (Some srv) w s st 1 = (Err, w')).
  Proof.
    unfold helper_update, async_update, async_next_state, moves, fails. rewrite !to_int_idem.
    destruct (rpc_update srv w (unicode s) (to_int st) 1) as [[r'|] w1] eqn:E1.
    - destruct (hyps_of_cases r') as [[Wf ->]|[Wf ->]].
      + destruct (rpc_next srv w1 s (to_int st)) as [[st'|] w2] eqn:E2.
        * left. exists st', (msg_norm r'), r', w2. split; [|auto]. exists w1. auto.
        * right. exists w2. split; [|reflexivity]. right; right. exists r', w1. auto.
      + right. exists w1. split; [|reflexivity]. right; left. exists r'. auto.
    - right. exists w1. auto.
  Qed.

  Local Notation gen := (generates srv unicode rank_by draws).

  (** All replies have non-negative probabilities. *)
  Definition replies_nonneg : Prop :=
    (forall w c st r w', rpc_scores srv w c st = (Some r, w') ->
       forall p, In p (msg_probs r) -> 0 <= p) /\
    (forall w c st n r w', rpc_update srv w c st n = (Some r, w') ->
       forall p, In p (msg_probs r) -> 0 <= p).
  Hypothesis Hnn : replies_nonneg.

  Lemma loop_generates : forall fuel b text st r w k,
    well_formed r -> (forall p, In p (msg_probs r) -> 0 <= p) ->
    (1 <= b)%nat -> (b <= fuel)%nat ->
    exists R ss e,
      (forall fuel' ch, (fuel <= fuel')%nat ->
         rand_gen_loop sort unicode fuel' (Some srv) draws (String.length text + b) true ch
           text st (rank_by r) w k = Some R) /\
      gen w st r k b ss e (rg_world R) (rg_draws R) /\
      rg_text R = (text ++ concat_all ss ++ note e)%string /\
      rg_status R = (match e with UpdateFailed => Err | _ => Ok tt end).
  Proof.
    induction fuel as [|fuel IH]; intros b text st r w k Wf Nn Hb Hf; [lia|].
    pose proof (position_in_bounds (rank_by r) (draws k) (rank_not_nil r Wf)) as Bd.
    destruct (nth_error (rank_by r) (get_random_position (rank_by r) (draws k)))
      as [[p s]|] eqn:En; [|apply nth_error_None in En; lia].
    pose proof (position_selects' _ _ _ _ (rank_nonneg r Nn) En) as Sel.
    destruct (String.eqb_spec s "") as [Es|Es].
    - subst s. exists (mk_rg (Ok tt) text w (S k)), [], EndOfText.
      split; [|split; [|split]].
      + intros fuel' ch Hf'. destruct fuel' as [|fuel']; [lia|].
        cbn [rand_gen_loop]. rewrite En. cbn [String.eqb negb andb].
        destruct (Nat.leb_spec (String.length text + b) (String.length text)); [lia|].
        reflexivity.
      + cbn. apply gen_end. exact Sel.
      + cbn. rewrite append_nil_r. reflexivity.
      + reflexivity.
    - destruct (helper_update_cases w s st) as [(st' & n & r' & w' & Mv & E & _)|(w' & Fl & E)].
      + destruct (le_lt_dec b (String.length s)) as [Lb|Lb].
        * exists (mk_rg (Ok tt) ((text ++ s) ++ "(reached_length_limit)")%string w' (S k)),
            [s], LimitReached.
          split; [|split; [|split]].
          -- intros fuel' ch Hf'. destruct fuel' as [|fuel']; [lia|].
             cbn [rand_gen_loop]. rewrite En, E.
             destruct (String.eqb_spec s "") as [|_]; [contradiction|].
             cbn [negb andb].
             destruct (Nat.ltb_spec (String.length (text ++ s)) (String.length text + b));
               [rewrite length_append in *; lia|].
             destruct (Nat.leb_spec (String.length text + b) (String.length (text ++ s)));
               [|rewrite length_append in *; lia].
             reflexivity.
          -- cbn. eapply gen_limit; eauto.
          -- cbn. rewrite append_nil_r, append_assoc. reflexivity.
          -- reflexivity.
        * pose proof (length_pos s Es) as Ls.
          assert (Wf' : well_formed r') by (destruct Mv as (w1 & _ & H & _); exact H).
          assert (Nn' : forall p, In p (msg_probs r') -> 0 <= p).
          { destruct Mv as (w1 & H & _). intros q. eapply (proj2 Hnn); exact H. }
          destruct (IH (b - String.length s)%nat (text ++ s)%string st' r' w' (S k) Wf' Nn')
            as (R & ss & e & C & G & T & S); [lia|lia|].
          exists R, (s :: ss), e. split; [|split; [|split]].
          -- intros fuel' ch Hf'. destruct fuel' as [|fuel']; [lia|].
             cbn [rand_gen_loop]. rewrite En, E.
             destruct (String.eqb_spec s "") as [|_]; [contradiction|].
             cbn [negb andb].
             destruct (Nat.ltb_spec (String.length (text ++ s)) (String.length text + b));
               [|rewrite length_append in *; lia].
             replace (String.length text + b)%nat
               with (String.length (text ++ s) + (b - String.length s))%nat
               by (rewrite length_append; lia).
             apply C. lia.
          -- eapply gen_more; eauto.
          -- rewrite T. cbn [concat_all]. rewrite !append_assoc. reflexivity.
          -- exact S.
      + exists (mk_rg Err (text ++ s)%string w' (S k)), [s], UpdateFailed.
        split; [|split; [|split]].
        * intros fuel' ch Hf'. destruct fuel' as [|fuel']; [lia|].
          cbn [rand_gen_loop]. rewrite En, E.
          destruct (String.eqb_spec s "") as [|_]; [contradiction|]. reflexivity.
        * cbn. eapply gen_fail; eauto.
        * cbn. rewrite !append_nil_r. reflexivity.
        * reflexivity.
  Qed.

  Lemma gen_facts w st r k b ss e w' k' :
    gen w st r k b ss e w' k' -> (1 <= b)%nat ->
    Forall (fun s => s <> ""%string) ss /\
    (k' = k + length ss + match e with EndOfText => 1 | _ => 0 end)%nat /\
    (k' - k <= b)%nat /\
    (String.length (concat_all (removelast ss)) < b)%nat /\
    (e = EndOfText -> (String.length (concat_all ss) < b)%nat) /\
    (e = LimitReached -> (b <= String.length (concat_all ss))%nat).
  Proof.
    induction 1 as [w st r k b S | w st r k b s st' r' w' S N M L
                   | w st r k b s w' S N Fl | w st r k b s st' r' w' ss e w'' k' S N M L G IH];
      intro Hb.
    - cbn [length concat_all removelast String.length]. split; [constructor|]. repeat split; try lia; try discriminate.
    - cbn [length concat_all removelast String.length]. rewrite append_nil_r. split; [constructor; [exact N|constructor]|].
      repeat split; try lia; try discriminate.
    - cbn [length concat_all removelast String.length]. rewrite append_nil_r. split; [constructor; [exact N|constructor]|].
      repeat split; try lia; try discriminate.
    - destruct IH as (A & B & C & D & E1 & E2); [lia|].
      pose proof (length_pos s N).
      split; [constructor; auto|]. split; [cbn [length]; destruct e; lia|].
      split; [lia|]. split; [|split].
      + destruct ss as [|s2 ss].
        * cbn. lia.
        * cbn [removelast] in *. cbn [concat_all]. rewrite length_append. cbn [concat_all] in *.
          lia.
      + intro He. specialize (E1 He). cbn [concat_all]. rewrite length_append. lia.
      + intro He. specialize (E2 He). cbn [concat_all]. rewrite length_append. lia.
  Qed.

  (** The opening calls of RandGen. *)
  Definition opens (w : W) (ctx : string) (st : Z) (r : scores_msg F) (w' : W) : Prop :=
    exists w1, rpc_next srv w ctx (-1) = (Some st, w1) /\
      rpc_scores srv w1 "" (to_int st) = (Some r, w') /\
      well_formed r /\ 0 < msg_norm r.

  Lemma helper_scores_cases w ctx st :
    (exists r w', rpc_scores srv w ctx (to_int st) = (Some r, w') /\ well_formed r /\
       0 < msg_norm r /\
       helper_get_scores sort (Some srv) w ctx st = (Ok (msg_norm r, rank_by r), w')) \/
    (exists w', helper_get_scores sort (Some srv) w ctx st = (Err, w') /\
       (rpc_scores srv w ctx (to_int st) = (None, w') \/
        exists r, rpc_scores srv w ctx (to_int st) = (Some r, w') /\
                  (~ well_formed r \/ msg_norm r <= 0))).
  Proof.
    unfold helper_get_scores, async_get_scores.
    destruct (rpc_scores srv w ctx (to_int st)) as [[r|] w'] eqn:E.
    - destruct (hyps_of_cases r) as [[Wf ->]|[Wf ->]]; cbn [bind].
      + destruct (msg_norm r <=? 0) eqn:L.
        * right. exists w'. split; [reflexivity|]. right. exists r. auto.
        * left. exists r, w'. repeat split; try (apply Wf); auto.
          unfold flt. rewrite L. reflexivity.
      + right. exists w'. split; [reflexivity|]. right. exists r. auto.
    - right. exists w'. auto.
  Qed.

  Lemma rand_gen_spec w ctx :
    (exists st r w2 R ss e, opens w ctx st r w2 /\
       (forall fuel, (128 <= fuel)%nat ->
          rand_gen sort unicode fuel (Some srv) draws w ctx = Some R) /\
       gen w2 st r 0 128 ss e (rg_world R) (rg_draws R) /\
       rg_text R = (ctx ++ concat_all ss ++ note e)%string /\
       rg_status R = (match e with UpdateFailed => Err | _ => Ok tt end)) \/
    ((forall st r w2, ~ opens w ctx st r w2) /\ exists w2,
       forall fuel, rand_gen sort unicode fuel (Some srv) draws w ctx
                    = Some (mk_rg Err ctx w2 0)).
  Proof.
    unfold rand_gen, helper_next_state, async_next_state, opens.
    rewrite to_int_idem. change (to_int (-1)) with (-1)%Z.
    destruct (rpc_next srv w ctx (-1)) as [[st|] w1] eqn:E1.
    - destruct (helper_scores_cases w1 "" st) as [(r & w2 & E2 & Wf & Np & E)|(w2 & E & E2)].
      + left. rewrite E.
        assert (Nn : forall p, In p (msg_probs r) -> 0 <= p).
        { intro p. eapply (proj1 Hnn). exact E2. }
        destruct (loop_generates 128 128 ctx st r w2 0 Wf Nn) as (R & ss & e & C & G & T & S);
          [lia|lia|].
        exists st, r, w2, R, ss, e. split; [exists w1; auto|]. split; [|auto].
        intros fuel Hf. replace (kMaxRandGenLen + String.length ctx)%nat
          with (String.length ctx + 128)%nat by (unfold kMaxRandGenLen; lia).
        apply C. exact Hf.
      + right. rewrite E. split; [|exists w2; reflexivity].
        intros st' r w2' (w1' & H1 & H2 & Wf & Np). injection H1 as <- <-.
        destruct E2 as [E2|(r2 & E2 & B)]; rewrite E2 in H2; [discriminate|].
        injection H2 as -> ->. destruct B as [B|B]; [contradiction|].
        apply flt_not_le in Np. contradiction.
    - right. split; [|exists w1; reflexivity].
      intros st' r w2' (w1' & H1 & _). discriminate.
  Qed.

End P.

Section KB.
  Context {F : ofield}.
  Local Open Scope F_scope.
  Implicit Types l : list (car F * string).
  (** *** k best *)
  Lemma kbest_loop_ok l : forall n i, (i + n <= length l)%nat ->
    kbest_loop l i n = Ok (firstn n (skipn i l)).
  Proof.
    induction n as [|n IH]; intros i H; cbn [kbest_loop]; [reflexivity|].
    unfold vget. destruct (nth_error l i) as [x|] eqn:E;
      [|apply nth_error_None in E; lia].
    cbn [bind]. rewrite IH by lia. cbn [bind].
    replace (skipn i l) with (x :: skipn (S i) l); [reflexivity|].
    clear -E. revert i E. induction l as [|y l IH]; intros [|i] E; try discriminate E.
    - injection E as ->. reflexivity.
    - cbn in *. apply IH. exact E.
  Qed.
  Lemma kbest_loop_ub l : forall n i, (i <= length l)%nat -> (length l < i + n)%nat ->
    kbest_loop l i n = UB.
  Proof.
    induction n as [|n IH]; intros i H1 H2; cbn [kbest_loop]; [lia|].
    unfold vget. destruct (nth_error l i) as [x|] eqn:E; [|reflexivity].
    cbn [bind]. assert (i < length l)%nat by (apply nth_error_Some; congruence).
    rewrite IH by lia. reflexivity.
  Qed.

  Lemma sorted_split (l : list (car F * string)) n :
    StronglySorted (fun a b => fst b <= fst a) l ->
    StronglySorted (fun a b => fst b <= fst a) (firstn n l) /\
    (forall x y, In x (firstn n l) -> In y (skipn n l) -> fst y <= fst x).
  Proof.
    revert n; induction l as [|z l IH]; intros [|n] S; cbn [firstn skipn].
    - split; [constructor|]. intros x y [].
    - split; [constructor|]. intros x y [].
    - split; [constructor|]. intros x y [].
    - inversion S as [|? ? S1 S2]; subst. destruct (IH n S1) as [A B]. split.
      + constructor; [exact A|]. apply Forall_forall. intros x Hx.
        rewrite Forall_forall in S2. apply S2.
        rewrite <- (firstn_skipn n l). apply in_or_app. auto.
      + intros x y [<-|Hx] Hy; [|eauto].
        rewrite Forall_forall in S2. apply S2.
        rewrite <- (firstn_skipn n l). apply in_or_app. auto.
  Qed.
End KB.
