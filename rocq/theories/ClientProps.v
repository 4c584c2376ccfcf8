(** C44 (sampling), C45 (random generation) and C46 (k best) of the client. *)
From Coq Require Import Field String.
From Verif Require Import Base Field LmModel LmProofs ServerModel ClientModel ClientSpec
  ClientProofs.

Section Sampling.
  Context {F : ofield}.
  Add Field FfieldClp : (f_th F).
  Local Open Scope F_scope.
  Implicit Types l : list (car F * string).

  (** * C44 *)

  (** Over the draws in (0, total] each entry owns an interval of its cumulative
      probabilities, as long as its probability: a uniform draw selects it with exactly its
      share. *)
  Theorem C44_interval : forall l i e, nonneg l -> nth_error l i = Some e ->
    cumulative l (S i) - cumulative l i = fst e /\
    forall u, 0 < u -> u <= total l ->
      (get_random_position l u = i <-> cumulative l i < u /\ u <= cumulative l (S i)).
  Proof.
    intros l i e N E. split; [rewrite (cumulative_S _ _ _ E); ring|].
    intros u Hu Ht. destruct (position_spec l u) as (j & Ej & L & A & B).
    assert (Li : (i < length l)%nat) by (apply nth_error_Some; congruence).
    assert (Uj : u <= cumulative l j).
    { destruct B as [B|B]; [|exact B]. rewrite cumulative_all by lia. exact Ht. }
    assert (Hj : j <> O).
    { intros ->. rewrite cumulative_0 in Uj. apply (flt_irrefl (0 : car F)).
      eapply flt_le_trans; eassumption. }
    rewrite Ej. split.
    - intros <-. replace (S (Nat.pred j)) with j by lia. split; [apply A; lia | exact Uj].
    - intros [C D]. destruct (lt_eq_lt_dec (Nat.pred j) i) as [[H|H]|H]; auto; exfalso.
      + apply (flt_irrefl u). eapply fle_lt_trans; [exact Uj|].
        eapply fle_lt_trans; [|exact C]. apply cumulative_mono; [exact N|lia].
      + apply (flt_irrefl u). eapply fle_lt_trans; [exact D|]. apply A. lia.
  Qed.

  (** The intervals of all entries together are (0, total]. *)
  Theorem C44_intervals_cover : forall l, cumulative l 0 = 0 /\ cumulative l (length l) = total l /\
    (nonneg l -> forall i j, (i <= j)%nat -> cumulative l i <= cumulative l j).
  Proof.
    intro l. split; [reflexivity|]. split; [apply cumulative_all; lia|].
    intros N i j H. apply cumulative_mono; assumption.
  Qed.

  (** The corner draws: 0 selects the first entry, anything beyond the total the last. *)
  Theorem C44_corners : forall l u, nonneg l ->
    (u <= 0 -> get_random_position l u = O) /\
    (total l < u -> get_random_position l u = Nat.pred (length l)).
  Proof.
    intros l u N. destruct (position_spec l u) as (j & -> & L & A & B). split.
    - intro H. destruct j as [|j]; [reflexivity|]. exfalso.
      assert (C : cumulative l 0 < u) by (apply A; lia). rewrite cumulative_0 in C.
      apply (flt_irrefl (0 : car F)). eapply flt_le_trans; eassumption.
    - intro H. f_equal. destruct B as [B|B]; [exact B|].
      destruct (le_lt_dec (length l) j); [lia|]. exfalso.
      apply (flt_irrefl u). eapply fle_lt_trans; [exact B|].
      eapply fle_lt_trans; [|exact H].
      rewrite <- (cumulative_all l (length l)) by lia. apply cumulative_mono; [exact N|lia].
  Qed.

  (** Always an index of the list (if there is any entry at all). *)
  Theorem C44_in_bounds : forall l u, l <> [] -> (get_random_position l u < length l)%nat.
  Proof. exact position_in_bounds. Qed.

  (** What cannot happen is not chosen. *)
  Theorem C44_no_impossible_choice : forall l u e, nonneg l -> 0 < u -> u <= total l ->
    nth_error l (get_random_position l u) = Some e -> 0 < fst e.
  Proof.
    intros l u e N Hu Ht E.
    destruct (C44_interval l _ e N E) as [D H].
    destruct (proj1 (H u Hu Ht) eq_refl) as [A B].
    rewrite <- D. apply (proj1 (flt_sub _ _)). eapply flt_le_trans; eassumption.
  Qed.

  (** The specification [selects] used by C45 is exactly that choice, and unambiguous. *)
  Theorem C44_selects : forall l u p s, nonneg l ->
    nth_error l (get_random_position l u) = Some (p, s) ->
    forall s', selects l u s' <-> s' = s.
  Proof.
    intros l u p s N E s'. pose proof (position_selects' _ _ _ _ N E) as S. split.
    - intro S'. eapply selects_unique; eassumption.
    - intros ->. exact S.
  Qed.
End Sampling.

(** Not only the probabilities above the draw matter but also that they sum to one: sampling
    ignores the reply's normalization field, and when the probabilities of a reply sum to less
    than one the last (least probable) entry gets everything that is missing. *)
Theorem C44_unnormalized_refuted :
  ~ forall (l : list (car Qc_field * string)) i e, nonneg l ->
      nth_error l i = Some e ->
      forall u, flt 0%F u = true -> flt u 1%F = true ->
      get_random_position l u = i ->
      (cumulative l i < u)%F /\ (u <= cumulative l (S i))%F.
Proof.
  intro P.
  pose (l := [(q 1 4, "a"%string); (q 1 4, "b"%string)]).
  assert (N : nonneg l) by (intros e [<-|[<-|[]]]; vm_compute; reflexivity).
  specialize (P l 1%nat _ N eq_refl (q 3 4)).
  destruct P as [_ P]; [vmr|vmr|vmr|]. revert P. vm_compute. discriminate.
Qed.

Example C44_example :
  map (get_random_position [(q 1 2, "a"%string); (q 1 4, "b"%string); (q 0 1, "c"%string); (q 1 4, ""%string)])
      [q 0 1; q 1 100; q 1 2; q 51 100; q 3 4; q 76 100; q 99 100]
  = [0; 0; 0; 1; 1; 3; 3]%nat.
Proof. vmr. Qed.
Print Assumptions C44_interval.
Print Assumptions C44_intervals_cover.
Print Assumptions C44_corners.
Print Assumptions C44_in_bounds.
Print Assumptions C44_no_impossible_choice.
Print Assumptions C44_selects.
Print Assumptions C44_unnormalized_refuted.

(** * C45 *)
Section Generation.
  Context {F : ofield} {W : Type}.
  Variable sort : list (car F * string) -> list (car F * string).
  Hypothesis Hsort : sort_spec sort.
  Variable unicode : string -> list Z.

  (** For every server with non-negative probabilities, every context and every sequence of
      draws, RandGen returns after at most 128 draws (one per loop iteration: a loop bound of
      128 iterations is never hit, and any larger bound gives the same result). *)
  Theorem C45_terminates : forall (srv : server F W) draws w ctx, replies_nonneg srv ->
    exists R, (rg_draws R <= 128)%nat /\
      forall fuel, (128 <= fuel)%nat ->
        rand_gen sort unicode fuel (Some srv) draws w ctx = Some R.
  Proof.
    intros srv draws w ctx Nn.
    destruct (rand_gen_spec sort Hsort unicode srv draws Nn w ctx)
      as [(st & r & w2 & R & ss & e & _ & C & G & _)|(_ & w2 & C)].
    - exists R. split; [|exact C].
      apply gen_facts in G; [|lia]. destruct G as (_ & _ & G & _). lia.
    - eexists. split; [|intros fuel _; apply C]. cbn. lia.
  Qed.

  (** What it returns when the opening calls succeed: the context, then the generated symbols
      one after the other - each one selected by its draw from the reply of the server in the
      state reached, learned once by the server, none of them empty - up to the first draw of
      the empty (end of string) symbol, the first failed update (an error) or the first symbol
      that brings the generated part to 128 bytes or more. *)
  Theorem C45_generates : forall (srv : server F W) draws w ctx st r w2,
    replies_nonneg srv -> opens srv w ctx st r w2 ->
    exists R ss e,
      (forall fuel, (128 <= fuel)%nat ->
         rand_gen sort unicode fuel (Some srv) draws w ctx = Some R) /\
      generates srv unicode (rank_by sort) draws w2 st r 0 128 ss e (rg_world R) (rg_draws R) /\
      rg_text R = (ctx ++ concat_all ss ++ note e)%string /\
      rg_status R = (match e with UpdateFailed => Err | _ => Ok tt end) /\
      Forall (fun s => s <> ""%string) ss /\
      (String.length (concat_all (removelast ss)) < 128)%nat /\
      (e = EndOfText -> (String.length (concat_all ss) < 128)%nat) /\
      (e = LimitReached -> (128 <= String.length (concat_all ss))%nat).
  Proof.
    intros srv draws w ctx st r w2 Nn O.
    destruct (rand_gen_spec sort Hsort unicode srv draws Nn w ctx)
      as [(st' & r' & w2' & R & ss & e & O' & C & G & T & S)|(C & _)].
    2:{ exfalso. eapply C; exact O. }
    assert (X : st' = st /\ r' = r /\ w2' = w2).
    { destruct O as (w1 & A & B & _), O' as (w1' & A' & B' & _).
      rewrite A in A'. injection A' as <- <-. rewrite B in B'. injection B' as <- <-. auto. }
    destruct X as (-> & -> & ->).
    exists R, ss, e. split; [exact C|]. split; [exact G|]. split; [exact T|].
    split; [exact S|]. apply gen_facts in G; [|lia]. tauto.
  Qed.

  (** The ranked list the draws select from holds exactly the entries of the reply. *)
  Theorem C45_rank : forall r : scores_msg F, well_formed r -> ranking r (rank_by sort r).
  Proof. intros r H. apply rank_by_ranking; assumption. Qed.

  (** When an opening call fails or the reply is malformed: an error, no draw, the context
      unchanged. *)
  Theorem C45_opening_fails : forall (srv : server F W) draws w ctx,
    replies_nonneg srv -> (forall st r w2, ~ opens srv w ctx st r w2) ->
    exists w2, forall fuel, (128 <= fuel)%nat ->
      rand_gen sort unicode fuel (Some srv) draws w ctx = Some (mk_rg Err ctx w2 0).
  Proof.
    intros srv draws w ctx Nn N.
    destruct (rand_gen_spec sort Hsort unicode srv draws Nn w ctx)
      as [(st' & r' & w2' & R & ss & e & O' & _)|(_ & w2 & C)].
    - exfalso. eapply N; exact O'.
    - exists w2. intros fuel _. apply C.
  Qed.
End Generation.

(** The bound is on bytes, and the symbol reaching it is kept whole: with a server offering
    one byte and then only three-byte symbols, 130 bytes are generated. *)
Definition ex_srv : server Qc_field nat := mk_server
  (fun w _ _ => (Some (mk_scores [q 1 1] ["a"%string] (q 1 1)), S w))
  (fun w _ _ => (Some (Z.of_nat w), S w))
  (fun w _ _ _ => (Some (mk_scores [q 1 1] [if Nat.even w then "bcd" else "xyz"]%string (q 1 1)), S w)).
Example C45_overshoot :
  match rand_gen sort_desc (fun _ => [97%Z]) 128 (Some ex_srv) (fun _ => q 1 2) 0%nat "ctx" with
  | Some R => String.length (rg_text R) = (3 + 130 + 22)%nat /\ rg_draws R = 44%nat /\
              rg_status R = Ok tt
  | None => False
  end.
Proof. vm_compute. repeat split. Qed.
Example C45_ex_hyps : replies_nonneg ex_srv /\ opens ex_srv 0%nat "ctx" 0%Z
  (mk_scores [q 1 1] ["a"%string] (q 1 1)) 2%nat.
Proof.
  split; [split|].
  - intros w c st r w' E p Hp. injection E as <- <-. destruct Hp as [<-|[]]. vm_compute. reflexivity.
  - intros w c st n r w' E p Hp. injection E as <- <-. destruct Hp as [<-|[]].
    vm_compute. reflexivity.
  - exists 1%nat. repeat split; try (vm_compute; reflexivity). discriminate.
Qed.

(** The user-level reading "RandGen never generates more than 128 bytes" is false. *)
Theorem C45_length_refuted :
  ~ forall (srv : server Qc_field nat) draws w ctx R, replies_nonneg srv ->
      rand_gen sort_desc (fun _ => [97%Z]) 128 (Some srv) draws w ctx = Some R ->
      (String.length (rg_text R) <= String.length ctx + 128 + 22)%nat.
Proof.
  intro P. pose proof C45_overshoot as E.
  destruct (rand_gen sort_desc (fun _ => [97%Z]) 128 (Some ex_srv) (fun _ => q 1 2) 0%nat "ctx")
    as [R|] eqn:ER; [|contradiction].
  apply P in ER; [|apply C45_ex_hyps]. destruct E as (E & _). rewrite E in ER. cbn in ER. lia.
Qed.

(** Using the helper before Init: every request is an error, except that RandGen (through
    GetNextState) aborts the process. *)
Theorem C45_uninitialized_refuted :
  forall (F : ofield) (W : Type) sort unicode (draws : nat -> car F) (w : W) ctx fuel k,
    rand_gen sort unicode fuel None draws w ctx = Some (mk_rg Crash ctx w 0) /\
    one_kbest sort None w k ctx = (Err, w).
Proof. intros. split; reflexivity. Qed.

Print Assumptions C45_terminates.
Print Assumptions C45_generates.
Print Assumptions C45_rank.
Print Assumptions C45_opening_fails.
Print Assumptions C45_length_refuted.
Print Assumptions C45_uninitialized_refuted.

(** * C46 *)
Section KBest.
  Context {F : ofield} {W : Type}.
  Local Open Scope F_scope.
  Variable sort : list (car F * string) -> list (car F * string).
  Hypothesis Hsort : sort_spec sort.

  (** Asking for at most as many symbols as the server offers returns that many, the most
      probable ones, most probable first. *)
  Theorem C46_k_best : forall (srv : server F W) w k ctx r w1,
    rpc_scores srv w ctx (-1) = (Some r, w1) ->
    well_formed r -> 0 < msg_norm r -> (k <= Z.of_nat (length (msg_probs r)))%Z ->
    exists best rest,
      one_kbest sort (Some srv) w k ctx = (Ok best, w1) /\
      length best = Z.to_nat k /\
      Permutation (combine (msg_probs r) (msg_symbols r)) (best ++ rest) /\
      StronglySorted (fun a b => fst b <= fst a) best /\
      (forall x y, In x best -> In y rest -> fst y <= fst x).
  Proof.
    intros srv w k ctx r w1 E Wf Np Hk.
    unfold one_kbest.
    destruct (helper_scores_cases sort srv w ctx (-1)) as [(r' & w' & E' & _ & _ & ->)|(w' & _ & B)].
    - change (to_int (-1)) with (-1)%Z in E'. rewrite E in E'. injection E' as <- <-.
      destruct (rank_by_ranking sort Hsort r Wf) as (_ & P & S).
      assert (Len : length (rank_by sort r) = length (msg_probs r)).
      { apply Permutation_length in P. rewrite combine_length in P.
        destruct Wf as [Wf _]. lia. }
      exists (firstn (Z.to_nat k) (rank_by sort r)), (skipn (Z.to_nat k) (rank_by sort r)).
      rewrite kbest_loop_ok by (rewrite Len; lia). split; [reflexivity|].
      split; [rewrite firstn_length, Len; lia|]. rewrite firstn_skipn. split; [exact P|].
      apply sorted_split. exact S.
    - exfalso. change (to_int (-1)) with (-1)%Z in B.
      destruct B as [B|(r' & B & C)]; rewrite E in B; [discriminate|].
      injection B as -> ->. destruct C as [C|C]; [contradiction|].
      apply flt_not_le in Np. contradiction.
  Qed.

  (** Asking for more is an out-of-bounds read (client_helper.cc:236), on every server. *)
  Theorem C46_too_many_refuted : forall (srv : server F W) w k ctx r w1,
    rpc_scores srv w ctx (-1) = (Some r, w1) ->
    well_formed r -> 0 < msg_norm r -> (Z.of_nat (length (msg_probs r)) < k)%Z ->
    one_kbest sort (Some srv) w k ctx = (UB, w1).
  Proof.
    intros srv w k ctx r w1 E Wf Np Hk.
    unfold one_kbest.
    destruct (helper_scores_cases sort srv w ctx (-1)) as [(r' & w' & E' & _ & _ & ->)|(w' & _ & B)].
    - change (to_int (-1)) with (-1)%Z in E'. rewrite E in E'. injection E' as <- <-.
      destruct (rank_by_ranking sort Hsort r Wf) as (_ & P & S).
      assert (Len : length (rank_by sort r) = length (msg_probs r)).
      { apply Permutation_length in P. rewrite combine_length in P.
        destruct Wf as [Wf _]. lia. }
      rewrite kbest_loop_ub by (rewrite Len; lia). reflexivity.
    - exfalso. change (to_int (-1)) with (-1)%Z in B.
      destruct B as [B|(r' & B & C)]; rewrite E in B; [discriminate|].
      injection B as -> ->. destruct C as [C|C]; [contradiction|].
      apply flt_not_le in Np. contradiction.
  Qed.

  (** Failures of the server and malformed replies are reported. *)
  Theorem C46_errors : forall (srv : server F W) w k ctx,
    (exists w1, rpc_scores srv w ctx (-1) = (None, w1)) \/
    (exists r w1, rpc_scores srv w ctx (-1) = (Some r, w1) /\
                  (~ well_formed r \/ msg_norm r <= 0)) ->
    exists w1, one_kbest sort (Some srv) w k ctx = (Err, w1).
  Proof.
    intros srv w k ctx H. unfold one_kbest.
    destruct (helper_scores_cases sort srv w ctx (-1)) as [(r' & w' & E' & Wf & Np & ->)|(w' & -> & _)];
      [|exists w'; reflexivity].
    exfalso. change (to_int (-1)) with (-1)%Z in E'.
    destruct H as [(w1 & H)|(r & w1 & H & C)]; rewrite E' in H; [discriminate|].
    injection H as -> ->. destruct C as [C|C]; [contradiction|].
    apply flt_not_le in Np. contradiction.
  Qed.
End KBest.

Definition ex_srv2 : server Qc_field unit := mk_server
  (fun w _ _ => (Some (mk_scores [q 1 4; q 1 2; q 1 4] ["a"; "b"; ""]%string (q 1 1)), w))
  (fun w _ _ => (Some 0%Z, w))
  (fun w _ _ _ => (None, w)).
Example C46_example : one_kbest sort_desc (Some ex_srv2) tt 2 "x" =
  (Ok [(q 1 2, "b"%string); (q 1 4, "a"%string)], tt).
Proof. vmr. Qed.
Example C46_example_ub : one_kbest sort_desc (Some ex_srv2) tt 4 "x" = (UB, tt).
Proof. vmr. Qed.
Print Assumptions C46_k_best.
Print Assumptions C46_too_many_refuted.
Print Assumptions C46_errors.
