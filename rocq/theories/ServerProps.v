(** C41, C42, C58: the life cycle of calls on the server. *)
From Verif Require Import Base Field LmModel HubModel ServerModel ServerProofs.
Local Open Scope Z_scope.

(** ** Vocabulary *)
Section Vocabulary.
  Context {Req Rep Hub : Type}.
  (** A client call was received on this call object. *)
  Definition received (r : rpc Req) : bool := match r_req r with Some _ => true | None => false end.
  (** The call object waits for a client (or the event of its arrival has not been looked at). *)
  Definition waits_for_client (m : rpc_method) (r : rpc Req) : bool :=
    method_eqb (r_method r) m && match r_phase r with Armed | Arrived _ => true | _ => false end.
  (** Steps of a thread that touch call object [j]. *)
  Definition touches (j : nat) (i : instr Rep Hub) : Prop :=
    match i with IHandle x | ICommit x _ _ | IFinish x | IFree x => x = j | _ => False end.
  (** A thread that is not in the middle of handling an event. *)
  Definition between_events (k : list (instr Rep Hub)) : bool :=
    match k with [] | [INext] | (ISetShutdown | ICloseServer | IAwaitServer | IAwaitNotified | IShutdownQueue) :: _ => true | _ => false end.
  Definition times (b : bool) : nat := if b then 1%nat else 0%nat.
  (** Thread [i] (not the one in ProcessRequests) has returned from Shutdown. *)
  Definition returned (c : @conf Req Rep Hub) (i : nat) : Prop := nth_error (snd c) i = Some [].
  Definition all_returned (c : @conf Req Rep Hub) : Prop := forall i k, nth_error (snd c) i = Some k -> k = [].
End Vocabulary.

Section Props.
  Context {Req Rep Hub : Type}.
  Variable serve : Hub -> Req -> Rep * Hub.
  Notation conf := (@conf Req Rep Hub).

  Lemma count_filter {A} (p : A -> bool) l : length (filter p l) = total (fun x => b2n (p x)) l.
  Proof. induction l as [|x l IH]; cbn; auto. destruct (p x); cbn; lia. Qed.

  Lemma acc_times r : acc r = times (@received Req r).
  Proof. unfold acc, received, times. destruct (r_req r); auto. Qed.

  (** C41: whatever the schedule, a call object is handled, replied to and deleted at most once each, in
      that order, only if a client call was received on it; when it has been deleted each happened
      exactly once, and it is not touched afterwards. *)
  Theorem C41_each_call_once (p : bool) (h : Hub) (t : nat) (c : conf) :
    reach serve p (initial h t) c -> s_crashed (fst c) = false ->
    forall j r, nth_error (s_rpcs (fst c)) j = Some r ->
      (r_freed r <= 1)%nat /\
      (r_finished r <= r_handled r)%nat /\ (r_handled r <= times (received r))%nat /\
      (r_freed r = 1%nat -> r_handled r = times (received r) /\ r_finished r = times (received r) /\
         forall k i, In k (snd c) -> In i k -> ~ touches j i).
  Proof.
    intros R NC j r H. pose proof (reach_inv _ _ _ _ _ R NC) as I.
    pose proof (i_rpc _ _ _ _ I _ _ H) as OK. rewrite <- acc_times. unfold rpc_ok in OK.
    repeat split; try (destruct (r_phase r) as [|[]| | | | |]; cbn in OK; lia).
    intros k i J1 J2 T.
    assert (PH : r_phase r = Freed) by (destruct (r_phase r) as [|[]| | | | |]; auto; lia).
    pose proof (i_fin _ _ _ _ I j) as X1. pose proof (i_free _ _ _ _ I j) as X2. pose proof (i_han _ _ _ _ I j) as X3.
    unfold at_rpc in X1, X2, X3. rewrite H in X1, X2, X3. unfold is_phase_serving, is_phase_cleaning in X1, X2, X3. rewrite PH in X1, X2, X3.
    cbn in X1, X2, X3.
    assert (Q : forall q : instr Rep Hub -> bool, tot q (snd c) = 0%nat -> q i = true -> False).
    { intros q Z Qi. unfold tot in Z. pose proof (total_zero_inv _ _ Z k J1) as Z1. unfold cnt in Z1.
      pose proof (total_zero_inv _ _ Z1 i J2) as Z2. cbn in Z2. rewrite Qi in Z2. discriminate. }
    destruct i; cbn in T; try contradiction; subst.
    - apply (Q (is_han j)); [lia|]. cbn. apply Nat.eqb_refl.
    - apply (Q (is_han j)); [lia|]. cbn. apply Nat.eqb_refl.
    - apply (Q (is_fin j)); [lia|]. cbn. apply Nat.eqb_refl.
    - apply (Q (is_free j)); [lia|]. cbn. apply Nat.eqb_refl.
  Qed.

  (** C41: while the server runs and the serving thread waits for events, exactly one call object of
      each method waits for clients; there are never two. *)
  Theorem C41_one_waiting (p : bool) (h : Hub) (t : nat) (c : conf) :
    reach serve p (initial h t) c -> s_crashed (fst c) = false ->
    forall m,
      (length (filter (waits_for_client m) (s_rpcs (fst c))) <= 1)%nat /\
      (s_shutdown (fst c) = false -> nth_error (snd c) 0 = Some [INext] ->
       length (filter (waits_for_client m) (s_rpcs (fst c))) = 1%nat).
  Proof.
    intros R NC m. pose proof (reach_inv _ _ _ _ _ R NC) as I.
    pose proof (i_meth _ _ _ _ I m) as [X Y].
    assert (E : length (filter (waits_for_client m) (s_rpcs (fst c))) = total (fun r => b2n (waiting m r)) (s_rpcs (fst c))).
    { rewrite count_filter. reflexivity. }
    rewrite E. split; [lia|]. intros SD K. specialize (Y SD).
    destruct (i_main _ _ _ _ I) as [k0 [rest [Ets [_ [B _]]]]]. rewrite Ets in *. cbn in K. injection K as ->.
    assert (Z : tot (is_req m) ([INext] :: rest) = 0%nat); [|lia].
    unfold tot. cbn [total]. replace (cnt (is_req m) [INext]) with 0%nat by reflexivity.
    apply total_zero. intros k J. rewrite Forall_forall in B. specialize (B k J).
    apply total_zero. intros i J2. pose proof (total_zero_inv _ _ B i J2) as Z. destruct i; cbn in *; auto; discriminate.
  Qed.

  (** C41: when no thread is in the middle of an event the pending counter is the number of call objects
      that exist. *)
  Theorem C41_pending_counts_calls (p : bool) (h : Hub) (t : nat) (c : conf) :
    reach serve p (initial h t) c -> s_crashed (fst c) = false ->
    forallb between_events (snd c) = true ->
    s_pending (fst c) = Z.of_nat (length (filter (fun r => r_freed r =? 0)%nat (s_rpcs (fst c)))).
  Proof.
    intros R NC BE. pose proof (reach_inv _ _ _ _ _ R NC) as I.
    pose proof (i_pend _ _ _ _ I) as X. rewrite forallb_forall in BE. pose proof (i_shape _ _ _ _ I) as SH. rewrite Forall_forall in SH.
    assert (TZ : forall q : instr Rep Hub -> bool, (forall k, shape k -> between_events k = true -> cnt q k = 0%nat) -> tot q (snd c) = 0%nat).
    { intros q Q. apply total_zero. intros k J. auto. }
    rewrite !TZ in X by (intros k S; destruct S; cbn; auto; discriminate).
    assert (E : total (fun r => b2n (negb (is_freed r))) (s_rpcs (fst c)) = length (filter (fun r => r_freed r =? 0)%nat (s_rpcs (fst c)))); [|lia].
    rewrite count_filter. assert (A : forall l, (forall r, In r l -> In r (s_rpcs (fst c))) ->
      total (fun r => b2n (negb (is_freed r))) l = total (fun r => b2n (r_freed r =? 0)%nat) l).
    { induction l as [|r l IH]; auto. intros L. cbn [total]. rewrite IH by (intros; apply L; right; auto). f_equal.
      assert (J : In r (s_rpcs (fst c))) by (apply L; left; auto). apply In_nth_error in J. destruct J as [j J].
      pose proof (i_rpc _ _ _ _ I _ _ J) as OK. unfold rpc_ok in OK. unfold is_freed.
      destruct (r_phase r) as [|[]| | | | |]; cbn;
        repeat match goal with OK : _ /\ _ |- _ => destruct OK as [? OK] end;
        match goal with |- _ = b2n (?x =? 0)%nat => first [replace x with 0%nat by lia | replace x with 1%nat by lia] end; reflexivity. }
    apply A. auto.
  Qed.

  (** C41: the serving thread is never stuck while an event is in the queue. *)
  Theorem C41_responsive (p : bool) (h : Hub) (t : nat) (c : conf) (r : rpc Req) :
    reach serve p (initial h t) c -> s_crashed (fst c) = false ->
    In r (s_rpcs (fst c)) -> (r_phase r = Finished \/ exists ok, r_phase r = Arrived ok) ->
    exists k c', nth_error (snd c) 0 = Some k /\ k <> [] /\ step serve p c c' /\ nth_error (snd c') 0 <> Some k /\
                 forall i, i <> 0%nat -> nth_error (snd c') i = nth_error (snd c) i.
  Proof.
    intros R NC J PH. pose proof (reach_inv _ _ _ _ _ R NC) as I. destruct c as [s ts]. cbn [fst snd] in *.
    destruct (main_progress _ _ _ _ _ r I J) as [a [k [s' [pre [H [E NS]]]]]].
    { unfold ready. destruct PH as [->|[ok ->]]; auto. }
    exists (a :: k), (s', upd ts 0 (pre ++ k)). split; auto. split; [discriminate|].
    split; [|split].
    - eapply step_thread; eauto. intros _ ->. discriminate.
    - cbn [snd]. rewrite nth_error_upd_eq by (eapply nth_error_Some_lt; eauto).
      pose proof (th_shape _ _ _ _ _ _ _ _ I H) as SH. clear - E SH.
      intros X. inversion E; subst; inversion SH; subst; try (destruct (s_shutdown s)); cbn in X; discriminate.
    - intros i N. cbn [snd]. rewrite nth_error_upd_neq; auto.
  Qed.

  (** C41: when the server has nothing to do but wait for a new client call (or for Shutdown to be
      called), every client call it received has been handled, replied to and released exactly once. *)
  Theorem C41_idle_means_answered (p : bool) (h : Hub) (t : nat) (c : conf) :
    reach serve p (initial h t) c -> s_crashed (fst c) = false ->
    (forall c', step serve p c c' ->
       (length (filter received (s_rpcs (fst c))) < length (filter received (s_rpcs (fst c'))))%nat \/
       exists i k, nth_error (snd c) i = Some (ISetShutdown :: k) /\ snd c' = upd (snd c) i k) ->
    forall r, In r (s_rpcs (fst c)) -> received r = true ->
      r_handled r = 1%nat /\ r_finished r = 1%nat /\ r_freed r = 1%nat.
  Proof.
    intros R NC ID r J RC. pose proof (reach_inv _ _ _ _ _ R NC) as I.
    assert (AC : forall c0 : conf, accepted c0 = length (filter received (s_rpcs (fst c0)))).
    { intros c0. unfold accepted. rewrite count_filter. generalize (s_rpcs (fst c0)).
      induction l as [|x l IH]; cbn; auto. rewrite IH. f_equal. apply acc_times. }
    destruct (idle_calls _ _ _ _ I NC) with (r := r) as [PH|[PH _]]; auto.
    { intros c' S. rewrite !AC. destruct (ID c' S) as [X|X]; auto. }
    all: apply In_nth_error in J; destruct J as [j J]; pose proof (i_rpc _ _ _ _ I _ _ J) as OK; unfold rpc_ok in OK;
      rewrite PH, acc_times, RC in OK; cbn in OK; lia.
  Qed.

  (** C41: and it gets there: a run of [n] steps receives at least (n - 67 - 6t) / 21 client calls, so
      without new calls it comes to rest. *)
  Theorem C41_work_bounded (p : bool) (h : Hub) (t n : nat) (c : conf) :
    trace serve p (initial h t) n c ->
    (n <= 67 + 6 * t + 21 * length (filter received (s_rpcs (fst c))))%nat.
  Proof.
    intros T. pose proof (trace_bound _ _ _ _ _ _ T) as B.
    assert (AC : accepted c = length (filter received (s_rpcs (fst c)))).
    { unfold accepted. rewrite count_filter. generalize (s_rpcs (fst c)).
      induction l as [|x l IH]; cbn; auto. rewrite IH. f_equal. apply acc_times. }
    rewrite <- AC. lia.
  Qed.

  (** C42: when a thread has returned from Shutdown (or from ProcessRequests), every client call that was
      received has been handled and replied to, and no call object waits for clients. *)
  Theorem C42_returned_means_answered (p : bool) (h : Hub) (t : nat) (c : conf) (i : nat) :
    reach serve p (initial h t) c -> s_crashed (fst c) = false -> returned c i ->
    forall r, In r (s_rpcs (fst c)) ->
      r_handled r = times (received r) /\ r_finished r = times (received r) /\
      (forall m, waits_for_client m r = false) /\ r_phase r <> Finishing /\ r_phase r <> Finished.
  Proof.
    intros R NC RT r J. pose proof (reach_inv _ _ _ _ _ R NC) as I. destruct c as [s ts]. unfold returned in RT. cbn [fst snd] in *.
    destruct (i_ended _ _ _ _ I (nth_error_In _ _ RT)) as [CD O]. cbn in CD, O. specialize (O r J).
    destruct (i_grpc _ _ _ _ I) as [_ [G2 G3]]. cbn in G2, G3. pose proof (G2 (G3 CD) r J) as L.
    apply In_nth_error in J. destruct J as [j J]. pose proof (i_rpc _ _ _ _ I _ _ J) as OK. unfold rpc_ok in OK.
    rewrite <- acc_times. unfold waits_for_client. unfold outstanding in O. unfold live in L.
    destruct (r_phase r) as [|[]| | | | |]; try discriminate; repeat split; try tauto; try discriminate; intros; apply andb_false_r.
  Qed.

  (** C42 (if Shutdown is called when ProcessRequests has requested its first calls): nothing fails; once
      Shutdown has been called every run ends; and when nothing can happen any more every thread has
      returned and every call object has been released, its client, if any, answered. *)
  Theorem C42_graceful_partial (h : Hub) (t : nat) (c : conf) :
    reach serve true (initial h t) c ->
    s_crashed (fst c) = false /\
    (s_shutdown (fst c) = true ->
       Acc (fun c2 c1 => step serve true c1 c2) c /\
       ((forall c', ~ step serve true c c') ->
          all_returned c /\ s_pending (fst c) = 0 /\
          forall r, In r (s_rpcs (fst c)) ->
            r_freed r = 1%nat /\ r_handled r = times (received r) /\ r_finished r = times (received r))).
  Proof.
    intros R. pose proof (patient_no_crash _ _ _ _ R) as NC. split; auto. intros SD.
    pose proof (reach_inv _ _ _ _ _ R NC) as I. split; [eapply terminates; eauto|].
    intros ST. pose proof (stuck_ended _ _ _ _ I NC SD ST) as A.
    destruct (ended_clean _ _ _ _ I A) as [P C]. split; [|split]; auto.
    - intros i k J. apply A. eapply nth_error_In; eauto.
    - intros r J. destruct (C r J) as [_ [C1 [C2 C3]]]. rewrite <- acc_times. auto.
  Qed.

  (** Without that proviso: a run that does not fail still ends in the same way. *)
  Theorem C42_end_partial (p : bool) (h : Hub) (t : nat) (c : conf) :
    reach serve p (initial h t) c -> s_shutdown (fst c) = true ->
    Acc (fun c2 c1 => step serve p c1 c2) c /\
    ((forall c', ~ step serve p c c') -> s_crashed (fst c) = true \/
       (all_returned c /\ s_pending (fst c) = 0 /\
        forall r, In r (s_rpcs (fst c)) ->
          r_freed r = 1%nat /\ r_handled r = times (received r) /\ r_finished r = times (received r))).
  Proof.
    intros R SD. destruct (s_crashed (fst c)) eqn:NC.
    - split; auto. constructor. intros c2 S2. apply step_from_crashed in S2. congruence.
    - pose proof (reach_inv _ _ _ _ _ R NC) as I. split; [eapply terminates; eauto|]. intros ST. right.
      pose proof (stuck_ended _ _ _ _ I NC SD ST) as A.
      destruct (ended_clean _ _ _ _ I A) as [P C]. split; [|split]; auto.
      + intros i k J. apply A. eapply nth_error_In; eauto.
      + intros r J. destruct (C r J) as [_ [C1 [C2 C3]]]. rewrite <- acc_times. auto.
  Qed.

  (** C58: requests are handled one at a time: the replies and the model hub are those of handling the
      requests one after the other, in the order of the log. *)
  Fixpoint in_turn (h : Hub) (l : list Req) : list (Req * Rep) * Hub :=
    match l with
    | [] => ([], h)
    | q :: t => let (rep, h1) := serve h q in let (out, h2) := in_turn h1 t in ((q, rep) :: out, h2)
    end.
  Lemma in_turn_snoc l : forall h q, in_turn h (l ++ [q]) =
    (fst (in_turn h l) ++ [(q, fst (serve (snd (in_turn h l)) q))], snd (serve (snd (in_turn h l)) q)).
  Proof.
    induction l as [|x l IH]; intros h q; cbn.
    - destruct (serve h q); auto.
    - destruct (serve h x) as [rep h1]. rewrite IH. destruct (in_turn h1 l) as [out h2]. cbn. reflexivity.
  Qed.
  Lemma runs_in_turn h l h' : runs serve h l h' -> in_turn h (map fst l) = (l, h').
  Proof.
    induction 1 as [|h l h1 q R IH]; auto. rewrite map_app. cbn [map fst]. rewrite in_turn_snoc, IH. reflexivity.
  Qed.
  Theorem C58_one_at_a_time (p : bool) (h : Hub) (t : nat) (c : conf) :
    reach serve p (initial h t) c -> s_crashed (fst c) = false ->
    in_turn h (map fst (s_log (fst c))) = (s_log (fst c), s_hub (fst c)).
  Proof. intros R NC. apply runs_in_turn. apply (i_log _ _ _ _ (reach_inv _ _ _ _ _ R NC)). Qed.

  (** ... and at no time are two threads handling a request. *)
  Definition handling (k : list (instr Rep Hub)) : Prop := match k with (IHandle _ | ICommit _ _ _) :: _ => True | _ => False end.
  Theorem C58_exclusive (p : bool) (h : Hub) (t : nat) (c : conf) (i i' : nat) k k' :
    reach serve p (initial h t) c -> s_crashed (fst c) = false ->
    nth_error (snd c) i = Some k -> nth_error (snd c) i' = Some k' -> handling k -> handling k' -> i = i'.
  Proof.
    intros R NC H H' A A'. pose proof (reach_inv _ _ _ _ _ R NC) as I.
    destruct (i_main _ _ _ _ I) as [k0 [rest [Ets [_ [B _]]]]].
    assert (Z : forall n x, nth_error (snd c) n = Some x -> handling x -> n = 0%nat).
    { intros [|n] x Hx Ax; auto. exfalso. rewrite Ets in Hx. cbn in Hx. apply nth_error_In in Hx.
      rewrite Forall_forall in B. specialize (B x Hx). pose proof (i_shape _ _ _ _ I) as SH. rewrite Forall_forall in SH.
      assert (S : shape x) by (apply SH; rewrite Ets; right; auto).
      destruct S; cbn in Ax; try contradiction; cbn in B; lia. }
    rewrite (Z _ _ H A), (Z _ _ H' A'). reflexivity.
  Qed.

  (** The log has one entry for each request handled. *)
  Lemma log_length (p : bool) (h : Hub) (t : nat) (c : conf) :
    reach serve p (initial h t) c -> length (s_log (fst c)) = total (@r_handled Req) (s_rpcs (fst c)).
  Proof.
    induction 1 as [|c1 c2 R IH S]; auto.
    assert (U : forall s j r r', nth_error (s_rpcs s) j = Some r -> r_handled r' = r_handled r -> total (@r_handled Req) (upd (@s_rpcs Req Rep Hub s) j r') = total (@r_handled Req) (s_rpcs s)).
    { intros s j r r' X Y. pose proof (total_upd (@r_handled Req) (s_rpcs s) j r r' X) as V. lia. }
    destruct S as [s ts i a k s' pre C H E G|s ts s' C E]; cbn [fst] in *.
    - inversion E; subst; cbn [s_rpcs s_log s_shutdown s_cq_down with_rpcs crash]; auto; try (rewrite IH; symmetry; eapply U; eauto; fail).
      + destruct (s_shutdown s); auto.
      + destruct (s_cq_down s); cbn [s_rpcs s_log with_rpcs crash]; auto. rewrite total_app. cbn. lia.
      + rewrite app_length. cbn [length].
        match goal with |- context [upd (s_rpcs s) ?j ?z] => match goal with X : nth_error (s_rpcs s) j = Some ?r |- _ => pose proof (total_upd (@r_handled Req) (s_rpcs s) j r z X) as V; cbn [r_handled] in V end end. lia.
      + destruct (s_cq_down s); cbn [s_rpcs s_log with_rpcs crash]; auto. rewrite IH; symmetry; eapply U; eauto.
    - inversion E; subst; cbn [s_rpcs s_log with_rpcs]; rewrite IH; symmetry; eapply U; eauto.
  Qed.
End Props.

(** ** Concrete schedules *)
Section Schedules.
  Context {Req Rep Hub : Type}.
  Variable serve : Hub -> Req -> Rep * Hub.
  Notation conf := (@conf Req Rep Hub).
  (** A step to take: thread [i] (Next returning the event of call [j]), or the library. *)
  Inductive action := AThread (i j : nat) | AArrive (j : nat) (q : Req) | ARefuse (j : nat) | ASent (j : nat).

  Definition do_instr (s : @sstate Req Rep Hub) (a : instr Rep Hub) (j0 : nat) : option (@sstate Req Rep Hub * list (instr Rep Hub)) :=
    match a with
    | IRequest m => Some (if s_shutdown s then s
         else SState (s_shutdown s) (s_pending s + 1) (s_notified s) (s_grpc s) (s_cq_down s) (s_hub s)
                     (s_log s) (s_rpcs s) (s_crashed s), if s_shutdown s then [] else [IEnqueue m])
    | IEnqueue m => Some (if s_cq_down s then crash s else with_rpcs s (s_rpcs s ++ [Rpc m Armed None 0 0 0]), [])
    | IHandle j => match nth_error (s_rpcs s) j with
                   | Some r => match r_req r with Some q => Some (s, [ICommit j (fst (serve (s_hub s) q)) (snd (serve (s_hub s) q))]) | None => None end
                   | None => None end
    | ICommit j rep h => match nth_error (s_rpcs s) j with
                   | Some r => match r_req r with Some q => Some
          (SState (s_shutdown s) (s_pending s) (s_notified s) (s_grpc s) (s_cq_down s) h (s_log s ++ [(q, rep)])
                (upd (s_rpcs s) j (Rpc (r_method r) (r_phase r) (r_req r) (S (r_handled r)) (r_finished r) (r_freed r)))
                (s_crashed s), []) | None => None end
                   | None => None end
    | IFinish j => match nth_error (s_rpcs s) j with
        | Some r => Some (if s_cq_down s then crash s
         else with_rpcs s (upd (s_rpcs s) j
                (Rpc (r_method r) Finishing (r_req r) (r_handled r) (S (r_finished r)) (r_freed r))), [])
        | None => None end
    | IFree j => match nth_error (s_rpcs s) j with
        | Some r => Some (with_rpcs s (upd (s_rpcs s) j
           (Rpc (r_method r) Freed (r_req r) (r_handled r) (r_finished r) (S (r_freed r)))), [])
        | None => None end
    | IDecrement => Some (SState (s_shutdown s) (s_pending s - 1) (s_notified s || (s_pending s - 1 =? 0)) (s_grpc s) (s_cq_down s)
                (s_hub s) (s_log s) (s_rpcs s) (s_crashed s), [])
    | INext =>
        match nth_error (s_rpcs s) j0 with
        | Some r => match r_phase r with
            | Arrived true => Some (with_rpcs s (upd (s_rpcs s) j0 (set_phase r Serving)), [IRequest (r_method r); IHandle j0; IFinish j0; INext])
            | Arrived false | Finished => Some (with_rpcs s (upd (s_rpcs s) j0 (set_phase r Cleaning)), [IFree j0; IDecrement; INext])
            | _ => None end
        | None => if s_cq_down s && forallb (fun r => negb (outstanding r)) (s_rpcs s) then Some (s, []) else None
        end
    | ISetShutdown => Some (SState true (s_pending s) (s_notified s) (s_grpc s) (s_cq_down s) (s_hub s) (s_log s) (s_rpcs s) (s_crashed s), [])
    | ICloseServer => Some (SState (s_shutdown s) (s_pending s) (s_notified s) (match s_grpc s with Up => Closing | g => g end)
                (s_cq_down s) (s_hub s) (s_log s) (s_rpcs s) (s_crashed s), [])
    | IAwaitServer => if forallb (fun r => negb (live r)) (s_rpcs s) then Some (SState (s_shutdown s) (s_pending s) (s_notified s) Closed (s_cq_down s) (s_hub s) (s_log s) (s_rpcs s) (s_crashed s), []) else None
    | IAwaitNotified => if s_notified s then Some (s, []) else None
    | IShutdownQueue => Some (SState (s_shutdown s) (s_pending s) (s_notified s) (s_grpc s) true (s_hub s) (s_log s) (s_rpcs s) (s_crashed s), [])
    end.
  Lemma do_instr_ok s a j s' pre : do_instr s a j = Some (s', pre) -> exec serve s a s' pre.
  Proof.
    destruct a; cbn; intros E;
      repeat match goal with E : match ?x with _ => _ end = Some _ |- _ => destruct x eqn:?; try discriminate E end;
      try (apply andb_prop in Heqb; destruct Heqb); injection E as <- <-; try (econstructor; eauto; fail).
    match goal with X : r_req _ = Some _ |- _ => rewrite <- X; econstructor; eauto end.
  Qed.
  Definition do_action (p : bool) (c : conf) (a : action) : option conf :=
    let (s, ts) := c in
    if s_crashed s then None else
    match a with
    | AThread i j =>
        match nth_error ts i with
        | Some (x :: k) =>
            if p && match x with ISetShutdown => negb (started (s, ts)) | _ => false end then None
            else match do_instr s x j with Some (s', pre) => Some (s', upd ts i (pre ++ k)) | None => None end
        | _ => None
        end
    | AArrive j q =>
        match nth_error (s_rpcs s) j with
        | Some r => match r_phase r, s_grpc s with
            | Armed, Up => Some (with_rpcs s (upd (s_rpcs s) j (Rpc (r_method r) (Arrived true) (Some q) (r_handled r) (r_finished r) (r_freed r))), ts)
            | _, _ => None end
        | None => None end
    | ARefuse j =>
        match nth_error (s_rpcs s) j with
        | Some r => match r_phase r, s_grpc s with
            | Armed, Up => None
            | Armed, _ => Some (with_rpcs s (upd (s_rpcs s) j (set_phase r (Arrived false))), ts)
            | _, _ => None end
        | None => None end
    | ASent j =>
        match nth_error (s_rpcs s) j with
        | Some r => match r_phase r with
            | Finishing => Some (with_rpcs s (upd (s_rpcs s) j (set_phase r Finished)), ts)
            | _ => None end
        | None => None end
    end.
  Lemma do_action_ok p c a c' : do_action p c a = Some c' -> step serve p c c'.
  Proof.
    destruct c as [s ts]. unfold do_action. destruct (s_crashed s) eqn:C; [discriminate|].
    destruct a as [i j|j q|j|j].
    - destruct (nth_error ts i) as [[|x k]|] eqn:H; try discriminate.
      destruct (p && _) eqn:G; [discriminate|]. destruct (do_instr s x j) as [[s' pre]|] eqn:E; [|discriminate].
      intros X. injection X as <-. eapply step_thread; eauto. eapply do_instr_ok; eauto.
      intros -> ->. cbn [andb] in G. destruct (started (s, ts)); auto; discriminate.
    - destruct (nth_error _ _) as [r|] eqn:H; [|discriminate]. destruct (r_phase r) eqn:P; try discriminate.
      destruct (s_grpc s) eqn:G; try discriminate. intros X. injection X as <-. apply step_env; auto. econstructor; eauto.
    - destruct (nth_error _ _) as [r|] eqn:H; [|discriminate]. destruct (r_phase r) eqn:P; try discriminate.
      destruct (s_grpc s) eqn:G; try discriminate; intros X; injection X as <-; (apply step_env; auto; eapply env_refuse; eauto; congruence).
    - destruct (nth_error _ _) as [r|] eqn:H; [|discriminate]. destruct (r_phase r) eqn:P; try discriminate.
      intros X. injection X as <-. apply step_env; auto. eapply env_sent; eauto.
  Qed.
  Fixpoint do_actions (p : bool) (c : conf) (l : list action) : option conf :=
    match l with [] => Some c | a :: t => match do_action p c a with Some c' => do_actions p c' t | None => None end end.
  Lemma do_actions_ok p c0 l : forall c c', reach serve p c0 c -> do_actions p c l = Some c' -> reach serve p c0 c'.
  Proof.
    induction l as [|a l IH]; cbn; intros c c' R E.
    - congruence.
    - destruct (do_action p c a) as [c1|] eqn:A; [|discriminate]. eapply IH; [|exact E].
      econstructor; [exact R|]. apply do_action_ok in A. exact A.
  Qed.
End Schedules.

(** ** Examples, with a counter for a model *)
Section Examples.
Local Open Scope nat_scope.
Definition add_serve (h q : nat) : nat * nat := ((h + q)%nat, (h + q)%nat).
Notation cf := (@conf nat nat nat).
Definition th (i : nat) : action (Req := nat) := AThread i 0.
Definition ev (j : nat) : action (Req := nat) := AThread 0 j.

(** ProcessRequests starts, two clients are served (one of them twice), Shutdown is called by two
    threads, everything ends. *)
Definition sched_run : list (action (Req := nat)) :=
  repeat (th 0) 6 ++                                      (* the first requests *)
  [AArrive 1 5; ev 1] ++ repeat (th 0) 5 ++               (* a GetLMScores call is served, ... *)
  [AArrive 2 7; ASent 1; ev 2] ++ repeat (th 0) 5 ++      (* an UpdateLMScores call before it is cleaned up *)
  [ev 1; th 0; th 0; AArrive 3 1; ev 3].                  (* ... and another GetLMScores call is started *)
Definition sched_shutdown : list (action (Req := nat)) :=
  [th 1; th 2; th 1; th 2] ++ repeat (th 0) 4 ++ [ASent 2; ASent 3; ARefuse 0; ARefuse 4] ++
  [th 1; th 2; th 1; th 1; ev 0; th 0; th 0; AThread 1 2; th 1; th 1; ev 3; th 0; th 0] ++
  [ev 4; th 0; th 0; AThread 1 9; AThread 0 9; th 2; th 2; AThread 2 9].
Definition run_of (p : bool) (l : list (action (Req := nat))) : option cf := do_actions add_serve p (initial 0%nat 2) l.

Definition show (c : cf) := (s_log (fst c), s_pending (fst c), s_crashed (fst c), map (fun r => (received r, r_handled r, r_finished r, r_freed r)) (s_rpcs (fst c)), snd c).

Lemma run_of_reach p l c : run_of p l = Some c -> reach add_serve p (initial 0 2) c.
Proof. intros E. eapply do_actions_ok; [apply reach_here|exact E]. Qed.

Definition conf_of (o : option cf) : cf := match o with Some c => c | None => initial 0 2 end.
Lemma conf_of_reach p l : match run_of p l with Some _ => true | None => false end = true -> reach add_serve p (initial 0 2) (conf_of (run_of p l)).
Proof. destruct (run_of p l) as [c|] eqn:E; [|discriminate]. intros _. eapply run_of_reach; eauto. Qed.

(** A run with three clients: the calls are in different stages (one released, one replied to, one being
    started), and the conclusions of C41 and C58 are visible in it. *)
Example C41_each_call_once_nonvacuous : exists c, reach add_serve true (initial 0 2) c /\ s_crashed (fst c) = false /\
  s_log (fst c) = [(5, 5); (7, 12)] /\
  map (fun r => (received r, r_handled r, r_finished r, r_freed r)) (s_rpcs (fst c)) =
    [(false, 0, 0, 0); (true, 1, 1, 1); (true, 1, 1, 0); (true, 0, 0, 0); (false, 0, 0, 0)].
Proof.
  exists (conf_of (run_of true sched_run)). split; [apply conf_of_reach; vm_compute; reflexivity|]. vm_compute. auto.
Qed.

(** The server waiting for events, one call object per method waiting for clients; the counter. *)
Example C41_one_waiting_nonvacuous : exists c, reach add_serve true (initial 0 2) c /\ s_crashed (fst c) = false /\
  s_shutdown (fst c) = false /\ nth_error (snd c) 0 = Some [INext] /\ forallb between_events (snd c) = true /\
  s_pending (fst c) = 4%Z /\ length (s_rpcs (fst c)) = 4.
Proof.
  exists (conf_of (run_of true (firstn 13 sched_run))). split; [apply conf_of_reach; vm_compute; reflexivity|].
  vm_compute. auto 10.
Qed.
Example C41_responsive_nonvacuous : exists c r, reach add_serve true (initial 0 2) c /\ s_crashed (fst c) = false /\
  In r (s_rpcs (fst c)) /\ r_phase r = Arrived true.
Proof.
  exists (conf_of (run_of true (firstn 7 sched_run))). eexists. split; [apply conf_of_reach; vm_compute; reflexivity|].
  split; [vm_compute; reflexivity|]. split; [vm_compute; right; left; reflexivity|reflexivity].
Qed.

(** All is over after Shutdown by two threads: each has returned. *)
Example C42_nonvacuous : exists c, reach add_serve true (initial 0 2) c /\ s_shutdown (fst c) = true /\ all_returned c /\
  returned c 1 /\ s_log (fst c) = [(5, 5); (7, 12); (1, 13)] /\
  map (fun r => (received r, r_handled r, r_finished r, r_freed r)) (s_rpcs (fst c)) =
    [(false, 0, 0, 1); (true, 1, 1, 1); (true, 1, 1, 1); (true, 1, 1, 1); (false, 0, 0, 1)].
Proof.
  exists (conf_of (run_of true (sched_run ++ sched_shutdown))). split; [apply conf_of_reach; vm_compute; reflexivity|].
  split; [vm_compute; reflexivity|]. split; [|vm_compute; auto].
  intros [|[|[|[|i]]]] k; vm_compute; congruence.
Qed.
(** The stuck states of C42_graceful_partial exist (the one above is one). *)
Example C42_stuck_nonvacuous : exists c, reach add_serve true (initial 0 2) c /\ s_shutdown (fst c) = true /\
  (forall c', ~ step add_serve true c c').
Proof.
  exists (conf_of (run_of true (sched_run ++ sched_shutdown))). split; [apply conf_of_reach; vm_compute; reflexivity|].
  split; [vm_compute; reflexivity|].
  assert (K : forall i, match nth_error (snd (conf_of (run_of true (sched_run ++ sched_shutdown)))) i with Some (_ :: _) => False | _ => True end).
  { intros [|[|[|[|i]]]]; vm_compute; exact I. }
  assert (P : forall r, In r (s_rpcs (fst (conf_of (run_of true (sched_run ++ sched_shutdown))))) -> r_phase r = Freed).
  { apply Forall_forall. vm_compute. repeat constructor. }
  destruct (conf_of (run_of true (sched_run ++ sched_shutdown))) as [s0 ts0]. cbn [fst snd] in *.
  intros c' S. inversion S as [s ts i a k s' pre C H E G EC EC'|s ts s' C E EC EC']; subst.
  - specialize (K i). rewrite H in K. exact K.
  - inversion E as [s1 j r q H X G|s1 j r H X G|s1 j r H X]; subst; apply nth_error_In in H; apply P in H; congruence.
Qed.

(** C42 refuted: if Shutdown runs between two requests of ProcessRequests for its first calls, the
    second is made on a queue that has been shut down. *)
Definition sched_early : list (action (Req := nat)) := [th 0; th 0; th 0; th 1; th 1; th 1; th 1; th 1; th 0].
Definition run_of1 (p : bool) (l : list (action (Req := nat))) : option cf := do_actions add_serve p (initial 0 1) l.
Lemma conf_of_reach1 p l : match run_of1 p l with Some _ => true | None => false end = true -> reach add_serve p (initial 0 1) (conf_of (run_of1 p l)).
Proof. destruct (run_of1 p l) as [c|] eqn:E; [|discriminate]. intros _. eapply do_actions_ok; [apply reach_here|exact E]. Qed.
Theorem C42_early_shutdown_refuted :
  exists c, reach add_serve false (initial 0 1) c /\ s_crashed (fst c) = true.
Proof.
  exists (conf_of (run_of1 false sched_early)). split; [|vm_compute; reflexivity].
  apply conf_of_reach1. vm_compute. reflexivity.
Qed.

(** C42 refuted: Shutdown gets past the wait for pending calls (line 305) although there are pending
    calls, one of them a client's whose objects have not been released. *)
Theorem C42_wait_for_pending_refuted :
  exists c, reach add_serve true (initial 0 2) c /\ s_crashed (fst c) = false /\
    nth_error (snd c) 1 = Some [IShutdownQueue; INext] /\ (0 < s_pending (fst c))%Z /\
    exists r, In r (s_rpcs (fst c)) /\ received r = true /\ r_freed r = 0.
Proof.
  exists (conf_of (run_of true (firstn 13 sched_run ++ [ASent 1; th 1; th 1; th 1; th 1]))). 
  split; [apply conf_of_reach; vm_compute; reflexivity|].
  split; [vm_compute; reflexivity|]. split; [vm_compute; reflexivity|]. split; [vm_compute; reflexivity|].
  eexists. split; [vm_compute; right; left; reflexivity|]. split; reflexivity.
Qed.
End Examples.

(** ** With the model hub *)
Section HubServer.
  Context {F : ofield} {M : Type}.
  Variable ops : comp_ops F M.
  (** The server's handling of requests; a failure stays. *)
  Definition serve_hub (o : outcome (hub F M)) (q : request) : outcome (reply F) * outcome (hub F M) :=
    match o with
    | Ok h => match handle ops h q with
              | Ok (r, h') => (Ok r, Ok h')
              | Err => (Err, Err)
              | Crash => (Crash, Crash)
              | UB => (UB, UB)
              end
    | Err => (Err, Err)
    | Crash => (Crash, Crash)
    | UB => (UB, UB)
    end.
  Lemma in_turn_hub l : forall h rs h', handle_all ops h l = Ok (rs, h') ->
    in_turn serve_hub (Ok h) l = (combine l (map (@Ok (reply F)) rs), Ok h').
  Proof.
    induction l as [|q l IH]; cbn [handle_all]; intros h rs h' E.
    - injection E as <- <-. reflexivity.
    - destruct (handle ops h q) as [[x h1]| | |] eqn:E1; try discriminate E. cbn [bind] in E.
      destruct (handle_all ops h1 l) as [[xs h2]| | |] eqn:E2; try discriminate E. cbn [bind] in E. injection E as <- <-.
      cbn [in_turn serve_hub]. rewrite E1. rewrite (IH _ _ _ E2). reflexivity.
  Qed.
  (** C58: the replies of the server, under every schedule, are those of handling the requests one after
      the other, and so is the state of the model hub. *)
  Theorem C58_hub_server (p : bool) (h : hub F M) (t : nat) c :
    reach serve_hub p (initial (Ok h) t) c -> s_crashed (fst c) = false ->
    forall rs h', handle_all ops h (map fst (s_log (fst c))) = Ok (rs, h') ->
      map snd (s_log (fst c)) = map (@Ok (reply F)) rs /\ s_hub (fst c) = Ok h'.
  Proof.
    intros R NC rs h' E. pose proof (C58_one_at_a_time _ _ _ _ _ R NC) as X.
    rewrite (in_turn_hub _ _ _ _ E) in X. injection X as X1 X2. split; auto.
    rewrite <- X1. assert (L : length rs = length (map fst (s_log (fst c)))).
    { clear - E. revert h rs h' E. generalize (map fst (s_log (fst c))). induction l as [|q l IH]; cbn [handle_all]; intros h rs h' E.
      - injection E as <- <-. reflexivity.
      - destruct (handle ops h q) as [[x h1]| | |] eqn:E1; try discriminate E. cbn [bind] in E.
        destruct (handle_all ops h1 l) as [[xs h2]| | |] eqn:E2; try discriminate E. cbn [bind] in E. injection E as <- <-.
        cbn. rewrite (IH _ _ _ E2). reflexivity. }
    clear - L. revert L. generalize (map fst (s_log (fst c))). induction rs as [|x rs IH]; intros [|q l]; cbn; auto; try discriminate.
    intros L. injection L as L. f_equal. auto.
  Qed.
End HubServer.

Print Assumptions C41_each_call_once.
Print Assumptions C41_one_waiting.
Print Assumptions C41_pending_counts_calls.
Print Assumptions C41_responsive.
Print Assumptions C41_idle_means_answered.
Print Assumptions C41_work_bounded.
Print Assumptions C42_returned_means_answered.
Print Assumptions C42_graceful_partial.
Print Assumptions C42_end_partial.
Print Assumptions C42_early_shutdown_refuted.
Print Assumptions C42_wait_for_pending_refuted.
Print Assumptions C58_one_at_a_time.
Print Assumptions C58_exclusive.
Print Assumptions C58_hub_server.
