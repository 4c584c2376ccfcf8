(** Invariants of the life cycle of calls (C41, C42, C58). *)
From Verif Require Import Base ServerModel.
Local Open Scope Z_scope.

Section Count.
  Context {A : Type}.
  Fixpoint total (f : A -> nat) (l : list A) : nat :=
    match l with [] => 0%nat | x :: t => (f x + total f t)%nat end.
  Lemma total_upd (f : A -> nat) l : forall i x y, nth_error l i = Some x ->
    (total f (upd l i y) + f x = total f l + f y)%nat.
  Proof.
    induction l as [|z l IH]; intros [|i] x y H; simpl in *; try discriminate.
    - injection H as ->. lia.
    - pose proof (IH i x y H). lia.
  Qed.
  Lemma total_app (f : A -> nat) l l' : total f (l ++ l') = (total f l + total f l')%nat.
  Proof. induction l as [|x l IH]; simpl; lia. Qed.
  Lemma total_ge (f : A -> nat) l : forall i x, nth_error l i = Some x -> (f x <= total f l)%nat.
  Proof. induction l as [|z l IH]; intros [|i] x H; simpl in *; try discriminate; [injection H as ->; lia|apply IH in H; lia]. Qed.
  Lemma total_two (f : A -> nat) l : forall i j x y, nth_error l i = Some x -> nth_error l j = Some y -> i <> j ->
    (f x + f y <= total f l)%nat.
  Proof.
    induction l as [|z l IH]; intros [|i] [|j] x y H H' N; simpl in *; try discriminate; try congruence.
    - injection H as ->. pose proof (total_ge f l j y H'). lia.
    - injection H' as ->. pose proof (total_ge f l i x H). lia.
    - assert (i <> j) by congruence. pose proof (IH i j x y H H'). lia.
  Qed.
  Lemma total_pos (f : A -> nat) l : (0 < total f l)%nat -> exists i x, nth_error l i = Some x /\ (0 < f x)%nat.
  Proof.
    induction l as [|z l IH]; simpl; [lia|]. intros H. destruct (f z) eqn:E.
    - destruct IH as [i [x [H1 H2]]]; [lia|]. exists (S i), x. auto.
    - exists 0%nat, z. split; auto. lia.
  Qed.
  Lemma total_zero (f : A -> nat) l : (forall x, In x l -> f x = 0%nat) -> total f l = 0%nat.
  Proof. induction l as [|z l IH]; simpl; auto. intros H. rewrite (H z), IH; auto. Qed.
End Count.

Definition b2n (b : bool) : nat := if b then 1%nat else 0%nat.
Definition cnt {A} (p : A -> bool) (l : list A) : nat := total (fun x => b2n (p x)) l.
Lemma cnt_app {A} (p : A -> bool) l l' : cnt p (l ++ l') = (cnt p l + cnt p l')%nat.
Proof. apply total_app. Qed.

Lemma upd_cases {A} (l : list A) i y j x : nth_error (upd l i y) j = Some x ->
  (i = j /\ x = y /\ (i < length l)%nat) \/ (i <> j /\ nth_error l j = Some x).
Proof.
  intros H. destruct (Nat.eq_dec i j) as [->|N].
  - left. assert (L : (j < length l)%nat) by (apply nth_error_Some_lt in H; rewrite upd_length in H; auto).
    rewrite nth_error_upd_eq in H by auto. injection H as <-. auto.
  - right. rewrite nth_error_upd_neq in H by auto. auto.
Qed.
Lemma upd_In {A} (l : list A) i y x : In x (upd l i y) -> x = y \/ In x l.
Proof.
  intros H. apply In_nth_error in H. destruct H as [j H]. apply upd_cases in H.
  destruct H as [[_ [H _]]|[_ H]]; auto. right. eapply nth_error_In; eauto.
Qed.
Lemma snoc_cases {A} (l : list A) y j x : nth_error (l ++ [y]) j = Some x ->
  (j = length l /\ x = y) \/ nth_error l j = Some x.
Proof.
  intros H. destruct (Nat.lt_ge_cases j (length l)) as [L|G].
  - rewrite nth_error_app1 in H by auto. auto.
  - rewrite nth_error_app2 in H by auto. left. destruct (j - length l)%nat as [|n] eqn:E.
    + simpl in H. injection H as <-. split; auto. lia.
    + destruct n; discriminate.
Qed.

Section Proofs.
  Context {Req Rep Hub : Type}.
  Variable serve : Hub -> Req -> Rep * Hub.
  Notation instr := (instr Rep Hub).
  Notation rpc := (rpc Req).
  Notation sstate := (@sstate Req Rep Hub).
  Notation conf := (@conf Req Rep Hub).
  Implicit Types (s : sstate) (k : list instr) (ts : list (list instr)) (r : rpc).

  Definition is_fin j (i : instr) := match i with IFinish x => (x =? j)%nat | _ => false end.
  Definition is_free j (i : instr) := match i with IFree x => (x =? j)%nat | _ => false end.
  Definition is_han j (i : instr) := match i with IHandle x => (x =? j)%nat | ICommit x _ _ => (x =? j)%nat | _ => false end.
  Definition is_req m (i : instr) := match i with IRequest x | IEnqueue x => method_eqb x m | _ => false end.
  Definition is_dec (i : instr) := match i with IDecrement => true | _ => false end.
  Definition is_freeing (i : instr) := match i with IFree _ => true | _ => false end.
  Definition is_enq (i : instr) := match i with IEnqueue _ => true | _ => false end.
  Definition is_busy (i : instr) := match i with IFinish _ | IRequest _ | IEnqueue _ => true | _ => false end.
  Definition is_shut (i : instr) := match i with ISetShutdown | ICloseServer | IAwaitServer | IAwaitNotified | IShutdownQueue => true | _ => false end.

  Definition tot (p : instr -> bool) ts : nat := total (cnt p) ts.

  Lemma tot_step p ts i a k pre : nth_error ts i = Some (a :: k) ->
    (tot p (upd ts i (pre ++ k)) + b2n (p a) = tot p ts + cnt p pre)%nat.
  Proof.
    intros H. pose proof (total_upd (cnt p) ts i _ (pre ++ k) H) as T. unfold tot. rewrite cnt_app in T.
    unfold cnt at 2 in T. cbn [total] in T. fold (cnt p k) in T. lia.
  Qed.
  Lemma tot_head p ts i a k : nth_error ts i = Some (a :: k) -> p a = true -> (1 <= tot p ts)%nat.
  Proof. intros H E. pose proof (total_ge (cnt p) ts i _ H) as T. unfold cnt at 1 in T. cbn [total] in T. rewrite E in T. cbn [b2n] in T. unfold tot. lia. Qed.

  (** ** Shapes of threads *)
  Inductive shape : list instr -> Prop :=
  | sh_end : shape []
  | sh_next : shape [INext]
  | sh_clean j : shape [IFree j; IDecrement; INext]
  | sh_clean' : shape [IDecrement; INext]
  | sh_serve0 m j : shape [IRequest m; IHandle j; IFinish j; INext]
  | sh_serve1 m j : shape [IEnqueue m; IHandle j; IFinish j; INext]
  | sh_serve2 j : shape [IHandle j; IFinish j; INext]
  | sh_serve3 j rep h : shape [ICommit j rep h; IFinish j; INext]
  | sh_serve4 j : shape [IFinish j; INext]
  | sh_main0 : shape main_program
  | sh_main1 : shape (IEnqueue MGetNextState :: tl main_program)
  | sh_main2 : shape (tl main_program)
  | sh_main3 : shape (IEnqueue MGetLMScores :: tl (tl main_program))
  | sh_main4 : shape (tl (tl main_program))
  | sh_main5 : shape (IEnqueue MUpdateLMScores :: [INext])
  | sh_main6 : shape (IRequest MUpdateLMScores :: [INext])
  | sh_shut0 : shape shutdown_program
  | sh_shut1 : shape (tl shutdown_program)
  | sh_shut2 : shape (tl (tl shutdown_program))
  | sh_shut3 : shape (tl (tl (tl shutdown_program)))
  | sh_shut4 : shape [IShutdownQueue; INext].

  Lemma shape_step s a k s' pre : shape (a :: k) -> exec serve s a s' pre -> shape (pre ++ k).
  Proof.
    intros S E. inversion E; subst; inversion S; subst; try (destruct (s_shutdown _)); cbn; constructor.
  Qed.

  (** The number of times a call is handled before it is finished, in a thread. *)
  Lemma shape_han k j : shape k -> (cnt (is_han j) k <= cnt (is_fin j) k)%nat.
  Proof. intros S. destruct S; cbn; try lia; destruct (_ =? _)%nat; cbn; lia. Qed.
  Lemma shape_fin j k : shape (IFinish j :: k) -> cnt (is_fin j) k = 0%nat.
  Proof. intros S. inversion S; subst. reflexivity. Qed.

  (** ** Properties of a call by phase *)
  Definition acc r : nat := match r_req r with Some _ => 1 | None => 0 end.
  Definition rpc_ok r : Prop :=
    match r_phase r with
    | Armed => acc r = 0%nat /\ r_handled r = 0%nat /\ r_finished r = 0%nat /\ r_freed r = 0%nat
    | Arrived b => acc r = b2n b /\ r_handled r = 0%nat /\ r_finished r = 0%nat /\ r_freed r = 0%nat
    | Serving => acc r = 1%nat /\ (r_handled r <= 1)%nat /\ r_finished r = 0%nat /\ r_freed r = 0%nat
    | Finishing | Finished => acc r = 1%nat /\ r_handled r = 1%nat /\ r_finished r = 1%nat /\ r_freed r = 0%nat
    | Cleaning => r_handled r = acc r /\ r_finished r = acc r /\ r_freed r = 0%nat
    | Freed => r_handled r = acc r /\ r_finished r = acc r /\ r_freed r = 1%nat
    end.
  Definition is_phase_serving r := match r_phase r with Serving => true | _ => false end.
  Definition is_phase_cleaning r := match r_phase r with Cleaning => true | _ => false end.
  Definition is_freed r := match r_phase r with Freed => true | _ => false end.
  Definition waiting m r := method_eqb (r_method r) m && match r_phase r with Armed | Arrived _ => true | _ => false end.

  Definition at_rpc {B} (f : rpc -> B) (d : B) s j : B := match nth_error (s_rpcs s) j with Some r => f r | None => d end.

  (** Sequential handling. *)
  Inductive runs : Hub -> list (Req * Rep) -> Hub -> Prop :=
  | runs_nil h : runs h [] h
  | runs_snoc h l h1 q : runs h l h1 -> runs h (l ++ [(q, fst (serve h1 q))]) (snd (serve h1 q)).

  (** What the position of a thread in Shutdown says. *)
  Definition pos_ok s k : Prop :=
    match k with
    | ISetShutdown :: _ => True
    | ICloseServer :: _ => s_shutdown s = true
    | IAwaitServer :: _ => s_shutdown s = true /\ s_grpc s <> Up
    | IAwaitNotified :: _ | IShutdownQueue :: _ => s_grpc s = Closed
    | _ => s_cq_down s = true
    end.

  Record inv (h0 : Hub) (patient : bool) (c : conf) : Prop := {
    i_main : exists k0 rest, snd c = k0 :: rest /\ Forall (pos_ok (fst c)) rest /\
               Forall (fun k => cnt is_busy k = 0%nat) rest /\
               (s_shutdown (fst c) = true -> exists k, In k rest /\ k <> shutdown_program) /\
               (k0 = [] -> s_cq_down (fst c) = true) /\
               (forall x, In x k0 -> is_shut x = false);
    i_shape : Forall shape (snd c);
    i_rpc : forall j r, nth_error (s_rpcs (fst c)) j = Some r -> rpc_ok r;
    i_fin : forall j, tot (is_fin j) (snd c) = at_rpc (fun r => b2n (is_phase_serving r)) 0%nat (fst c) j;
    i_free : forall j, tot (is_free j) (snd c) = at_rpc (fun r => b2n (is_phase_cleaning r)) 0%nat (fst c) j;
    i_han : forall j, at_rpc (fun r => b2n (is_phase_serving r) = (tot (is_han j) (snd c) + b2n (is_phase_serving r) * r_handled r)%nat)
                             (tot (is_han j) (snd c) = 0%nat) (fst c) j;
    i_pend : s_pending (fst c) + Z.of_nat (tot is_freeing (snd c)) =
             Z.of_nat (total (fun r => b2n (negb (is_freed r))) (s_rpcs (fst c))) +
             Z.of_nat (tot is_dec (snd c)) + Z.of_nat (tot is_enq (snd c));
    i_meth : forall m, (total (fun r => b2n (waiting m r)) (s_rpcs (fst c)) + tot (is_req m) (snd c) <= 1)%nat /\
                       (s_shutdown (fst c) = false ->
                        (total (fun r => b2n (waiting m r)) (s_rpcs (fst c)) + tot (is_req m) (snd c) = 1)%nat);
    i_refused : forall r, In r (s_rpcs (fst c)) -> r_phase r = Arrived false -> s_shutdown (fst c) = true;
    i_grpc : (s_grpc (fst c) <> Up -> s_shutdown (fst c) = true) /\
             (s_grpc (fst c) = Closed -> forall r, In r (s_rpcs (fst c)) -> live r = false) /\
             (s_cq_down (fst c) = true -> s_grpc (fst c) = Closed);
    i_notif : s_notified (fst c) = true;
    i_commit : forall k j rep h, In k (snd c) -> In (ICommit j rep h) k ->
                 exists r q, nth_error (s_rpcs (fst c)) j = Some r /\ r_req r = Some q /\
                   rep = fst (serve (s_hub (fst c)) q) /\ h = snd (serve (s_hub (fst c)) q);
    i_log : runs h0 (s_log (fst c)) (s_hub (fst c));
    i_ended : In [] (snd c) -> s_cq_down (fst c) = true /\ forall r, In r (s_rpcs (fst c)) -> outstanding r = false;
    i_patient : patient = true -> started c = false -> s_shutdown (fst c) = false
  }.

  Lemma method_eqb_refl m : method_eqb m m = true.
  Proof. destruct m; auto. Qed.

  Lemma at_upd {B} (f : rpc -> B) d s l j r r' i : nth_error (s_rpcs s) j = Some r -> l = upd (s_rpcs s) j r' ->
    match nth_error l i with Some x => f x | None => d end = if (j =? i)%nat then f r' else at_rpc f d s i.
  Proof.
    intros H ->. rewrite nth_error_upd. apply nth_error_Some_lt in H.
    destruct (Nat.eqb_spec j i); cbn [andb]; auto.
    destruct (Nat.ltb_spec j (length (s_rpcs s))); [auto|lia].
  Qed.

  (** *** initial state *)
  Lemma tot_repeat p k n : tot p (repeat k n) = (n * cnt p k)%nat.
  Proof. unfold tot. induction n as [|n IH]; simpl; auto. Qed.
  Lemma tot_init p n : tot p (main_program :: repeat shutdown_program n) = (cnt p main_program + n * cnt p shutdown_program)%nat.
  Proof. rewrite <- tot_repeat. reflexivity. Qed.
  Lemma inv_initial h0 patient n : inv h0 patient (initial h0 n).
  Proof.
    constructor; cbn [fst snd initial].
    - exists main_program, (repeat shutdown_program n). split; auto.
      split; [|split; [|split; [|split]]].
      + apply Forall_forall. intros k I. apply repeat_spec in I. subst k. exact I.
      + apply Forall_forall. intros k I. apply repeat_spec in I. subst k. reflexivity.
      + discriminate.
      + discriminate.
      + intros x I. simpl in I. intuition (subst; reflexivity).
    - constructor; [constructor|]. apply Forall_forall. intros k I. apply repeat_spec in I. subst k. constructor.
    - intros j r H. destruct j; discriminate.
    - intros j. rewrite tot_init. unfold at_rpc. destruct j; cbn; lia.
    - intros j. rewrite tot_init. unfold at_rpc. destruct j; cbn; lia.
    - intros j. unfold at_rpc. destruct j; cbn [nth_error s_rpcs]; rewrite tot_init; cbn; lia.
    - rewrite !tot_init. cbn. lia.
    - intros m. rewrite tot_init. destruct m; cbn; split; lia.
    - intros r [].
    - cbn. repeat split; intros; try contradiction; try discriminate.
    - reflexivity.
    - intros k j rep h I J. cbn in I. destruct I as [<-|I]; [|apply repeat_spec in I; subst k]; simpl in J; intuition discriminate.
    - constructor.
    - intros [I|I]; [discriminate|]. apply repeat_spec in I. discriminate.
    - reflexivity.
  Qed.

  Lemma han_fin_total j l : Forall shape l -> (total (cnt (is_han j)) l <= total (cnt (is_fin j)) l)%nat.
  Proof. induction 1 as [|w l S FA IH]; cbn [total]; [lia|]. pose proof (shape_han w j S). lia. Qed.
  Lemma fin_han j k l : forall i, Forall shape l -> nth_error l i = Some (IFinish j :: k) ->
    (total (cnt (is_han j)) l + 1 <= total (cnt (is_fin j)) l)%nat.
  Proof.
    induction l as [|z l IH]; intros [|i] FA Hn; try discriminate.
    - injection Hn as ->. inversion FA as [|? ? S FA']; subst. cbn [total]. pose proof (han_fin_total j l FA').
      inversion S; subst. unfold cnt at 1 3. cbn [total is_han is_fin]. rewrite Nat.eqb_refl. cbn [b2n]. lia.
    - inversion FA as [|? ? S FA']; subst. cbn [total]. pose proof (shape_han z j S). pose proof (IH i FA' Hn). lia.
  Qed.

  (** *** steps of a thread *)
  Section Thread.
    Variables (h0 : Hub) (patient : bool) (s : sstate) (ts : list (list instr)) (i : nat) (a : instr)
              (k : list instr).
    Hypothesis (I : inv h0 patient (s, ts)).
    Hypothesis (H : nth_error ts i = Some (a :: k)).

    Lemma th_shape : shape (a :: k).
    Proof. pose proof (i_shape _ _ _ I) as X. rewrite Forall_forall in X. apply X. eapply nth_error_In; eauto. Qed.

    Lemma th_fin j : a = IFinish j -> exists r, nth_error (s_rpcs s) j = Some r /\ r_phase r = Serving /\ r_handled r = 1%nat.
    Proof.
      intros ->. pose proof (tot_head (is_fin j) ts i _ _ H) as T. cbn [is_fin] in T.
      rewrite Nat.eqb_refl in T. specialize (T eq_refl).
      pose proof (i_fin _ _ _ I j) as X. pose proof (i_han _ _ _ I j) as Y. unfold at_rpc in X, Y. cbn [fst snd] in *.
      destruct (nth_error (s_rpcs s) j) as [r|]; [|lia]. exists r. split; auto.
      unfold is_phase_serving in *. destruct (r_phase r); cbn [b2n] in *; try lia. split; auto.
      assert (Z : tot (is_han j) ts = 0%nat).
      { assert (G : forall l : list (list instr), Forall shape l -> nth_error l i = Some (IFinish j :: k) ->
          (total (cnt (is_han j)) l + 1 <= total (cnt (is_fin j)) l)%nat).
        { intros l. apply fin_han. }
        pose proof (G ts (i_shape _ _ _ I) H) as B. unfold tot in *. lia. }
      lia.
    Qed.
    Lemma th_free j : a = IFree j -> exists r, nth_error (s_rpcs s) j = Some r /\ r_phase r = Cleaning.
    Proof.
      intros ->. pose proof (tot_head (is_free j) ts i _ _ H) as T. cbn [is_free] in T.
      rewrite Nat.eqb_refl in T. specialize (T eq_refl).
      pose proof (i_free _ _ _ I j) as X. unfold at_rpc in X. cbn [fst snd] in *.
      destruct (nth_error (s_rpcs s) j) as [r|]; [|lia]. exists r. split; auto.
      unfold is_phase_cleaning in *. destruct (r_phase r); cbn [b2n] in *; try lia; auto.
    Qed.
    Lemma th_han j : is_han j a = true -> exists r, nth_error (s_rpcs s) j = Some r /\ r_phase r = Serving /\
      r_handled r = 0%nat /\ tot (is_han j) ts = 1%nat.
    Proof.
      intros Ea. pose proof (tot_head (is_han j) ts i _ _ H Ea) as T.
      pose proof (i_han _ _ _ I j) as X. unfold at_rpc in X. cbn [fst snd] in *.
      destruct (nth_error (s_rpcs s) j) as [r|]; [|lia]. exists r. split; auto.
      unfold is_phase_serving in *. destruct (r_phase r); cbn [b2n] in *; try lia. split; auto. lia.
    Qed.

  End Thread.


  Ltac execs E := inversion E; subst; clear E; cbn [fst snd with_rpcs s_rpcs s_shutdown s_cq_down s_grpc s_hub s_log s_pending s_notified s_crashed crash] in *.

  Lemma t_shape h0 patient s ts i a k s' pre : inv h0 patient (s, ts) -> nth_error ts i = Some (a :: k) ->
    exec serve s a s' pre -> Forall shape (upd ts i (pre ++ k)).
  Proof.
    intros I H E. apply Forall_forall. intros x J. apply upd_In in J. destruct J as [->|J].
    - eapply shape_step; [eapply th_shape; eauto|exact E].
    - pose proof (i_shape _ _ _ I) as X. rewrite Forall_forall in X. auto.
  Qed.

  Lemma t_rpc h0 patient s ts i a k s' pre : inv h0 patient (s, ts) -> nth_error ts i = Some (a :: k) ->
    exec serve s a s' pre -> s_crashed s' = false ->
    forall j r, nth_error (s_rpcs s') j = Some r -> rpc_ok r.
  Proof.
    intros I H E NC j r. pose proof (i_rpc _ _ _ I) as OK. cbn [fst] in OK.
    execs E; intros Hj; try (eapply OK; eassumption).
    - destruct (s_shutdown s); cbn in Hj; eapply OK; eassumption.
    - destruct (s_cq_down s); [discriminate|]. cbn in Hj. apply snoc_cases in Hj. destruct Hj as [[_ ->]|Hj]; [|eapply OK; eauto].
      cbn. auto.
    - apply upd_cases in Hj. destruct Hj as [[_ [-> _]]|[_ Hj]]; [|eapply OK; eauto].
      destruct (th_han _ _ _ _ _ _ _ I H j0) as [r1 [A1 [A2 [A3 _]]]]; [cbn; apply Nat.eqb_refl|]. rewrite A1 in H0. injection H0 as ->.
      specialize (OK _ _ A1). unfold rpc_ok in *. rewrite A2 in OK. cbn. rewrite A2. unfold acc in *. cbn. intuition lia.
    - destruct (s_cq_down s); [discriminate|]. cbn in Hj. apply upd_cases in Hj. destruct Hj as [[_ [-> _]]|[_ Hj]]; [|eapply OK; eauto].
      destruct (th_fin _ _ _ _ _ _ _ I H j0 eq_refl) as [r1 [A1 [A2 A3]]]. rewrite A1 in H0. injection H0 as ->.
      specialize (OK _ _ A1). unfold rpc_ok in *. rewrite A2 in OK. cbn. unfold acc in *. cbn. intuition lia.
    - apply upd_cases in Hj. destruct Hj as [[_ [-> _]]|[_ Hj]]; [|eapply OK; eauto].
      destruct (th_free _ _ _ _ _ _ _ I H j0 eq_refl) as [r1 [A1 A2]]. rewrite A1 in H0. injection H0 as ->.
      specialize (OK _ _ A1). unfold rpc_ok in *. rewrite A2 in OK. cbn. unfold acc in *. cbn. intuition lia.
    - apply upd_cases in Hj. destruct Hj as [[_ [-> _]]|[_ Hj]]; [|eapply OK; eauto].
      specialize (OK _ _ H0). unfold rpc_ok in *. rewrite H1 in OK. cbn in *. unfold acc in *. cbn. intuition lia.
    - apply upd_cases in Hj. destruct Hj as [[_ [-> _]]|[_ Hj]]; [|eapply OK; eauto].
      specialize (OK _ _ H0). unfold rpc_ok in *. rewrite H1 in OK. cbn in *. unfold acc in *. cbn. intuition lia.
    - apply upd_cases in Hj. destruct Hj as [[_ [-> _]]|[_ Hj]]; [|eapply OK; eauto].
      specialize (OK _ _ H0). unfold rpc_ok in *. rewrite H1 in OK. cbn in *. unfold acc in *. cbn. intuition lia.
  Qed.

  Lemma at_snoc {B} (f : rpc -> B) d s x i : f x = d ->
    match nth_error (s_rpcs s ++ [x]) i with Some y => f y | None => d end = at_rpc f d s i.
  Proof.
    intros Hd. unfold at_rpc. destruct (Nat.lt_ge_cases i (length (s_rpcs s))) as [L|G].
    - rewrite nth_error_app1 by auto. auto.
    - rewrite nth_error_app2 by auto. rewrite (proj2 (nth_error_None (s_rpcs s) i)) by auto.
      destruct (i - length (s_rpcs s))%nat as [|n]; cbn; auto. destruct n; auto.
  Qed.

  Lemma t_fin h0 patient s ts i a k s' pre : inv h0 patient (s, ts) -> nth_error ts i = Some (a :: k) ->
    exec serve s a s' pre -> s_crashed s' = false ->
    forall j, tot (is_fin j) (upd ts i (pre ++ k)) = at_rpc (fun r => b2n (is_phase_serving r)) 0%nat s' j.
  Proof.
    intros I H E NC j. pose proof (i_fin _ _ _ I j) as OK. cbn [fst snd] in OK.
    pose proof (tot_step (is_fin j) ts i a k pre H) as T.
    execs E; try (cbn [is_fin b2n cnt total] in T; unfold at_rpc in *; cbn [s_rpcs]; lia).
    - destruct (s_shutdown s); cbn [is_fin b2n cnt total] in T; unfold at_rpc in *; cbn [s_rpcs]; lia.
    - destruct (s_cq_down s); [discriminate|]. cbn [is_fin b2n cnt total] in T. unfold at_rpc at 1. cbn [with_rpcs s_rpcs].
      rewrite at_snoc by reflexivity. lia.
    - cbn [is_fin b2n cnt total] in T. unfold at_rpc at 1. cbn [s_rpcs]. erewrite at_upd by eauto. cbn beta iota.
      unfold is_phase_serving at 1. cbn [r_phase]. fold (is_phase_serving r).
      destruct (Nat.eqb_spec j0 j) as [->|]; [|lia]. unfold at_rpc in OK. rewrite H0 in OK. lia.
    - destruct (s_cq_down s); [discriminate|]. destruct (th_fin _ _ _ _ _ _ _ I H j0 eq_refl) as [r1 [A1 [A2 A3]]]. rewrite A1 in H0. injection H0 as ->.
      unfold at_rpc at 1. cbn [with_rpcs s_rpcs]. erewrite at_upd by eauto. cbn beta.
      unfold is_phase_serving at 1. cbn [r_phase b2n]. cbn [is_fin cnt total b2n] in T.
      destruct (Nat.eqb_spec j0 j) as [->|]; cbn [b2n] in T; [|lia]. unfold at_rpc in OK. rewrite A1 in OK. unfold is_phase_serving in OK. rewrite A2 in OK. cbn in OK. lia.
    - destruct (th_free _ _ _ _ _ _ _ I H j0 eq_refl) as [r1 [A1 A2]]. rewrite A1 in H0. injection H0 as ->.
      unfold at_rpc at 1. cbn [with_rpcs s_rpcs]. erewrite at_upd by eauto. cbn beta.
      unfold is_phase_serving at 1. cbn [r_phase b2n]. cbn [is_fin cnt total b2n] in T.
      destruct (Nat.eqb_spec j0 j) as [->|]; [|lia]. unfold at_rpc in OK. rewrite A1 in OK. unfold is_phase_serving in OK. rewrite A2 in OK. cbn in OK. lia.
    - unfold at_rpc at 1. cbn [with_rpcs s_rpcs]. erewrite at_upd by eauto. cbn beta.
      unfold is_phase_serving at 1. cbn [set_phase r_phase b2n]. cbn [is_fin cnt total b2n] in T. unfold cnt in T. cbn [total is_fin b2n] in T.
      destruct (Nat.eqb_spec j0 j) as [->|]; cbn [b2n] in T; [|lia]. unfold at_rpc in OK. rewrite H0 in OK. unfold is_phase_serving in OK. rewrite H1 in OK. cbn in OK. lia.
    - unfold at_rpc at 1. cbn [with_rpcs s_rpcs]. erewrite at_upd by eauto. cbn beta.
      unfold is_phase_serving at 1. cbn [set_phase r_phase b2n]. unfold cnt in T. cbn [total is_fin b2n] in T.
      destruct (Nat.eqb_spec j0 j) as [->|]; [|lia]. unfold at_rpc in OK. rewrite H0 in OK. unfold is_phase_serving in OK. rewrite H1 in OK. cbn in OK. lia.
    - unfold at_rpc at 1. cbn [with_rpcs s_rpcs]. erewrite at_upd by eauto. cbn beta.
      unfold is_phase_serving at 1. cbn [set_phase r_phase b2n]. unfold cnt in T. cbn [total is_fin b2n] in T.
      destruct (Nat.eqb_spec j0 j) as [->|]; [|lia]. unfold at_rpc in OK. rewrite H0 in OK. unfold is_phase_serving in OK. rewrite H1 in OK. cbn in OK. lia.
  Qed.

  Ltac crunch T OK :=
    unfold at_rpc at 1; cbn [with_rpcs s_rpcs]; erewrite at_upd by eauto; cbn beta;
    unfold cnt in T; cbn [total is_fin is_free is_han b2n] in T.

  Lemma t_free h0 patient s ts i a k s' pre : inv h0 patient (s, ts) -> nth_error ts i = Some (a :: k) ->
    exec serve s a s' pre -> s_crashed s' = false ->
    forall j, tot (is_free j) (upd ts i (pre ++ k)) = at_rpc (fun r => b2n (is_phase_cleaning r)) 0%nat s' j.
  Proof.
    intros I H E NC j. pose proof (i_free _ _ _ I j) as OK. cbn [fst snd] in OK.
    pose proof (tot_step (is_free j) ts i a k pre H) as T.
    execs E; try (cbn [is_free b2n cnt total] in T; unfold at_rpc in *; cbn [s_rpcs]; lia).
    - destruct (s_shutdown s); cbn [is_free b2n cnt total] in T; unfold at_rpc in *; cbn [s_rpcs]; lia.
    - destruct (s_cq_down s); [discriminate|]. cbn [is_free b2n cnt total] in T. unfold at_rpc at 1. cbn [with_rpcs s_rpcs].
      rewrite at_snoc by reflexivity. lia.
    - crunch T OK. unfold is_phase_cleaning at 1. cbn [r_phase]. fold (is_phase_cleaning r).
      destruct (Nat.eqb_spec j0 j) as [->|]; [|lia]. unfold at_rpc in OK. rewrite H0 in OK. lia.
    - destruct (s_cq_down s); [discriminate|]. destruct (th_fin _ _ _ _ _ _ _ I H j0 eq_refl) as [r1 [A1 [A2 A3]]]. rewrite A1 in H0. injection H0 as ->.
      crunch T OK. unfold is_phase_cleaning at 1. cbn [r_phase b2n].
      destruct (Nat.eqb_spec j0 j) as [->|]; cbn [b2n] in T; [|lia]. unfold at_rpc in OK. rewrite A1 in OK. unfold is_phase_cleaning in OK. rewrite A2 in OK. cbn in OK. lia.
    - destruct (th_free _ _ _ _ _ _ _ I H j0 eq_refl) as [r1 [A1 A2]]. rewrite A1 in H0. injection H0 as ->.
      crunch T OK. unfold is_phase_cleaning at 1. cbn [r_phase b2n].
      destruct (Nat.eqb_spec j0 j) as [->|]; cbn [b2n] in T; [|lia]. unfold at_rpc in OK. rewrite A1 in OK. unfold is_phase_cleaning in OK. rewrite A2 in OK. cbn in OK. lia.
    - crunch T OK. unfold is_phase_cleaning at 1. cbn [set_phase r_phase b2n].
      destruct (Nat.eqb_spec j0 j) as [->|]; cbn [b2n] in T; [|lia]. unfold at_rpc in OK. rewrite H0 in OK. unfold is_phase_cleaning in OK. rewrite H1 in OK. cbn in OK. lia.
    - crunch T OK. unfold is_phase_cleaning at 1. cbn [set_phase r_phase b2n].
      destruct (Nat.eqb_spec j0 j) as [->|]; cbn [b2n] in T; [|lia]. unfold at_rpc in OK. rewrite H0 in OK. unfold is_phase_cleaning in OK. rewrite H1 in OK. cbn in OK. lia.
    - crunch T OK. unfold is_phase_cleaning at 1. cbn [set_phase r_phase b2n].
      destruct (Nat.eqb_spec j0 j) as [->|]; cbn [b2n] in T; [|lia]. unfold at_rpc in OK. rewrite H0 in OK. unfold is_phase_cleaning in OK. rewrite H1 in OK. cbn in OK. lia.
  Qed.

  Lemma t_han h0 patient s ts i a k s' pre : inv h0 patient (s, ts) -> nth_error ts i = Some (a :: k) ->
    exec serve s a s' pre -> s_crashed s' = false ->
    forall j, at_rpc (fun r => b2n (is_phase_serving r) = (tot (is_han j) (upd ts i (pre ++ k)) + b2n (is_phase_serving r) * r_handled r)%nat)
                     (tot (is_han j) (upd ts i (pre ++ k)) = 0%nat) s' j.
  Proof.
    intros I H E NC j. pose proof (i_han _ _ _ I j) as OK. cbn [fst snd] in OK.
    pose proof (tot_step (is_han j) ts i a k pre H) as T. unfold at_rpc in *.
    execs E; try (cbn [is_han b2n cnt total] in T; unfold at_rpc in *; cbn [s_rpcs];
                  replace (tot (is_han j) (upd ts i ([] ++ k))) with (tot (is_han j) ts) by lia; exact OK).
    - replace (tot (is_han j) (upd ts i ((if s_shutdown s then [] else [IEnqueue m]) ++ k))) with (tot (is_han j) ts)
        by (destruct (s_shutdown s); cbn [is_han b2n cnt total] in T; lia).
      destruct (s_shutdown s); exact OK.
    - destruct (s_cq_down s); [discriminate|]. cbn [is_han b2n cnt total] in T. cbn [with_rpcs s_rpcs].
      replace (tot (is_han j) (upd ts i ([] ++ k))) with (tot (is_han j) ts) by lia.
      destruct (nth_error (s_rpcs s ++ _) j) as [r|] eqn:N.
      + apply snoc_cases in N. destruct N as [[-> ->]|N].
        * rewrite (proj2 (nth_error_None (s_rpcs s) _)) in OK by auto. cbn. lia.
        * rewrite N in OK. auto.
      + apply nth_error_None in N. rewrite app_length in N. rewrite (proj2 (nth_error_None (s_rpcs s) _)) in OK by lia. auto.
    - unfold cnt in T. cbn [is_han b2n total] in T.
      match goal with |- context [tot (is_han j) (upd ts i ?z)] => replace (tot (is_han j) (upd ts i z)) with (tot (is_han j) ts) by lia end.
      exact OK.
    - destruct (th_han _ _ _ _ _ _ _ I H j0) as [r1 [A1 [A2 [A3 A4]]]]; [cbn; apply Nat.eqb_refl|]. rewrite A1 in H0. injection H0 as ->.
      rewrite nth_error_upd. pose proof (nth_error_Some_lt _ _ _ _ A1). unfold cnt in T. cbn [is_han b2n total] in T.
      destruct (Nat.eqb_spec j0 j) as [->|]; cbn [andb b2n] in *.
      + destruct (Nat.ltb_spec j (length (s_rpcs s))); [|lia]. unfold is_phase_serving. cbn [r_phase r_handled]. rewrite A2. cbn [b2n Nat.mul]. lia.
      + replace (tot (is_han j) (upd ts i ([] ++ k))) with (tot (is_han j) ts) by lia. exact OK.
    - destruct (s_cq_down s); [discriminate|]. destruct (th_fin _ _ _ _ _ _ _ I H j0 eq_refl) as [r1 [A1 [A2 A3]]]. rewrite A1 in H0. injection H0 as ->.
      cbn [with_rpcs s_rpcs]. rewrite nth_error_upd. pose proof (nth_error_Some_lt _ _ _ _ A1). unfold cnt in T. cbn [is_han b2n total] in T.
      replace (tot (is_han j) (upd ts i ([] ++ k))) with (tot (is_han j) ts) by lia.
      destruct (Nat.eqb_spec j0 j) as [->|]; cbn [andb]; [|exact OK].
      destruct (Nat.ltb_spec j (length (s_rpcs s))); [|lia]. rewrite A1 in OK. unfold is_phase_serving in *. rewrite A2 in OK. cbn in *. lia.
    - destruct (th_free _ _ _ _ _ _ _ I H j0 eq_refl) as [r1 [A1 A2]]. rewrite A1 in H0. injection H0 as ->.
      rewrite nth_error_upd. pose proof (nth_error_Some_lt _ _ _ _ A1). unfold cnt in T. cbn [is_han b2n total] in T.
      replace (tot (is_han j) (upd ts i ([] ++ k))) with (tot (is_han j) ts) by lia.
      destruct (Nat.eqb_spec j0 j) as [->|]; cbn [andb]; [|exact OK].
      destruct (Nat.ltb_spec j (length (s_rpcs s))); [|lia]. rewrite A1 in OK. unfold is_phase_serving in *. rewrite A2 in OK. cbn in *. lia.
    - pose proof (i_rpc _ _ _ I _ _ H0) as RO. unfold rpc_ok in RO. rewrite H1 in RO.
      rewrite nth_error_upd. pose proof (nth_error_Some_lt _ _ _ _ H0). unfold cnt in T. cbn [is_han b2n total] in T.
      destruct (Nat.eqb_spec j0 j) as [->|]; cbn [andb b2n] in *.
      + destruct (Nat.ltb_spec j (length (s_rpcs s))); [|lia]. rewrite H0 in OK. unfold is_phase_serving in *. rewrite H1 in OK. cbn in *. lia.
      + match goal with |- context [tot (is_han j) (upd ts i ?z)] => replace (tot (is_han j) (upd ts i z)) with (tot (is_han j) ts) by lia end. exact OK.
    - rewrite nth_error_upd. pose proof (nth_error_Some_lt _ _ _ _ H0). unfold cnt in T. cbn [is_han b2n total] in T.
      match goal with |- context [tot (is_han j) (upd ts i ?z)] => replace (tot (is_han j) (upd ts i z)) with (tot (is_han j) ts) by lia end.
      destruct (Nat.eqb_spec j0 j) as [->|]; cbn [andb b2n] in *; [|exact OK].
      destruct (Nat.ltb_spec j (length (s_rpcs s))); [|lia]. rewrite H0 in OK. unfold is_phase_serving in *. rewrite H1 in OK. cbn in *. lia.
    - rewrite nth_error_upd. pose proof (nth_error_Some_lt _ _ _ _ H0). unfold cnt in T. cbn [is_han b2n total] in T.
      match goal with |- context [tot (is_han j) (upd ts i ?z)] => replace (tot (is_han j) (upd ts i z)) with (tot (is_han j) ts) by lia end.
      destruct (Nat.eqb_spec j0 j) as [->|]; cbn [andb b2n] in *; [|exact OK].
      destruct (Nat.ltb_spec j (length (s_rpcs s))); [|lia]. rewrite H0 in OK. unfold is_phase_serving in *. rewrite H1 in OK. cbn in *. lia.
  Qed.

  Lemma t_pend h0 patient s ts i a k s' pre : inv h0 patient (s, ts) -> nth_error ts i = Some (a :: k) ->
    exec serve s a s' pre -> s_crashed s' = false ->
    let ts' := upd ts i (pre ++ k) in
    s_pending s' + Z.of_nat (tot is_freeing ts') =
             Z.of_nat (total (fun r => b2n (negb (is_freed r))) (s_rpcs s')) +
             Z.of_nat (tot is_dec ts') + Z.of_nat (tot is_enq ts').
  Proof.
    intros I H E NC ts'. pose proof (i_pend _ _ _ I) as OK. cbn [fst snd] in OK.
    pose proof (tot_step is_freeing ts i a k pre H) as T1.
    pose proof (tot_step is_dec ts i a k pre H) as T2.
    pose proof (tot_step is_enq ts i a k pre H) as T3. subst ts'.
    execs E; cbn [is_freeing is_dec is_enq b2n cnt total] in *;
      try (unfold cnt in *; cbn [is_freeing is_dec is_enq b2n cnt total] in *; lia).
    - destruct (s_shutdown s); cbn [s_pending s_rpcs]; unfold cnt in *; cbn [is_freeing is_dec is_enq b2n cnt total] in *; lia.
    - destruct (s_cq_down s); [discriminate|]. cbn [with_rpcs s_rpcs s_pending]. rewrite total_app. cbn [total is_freed r_phase negb b2n]. lia.
    - pose proof (total_upd (fun r => b2n (negb (is_freed r))) (s_rpcs s) j r (Rpc (r_method r) (r_phase r) (r_req r) (S (r_handled r)) (r_finished r) (r_freed r)) H0) as U.
      unfold is_freed at 2 4 in U. cbn [r_phase] in U. lia.
    - destruct (s_cq_down s); [discriminate|]. destruct (th_fin _ _ _ _ _ _ _ I H j eq_refl) as [r1 [A1 [A2 A3]]]. rewrite A1 in H0. injection H0 as ->.
      cbn [with_rpcs s_rpcs s_pending].
      match goal with |- context [upd (s_rpcs s) j ?z] => pose proof (total_upd (fun r => b2n (negb (is_freed r))) (s_rpcs s) j r z A1) as U end.
      unfold is_freed at 2 4 in U. cbn [r_phase] in U. rewrite A2 in U. cbn in U. lia.
    - destruct (th_free _ _ _ _ _ _ _ I H j eq_refl) as [r1 [A1 A2]]. rewrite A1 in H0. injection H0 as ->.
      match goal with |- context [upd (s_rpcs s) j ?z] => pose proof (total_upd (fun r => b2n (negb (is_freed r))) (s_rpcs s) j r z A1) as U end.
      unfold is_freed at 2 4 in U. cbn [r_phase] in U. rewrite A2 in U. cbn in U. lia.
    - match goal with |- context [upd (s_rpcs s) j ?z] => pose proof (total_upd (fun r => b2n (negb (is_freed r))) (s_rpcs s) j r z H0) as U end.
      unfold is_freed at 2 4 in U. cbn [r_phase set_phase] in U. rewrite H1 in U. unfold cnt in *. cbn [is_freeing is_dec is_enq b2n cnt total negb] in *. lia.
    - match goal with |- context [upd (s_rpcs s) j ?z] => pose proof (total_upd (fun r => b2n (negb (is_freed r))) (s_rpcs s) j r z H0) as U end.
      unfold is_freed at 2 4 in U. cbn [r_phase set_phase] in U. rewrite H1 in U. unfold cnt in *. cbn [is_freeing is_dec is_enq b2n cnt total negb] in *. lia.
    - match goal with |- context [upd (s_rpcs s) j ?z] => pose proof (total_upd (fun r => b2n (negb (is_freed r))) (s_rpcs s) j r z H0) as U end.
      unfold is_freed at 2 4 in U. cbn [r_phase set_phase] in U. rewrite H1 in U. unfold cnt in *. cbn [is_freeing is_dec is_enq b2n cnt total negb] in *. lia.
  Qed.

  Lemma t_meth h0 patient s ts i a k s' pre : inv h0 patient (s, ts) -> nth_error ts i = Some (a :: k) ->
    exec serve s a s' pre -> s_crashed s' = false ->
    forall m, (total (fun r => b2n (waiting m r)) (s_rpcs s') + tot (is_req m) (upd ts i (pre ++ k)) <= 1)%nat /\
              (s_shutdown s' = false ->
               (total (fun r => b2n (waiting m r)) (s_rpcs s') + tot (is_req m) (upd ts i (pre ++ k)) = 1)%nat).
  Proof.
    intros I H E NC m. pose proof (i_meth _ _ _ I m) as OK. cbn [fst snd] in OK.
    pose proof (tot_step (is_req m) ts i a k pre H) as T. pose proof (i_grpc _ _ _ I) as [G1 [G2 G3]]. cbn [fst] in *.
    execs E; unfold cnt in T; cbn [is_req b2n total] in T;
      try (split; [lia|intros X; destruct OK as [_ OK]; try specialize (OK X); lia]).
    - destruct (s_shutdown s) eqn:SD; cbn [s_rpcs s_shutdown]; cbn [is_req b2n total] in T.
      + split; [lia|congruence].
      + split; [lia|]. intros _. destruct OK as [_ OK]. specialize (OK eq_refl). lia.
    - destruct (s_cq_down s); [discriminate|]. cbn [with_rpcs s_rpcs s_shutdown]. rewrite total_app. cbn [total].
      unfold waiting at 2 4. cbn [r_method r_phase]. rewrite andb_true_r.
      split; [lia|]. intros X. destruct OK as [_ OK]. specialize (OK X). lia.
    - match goal with |- context [upd (s_rpcs s) j ?z] => pose proof (total_upd (fun r => b2n (waiting m r)) (s_rpcs s) j r z H0) as U end.
      unfold waiting at 2 4 in U. cbn [r_phase r_method] in U. 
      split; [lia|intros X; destruct OK as [_ OK]; try specialize (OK X); lia].
    - destruct (s_cq_down s); [discriminate|]. destruct (th_fin _ _ _ _ _ _ _ I H j eq_refl) as [r1 [A1 [A2 A3]]]. rewrite A1 in H0. injection H0 as ->.
      cbn [with_rpcs s_rpcs s_shutdown].
      match goal with |- context [upd (s_rpcs s) j ?z] => pose proof (total_upd (fun r => b2n (waiting m r)) (s_rpcs s) j r z A1) as U end.
      unfold waiting at 2 4 in U. cbn [r_phase r_method] in U. rewrite A2 in U.
      split; [lia|intros X; destruct OK as [_ OK]; try specialize (OK X); lia].
    - destruct (th_free _ _ _ _ _ _ _ I H j eq_refl) as [r1 [A1 A2]]. rewrite A1 in H0. injection H0 as ->.
      match goal with |- context [upd (s_rpcs s) j ?z] => pose proof (total_upd (fun r => b2n (waiting m r)) (s_rpcs s) j r z A1) as U end.
      unfold waiting at 2 4 in U. cbn [r_phase r_method] in U. rewrite A2 in U.
      split; [lia|intros X; destruct OK as [_ OK]; try specialize (OK X); lia].
    - match goal with |- context [upd (s_rpcs s) j ?z] => pose proof (total_upd (fun r => b2n (waiting m r)) (s_rpcs s) j r z H0) as U end.
      unfold waiting at 2 4 in U. cbn [r_phase r_method set_phase] in U. rewrite H1 in U. rewrite andb_true_r, andb_false_r in U. cbn [b2n] in U.
      split; [lia|intros X; destruct OK as [_ OK]; try specialize (OK X); lia].
    - (* a request fails only in shutdown *)
      match goal with |- context [upd (s_rpcs s) j ?z] => pose proof (total_upd (fun r => b2n (waiting m r)) (s_rpcs s) j r z H0) as U end.
      unfold waiting at 2 4 in U. cbn [r_phase r_method set_phase] in U. rewrite H1 in U. rewrite andb_true_r, andb_false_r in U. cbn [b2n] in U.
      split; [lia|]. intros X. exfalso. pose proof (i_refused _ _ _ I r (nth_error_In _ _ H0) H1) as Y. cbn [fst] in Y. congruence.
    - match goal with |- context [upd (s_rpcs s) j ?z] => pose proof (total_upd (fun r => b2n (waiting m r)) (s_rpcs s) j r z H0) as U end.
      unfold waiting at 2 4 in U. cbn [r_phase r_method set_phase] in U. rewrite H1 in U. rewrite andb_false_r in U. cbn [b2n] in U.
      split; [lia|intros X; destruct OK as [_ OK]; try specialize (OK X); lia].
  Qed.

  (** Nothing is undone. *)
  Lemma exec_mono s a s' pre : exec serve s a s' pre ->
    (s_shutdown s = true -> s_shutdown s' = true) /\ (s_grpc s <> Up -> s_grpc s' <> Up) /\
    (s_grpc s = Closed -> s_grpc s' = Closed) /\ (s_cq_down s = true -> s_cq_down s' = true) /\
    (s_notified s = true -> s_notified s' = true).
  Proof.
    intros E. destruct s as [sd p n g d hb l rs cr]. inversion E; subst; cbn;
      try (destruct sd; cbn); try (destruct d; cbn); try (destruct g; cbn); repeat split; auto; try congruence; try (intros ->; reflexivity).
  Qed.
  Lemma pos_mono s s' k : 
    (s_shutdown s = true -> s_shutdown s' = true) -> (s_grpc s <> Up -> s_grpc s' <> Up) ->
    (s_grpc s = Closed -> s_grpc s' = Closed) -> (s_cq_down s = true -> s_cq_down s' = true) ->
    pos_ok s k -> pos_ok s' k.
  Proof. intros A B C D. unfold pos_ok. destruct k as [|[]]; auto. intros [X Y]. auto. Qed.

  (** Only the thread in ProcessRequests is ever busy with a call, and it never runs Shutdown. *)
  Lemma th_pos h0 patient s ts i a k : inv h0 patient (s, ts) -> nth_error ts i = Some (a :: k) ->
    (i = 0%nat /\ is_shut a = false) \/ (i <> 0%nat /\ pos_ok s (a :: k) /\ cnt is_busy (a :: k) = 0%nat).
  Proof.
    intros I H. destruct (i_main _ _ _ I) as [k0 [rest [E [P [B [_ [_ S]]]]]]]. cbn [fst snd] in *. subst ts.
    destruct i as [|i].
    - left. split; auto. injection H as ->. apply S. left. auto.
    - right. cbn in H. rewrite Forall_forall in P, B. split; auto. apply nth_error_In in H. auto.
  Qed.
  Lemma no_live h0 patient s ts j r : inv h0 patient (s, ts) -> nth_error (s_rpcs s) j = Some r -> live r = true ->
    s_grpc s <> Closed /\ s_cq_down s = false.
  Proof.
    intros I H L. destruct (i_grpc _ _ _ I) as [_ [G2 G3]]. cbn [fst] in *.
    assert (X : s_grpc s <> Closed).
    { intros X. rewrite (G2 X r) in L; [discriminate|eapply nth_error_In; eauto]. }
    split; auto. destruct (s_cq_down s); auto. rewrite G3 in X; auto. congruence.
  Qed.

  Lemma t_refused h0 patient s ts i a k s' pre : inv h0 patient (s, ts) -> nth_error ts i = Some (a :: k) ->
    exec serve s a s' pre -> s_crashed s' = false ->
    forall r, In r (s_rpcs s') -> r_phase r = Arrived false -> s_shutdown s' = true.
  Proof.
    intros I H E NC r J PH. pose proof (exec_mono _ _ _ _ E) as [M _]. apply M.
    pose proof (i_refused _ _ _ I) as OK. cbn [fst] in OK.
    execs E; try (eapply OK; eassumption).
    - destruct (s_shutdown s); cbn in J; eauto.
    - destruct (s_cq_down s); [discriminate|]. cbn in J. apply in_app_or in J. destruct J as [J|[<-|[]]]; [eauto|discriminate].
    - apply upd_In in J. destruct J as [->|J]; [|eauto]. cbn in PH. eapply OK; [eapply nth_error_In; eauto|auto].
    - destruct (s_cq_down s); [discriminate|]. cbn in J. apply upd_In in J. destruct J as [->|J]; [discriminate|eauto].
    - apply upd_In in J. destruct J as [->|J]; [discriminate|eauto].
    - apply upd_In in J. destruct J as [->|J]; [discriminate|eauto].
    - apply upd_In in J. destruct J as [->|J]; [discriminate|eauto].
    - apply upd_In in J. destruct J as [->|J]; [discriminate|eauto].
  Qed.

  Lemma t_grpc h0 patient s ts i a k s' pre : inv h0 patient (s, ts) -> nth_error ts i = Some (a :: k) ->
    exec serve s a s' pre -> s_crashed s' = false ->
    (s_grpc s' <> Up -> s_shutdown s' = true) /\
    (s_grpc s' = Closed -> forall r, In r (s_rpcs s') -> live r = false) /\
    (s_cq_down s' = true -> s_grpc s' = Closed).
  Proof.
    intros I H E NC. pose proof (i_grpc _ _ _ I) as [G1 [G2 G3]]. cbn [fst] in *.
    pose proof (th_pos _ _ _ _ _ _ _ I H) as TP.
    execs E; auto.
    - destruct (s_shutdown s) eqn:SD; cbn; auto.
    - destruct (s_cq_down s) eqn:CD; [discriminate|]. cbn. split; auto. split; [|congruence].
      intros X r J. apply in_app_or in J. destruct J as [J|[<-|[]]]; auto.
    - split; auto. split; auto. intros X r1 J. apply upd_In in J. destruct J as [->|J]; auto.
      pose proof (G2 X _ (nth_error_In _ _ H0)) as L. exact L.
    - destruct (s_cq_down s) eqn:CD; [discriminate|]. cbn. split; auto. split; [|congruence].
      intros X r1 J. exfalso. destruct (th_fin _ _ _ _ _ _ _ I H j eq_refl) as [r2 [A1 [A2 A3]]].
      destruct (no_live _ _ _ _ _ _ I A1); [unfold live; rewrite A2; auto|congruence].
    - split; auto. split; auto. intros X r1 J. apply upd_In in J. destruct J as [->|J]; auto.
    - split; auto. split; auto. intros X r1 J. exfalso.
      destruct (no_live _ _ _ _ _ _ I H0); [unfold live; rewrite H1; auto|congruence].
    - split; auto. split; auto. intros X r1 J. apply upd_In in J. destruct J as [->|J]; auto.
    - split; auto. split; auto. intros X r1 J. apply upd_In in J. destruct J as [->|J]; auto.
    - destruct TP as [[_ X]|[_ [P _]]]; [discriminate|]. cbn in P. split; auto.
      split; [|intros X; rewrite (G3 X); auto]. intros X. apply G2. destruct (s_grpc s); congruence.
    - destruct TP as [[_ X]|[_ [[P _] _]]]; [discriminate|]. split; auto. split; auto.
      intros _ r J. rewrite forallb_forall in H0. specialize (H0 r J). destruct (live r); auto; discriminate.
    - destruct TP as [[_ X]|[_ [P _]]]; [discriminate|]. cbn in P. auto.
  Qed.

  (** Requests stay with their calls. *)
  Lemma exec_req s a s' pre j r : exec serve s a s' pre -> nth_error (s_rpcs s) j = Some r ->
    exists r', nth_error (s_rpcs s') j = Some r' /\ r_req r' = r_req r.
  Proof.
    intros E H. assert (U : forall l j0 r0 r1, l = s_rpcs s -> nth_error l j0 = Some r0 -> r_req r1 = r_req r0 ->
      exists r', nth_error (upd l j0 r1) j = Some r' /\ r_req r' = r_req r).
    { intros l j0 r0 r1 -> H0 Eq. rewrite nth_error_upd. destruct (Nat.eqb_spec j0 j) as [->|]; cbn [andb].
      - pose proof (nth_error_Some_lt _ _ _ _ H0). destruct (Nat.ltb_spec j (length (s_rpcs s))); [|lia].
        exists r1. split; auto. congruence.
      - eauto. }
    execs E; eauto.
    - destruct (s_shutdown s); eauto.
    - destruct (s_cq_down s); cbn; eauto. rewrite nth_error_app1; eauto. eapply nth_error_Some_lt; eauto.
    - destruct (s_cq_down s); cbn; eauto.
  Qed.
  Lemma exec_hub s a s' pre : exec serve s a s' pre -> (forall j rep h, a <> ICommit j rep h) -> s_hub s' = s_hub s /\ s_log s' = s_log s.
  Proof.
    intros E N. destruct s as [sd p n g d hb l rs cr]. inversion E; subst; cbn;
      try (destruct sd; cbn); try (destruct d; cbn); auto; exfalso; eapply N; eauto.
  Qed.
  Lemma commit_busy k j rep h : shape k -> In (ICommit j rep h) k -> (0 < cnt is_busy k)%nat.
  Proof. intros S J. destruct S; cbn in *; intuition (try discriminate; lia). Qed.

  Lemma t_commit h0 patient s ts i a k s' pre : inv h0 patient (s, ts) -> nth_error ts i = Some (a :: k) ->
    exec serve s a s' pre -> s_crashed s' = false ->
    forall k1 j rep h, In k1 (upd ts i (pre ++ k)) -> In (ICommit j rep h) k1 ->
      exists r q, nth_error (s_rpcs s') j = Some r /\ r_req r = Some q /\
        rep = fst (serve (s_hub s') q) /\ h = snd (serve (s_hub s') q).
  Proof.
    intros I H E NC k1 j rep h J JC.
    assert (SH : shape k1).
    { pose proof (t_shape _ _ _ _ _ _ _ _ _ I H E) as X. rewrite Forall_forall in X. auto. }
    (* the thread with the commit is the main one *)
    destruct (i_main _ _ _ I) as [k0 [rest [Ets [P [B _]]]]]. cbn [fst snd] in *.
    pose proof (th_pos _ _ _ _ _ _ _ I H) as TP.
    assert (OLD : In (ICommit j rep h) k0 -> (forall j1 rep1 h1, a <> ICommit j1 rep1 h1) ->
      exists r q, nth_error (s_rpcs s') j = Some r /\ r_req r = Some q /\
        rep = fst (serve (s_hub s') q) /\ h = snd (serve (s_hub s') q)).
    { intros J0 NA. destruct (i_commit _ _ _ I k0 j rep h) as [r [q [C1 [C2 [C3 C4]]]]]; [rewrite Ets; left; auto|auto|].
      destruct (exec_req _ _ _ _ _ _ E C1) as [r' [D1 D2]]. destruct (exec_hub _ _ _ _ E NA) as [D3 _].
      exists r', q. rewrite D3. split; auto. split; [congruence|auto]. }
    subst ts. destruct i as [|i]; cbn [nth_error upd] in *.
    - injection H as ->. destruct J as [<-|J].
      + (* the stepping thread *)
        assert (NA : forall j1 rep1 h1, a <> ICommit j1 rep1 h1).
        { intros j1 rep1 h1 ->. inversion E; subst. pose proof (th_shape _ _ _ _ 0%nat _ _ I eq_refl) as S0.
          inversion S0; subst. cbn in JC. intuition discriminate. }
        apply in_app_or in JC. destruct JC as [JC|JC].
        * inversion E; subst; try (destruct (s_shutdown s)); cbn in JC; try (intuition discriminate).
          destruct JC as [JC|[]]. injection JC as <- <- <-. exists r, q. auto.
        * apply OLD; auto. right. auto.
      + rewrite Forall_forall in B. pose proof (B _ J). pose proof (commit_busy _ _ _ _ SH JC). lia.
    - destruct TP as [[X _]|[_ [_ NB]]]; [discriminate|].
      assert (NA : forall j1 rep1 h1, a <> ICommit j1 rep1 h1).
      { intros j1 rep1 h1 ->. pose proof (th_shape _ _ _ _ (S i) _ _ I H) as S0.
        pose proof (commit_busy _ _ _ _ S0 (or_introl eq_refl)). lia. }
      destruct J as [<-|J].
      + apply OLD; auto.
      + apply upd_In in J. destruct J as [->|J].
        * exfalso. apply in_app_or in JC. destruct JC as [JC|JC].
          -- inversion E; subst; try (destruct (s_shutdown s)); cbn in JC; try (intuition discriminate).
             pose proof (th_shape _ _ _ _ (S i) _ _ I H) as S0. inversion S0; subst. cbn in NB. lia.
          -- pose proof (th_shape _ _ _ _ (S i) _ _ I H) as S0.
             pose proof (commit_busy _ j rep h S0 (or_intror JC)). lia.
        * rewrite Forall_forall in B. pose proof (B _ J). pose proof (commit_busy _ _ _ _ SH JC). lia.
  Qed.

  Lemma t_log h0 patient s ts i a k s' pre : inv h0 patient (s, ts) -> nth_error ts i = Some (a :: k) ->
    exec serve s a s' pre -> runs h0 (s_log s') (s_hub s').
  Proof.
    intros I H E. pose proof (i_log _ _ _ I) as L. cbn [fst] in L.
    assert (D : (exists j rep h, a = ICommit j rep h) \/ (forall j rep h, a <> ICommit j rep h)).
    { destruct a; try (right; intros; discriminate). left. eauto. }
    destruct D as [[j [rep [h ->]]]|N].
    - destruct (i_commit _ _ _ I (ICommit j rep h :: k) j rep h) as [r [q [C1 [C2 [C3 C4]]]]];
        [eapply nth_error_In; eauto|left; auto|]. cbn [fst snd] in *.
      inversion E; subst. cbn.
      repeat match goal with X : nth_error _ j = Some _ |- _ => rewrite C1 in X; injection X as X; subst; clear C1 end.
      match goal with X : r_req _ = Some _, Y : r_req _ = Some _ |- _ => rewrite X in Y; injection Y as Y; subst end.
      apply runs_snoc. auto.
    - destruct (exec_hub _ _ _ _ E N) as [-> ->]. auto.
  Qed.

  Lemma t_ended h0 patient s ts i a k s' pre : inv h0 patient (s, ts) -> nth_error ts i = Some (a :: k) ->
    exec serve s a s' pre -> s_crashed s' = false ->
    In [] (upd ts i (pre ++ k)) -> s_cq_down s' = true /\ forall r, In r (s_rpcs s') -> outstanding r = false.
  Proof.
    intros I H E NC J. apply upd_In in J. destruct J as [J|J].
    - destruct pre; [|discriminate]. destruct k; [|discriminate]. pose proof (th_shape _ _ _ _ _ _ _ I H) as S.
      inversion S; subst. inversion E; subst. split; auto. intros r J1. rewrite forallb_forall in H1. specialize (H1 r J1).
      destruct (outstanding r); auto; discriminate.
    - destruct (i_ended _ _ _ I J) as [C O]. cbn [fst] in *. destruct (exec_mono _ _ _ _ E) as [_ [_ [_ [M _]]]].
      split; auto. intros r1 J1.
      assert (U : forall l j0 r0 r2, l = s_rpcs s -> nth_error l j0 = Some r0 -> outstanding r2 = false \/ outstanding r2 = outstanding r0 ->
        In r1 (upd l j0 r2) -> outstanding r1 = false).
      { intros l j0 r0 r2 -> H0 Q J2. apply upd_In in J2. destruct J2 as [->|J2]; auto.
        destruct Q as [Q|Q]; auto. rewrite Q. apply O. eapply nth_error_In; eauto. }
      clear M. execs E; try (apply O; exact J1).
      all: try (destruct (s_shutdown s); apply O; exact J1).
      all: try (rewrite C in NC; discriminate).
      all: match goal with X : nth_error (s_rpcs _) ?j = Some ?r, J2 : In _ (upd _ ?j _), U : forall l j0, _ |- _ => refine (U _ j r _ eq_refl X _ J2) end; auto.
  Qed.

  Lemma exec_sd s a s' pre : exec serve s a s' pre -> a <> ISetShutdown -> s_shutdown s' = s_shutdown s.
  Proof.
    intros E N. destruct s as [sd p n g d hb l rs cr]. inversion E; subst; cbn;
      try (destruct sd; cbn); try (destruct d; cbn); auto; congruence.
  Qed.
  Lemma exec_pre_shut s a s' pre x : exec serve s a s' pre -> In x pre -> is_shut x = false.
  Proof.
    intros E J. inversion E; subst; try (destruct (s_shutdown _)); cbn in J; intuition (subst; reflexivity).
  Qed.
  Lemma step_not_shutdown s a k s' pre : shape (a :: k) -> exec serve s a s' pre -> pre ++ k <> shutdown_program.
  Proof.
    intros S E. inversion E; subst; inversion S; subst; try (destruct (s_shutdown _)); discriminate.
  Qed.
  Lemma pos_step h0 patient s ts i a k s' pre : inv h0 patient (s, ts) -> nth_error ts i = Some (a :: k) ->
    exec serve s a s' pre -> pos_ok s (a :: k) -> cnt is_busy (a :: k) = 0%nat ->
    pos_ok s' (pre ++ k) /\ cnt is_busy (pre ++ k) = 0%nat.
  Proof.
    intros I H E P B. pose proof (th_shape _ _ _ _ _ _ _ I H) as S.
    inversion E; subst; inversion S; subst; cbn in B; try discriminate; cbn in P |- *; auto;
      try (split; [|reflexivity]).
    - (* a call cannot arrive any more *)
      exfalso. destruct (no_live _ _ _ _ j r I) as [_ X]; auto; [|congruence].
      unfold live. match goal with X : r_phase _ = _ |- _ => rewrite X end. reflexivity.
    - split; auto. destruct (s_grpc s); discriminate.
  Qed.

  Lemma t_main h0 patient s ts i a k s' pre : inv h0 patient (s, ts) -> nth_error ts i = Some (a :: k) ->
    exec serve s a s' pre -> s_crashed s' = false ->
    exists k0 rest, upd ts i (pre ++ k) = k0 :: rest /\ Forall (pos_ok s') rest /\
               Forall (fun k => cnt is_busy k = 0%nat) rest /\
               (s_shutdown s' = true -> exists k, In k rest /\ k <> shutdown_program) /\
               (k0 = [] -> s_cq_down s' = true) /\
               (forall x, In x k0 -> is_shut x = false).
  Proof.
    intros I H E NC. pose proof (th_pos _ _ _ _ _ _ _ I H) as TP.
    destruct (exec_mono _ _ _ _ E) as [M1 [M2 [M3 [M4 _]]]].
    pose proof (t_ended _ _ _ _ _ _ _ _ _ I H E NC) as EN.
    pose proof (th_shape _ _ _ _ _ _ _ I H) as SH.
    destruct (i_main _ _ _ I) as [k0 [rest [Ets [P [B [W [Z S]]]]]]]. cbn [fst snd] in *.
    assert (P' : Forall (pos_ok s') rest).
    { eapply Forall_impl; [|exact P]. intros x. apply pos_mono; auto. }
    destruct TP as [[-> NS]|[N [PO BU]]].
    - subst ts. cbn in H. injection H as ->. exists (pre ++ k), rest. split; auto. split; auto. split; auto.
      split; [|split].
      + intros X. apply W. rewrite <- X. symmetry. eapply exec_sd; eauto. intros ->. discriminate.
      + intros X. apply EN. left. auto.
      + intros x J. apply in_app_or in J. destruct J as [J|J]; [eapply exec_pre_shut; eauto|apply S; right; auto].
    - destruct (pos_step _ _ _ _ _ _ _ _ _ I H E PO BU) as [PO' BU'].
      subst ts. destruct i as [|i]; [congruence|]. cbn [upd nth_error] in *. exists k0, (upd rest i (pre ++ k)).
      assert (L : In (pre ++ k) (upd rest i (pre ++ k))).
      { eapply nth_error_In. apply nth_error_upd_eq. eapply nth_error_Some_lt; eauto. }
      split; auto. split; [|split; [|split; [|split]]]; auto.
      + apply Forall_forall. intros x J. apply upd_In in J. destruct J as [->|J]; auto. rewrite Forall_forall in P'; auto.
      + apply Forall_forall. intros x J. apply upd_In in J. destruct J as [->|J]; auto. rewrite Forall_forall in B; auto.
      + intros _. exists (pre ++ k). split; auto. eapply step_not_shutdown; eauto.
  Qed.

  (** *** ProcessRequests has started *)
  Lemma started_step a k s s' pre ts ts' rest : shape (a :: k) -> exec serve s a s' pre ->
    ts = (a :: k) :: rest -> ts' = (pre ++ k) :: rest -> started (s, ts) = true -> started (s', ts') = true.
  Proof.
    intros S E -> -> X. inversion E; subst; inversion S; subst; try (destruct (s_shutdown _)); cbn in *; auto; discriminate.
  Qed.
  Lemma t_patient h0 patient s ts i a k s' pre : inv h0 patient (s, ts) -> nth_error ts i = Some (a :: k) ->
    exec serve s a s' pre -> (patient = true -> a = ISetShutdown -> started (s, ts) = true) ->
    patient = true -> started (s', upd ts i (pre ++ k)) = false -> s_shutdown s' = false.
  Proof.
    intros I H E G PT NS. pose proof (th_pos _ _ _ _ _ _ _ I H) as TP. pose proof (th_shape _ _ _ _ _ _ _ I H) as SH.
    destruct (i_main _ _ _ I) as [k0 [rest [Ets _]]]. cbn [snd] in Ets.
    assert (ST : started (s, ts) = false).
    { destruct (started (s, ts)) eqn:ST; auto. exfalso. destruct TP as [[-> _]|[N _]].
      - subst ts. cbn in H. injection H as ->. cbn in NS.
        pose proof (started_step a k s s' pre _ _ rest SH E eq_refl eq_refl ST) as X. cbn in X. congruence.
      - destruct i as [|i]; [congruence|]. subst ts. cbn in *. congruence. }
    rewrite (exec_sd _ _ _ _ E).
    - apply (i_patient _ _ _ I PT ST).
    - intros ->. rewrite G in ST; auto. discriminate.
  Qed.

  (** A step of a thread that does not crash keeps the invariant. *)
  Lemma inv_thread h0 patient s ts i a k s' pre : inv h0 patient (s, ts) -> nth_error ts i = Some (a :: k) ->
    exec serve s a s' pre -> (patient = true -> a = ISetShutdown -> started (s, ts) = true) ->
    s_crashed s' = false -> inv h0 patient (s', upd ts i (pre ++ k)).
  Proof.
    intros I H E G NC. constructor; cbn [fst snd].
    - eapply t_main; eauto.
    - eapply t_shape; eauto.
    - eapply t_rpc; eauto.
    - eapply t_fin; eauto.
    - eapply t_free; eauto.
    - eapply t_han; eauto.
    - eapply t_pend; eauto.
    - eapply t_meth; eauto.
    - eapply t_refused; eauto.
    - eapply t_grpc; eauto.
    - apply (exec_mono _ _ _ _ E). apply (i_notif _ _ _ I).
    - eapply t_commit; eauto.
    - eapply t_log; eauto.
    - eapply t_ended; eauto.
    - eapply t_patient; eauto.
  Qed.

  (** A step of the library keeps the invariant. *)
  Lemma inv_env h0 patient s ts s' : inv h0 patient (s, ts) -> env s s' -> inv h0 patient (s', ts).
  Proof.
    intros I E.
    assert (X : exists j r r', nth_error (s_rpcs s) j = Some r /\ s' = with_rpcs s (upd (s_rpcs s) j r') /\
      r_method r' = r_method r /\ r_handled r' = r_handled r /\ (r_req r' = r_req r \/ r_req r = None) /\ rpc_ok r' /\
      is_phase_serving r' = is_phase_serving r /\ is_phase_cleaning r' = is_phase_cleaning r /\ is_freed r' = is_freed r /\
      (forall m, waiting m r' = waiting m r) /\ outstanding r = true /\
      (r_phase r' = Arrived false -> s_grpc s <> Up) /\ (live r' = true -> live r = true \/ s_grpc s = Up)).
    { pose proof (i_rpc _ _ _ I) as OK. cbn [fst] in OK.
      inversion E; subst; match goal with X : nth_error _ ?j = Some ?r |- _ => specialize (OK _ _ X); exists j, r; eexists; split; [exact X|]; split; [reflexivity|] end;
      match goal with X : r_phase _ = _ |- _ => unfold rpc_ok, is_phase_serving, is_phase_cleaning, is_freed, waiting, outstanding, live, acc in *; cbn; rewrite X in * end;
      repeat split; auto; try (destruct (r_req r); tauto); try (destruct (r_req r); destruct OK as [OK _]; [discriminate|auto; fail]); try lia; try discriminate; intuition.
    }
    destruct X as [j [r [r' [H [-> [E1 [E2 [E3 [E4 [E5 [E6 [E7 [E8 [E9 [E10 E11]]]]]]]]]]]]]]].
    assert (TU : forall f, f r' = f r -> total f (upd (s_rpcs s) j r') = total f (s_rpcs s)).
    { intros f Ef. pose proof (total_upd f (s_rpcs s) j r r' H). lia. }
    assert (AT : forall (g : nat -> rpc -> nat), (forall x, g x r' = g x r) -> forall j0,
       at_rpc (g j0) 0%nat (with_rpcs s (upd (s_rpcs s) j r')) j0 = at_rpc (g j0) 0%nat s j0).
    { intros g Eg j0. unfold at_rpc at 1. cbn [s_rpcs with_rpcs].
      rewrite (at_upd (g j0) 0%nat s _ j r r' j0 H eq_refl). destruct (Nat.eqb_spec j j0) as [->|]; auto.
      unfold at_rpc. rewrite H. auto. }
    constructor; cbn [fst snd].
    - exact (i_main _ _ _ I).
    - exact (i_shape _ _ _ I).
    - intros j0 r0 J. apply upd_cases in J. destruct J as [[_ [-> _]]|[_ J]]; auto. eapply (i_rpc _ _ _ I); eauto.
    - intros j0. rewrite (AT (fun _ r => b2n (is_phase_serving r))) by (intros; congruence). apply (i_fin _ _ _ I).
    - intros j0. rewrite (AT (fun _ r => b2n (is_phase_cleaning r))) by (intros; congruence). apply (i_free _ _ _ I).
    - intros j0. pose proof (i_han _ _ _ I j0) as X. cbn [fst snd] in X. unfold at_rpc in *. cbn [s_rpcs with_rpcs].
      rewrite nth_error_upd. destruct (Nat.eqb_spec j j0) as [->|]; cbn [andb]; auto.
      rewrite H in X. destruct (_ <? _)%nat; [rewrite E5, E2; auto|rewrite H; auto].
    - cbn [s_pending s_rpcs with_rpcs]. rewrite TU by congruence. apply (i_pend _ _ _ I).
    - intros m. cbn [s_shutdown s_rpcs with_rpcs]. rewrite TU by (rewrite E8; auto). apply (i_meth _ _ _ I).
    - intros r0 J PH. cbn in J. apply upd_In in J. destruct J as [->|J]; [|eapply (i_refused _ _ _ I); eauto].
      destruct (i_grpc _ _ _ I) as [G _]. apply G. cbn. auto.
    - destruct (i_grpc _ _ _ I) as [G1 [G2 G3]]. cbn [fst] in *. split; auto. split; auto.
      cbn. intros X r0 J. apply upd_In in J. destruct J as [->|J]; auto.
      destruct (live r') eqn:L; auto. destruct (E11 eq_refl) as [L'|L']; [|congruence].
      rewrite (G2 X r) in L'; [discriminate|]. eapply nth_error_In; eauto.
    - exact (i_notif _ _ _ I).
    - intros k0 j0 rep h J JC. destruct (i_commit _ _ _ I k0 j0 rep h J JC) as [r0 [q [C1 [C2 C3]]]]. cbn [fst snd] in *.
      cbn [s_rpcs s_hub with_rpcs]. rewrite nth_error_upd. destruct (Nat.eqb_spec j j0) as [->|]; cbn [andb]; [|eauto].
      rewrite H in C1. injection C1 as <-. pose proof (nth_error_Some_lt _ _ _ _ H).
      destruct (Nat.ltb_spec j0 (length (s_rpcs s))); [|lia]. exists r', q. split; auto. split; auto.
      destruct E3 as [E3|E3]; congruence.
    - exact (i_log _ _ _ I).
    - intros J. destruct (i_ended _ _ _ I J) as [C O]. cbn [fst] in *. exfalso.
      rewrite (O r) in E9; [discriminate|]. eapply nth_error_In; eauto.
    - exact (i_patient _ _ _ I).
  Qed.

  Lemma inv_step h0 patient c c' : inv h0 patient c -> step serve patient c c' -> s_crashed (fst c') = false ->
    inv h0 patient c'.
  Proof.
    intros I S NC. destruct S as [s ts i a k s' pre C H E G|s ts s' C E].
    - eapply inv_thread; eauto.
    - eapply inv_env; eauto.
  Qed.
  Lemma reach_crashed patient c c' : reach serve patient c c' -> s_crashed (fst c) = false -> s_crashed (fst c') = false ->
    forall c1, step serve patient c1 c' -> s_crashed (fst c1) = false.
  Proof. intros _ _ _ c1 S. destruct S; auto. Qed.
  Lemma reach_inv h0 patient n c : reach serve patient (initial h0 n) c -> s_crashed (fst c) = false -> inv h0 patient c.
  Proof.
    induction 1 as [|c1 c2 R IH S]; intros NC.
    - apply inv_initial.
    - eapply inv_step; eauto. apply IH. destruct S; auto.
  Qed.

  (** A crash comes only from requesting a call on a queue that has been shut down, by the thread in
      ProcessRequests, before it has requested its first calls. *)
  Lemma crash_only h0 patient c c' : inv h0 patient c -> step serve patient c c' -> s_crashed (fst c') = true ->
    patient = false /\ started c = false /\ s_shutdown (fst c) = true /\ s_cq_down (fst c) = true.
  Proof.
    intros I S CR. destruct S as [s ts i a k s' pre C H E G|s ts s' C E].
    2: { exfalso. inversion E; subst; cbn in CR; congruence. }
    cbn [fst] in *. destruct (i_grpc _ _ _ I) as [G1 [G2 G3]]. cbn [fst] in *.
    pose proof (th_pos _ _ _ _ _ _ _ I H) as TP. pose proof (th_shape _ _ _ _ _ _ _ I H) as SH.
    inversion E; subst; cbn in CR; try congruence; try (destruct (s_shutdown s); cbn in CR; congruence);
      destruct (s_cq_down s) eqn:CD; cbn in CR; try congruence.
    - assert (SD : s_shutdown s = true) by (apply G1; rewrite G3; auto; discriminate).
      destruct TP as [[-> _]|[_ [_ B]]]; [|discriminate].
      assert (ST : started (s, ts) = false).
      { destruct (i_main _ _ _ I) as [k0 [rest [Ets _]]]. cbn in Ets. subst ts. cbn in H. injection H as ->.
        destruct (started (s, (IEnqueue m :: k) :: rest)) eqn:ST; auto. exfalso.
        inversion SH; subst; cbn in ST; try discriminate.
        (* serving a call: it is live *)
        pose proof (tot_head (is_fin j) _ 0%nat _ _ (eq_refl : nth_error ((IEnqueue m :: [IHandle j; IFinish j; INext]) :: rest) 0 = Some _)) as T.
        pose proof (i_fin _ _ _ I j) as X. cbn [fst snd] in X. unfold at_rpc in X.
        unfold tot in X. cbn [total cnt is_fin] in X. rewrite Nat.eqb_refl in X. cbn in X.
        destruct (nth_error (s_rpcs s) j) as [r|] eqn:Hr; [|lia].
        destruct (r_phase r) eqn:PH; unfold is_phase_serving in X; rewrite PH in X; cbn in X; try lia.
        destruct (no_live _ _ _ _ _ _ I Hr); [unfold live; rewrite PH; auto|congruence]. }
      destruct patient.
      + pose proof (i_patient _ _ _ I eq_refl ST) as X. cbn in X. congruence.
      + auto.
    - exfalso. destruct (th_fin _ _ _ _ _ _ _ I H j eq_refl) as [r1 [A1 [A2 A3]]].
      destruct (no_live _ _ _ _ _ _ I A1); [unfold live; rewrite A2; auto|congruence].
  Qed.

  Lemma patient_no_crash h0 n c : reach serve true (initial h0 n) c -> s_crashed (fst c) = false.
  Proof.
    induction 1 as [|c1 c2 R IH S]; auto. destruct (s_crashed (fst c2)) eqn:E; auto.
    destruct (crash_only _ _ _ _ (reach_inv _ _ _ _ R IH) S E). discriminate.
  Qed.

  (** ** Progress *)
  (** A thread whose next step is not a wait can take it. *)
  Definition waits (a : instr) : bool := match a with INext | IAwaitServer => true | _ => false end.
  Lemma handle_ready h0 patient s ts j : inv h0 patient (s, ts) -> (0 < tot (is_han j) ts)%nat ->
    exists r q, nth_error (s_rpcs s) j = Some r /\ r_req r = Some q.
  Proof.
    intros I P. pose proof (i_han _ _ _ I j) as X. unfold at_rpc in X. cbn [fst snd] in X.
    destruct (nth_error (s_rpcs s) j) as [r|] eqn:Hr; [|lia].
    pose proof (i_rpc _ _ _ I _ _ Hr) as OK. unfold rpc_ok in OK.
    unfold is_phase_serving in X. destruct (r_phase r); cbn in X; try lia. destruct OK as [OK _]. unfold acc in OK.
    destruct (r_req r) as [q|] eqn:Q; [|discriminate]. eauto.
  Qed.
  Lemma can_exec h0 patient s ts i a k : inv h0 patient (s, ts) -> nth_error ts i = Some (a :: k) ->
    waits a = false -> exists s' pre, exec serve s a s' pre.
  Proof.
    intros I H W.
    assert (HH : forall j, is_han j a = true -> exists r q, nth_error (s_rpcs s) j = Some r /\ r_req r = Some q).
    { intros j X. eapply handle_ready; eauto. pose proof (tot_head (is_han j) ts i a k H X). lia. }
    destruct a as [m|m|j|j rep h|j|j| | | | | | |]; try discriminate.
    - do 2 eexists. constructor.
    - do 2 eexists. constructor.
    - destruct (HH j) as [r [q [Hr Q]]]; [cbn; apply Nat.eqb_refl|]. do 2 eexists. econstructor; eauto.
    - destruct (HH j) as [r [q [Hr Q]]]; [cbn; apply Nat.eqb_refl|]. do 2 eexists. econstructor; eauto.
    - destruct (th_fin _ _ _ _ _ _ _ I H j eq_refl) as [r [Hr _]]. do 2 eexists. econstructor; eauto.
    - destruct (th_free _ _ _ _ _ _ _ I H j eq_refl) as [r [Hr _]]. do 2 eexists. econstructor; eauto.
    - do 2 eexists. constructor.
    - do 2 eexists. constructor.
    - do 2 eexists. constructor.
    - do 2 eexists. constructor. apply (i_notif _ _ _ I).
    - do 2 eexists. constructor.
  Qed.

  (** The thread in ProcessRequests is never stuck while an event is ready. *)
  Definition ready r : bool := match r_phase r with Arrived _ | Finished => true | _ => false end.
  Lemma main_progress h0 patient s ts r : inv h0 patient (s, ts) -> In r (s_rpcs s) -> ready r = true ->
    exists a k s' pre, nth_error ts 0 = Some (a :: k) /\ exec serve s a s' pre /\ is_shut a = false.
  Proof.
    intros I J RD. destruct (i_main _ _ _ I) as [k0 [rest [Ets [_ [_ [_ [_ S]]]]]]]. cbn [fst snd] in *.
    destruct k0 as [|a k].
    { exfalso. destruct (i_ended _ _ _ I) as [_ O]; [cbn; rewrite Ets; left; auto|]. cbn in O.
      specialize (O r J). unfold outstanding in O. unfold ready in RD. destruct (r_phase r); discriminate. }
    assert (H : nth_error ts 0 = Some (a :: k)) by (rewrite Ets; auto).
    pose proof (S a (or_introl eq_refl)) as NS.
    destruct (waits a) eqn:W.
    - destruct a; try discriminate. apply In_nth_error in J. destruct J as [j J].
      unfold ready in RD. destruct (r_phase r) as [|[]| | | | |] eqn:PH; try discriminate.
      + do 4 eexists. split; [exact H|]. split; auto. eapply exec_next_arrived; eauto.
      + do 4 eexists. split; [exact H|]. split; auto. eapply exec_next_failed; eauto.
      + do 4 eexists. split; [exact H|]. split; auto. eapply exec_next_finished; eauto.
    - destruct (can_exec _ _ _ _ _ _ _ I H W) as [s' [pre E]]. eauto 10.
  Qed.

  (** Nothing is left to do only when every thread has returned. *)
  Definition stuck (patient : bool) (c : conf) : Prop := forall c', ~ step serve patient c c'.
  Lemma total_zero_inv {A} (f : A -> nat) l : total f l = 0%nat -> forall x, In x l -> f x = 0%nat.
  Proof. induction l as [|z l IH]; cbn; [tauto|]. intros E x [<-|J]; [lia|apply IH; auto; lia]. Qed.

  Lemma stuck_ended h0 patient c : inv h0 patient c -> s_crashed (fst c) = false -> s_shutdown (fst c) = true ->
    stuck patient c -> forall k, In k (snd c) -> k = [].
  Proof.
    destruct c as [s ts]. cbn [fst snd]. intros I NC SD ST.
    assert (NX : forall i a k s' pre, nth_error ts i = Some (a :: k) -> ~ exec serve s a s' pre).
    { intros i a k s' pre H E. apply (ST (s', upd ts i (pre ++ k))). eapply step_thread; eauto.
      intros -> _. destruct (started (s, ts)) eqn:X; auto. pose proof (i_patient _ _ _ I eq_refl X). cbn in *. congruence. }
    assert (WA : forall i a k, nth_error ts i = Some (a :: k) -> waits a = true).
    { intros i a k H. destruct (waits a) eqn:W; auto. destruct (can_exec _ _ _ _ _ _ _ I H W) as [s' [pre E]].
      exfalso. eapply NX; eauto. }
    (* no thread is in the middle of serving or cleaning *)
    assert (TZ : forall p : instr -> bool, (forall k, shape k -> match k with a :: _ => waits a = true | [] => True end -> cnt p k = 0%nat) -> tot p ts = 0%nat).
    { intros p Q. apply total_zero. intros x J. pose proof (i_shape _ _ _ I) as SH. rewrite Forall_forall in SH.
      apply Q; auto. destruct x as [|a k]; auto. apply In_nth_error in J. destruct J as [i J]. eapply WA; eauto. }
    assert (FZ : forall j, tot (is_fin j) ts = 0%nat).
    { intros j. apply TZ. intros k S. destruct S; cbn; auto; discriminate. }
    assert (EZ : forall j, tot (is_free j) ts = 0%nat).
    { intros j. apply TZ. intros k S. destruct S; cbn; auto; discriminate. }
    (* Shutdown is past closing the server *)
    destruct (i_main _ _ _ I) as [k0 [rest [Ets [P [B [W [Z S]]]]]]]. cbn [fst snd] in *.
    assert (GU : s_grpc s <> Up).
    { destruct (W SD) as [k1 [J1 N1]]. rewrite Forall_forall in P. specialize (P k1 J1).
      destruct (i_grpc _ _ _ I) as [_ [_ G3]]. cbn in G3.
      assert (J2 : In k1 ts) by (rewrite Ets; right; auto). apply In_nth_error in J2. destruct J2 as [i J2].
      pose proof (i_shape _ _ _ I) as SH. rewrite Forall_forall in SH.
      assert (S1 : shape k1) by (apply SH; cbn; rewrite Ets; right; auto).
      destruct k1 as [|a k]; cbn in P.
      { rewrite G3; auto. discriminate. }
      pose proof (WA _ _ _ J2) as WA1. destruct a; try discriminate; cbn in P.
      - rewrite G3; auto. discriminate.
      - apply P. }
    (* no call is waiting or outstanding *)
    assert (FR : forall r, In r (s_rpcs s) -> r_phase r = Freed).
    { intros r J. apply In_nth_error in J. destruct J as [j J].
      pose proof (i_fin _ _ _ I j) as X1. pose proof (i_free _ _ _ I j) as X2. cbn [fst snd] in X1, X2.
      rewrite FZ in X1. rewrite EZ in X2. unfold at_rpc in X1, X2. rewrite J in X1, X2.
      unfold is_phase_serving in X1. unfold is_phase_cleaning in X2.
      assert (NR : ready r = false).
      { destruct (ready r) eqn:RD; auto. exfalso.
        destruct (main_progress _ _ _ _ r I (nth_error_In _ _ J) RD) as [a [k [s' [pre [H [E _]]]]]]. eapply NX; eauto. }
      unfold ready in NR. destruct (r_phase r) eqn:PH; auto; try discriminate; exfalso.
      - eapply ST. eapply step_env; auto. eapply env_refuse; eauto.
      - eapply ST. eapply step_env; auto. eapply env_sent; eauto. }
    (* server->Shutdown has returned *)
    assert (AS : forall i a k, nth_error ts i = Some (a :: k) -> a = INext).
    { intros i a k H. pose proof (WA _ _ _ H) as X. destruct a; try discriminate; auto. exfalso.
      eapply NX; eauto. apply exec_await_server. apply forallb_forall. intros r J. unfold live. rewrite FR; auto. }
    assert (CD : s_cq_down s = true).
    { destruct (W SD) as [k1 [J1 N1]]. rewrite Forall_forall in P. specialize (P k1 J1).
      assert (J2 : In k1 ts) by (rewrite Ets; right; auto). apply In_nth_error in J2. destruct J2 as [i J2].
      destruct k1 as [|a k]; cbn in P; auto. rewrite (AS _ _ _ J2) in P. auto. }
    intros k J. apply In_nth_error in J. destruct J as [i J]. destruct k as [|a k]; auto. exfalso.
    pose proof (AS _ _ _ J). subst a. eapply NX; eauto. apply exec_next_end; auto.
    apply forallb_forall. intros r J1. unfold outstanding. rewrite FR; auto.
  Qed.

  (** When every thread has returned, every call object has been dealt with. *)
  Lemma ended_clean h0 patient c : inv h0 patient c -> (forall k, In k (snd c) -> k = []) ->
    s_pending (fst c) = 0 /\
    forall r, In r (s_rpcs (fst c)) -> r_phase r = Freed /\ r_freed r = 1%nat /\ r_handled r = acc r /\ r_finished r = acc r.
  Proof.
    destruct c as [s ts]. cbn [fst snd]. intros I A.
    assert (TZ : forall p, tot p ts = 0%nat).
    { intros p. apply total_zero. intros x J. rewrite (A x J). reflexivity. }
    assert (FR : forall r, In r (s_rpcs s) -> r_phase r = Freed).
    { intros r J. destruct (i_main _ _ _ I) as [k0 [rest [Ets _]]]. cbn [snd] in Ets.
      destruct (i_ended _ _ _ I) as [_ O].
      { cbn. rewrite Ets. left. apply A. rewrite Ets. left. auto. }
      cbn in O. specialize (O r J). apply In_nth_error in J. destruct J as [j J].
      pose proof (i_fin _ _ _ I j) as X1. pose proof (i_free _ _ _ I j) as X2. cbn [fst snd] in X1, X2.
      rewrite TZ in X1, X2. unfold at_rpc in X1, X2. rewrite J in X1, X2.
      unfold is_phase_serving in X1. unfold is_phase_cleaning in X2. unfold outstanding in O.
      destruct (r_phase r); auto; discriminate. }
    split.
    - pose proof (i_pend _ _ _ I) as X. cbn [fst snd] in X. rewrite !TZ in X.
      rewrite (total_zero (fun r => b2n (negb (is_freed r)))) in X; [lia|]. intros r J. unfold is_freed. rewrite FR; auto.
    - intros r J. split; auto. pose proof (FR r J) as PH. apply In_nth_error in J. destruct J as [j J].
      pose proof (i_rpc _ _ _ I _ _ J) as OK. unfold rpc_ok in OK. rewrite PH in OK. tauto.
  Qed.

  (** ** Termination *)
  Definition w_phase (p : phase) : nat :=
    match p with Armed => 20 | Arrived _ => 19 | Finishing => 6 | Finished => 5 | _ => 0 end.
  Definition w_instr (a : instr) : nat :=
    match a with IEnqueue _ => 21 | IFinish _ => 7 | IHandle _ => 2 | _ => 1 end.
  Definition measure (c : conf) : nat :=
    (total (fun r => w_phase (r_phase r)) (s_rpcs (fst c)) + total (total w_instr) (snd c))%nat.

  Lemma measure_step h0 patient c c' : inv h0 patient c -> s_shutdown (fst c) = true -> step serve patient c c' ->
    s_shutdown (fst c') = true /\ (measure c' < measure c)%nat.
  Proof.
    intros I SD S. destruct S as [s ts i a k s' pre C H E G|s ts s' C E]; cbn [fst snd] in *.
    - split; [destruct (exec_mono _ _ _ _ E); auto|].
      unfold measure. cbn [fst snd].
      pose proof (total_upd (total w_instr) ts i _ (pre ++ k) H) as T. rewrite total_app in T. cbn [total] in T.
      assert (X : (total (fun r => w_phase (r_phase r)) (s_rpcs s') + total w_instr pre < total (fun r => w_phase (r_phase r)) (s_rpcs s) + w_instr a)%nat); [|lia].
      clear T. pose proof (th_fin _ _ _ _ _ _ _ I H) as TF. pose proof (th_free _ _ _ _ _ _ _ I H) as TR.
      destruct s as [sd p n g d hb l rs cr]. cbn in SD. subst sd.
      inversion E; subst; cbn [s_rpcs s_shutdown s_cq_down with_rpcs crash total w_instr] in *;
        try lia;
        try (match goal with |- context [upd rs ?j ?z] => match goal with X : nth_error rs j = Some ?r |- _ =>
          pose proof (total_upd (fun r => w_phase (r_phase r)) rs j r z X) as U; cbn [r_phase set_phase w_phase] in U end end);
        try match goal with X : r_phase _ = _ |- _ => rewrite X in U; cbn [w_phase] in U end; try lia.
      + destruct d; cbn [s_rpcs with_rpcs crash]; [lia|]. rewrite total_app. cbn [total r_phase w_phase]. lia.
      + destruct d; cbn [s_rpcs with_rpcs crash]; lia.
    - assert (X : exists j r r', nth_error (s_rpcs s) j = Some r /\ s' = with_rpcs s (upd (s_rpcs s) j r') /\ (w_phase (r_phase r') < w_phase (r_phase r))%nat).
      { inversion E; subst; match goal with X : nth_error _ ?j = Some ?r |- _ => exists j, r; eexists; split; [exact X|]; split; [reflexivity|] end;
        match goal with X : r_phase _ = _ |- _ => cbn; rewrite X; cbn; lia end. }
      destruct X as [j [r [r' [Hr [-> L]]]]]. split; auto. unfold measure. cbn [fst snd s_rpcs with_rpcs].
      pose proof (total_upd (fun r => w_phase (r_phase r)) (s_rpcs s) j r r' Hr) as U. cbn in U. lia.
  Qed.

  Lemma step_from_crashed patient c c' : step serve patient c c' -> s_crashed (fst c) = false.
  Proof. intros S. destruct S; auto. Qed.
  Lemma terminates h0 patient c : inv h0 patient c -> s_shutdown (fst c) = true ->
    Acc (fun c2 c1 => step serve patient c1 c2) c.
  Proof.
    intros I SD. remember (measure c) as n eqn:En. revert c I SD En.
    induction n as [n IH] using (well_founded_induction lt_wf). intros c I SD En.
    constructor. intros c' S. destruct (measure_step _ _ _ _ I SD S) as [SD' L].
    destruct (s_crashed (fst c')) eqn:CR.
    - constructor. intros c2 S2. apply step_from_crashed in S2. congruence.
    - eapply (IH (measure c')); [lia| |auto|auto]. eapply inv_step; eauto.
  Qed.

  (** ** Executions with a count of their steps and of the calls that arrived in them *)
  Definition accepted (c : conf) : nat := total acc (s_rpcs (fst c)).

  Definition w2_phase (p : phase) : nat :=
    match p with Armed => 20 | Arrived true => 40 | Arrived false => 19 | Finishing => 6 | Finished => 5 | _ => 0 end.
  Definition w2_instr (a : instr) : nat :=
    match a with IRequest _ => 22 | IEnqueue _ => 21 | IFinish _ => 7 | IHandle _ => 2 | _ => 1 end.
  Definition measure2 (c : conf) : nat :=
    (total (fun r => w2_phase (r_phase r)) (s_rpcs (fst c)) + total (total w2_instr) (snd c))%nat.

  Lemma exec_acc s a s' pre : exec serve s a s' pre -> total acc (s_rpcs s') = total acc (s_rpcs s).
  Proof.
    intros E.
    assert (U : forall j r r', nth_error (s_rpcs s) j = Some r -> r_req r' = r_req r -> total acc (upd (s_rpcs s) j r') = total acc (s_rpcs s)).
    { intros j r r' X Y. pose proof (total_upd acc (s_rpcs s) j r r' X) as V.
      assert (acc r' = acc r) by (unfold acc; rewrite Y; auto). lia. }
    inversion E; subst; cbn [s_rpcs s_shutdown s_cq_down with_rpcs crash]; auto; try (eapply U; eauto; fail).
    - destruct (s_shutdown s); auto.
    - destruct (s_cq_down s); cbn [s_rpcs with_rpcs crash]; auto. rewrite total_app. cbn. lia.
    - destruct (s_cq_down s); cbn [s_rpcs with_rpcs crash]; auto. eapply U; eauto.
  Qed.
  Lemma measure2_step h0 patient c c' : inv h0 patient c -> step serve patient c c' ->
    (accepted c <= accepted c')%nat /\ (measure2 c' + 1 <= measure2 c + 21 * (accepted c' - accepted c))%nat.
  Proof.
    intros I S. destruct S as [s ts i a k s' pre C H E G|s ts s' C E]; cbn [fst snd] in *.
    - assert (AE : accepted (s', upd ts i (pre ++ k)) = accepted (s, ts)).
      { unfold accepted. cbn [fst]. eapply exec_acc; eauto. }
      rewrite AE. split; auto. rewrite Nat.sub_diag.
      unfold measure2. cbn [fst snd].
      pose proof (total_upd (total w2_instr) ts i _ (pre ++ k) H) as T. rewrite total_app in T. cbn [total] in T.
      assert (X : (total (fun r => w2_phase (r_phase r)) (s_rpcs s') + total w2_instr pre < total (fun r => w2_phase (r_phase r)) (s_rpcs s) + w2_instr a)%nat); [|lia].
      clear T AE.
      destruct s as [sd p n g d hb l rs cr].
      inversion E; subst; cbn [s_rpcs s_shutdown s_cq_down with_rpcs crash total w2_instr] in *;
        try lia;
        try (match goal with |- context [upd rs ?j ?z] => match goal with X : nth_error rs j = Some ?r |- _ =>
          pose proof (total_upd (fun r => w2_phase (r_phase r)) rs j r z X) as U; cbn [r_phase set_phase w2_phase] in U end end);
        try match goal with X : r_phase _ = _ |- _ => rewrite X in U; cbn [w2_phase] in U end; try lia.
      + destruct sd; cbn [s_rpcs total w2_instr]; lia.
      + destruct d; cbn [s_rpcs with_rpcs crash]; [lia|]. rewrite total_app. cbn [total r_phase w2_phase]. lia.
      + destruct d; cbn [s_rpcs with_rpcs crash]; lia.
    - pose proof (i_rpc _ _ _ I) as OK. cbn [fst] in OK.
      unfold accepted, measure2. cbn [fst snd].
      inversion E; subst; cbn [s_rpcs with_rpcs];
      match goal with |- context [upd (s_rpcs s) ?j ?z] => match goal with X : nth_error (s_rpcs s) j = Some ?r |- _ =>
          pose proof (total_upd (fun r => w2_phase (r_phase r)) (s_rpcs s) j r z X) as U; cbn [r_phase set_phase w2_phase] in U;
          pose proof (total_upd acc (s_rpcs s) j r z X) as V; specialize (OK _ _ X) end end;
      match goal with X : r_phase _ = _ |- _ => rewrite X in U; cbn [w2_phase] in U; unfold rpc_ok in OK; rewrite X in OK end;
      unfold acc in V at 2 4; cbn [r_req set_phase] in V; unfold acc in OK.
      + destruct OK as [OK _]. rewrite OK in V. lia.
      + destruct OK as [OK _]. unfold acc in V. rewrite OK in V. unfold acc. lia.
      + unfold acc in *. lia.
  Qed.

  Inductive trace (patient : bool) (c : conf) : nat -> conf -> Prop :=
  | trace_here : trace patient c 0 c
  | trace_more n c1 c2 : trace patient c n c1 -> step serve patient c1 c2 -> trace patient c (S n) c2.
  Lemma trace_reach patient c n c' : trace patient c n c' -> reach serve patient c c'.
  Proof. induction 1; [constructor|econstructor; eauto]. Qed.
  Lemma trace_bound h0 patient t n c : trace patient (initial h0 t) n c ->
    (n + (if s_crashed (fst c) then 0 else measure2 c) <= 67 + 6 * t + 21 * accepted c)%nat.
  Proof.
    induction 1 as [|n c1 c2 T IH S].
    - cbn [fst initial s_crashed]. unfold measure2, accepted. cbn [fst snd initial s_rpcs total].
      assert (X : forall t, total (total w2_instr) (repeat shutdown_program t) = (6 * t)%nat).
      { intros u. induction u as [|u IHt]; auto. cbn [repeat total]. rewrite IHt. cbn. lia. }
      rewrite X. cbn. lia.
    - pose proof (step_from_crashed _ _ _ S) as NC. rewrite NC in IH.
      pose proof (measure2_step _ _ _ _ (reach_inv _ _ _ _ (trace_reach _ _ _ _ T) NC) S) as [A B].
      destruct (s_crashed (fst c2)); lia.
  Qed.

  (** No step is possible but the arrival of a new call or a call of Shutdown. *)
  Definition calls_shutdown (c c' : conf) : Prop :=
    exists i k, nth_error (snd c) i = Some (ISetShutdown :: k) /\ snd c' = upd (snd c) i k.
  Definition idle (patient : bool) (c : conf) : Prop :=
    forall c', step serve patient c c' -> (accepted c < accepted c')%nat \/ calls_shutdown c c'.

  Lemma idle_calls h0 patient c : inv h0 patient c -> s_crashed (fst c) = false -> idle patient c ->
    forall r, In r (s_rpcs (fst c)) -> r_phase r = Freed \/ (r_phase r = Armed /\ s_shutdown (fst c) = false).
  Proof.
    destruct c as [s ts]. cbn [fst]. intros I NC ID.
    assert (NX : forall i a k s' pre, nth_error ts i = Some (a :: k) -> a <> ISetShutdown -> ~ exec serve s a s' pre).
    { intros i a k s' pre H NA E.
      assert (S : step serve patient (s, ts) (s', upd ts i (pre ++ k))) by (eapply step_thread; eauto; congruence).
      destruct (ID _ S) as [X|[i2 [k2 [H2 E2]]]].
      - (* a thread accepts no call *)
        pose proof (measure2_step _ _ _ _ I S) as [_ B]. revert X.
        enough (accepted (s', upd ts i (pre ++ k)) = accepted (s, ts)) by lia.
        unfold accepted. cbn [fst]. eapply exec_acc; eauto.
      - (* it is not this thread that calls Shutdown *)
        cbn [snd] in *. assert (Y : nth_error (upd ts i (pre ++ k)) i = nth_error (upd ts i2 k2) i) by congruence.
        rewrite nth_error_upd_eq in Y by (eapply nth_error_Some_lt; eauto).
        destruct (Nat.eq_dec i2 i) as [->|N].
        + congruence.
        + rewrite nth_error_upd_neq in Y by auto. rewrite H in Y. injection Y as Y.
          assert (Z : nth_error (upd ts i (pre ++ k)) i2 = nth_error (upd ts i2 k2) i2) by congruence.
          rewrite nth_error_upd_eq in Z by (eapply nth_error_Some_lt; eauto).
          rewrite nth_error_upd_neq in Z by auto. rewrite H2 in Z. injection Z as Z.
          apply (f_equal (@length _)) in Z. cbn in Z. lia. }
    assert (NE : forall s', env s s' -> (accepted (s, ts) < accepted (s', ts))%nat).
    { intros s' E. destruct (ID (s', ts)) as [X|[i2 [k2 [H2 E2]]]]; [apply step_env; auto|auto|].
      exfalso. cbn [snd] in *. assert (Z : nth_error ts i2 = nth_error (upd ts i2 k2) i2) by congruence.
      rewrite nth_error_upd_eq in Z by (eapply nth_error_Some_lt; eauto). rewrite H2 in Z. injection Z as Z.
      apply (f_equal (@length _)) in Z. cbn in Z. lia. }
    assert (WA : forall i a k, nth_error ts i = Some (a :: k) -> waits a = true \/ a = ISetShutdown).
    { intros i a k H. destruct (waits a) eqn:W; auto. destruct (can_exec _ _ _ _ _ _ _ I H W) as [s' [pre E]].
      right. destruct a; auto; exfalso; (eapply NX; [exact H|discriminate|exact E]). }
    assert (TZ : forall p : instr -> bool, (forall k, shape k -> match k with a :: _ => waits a = true \/ a = ISetShutdown | [] => True end -> cnt p k = 0%nat) -> tot p ts = 0%nat).
    { intros p Q. apply total_zero. intros x J. pose proof (i_shape _ _ _ I) as SH. rewrite Forall_forall in SH.
      apply Q; auto. destruct x as [|a k]; auto. apply In_nth_error in J. destruct J as [i J]. eapply WA; eauto. }
    assert (FZ : forall j, tot (is_fin j) ts = 0%nat).
    { intros j. apply TZ. intros k S. destruct S; cbn; auto; intros [X|X]; discriminate. }
    assert (EZ : forall j, tot (is_free j) ts = 0%nat).
    { intros j. apply TZ. intros k S. destruct S; cbn; auto; intros [X|X]; discriminate. }
    destruct (i_main _ _ _ I) as [k0 [rest [Ets [P [B [W [Z S]]]]]]]. cbn [fst snd] in *.
    assert (GU : s_shutdown s = true -> s_grpc s <> Up).
    { intros SD. destruct (W SD) as [k1 [J1 N1]]. rewrite Forall_forall in P. specialize (P k1 J1).
      destruct (i_grpc _ _ _ I) as [_ [_ G3]]. cbn in G3.
      assert (J2 : In k1 ts) by (rewrite Ets; right; auto). apply In_nth_error in J2. destruct J2 as [i J2].
      pose proof (i_shape _ _ _ I) as SH. rewrite Forall_forall in SH.
      assert (S1 : shape k1) by (apply SH; cbn; rewrite Ets; right; auto).
      destruct k1 as [|a k]; cbn in P.
      { rewrite G3; auto. discriminate. }
      destruct (WA _ _ _ J2) as [WA1| ->].
      - destruct a; try discriminate; cbn in P.
        + rewrite G3; auto. discriminate.
        + apply P.
      - exfalso. apply N1. inversion S1; subst; reflexivity. }
    intros r J. apply In_nth_error in J. destruct J as [j J].
    pose proof (i_fin _ _ _ I j) as X1. pose proof (i_free _ _ _ I j) as X2. cbn [fst snd] in X1, X2.
    rewrite FZ in X1. rewrite EZ in X2. unfold at_rpc in X1, X2. rewrite J in X1, X2.
    unfold is_phase_serving in X1. unfold is_phase_cleaning in X2.
    assert (NR : ready r = false).
    { destruct (ready r) eqn:RD; auto. exfalso.
      destruct (main_progress _ _ _ _ r I (nth_error_In _ _ J) RD) as [a [k [s' [pre [H [E NS]]]]]].
      eapply NX; eauto. intros ->. discriminate. }
    unfold ready in NR.
    assert (SAME : forall r', r_req r' = r_req r -> ~ env s (with_rpcs s (upd (s_rpcs s) j r'))).
    { intros r' Er E. apply NE in E. unfold accepted in E. cbn [fst s_rpcs with_rpcs] in E.
      pose proof (total_upd acc (s_rpcs s) j r r' J) as U. unfold acc in U at 2 4. rewrite Er in U. unfold acc in *. lia. }
    destruct (r_phase r) eqn:PH; auto; try discriminate.
    - right. split; auto. destruct (s_shutdown s) eqn:SD; auto. exfalso.
      eapply (SAME (set_phase r (Arrived false))); [reflexivity|]. eapply env_refuse; eauto.
    - exfalso. eapply (SAME (set_phase r Finished)); [reflexivity|]. eapply env_sent; eauto.
  Qed.
End Proofs.
