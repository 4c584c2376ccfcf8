(** What a client obtains from a server that keeps answering: random generation and bits per character,
    from an invariant of the server and of the states it has given out. *)
From Coq Require Import String.
From Verif Require Import Base Field LmModel LmProofs ServerModel ClientModel ClientSpec ClientProofs.
Close Scope string_scope.
Local Notation length := List.length.

Section Serve.
  Context {F : ofield} {W : Type}.
  Local Open Scope F_scope.
  Variable srv : server F W.
  Variable unicode : string -> list Z.
  Variable m : nat.

  (** A reply of use to the client: as many symbols as probabilities, the probabilities a distribution, the
      normalization positive, no symbol of more than [m] bytes. *)
  Record fine_reply (r : scores_msg F) : Prop := {
    fr_form : well_formed r;
    fr_norm : 0 < msg_norm r;
    fr_nonneg : forall p, In p (msg_probs r) -> 0 <= p;
    fr_one : fsum (msg_probs r) = f1;
    fr_short : forall s, In s (msg_symbols r) -> (String.length s <= m)%nat }.

  (** [Room n w st]: in world [w] the client may use state [st], and send [n] more characters. *)
  Record serves (Room : nat -> W -> Z -> Prop) : Prop := {
    sv_scores : forall n w st, Room n w st ->
      exists r w', rpc_scores srv w ""%string (to_int st) = (Some r, w') /\ fine_reply r /\ Room n w' st;
    sv_moves : forall n w st s, Room n w st -> (length (unicode s) <= n)%nat ->
      exists st' r w', moves srv unicode w st s st' r w' /\ fine_reply r /\ Room (n - length (unicode s))%nat w' st';
    sv_restart : forall n w st, Room n w st -> Room n w 0%Z }.

  Variable Room : nat -> W -> Z -> Prop.
  Hypothesis S : serves Room.
  Variable sort : list (car F * string) -> list (car F * string).
  Hypothesis Hsort : sort_spec sort.
  Hypothesis U : forall s, (length (unicode s) <= String.length s)%nat.
  Variable draws : nat -> car F.

  Lemma moves_update w st s st' r' w' : moves srv unicode w st s st' r' w' ->
    helper_update sort unicode (Some srv) w s st 1 = (Ok (st', msg_norm r', rank_by sort r'), w').
  Proof.
    intros (w1 & E1 & Wf & E2).
    destruct (helper_update_cases sort unicode srv w s st) as [(st2 & n & r2 & w2 & (w3 & E3 & _ & E4) & E & ->)|(w2 & Fl & _)].
    - rewrite E1 in E3. injection E3 as <- <-. rewrite E2 in E4. injection E4 as <- <-. exact E.
    - exfalso. destruct Fl as [Fl|[(r2 & Fl & N)|(r2 & w3 & Fl & _ & N)]]; rewrite E1 in Fl; [discriminate| |].
      + injection Fl as <- <-. contradiction.
      + injection Fl as <- <-. rewrite E2 in N. discriminate.
  Qed.

  Lemma fine_symbol r i p s : fine_reply r -> nth_error (rank_by sort r) i = Some (p, s) -> (String.length s <= m)%nat.
  Proof.
    intros H E. apply nth_error_In in E.
    apply (Permutation_in _ (Permutation_sym (proj1 (Hsort _)))) in E. apply in_combine_r in E. apply (fr_short _ H); auto.
  Qed.

  Lemma loop_succeeds : forall fuel b n text st r w k,
    Room n w st -> fine_reply r -> (b + m <= n)%nat -> (1 <= b)%nat -> (b <= fuel)%nat ->
    exists R ss e,
      (forall fuel' ch, (fuel <= fuel')%nat ->
         rand_gen_loop sort unicode fuel' (Some srv) draws (String.length text + b) true ch
           text st (rank_by sort r) w k = Some R) /\
      generates srv unicode (rank_by sort) draws w st r k b ss e (rg_world R) (rg_draws R) /\
      rg_text R = (text ++ concat_all ss ++ note e)%string /\
      rg_status R = Ok tt /\ e <> UpdateFailed.
  Proof.
    induction fuel as [|fuel IH]; intros b n text st r w k Rm Fr Hn Hb Hf; [lia|].
    pose proof (position_in_bounds (rank_by sort r) (draws k) (rank_not_nil sort Hsort r (fr_form _ Fr))) as Bd.
    destruct (nth_error (rank_by sort r) (get_random_position (rank_by sort r) (draws k)))
      as [[p s]|] eqn:En; [|apply nth_error_None in En; lia].
    pose proof (position_selects' _ _ _ _ (rank_nonneg sort Hsort r (fr_nonneg _ Fr)) En) as Sel.
    pose proof (fine_symbol r _ _ _ Fr En) as Short.
    destruct (String.eqb_spec s "") as [Es|Es].
    - subst s. exists (mk_rg (Ok tt) text w (Datatypes.S k)), [], EndOfText.
      split; [|split; [|split; [|split]]].
      + intros fuel' ch Hf'. destruct fuel' as [|fuel']; [lia|].
        cbn [rand_gen_loop]. rewrite En. cbn [String.eqb negb andb].
        destruct (Nat.leb_spec (String.length text + b) (String.length text)); [lia|].
        reflexivity.
      + cbn. apply gen_end. exact Sel.
      + cbn. rewrite append_nil_r. reflexivity.
      + reflexivity.
      + discriminate.
    - pose proof (U s) as Us.
      destruct (sv_moves _ S n w st s Rm) as (st' & r' & w' & Mv & Fr' & Rm'); [lia|].
      pose proof (moves_update _ _ _ _ _ _ Mv) as E.
      destruct (le_lt_dec b (String.length s)) as [Lb|Lb].
      + exists (mk_rg (Ok tt) ((text ++ s) ++ "(reached_length_limit)")%string w' (Datatypes.S k)), [s], LimitReached.
        split; [|split; [|split; [|split]]].
        * intros fuel' ch Hf'. destruct fuel' as [|fuel']; [lia|].
          cbn [rand_gen_loop]. rewrite En, E.
          destruct (String.eqb_spec s "") as [|_]; [contradiction|].
          cbn [negb andb].
          destruct (Nat.ltb_spec (String.length (text ++ s)) (String.length text + b));
            [rewrite length_append in *; lia|].
          destruct (Nat.leb_spec (String.length text + b) (String.length (text ++ s)));
            [|rewrite length_append in *; lia].
          reflexivity.
        * cbn. eapply gen_limit; eauto.
        * cbn. rewrite append_nil_r, append_assoc. reflexivity.
        * reflexivity.
        * discriminate.
      + pose proof (length_pos s Es) as Ls.
        destruct (IH (b - String.length s)%nat _ (text ++ s)%string st' r' w' (Datatypes.S k) Rm' Fr')
          as (R & ss & e & C & G & T & St & Ne); [lia|lia|lia|].
        exists R, (s :: ss), e. split; [|split; [|split; [|split]]].
        * intros fuel' ch Hf'. destruct fuel' as [|fuel']; [lia|].
          cbn [rand_gen_loop]. rewrite En, E.
          destruct (String.eqb_spec s "") as [|_]; [contradiction|].
          cbn [negb andb].
          destruct (Nat.ltb_spec (String.length (text ++ s)) (String.length text + b));
            [|rewrite length_append in *; lia].
          replace (String.length text + b)%nat
            with (String.length (text ++ s) + (b - String.length s))%nat
            by (rewrite length_append; lia).
          apply C. lia.
        * eapply gen_more; eauto.
        * rewrite T. cbn [concat_all]. rewrite !append_assoc. reflexivity.
        * exact St.
        * exact Ne.
  Qed.

  (** Opened in a world with room, random generation succeeds. *)
  Lemma rand_gen_succeeds w ctx st r w2 n : opens srv w ctx st r w2 -> Room n w2 st -> fine_reply r -> (128 + m <= n)%nat ->
    exists R ss e,
      (forall fuel, (128 <= fuel)%nat -> rand_gen sort unicode fuel (Some srv) draws w ctx = Some R) /\
      rg_status R = Ok tt /\ e <> UpdateFailed /\
      rg_text R = (ctx ++ concat_all ss ++ note e)%string /\
      generates srv unicode (rank_by sort) draws w2 st r 0 128 ss e (rg_world R) (rg_draws R).
  Proof.
    intros (w1 & E1 & E2 & Wf & Np) Rm Fr Hn.
    destruct (loop_succeeds 128 128 n ctx st r w2 0%nat Rm Fr Hn) as (R & ss & e & C & G & T & St & Ne); [lia|lia|].
    exists R, ss, e. split; [|auto]. intros fuel Hf. unfold rand_gen, helper_next_state, async_next_state.
    change (to_int (to_int (-1))) with (-1)%Z. rewrite E1.
    destruct (helper_scores_cases sort srv w1 "" st) as [(r' & w' & E' & _ & _ & ->)|(w' & _ & B)].
    - rewrite E2 in E'. injection E' as <- <-. change kMaxRandGenLen with 128%nat. rewrite Nat.add_comm. apply C. auto.
    - exfalso. destruct B as [B|(r' & B & B')]; rewrite E2 in B; [discriminate|]. injection B as <- <-.
      destruct B' as [B'|B']; [contradiction|]. apply flt_not_le in Np. contradiction.
  Qed.
End Serve.
Arguments fr_form {F m r}. Arguments fr_norm {F m r}. Arguments fr_nonneg {F m r}. Arguments fr_one {F m r}. Arguments fr_short {F m r}.
