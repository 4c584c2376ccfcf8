(** C47: the client's bits per character.  Specification ([text_scored], [scored],
    [code_length]) in ClientBits.v.  Real numbers: Coq's standard library axioms. *)
From Coq Require Import Reals Lra String.
From Verif Require Import Base Field FieldR LmModel LmProofs ServerModel TextModel ClientModel
  ClientSpec ClientProofs ClientBits.
Local Open Scope R_scope.

Section C47.
  Context {W : Type}.
  Variable sort : list (car R_field * string) -> list (car R_field * string).
  Hypothesis Hsort : sort_spec sort.
  Variable unicode : string -> list Z.
  Variable chars : string -> list string.
  Local Notation calc := (calc_bits_per_character sort unicode chars).

  (** If the server answers all the calls, the reported value is the mean code length of the
      symbols of the text, with the totals of symbols and of symbols not offered. *)
  Theorem C47_mean : forall (srv : server R_field W) w content tr w',
    text_scored unicode chars srv w (text_lines content) tr w' ->
    exists os, Forall2 scored tr os /\
      calc (Some srv) w (Some content) =
      (Ok (Z.of_nat (length tr), Z.of_nat (oov os),
           match tr with
           | [] => None
           | _ => Some (sum (map code_length os) / INR (length tr))
           end), w').
  Proof.
    intros srv w content tr w' T. unfold calc_bits_per_character, calc_bits. cbn [option_map].
    destruct (bits_lines_spec sort Hsort unicode chars srv (text_lines content) w
                (mk_totals 0 0 0)) as [(tr2 & os & w2 & T2 & Sc & B)|(N & _)].
    2:{ exfalso. exact (N _ _ T). }
    destruct (text_scored_det _ _ _ _ _ _ _ T _ _ T2) as [<- <-].
    exists os. split; [exact Sc|]. rewrite B.
    assert (L : length tr = length os) by (eapply Forall2_length; exact Sc).
    cbn [add_totals tot_chars tot_oov tot_bits]. unfold bits_per_char.
    cbn [add_totals tot_chars tot_oov tot_bits]. rewrite !Z.add_0_l, <- L, <- INR_IZR_INZ.
    rewrite Rplus_0_l. do 3 f_equal.
    destruct tr as [|e tr]; [reflexivity|].
    destruct (Z.eqb_spec (Z.of_nat (length (e :: tr))) 0) as [E|_]; [cbn in E; lia|].
    reflexivity.
  Qed.

  (** Which symbols: the characters of every line in order, each line closed by the empty
      (end of string) symbol. *)
  Theorem C47_symbols : forall (srv : server R_field W) w lines tr w',
    text_scored unicode chars srv w lines tr w' ->
    map fst tr = flat_map (fun l => chars l ++ [""%string])%list lines.
  Proof.
    assert (L : forall (srv : server R_field W) w st r ss tr w',
      line_scored unicode srv w st r ss tr w' -> map fst tr = ss).
    { induction 1; cbn; congruence. }
    induction 1 as [|w l ls r w1 tr w2 tr' w3 E Wf Np Ls T IH]; cbn [flat_map map]; auto.
    rewrite map_app, IH, (L _ _ _ _ _ _ _ Ls). reflexivity.
  Qed.

  (** Otherwise - a call fails, or a reply is malformed - or when the file cannot be opened,
      an error is returned, never a number. *)
  Theorem C47_errors : forall (srv : server R_field W) w,
    (exists w', calc (Some srv) w None = (Err, w')) /\
    (forall content, (forall tr w', ~ text_scored unicode chars srv w (text_lines content) tr w') ->
     exists w', calc (Some srv) w (Some content) = (Err, w')).
  Proof.
    intros srv w. split; [eexists; reflexivity|].
    intros content N. unfold calc_bits_per_character, calc_bits. cbn [option_map].
    destruct (bits_lines_spec sort Hsort unicode chars srv (text_lines content) w
                (mk_totals 0 0 0)) as [(tr2 & os & w2 & T2 & _)|(_ & w' & B)].
    - exfalso. exact (N _ _ T2).
    - exists w'. rewrite B. reflexivity.
  Qed.

  (** Finite and positive for every text with at least one line, whatever the server (with
      probabilities between 0 and 1) says about its characters, and never more than
      log2 (143859 / eps) (about 43.7 bits). *)
  Theorem C47_finite : forall (srv : server R_field W) w content n no res w',
    (forall w c st r w', rpc_scores srv w c st = (Some r, w') ->
       forall p : R, In p (msg_probs r) -> 0 <= p <= 1) ->
    (forall w c st k r w', rpc_update srv w c st k = (Some r, w') ->
       forall p : R, In p (msg_probs r) -> 0 <= p <= 1) ->
    text_lines content <> [] ->
    calc (Some srv) w (Some content) = (Ok (n, no, res), w') ->
    (1 <= n)%Z /\ (0 <= no <= n)%Z /\
    exists x, res = Some x /\ 0 < x <= log2 (143859 / kMixEpsilon).
  Proof.
    intros srv w content n no res w' P1 P2 Hl E.
    destruct (bits_lines_spec sort Hsort unicode chars srv (text_lines content) w
                (mk_totals 0 0 0)) as [(tr & os & w2 & T & Sc & B)|(_ & w2 & B)].
    2:{ exfalso. unfold calc_bits_per_character, calc_bits in E. cbn [option_map] in E.
        rewrite B in E. discriminate. }
    destruct (C47_mean srv w content tr w2 T) as (os' & Sc' & E').
    rewrite E' in E. injection E as E1 E2 E3 _. clear B os Sc E'.
    assert (Hn : tr <> []).
    { intros ->. apply C47_symbols in T. cbn in T.
      destruct (text_lines content) as [|l ls]; [contradiction|].
      cbn in T. destruct (chars l); discriminate. }
    assert (Hr : forall s r, In (s, r) tr -> forall p : R, In p (msg_probs r) -> 0 <= p <= 1).
    { assert (Ln : forall w st r ss tr w', line_scored unicode srv w st r ss tr w' ->
        (forall p : R, In p (msg_probs r) -> 0 <= p <= 1) ->
        forall s r', In (s, r') tr -> forall p : R, In p (msg_probs r') -> 0 <= p <= 1).
      { induction 1 as [|w0 st r s ss st' r' w1 tr0 w'' Mv L IH]; intros Hp s0 r0; [intros []|].
        intros [H|H].
        - injection H as <- <-. exact Hp.
        - eapply IH; [|exact H]. destruct Mv as (a & M & _). exact (P2 _ _ _ _ _ _ M). }
      induction T as [|w0 l ls r w1 tr1 w3 tr' w4 E Wf Np L T IH]; intros s r0; [intros []|].
      intro H. apply in_app_or in H. destruct H as [H|H].
      - eapply Ln; [exact L|exact (P1 _ _ _ _ _ E)|exact H].
      - revert s r0 H. 
        assert (G : forall s r0, In (s, r0) tr' -> forall p : R, In p (msg_probs r0) -> 0 <= p <= 1).
        { clear -T P1 P2 Ln. induction T as [|w0 l ls r w1 tr1 w3 tr' w4 E Wf Np L T IH];
            intros s r0; [intros []|]. intro H. apply in_app_or in H. destruct H as [H|H].
          - eapply Ln; [exact L|exact (P1 _ _ _ _ _ E)|exact H].
          - exact (IH s r0 H). }
        exact G. }
    assert (Lo : length tr = length os') by (eapply Forall2_length; exact Sc').
    assert (Hb : forall o, In o os' -> 0 < code_length o <= log2 (143859 / kMixEpsilon)).
    { intros o Ho. apply code_length_bounds. intros p ->.
      assert (X : exists e, In e tr /\ scored e (Some p)).
      { clear -Sc' Ho. induction Sc' as [|e o tr os S _ IH]; [contradiction|].
        destruct Ho as [->|Ho]; [exists e; split; [left|]; auto|].
        destruct (IH Ho) as (e' & A & B). exists e'. split; [right|]; auto. }
      destruct X as ([s r] & He & [Ho' _]). apply (Hr s r He).
      cbn in Ho'. unfold offers in Ho'. cbn in Ho'. apply in_combine_l in Ho'. exact Ho'. }
    assert (Hs : os' <> [] -> 0 < sum (map code_length os')
                 <= INR (length os') * log2 (143859 / kMixEpsilon)).
    { clear -Hb. induction os' as [|o os' IH]; [contradiction|]. intros _.
      destruct os' as [|o2 os'].
      - cbn. pose proof (Hb o (or_introl eq_refl)). lra.
      - assert (I : 0 < sum (map code_length (o2 :: os'))
                 <= INR (length (o2 :: os')) * log2 (143859 / kMixEpsilon)).
        { apply IH; [intros x Hx; apply Hb; right; exact Hx|discriminate]. }
        pose proof (Hb o (or_introl eq_refl)) as J.
        set (ys := o2 :: os') in *. cbn [map sum fold_right length].
        fold (sum (map code_length ys)). rewrite S_INR. lra. }
    destruct tr as [|e tr]; [contradiction|].
    split; [rewrite <- E1; cbn; lia|]. split.
    { rewrite <- E1, <- E2, Lo. unfold oov.
      assert (length (filter (fun o : option R => match o with None => true | _ => false end) os')
              <= length os')%nat.
      { clear. induction os' as [|o os IH]; cbn; [lia|]. destruct o; cbn; lia. }
      lia. }
    assert (Ip : 0 < INR (length (e :: tr))) by (apply lt_0_INR; cbn; lia).
    destruct Hs as [H1 H2].
    { intros ->. cbn in Lo. lia. }
    eexists. split; [symmetry; exact E3|]. rewrite <- Lo in H2. split.
    - unfold Rdiv. apply Rmult_lt_0_compat; [exact H1|apply Rinv_0_lt_compat; exact Ip].
    - apply (Rmult_le_reg_l (INR (length (e :: tr)))); [exact Ip|].
      replace (INR (length (e :: tr)) * (sum (map code_length os') / INR (length (e :: tr))))
        with (sum (map code_length os')) by (field; lra).
      exact H2.
  Qed.

  (** "Finite for every text" fails for a file without lines: 0.0 / 0.0. *)
  Theorem C47_empty_text_refuted : forall (srv : server R_field W) w,
    calc (Some srv) w (Some []) = (Ok (0%Z, 0%Z, None), w).
  Proof. intros. reflexivity. Qed.
End C47.

(** A concrete run: the text "a" (one line) with a server that offers "a" and the end of
    string with probability one half each. *)
Definition ex_reply : scores_msg R_field :=
  mk_scores [(1/2 : car R_field); (1/2 : car R_field)] ["a"; ""]%string (1 : car R_field).
Definition ex_srv3 : server R_field nat := mk_server
  (fun w _ _ => (Some ex_reply, S w))
  (fun w _ _ => (Some 1%Z, S w))
  (fun w _ _ _ => (Some ex_reply, S w)).
Definition ex_chars (s : string) : list string :=
  map (fun c => String c EmptyString) (list_ascii_of_string s).
Example C47_example :
  exists os, calc_bits_per_character sort_desc (fun _ => [97%Z]) ex_chars (Some ex_srv3) 0%nat
    (Some (bstr "a")) =
  (Ok (2%Z, 0%Z, Some (sum (map code_length os) / INR 2)), 5%nat) /\ os = [Some (1/2); Some (1/2)].
Proof.
  assert (T : text_scored (fun _ => [97%Z]) ex_chars ex_srv3 0%nat (text_lines (bstr "a"))
                [("a"%string, ex_reply); (""%string, ex_reply)] 5%nat).
  { change (text_lines (bstr "a")) with ["a"%string].
    change [("a"%string, ex_reply); (""%string, ex_reply)]
      with ([("a"%string, ex_reply); (""%string, ex_reply)] ++ [])%list.
    apply (ts_cons _ _ _ _ _ _ ex_reply 1%nat _ 5%nat).
    - reflexivity.
    - split; [reflexivity|discriminate].
    - cbn. lra.
    - apply (ls_cons _ _ _ _ _ _ _ 1%Z ex_reply 3%nat).
      + exists 2%nat. repeat split; discriminate.
      + apply (ls_cons _ _ _ _ _ _ _ 1%Z ex_reply 5%nat); [|constructor].
        exists 4%nat. repeat split; discriminate.
    - constructor. }
  destruct (C47_mean sort_desc sort_desc_spec (fun _ => [97%Z]) ex_chars ex_srv3 _ _ _ _ T)
    as (os & Sc & E).
  assert (O : os = [Some (1/2); Some (1/2)]).
  { inversion Sc as [|? o ? os1 S1 Sc1]; subst. inversion Sc1 as [|? o2 ? os2 S2 Sc2]; subst.
    inversion Sc2; subst. f_equal; [|f_equal].
    - destruct o as [p|]; cbn in S1.
      + f_equal. destruct S1 as [[S1|[S1|[]]] _]; [injection S1 as <-|discriminate]. reflexivity.
      + exfalso. apply (S1 (1/2)). left. reflexivity.
    - destruct o2 as [p|]; cbn in S2.
      + f_equal. destruct S2 as [[S2|[S2|[]]] _]; [discriminate|injection S2 as <-]. reflexivity.
      + exfalso. apply (S2 (1/2)). right. left. reflexivity. }
  exists os. split; [|exact O]. rewrite E. rewrite O at 1. reflexivity.
Qed.
Print Assumptions C47_mean.
Print Assumptions C47_symbols.
Print Assumptions C47_errors.
Print Assumptions C47_finite.
Print Assumptions C47_empty_text_refuted.
