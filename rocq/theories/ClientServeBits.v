(** Bits per character with a server that keeps answering. *)
From Coq Require Import Reals Lra String.
From Verif Require Import Base Field FieldR LmModel LmProofs ServerModel TextModel ClientModel
  ClientSpec ClientProofs ClientBits ClientProps2 ClientServe.
Close Scope string_scope.
Local Notation length := List.length.
Local Open Scope R_scope.

Section ServeBits.
  Context {W : Type}.
  Variable srv : server R_field W.
  Variable unicode : string -> list Z.
  Variable chars : string -> list string.
  Variable m : nat.
  Variable Room : nat -> W -> Z -> Prop.
  Hypothesis S : serves srv unicode m Room.
  Variable sort : list (car R_field * string) -> list (car R_field * string).
  Hypothesis Hsort : sort_spec sort.
  Hypothesis U : forall s, (length (unicode s) <= String.length s)%nat.

  (** The characters sent for some symbols. *)
  Definition sent (ss : list string) : nat := fold_right (fun s a => (length (unicode s) + a)%nat) 0%nat ss.
  Lemma sent_app a b : sent (a ++ b) = (sent a + sent b)%nat.
  Proof. unfold sent. induction a as [|x a IH]; cbn [app fold_right]; lia. Qed.

  Lemma line_succeeds : forall ss n w st r, Room n w st -> fine_reply m r -> (sent ss <= n)%nat ->
    exists tr w' st', line_scored unicode srv w st r ss tr w' /\ Forall (fun e => fine_reply m (snd e)) tr /\ Room (n - sent ss)%nat w' st'.
  Proof.
    induction ss as [|s ss IH]; intros n w st r Rm Fr Hn.
    - exists [], w, st. split; [constructor|]. split; [constructor|]. cbn. rewrite Nat.sub_0_r. auto.
    - cbn [sent fold_right] in Hn. fold (sent ss) in Hn.
      destruct (sv_moves _ _ _ _ S n w st s Rm) as (st1 & r1 & w1 & Mv & Fr1 & Rm1); [lia|].
      destruct (IH _ w1 st1 r1 Rm1 Fr1) as (tr & w2 & st2 & L & Fa & Rm2); [lia|].
      exists ((s, r) :: tr), w2, st2. split; [econstructor; eauto|]. split; [constructor; auto|].
      cbn [sent fold_right]. fold (sent ss). replace (n - (length (unicode s) + sent ss))%nat with (n - length (unicode s) - sent ss)%nat by lia. auto.
  Qed.

  Lemma text_succeeds : forall ls n w st, Room n w st -> (sent (flat_map chars ls) <= n)%nat ->
    exists tr w', text_scored unicode chars srv w ls tr w' /\ Forall (fun e => fine_reply m (snd e)) tr.
  Proof.
    assert (U0 : length (unicode ""%string) = 0%nat) by (pose proof (U ""%string) as H; cbn in H; lia).
    induction ls as [|l ls IH]; intros n w st Rm Hn.
    - exists [], w. split; constructor.
    - cbn [flat_map] in Hn. rewrite sent_app in Hn. apply (sv_restart _ _ _ _ S) in Rm.
      destruct (sv_scores _ _ _ _ S _ _ _ Rm) as (r & w1 & E1 & Fr & Rm1).
      assert (Se : sent (chars l ++ [""%string]) = sent (chars l)) by (rewrite sent_app; cbn; lia).
      destruct (line_succeeds (chars l ++ [""%string])%list n w1 0%Z r Rm1 Fr) as (tr & w2 & st2 & L & Fa & Rm2); [lia|].
      destruct (IH _ w2 st2 Rm2) as (tr' & w3 & T & Fa'); [lia|].
      exists (tr ++ tr')%list, w3. split; [|apply Forall_app; auto].
      econstructor; eauto; [apply (fr_form Fr)|]. apply flt_R. apply (fr_norm Fr).
  Qed.

  Lemma mean_bounds (B : R) os : os <> [] -> (forall o, In o os -> 0 < code_length o <= B) ->
    0 < sum (map code_length os) / INR (length os) <= B.
  Proof.
    intros Hn Hb.
    assert (Hs : 0 < sum (map code_length os) <= INR (length os) * B).
    { clear - Hn Hb. induction os as [|o os IH]; [contradiction|]. pose proof (Hb o (or_introl eq_refl)) as J.
      destruct os as [|o2 os]; [cbn; lra|].
      assert (I : 0 < sum (map code_length (o2 :: os)) <= INR (length (o2 :: os)) * B).
      { apply IH; [discriminate|intros x Hx; apply Hb; right; exact Hx]. }
      set (ys := o2 :: os) in *. cbn [map sum fold_right length]. fold (sum (map code_length ys)). rewrite S_INR. lra. }
    assert (Ip : 0 < INR (length os)) by (destruct os; [contradiction|]; apply lt_0_INR; cbn; lia).
    split.
    - unfold Rdiv. apply Rmult_lt_0_compat; [apply Hs|apply Rinv_0_lt_compat; exact Ip].
    - apply (Rmult_le_reg_l (INR (length os))); [exact Ip|].
      replace (INR (length os) * (sum (map code_length os) / INR (length os))) with (sum (map code_length os)) by (field; lra). apply Hs.
  Qed.

  (** For a text with room for its characters: a number of bits per character, with the totals. *)
  Lemma bits_succeed w st content n : Room n w st -> (sent (flat_map chars (text_lines content)) <= n)%nat ->
    exists tr os w', text_scored unicode chars srv w (text_lines content) tr w' /\
      Forall (fun e => fine_reply m (snd e)) tr /\ Forall2 scored tr os /\
      calc_bits_per_character sort unicode chars (Some srv) w (Some content) =
        (Ok (Z.of_nat (length tr), Z.of_nat (oov os), match tr with [] => None | _ => Some (sum (map code_length os) / INR (length tr)) end), w') /\
      (tr <> [] -> 0 < sum (map code_length os) / INR (length tr) <= log2 (143859 / kMixEpsilon)).
  Proof.
    intros Rm Hn. destruct (text_succeeds _ n w st Rm Hn) as (tr & w' & T & Fa).
    destruct (C47_mean sort Hsort unicode chars srv w content tr w' T) as (os & Sc & E).
    exists tr, os, w'. split; [auto|]. split; [auto|]. split; [auto|]. split; [exact E|].
    assert (L : length tr = length os) by (eapply Forall2_length; exact Sc). rewrite L. intros Ht.
    apply mean_bounds; [intros ->; destruct tr; [contradiction|discriminate L]|].
    intros o Ho. apply code_length_bounds. intros p ->.
    assert (X : exists e, In e tr /\ scored e (Some p)).
    { clear - Sc Ho. induction Sc as [|e o tr os S _ IH]; [contradiction|].
      destruct Ho as [->|Ho]; [exists e; split; [left|]; auto|].
      destruct (IH Ho) as (e' & A & B). exists e'. split; [right|]; auto. }
    destruct X as ([s r] & He & [Ho' _]). cbn in Ho'. unfold offers in Ho'. apply in_combine_l in Ho'.
    rewrite Forall_forall in Fa. specialize (Fa _ He). cbn in Fa. split.
    - apply fle_R. apply (fr_nonneg Fa). exact Ho'.
    - apply fle_R. pose proof (fr_one Fa) as Fo. change (@f1 R_field) with 1 in Fo. rewrite <- Fo. apply fsum_ge_elem; auto. apply (fr_nonneg Fa).
  Qed.
End ServeBits.
