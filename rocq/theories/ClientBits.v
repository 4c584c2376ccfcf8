(** C47: bits per character, over the real numbers. *)
From Coq Require Import Reals Lra String.
From Verif Require Import Base Field FieldR LmModel LmProofs ServerModel TextModel ClientModel
  ClientSpec ClientProofs.
Local Open Scope R_scope.

(** client_helper.cc:46: 0.00000001 rounded to float. *)
Definition kMixEpsilon : R := 11258999 / 2 ^ 50.
Definition log2 (x : R) : R := ln x / ln 2.

(** client_helper.cc:242-285 with the file contents; the quotient of line 283 ([None] is the
    NaN of 0.0 / 0.0).  The lines are those std::getline yields. *)
Definition bits_per_char (t : totals R) : option R :=
  if (tot_chars t =? 0)%Z then None else Some (tot_bits t / IZR (tot_chars t)).
Definition text_lines (content : bytes) : list string :=
  map string_of_list_ascii (getlines content).

Section C47.
  Context {W : Type}.
  Variable sort : list (car R_field * string) -> list (car R_field * string).
  Hypothesis Hsort : sort_spec sort.
  Variable unicode : string -> list Z.
  Variable chars : string -> list string.
  Variable srv : server R_field W.

  Definition calc_bits_per_character (c : option (server R_field W)) (w : W)
    (file : option bytes) : outcome (Z * Z * option R) * W :=
    match calc_bits sort unicode chars (fun p : car R_field => - log2 p) Rplus
            (kMixEpsilon : car R_field) 0 c w (option_map text_lines file) with
    | (Ok t, w') => (Ok (tot_chars t, tot_oov t, bits_per_char t), w')
    | (Err, w') => (Err, w')
    | (Crash, w') => (Crash, w')
    | (UB, w') => (UB, w')
    end.

  (** *** Specification *)

  (** Reading the symbols [ss] of a line from world [w], state [st] with reply [r]: each
      symbol together with the reply that was current when it was read, then learned once. *)
  Inductive line_scored : W -> Z -> scores_msg R_field -> list string ->
                          list (string * scores_msg R_field) -> W -> Prop :=
  | ls_nil w st r : line_scored w st r [] [] w
  | ls_cons w st r s ss st' r' w1 tr w' :
      moves srv unicode w st s st' r' w1 -> line_scored w1 st' r' ss tr w' ->
      line_scored w st r (s :: ss) ((s, r) :: tr) w'.

  (** A text: every line starts in state 0 and ends with the empty symbol. *)
  Inductive text_scored : W -> list string -> list (string * scores_msg R_field) -> W -> Prop :=
  | ts_nil w : text_scored w [] [] w
  | ts_cons w l ls r w1 tr w2 tr' w3 :
      rpc_scores srv w "" 0 = (Some r, w1) -> well_formed r -> 0 < msg_norm r ->
      line_scored w1 0 r (chars l ++ [""%string])%list tr w2 ->
      text_scored w2 ls tr' w3 ->
      text_scored w (l :: ls) (tr ++ tr')%list w3.

  (** The probability reply [r] gives to symbol [s] (the largest, if it is listed twice). *)
  Definition offers (r : scores_msg R_field) (s : string) (p : R) : Prop :=
    In ((p : car R_field), s) (combine (msg_probs r) (msg_symbols r)).
  Definition scored (e : string * scores_msg R_field) (o : option R) : Prop :=
    match o with
    | Some p => offers (snd e) (fst e) p /\ forall p', offers (snd e) (fst e) p' -> p' <= p
    | None => forall p, ~ offers (snd e) (fst e) p
    end.
  (** Its code length: minus log2 of (1 - eps) p + eps / 143859. *)
  Definition code_length (o : option R) : R :=
    - log2 ((1 - kMixEpsilon) * (match o with Some p => p | None => 0 end)
            + kMixEpsilon / 143859).
  Definition sum (l : list R) : R := fold_right Rplus 0 l.
  Definition oov (l : list (option R)) : nat :=
    length (filter (fun o => match o with None => true | _ => false end) l).

  (** *** Proofs *)

  Lemma find_string_spec (l : list (car R_field * string)) s :
    match find_string l s with
    | Some i => exists p, nth_error l i = Some (p, s) /\
                  forall j p', nth_error l j = Some (p', s) -> (i <= j)%nat
    | None => forall p, ~ In (p, s) l
    end.
  Proof.
    induction l as [|[x y] l IH]; cbn [find_string]; [intros p []|].
    destruct (String.eqb_spec s y) as [->|N].
    - exists x. split; [reflexivity|]. intros. lia.
    - destruct (find_string l s) as [i|]; cbn [option_map].
      + destruct IH as (p & E & M). exists p. split; [exact E|].
        intros [|j] p' E'; [injection E' as _ E'; congruence|].
        specialize (M j p' E'). lia.
      + intros p [E|E]; [congruence|]. apply (IH p E).
  Qed.

  Lemma sorted_nth (l : list (car R_field * string)) :
    StronglySorted (fun a b => @fle R_field (fst b) (fst a) = true) l ->
    forall i j a b, nth_error l i = Some a -> nth_error l j = Some b -> (i <= j)%nat ->
    (fst b : R) <= (fst a : R).
  Proof.
    induction 1 as [|z l S IH A]; intros [|i] [|j] a b E1 E2 L; try discriminate; try lia.
    - injection E1 as <-. injection E2 as <-. apply Rle_refl.
    - injection E1 as <-. cbn in E2. apply nth_error_In in E2.
      rewrite Forall_forall in A. apply fle_R. apply A. exact E2.
    - cbn in *. eapply IH; eauto. lia.
  Qed.

  Lemma score_one r s : well_formed r ->
    exists o, scored (s, r) o /\
      match find_string (rank_by sort r) s with None => o = None | Some _ => o <> None end /\
      exists p, mixed_prob (F := R_field) kMixEpsilon (find_string (rank_by sort r) s)
                  (rank_by sort r) = Ok p /\
                - log2 p = code_length o.
  Proof.
    intro Wf. destruct (rank_by_ranking sort Hsort r Wf) as (_ & P & S).
    assert (U : @uniform_mix R_field kMixEpsilon = kMixEpsilon / 143859).
    { unfold uniform_mix. rewrite ofZ_R. reflexivity. }
    pose proof (find_string_spec (rank_by sort r) s) as Fs.
    destruct (find_string (rank_by sort r) s) as [i|].
    - destruct Fs as (p & E & M). exists (Some p). split; [|split; [discriminate|]].
      + split.
        * unfold offers. cbn. eapply Permutation_in; [apply Permutation_sym; exact P|].
          eapply nth_error_In; exact E.
        * intros p' H. unfold offers in H. cbn in H. apply (Permutation_in _ P) in H.
          apply In_nth_error in H. destruct H as [j H].
          pose proof (M _ _ H) as L.
          exact (sorted_nth _ S i j _ _ E H L).
      + unfold mixed_prob, vget. rewrite E. cbn [bind]. eexists; split; [reflexivity|].
        unfold code_length. rewrite U. do 2 f_equal. cbn. ring.
    - exists None. split; [|split; [reflexivity|]].
      + intros p H. cbn in H. unfold offers in H. cbn in H. apply (Permutation_in _ P) in H.
        exact (Fs p H).
      + cbn [mixed_prob]. eexists; split; [reflexivity|]. unfold code_length. rewrite U.
        do 2 f_equal. ring.
  Qed.

  Local Notation bline := (bits_line sort unicode (fun p : car R_field => - log2 p) Rplus
            (kMixEpsilon : car R_field) (Some srv)).
  Local Notation blines := (bits_lines sort unicode chars (fun p : car R_field => - log2 p) Rplus
            (kMixEpsilon : car R_field) (Some srv)).

  Definition add_totals (t : totals R) (os : list (option R)) : totals R :=
    mk_totals (tot_chars t + Z.of_nat (length os)) (tot_oov t + Z.of_nat (oov os))
      (tot_bits t + sum (map code_length os)).

  Lemma totals_eq (a b : totals R) : tot_chars a = tot_chars b -> tot_oov a = tot_oov b ->
    tot_bits a = tot_bits b -> a = b.
  Proof. destruct a, b; cbn; intros -> -> ->. reflexivity. Qed.

  Lemma bits_line_spec : forall ss w st r t, well_formed r ->
    (exists tr os w', line_scored w st r ss tr w' /\ Forall2 scored tr os /\
       bline w st (rank_by sort r) ss t = (Ok (add_totals t os), w')) \/
    ((forall tr w', ~ line_scored w st r ss tr w') /\
     exists w', bline w st (rank_by sort r) ss t = (Err, w')).
  Proof.
    induction ss as [|s ss IH]; intros w st r t Wf.
    - left. exists [], [], w. split; [constructor|]. split; [constructor|].
      cbn [bits_line]. do 2 f_equal. apply totals_eq; cbn; try lia; lra.
    - destruct (score_one r s Wf) as (o & So & Oo & p & Ep & Cp).
      cbn [bits_line]. rewrite Ep.
      destruct (helper_update_cases sort unicode srv w s st)
        as [(st' & n & r' & w1 & Mv & E & _)|(w1 & Fl & E)].
      + rewrite E. assert (Wf' : well_formed r') by (destruct Mv as (? & _ & H & _); exact H).
        set (t' := mk_totals _ _ _).
        destruct (IH w1 st' r' t' Wf') as [(tr & os & w' & L & Sc & B)|(N & w' & B)].
        * left. exists ((s, r) :: tr), (o :: os), w'.
          split; [econstructor; eauto|]. split; [constructor; auto|].
          rewrite B. do 2 f_equal. apply totals_eq; cbn [add_totals t' tot_chars tot_oov tot_bits].
          -- cbn [length]. lia.
          -- unfold oov. cbn [filter].
             destruct (find_string (rank_by sort r) s); destruct o; try congruence;
               cbn [length]; lia.
          -- cbn [map sum fold_right]. fold (sum (map code_length os)). rewrite <- Cp. lra.
        * right. split; [|exists w'; exact B].
          intros tr w'' L. inversion L as [|? ? ? ? ? st2 r2 w2 tr2 ? Mv2 L2]; subst.
          destruct Mv as (a & M1 & _ & M2), Mv2 as (b & M3 & _ & M4).
          rewrite M1 in M3. injection M3 as <- <-. rewrite M2 in M4. injection M4 as <- <-.
          exact (N _ _ L2).
      + right. split; [|exists w1; rewrite E; reflexivity].
        intros tr w'' L. inversion L as [|? ? ? ? ? st2 r2 w2 tr2 ? Mv2 L2]; subst.
        destruct Mv2 as (b & M3 & Wf2 & M4).
        destruct Fl as [H|[(r'' & H & H')|(r'' & w1' & H & _ & H')]]; rewrite M3 in H;
          try discriminate; injection H as -> ->; [contradiction|congruence].
  Qed.

  Lemma text_scored_det : forall w ls tr w', text_scored w ls tr w' ->
    forall tr2 w2, text_scored w ls tr2 w2 -> tr = tr2 /\ w' = w2.
  Proof.
    assert (D : forall w st r ss tr w', line_scored w st r ss tr w' ->
      forall tr2 w2, line_scored w st r ss tr2 w2 -> tr = tr2 /\ w' = w2).
    { induction 1 as [|w st r s ss st' r' w1 tr w' Mv L IH]; intros tr2 w2 H;
        inversion H as [|? ? ? ? ? st2 r2 w3 tr3 ? Mv2 L2]; subst; [auto|].
      destruct Mv as (a & M1 & _ & M2), Mv2 as (b & M3 & _ & M4).
      rewrite M1 in M3. injection M3 as <- <-. rewrite M2 in M4. injection M4 as <- <-.
      destruct (IH _ _ L2) as [-> ->]. auto. }
    induction 1 as [|w l ls r w1 tr w2 tr' w3 E Wf Np L T IH]; intros tr2 w4 H;
      inversion H as [|? ? ? r2 w12 trb w22 tr'' ? E2 Wf2 Np2 L2 T2]; subst; [auto|].
    rewrite E in E2. injection E2 as <- <-.
    destruct (D _ _ _ _ _ _ L _ _ L2) as [-> ->].
    destruct (IH _ _ T2) as [-> ->]. auto.
  Qed.

  Lemma bits_lines_spec : forall ls w t,
    (exists tr os w', text_scored w ls tr w' /\ Forall2 scored tr os /\
       blines w ls t = (Ok (add_totals t os), w')) \/
    ((forall tr w', ~ text_scored w ls tr w') /\ exists w', blines w ls t = (Err, w')).
  Proof.
    induction ls as [|l ls IH]; intros w t.
    - left. exists [], [], w. split; [constructor|]. split; [constructor|].
      cbn [bits_lines]. do 2 f_equal. apply totals_eq; cbn; try lia; lra.
    - cbn [bits_lines].
      destruct (helper_scores_cases sort srv w "" 0) as [(r & w1 & E & Wf & Np & H)|(w1 & H & B)];
        change (to_int 0) with 0%Z in *; rewrite H.
      + destruct (bits_line_spec (chars l ++ [""%string])%list w1 0 r t Wf)
          as [(tr & os & w2 & L & Sc & B)|(N & w2 & B)]; rewrite B.
        * destruct (IH w2 (add_totals t os)) as [(tr' & os' & w3 & T & Sc' & B')|(N & w3 & B')];
            rewrite B'.
          -- left. exists (tr ++ tr')%list, (os ++ os')%list, w3.
             split; [refine (ts_cons _ _ _ _ _ _ _ _ _ E Wf (proj1 (flt_R _ _) Np) L T)|].
             split; [apply Forall2_app; assumption|].
             do 2 f_equal. apply totals_eq; cbn [add_totals tot_chars tot_oov tot_bits].
             ++ rewrite app_length. lia.
             ++ unfold oov. rewrite filter_app, app_length. lia.
             ++ rewrite map_app. unfold sum. rewrite fold_right_app.
                assert (G : forall a b, fold_right Rplus b a = fold_right Rplus 0 a + b).
                { induction a as [|x a IHa]; intro b; cbn; [lra|rewrite IHa; lra]. }
                rewrite (G _ (fold_right _ _ _)). lra.
          -- right. split; [|exists w3; reflexivity].
             intros tr2 w4 H2. inversion H2 as [|? ? ? r2 w12 trb w22 tr'' ? E2 Wf2 Np2 L2 T2]; subst.
             rewrite E in E2. injection E2 as <- <-.
             assert (X : tr = trb /\ w2 = w22).
             { assert (T1 : text_scored w [l] (tr ++ [])%list w2).
               { refine (ts_cons _ _ _ _ _ _ _ _ _ E Wf (proj1 (flt_R _ _) Np) L (ts_nil _)). }
               assert (T1' : text_scored w [l] (trb ++ [])%list w22).
               { refine (ts_cons _ _ _ _ _ _ _ _ _ E Wf2 Np2 L2 (ts_nil _)). }
               destruct (text_scored_det _ _ _ _ T1 _ _ T1') as [X Y].
               rewrite !app_nil_r in X. auto. }
             destruct X as [-> ->]. exact (N _ _ T2).
        * right. split; [|exists w2; reflexivity].
          intros tr2 w4 H2. inversion H2 as [|? ? ? r2 w12 trb w22 tr'' ? E2 Wf2 Np2 L2 T2]; subst.
          rewrite E in E2. injection E2 as <- <-. exact (N _ _ L2).
      + right. split; [|exists w1; reflexivity].
        intros tr2 w4 H2. inversion H2 as [|? ? ? r2 w12 trb w22 tr'' ? E2 Wf2 Np2 L2 T2]; subst.
        destruct B as [B|(r & B & C)]; rewrite E2 in B; [discriminate|].
        injection B as -> ->. destruct C as [C|C]; [contradiction|].
        apply fle_R in C. cbn in C, Np2. lra.
  Qed.

  Lemma eps_bounds : 0 < kMixEpsilon < 1.
  Proof. unfold kMixEpsilon. split; lra. Qed.

  Lemma log2_mono x y : 0 < x -> x <= y -> log2 x <= log2 y.
  Proof.
    intros Hx H. unfold log2, Rdiv. apply Rmult_le_compat_r.
    - left. apply Rinv_0_lt_compat. rewrite <- ln_1. apply ln_increasing; lra.
    - destruct H as [H|H]; [left; apply ln_increasing; lra|right; congruence].
  Qed.
  Lemma log2_neg x : 0 < x < 1 -> log2 x < 0.
  Proof.
    intros H. unfold log2, Rdiv.
    assert (L : 0 < / ln 2).
    { apply Rinv_0_lt_compat. rewrite <- ln_1. apply ln_increasing; lra. }
    assert (N : ln x < 0) by (rewrite <- ln_1; apply ln_increasing; lra).
    pose proof (Rmult_lt_compat_r _ _ _ L N) as G. rewrite Rmult_0_l in G. exact G.
  Qed.
  Lemma log2_inv x : 0 < x -> - log2 x = log2 (/ x).
  Proof. intro H. unfold log2. rewrite ln_Rinv by exact H. lra. Qed.

  Lemma code_length_bounds o : (forall p, o = Some p -> 0 <= p <= 1) ->
    0 < code_length o <= log2 (143859 / kMixEpsilon).
  Proof.
    intro H. pose proof eps_bounds as B. unfold code_length.
    set (p := match o with Some p => p | None => 0 end).
    assert (Hp : 0 <= p <= 1).
    { unfold p. destruct o as [p'|]; [apply H; reflexivity|lra]. }
    clearbody p. clear H.
    assert (M : 0 <= (1 - kMixEpsilon) * p <= 1 - kMixEpsilon).
    { split; [apply Rmult_le_pos; lra|].
      replace (1 - kMixEpsilon) with ((1 - kMixEpsilon) * 1) at 2 by ring.
      apply Rmult_le_compat_l; lra. }
    assert (Q : 0 < kMixEpsilon / 143859 < kMixEpsilon) by lra.
    split.
    - enough (log2 ((1 - kMixEpsilon) * p + kMixEpsilon / 143859) < 0) by lra.
      apply log2_neg. lra.
    - replace (143859 / kMixEpsilon) with (/ (kMixEpsilon / 143859)).
      2:{ field. lra. }
      rewrite <- log2_inv by lra.
      apply Ropp_le_contravar. apply log2_mono; lra.
  Qed.
End C47.
