From Coq Require Import ZArith Reals Lra Lia.
From Verif Require Import Base Field FieldR LmModel HubModel PpmModel NgramModel LogModel LogProps RoundModel RoundSpec
  RoundProofs NgramRoundModel NgramRoundSpec.
Local Open Scope R_scope.

Lemma f2_length {A C : Type} (P : A -> C -> Prop) l k : Forall2 P l k -> length l = length k.
Proof. induction 1 as [|x y l k H1 H2 IH]; [reflexivity|]. cbn [length]. rewrite IH. reflexivity. Qed.

Lemma f2_vgetZ {A C : Type} (P : A -> C -> Prop) l k : Forall2 P l k -> forall s y, vgetZ k s = Ok y ->
  exists x, vgetZ l s = Ok x /\ P x y.
Proof.
  intros H s y. unfold vgetZ. destruct (_ <? _)%Z; [discriminate|]. unfold vget. generalize (Z.to_nat s) as i.
  induction H as [|c t cs ts H1 H2 IH]; intros i; [destruct i; discriminate|].
  destruct i as [|i]; cbn [nth_error]; [|apply IH]. intro X. injection X as <-. exists c. split; [reflexivity | exact H1].
Qed.

Section Costs.
  Variable plus : R -> R -> R.
  Variables u B d G : R.
  Hypothesis Hp : plus_accurate u B plus.
  Hypothesis Hu : 0 <= u.
  Hypothesis Hd : 0 <= d.
  Hypothesis HG : 0 <= G.

  Lemma sf_times d1 d2 L1 L2 a b p q : stands_for d1 a p -> stands_for d2 b q -> sized L1 p -> sized L2 q ->
    0 <= d1 <= 1 -> 0 <= d2 <= 1 -> L1 + 1 <= B -> L2 + 1 <= B ->
    stands_for (d1 + d2 + u) (f_times plus a b) (p * q).
  Proof.
    intros Ha Hb Sp Sq D1 D2 HB1 HB2.
    destruct a as [x| | |], b as [y| | |]; try contradiction.
    - pose proof (sf_range _ _ _ _ Ha Sp ltac:(lra)) as Rx.
      pose proof (sf_range _ _ _ _ Hb Sq ltac:(lra)) as Ry.
      pose proof (Hp x y ltac:(lra) ltac:(lra)) as E.
      cbn [f_times]. apply sf_fin in Ha. apply sf_fin in Hb. destruct Ha as [Pp Ca], Hb as [Pq Cb].
      apply sf_fin. split; [apply Rmult_lt_0_compat; assumption|]. rewrite ln_mult by assumption.
      apply Rabs_range in E. apply Rabs_range in Ca. apply Rabs_range in Cb. apply Rabs_le. lra.
    - cbn [stands_for f_times cadd] in *. subst q. ring.
    - cbn [stands_for f_times cadd] in *. subst p. ring.
    - cbn [stands_for f_times cadd] in *. subst p. ring.
  Qed.

  Lemma sized_mult L1 L2 p q : sized L1 p -> sized L2 q -> sized (L1 + L2) (p * q).
  Proof.
    intros [->|H1]; [left; ring|]. intros [->|H2]; [left; ring|]. right.
    pose proof (exp_pos (- L1)). pose proof (exp_pos (- L2)).
    replace (- (L1 + L2)) with (- L1 + - L2) by ring. rewrite !exp_plus.
    split; apply Rmult_le_compat; lra.
  Qed.

  Lemma sized_mono L1 L2 p : L1 <= L2 -> sized L1 p -> sized L2 p.
  Proof.
    intros L [H|H]; [left; exact H|]. right. split.
    - eapply Rle_trans; [apply exp_le|apply H]. lra.
    - eapply Rle_trans; [apply H|apply exp_le]. lra.
  Qed.

  (** After k + 1 multiplications. *)
  Let E (k : nat) : R := INR k * (d + u).
  Let Z (k : nat) : R := INR k * G.

  Definition so_far (k : nat) (c : cost) (p : R) : Prop := stands_for (E k) c p /\ sized (Z k) p.

  Lemma E_pos k : 0 <= E k.
  Proof. unfold E. apply Rmult_le_pos; [apply pos_INR | lra]. Qed.
  Lemma Z_pos k : 0 <= Z k.
  Proof. unfold Z. apply Rmult_le_pos; [apply pos_INR | lra]. Qed.
  Lemma E_mono k k' : (k <= k')%nat -> E k <= E k'.
  Proof. intro L. unfold E. apply Rmult_le_compat_r; [lra | apply le_INR; exact L]. Qed.
  Lemma Z_mono k k' : (k <= k')%nat -> Z k <= Z k'.
  Proof. intro L. unfold Z. apply Rmult_le_compat_r; [lra | apply le_INR; exact L]. Qed.

  Lemma so_far_mono k k' c p : (k <= k')%nat -> so_far k c p -> so_far k' c p.
  Proof.
    intros L [H1 H2]. split; [eapply sf_mono; [apply E_mono; exact L | exact H1] | eapply sized_mono; [apply Z_mono; exact L | exact H2]].
  Qed.

  Lemma so_far_one : so_far 0 w_one 1.
  Proof.
    split.
    - apply sf_fin. split; [lra|]. rewrite ln_1, Rplus_0_r, Rabs_R0. apply E_pos.
    - right. unfold Z. cbn [INR]. rewrite Rmult_0_l, Ropp_0, exp_0. lra.
  Qed.

  Lemma so_far_zero k : so_far k w_zero 0.
  Proof. split; [reflexivity | left; reflexivity]. Qed.

  Lemma so_far_times k c p w q : so_far k c p -> weight_for d G w q ->
    E (S k) <= 1 -> Z (S k) + 1 <= B -> so_far (S k) (f_times plus c w) (p * q).
  Proof.
    intros [H1 H2] [W1 W2] HE HB.
    assert (ES : E (S k) = E k + (d + u)) by (unfold E; rewrite S_INR; ring).
    assert (ZS : Z (S k) = Z k + G) by (unfold Z; rewrite S_INR; ring).
    pose proof (E_pos k). pose proof (Z_pos k). split.
    - rewrite ES. replace (E k + (d + u)) with (E k + d + u) by ring.
      apply (sf_times (E k) d (Z k) G); try assumption; lra.
    - rewrite ZS. apply sized_mult; assumption.
  Qed.

  Lemma so_far_times_l k c p w q : so_far k c p -> weight_for d G w q ->
    E (S k) <= 1 -> Z (S k) + 1 <= B -> so_far (S k) (f_times plus w c) (q * p).
  Proof.
    intros [H1 H2] [W1 W2] HE HB.
    assert (ES : E (S k) = E k + (d + u)) by (unfold E; rewrite S_INR; ring).
    assert (ZS : Z (S k) = Z k + G) by (unfold Z; rewrite S_INR; ring).
    pose proof (E_pos k). pose proof (Z_pos k). split.
    - rewrite ES. replace (E k + (d + u)) with (d + E k + u) by ring.
      apply (sf_times d (E k) G (Z k)); try assumption; lra.
    - rewrite ZS, Rplus_comm. apply sized_mult; assumption.
  Qed.

  (** * The automaton *)

  Variable fc : list cstate.
  Variable f : list (@pstate R_field).
  Hypothesis Hf : Forall2 (state_for d G) fc f.
  Variable rank : BinNums.Z -> nat.
  Hypothesis Hr : backs_off_within f rank.

  Lemma fc_length : length fc = length f.
  Proof. exact (f2_length _ _ _ Hf). Qed.

  Lemma get_state s st : vgetZ f s = Ok st -> exists c, vgetZ fc s = Ok c /\ state_for d G c st.
  Proof. exact (f2_vgetZ _ _ _ Hf s st). Qed.

  Lemma find_for (P : BinNums.Z -> BinNums.Z -> bool) cs as_ : Forall2 (arc_for d G) cs as_ ->
    match find (fun a => P (a_label a) (a_next a)) as_ with
    | Some a => exists c, find (fun c => P (ca_label c) (ca_next c)) cs = Some c /\ arc_for d G c a /\ In a as_ /\ P (a_label a) (a_next a) = true
    | None => find (fun c => P (ca_label c) (ca_next c)) cs = None
    end.
  Proof.
    induction 1 as [|c a cs as_ H1 H2 IH]; [reflexivity|]. cbn [find]. destruct H1 as (L & N & W). rewrite L, N.
    destruct (P (a_label a) (a_next a)) eqn:EP.
    - exists c. split; [reflexivity|]. split; [split; auto|]. split; [left; reflexivity | exact EP].
    - destruct (find _ as_) as [a'|]; [|exact IH]. destruct IH as (c' & I1 & I2 & I3 & I4). exists c'. split; [exact I1|].
      split; [exact I2|]. split; [right; exact I3 | exact I4].
  Qed.

  Lemma matcher_for s st c label : state_for d G c st ->
    match matcher_find s st label with
    | Some (_, w) => exists cw, c_matcher_find c label = Some cw /\ weight_for d G cw (w : R)
    | None => c_matcher_find c label = None
    end.
  Proof.
    intros [H1 H2]. unfold matcher_find, c_matcher_find. destruct (Z.eqb_spec label 0).
    - exists w_one. split; [reflexivity|]. split; [|right; change (exp (- G) <= 1 <= exp G)].
      + apply sf_fin. change (0 < 1 /\ Rabs (0 + ln 1) <= d). rewrite ln_1, Rplus_0_r, Rabs_R0. lra.
      + pose proof (exp_ineq1_le G). split; [|lra]. rewrite <- exp_0. apply exp_le. lra.
    - unfold arc_with. pose proof (find_for (fun l _ => (l =? (if label =? -1 then 0 else label))%Z) _ _ H1) as F.
      cbv beta in F. destruct (find _ (ps_arcs st)) as [a|].
      + destruct F as (c' & F1 & F2 & _). rewrite F1. exists (ca_weight c'). split; [reflexivity | apply F2].
      + rewrite F. reflexivity.
  Qed.

  Lemma backoff_for s b g : ng_backoff f s = Ok (b, g) ->
    exists cg, c_backoff fc s = Ok (b, cg) /\ weight_for d G cg (g : R) /\ (b = (-1)%Z \/ (rank b < rank s)%nat).
  Proof.
    assert (One : weight_for d G w_one 1).
    { split; [|right]. - apply sf_fin. rewrite ln_1, Rplus_0_r, Rabs_R0. lra.
      - pose proof (exp_ineq1_le G). split; [|lra]. rewrite <- exp_0. apply exp_le. lra. }
    unfold ng_backoff, c_backoff. destruct (s =? -1)%Z.
    - intro X. injection X as <- <-. exists w_one. split; [reflexivity|]. split; [exact One | left; reflexivity].
    - destruct (vgetZ f s) as [st| | |] eqn:Es; try discriminate. cbn [bind].
      destruct (get_state s st Es) as (c & Ec & Hc). rewrite Ec. cbn [bind].
      pose proof (find_for (fun l n => ((l =? 0) && negb (n =? s))%Z) _ _ (proj1 Hc)) as F. cbv beta in F.
      destruct (find _ (ps_arcs st)) as [a|].
      + intro X. injection X as <- <-. destruct F as (c' & F1 & F2 & F3 & F4). rewrite F1.
        apply andb_prop in F4. destruct F4 as [F4 F5]. apply Z.eqb_eq in F4. apply negb_true_iff, Z.eqb_neq in F5.
        destruct F2 as (_ & N & W). exists (ca_weight c'). rewrite N. split; [reflexivity|]. split; [exact W|]. right.
        apply (Hr s st a); assumption.
      + intro X. injection X as <- <-. rewrite F. exists w_one. split; [reflexivity|]. split; [exact One | left; reflexivity].
  Qed.

  Lemma label_loop_for label : forall fuel (n : ngram R_field) s k acc (p0 p : R), ng_fst n = f -> so_far k acc p0 ->
    E (k + rank s + 1) <= 1 -> Z (k + rank s + 1) + 1 <= B ->
    label_loop fuel n s label p0 = Ok p ->
    exists c, c_label_loop plus fuel fc s label acc = Ok c /\ so_far (k + rank s + 1) c p.
  Proof.
    induction fuel as [|fuel IH]; intros n s k acc p0 p Hn Hs HE HZ; cbn [label_loop c_label_loop].
    - destruct (s <? 0)%Z; [|discriminate]. intro X. injection X as <-. exists w_zero. split; [reflexivity | apply so_far_zero].
    - destruct (s <? 0)%Z eqn:Es.
      + intro X. injection X as <-. exists w_zero. split; [reflexivity | apply so_far_zero].
      + rewrite Hn. destruct (vgetZ f s) as [st| | |] eqn:Est; try discriminate. cbn [bind].
        destruct (get_state s st Est) as (c & Ec & Hc). rewrite Ec. cbn [bind].
        assert (E1 : E (S k) <= 1) by (eapply Rle_trans; [apply (E_mono (S k) (k + rank s + 1)); lia | exact HE]).
        assert (Z1 : Z (S k) + 1 <= B) by (pose proof (Z_mono (S k) (k + rank s + 1) ltac:(lia)); lra).
        pose proof (matcher_for s st c label Hc) as M. destruct (matcher_find s st label) as [[nx w]|].
        * destruct M as (cw & M1 & M2). rewrite M1. intro X. injection X as <-. exists (f_times plus acc cw).
          split; [reflexivity|]. apply (so_far_mono (S k)); [lia|]. exact (so_far_times k acc p0 cw w Hs M2 E1 Z1).
        * rewrite M. destruct (ng_backoff f s) as [[b g]| | |] eqn:Eb; try discriminate. cbn [bind].
          destruct (backoff_for s b g Eb) as (cg & C1 & C2 & C3). rewrite C1. cbn [bind].
          pose proof (so_far_times k acc p0 cg g Hs C2 E1 Z1) as T. intro X.
          destruct C3 as [->|C3].
          -- destruct fuel; cbn [label_loop c_label_loop] in X |- *; injection X as <-; exists w_zero; (split; [reflexivity | apply so_far_zero]).
          -- destruct (IH n b (S k) (f_times plus acc cg) (p0 * (g : R)) p Hn T) as (c' & I1 & I2); try assumption.
             ++ eapply Rle_trans; [apply (E_mono (S k + rank b + 1) (k + rank s + 1)); lia | exact HE].
             ++ pose proof (Z_mono (S k + rank b + 1) (k + rank s + 1) ltac:(lia)). lra.
             ++ exists c'. split; [exact I1|]. apply (so_far_mono (S k + rank b + 1)); [lia | exact I2].
  Qed.

  Lemma zero_for c (p : R) : weight_for d G c p -> is_zero c = @feqb R_field p f0.
  Proof.
    intros [H _]. destruct (@feqb R_field p f0) eqn:X.
    - assert (p = 0) by (apply (@feqb_eq R_field); exact X). subst p. destruct c; try reflexivity; cbn [stands_for] in H; try contradiction.
      destruct H; lra.
    - destruct c; try reflexivity; cbn [stands_for] in H; try contradiction. subst p.
      assert (Y : @feqb R_field 0 f0 = true) by (apply (@feqb_eq R_field); reflexivity). pose proof (eq_trans (eq_sym Y) X) as W. discriminate W.
  Qed.

  Lemma final_loop_for : forall fuel (n : ngram R_field) s k acc (p0 p : R), ng_fst n = f -> so_far k acc p0 ->
    E (k + rank s + 1) <= 1 -> Z (k + rank s + 1) + 1 <= B ->
    final_loop fuel n s p0 = Ok p ->
    exists c, c_final_loop plus fuel fc s acc = Ok c /\ so_far (k + rank s + 1) c p.
  Proof.
    induction fuel as [|fuel IH]; intros n s k acc p0 p Hn Hs HE HZ; cbn [final_loop c_final_loop]; [discriminate|].
    rewrite Hn. destruct (ng_backoff f s) as [[b g]| | |] eqn:Eb; try discriminate. cbn [bind].
    destruct (backoff_for s b g Eb) as (cg & C1 & C2 & C3). rewrite C1. cbn [bind].
    assert (E1 : E (S k) <= 1) by (eapply Rle_trans; [apply (E_mono (S k) (k + rank s + 1)); lia | exact HE]).
    assert (Z1 : Z (S k) + 1 <= B) by (pose proof (Z_mono (S k) (k + rank s + 1) ltac:(lia)); lra).
    pose proof (so_far_times k acc p0 cg g Hs C2 E1 Z1) as T.
    destruct (Z.leb_spec 0 b) as [Hb|Hb].
    2: { intro X. injection X as <-. exists w_zero. split; [reflexivity | apply so_far_zero]. }
    destruct C3 as [->|C3]; [lia|].
    destruct (vgetZ f b) as [st| | |] eqn:Est; try discriminate. cbn [bind].
    destruct (get_state b st Est) as (c & Ec & Hc). rewrite Ec. cbn [bind].
    rewrite (zero_for (cs_final c) (ps_final st) (proj2 Hc)). destruct (feqb (ps_final st) f0).
    - intro X. destruct (IH n b (S k) (f_times plus acc cg) (p0 * (g : R)) p Hn T) as (c' & I1 & I2); try assumption.
      + eapply Rle_trans; [apply (E_mono (S k + rank b + 1) (k + rank s + 1)); lia | exact HE].
      + pose proof (Z_mono (S k + rank b + 1) (k + rank s + 1) ltac:(lia)). lra.
      + exists c'. split; [exact I1|]. apply (so_far_mono (S k + rank b + 1)); [lia | exact I2].
    - intro X. injection X as <-. exists (f_times plus (cs_final c) (f_times plus acc cg)). split; [reflexivity|].
      apply (so_far_mono (S (S k))); [lia|].
      refine (so_far_times_l (S k) _ (p0 * (g : R)) _ (ps_final st) T (proj2 Hc) _ _).
      + eapply Rle_trans; [apply (E_mono (S (S k)) (k + rank s + 1)); lia | exact HE].
      + pose proof (Z_mono (S (S k)) (k + rank s + 1) ltac:(lia)). lra.
  Qed.

  Lemma label_cost_for (n : ngram R_field) s label (p : R) : ng_fst n = f ->
    E (rank s + 1) <= 1 -> Z (rank s + 1) + 1 <= B -> label_cost n s label = Ok p ->
    exists c, c_label_cost plus fc s label = Ok c /\ so_far (rank s + 1) c p.
  Proof.
    intros Hn HE HZ. unfold label_cost, c_label_cost. rewrite Hn. destruct (label =? 0)%Z.
    - unfold final_cost, c_final_cost. rewrite Hn. destruct (vgetZ f s) as [st| | |] eqn:Est; try discriminate. cbn [bind].
      destruct (get_state s st Est) as (c & Ec & Hc). rewrite Ec. cbn [bind].
      rewrite (zero_for (cs_final c) (ps_final st) (proj2 Hc)), fc_length. destruct (feqb (ps_final st) f0).
      + intro X. apply (final_loop_for _ n s 0 w_one 1 p Hn so_far_one); assumption.
      + intro X. injection X as <-. exists (cs_final c). split; [reflexivity|]. apply (so_far_mono 1); [lia|].
        destruct Hc as [_ [W1 W2]]. split.
        * eapply sf_mono; [|exact W1]. unfold E. cbn [INR]. lra.
        * unfold Z. cbn [INR]. rewrite Rmult_1_l. exact W2.
    - rewrite fc_length. intro X. apply (label_loop_for label _ n s 0 w_one 1 p Hn so_far_one); assumption.
  Qed.

  Lemma label_costs_for (n : ngram R_field) s : forall labels (ps : list R), ng_fst n = f ->
    E (rank s + 1) <= 1 -> Z (rank s + 1) + 1 <= B -> label_costs n s labels = Ok ps ->
    exists cs, c_label_costs plus fc s labels = Ok cs /\ Forall2 (so_far (rank s + 1)) cs ps.
  Proof.
    induction labels as [|l t IH]; intros ps Hn HE HZ; cbn [label_costs c_label_costs].
    - intro X. injection X as <-. exists []. split; [reflexivity | constructor].
    - destruct (label_cost n s l) as [p| | |] eqn:El; try discriminate. cbn [bind].
      destruct (label_costs n s t) as [qs| | |] eqn:Et; try discriminate. cbn [bind]. intro X. injection X as <-.
      destruct (label_cost_for n s l p Hn HE HZ El) as (c & C1 & C2). destruct (IH qs Hn HE HZ eq_refl) as (cs & S1 & S2).
      rewrite C1, S1. exists (c :: cs). split; [reflexivity | constructor; assumption].
  Qed.
End Costs.
