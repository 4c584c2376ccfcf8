(** C80: the code lengths the client reports are those of a code (Kraft's inequality). *)
From Coq Require Import Reals Lra String.
From Verif Require Import Base Field FieldR LmModel LmProofs ServerModel TextModel ClientModel
  ClientSpec ClientProofs ClientBits.
Close Scope string_scope.
Local Notation length := List.length.
Local Open Scope R_scope.

(** * Specification *)

(** The probabilities of a reply are those of a distribution. *)
Definition distribution (r : scores_msg R_field) : Prop :=
  (forall p : R, In p (msg_probs r) -> 0 <= p) /\ sum (msg_probs r) <= 1.

(** * Sequences in a process that predicts the next symbol *)
Lemma sum_cons x l : sum (x :: l) = x + sum l. Proof. reflexivity. Qed.
Lemma sum_app a b : sum (a ++ b) = sum a + sum b.
Proof. induction a as [|x a IH]; cbn [app]; [cbn; lra|]. rewrite !sum_cons, IH. lra. Qed.
Lemma sum_le {T : Type} (f g : T -> R) l : (forall x, In x l -> f x <= g x) -> sum (map f l) <= sum (map g l).
Proof.
  induction l as [|x l IH]; intro H; [cbn; lra|]. cbn [map]. rewrite !sum_cons.
  pose proof (H x (or_introl eq_refl)). pose proof (IH (fun y I => H y (or_intror I))). lra.
Qed.
Lemma sum_plus {T : Type} (f g : T -> R) l : sum (map (fun x => f x + g x) l) = sum (map f l) + sum (map g l).
Proof. induction l as [|x l IH]; [cbn; lra|]. cbn [map]. rewrite !sum_cons, IH. lra. Qed.
Lemma sum_scale {T : Type} c (f : T -> R) l : sum (map (fun x => c * f x) l) = c * sum (map f l).
Proof. induction l as [|x l IH]; [cbn; lra|]. cbn [map]. rewrite !sum_cons, IH. lra. Qed.

(** At most one element of a list without repetitions equals [s]. *)
Lemma sum_once (p : R) s A : 0 <= p -> NoDup A ->
  sum (map (fun a => if String.eqb a s then p else 0) A) <= p.
Proof.
  intros Hp ND. induction ND as [|a A N ND IH]; [cbn; lra|]. cbn [map]. rewrite sum_cons.
  destruct (String.eqb_spec a s) as [->|E]; [|lra].
  assert (Z : sum (map (fun a => if String.eqb a s then p else 0) A) = 0).
  { clear - N. induction A as [|b A IH]; [reflexivity|]. cbn [map]. rewrite sum_cons.
    destruct (String.eqb_spec b s) as [->|E]; [exfalso; apply N; left; reflexivity|].
    rewrite IH; [lra|]. intro I. apply N. right. exact I. }
  rewrite Z. lra.
Qed.

Section Process.
  Context {X : Type}.
  Variable step : X -> string -> X -> Prop.
  Hypothesis step_det : forall x a y z, step x a y -> step x a z -> y = z.
  Variable q : X -> string -> R.
  Variable A : list string.
  Definition fair (x : X) : Prop := (forall a, 0 <= q x a) /\ sum (map (q x) A) <= 1.

  Inductive run : X -> list string -> R -> Prop :=
  | run_nil x : run x [] 1
  | run_cons x a y t v : fair x -> step x a y -> run y t v -> run x (a :: t) (q x a * v).

  Lemma run_nonneg x t v : run x t v -> 0 <= v.
  Proof. induction 1 as [|x a y t v [F _] _ _ IH]; [lra|]. apply Rmult_le_pos; [apply F | exact IH]. Qed.

  Definition starts (a : string) (e : list string * R) : bool :=
    match fst e with b :: _ => String.eqb a b | [] => false end.

  (** The total is that of the parts with the same first symbol. *)
  Lemma by_first_symbol (T : list (list string * R)) : NoDup A ->
    (forall e, In e T -> fst e <> [] /\ 0 <= snd e /\ forall s, In s (fst e) -> In s A) ->
    sum (map snd T) <= sum (map (fun a => sum (map snd (filter (starts a) T))) A).
  Proof.
    intro ND. induction T as [|[t v] T IH]; intro H.
    - cbn [map filter]. clear. induction A as [|a B IH]; [cbn; lra|]. cbn [map]. rewrite sum_cons.
      change (sum []) with 0 in *. lra.
    - destruct (H _ (or_introl eq_refl)) as (N & P & I). cbn [fst snd] in N, P, I.
      destruct t as [|b t]; [congruence|].
      assert (E : forall B, sum (map (fun a => sum (map snd (filter (starts a) ((b :: t, v) :: T)))) B) =
        sum (map (fun a => if String.eqb a b then v else 0) B) + sum (map (fun a => sum (map snd (filter (starts a) T))) B)).
      { intro B. rewrite <- sum_plus. f_equal. apply map_ext. intro a. cbn [filter]. unfold starts at 1. cbn [fst].
        destruct (String.eqb a b); cbn [map snd]; [rewrite sum_cons|]; lra. }
      rewrite E. cbn [map snd]. rewrite sum_cons.
      assert (J : v <= sum (map (fun a => if String.eqb a b then v else 0) A)).
      { specialize (I b (or_introl eq_refl)). clear - I P. induction A as [|c B IH]; [contradiction|].
        cbn [map]. rewrite sum_cons. assert (Pp : 0 <= sum (map (fun a => if String.eqb a b then v else 0) B)).
        { clear - P. induction B as [|c B IH]; [cbn; lra|]. cbn [map]. rewrite sum_cons. destruct (String.eqb c b); lra. }
        destruct I as [->|I].
        - rewrite String.eqb_refl. lra.
        - specialize (IH I). destruct (String.eqb c b); lra. }
      specialize (IH (fun e I => H e (or_intror I))). lra.
  Qed.

  Lemma kraft : NoDup A -> forall n x (T : list (list string * R)),
    (forall e, In e T -> (length (fst e) <= n)%nat /\ run x (fst e) (snd e) /\ forall s, In s (fst e) -> In s A) ->
    NoDup (map fst T) -> (forall t t' u, In t (map fst T) -> In t' (map fst T) -> t' = t ++ u -> u = []) ->
    sum (map snd T) <= 1.
  Proof.
    intro ND.
    assert (ONE : forall x (T : list (list string * R)), In [] (map fst T) ->
      (forall e, In e T -> run x (fst e) (snd e)) -> NoDup (map fst T) ->
      (forall t t' u, In t (map fst T) -> In t' (map fst T) -> t' = t ++ u -> u = []) -> sum (map snd T) <= 1).
    { intros x T I Hr Nd Pf.
      assert (All : forall t, In t (map fst T) -> t = []) by (intros t It; apply (Pf [] t t I It eq_refl)).
      destruct T as [|[t v] [|[t2 v2] T]].
      - contradiction.
      - cbn. assert (t = []) as -> by (apply All; left; reflexivity).
        pose proof (Hr _ (or_introl eq_refl)) as R. cbn [fst snd] in R. inversion R. lra.
      - exfalso. cbn [map fst] in *. inversion Nd as [|? ? N _]; subst. apply N. left.
        rewrite (All t), (All t2); [reflexivity| right; left; reflexivity | left; reflexivity]. }
    induction n as [|n IH]; intros x T HT Nd Pf.
    - destruct T as [|[t v] T]; [cbn; lra|]. apply (ONE x); try assumption.
      + left. destruct (HT _ (or_introl eq_refl)) as (L & _). cbn [fst] in *. destruct t; [reflexivity | cbn in L; lia].
      + intros e Ie. apply HT. exact Ie.
    - destruct (in_dec (list_eq_dec string_dec) [] (map fst T)) as [I|NI].
      { apply (ONE x); try assumption. intros e Ie. apply HT. exact Ie. }
      assert (NE : forall e, In e T -> fst e <> []).
      { intros e Ie E. apply NI. rewrite <- E. apply in_map. exact Ie. }
      destruct T as [|e0 T0] eqn:ET; [cbn; lra|]. rewrite <- ET in *.
      assert (F : fair x).
      { destruct (HT e0) as (_ & R & _); [rewrite ET; left; reflexivity|].
        specialize (NE e0 ltac:(rewrite ET; left; reflexivity)). inversion R as [x0 E1 E2 E3|x0 a y t v Fx]; subst; [congruence | exact Fx]. }
      clear e0 T0 ET.
      eapply Rle_trans; [apply by_first_symbol; [exact ND|]|].
      { intros e Ie. destruct (HT e Ie) as (_ & R & I). split; [apply NE; exact Ie|]. split; [eapply run_nonneg; exact R | exact I]. }
      apply Rle_trans with (sum (map (q x) A)); [|apply F].
      apply sum_le. intros a _.
      assert (PW : forall U, (forall e, In e U -> In e T /\ starts a e = true) ->
        NoDup (map fst U) ->
        exists V y, map fst U = map (fun e => a :: fst e) V /\ sum (map snd U) = q x a * sum (map snd V) /\
          (forall e, In e V -> run y (fst e) (snd e)) /\ (U = [] \/ step x a y)).
      { induction U as [|[t v] U IHU]; intros HU NdU.
        - exists [], x. split; [reflexivity|]. split; [cbn; lra|]. split; [intros e []|left; reflexivity].
        - destruct IHU as (V & y & E1 & E2 & E3 & E4).
          { intros e Ie. apply HU. right. exact Ie. }
          { cbn [map] in NdU. inversion NdU; assumption. }
          destruct (HU _ (or_introl eq_refl)) as [It St]. destruct (HT _ It) as (_ & R & _). cbn [fst snd] in R.
          destruct t as [|b t]; [discriminate|]. unfold starts in St. cbn [fst] in St. apply String.eqb_eq in St. subst b.
          inversion R as [|x0 a0 y0 t0 v0 Fx Sx Rx]; subst.
          exists ((t, v0) :: V), y0. split; [cbn [map fst]; f_equal; exact E1|].
          split; [cbn [map snd]; rewrite !sum_cons, E2; ring|]. split; [|right; exact Sx].
          intros e [<-|Ie]; [exact Rx|]. destruct E4 as [->|E4].
          { destruct V; [contradiction | discriminate]. }
          rewrite (step_det _ _ _ _ Sx E4). apply E3. exact Ie. }
      destruct (PW (filter (starts a) T)) as (V & y & E1 & E2 & E3 & E4).
      { intros e Ie. apply filter_In in Ie. exact Ie. }
      { clear - Nd. induction T as [|e T IH]; [constructor|]. cbn [filter]. cbn [map] in Nd. inversion Nd as [|? ? N Nd']; subst.
        destruct (starts a e); [|apply IH; exact Nd']. cbn [map]. constructor; [|apply IH; exact Nd'].
        intro I. apply N. apply in_map_iff in I. destruct I as (e' & <- & Ie). apply filter_In in Ie. apply in_map. apply Ie. }
      rewrite E2. rewrite <- (Rmult_1_r (q x a)) at 2. apply Rmult_le_compat_l; [apply F|].
      assert (InV : forall t, In t (map fst V) -> In (a :: t) (map fst T)).
      { intros t It. apply in_map_iff in It. destruct It as (e & <- & Ie).
        assert (J : In (a :: fst e) (map fst (filter (starts a) T))).
        { rewrite E1. apply in_map_iff. exists e. auto. }
        apply in_map_iff in J. destruct J as (e' & E & Ie'). rewrite <- E. apply in_map. apply filter_In in Ie'. apply Ie'. }
      apply (IH y).
      + intros e Ie. split; [|split].
        * assert (J : In (a :: fst e) (map fst T)) by (apply InV, in_map; exact Ie).
          apply in_map_iff in J. destruct J as (e' & E & Ie'). destruct (HT e' Ie') as (L & _). rewrite E in L. cbn in L. lia.
        * apply E3. exact Ie.
        * assert (J : In (a :: fst e) (map fst T)) by (apply InV, in_map; exact Ie).
          apply in_map_iff in J. destruct J as (e' & E & Ie'). destruct (HT e' Ie') as (_ & _ & I). rewrite E in I.
          intros s Is. apply I. right. exact Is.
      + assert (NdU : NoDup (map (fun e => a :: fst e) V)).
        { rewrite <- E1. clear - Nd. induction T as [|e T IH]; [constructor|]. cbn [filter]. cbn [map] in Nd. inversion Nd as [|? ? N Nd']; subst.
          destruct (starts a e); [|apply IH; exact Nd']. cbn [map]. constructor; [|apply IH; exact Nd'].
          intro I. apply N. apply in_map_iff in I. destruct I as (e' & <- & Ie). apply filter_In in Ie. apply in_map. apply Ie. }
        clear - NdU. induction V as [|e V IH]; [constructor|]. cbn [map] in *. inversion NdU as [|? ? N Nd']; subst.
        constructor; [|apply IH; exact Nd']. intro I. apply N. apply in_map_iff in I. destruct I as (e' & E & Ie).
        apply in_map_iff. exists e'. rewrite E. auto.
      + intros t t' u It It' E. apply (Pf (a :: t) (a :: t') u); [apply InV; exact It | apply InV; exact It' | rewrite E; reflexivity].
  Qed.
End Process.

(** * The client reading a text *)

(** The largest probability [r] gives to [s]. *)
Fixpoint largest (l : list (R * string)) (s : string) : option R :=
  match l with
  | [] => None
  | (p, s') :: t =>
      if String.eqb s s' then Some (match largest t s with Some p' => Rmax p p' | None => p end) else largest t s
  end.
Definition entries_of (r : scores_msg R_field) : list (R * string) := combine (msg_probs r) (msg_symbols r).
Definition value (o : option R) : R :=
  (1 - kMixEpsilon) * (match o with Some p => p | None => 0 end) + kMixEpsilon / 143859.
Definition given (r : scores_msg R_field) (s : string) : R := value (largest (entries_of r) s).

Lemma largest_spec l s :
  match largest l s with
  | Some p => In (p, s) l /\ forall p', In (p', s) l -> p' <= p
  | None => forall p, ~ In (p, s) l
  end.
Proof.
  induction l as [|[p s'] l IH]; cbn [largest]; [intros p []|].
  destruct (String.eqb_spec s s') as [<-|N].
  - destruct (largest l s) as [p'|].
    + destruct IH as [I M]. split.
      * unfold Rmax. destruct (Rle_dec p p'); [right; exact I | left; reflexivity].
      * intros p2 [E|I2]; [injection E as <-; apply Rmax_l|]. eapply Rle_trans; [apply M, I2 | apply Rmax_r].
    + split; [left; reflexivity|]. intros p2 [E|I2]; [injection E as <-; lra | exfalso; exact (IH _ I2)].
  - destruct (largest l s) as [p'|].
    + destruct IH as [I M]. split; [right; exact I|]. intros p2 [E|I2]; [congruence | apply M, I2].
    + intros p2 [E|I2]; [congruence | exact (IH _ I2)].
Qed.

Lemma scored_largest r s o : scored (s, r) o -> o = largest (entries_of r) s.
Proof.
  intro S. pose proof (largest_spec (entries_of r) s) as L. unfold scored, offers in S. cbn [fst snd] in S.
  fold (entries_of r) in S. destruct o as [p|], (largest (entries_of r) s) as [p'|]; try reflexivity.
  - destruct S as [I M], L as [I' M']. f_equal. apply Rle_antisym; [apply M', I | apply M, I'].
  - exfalso. exact (L _ (proj1 S)).
  - exfalso. exact (S _ (proj1 L)).
Qed.

Lemma sum_nonneg l : (forall p, In p l -> 0 <= p) -> 0 <= sum l.
Proof.
  induction l as [|x l IH]; intro H; [cbn; lra|]. rewrite sum_cons.
  pose proof (H x (or_introl eq_refl)). pose proof (IH (fun y I => H y (or_intror I))). lra.
Qed.

Lemma eps_range : 0 < kMixEpsilon < 1.
Proof. unfold kMixEpsilon. rewrite (pow_IZR 2 50). change (2 ^ Z.of_nat 50)%Z with 1125899906842624%Z. lra. Qed.

Lemma given_nonneg r s : distribution r -> 0 <= given r s.
Proof.
  intros [P _]. unfold given, value. pose proof eps_range.
  assert (Q : 0 <= match largest (entries_of r) s with Some p => p | None => 0 end).
  { pose proof (largest_spec (entries_of r) s) as L. destruct (largest (entries_of r) s); [|lra].
    apply P. unfold entries_of in L. apply (in_combine_l _ _ _ _ (proj1 L)). }
  assert (0 <= (1 - kMixEpsilon) * match largest (entries_of r) s with Some p => p | None => 0 end) by (apply Rmult_le_pos; lra).
  lra.
Qed.

Lemma given_total r A : distribution r -> NoDup A -> (Z.of_nat (length A) <= 143859)%Z -> sum (map (given r) A) <= 1.
Proof.
  intros [P S] ND L. pose proof eps_range as E.
  assert (G : forall l, (forall e, In e l -> 0 <= fst e) ->
    sum (map (fun a => match largest l a with Some p => p | None => 0 end) A) <= sum (map fst l)).
  { induction l as [|[p s] l IH]; intro Pl.
    - clear. induction A as [|a B IH]; [cbn; lra|]. cbn [map largest] in *. rewrite sum_cons. lra.
    - assert (Pl2 : forall e, In e l -> 0 <= fst e) by (intros e I; apply Pl; right; exact I).
      specialize (IH Pl2). pose proof (Pl _ (or_introl eq_refl)) as Pp. cbn [fst] in Pp.
      pose proof (sum_once p s A Pp ND) as O. cbn [map fst]. rewrite sum_cons.
      eapply Rle_trans; [|apply Rplus_le_compat; [exact O | exact IH]]. rewrite <- sum_plus. apply sum_le.
      intros a _. cbn [largest]. pose proof (largest_spec l a) as La.
      destruct (String.eqb a s); [|lra]. destruct (largest l a) as [p'|]; [|lra].
      assert (P' : 0 <= p') by (apply (Pl2 (p', a)), La).
      unfold Rmax. destruct (Rle_dec p p'); lra. }
  assert (G2 : sum (map (fun a => match largest (entries_of r) a with Some p => p | None => 0 end) A) <= 1).
  { eapply Rle_trans; [apply G|].
    - intros [p s] I. cbn [fst]. apply P. apply (in_combine_l _ _ _ _ I).
    - eapply Rle_trans; [|exact S]. unfold entries_of. clear - P. revert P. generalize (msg_probs r) as ps, (msg_symbols r) as ss.
      induction ps as [|p ps IH]; intros [|s ss] P; cbn [combine map]; try (cbn; lra).
      + rewrite sum_cons. assert (0 <= sum ps) by (apply sum_nonneg; intros y I; apply P; right; exact I).
        pose proof (P p (or_introl eq_refl)). cbn. lra.
      + rewrite !sum_cons. cbn [fst]. specialize (IH ss (fun y I => P y (or_intror I))). lra. }
  assert (C : sum (map (fun _ : string => kMixEpsilon / 143859) A) <= kMixEpsilon).
  { assert (K : forall B : list string, sum (map (fun _ : string => kMixEpsilon / 143859) B) = INR (length B) * (kMixEpsilon / 143859)).
    { induction B as [|b B IH]; [cbn; lra|]. cbn [map]. rewrite sum_cons, IH. cbn [length]. rewrite S_INR. ring. }
    rewrite K. assert (LI : INR (length A) <= 143859).
    { rewrite INR_IZR_INZ. apply IZR_le. lia. }
    apply Rle_trans with (143859 * (kMixEpsilon / 143859)); [apply Rmult_le_compat_r; lra | lra]. }
  unfold given, value. rewrite sum_plus, sum_scale. nra.
Qed.

Section Reading.
  Context {W : Type}.
  Variable unicode : string -> list Z.
  Variable chars : string -> list string.
  Variable srv : server R_field W.

  Inductive place : Type := Start (w : W) | Mid (w : W) (st : Z) (r : scores_msg R_field).
  (** Where the client is after symbol [a]: the empty symbol ends the line. *)
  Definition after (a : string) (st : Z) (r : scores_msg R_field) (w : W) : place :=
    if String.eqb a "" then Start w else Mid w st r.
  Definition goes (x : place) (a : string) (y : place) : Prop :=
    match x with
    | Mid w st r => exists st' r' w', moves srv unicode w st a st' r' w' /\ y = after a st' r' w'
    | Start w => exists r w1 st' r' w', rpc_scores srv w "" 0 = (Some r, w1) /\
        moves srv unicode w1 0 a st' r' w' /\ y = after a st' r' w'
    end.
  Definition predicts (x : place) (a : string) : R :=
    match x with
    | Mid _ _ r => given r a
    | Start w => match fst (rpc_scores srv w "" 0) with Some r => given r a | None => 0 end
    end.

  Lemma moves_det w st a s1 r1 w1 s2 r2 w2 :
    moves srv unicode w st a s1 r1 w1 -> moves srv unicode w st a s2 r2 w2 -> s1 = s2 /\ r1 = r2 /\ w1 = w2.
  Proof.
    intros (x & M1 & _ & M2) (y & M3 & _ & M4). rewrite M1 in M3. injection M3 as <- <-.
    rewrite M2 in M4. injection M4 as <- <-. auto.
  Qed.

  Lemma goes_det x a y z : goes x a y -> goes x a z -> y = z.
  Proof.
    destruct x as [w|w st r]; cbn [goes].
    - intros (r & w1 & s1 & r1 & w2 & E & M & ->) (r' & w1' & s1' & r1' & w2' & E' & M' & ->).
      rewrite E in E'. injection E' as <- <-. destruct (moves_det _ _ _ _ _ _ _ _ _ M M') as (-> & -> & ->). reflexivity.
    - intros (s1 & r1 & w2 & M & ->) (s1' & r1' & w2' & M' & ->).
      destruct (moves_det _ _ _ _ _ _ _ _ _ M M') as (-> & -> & ->). reflexivity.
  Qed.

  Variable A : list string.
  Hypothesis NA : NoDup A.
  Hypothesis LA : (Z.of_nat (length A) <= 143859)%Z.

  Definition weight (os : list (option R)) : R := fold_right (fun o a => value o * a) 1 os.
  Local Notation runs := (run goes predicts A).

  Lemma fair_mid w st r : distribution r -> fair predicts A (Mid w st r).
  Proof. intro D. split; [intro a; apply given_nonneg; exact D | apply given_total; assumption]. Qed.
  Lemma fair_start w r w1 : rpc_scores srv w "" 0 = (Some r, w1) -> distribution r -> fair predicts A (Start w).
  Proof.
    intros E D. unfold fair, predicts. rewrite E. cbn [fst].
    split; [intro a; apply given_nonneg; exact D | apply given_total; assumption].
  Qed.

  (** A line that has been scored is a run of the process. *)
  Lemma line_runs w st r cs tr w' : line_scored unicode srv w st r (cs ++ [""%string]) tr w' -> ~ In ""%string cs ->
    Forall (fun e => distribution (snd e)) tr -> forall os, Forall2 scored tr os ->
    forall t v, runs (Start w') t v -> runs (Mid w st r) (cs ++ ""%string :: t) (weight os * v).
  Proof.
    revert w st r tr. induction cs as [|c cs IH]; intros w st r tr L NI D os Sc t v Hr.
    - cbn [app] in *. inversion L as [|? ? ? ? ? st' r' w1 tr1 ? M L1]; subst. inversion L1; subst.
      apply Forall_cons_iff in D. destruct D as [D _]. cbn [snd] in D.
      inversion Sc as [|? o ? os1 S1 S2]; subst. inversion S2; subst.
      apply scored_largest in S1. cbn [weight fold_right]. replace (value o * 1 * v) with (predicts (Mid w st r) ""%string * v).
      + econstructor; [apply fair_mid; exact D | | exact Hr]. exists st', r', w'. split; [exact M|]. reflexivity.
      + cbn [predicts]. unfold given. rewrite <- S1. ring.
    - cbn [app] in *. inversion L as [|? ? ? ? ? st' r' w1 tr1 ? M L1]; subst.
      apply Forall_cons_iff in D. destruct D as [D D2]. cbn [snd] in D.
      inversion Sc as [|? o ? os1 S1 S2]; subst. apply scored_largest in S1.
      cbn [weight fold_right]. fold (weight os1).
      replace (value o * weight os1 * v) with (predicts (Mid w st r) c * (weight os1 * v)).
      + econstructor; [apply fair_mid; exact D | |].
        * exists st', r', w1. split; [exact M | reflexivity].
        * unfold after. destruct (String.eqb_spec c "") as [->|N]; [exfalso; apply NI; left; reflexivity|].
          apply (IH w1 st' r' tr1); try assumption. intro I. apply NI. right. exact I.
      + cbn [predicts]. unfold given. rewrite <- S1. ring.
  Qed.

  (** From the start of the line the same, as the reply is the one to the first request. *)
  Lemma start_runs w r w1 t v : rpc_scores srv w "" 0 = (Some r, w1) -> t <> [] ->
    runs (Mid w1 0 r) t v -> runs (Start w) t v.
  Proof.
    intros E N R. inversion R as [|x a y t0 v0 F G R0]; subst; [congruence|].
    replace (predicts (Mid w1 0 r) a) with (predicts (Start w) a) by (cbn [predicts]; rewrite E; reflexivity).
    econstructor; [| |exact R0].
    - destruct F as [F1 F2]. unfold fair, predicts in *. rewrite E. cbn [fst]. auto.
    - destruct G as (st' & r' & w' & M & ->). exists r, w1, st', r', w'. auto.
  Qed.

  (** The symbols of a text. *)
  Definition symbols (ls : list string) : list string := flat_map (fun l => chars l ++ [""%string]) ls.

  Lemma text_runs w ls tr w' : text_scored unicode chars srv w ls tr w' -> (forall l, In l ls -> ~ In ""%string (chars l)) ->
    Forall (fun e => distribution (snd e)) tr -> forall os, Forall2 scored tr os -> runs (Start w) (symbols ls) (weight os).
  Proof.
    induction 1 as [|w l ls r w1 tr w2 tr' w3 E Wf Np L T IH]; intros NE D os Sc.
    - inversion Sc; subst. constructor.
    - apply Forall_app in D. destruct D as [D1 D2]. apply Forall2_app_inv_l in Sc. destruct Sc as (o1 & o2 & S1 & S2 & ->).
      assert (WA : forall a b, weight (a ++ b) = weight a * weight b).
      { clear. induction a as [|x a IH]; intro b; cbn [app weight fold_right]; [fold (weight b); ring|].
        fold (weight (a ++ b)). fold (weight a). rewrite IH. ring. }
      rewrite WA. cbn [symbols flat_map]. fold (symbols ls). rewrite <- app_assoc. cbn [app].
      apply (start_runs w r w1); [exact E | destruct (chars l); discriminate |].
      apply (line_runs _ _ _ _ _ _ L); try assumption.
      + apply NE. left. reflexivity.
      + apply IH; try assumption. intros l' I. apply NE. right. exact I.
  Qed.

  Lemma cut (a b u v : list string) : ~ In ""%string a -> ~ In ""%string b -> a ++ ""%string :: u = b ++ ""%string :: v -> a = b /\ u = v.
  Proof.
    revert b. induction a as [|x a IH]; intros [|y b] Na Nb E; cbn [app] in E.
    - injection E as <-. auto.
    - exfalso. injection E as <- _. apply Nb. left. reflexivity.
    - exfalso. injection E as -> _. apply Na. left. reflexivity.
    - injection E as <- E. destruct (IH b) as [-> ->]; auto; intro I; [apply Na|apply Nb]; right; exact I.
  Qed.

  (** Texts of the same number of lines: none is the beginning of another. *)
  Lemma symbols_prefix : forall ls ls' u, length ls = length ls' ->
    (forall l, In l ls \/ In l ls' -> ~ In ""%string (chars l)) ->
    symbols ls' = symbols ls ++ u -> u = [] /\ map chars ls = map chars ls'.
  Proof.
    induction ls as [|l ls IH]; intros [|l' ls'] u Le N E; try discriminate.
    - cbn in E. subst. auto.
    - cbn [symbols flat_map] in E. fold (symbols ls) in E. fold (symbols ls') in E.
      rewrite <- !app_assoc in E. cbn [app] in E. apply cut in E.
      + destruct E as [E1 E2]. cbn [length] in Le. injection Le as Le. destruct (IH ls' u Le) as [-> E3].
        * intros x [I|I]; apply N; [left|right]; right; exact I.
        * exact E2.
        * split; [reflexivity|]. cbn [map]. rewrite E1, E3. reflexivity.
      + apply N. right. left. reflexivity.
      + apply N. left. left. reflexivity.
  Qed.

  Lemma value_pos r s o : distribution r -> scored (s, r) o -> 0 < value o.
  Proof.
    intros [P _] S. pose proof eps_range as E. unfold value.
    assert (0 <= match o with Some p => p | None => 0 end).
    { destruct o as [p|]; [|lra]. apply P. destruct S as [S _]. unfold offers in S. cbn in S. apply (in_combine_l _ _ _ _ S). }
    assert (0 <= (1 - kMixEpsilon) * match o with Some p => p | None => 0 end) by (apply Rmult_le_pos; lra).
    lra.
  Qed.

  Lemma weight_bits tr os : Forall (fun e => distribution (snd e)) tr -> Forall2 scored tr os ->
    weight os = Rpower 2 (- sum (map code_length os)).
  Proof.
    intros D Sc. induction Sc as [|[s r] o tr os S1 S2 IH].
    - cbn. rewrite Ropp_0, Rpower_O by lra. reflexivity.
    - apply Forall_cons_iff in D. destruct D as [D1 D2]. cbn [snd] in D1. cbn [weight fold_right map]. fold (weight os).
      rewrite sum_cons, Ropp_plus_distr, Rpower_plus, <- (IH D2). f_equal.
      pose proof (value_pos r s o D1 S1) as V. unfold code_length. rewrite Ropp_involutive. fold (value o).
      unfold Rpower, log2. replace (ln (value o) / ln 2 * ln 2) with (ln (value o)).
      + rewrite exp_ln by exact V. reflexivity.
      + field. pose proof ln_lt_2 as X. lra.
  Qed.
End Reading.
