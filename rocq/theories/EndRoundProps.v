(** C79: rounding from the models to the reply. *)
From Coq Require Import ZArith Reals Lra Lia Sorted Permutation.
From Verif Require Import Base Field FieldR LmModel HubModel HubSpec HubMix HubProps LogModel RoundModel RoundSpec
  RoundProofs RoundProps EndRoundSpec EndRoundProofs.
Local Open Scope R_scope.

(** The models' answers carry an error of [dc], the weights one of [dw], and then they are mixed
    with rounding.  The reply is the exact mixture of what the models would say in exact arithmetic
    with the exact weights, up to twice these errors and three roundings per probability. *)
Theorem C79_mixture : forall m order u B dc dw L M computed exact (ws : list R) costs resp,
  (forall l, Permutation l (order l)) ->
  accurate u B m -> 0 <= u <= / 2 -> 0 <= dc <= L -> 0 <= dw ->
  INR (entries exact) * exp (L + dc) <= exp M -> 2 * L <= M -> 2 * L + M + 1 <= B ->
  2 * dw + (3 * INR (entries exact) + 5) * u <= 1 ->
  all_near dc computed exact ->
  Forall (fun sc => Forall (fun x => snd x = 0 \/ exp (dc - L) <= snd x <= 1) (sc_entries sc)) exact ->
  Forall2 (stands_for dw) costs ws -> Forall (sized L) ws -> length exact = length ws ->
  is_mixture (F := R_field) ws exact resp -> 0 < mix_total (F := R_field) ws exact ->
  agrees (2 * dc + 2 * dw + (3 * INR (entries exact) + 7) * u)
    (r_mixture m order (combine computed costs)) (sc_entries resp).
Proof.
  intros m order u B dc dw L M computed exact ws costs resp Hor Hm Hu Hdc Hdw HT HLM HB HD Hn Hs Hc Hw Hlen Hmix Htot.
  assert (Wn : Forall (fun w => 0 <= w) ws).
  { eapply Forall_impl; [|exact Hw]. intros w [->|[W _]]; [lra|]. pose proof (exp_pos (- L)). lra. }
  assert (En : Forall (fun sc => nonneg_entries (sc_entries sc)) exact).
  { eapply Forall_impl; [|exact Hs]. intros sc Q. eapply Forall_impl; [|exact Q].
    intros x [->|[W _]]; [lra|]. pose proof (exp_pos (dc - L)). cbn beta. lra. }
  destruct (total_close dc computed exact ws Hn En Wn) as [_ TC].
  assert (Tc : 0 < mix_total (F := R_field) ws computed).
  { destruct TC as [TC _]. pose proof (exp_pos (- dc)).
    pose proof (Rmult_lt_0_compat _ _ Htot H). lra. }
  assert (Hlc : length computed = length ws).
  { rewrite <- Hlen. clear - Hn. unfold all_near in Hn. induction Hn; cbn [length]; congruence. }
  assert (Ent : entries computed = entries exact).
  { clear - Hn. unfold all_near in Hn. induction Hn as [|a b cs es N H IH]; [reflexivity|].
    cbn [entries fold_right]. fold (entries cs). fold (entries es). rewrite IH, (near_length _ _ _ N). reflexivity. }
  destruct (mixture_exists computed ws Hlc Tc) as [rc Hrc].
  pose proof (C75_mixture_wide m order u B dc dw L M computed ws costs rc) as X. rewrite Ent in X.
  specialize (X Hor Hm Hu Hdw Hdc HT HLM HB HD).
  assert (Sc : Forall (fun sc => Forall (fun x => snd x = 0 \/ exp (- L) <= snd x <= exp dc) (sc_entries sc)) computed).
  { clear - Hn Hs. revert Hs. unfold all_near in Hn. induction Hn as [|a b cs es N H IH]; intro Hs; constructor.
    - apply Forall_cons_iff in Hs. destruct Hs as [Hs _]. clear - N Hs. revert Hs. unfold near in N.
      induction N as [|x y xs ys [_ [C1 C2]] H IH]; intro Hs; constructor.
      + apply Forall_cons_iff in Hs. destruct Hs as [[Z|[Z1 Z2]] _].
        * left. rewrite Z in C1, C2. lra.
        * right. pose proof (exp_pos dc). pose proof (exp_pos (- dc)). split.
          -- apply Rle_trans with (snd y * exp (- dc)); [|exact C1].
             replace (- L) with ((dc - L) + - dc) by ring. rewrite exp_plus. apply Rmult_le_compat_r; lra.
          -- apply Rle_trans with (snd y * exp dc); [exact C2|]. rewrite <- (Rmult_1_l (exp dc)) at 2.
             apply Rmult_le_compat_r; lra.
      + apply IH. apply Forall_cons_iff in Hs. tauto.
    - apply IH. apply Forall_cons_iff in Hs. tauto. }
  specialize (X Sc Hc Hw Hlc Hrc Tc).
  pose proof (mixture_stable dc computed exact ws Hn En Wn rc resp Hrc Hmix Htot) as Y.
  clear - X Y. unfold agrees in *. set (e := 2 * dw + (3 * INR (entries exact) + 7) * u) in *.
  replace (2 * dc + 2 * dw + (3 * INR (entries exact) + 7) * u) with (2 * dc + e) by (unfold e; ring).
  clearbody e. revert Y. generalize (sc_entries resp) as l3. revert X.
  generalize (r_mixture m order (combine computed costs)) as l1. generalize (sc_entries rc) as l2.
  intros l2 l1 X. induction X as [|a b l1 l2 (E1 & p & z & Eb & Ea & C1) X IH]; intros l3 Y.
  - inversion Y. constructor.
  - inversion Y as [|b' c l2' l3' (E2 & p' & z' & Ec & Eb' & P' & C2) Y' Q1 Q2]. subst. constructor; [|apply IH; exact Y'].
    split; [congruence|]. exists p', z. split; [exact Ec|]. split; [exact Ea|].
    rewrite Eb in Eb'. injection Eb' as <-. apply close_trans with p; assumption.
Qed.
Print Assumptions C79_mixture.

(** A hub with two or more models: the reply on the machine against the exact one, which mixes what
    the models of the hub answer (C13). *)
Theorem C79_hub : forall (Mm : Type) (ops : comp_ops R_field Mm) (h : hub R_field Mm) s (ws : list R) resp h',
  hub_extract ops h s = Ok (Some resp, h') -> (2 <= length (h_weights h))%nat ->
  mixture_weights_at h s = Ok (map (Val (F := R_field)) ws) ->
  exists st exact, vgetZ (hs h) s = Ok st /\ length exact = length ws /\
    (forall k, (k < length ws)%nat -> exists mo sc mo', nth_error (h_lms h) k = Some mo /\
       nth_error exact k = Some sc /\ c_extract ops mo (hs_model st k) = Ok (Some sc, mo')) /\
    forall m order u B dc dw L M (computed : list (lm_scores R)) costs,
    (forall l, Permutation l (order l)) ->
    accurate u B m -> 0 <= u <= / 2 -> 0 <= dc <= L -> 0 <= dw ->
    INR (entries exact) * exp (L + dc) <= exp M -> 2 * L <= M -> 2 * L + M + 1 <= B ->
    2 * dw + (3 * INR (entries exact) + 5) * u <= 1 ->
    all_near dc computed exact ->
    Forall (fun sc => Forall (fun x => snd x = 0 \/ exp (dc - L) <= snd x <= 1) (sc_entries sc)) exact ->
    Forall2 (stands_for dw) costs ws -> Forall (sized L) ws -> 0 < mix_total (F := R_field) ws exact ->
    agrees (2 * dc + 2 * dw + (3 * INR (entries exact) + 7) * u)
      (r_mixture m order (combine computed costs)) (sc_entries resp).
Proof.
  intros Mm ops h s ws resp h' E Hw Ew.
  destruct (C13_mixture R_field Mm ops h s ws resp h' E Hw Ew) as (st & scs & E1 & Hlen & E2 & E3).
  exists st, scs. split; [exact E1|]. split; [exact Hlen|]. split; [exact E2|]. intros. destruct E3 as [Hmix _].
  { intro Z. change (mix_total (F := R_field) ws scs = 0) in Z. lra. }
  eapply C79_mixture; eassumption.
Qed.
Print Assumptions C79_hub.

(** The products of the prior weights and the probabilities of the recent symbols. *)
Definition products (qs hs : list R) : list R := map (fun '(q, h) => q * h) (combine qs hs).

Lemma zip_products (qs hs : list R) : length hs = length qs ->
  zip_weights (F := R_field) (map (Val (F := R_field)) qs) hs = Ok (map (Val (F := R_field)) (products qs hs)).
Proof.
  revert hs. induction qs as [|q qs IH]; intros [|h hs] Hl; try discriminate; [reflexivity|].
  cbn [map zip_weights]. cbn [length] in Hl. injection Hl as Hl. rewrite (IH hs Hl). reflexivity.
Qed.

(** With a Bayesian history the weights in exact arithmetic are the prior ones times the
    probabilities of the recent symbols, renormalised; the costs the machine computes stand for
    them. *)
Theorem C79_bayesian_weights : forall (Mm : Type) (h : hub R_field Mm) s st (qs : list R),
  (0 < h_bayes h)%nat -> in_range h s = true -> vgetZ (hs h) s = Ok st ->
  h_weights h = map (Val (F := R_field)) qs -> qs <> [] -> length (h_sum st) = length qs ->
  let prods := products qs (h_sum st : list R) in
  0 < rsum prods ->
  mixture_weights_at h s = Ok (map (Val (F := R_field)) (map (fun q => q / rsum prods) prods)) /\
  forall m u B d1 d2 L1 L2 L M costs sums,
    accurate u B m -> 0 <= u -> 0 <= d1 <= 1 -> 0 <= d2 <= 1 -> L <= M -> M + 1 <= B -> L1 + 1 <= B -> L2 + 1 <= B ->
    Forall2 (stands_for d1) costs qs -> Forall (sized L1) qs ->
    Forall2 (stands_for d2) sums (h_sum st : list R) -> Forall (sized L2) (h_sum st : list R) ->
    Forall (not_tiny L) prods -> rsum prods <= exp M ->
    d1 + d2 + (INR (length qs) + 1) * u <= 1 ->
    exists l, r_bayes_weights m costs sums = Ok l /\
      Forall2 (stands_for (2 * (d1 + d2) + (INR (length qs) + 3) * u)) l (map (fun q => q / rsum prods) prods).
Proof.
  intros Mm h s st qs Hb Hr Hst Hq Hne Hl prods Tp.
  assert (Np : prods <> []). { intro E. rewrite E in Tp. cbn in Tp. lra. }
  split.
  - unfold mixture_weights_at. destruct (Nat.eqb_spec (h_bayes h) 0); [lia|]. rewrite Hr. cbn [negb orb].
    rewrite Hst. cbn [bind]. rewrite Hq. rewrite (zip_products qs (h_sum st) Hl). cbn [bind]. fold prods. f_equal.
    rewrite (nsum_vals (F := R_field) prods Np). rewrite !map_map. apply map_ext. intro q. cbn [ndiv].
    assert (Ef : @fsum R_field prods = rsum prods) by apply PpmRoundProofs2.fsum_rsum.
    rewrite Ef. unfold num_div. destruct (@feqb R_field (rsum prods) f0) eqn:Z; [|reflexivity].
    apply (feqb_eq (F := R_field)) in Z. change (rsum prods = 0) in Z. lra.
  - intros m u B d1 d2 L1 L2 L M costs sums Hm Hu D1 D2 LM MB LB1 LB2 H S1 G S2 Lp T D.
    assert (Hlc : length costs = length qs).
    { clear - H. induction H; cbn [length]; congruence. }
    assert (Hls : length sums = length costs).
    { rewrite Hlc, <- Hl. clear - G. revert G. generalize (h_sum st) as hs. intros hs G. induction G; cbn [length]; congruence. }
    rewrite <- Hlc in D |- *. unfold prods, products in *.
    apply (C75_bayesian_weights m u B d1 d2 L1 L2 L M costs qs sums (h_sum st)); try assumption. split; assumption.
Qed.
Print Assumptions C79_bayesian_weights.

(** * The models *)

From Verif Require Import NgramModel NgramRoundModel NgramRoundSpec NgramRoundProps.

Lemma combine_parts {A B} (l : list (A * B)) : combine (map fst l) (map snd l) = l.
Proof. induction l as [|[a b] l IH]; [reflexivity|]. cbn [map combine fst snd]. f_equal. exact IH. Qed.

Lemma combine_values (ks : list str) (vs : list R) : combine ks (map (Val (F := R_field)) vs) =
  map (fun x => (fst x, Val (F := R_field) (snd x))) (combine ks vs).
Proof.
  revert vs. induction ks as [|k ks IH]; intros [|v vs]; try reflexivity.
  cbn [combine map fst snd]. f_equal. apply IH.
Qed.

Lemma near_combine e (exact : list (str * R)) vs : Forall2 (close e) (map snd exact) vs ->
  near e (combine (map fst exact) vs) exact.
Proof.
  revert vs. induction exact as [|[k p] l IH]; intros vs H; inversion H; subst; [constructor|].
  cbn [map fst combine]. constructor; [split; [reflexivity | assumption]|]. apply IH. assumption.
Qed.

Lemma plain_scores_back (r : lm_scores (num R_field)) (p : lm_scores R) :
  plain_scores (F := R_field) r = Ok p ->
  map fst (sc_entries r) = map fst (sc_entries p) /\
  map snd (sc_entries r) = map (Val (F := R_field)) (map snd (sc_entries p)).
Proof.
  unfold plain_scores. destruct (sc_norm r); [|discriminate]. intro H. apply bind_Ok in H. destruct H as (es & Ee & H).
  injection H as <-. cbn [sc_entries]. revert es Ee. generalize (sc_entries r) as l.
  induction l as [|[k v] l IH]; intros es Ee.
  - injection Ee as <-. split; reflexivity.
  - destruct v as [q|]; [|discriminate]. apply bind_Ok in Ee. destruct Ee as (es' & Ee & H).
    injection H as <-. destruct (IH es' Ee) as [A B]. cbn [map fst snd]. split; [rewrite A | rewrite B]; reflexivity.
Qed.

(** What a hub gets from a character n-gram model, exactly and on the machine. *)
Theorem C79_character_model : forall plus mc u B d G um BM N c n rank s sc n',
  plus_accurate u B plus -> 0 <= u -> 0 <= d -> 0 <= G -> accurate um BM mc -> 0 <= um <= / 2 -> 0 <= N ->
  model_for d G c n -> backs_off_within (ng_fst n) rank ->
  let k := S (rank (check_state n s)) in
  let t := S (length (tl (ng_syms n))) in
  let e := 2 * (INR k * (d + u)) + (INR t + 3) * um in
  INR t <= exp N -> e <= 1 -> INR k * G + 1 <= B -> 2 * (INR k * G) + N + 1 <= BM ->
  HubModel.c_extract ngram_ops n s = Ok (Some sc, n') ->
  exists computed, c_extract plus mc c s = Ok (map (fun x => (fst x, Val (F := R_field) (snd x))) computed) /\
    near e computed (sc_entries sc).
Proof.
  intros plus mc u B d G um BM N c n rank s sc n' Hp Hu Hd HG Hm Hum HN Hmod Hr k t e Ht He HB HBM Hx.
  cbn [HubModel.c_extract ngram_ops] in Hx. apply bind_Ok in Hx. destruct Hx as (r & Er & Hx).
  apply bind_Ok in Hx. destruct Hx as (p & Ep & Hx). injection Hx as <- <-.
  destruct (plain_scores_back r p Ep) as [P1 P2].
  destruct (C78_answers plus mc u B d G um BM N c n rank s r (map snd (sc_entries p)) Hp Hu Hd HG Hm Hum HN Hmod Hr Ht He HB HBM Er P2)
    as (vs & V1 & V2 & _).
  exists (combine (map fst (sc_entries p)) vs). split; [|apply near_combine; exact V2].
  rewrite V1, P1. exact (f_equal Ok (combine_values _ _)).
Qed.
Print Assumptions C79_character_model.

(** Costs that stand for probabilities give, exponentiated, an answer that is near: what a hub gets
    from a PPM model (C77_answers). *)
Theorem C79_from_costs : forall m u B d L (exact : list (str * R)) costs,
  accurate u B m -> 0 <= u <= / 2 -> 0 <= d <= 1 -> 0 <= L -> L + 1 <= B ->
  Forall2 (stands_for d) costs (map snd exact) -> Forall (fun x => sized L (snd x)) exact ->
  exists computed, combine (map fst exact) (map (r_exp_neg m) costs) =
      map (fun x => (fst x, Val (F := R_field) (snd x))) computed /\
    near (d + 2 * u) computed exact.
Proof.
  intros m u B d L exact costs Hm Hu Hd HL HB H. revert H. revert costs.
  induction exact as [|[k p] l IH]; intros costs H Hs; inversion H as [|c p' cs ps C H' Q1 Q2]; subst.
  - exists []. split; [reflexivity | constructor].
  - apply Forall_cons_iff in Hs. destruct Hs as [Sp Hs]. cbn [snd] in *.
    destruct (IH cs H' Hs) as (comp & E & Nr).
    destruct (sf_exp m u B Hm ltac:(lra) d L c p C Sp Hd ltac:(lra) ltac:(lra)) as (y & Ey & Cy).
    exists ((k, y) :: comp). split.
    + cbn [map combine fst snd]. rewrite Ey. f_equal. exact E.
    + constructor; [split; [reflexivity | exact Cy] | exact Nr].
Qed.
Print Assumptions C79_from_costs.

(** * In numbers *)

(** Two or more models whose answers are right to one per cent (C77, C78), at most 1000
    probabilities that are 0 or at least exp(-139), and weights right up to 2^-40: with correctly
    rounded doubles every probability of the reply is right to 2.1 per cent. *)
Theorem C79_in_numbers : forall order computed exact (ws : list R) costs resp,
  (forall l, Permutation l (order l)) ->
  INR (entries exact) <= 1000 -> all_near (/ 100) computed exact ->
  Forall (fun sc => Forall (fun x => snd x = 0 \/ exp (- (139)) <= snd x <= 1) (sc_entries sc)) exact ->
  Forall2 (stands_for (/ 2 ^ 40)) costs ws -> Forall (sized 140) ws -> length exact = length ws ->
  is_mixture (F := R_field) ws exact resp -> 0 < mix_total (F := R_field) ws exact ->
  Forall2 (fun a b => fst a = fst b /\ exists p z : R, snd b = Val (F := R_field) p /\ snd a = Val (F := R_field) z /\
             Rabs (z - p) <= p * (21 / 1000))
    (r_mixture correctly_rounded order (combine computed costs)) (sc_entries resp).
Proof.
  intros order computed exact ws costs resp Hor HT Hn Hs Hc Hw Hlen Hmix Htot.
  assert (P43 : / 2 ^ 43 = / 8796093022208) by (rewrite (pow_IZR 2 43); reflexivity).
  assert (P40 : / 2 ^ 40 = / 1099511627776) by (rewrite (pow_IZR 2 40); reflexivity).
  pose proof (pos_INR (entries exact)) as NT.
  set (d := 2 * / 100 + 2 * / 2 ^ 40 + (3 * INR (entries exact) + 7) * / 2 ^ 43).
  assert (D0 : 0 <= d <= 2001 / 100000).
  { unfold d. rewrite P43, P40. split; nra. }
  assert (A : agrees d (r_mixture correctly_rounded order (combine computed costs)) (sc_entries resp)).
  { unfold d. apply (C79_mixture correctly_rounded order (/ 2 ^ 43) 600 (/ 100) (/ 2 ^ 40) 140 281 computed exact ws costs resp);
      try assumption; try lra.
    - exact C75_doubles.
    - apply Rle_trans with (exp 140 * exp 141).
      + apply Rmult_le_compat; [exact NT | left; apply exp_pos | | apply exp_le; lra].
        apply Rle_trans with 1000; [exact HT|].
        assert (X : 14 <= exp 14) by (pose proof (exp_ineq1_le 14); lra).
        apply Rle_trans with (exp (14 + 14 + 14)).
        * rewrite !exp_plus. nra.
        * apply exp_le. lra.
      + rewrite <- exp_plus. apply exp_le. lra.
    - eapply Forall_impl; [|exact Hs]. intros sc Q. eapply Forall_impl; [|exact Q]. intros x [Z|[Z1 Z2]]; [left; exact Z|].
      right. split; [|exact Z2]. apply Rle_trans with (exp (- (139))); [apply exp_le; lra | exact Z1]. }
  assert (Pn : Forall (fun b => exists p : R, snd b = Val (F := R_field) p /\ 0 <= p) (sc_entries resp)).
  { assert (Wn : Forall (fun w => 0 <= w) ws).
    { eapply Forall_impl; [|exact Hw]. intros w [->|[W _]]; [lra|]. pose proof (exp_pos (- (140))). lra. }
    assert (En : Forall (fun sc => nonneg_entries (sc_entries sc)) exact).
    { eapply Forall_impl; [|exact Hs]. intros sc Q. eapply Forall_impl; [|exact Q].
      intros x [->|[W _]]; [lra|]. pose proof (exp_pos (- (139))). cbn beta. lra. }
    destruct Hmix as [_ _ P _]. apply Forall_forall. intros [k v] I. rewrite (P k v I).
    eexists. split; [reflexivity|]. destruct (at_close (/ 100) computed exact ws Hn En Wn k) as [A0 _].
    apply Rmult_le_pos; [exact A0|]. left. apply Rinv_0_lt_compat. exact Htot. }
  clear - A Pn D0. clearbody d. unfold agrees in A. revert Pn.
  induction A as [|a b la lb (Q & p & z & Q1 & Q2 & C1 & C2) A IH]; intro Pn; [constructor|].
  apply Forall_cons_iff in Pn. destruct Pn as [(p' & E & P0) Pn]. constructor; [|apply IH; exact Pn].
  split; [exact Q|]. exists p, z. split; [exact Q1|]. split; [exact Q2|].
  rewrite Q1 in E. injection E as <-.
  assert (X1 : 1 - d <= exp (- d)) by (pose proof (exp_ineq1_le (- d)); lra).
  assert (X2 : exp d <= 1 + 21 / 1000).
  { pose proof (exp_opp_mul d) as Mu. pose proof (exp_pos d). nra. }
  apply Rabs_le. split; nra.
Qed.
Print Assumptions C79_in_numbers.

(** * The hypotheses are met *)
Definition ex_computed : list (lm_scores R) :=
  [ {| sc_entries := [([97%Z], 502 / 1000); ([98%Z], 498 / 1000)]; sc_norm := 1 |};
    {| sc_entries := [([97%Z], 746 / 1000); ([99%Z], 252 / 1000); ([100%Z], 0)]; sc_norm := 1 |} ].

Example C79_hypotheses_met :
  INR (entries ex_scs) <= 1000 /\ all_near (/ 100) ex_computed ex_scs /\
  Forall (fun sc => Forall (fun x => snd x = 0 \/ exp (- (139)) <= snd x <= 1) (sc_entries sc)) ex_scs /\
  Forall2 (stands_for (/ 2 ^ 40)) ex_costs ex_ws /\ Forall (sized 140) ex_ws /\ length ex_scs = length ex_ws /\
  0 < mix_total (F := R_field) ex_ws ex_scs /\ (exists resp, is_mixture (F := R_field) ex_ws ex_scs resp).
Proof.
  destruct C75_hypotheses_met as (A & _ & C & D & E & F & G).
  assert (E139 : exp (- (139)) <= / 140).
  { rewrite exp_Ropp. pose proof (exp_ineq1_le 139). apply Rinv_le_contravar; lra. }
  assert (N : exp (- / 100) <= 100 / 101).
  { rewrite exp_Ropp. pose proof (exp_ineq1_le (/ 100)). replace (100 / 101) with (/ (1 + / 100)) by field.
    apply Rinv_le_contravar; lra. }
  pose proof (exp_ineq1_le (/ 100)) as Pp.
  split; [exact A|]. split; [|split; [|repeat (split; [assumption|]); assumption]].
  - unfold all_near, ex_computed, ex_scs. repeat (apply Forall2_cons || apply Forall2_nil);
      cbn [sc_entries]; unfold near; repeat (apply Forall2_cons || apply Forall2_nil);
      cbn [fst snd]; (split; [reflexivity|]); unfold close; lra.
  - unfold ex_scs. repeat (apply Forall_cons || apply Forall_nil); cbn [snd];
      try (left; reflexivity); right; lra.
Qed.

Definition ex_hub : hub R_field unit :=
  Hub [HState (F := R_field) [0%Z; 0%Z] (-1)%Z [] 97%Z [[/ 2]; [/ 4]] [/ 2; / 4]] 0%Z 10%Z
      (map (Val (F := R_field)) [/ 3; 2 / 3]) 1 [tt; tt].
Example C79_bayesian_hypotheses_met :
  (0 < h_bayes ex_hub)%nat /\ in_range ex_hub 0 = true /\
  (exists st, vgetZ (hs ex_hub) 0 = Ok st /\ length (h_sum st) = 2%nat /\
     0 < rsum (products [/ 3; 2 / 3] (h_sum st : list R))) /\
  h_weights ex_hub = map (Val (F := R_field)) [/ 3; 2 / 3].
Proof.
  split; [cbn; lia|]. split; [reflexivity|]. split; [|reflexivity].
  eexists. split; [reflexivity|]. split; [reflexivity|].
  cbn [h_sum]. unfold products, rsum. cbn [combine map fold_right]. lra.
Qed.
