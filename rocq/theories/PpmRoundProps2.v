(** C77, continued: rounding in PPM models, against the model of the PPM code. *)
From Coq Require Import ZArith Reals Lra Lia.
From Verif Require Import Base Field FieldR LmModel HubModel TextModel LogProps RoundModel RoundSpec RoundProofs RoundProps
  WordRoundSpec WordRoundProps PpmRoundModel PpmRoundSpec PpmRoundProofs PpmRoundProps PpmRoundSpec2 PpmRoundProofs2.
From Verif Require PpmCache PpmModel PpmSpec PpmReadModel PpmRef PpmStruct PpmVals PpmWf PpmApi PpmRead3 PpmRefine PpmProps PpmProps3 PpmCounter.
Local Open Scope R_scope.

(** * The exact probabilities are those of PPM *)

(** The probabilities [ppm_probs] of the back-off path of a history are P(x | h) of the reference
    description of PPM (PpmSpec.v, against which C20-C29 are stated). *)
Theorem C77_reference : forall V alpha beta (C : @PpmSpec.counts R_field), 0 < alpha ->
  (forall h x, In x (PpmSpec.symbols V) -> 0 <= (C h x : R)) ->
  (forall x, In x (PpmSpec.symbols V) -> 0 < (C [] x : R)) -> forall h,
  ppm_probs alpha beta (back_off_path V C h) = map (PpmSpec.prob (F := R_field) V alpha beta C h) (PpmSpec.symbols V).
Proof. intros V alpha beta C A N U h. apply path_probs; assumption. Qed.

Lemma path_ok_counts V (C : @PpmSpec.counts R_field) L h :
  (forall h x, In x (PpmSpec.symbols V) -> 0 <= (C h x : R)) ->
  (forall x, In x (PpmSpec.symbols V) -> 0 < (C [] x : R)) ->
  (forall g x, PpmSpec.suffix g h -> In x (PpmSpec.symbols V) -> (C g x : R) = 0 \/ 1 <= (C g x : R)) ->
  (forall g, PpmSpec.suffix g h -> (PpmSpec.total V C g : R) <= exp L) ->
  path_ok (S V) L (back_off_path V C h).
Proof.
  intros N U One Top.
  assert (Len : length (PpmSpec.symbols V) = S V) by (unfold PpmSpec.symbols; rewrite map_length, seq_length; reflexivity).
  assert (Le : forall (f : Z -> R) l x, (forall y, In y l -> 0 <= f y) -> In x l -> f x <= rsum (map f l)).
  { induction l as [|y l IH]; intros x Hn Hx; [contradiction|]. cbn [map]. rewrite rsum_cons.
    assert (P0 : forall l', (forall y, In y l' -> 0 <= f y) -> 0 <= rsum (map f l')).
    { induction l' as [|z l' IH']; intros Hn'; [unfold rsum; cbn; lra|]. cbn [map]. rewrite rsum_cons.
      pose proof (Hn' z (or_introl eq_refl)). pose proof (IH' (fun y Hy => Hn' y (or_intror Hy))). lra. }
    destruct Hx as [->|Hx].
    - pose proof (P0 l (fun y Hy => Hn y (or_intror Hy))). lra.
    - pose proof (Hn y (or_introl eq_refl)). pose proof (IH x (fun y Hy => Hn y (or_intror Hy)) Hx). lra. }
  assert (Lvl : forall g, PpmSpec.suffix g h ->
    length (tc_syms (counted_after V C g)) = S V /\ Forall (count_ok L) (tc_syms (counted_after V C g))).
  { intros g Hg. unfold counted_after. cbn [tc_syms]. split; [rewrite map_length; exact Len|].
    apply Forall_forall. intros c Hc. apply in_map_iff in Hc. destruct Hc as (x & <- & Hx).
    destruct (flt _ _) eqn:E; [|exact I]. apply flt_R' in E. cbn [count_ok].
    destruct (One g x Hg Hx) as [Z0|O]; [lra|]. split; [exact O|]. eapply Rle_trans; [|apply (Top g Hg)].
    rewrite total_rsum. apply (Le (fun x => C g x : R)); [|exact Hx]. intros y Hy. apply N. exact Hy. }
  assert (Pos : forall g x, PpmSpec.suffix g h -> In x (PpmSpec.symbols V) -> 0 < (C g x : R) -> 1 <= (PpmSpec.total V C g : R)).
  { intros g x Hg Hx Px. destruct (One g x Hg Hx) as [Z0|O]; [lra|]. eapply Rle_trans; [exact O|].
    rewrite total_rsum. apply (Le (fun x => C g x : R)); [|exact Hx]. intros y Hy. apply N. exact Hy. }
  assert (G : forall g, PpmSpec.suffix g h -> path_ok (S V) L (back_off_path V C g)).
  { induction g as [|c g IH]; intros Hg.
    - cbn [back_off_path path_ok]. destruct (Lvl [] Hg) as [L1 L2]. split; [exact L1|]. split; [exact L2|]. split; [|split; [|exact I]].
      + split; [|apply (Top [] Hg)].
        assert (I0 : In 0%Z (PpmSpec.symbols V)) by (unfold PpmSpec.symbols; cbn; left; reflexivity).
        apply (Pos [] 0%Z Hg I0). apply U. exact I0.
      + apply Forall_forall. intros c Hc. unfold counted_after in Hc. cbn [tc_syms] in Hc. apply in_map_iff in Hc.
        destruct Hc as (x & <- & Hx). pose proof (U x Hx) as Px. apply flt_R' in Px. rewrite Px. discriminate.
    - assert (Hg' : PpmSpec.suffix g h). { destruct Hg as [p ->]. exists (p ++ [c]). rewrite <- app_assoc. reflexivity. }
      cbn [back_off_path]. destruct (feqb _ _) eqn:E; [apply IH; exact Hg'|].
      assert (NT : (PpmSpec.total V C (c :: g) : R) <> 0).
      { intro X. apply feqb_R in X. pose proof (eq_trans (eq_sym X) E) as Y. discriminate Y. }
      assert (Ex : exists x, In x (PpmSpec.symbols V) /\ 0 < (C (c :: g) x : R)).
      { destruct (existsb (fun x => @flt R_field f0 (C (c :: g) x)) (PpmSpec.symbols V)) eqn:X.
        - apply existsb_exists in X. destruct X as (x & X1 & X2). exists x. split; [exact X1|]. apply flt_R'. exact X2.
        - exfalso. apply NT. rewrite total_rsum.
          assert (Z0 : forall x, In x (PpmSpec.symbols V) -> (C (c :: g) x : R) = 0).
          { intros x Hx. pose proof (N (c :: g) x Hx). assert (~ 0 < (C (c :: g) x : R)); [|lra]. intro Y. apply flt_R' in Y.
            assert (Tr : existsb (fun x => @flt R_field f0 (C (c :: g) x)) (PpmSpec.symbols V) = true)
              by (apply existsb_exists; exists x; split; assumption).
            rewrite Tr in X. discriminate. }
          clear - Z0. revert Z0. generalize (PpmSpec.symbols V) as l. induction l as [|y l IH]; intros Z0; [reflexivity|].
          cbn [map]. rewrite rsum_cons, (Z0 y (or_introl eq_refl)), IH by (intros w Hw; apply Z0; right; exact Hw). ring. }
      destruct Ex as (x & Hx & Px). destruct (Lvl _ Hg) as [L1 L2]. cbn [path_ok].
      split; [exact L1|]. split; [exact L2|]. split; [split; [exact (Pos _ x Hg Hx Px) | exact (Top _ Hg)]|].
      split; [|exact (IH Hg')].
      destruct (back_off_path V C g) eqn:EP; [exfalso; exact (path_ne V C g EP)|].
      unfold counted_after. cbn [tc_syms]. rewrite (seen_filter (fun x => C (c :: g) x : R)).
      assert (In x (filter (fun x0 : Z => @flt R_field f0 (C (c :: g) x0)) (PpmSpec.symbols V))).
      { apply filter_In. split; [exact Hx|]. apply flt_R'. exact Px. }
      destruct (filter (fun x0 : Z => @flt R_field f0 (C (c :: g) x0)) (PpmSpec.symbols V)); [contradiction | cbn; lia]. }
  apply G. exists []. reflexivity.
Qed.

(** * The answers of the exact model *)

(** For a PPM model read from files and then used in any way, at any of its states: if the counts
    that the state and its back-off states stand for are held as costs up to an error [d] (and each
    is 0 or from 1 to exp L), then what a machine accurate to [u] computes from those costs stands,
    up to [ppm_error], for the answer of ExtractLMScores in exact arithmetic. *)
Theorem C77_answers : forall counter (o : PpmReadModel.ppm_options R_field) model vocab m0 ks l m,
  PpmRef.readable counter o model vocab -> PpmReadModel.ppm_read counter o model (PpmRead3.vocab_file vocab) = Ok m0 ->
  PpmRefine.served m0 ks l m ->
  let V := List.length (PpmModel.p_syms m) in
  let alpha := PpmReadModel.init_alpha o : R in
  let beta := PpmReadModel.init_beta o : R in
  exists K C, PpmProps.agrees counter o model vocab ks l m K C /\
  forall s h, PpmStruct.getZ K s = Some h ->
  exists r m', PpmModel.ppm_extract m s = Ok (Some r, m') /\
  forall mc diff u B d L N ls, accurate u B mc -> diff_accurate u B diff -> 0 <= u <= d -> 0 <= L -> 0 <= N ->
    INR (S V) <= exp N ->
    exp (- L) <= alpha <= 1 -> parameter_ok L beta -> 0 <= beta < 1 -> exp (- L) <= 1 - beta ->
    (forall g x, PpmSpec.suffix g h -> In x (PpmSpec.symbols V) -> (C g x : R) = 0 \/ 1 <= (C g x : R)) ->
    (forall g, PpmSpec.suffix g h -> (PpmSpec.total V C g : R) <= exp L) ->
    Forall2 (counts_stand_for d) ls (back_off_path V C h) ->
    let k := List.length (back_off_path V C h) in
    ppm_error u d beta (S V) k <= 1 -> INR k * (3 * L + N + 3) + 1 <= B ->
    exists ps, r_path mc diff alpha beta ls = Ok ps /\
      Forall2 (stands_for (ppm_error u d beta (S V) k)) ps (map snd (sc_entries r) : list R).
Proof.
  intros counter o model vocab m0 ks l m Hr E Hs V alpha beta.
  destruct (PpmProps.setup counter o model vocab m0 ks l m Hr E Hs) as (u0 & K & C & Ht & Ha & Hsm & Hnd & Ea & Eb & Est).
  exists K, C. split; [exact Ha|]. intros s h Hh.
  pose proof Ht as [Hi HC]. destruct (PpmApi.extract_spec _ _ m K s h Hi Hh) as (m' & E' & _).
  eexists _, m'. split; [exact E'|]. cbn [sc_entries].
  fold V. rewrite Ea, Eb.
  assert (Ep : map (PpmSpec.prob V (PpmReadModel.init_alpha o) (PpmReadModel.init_beta o) (PpmStruct.table K (PpmModel.p_fst m)) h) (PpmSpec.symbols V) =
               map (PpmSpec.prob V (PpmReadModel.init_alpha o) (PpmReadModel.init_beta o) C h) (PpmSpec.symbols V)).
  { apply map_ext. intros x. apply PpmRefine.prob_ext. auto. }
  rewrite Ep.
  assert (Cm : forall (A B : Type) (a : list A) (b : list B), List.length a = List.length b -> map snd (combine a b) = b).
  { intros A B. induction a as [|x a IH]; intros [|y b] Hl; try discriminate; [reflexivity|].
    cbn [combine map snd]. rewrite (IH b) by (cbn in Hl; lia). reflexivity. }
  rewrite Cm.
  2: { cbn [List.length]. rewrite !map_length. unfold PpmSpec.symbols. rewrite map_length, seq_length. reflexivity. }
  assert (HN : forall g x, In x (PpmSpec.symbols V) -> 0 <= (C g x : R)).
  { intros g x Hx. apply fle_R. destruct (in_dec (list_eq_dec Z.eq_dec) g K) as [Hg|Hg].
    - rewrite <- HC. apply (PpmApi.table_pos V u0 m K); auto.
    - rewrite <- HC, PpmWf.table_none by auto. apply (@fle_refl R_field). }
  assert (HU : forall x, In x (PpmSpec.symbols V) -> 0 < (C [] x : R)).
  { intros x Hx.
    assert (I0 : In [] K). { apply (PpmProps.tracks_stands m u0 K C Ht). }
    destruct (PpmRefine.tracks_prob m u0 K C [] Ht I0) as [Pp _]. pose proof (Pp x Hx) as Px. apply flt_R in Px.
    pose proof (HN [] x Hx) as Nx. assert ((C [] x : R) <> 0); [|lra]. intro Z0. cbn [PpmSpec.prob] in Px.
    rewrite Z0 in Px. revert Px. change (0 < 0 / (PpmSpec.total V C [] : R) -> False). unfold Rdiv. lra. }
  intros mc diff u B d L N ls Hm Hd Hu HL HNn HSV HA HB1 HB2 HB3 One Top Hc He HBb.
  assert (AP : 0 < alpha) by (pose proof (exp_pos (- L)); lra).
  destruct (C77_path mc diff u B d L N alpha beta (S V) ls (back_off_path V C h)) as (ps & P1 & P2); try assumption; try lra; try lia.
  - right. lra.
  - apply path_ne.
  - apply path_ok_counts; assumption.
  - exists ps. split; [exact P1|].
    refine (eq_ind _ (fun z => Forall2 (stands_for _) ps z) P2 _ (C77_reference V alpha beta C AP HN HU h)).
Qed.

(** * The hypotheses are met *)

(** A model over two letters, default parameters, with errors of 2^-16: the bounds and the counts are
    as C77_answers asks, at the initial state. *)
Example C77_answers_hypotheses_met :
  let o := PpmReadModel.PpmOptions (F := R_field) 3 0 0 true 0 in
  let vocab := Some [[97%Z; 98%Z]] in
  exists m0, PpmRef.readable PpmCounter.reference_counter o PpmReadModel.NoModel vocab /\
  PpmReadModel.ppm_read PpmCounter.reference_counter o PpmReadModel.NoModel (PpmRead3.vocab_file vocab) = Ok m0 /\
  PpmRefine.served m0 [] [] m0 /\
  List.length (PpmModel.p_syms m0) = 2%nat /\
  (PpmReadModel.init_alpha o : R) = / 2 /\ (PpmReadModel.init_beta o : R) = 3 / 4 /\
  forall l K C, PpmProps.agrees PpmCounter.reference_counter o PpmReadModel.NoModel vocab [] l m0 K C ->
    PpmStruct.getZ K (PpmModel.p_start m0) = Some [0%Z] /\
    (forall g x, (C g x : R) = 0 \/ 1 <= (C g x : R)) /\
    (forall g, (PpmSpec.total 2 C g : R) <= exp 14) /\
    List.length (back_off_path 2 C [0%Z]) = 1%nat /\
    ppm_error (/ 2 ^ 41) (/ 2 ^ 16) (3 / 4) 3 1 <= 1.
Proof.
  intros o vocab.
  assert (Hr : PpmRef.readable PpmCounter.reference_counter o PpmReadModel.NoModel vocab).
  { split; [discriminate|]. cbn. discriminate. }
  destruct (PpmProps.C21_refines_reference R_field PpmCounter.reference_counter o PpmReadModel.NoModel vocab Hr) as (m0 & E & HS).
  exists m0. split; [exact Hr|]. split; [exact E|]. split; [constructor|].
  assert (Hsym : PpmModel.p_syms m0 = [97%Z; 98%Z]).
  { destruct (HS [] [] m0 (PpmRefine.served_none m0)) as (K & C & m1 & K0 & C0 & E1 & Hd & _).
    rewrite E in E1. injection E1 as <-. destruct Hd as (-> & _). reflexivity. }
  split; [rewrite Hsym; reflexivity|].
  split; [|split].
  - unfold PpmReadModel.init_alpha. assert (X : @fle R_field (PpmReadModel.po_alpha o) f0 = true) by (apply fle_R; cbn; lra).
    rewrite X. cbn [orb]. unfold PpmReadModel.k_alpha. change (1 / @ofZ R_field 2 = / 2). rewrite ofZ_R. lra.
  - unfold PpmReadModel.init_beta. assert (X : @fle R_field (PpmReadModel.po_beta o) f0 = true) by (apply fle_R; cbn; lra).
    rewrite X. cbn [orb]. unfold PpmReadModel.k_beta. change (@ofZ R_field 3 / @ofZ R_field 4 = 3 / 4). rewrite !ofZ_R. lra.
  - intros l K C (m1 & K0 & C0 & E1 & Hd & Hst & _ & Hrun & Hst' & _). rewrite E in E1. injection E1 as <-.
    cbn [PpmRef.ref_run] in Hrun. injection Hrun as <- <- <-. destruct Hd as (_ & HK & HC). rewrite Hsym in HC. cbn [List.length] in HC.
    split; [|split; [|split; [|split]]].
    + apply Hst.
    + intros g x. rewrite HC. unfold PpmRef.prior_counts. destruct (_ && _ && _); [right; cbn; lra | left; reflexivity].
    + intros g. rewrite total_rsum, HC. pose proof (exp_ineq1_le 14) as Ex.
      assert (B1 : forall x, (PpmRef.prior_counts (F := R_field) 2 g x : R) <= 1).
      { intro x. unfold PpmRef.prior_counts. destruct (_ && _ && _); cbn; lra. }
      unfold PpmSpec.symbols. cbn [seq map]. rewrite !rsum_cons. unfold rsum. cbn [fold_right].
      pose proof (B1 (Z.of_nat 0)). pose proof (B1 (Z.of_nat 1)). pose proof (B1 (Z.of_nat 2)). lra.
    + cbn [back_off_path]. assert (X : @feqb R_field (PpmSpec.total 2 C0 [0%Z]) f0 = true).
      { apply feqb_R. rewrite total_rsum, HC. unfold rsum. cbn. ring. }
      rewrite X. reflexivity.
    + cbn [ppm_error]. rewrite (pow_IZR 2 16), (pow_IZR 2 41). change (2 ^ Z.of_nat 16)%Z with 65536%Z.
      change (2 ^ Z.of_nat 41)%Z with 2199023255552%Z. cbn [INR]. lra.
Qed.
