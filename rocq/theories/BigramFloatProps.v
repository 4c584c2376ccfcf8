(** Property C68: the simple bigram character model in IEEE double arithmetic. *)
From Coq Require Import ZArith Reals Lra.
From Flocq Require Import Core BinarySingleNaN.
From Coq Require Import Ascii String List Lia Sorted.
From Verif Require Import Base Field LmModel TextModel BigramModel BigramProofs BigramReadProofs
  BigramFloatModel BigramFloatNum BigramFloatProofs.
Close Scope string_scope.
Open Scope list_scope.
Local Notation length := List.length.
Local Open Scope Z_scope.

(** [d_bigram_read vf cf = Ok m0]: a model was loaded; [d_bigram_run m0 h = Ok m]: [m] is that
    model after the history [h] of UpdateLMCounts calls.  [val p] is the real number the double
    [p] stands for, [finite p] says that it is neither infinite nor NaN.  [loaded_from] (C08)
    relates the files to the vocabulary [v] and the initial counts [C0]; [learned] (C05) adds up
    what the history taught. *)

(** The counts behind the reply for state [s], and their total. *)
Definition counts_in (v : list Z) (C0 : Z -> Z -> Z) (h : list bg_call) (s c : Z) : Z :=
  C0 (state_symbol v s) c + learned v h (state_symbol v s) c.
Definition total_in (v : list Z) (C0 : Z -> Z -> Z) (h : list bg_call) (s : Z) : Z :=
  zsum (map (counts_in v C0 h s) v).

(** The nearest double to a real number (ties to even). *)
Definition nearest (x : R) : R := round radix2 (FLT_exp (-1074) 53) ZnearestE x.

(** C++ [<] on doubles. *)
Definition d_lt (x y : double) : bool := Bltb x y.

Lemma loaded_sim vf cf h m0 m :
  d_bigram_read vf cf = Ok m0 -> d_bigram_run m0 h = Ok m ->
  exists v C0 e, loaded_from vf cf v C0 /\ sim m e /\ repr e v (fun a c => C0 a c + learned v h a c).
Proof.
  intros E1 E2. pose proof (sim_read vf cf) as S. rewrite E1 in S.
  inversion S as [a e0 S0 H1 H2| | |]; subst.
  destruct (read_loaded vf cf e0 (eq_sym H2)) as [v [C0 [R L]]].
  pose proof (sim_run h m0 e0 S0) as S'. rewrite E2 in S'.
  inversion S' as [a e S1 H3 H4| | |]; subst.
  exists v, C0, e. split; [exact L|]. split; [exact S1|].
  exact (proj1 (run_repr h e0 v C0 R) e (eq_sym H4)).
Qed.

Lemma count_le_sum (f : Z -> Z) c v : In c v -> (forall x, In x v -> 1 <= f x) -> f c <= zsum (map f v).
Proof.
  intros Hc H. induction v as [|x v IH]; [destruct Hc|]. cbn [map zsum fold_right]. fold (zsum (map f v)).
  assert (0 <= zsum (map f v)).
  { destruct v as [|y v]; [simpl; lia|]. pose proof (zsum_pos f (y :: v)) as P.
    assert (1 <= zsum (map f (y :: v))) by (apply P; [discriminate|intros z Hz; apply H; right; exact Hz]). lia. }
  destruct Hc as [->|Hc]; [lia|].
  assert (f c <= zsum (map f v)) by (apply IH; [exact Hc|intros z Hz; apply H; right; exact Hz]).
  specialize (H x (or_introl eq_refl)). lia.
Qed.

Lemma two_counts_le_sum (f : Z -> Z) c d v : In c v -> In d v -> c <> d -> (forall x, In x v -> 1 <= f x) ->
  f c + f d <= zsum (map f v).
Proof.
  intros Hc Hd N H. induction v as [|x v IH]; [destruct Hc|]. cbn [map zsum fold_right]. fold (zsum (map f v)).
  assert (H' : forall y, In y v -> 1 <= f y) by (intros y Hy; apply H; right; exact Hy).
  specialize (H x (or_introl eq_refl)).
  destruct Hc as [->|Hc], Hd as [->|Hd].
  - congruence.
  - pose proof (count_le_sum f d v Hd H'). lia.
  - pose proof (count_le_sum f c v Hc H'). lia.
  - specialize (IH Hc Hd H'). lia.
Qed.

(** ** Correct rounding *)

(** As long as the counts of a state total at most 2^53, its reply lists every symbol of the
    vocabulary with the double nearest to its relative frequency, and the normalization is the
    exact total. *)
Theorem C68_correctly_rounded :
  forall vf cf m0 h m s,
  d_bigram_read vf cf = Ok m0 -> d_bigram_run m0 h = Ok m ->
  exists v C0 norm scores,
    loaded_from vf cf v C0 /\ d_extract_lm_scores m s = Ok (norm, scores) /\ map fst scores = v /\
    (total_in v C0 h s <= 2 ^ 53 ->
     finite norm = true /\ val norm = IZR (total_in v C0 h s) /\
     forall c p, In (c, p) scores ->
       finite p = true /\
       val p = nearest (IZR (counts_in v C0 h s c) / IZR (total_in v C0 h s))).
Proof.
  intros vf cf m0 h m s E1 E2. destruct (loaded_sim vf cf h m0 m E1 E2) as [v [C0 [e [L [S R]]]]].
  destruct (d_extract_repr m e v _ s S R) as [norm [N [Ha E]]].
  eexists v, C0, norm, _. split; [exact L|]. split; [exact E|]. split.
  { rewrite map_map. cbn [fst]. apply map_id. }
  intros T. split; [apply N|]. split; [apply N; exact T|].
  intros c p Hp. apply in_map_iff in Hp. destruct Hp as [c' [Ep Hc]]. injection Ep as <- <-.
  apply (quotient_rounded _ norm (total_in v C0 h s)); [|exact T|exact N].
  split; [apply (repr_pos _ _ _ R); auto|].
  apply (count_le_sum (counts_in v C0 h s)); [exact Hc|].
  intros x Hx. apply (repr_pos _ _ _ R); auto.
Qed.
Print Assumptions C68_correctly_rounded.

(** ** What follows for the reader of a reply *)

Definition rsum (l : list R) : R := fold_right Rplus 0%R l.

Lemma rsum_counts (f : Z -> Z) n v : n <> 0 ->
  rsum (map (fun c => IZR (f c) / IZR n)%R v) = (IZR (zsum (map f v)) / IZR n)%R.
Proof.
  intros Hn. assert (IZR n <> 0%R) by (apply IZR_neq; exact Hn).
  induction v as [|x v IH]; [cbn; field; auto|].
  cbn [map rsum fold_right zsum]. fold (rsum (map (fun c => IZR (f c) / IZR n)%R v)). fold (zsum (map f v)).
  rewrite IH, plus_IZR. field. exact H.
Qed.

Lemma rsum_close l1 l2 k : Forall2 (fun x y => Rabs (x - y) <= y * k)%R l1 l2 ->
  (Rabs (rsum l1 - rsum l2) <= rsum l2 * k)%R.
Proof.
  induction 1 as [|x y l1 l2 H _ IH].
  - unfold rsum; cbn [fold_right]. rewrite Rminus_0_r, Rabs_R0. lra.
  - cbn [rsum fold_right]. fold (rsum l1) (rsum l2).
    replace (x + rsum l1 - (y + rsum l2))%R with ((x - y) + (rsum l1 - rsum l2))%R by ring.
    eapply Rle_trans; [apply Rabs_triang|]. lra.
Qed.

Lemma Forall2_maps {A B D} (P : B -> D -> Prop) (f : A -> B) (g : A -> D) l :
  (forall x, In x l -> P (f x) (g x)) -> Forall2 P (map f l) (map g l).
Proof. intros H. induction l as [|x l IH]; cbn [map]; constructor; auto using in_eq, in_cons. Qed.

(** With a total of at most 2^53: every probability is a number in (0, 1], within a relative
    error of 2^-53 of the true relative frequency; the probabilities of a reply sum to one up
    to 2^-53; and the reply orders the symbols exactly as their counts: [p < p'] as doubles if
    and only if the count is smaller, and equal counts have the same probability. *)
Theorem C68_close_and_ordered :
  forall vf cf m0 h m s norm scores,
  d_bigram_read vf cf = Ok m0 -> d_bigram_run m0 h = Ok m ->
  d_extract_lm_scores m s = Ok (norm, scores) ->
  exists v C0, loaded_from vf cf v C0 /\ map fst scores = v /\
    (total_in v C0 h s <= 2 ^ 53 ->
     (forall c p, In (c, p) scores ->
        let freq := (IZR (counts_in v C0 h s c) / IZR (total_in v C0 h s))%R in
        (0 < val p <= 1)%R /\ (Rabs (val p - freq) <= freq * / IZR (2 ^ 53))%R) /\
     (Rabs (rsum (map (fun e => val (snd e)) scores) - 1) <= / IZR (2 ^ 53))%R /\
     (forall c p c' p', In (c, p) scores -> In (c', p') scores ->
        (d_lt p p' = true <-> counts_in v C0 h s c < counts_in v C0 h s c') /\
        (counts_in v C0 h s c = counts_in v C0 h s c' -> p = p'))).
Proof.
  intros vf cf m0 h m s norm0 scores E1 E2 E3. destruct (loaded_sim vf cf h m0 m E1 E2) as [v [C0 [e [L [S R]]]]].
  destruct (d_extract_repr m e v _ s S R) as [norm [N [Ha E]]].
  rewrite E in E3. injection E3 as <- <-.
  exists v, C0. split; [exact L|]. split; [rewrite map_map; cbn [fst]; apply map_id|]. intros T.
  fold (counts_in v C0 h s) in *. set (f := counts_in v C0 h s) in *. set (n := total_in v C0 h s) in *.
  assert (Hf : forall x, In x v -> 1 <= f x) by (intros x Hx; apply (repr_pos _ _ _ R); auto).
  assert (Hle : forall x, In x v -> f x <= n) by (intros x Hx; apply count_le_sum; auto).
  assert (Hn : 1 <= n) by (apply zsum_pos; [apply (repr_ne _ _ _ R)|exact Hf]).
  assert (Q : forall x, In x v -> finite (d_div (d_of_Z (f x)) norm) = true /\
                                val (d_div (d_of_Z (f x)) norm) = rnd (IZR (f x) / IZR n)).
  { intros x Hx. apply quotient_rounded; [|exact T|exact N]. split; auto. }
  split; [|split].
  - intros c p Hp freq. apply in_map_iff in Hp. destruct Hp as [c' [Ep Hc]]. injection Ep as <- <-.
    destruct (Q c' Hc) as [_ V]. change (C0 (state_symbol v s) c' + learned v h (state_symbol v s) c') with (f c').
    rewrite V. split; [apply quotient_bounds; auto|]. apply quotient_relative; auto.
  - rewrite map_map. cbn [snd].
    replace 1%R with (rsum (map (fun c => IZR (f c) / IZR n)%R v)).
    2:{ rewrite rsum_counts by lia. fold f. change (zsum (map f v)) with n. field. apply IZR_neq. lia. }
    eapply Rle_trans; [apply (rsum_close _ _ (/ IZR (2 ^ 53))%R)|].
    + apply Forall2_maps. intros x Hx.
      change (C0 (state_symbol v s) x + learned v h (state_symbol v s) x) with (f x).
      rewrite (proj2 (Q x Hx)). apply quotient_relative; auto.
    + rewrite rsum_counts by lia. change (zsum (map f v)) with n.
      apply Req_le. field. split; apply IZR_neq; lia.
  - intros c p c' p' Hp Hp'. apply in_map_iff in Hp, Hp'.
    destruct Hp as [x [Ep Hx]], Hp' as [y [Ep' Hy]]. injection Ep as <- <-. injection Ep' as <- <-.
    change (C0 (state_symbol v s) x + learned v h (state_symbol v s) x) with (f x).
    change (C0 (state_symbol v s) y + learned v h (state_symbol v s) y) with (f y).
    destruct (Q x Hx) as [Fx Vx], (Q y Hy) as [Fy Vy].
    split; [|intros ->; reflexivity].
    unfold d_lt, finite, val in *. rewrite (Bltb_correct _ _ _ _ Fx Fy).
    assert (K : forall a b, In a v -> In b v -> f a < f b -> (rnd (IZR (f a) / IZR n) < rnd (IZR (f b) / IZR n))%R).
    { intros a b Hia Hib Hlt. apply quotient_lt; auto. apply (two_counts_le_sum f a b v); auto. intros ->. lia. }
    rewrite Vx, Vy. split.
    + intros B. apply Rlt_bool_true_iff in B || (destruct (Rlt_bool_spec (rnd (IZR (f x) / IZR n)) (rnd (IZR (f y) / IZR n))) as [B'|B']; [|discriminate]).
      destruct (Z.lt_trichotomy (f x) (f y)) as [G|[G|G]]; [exact G| |].
      * rewrite G in B'. lra.
      * specialize (K y x Hy Hx G). lra.
    + intros G. apply Rlt_bool_true. apply K; auto.
Qed.
Print Assumptions C68_close_and_ordered.

(** ** Without any bound on the counts *)

(** Whatever was loaded and learned, no reply contains an infinity, a NaN or a zero, and the
    normalization is a finite number of at least one. *)
Theorem C68_always_finite :
  forall vf cf m0 h m s,
  d_bigram_read vf cf = Ok m0 -> d_bigram_run m0 h = Ok m ->
  exists norm scores,
    d_extract_lm_scores m s = Ok (norm, scores) /\ finite norm = true /\ (1 <= val norm)%R /\
    (forall c p, In (c, p) scores -> finite p = true /\ (0 < val p)%R).
Proof.
  intros vf cf m0 h m s E1 E2. destruct (loaded_sim vf cf h m0 m E1 E2) as [v [C0 [e [L [S R]]]]].
  destruct (d_extract_repr m e v _ s S R) as [norm [N [Ha E]]].
  assert (Hn : 1 <= total_in v C0 h s).
  { apply zsum_pos; [apply (repr_ne _ _ _ R)|]. intros x Hx. apply (repr_pos _ _ _ R); auto. }
  eexists norm, _. split; [exact E|]. split; [apply N|]. split.
  - destruct N as [_ [_ [H1 H2]]]. destruct (Z.le_gt_cases (total_in v C0 h s) (2 ^ 53)) as [T|T].
    + rewrite (H1 T). apply (IZR_le 1). exact Hn.
    + destruct (H2 ltac:(unfold total_in, counts_in in T; lia)) as [A _]. apply Rle_trans with (2 := A). apply (IZR_le 1). lia.
  - intros c p Hp. apply in_map_iff in Hp. destruct Hp as [x [Ep Hx]]. injection Ep as <- <-.
    apply (quotient_positive _ norm (total_in v C0 h s)); [|exact N|exact Hn].
    pose proof (sim_ok _ _ S) as O. rewrite (sim_counts _ _ S), (repr_counts _ _ _ R) in O.
    rewrite Forall_forall in O. specialize (O _ (in_map _ _ _ Ha)). unfold row_ok in O.
    rewrite Forall_forall in O. apply O. apply (in_map (fun c => C0 (state_symbol v s) c + learned v h (state_symbol v s) c)).
    exact Hx.
Qed.
Print Assumptions C68_always_finite.

(** The score of a single symbol is computed from the very double the reply lists for it. *)
Theorem C68_symbol_score_agrees :
  forall vf cf m0 h m s norm scores c p,
  d_bigram_read vf cf = Ok m0 -> d_bigram_run m0 h = Ok m ->
  d_extract_lm_scores m s = Ok (norm, scores) -> In (c, p) scores ->
  d_sym_lm_score m s c = Ok p.
Proof.
  intros vf cf m0 h m s norm0 scores c p E1 E2 E3 Hp. destruct (loaded_sim vf cf h m0 m E1 E2) as [v [C0 [e [L [S R]]]]].
  destruct (d_extract_repr m e v _ s S R) as [norm [N [Ha E]]].
  pose proof E3 as E4. rewrite E in E3. injection E3 as <- <-.
  apply in_map_iff in Hp. destruct Hp as [x [Ep Hx]]. injection Ep as <- <-.
  apply (d_sym_repr m e v _ s x S R Hx _ _ E4).
Qed.
Print Assumptions C68_symbol_score_agrees.

(** Loading and learning succeed and fail exactly as with exact arithmetic, so the theorems
    about loading (C08) and overflow (C09) hold of the double-precision code as well. *)
Theorem C68_same_outcomes :
  forall vf cf,
  ((exists m, d_bigram_read vf cf = Ok m) <-> (exists m, bigram_read vf cf = Ok m)) /\
  (d_bigram_read vf cf = Err <-> bigram_read vf cf = Err) /\
  (d_bigram_read vf cf = Crash <-> bigram_read vf cf = Crash) /\
  (d_bigram_read vf cf = UB <-> bigram_read vf cf = UB) /\
  forall dm em h, d_bigram_read vf cf = Ok dm -> bigram_read vf cf = Ok em ->
    ((exists m, d_bigram_run dm h = Ok m) <-> (exists m, bigram_run em h = Ok m)) /\
    (forall d e, d_bigram_run dm h = Ok d -> bigram_run em h = Ok e -> d_counts d = bigram_counts e).
Proof.
  intros vf cf. pose proof (sim_read vf cf) as S.
  assert (K : forall A B (P : A -> B -> Prop) x y, orel P x y ->
     ((exists a, x = Ok a) <-> (exists b, y = Ok b)) /\ (x = Err <-> y = Err) /\ (x = Crash <-> y = Crash) /\ (x = UB <-> y = UB)).
  { intros A B P x y H. destruct H; repeat split; intros; try discriminate; eauto; match goal with H : exists _, _ |- _ => destruct H; discriminate end. }
  destruct (K _ _ _ _ _ S) as [K1 [K2 [K3 K4]]]. repeat (split; [assumption|]).
  intros dm em h E1 E2. rewrite E1, E2 in S. inversion S as [a b S0 H1 H2| | |]; subst.
  pose proof (sim_run h dm em S0) as Q. split; [apply (K _ _ _ _ _ Q)|].
  intros d e E3 E4. rewrite E3, E4 in Q. inversion Q as [a b S1 H1 H2| | |]; subst. apply (sim_counts _ _ S1).
Qed.
Print Assumptions C68_same_outcomes.

(** ** Beyond 2^53 *)

(** A count file may contain counts whose total exceeds 2^53.  The normalizer then loses the
    smaller addends: after two more observations the probability of a symbol exceeds one (its
    SymLMScore, the negative logarithm, is negative). *)
Definition big_vocab : file_arg := Some (Some (list_ascii_of_string "97
98
")).
Definition big_counts : file_arg := Some (Some (list_ascii_of_string "9007199254740992 1
1 1
")).

Theorem C68_probability_above_one_refuted :
  exists m0 m norm p q,
    d_bigram_read big_vocab big_counts = Ok m0 /\
    d_bigram_run m0 [(0, [97], 1); (0, [97], 1)] = Ok m /\
    d_extract_lm_scores m 0 = Ok (norm, [(97, p); (98, q)]) /\
    d_lt (d_of_Z 1) p = true /\ finite p = true.
Proof.
  assert (K : match d_bigram_read big_vocab big_counts with
              | Ok m0 => match d_bigram_run m0 [(0, [97], 1); (0, [97], 1)] with
                         | Ok m => match d_extract_lm_scores m 0 with
                                   | Ok (_, [(97, p); (98, q)]) => d_lt (d_of_Z 1) p && finite p
                                   | _ => false end
                         | _ => false end
              | _ => false end = true) by vmr.
  destruct (d_bigram_read big_vocab big_counts) as [m0| | |]; try discriminate.
  destruct (d_bigram_run m0 _) as [m| | |] eqn:E; try discriminate.
  destruct (d_extract_lm_scores m 0) as [[norm [|[c p] [|[d q] [|? ?]]]]| | |] eqn:E'; try discriminate;
    repeat (match type of K with context [match ?x with _ => _ end] => is_var x; destruct x; try discriminate end).
  all: apply andb_prop in K; destruct K as [K1 K2]; exists m0, m, norm, p, q; auto.
Qed.
Print Assumptions C68_probability_above_one_refuted.

(** ** A case that meets the hypotheses *)

Definition ex_vocab : file_arg := Some (Some (list_ascii_of_string "32
97
98
")).
Definition ex_counts : file_arg := Some (Some (list_ascii_of_string "1 5 1
2 1 3
1 1 1
")).
Definition ex_history : list bg_call := [(1, [98; 97], 2); (7, [97; 120; 32], 1); (1, [97], -3)].

(** After these calls the counts behind "a" are 2, 1 and 3 + 2: the reply is 1/4, 1/8 and 5/8. *)
Example C68_example :
  exists m0 m norm scores,
    d_bigram_read ex_vocab ex_counts = Ok m0 /\ d_bigram_run m0 ex_history = Ok m /\
    d_extract_lm_scores m 1 = Ok (norm, scores) /\
    map fst scores = [32; 97; 98] /\ B2SF norm = B2SF (d_of_Z 8) /\
    map (fun e => B2SF (snd e)) scores =
      [B2SF (d_div (d_of_Z 2) (d_of_Z 8)); B2SF (d_div (d_of_Z 1) (d_of_Z 8)); B2SF (d_div (d_of_Z 5) (d_of_Z 8))].
Proof.
  assert (K : (let* m0 := d_bigram_read ex_vocab ex_counts in
               let* m := d_bigram_run m0 ex_history in
               let* (norm, scores) := d_extract_lm_scores m 1 in
               Ok (map fst scores, B2SF norm, map (fun e => B2SF (snd e)) scores)) =
              Ok ([32; 97; 98], B2SF (d_of_Z 8),
                  [B2SF (d_div (d_of_Z 2) (d_of_Z 8)); B2SF (d_div (d_of_Z 1) (d_of_Z 8));
                   B2SF (d_div (d_of_Z 5) (d_of_Z 8))])) by vmr.
  apply bind_Ok in K. destruct K as [m0 [E1 K]]. apply bind_Ok in K. destruct K as [m [E2 K]].
  apply bind_Ok in K. destruct K as [[norm scores] [E3 K]].
  exists m0, m, norm, scores. split; [exact E1|]. split; [exact E2|]. split; [exact E3|].
  remember (B2SF (d_of_Z 8)) as x8. remember (B2SF (d_div (d_of_Z 2) (d_of_Z 8))) as y2.
  remember (B2SF (d_div (d_of_Z 1) (d_of_Z 8))) as y1. remember (B2SF (d_div (d_of_Z 5) (d_of_Z 8))) as y5.
  clear - K. injection K as K1 K2 K3. auto.
Qed.

(** A total below the bound: no files, after learning "th" three times. *)
Example C68_example_total :
  loaded_from None None default_vocab (fun _ _ => 1) /\
  total_in default_vocab (fun _ _ => 1) [(0, [116; 104], 3)] 21 = 31 /\
  counts_in default_vocab (fun _ _ => 1) [(0, [116; 104], 3)] 21 104 = 4.
Proof. split; [split; reflexivity|]. split; vm_compute; reflexivity. Qed.
