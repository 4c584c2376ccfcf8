(** Properties C01-C03: the LanguageModel helpers (language_model.cc). *)
From Verif Require Import Base Field LmModel LmProofs.

(** * C01 *)

(** The three equations below determine [context_state] completely: the empty context stays
    (or goes to the start state from a negative state), one symbol is one NextState call with
    recovery to the start state, and contexts compose. The model's memory [M] is threaded. *)
Theorem C01_context_empty : forall M (next : M -> Z -> Z -> outcome (Z * M)) start m s,
  context_state next start m [] s = Ok (if (s <? 0)%Z then start else s, m).
Proof. reflexivity. Qed.
Print Assumptions C01_context_empty.

Theorem C01_context_one : forall M (next : M -> Z -> Z -> outcome (Z * M)) start m s c,
  (0 <= s)%Z ->
  context_state next start m [c] s =
  match next m s c with
  | Ok (s', m') => Ok (if (s' <? 0)%Z then start else s', m')
  | Err => Err | Crash => Crash | UB => UB
  end.
Proof.
  intros M next start m s c Hs. unfold context_state.
  destruct (Z.ltb_spec s 0); [lia|]. simpl. destruct (next m s c) as [[s' m']| | |]; reflexivity.
Qed.
Print Assumptions C01_context_one.

Theorem C01_context_compose : forall M (next : M -> Z -> Z -> outcome (Z * M)) start m s x y,
  (0 <= start)%Z ->
  context_state next start m (x ++ y) s =
  match context_state next start m x s with
  | Ok (s', m') => context_state next start m' y s'
  | Err => Err | Crash => Crash | UB => UB
  end.
Proof. intros M next start m s x y H. exact (context_state_app next start m s x y H). Qed.
Print Assumptions C01_context_compose.

Theorem C01_context_state_nonneg :
  forall M (next : M -> Z -> Z -> outcome (Z * M)) start m ctx s s' m',
  (0 <= start)%Z -> context_state next start m ctx s = Ok (s', m') -> (0 <= s')%Z.
Proof. intros M next start m ctx s s' m'. exact (context_state_nonneg next start m s ctx s' m'). Qed.
Print Assumptions C01_context_state_nonneg.

(** A walk that leaves the vocabulary in the middle and recovers. *)
Example C01_example :
  let next := fun (_ : unit) (_ : Z) (c : Z) => Ok (if (c <? 10)%Z then c else (-1)%Z, tt) in
  context_state next 0 tt [3; 50; 4]%Z (-1)%Z = Ok (4%Z, tt) /\
  context_state next 0 tt [3; 50]%Z 7%Z = Ok (0%Z, tt).
Proof. split; reflexivity. Qed.

(** * C02 *)

(** For [0 < k < n] the reply consists of [k] of the entries, most probable first,
    and nothing left out is more probable than anything returned — whatever order
    std::sort leaves ties in. *)
Theorem C02_top_k : forall (F : ofield) S (sort : list (car F * S) -> list (car F * S)),
  sort_spec sort ->
  forall probs syms k,
  length probs = length syms -> (0 < k < Z.of_nat (length probs))%Z ->
  exists best rest,
    get_top_hypotheses sort probs syms k = Ok best /\
    Z.of_nat (length best) = k /\
    Permutation (combine probs syms) (best ++ rest) /\
    StronglySorted (fun a b => fle (fst b) (fst a) = true) best /\
    (forall x y, In x best -> In y rest -> fle (fst y) (fst x) = true).
Proof. intros F S sort H probs syms k. exact (top_hyps_ok sort H probs syms k). Qed.
Print Assumptions C02_top_k.

(** [k = 0] (the default) or negative returns everything, sorted. *)
Theorem C02_top_all : forall (F : ofield) S (sort : list (car F * S) -> list (car F * S)),
  sort_spec sort ->
  forall probs syms k,
  length probs = length syms -> (k <= 0)%Z -> probs <> [] ->
  exists all,
    get_top_hypotheses sort probs syms k = Ok all /\
    Permutation (combine probs syms) all /\
    StronglySorted (fun a b => fle (fst b) (fst a) = true) all.
Proof. intros F S sort H probs syms k. exact (top_hyps_all sort H probs syms k). Qed.
Print Assumptions C02_top_all.

(** Errors exactly on mismatched lengths, no entries, or [k >= n]. *)
Theorem C02_errors_exactly : forall (F : ofield) S (sort : list (car F * S) -> list (car F * S))
  probs syms k,
  length probs <> length syms \/ (Z.of_nat (length probs) <= k)%Z \/ probs = [] <->
  get_top_hypotheses sort probs syms k = Err.
Proof. intros F S sort probs syms k. exact (top_hyps_err sort probs syms k). Qed.
Print Assumptions C02_errors_exactly.

(** The documented "k best" for [k = n] is refused: asking for as many hypotheses as there
    are is an error (language_model.cc:51 uses <= for <). *)
Theorem C02_k_equal_n_refuted :
  exists (probs : list (car Qc_field)) (syms : list Z) k,
    length probs = length syms /\ (0 < k)%Z /\ Z.of_nat (length probs) = k /\
    get_top_hypotheses sort_desc probs syms k = Err.
Proof. exists [q 1 2; q 1 2], [97; 98]%Z, 2%Z. repeat split. Qed.
Print Assumptions C02_k_equal_n_refuted.

Theorem C02_sort_exists : forall (F : ofield) S, sort_spec (@sort_desc F S).
Proof. intros F S. exact sort_desc_spec. Qed.
Print Assumptions C02_sort_exists.

Example C02_example :
  get_top_hypotheses sort_desc [q 1 10; q 4 10; q 2 10; q 3 10] [10; 40; 20; 30]%Z 2
  = Ok [(q 4 10, 40%Z); (q 3 10, 30%Z)].
Proof. vmr. Qed.

(** * C03 *)

(** On non-negative probabilities of which one is positive, the result is defined,
    sums to one, and each element is its old value over the common total (so ratios are
    kept and zeros stay zero). *)
Theorem C03_softmax_distribution : forall (F : ofield) (l : list (car F)),
  (forall x, In x l -> fle f0 x = true) ->
  (exists x, In x l /\ flt f0 x = true) ->
  exists out : list (car F),
    softmax_renormalize l = Ok (map Val out) /\
    fsum out = f1 /\
    exists total, flt f0 total = true /\ l = map (fun x => fmul x total) out /\
      (forall x, In x out -> fle f0 x = true).
Proof.
  intros F l. exact (softmax_distribution l).
Qed.
Print Assumptions C03_softmax_distribution.

(** The empty vector is read out of bounds. *)
Theorem C03_softmax_empty_refuted : softmax_renormalize (F := Qc_field) [] = UB.
Proof. reflexivity. Qed.
Print Assumptions C03_softmax_empty_refuted.

Example C03_example :
  softmax_renormalize [q 1 2; q 1 4; q 0 1; q 1 4; q 1 1]
  = Ok (map Val [q 1 4; q 1 8; q 0 1; q 1 8; q 1 2]).
Proof. vmr. Qed.
