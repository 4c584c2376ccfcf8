(** The arithmetic of the word model's weight vectors with rounding: cumulated costs of the words in
    lexicographic order, and probabilities of ranges of words as differences of them.  As in
    [RoundModel] every operation on finite doubles is an arbitrary function, to be any that is
    accurate enough (WordRoundSpec.v).  The recursion over back-off states is that of
    [WordModel.fill_weights] without the cache, which only stores what was computed before.  The
    Kahan compensation of line 190, which carries the rounding error of one addition into the next,
    is not modelled as such: instead NegLogSum may be a different function at every position and
    every state. *)
From Coq Require Import Reals.
From Verif Require Import Base Field FieldR LmModel HubModel LogModel RoundModel.
Local Open Scope R_scope.

Section WordRounded.
  Variable m : machine.
  Variable sums : nat -> nat -> machine.   (* NegLogSum at a state (by its distance from the end of the
                                              back-off path) and a position, with the compensation *)
  Variable diff : R -> R -> cost.     (* sfst::NegLogDiff(a, b) for finite a < b *)

  (** ngram_word_fst_model.cc:50-55 SafeNegLogDiff. *)
  Definition r_safe_diff (a b : cost) : cost :=
    if cge a b then PInf else match a, b with Fin x, Fin y => diff x y | _, _ => neg_log_diff a b end.

  (** A state of the model on a back-off path: its final weight, the weight of the arc of each word
      in lexicographic order ([None]: no such arc), and the weight of the back-off arc. *)
  Record level : Type := Level { lv_final : cost; lv_words : list (option cost); lv_back : cost }.

  (** lines 182-191, for a state with no back-off state: [cum] is weights[i - 1]. *)
  Fixpoint r_sum_up (k i : nat) (cum : cost) (ws : list (option cost)) : list cost :=
    match ws with
    | [] => []
    | w :: ws' =>
        let c := r_nls (sums k i) (match w with Some x => x | None => PInf end) cum in c :: r_sum_up k (S i) c ws'
    end.
  (** lines 182-191, with the cumulated weights of the back-off state: [bprev] is
      backoff_weights[i - 1]. *)
  Fixpoint r_sum_up_back (k i : nat) (g cum bprev : cost) (ws : list (option cost)) (back : list cost) : list cost :=
    match ws, back with
    | w :: ws', b :: back' =>
        let own := match w with Some x => x | None => r_add m g (r_safe_diff b bprev) end in
        let c := r_nls (sums k i) own cum in c :: r_sum_up_back k (S i) g c b ws' back'
    | _, _ => []
    end.
  Definition is_zero (c : cost) : bool := match c with PInf => true | _ => false end.
  (** ngram_word_fst_model.cc:141-192 FillWeightVector, for a state and the states it backs off to. *)
  Fixpoint r_fill (ls : list level) : list cost :=
    match ls with
    | [] => []
    | l :: rest =>
        match r_fill rest with
        | [] => lv_final l :: r_sum_up (length rest) 1 (lv_final l) (lv_words l)
        | b0 :: back =>
            let c0 := if is_zero (lv_final l) then r_add m b0 (lv_back l) else lv_final l in
            c0 :: r_sum_up_back (length rest) 1 (lv_back l) c0 b0 (lv_words l) back
        end
    end.

  (** ngram_word_fst_model.cc:410-422 GetRangeCost, for 1 <= b <= e within the vector. *)
  Definition r_range (cs : list cost) (b e : nat) : cost :=
    r_safe_diff (nth e cs PInf) (nth (b - 1) cs PInf).

  (** ngram_word_fst_model.cc:546-551: the costs of the ranges that end at [ends]. *)
  Fixpoint r_ranges (cs : list cost) (b : nat) (ends : list nat) : list cost :=
    match ends with [] => [] | e :: t => r_range cs b e :: r_ranges cs (S e) t end.
  (** ngram_word_fst_model.cc:546-555: the probabilities of the next characters inside a word (no
      end of word among them). *)
  Definition r_next_chars (cs : list cost) (b : nat) (ends : list nat) : outcome (list (num R_field)) :=
    let* l := r_softmax m (r_ranges cs b ends) in Ok (map (r_exp_neg m) l).

  (** ngram_word_fst_model.cc:521-530: the cost of the end of a word is split between a space and the
      end of the string. *)
  Definition r_boundary (word_boundary final : cost) : cost * cost :=
    (r_add m word_boundary (r_safe_diff (Fin 0) final), r_add m word_boundary final).

  (** ngram_word_fst_model.cc:499-548: what comes before the ranges of an answer.  [AtEnd final]: the
      first character is a space and the next model state has the (backed-off) final cost [final],
      not infinity; [AtStart]: the state is one of the model itself, whose final cost, element 0 of
      the weight vector, is not infinity; [Inside]: otherwise. *)
  Inductive head : Type := Inside | AtEnd (final : cost) | AtStart.
  Definition r_answer_costs (cs : list cost) (b : nat) (ends : list nat) (h : head) : list cost :=
    match h, ends with
    | AtEnd f, e :: t =>
        let '(space, stop) := r_boundary (r_range cs b e) f in space :: stop :: r_ranges cs (S e) t
    | AtStart, _ => nth 0 cs PInf :: r_ranges cs b ends
    | _, _ => r_ranges cs b ends
    end.
  (** ngram_word_fst_model.cc:478-556 ExtractLMScores, the probabilities. *)
  Definition r_answer (cs : list cost) (b : nat) (ends : list nat) (h : head) : outcome (list (num R_field)) :=
    let* l := r_softmax m (r_answer_costs cs b ends h) in Ok (map (r_exp_neg m) l).
End WordRounded.
