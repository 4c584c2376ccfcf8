(** The arithmetic of ngram_char_fst_model.cc with rounding: the automaton of [NgramModel] with its
    weights as they are stored (TropicalWeight: negative logarithms in single precision), Times as a
    rounded addition, and the renormalisation in doubles as in [RoundModel]. *)
From Coq Require Import ZArith Reals.
From Verif Require Import Base Field FieldR LmModel HubModel LogModel RoundModel NgramModel.
Local Open Scope Z_scope.

(** fst::StdArc and a state of fst::StdVectorFst. *)
Record carc : Type := CArc { ca_label : Z; ca_weight : cost; ca_next : Z }.
Record cstate : Type := CState { cs_arcs : list carc; cs_final : cost }.

Section Rounded.
  Variable plus : R -> R -> R.     (* the addition of two finite floats *)
  Variable m : machine.            (* doubles *)

  (** fst::Times of two tropical weights (OpenFst float-weight.h): infinity absorbs. *)
  Definition f_times (a b : cost) : cost :=
    match a, b with Fin x, Fin y => Fin (plus x y) | _, _ => cadd a b end.
  (** Weight::One(), Weight::Zero(). *)
  Definition w_one : cost := Fin 0%R.
  Definition w_zero : cost := PInf.
  Definition is_zero (c : cost) : bool := match c with PInf => true | _ => false end.

  (** ngram_fst_model.h:62-73, as in [ngram]. *)
  Record cngram : Type := CNgram {
    cn_fst : list cstate; cn_start : Z; cn_syms : list (Z * str); cn_oov : Z; cn_unigram : Z
  }.

  (** fst::SortedMatcher, as in [matcher_find]: the weight of the arc found. *)
  Definition c_matcher_find (st : cstate) (label : Z) : option cost :=
    if label =? 0 then Some w_one
    else match find (fun a => ca_label a =? (if label =? -1 then 0 else label)) (cs_arcs st) with
         | Some a => Some (ca_weight a)
         | None => None
         end.
  (** ngram_fst_model.cc:110-128 GetBackoff. *)
  Definition c_backoff (f : list cstate) (s : Z) : outcome (Z * cost) :=
    if s =? -1 then Ok (-1, w_one)
    else
      let* st := vgetZ f s in
      match find (fun a => (ca_label a =? 0) && negb (ca_next a =? s)) (cs_arcs st) with
      | Some a => Ok (ca_next a, ca_weight a)
      | None => Ok (-1, w_one)
      end.
  (** ngram_fst_model.cc:89-98 CheckCurrentState. *)
  Definition c_check_state (n : cngram) (s : Z) : Z :=
    if s =? -1 then (if cn_unigram n =? -1 then cn_start n else cn_unigram n) else s.
  (** ngram_char_fst_model.cc:34-42 SymLabel. *)
  Definition c_sym_label (n : cngram) (c : Z) : Z :=
    if c =? 0 then c
    else let label := find_label (cn_syms n) [c] in if label =? -1 then cn_oov n else label.

  (** ngram_char_fst_model.cc:102-119 FinalCostInState. *)
  Fixpoint c_final_loop (fuel : nat) (f : list cstate) (s : Z) (bo : cost) : outcome cost :=
    match fuel with
    | O => UB
    | S fuel' =>
        let* (b, g) := c_backoff f s in
        let bo' := f_times bo g in
        if 0 <=? b then
          let* st := vgetZ f b in
          if is_zero (cs_final st) then c_final_loop fuel' f b bo' else Ok (f_times (cs_final st) bo')
        else Ok w_zero
    end.
  Definition c_final_cost (f : list cstate) (s : Z) : outcome cost :=
    let* st := vgetZ f s in
    if is_zero (cs_final st) then c_final_loop (S (length f)) f s w_one else Ok (cs_final st).

  (** ngram_char_fst_model.cc:80-100 LabelCostInState. *)
  Fixpoint c_label_loop (fuel : nat) (f : list cstate) (s label : Z) (acc : cost) : outcome cost :=
    if s <? 0 then Ok w_zero
    else match fuel with
         | O => UB
         | S fuel' =>
             let* st := vgetZ f s in
             match c_matcher_find st label with
             | Some w => Ok (f_times acc w)
             | None => let* (b, g) := c_backoff f s in c_label_loop fuel' f b label (f_times acc g)
             end
         end.
  Definition c_label_cost (f : list cstate) (s label : Z) : outcome cost :=
    if label =? 0 then c_final_cost f s else c_label_loop (S (length f)) f s label w_one.

  (** ngram_char_fst_model.cc:76-78 SymLMScore. *)
  Definition c_score (n : cngram) (s c : Z) : outcome cost := c_label_cost (cn_fst n) s (c_sym_label n c).

  (** ngram_char_fst_model.cc:49-74 ExtractLMScores (cost.Value(), a float, is exact as a double). *)
  Fixpoint c_label_costs (f : list cstate) (s : Z) (labels : list Z) : outcome (list cost) :=
    match labels with
    | [] => Ok []
    | l :: t => let* c := c_label_cost f s l in let* cs := c_label_costs f s t in Ok (c :: cs)
    end.
  Definition c_extract (n : cngram) (s : Z) : outcome (list (str * num R_field)) :=
    let s := c_check_state n s in
    let labels := map fst (tl (cn_syms n)) in
    let* c0 := c_label_cost (cn_fst n) s 0 in
    let* cs := c_label_costs (cn_fst n) s labels in
    let* costs := r_softmax m (c0 :: cs) in
    Ok (combine ([] :: map (find_symbol (cn_syms n)) labels) (map (r_exp_neg m) costs)).
End Rounded.
