(** Model of mozolm/models/language_model.cc (the LanguageModel base class helpers). *)
From Verif Require Import Base Field.

(** A [double] of the code seen in the probability domain: a value, or NaN
    (produced by [inf - inf] on costs, i.e. 0/0 on probabilities). *)
Inductive num (F : ofield) : Type :=
| Val (x : car F)
| NaN.
Arguments Val {F} _.
Arguments NaN {F}.

(** [cost_a - cost_b] for costs that are not both minus infinity: probabilities divide;
    [inf - inf] is NaN.  ([x / 0] with [x > 0] cannot occur where this is used: the divisor
    is a sum of non-negative terms including the dividend.) *)
Definition num_div {F : ofield} (x y : car F) : num F :=
  if feqb y f0 then NaN else Val (fdiv x y).

(** language_model.cc:26-41 LanguageModel::ContextState.  [next] is the virtual
    NextState (which may grow the model's own tables: [M] is the model's memory);
    the context is given as the list of its code points
    (nisaba::utf8::StrSplitByCharToUnicode is external). An empty string has an empty list. *)
Section ContextState.
  Context {M : Type}.
  Variable next : M -> Z -> Z -> outcome (Z * M).
  Variable start_state : Z.

  (* lines 31-38: the loop over the symbols *)
  Fixpoint context_loop (m : M) (this_state : Z) (ctx : list Z) : outcome (Z * M) :=
    match ctx with
    | [] => Ok (this_state, m)
    | sym :: rest =>
        let* (s, m') := next m this_state sym in
        context_loop m' (if (s <? 0)%Z then start_state else s) rest
    end.

  (* lines 26-41 *)
  Definition context_state (m : M) (ctx : list Z) (init_state : Z) : outcome (Z * M) :=
    context_loop m (if (init_state <? 0)%Z then start_state else init_state) ctx.
End ContextState.

(** language_model.cc:43-71 GetTopHypotheses.  [sort] stands for the std::sort call of
    lines 61-66, whose result is only determined up to the order of equally probable
    entries; see [sort_spec].  Probabilities are numbers (not NaN: std::sort with NaNs has
    undefined behaviour, and no model returns them except through the Bayesian weights,
    property C16). *)
Section TopHyps.
  Context {F : ofield} {S : Type}.
  Variable sort : list (car F * S) -> list (car F * S).

  Definition get_top_hypotheses (probs : list (car F)) (syms : list S) (top_n : Z)
    : outcome (list (car F * S)) :=
    let num_entries := Z.of_nat (length probs) in
    if negb (length probs =? length syms)%nat then Err              (* 46-50 *)
    else if (num_entries <=? top_n)%Z then Err                      (* 51-53 *)
    else if (num_entries =? 0)%Z then Err                           (* 54-56 *)
    else
      let hyps := sort (combine probs syms) in                      (* 57-66 *)
      if (0 <? top_n)%Z then Ok (firstn (Z.to_nat top_n) hyps)      (* 67-69 *)
      else Ok hyps.
End TopHyps.

(** What std::sort with the comparator of lines 62-65 guarantees. *)
Definition sort_spec {F : ofield} {S : Type}
  (sort : list (car F * S) -> list (car F * S)) : Prop :=
  forall l, Permutation l (sort l) /\
            StronglySorted (fun a b => fle (fst b) (fst a) = true) (sort l).

(** An executable sort meeting [sort_spec] (used only to run the model). *)
Fixpoint insert_desc {F : ofield} {S} (x : car F * S) (l : list (car F * S)) :=
  match l with
  | [] => [x]
  | y :: t => if fle (fst y) (fst x) then x :: l else y :: insert_desc x t
  end.
Definition sort_desc {F : ofield} {S} (l : list (car F * S)) : list (car F * S) :=
  fold_right insert_desc [] l.

(** language_model.cc:73-83 SoftmaxRenormalize, in the probability domain: [tot_prob] is
    the sum (the Kahan-compensated NegLogSum), then each element is divided by it.  Line 74
    reads element 0 of the vector unconditionally. *)
Definition softmax_renormalize {F : ofield} (probs : list (car F)) : outcome (list (num F)) :=
  match probs with
  | [] => UB
  | x :: rest =>
      let tot := fold_left fadd rest x in
      Ok (map (fun p => num_div p tot) probs)
  end.
