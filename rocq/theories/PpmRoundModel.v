(** The arithmetic of PPM probabilities with rounding: the blending of the counts at a state with
    the probabilities of its back-off state, along a back-off path.  As in [RoundModel] every
    operation on finite doubles is an arbitrary function, to be any that is accurate enough
    (PpmRoundSpec.v).  The cache, which stores the vector of each state, is left out: the vectors of
    a path are computed from the unigram state on. *)
From Coq Require Import Reals.
From Verif Require Import Base Field FieldR LmModel HubModel LogModel RoundModel.
Local Open Scope R_scope.

(** The counts at a state, as the negative logarithms that the arcs hold: for every symbol (index 0:
    the end of the string) the count if it has been seen, and the total on the back-off arc. *)
Record counts : Type := Counts { ct_syms : list (option cost); ct_total : cost }.

Fixpoint seen {A : Type} (l : list (option A)) : nat :=
  match l with [] => O | Some _ :: t => S (seen t) | None :: t => seen t end.

Section PpmRounded.
  Variable m : machine.
  Variable diff : R -> R -> cost.     (* sfst::NegLogDiff(a, b) for finite a < b *)
  Variables alpha beta : R.

  Definition r_diff (a b : cost) : cost :=
    match a, b with Fin x, Fin y => diff x y | _, _ => neg_log_diff a b end.

  (** ppm_as_fst_model.cc:659-660 (UpdateCacheAtNonEmptyState): the denominator. *)
  Definition r_denominator (l : counts) : cost := r_nls m (ct_total l) (r_neg_log m alpha).
  (** ppm_as_fst_model.cc:595-602 (InitCacheProbs): num_continuations is the number of arcs without
      the back-off arc, plus one if the state is final. *)
  Definition r_gamma (l : counts) : cost :=
    r_sub m (r_nls m (r_add m (r_neg_log m (INR (seen (ct_syms l)))) (r_neg_log m beta)) (r_neg_log m alpha))
      (r_denominator l).
  (** ppm_as_fst_model.cc:257-279 UpdateIndexProb; [None] is the returned error. *)
  Definition r_update_index (at_unigram : bool) (den count low : cost) : option cost :=
    if at_unigram then Some (r_sub m count den)
    else if cge count (r_neg_log m beta) then None
    else Some (r_nls m low (r_sub m (r_diff count (r_neg_log m beta)) den)).
  (** ppm_as_fst_model.cc:612-649 UpdateCacheStatesAndProbs, before the renormalisation: every seen
      symbol is updated. *)
  Fixpoint r_update_all (at_unigram : bool) (den : cost) (cs : list (option cost)) (lows : list cost)
    : option (list cost) :=
    match cs, lows with
    | [], [] => Some []
    | c :: cs', low :: lows' =>
        match (match c with Some x => r_update_index at_unigram den x low | None => Some low end),
              r_update_all at_unigram den cs' lows' with
        | Some p, Some ps => Some (p :: ps)
        | _, _ => None
        end
    | _, _ => None
    end.
  (** The vector of the unigram state: ppm_as_fst_model.cc:608 gives it room, every symbol has been
      counted. *)
  Definition r_unigram (l : counts) : outcome (list cost) :=
    match r_update_all true (r_denominator l) (ct_syms l) (map (fun _ => Fin 0) (ct_syms l)) with
    | None => Err
    | Some ps => r_softmax m ps
    end.
  (** The vector of a state that backs off to one with the vector [lower] (lines 595-606, 612-650). *)
  Definition r_blend (l : counts) (lower : list cost) : outcome (list cost) :=
    match r_update_all false (r_denominator l) (ct_syms l) (map (fun c => r_add m c (r_gamma l)) lower) with
    | None => Err
    | Some ps => r_softmax m ps
    end.
  (** A back-off path, the unigram state last. *)
  Fixpoint r_path (ls : list counts) : outcome (list cost) :=
    match ls with
    | [] => Err
    | [l] => r_unigram l
    | l :: rest => let* lower := r_path rest in r_blend l lower
    end.
End PpmRounded.
