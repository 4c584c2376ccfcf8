(** Model of the counters of mozolm/models/ppm_as_fst_model.cc in the arithmetic of the code.
    [PpmModel] keeps exact counts; the code keeps a count [c] as the weight [-log c] of an arc
    (or as a final weight) of a StdVectorFst, and the weights of StdArc are 32-bit floats
    (TropicalWeight).  Here is one such counter: what a learning call does to it. *)
From Coq Require Import Reals.
From Flocq Require Import Core.
From Verif Require Import Base.
Local Open Scope R_scope.

(** Conversion of a double to the 32-bit float of StdArc::Weight (ppm_as_fst_model.cc:233, 359,
    362, 834, 856): the nearest number with 24 significant bits, ties to even.  (Weights of
    counts are far from the overflow threshold.) *)
Definition to_single (x : R) : R := round radix2 (FLT_exp (-149) 24) ZnearestE x.

(** One more observation: [StdArc::Weight(sfst::NegLogSum(weight.Value(), 0.0))]
    (ppm_as_fst_model.cc:856 for an arc, 834 for the end of the string, 233 for the total on the
    back-off arc).  [neg_log_sum] is sfst::NegLogSum, an external function on doubles. *)
Definition observe (neg_log_sum : R -> R -> R) (weight : R) : R := to_single (neg_log_sum weight 0).

(** [n] observations of the same symbol in the same state: the loops of ppm_as_fst_model.cc:966-1000
    (UpdateLMCounts), as far as this counter is concerned. *)
Fixpoint observe_n (neg_log_sum : R -> R -> R) (n : nat) (weight : R) : R :=
  match n with
  | O => weight
  | S k => observe_n neg_log_sum k (observe neg_log_sum weight)
  end.

(** The weight of a new arc, one observation: StdArc::Weight::One(), or
    SetFinal(.., Weight::One()) (ppm_as_fst_model.cc:883, 899). *)
Definition new_weight : R := 0.
