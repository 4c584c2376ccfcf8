(** The arithmetic of the code as the code does it: on negative natural logarithms (doubles),
    with infinities and NaN.  Numbers are exact reals (rounding and the Kahan compensation are not
    modelled).  LogProps.v shows that the probability-domain definitions of the other files say the
    same. *)
From Coq Require Import Reals Lra.
From Verif Require Import Base Field FieldR LmModel HubModel.
Local Open Scope R_scope.

(** A double holding a cost. *)
Inductive cost : Type := Fin (r : R) | PInf | MInf | CNaN.

(** IEEE addition and subtraction. *)
Definition cadd (a b : cost) : cost :=
  match a, b with
  | Fin x, Fin y => Fin (x + y)
  | CNaN, _ | _, CNaN => CNaN
  | PInf, MInf | MInf, PInf => CNaN
  | PInf, _ | _, PInf => PInf
  | MInf, _ | _, MInf => MInf
  end.
Definition copp (a : cost) : cost :=
  match a with Fin x => Fin (- x) | PInf => MInf | MInf => PInf | CNaN => CNaN end.
Definition csub (a b : cost) : cost := cadd a (copp b).
(** a >= b on doubles. *)
Definition cge (a b : cost) : bool :=
  match a, b with
  | CNaN, _ | _, CNaN => false
  | PInf, _ | _, MInf => true
  | _, PInf | MInf, _ => false
  | Fin x, Fin y => Rle_b y x
  end.
(** sfst::NegLogSum(a, b): -log(exp(-a) + exp(-b)), computed as min - log1p(exp(min - max)). *)
Definition neg_log_sum (a b : cost) : cost :=
  match a, b with
  | CNaN, _ | _, CNaN => CNaN
  | MInf, _ | _, MInf => MInf
  | PInf, c | c, PInf => c
  | Fin x, Fin y => if Rle_b x y then Fin (x - ln (1 + exp (x - y))) else Fin (y - ln (1 + exp (y - x)))
  end.
(** sfst::NegLogDiff(a, b): -log(exp(-a) - exp(-b)), for a < b. *)
Definition neg_log_diff (a b : cost) : cost :=
  match a, b with
  | Fin x, Fin y => Fin (x - ln (1 - exp (x - y)))
  | Fin x, PInf => Fin x
  | PInf, PInf => PInf
  | _, _ => CNaN
  end.
(** -std::log(p). *)
Definition neg_log (p : R) : cost :=
  if Rle_dec p 0 then (if Rle_dec 0 p then PInf else CNaN) else Fin (- ln p).
(** NegLogSum over a vector from its first element. *)
Definition neg_log_total (l : list cost) : cost :=
  match l with [] => PInf | x :: t => fold_left neg_log_sum t x end.

(** language_model.cc:73-83 SoftmaxRenormalize. *)
Definition softmax_log (costs : list cost) : outcome (list cost) :=
  match costs with
  | [] => UB
  | x :: rest =>
      let tot := fold_left neg_log_sum rest x in
      Ok (map (fun c => csub c tot) costs)
  end.

(** ngram_word_fst_model.cc:50-55 SafeNegLogDiff. *)
Definition safe_neg_log_diff (a b : cost) : cost := if cge a b then PInf else neg_log_diff a b.

(** language_model_hub.cc:92-106: the mixture weights (two or more models). *)
Definition weights_log (ws : list cost) : list cost :=
  map (fun w => csub w (neg_log_total ws)) ws.
(** language_model_hub.cc:230-242 GetBayesianMixtureWeights. *)
Fixpoint zip_costs (ws sums : list cost) : outcome (list cost) :=
  match ws with
  | [] => Ok []
  | w :: ws' =>
      match sums with
      | [] => UB
      | p :: sums' => let* r := zip_costs ws' sums' in Ok (cadd w p :: r)
      end
  end.
Definition bayes_weights_log (ws sums : list cost) : outcome (list cost) :=
  let* l := zip_costs ws sums in Ok (map (fun w => csub w (neg_log_total l)) l).

(** language_model_hub.cc:35-45 MixResults. *)
Fixpoint mix_add_log (key : str) (v : cost) (acc : list (str * cost)) : list (str * cost) :=
  match acc with
  | [] => [(key, v)]
  | (k, x) :: t => if str_eqb k key then (k, neg_log_sum v x) :: t else (k, x) :: mix_add_log key v t
  end.
Definition mix_results_log (sc : lm_scores R) (w : cost) (acc : list (str * cost)) : list (str * cost) :=
  fold_left (fun acc '(key, p) => mix_add_log key (cadd (neg_log p) w) acc) (sc_entries sc) acc.

(** exp(-c). *)
Definition exp_neg (c : cost) : num R_field :=
  match c with Fin x => Val (F := R_field) (exp (- x)) | PInf => Val (F := R_field) 0 | MInf | CNaN => NaN end.

(** language_model_hub.cc:49-71 ExtractMixture: exp(-value + norm), sorted by key. *)
Fixpoint insert_key_log (x : str * cost) (l : list (str * cost)) :=
  match l with
  | [] => [x]
  | y :: t => if str_leb (fst x) (fst y) then x :: l else y :: insert_key_log x t
  end.
Definition extract_mixture_log (mixed : list (str * cost)) : list (str * num R_field) :=
  let norm := neg_log_total (map snd mixed) in
  map (fun '(k, v) => (k, exp_neg (csub v norm))) (fold_right insert_key_log [] mixed).

(** ppm_as_fst_model.cc:257-279 UpdateIndexProb; [None] is the returned error. *)
Definition update_index_prob_log (count neg_log_beta denominator lower_order_prob : cost) (at_unigram : bool)
  : option cost :=
  if at_unigram then Some (csub count denominator)
  else if cge count neg_log_beta then None
  else Some (neg_log_sum lower_order_prob (csub (neg_log_diff count neg_log_beta) denominator)).
