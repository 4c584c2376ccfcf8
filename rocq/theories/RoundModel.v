(** The arithmetic of the mixture code with rounding.  [LogModel] computes with exact real numbers;
    here every operation on finite doubles (addition, NegLogSum, std::log, std::exp) is an
    arbitrary function, to be any that is accurate to some number of digits (RoundSpec.v).  What
    IEEE arithmetic does with infinities and NaN is as in [LogModel].  The Kahan compensation of
    SoftmaxRenormalize is not modelled: it only makes that NegLogSum more accurate. *)
From Coq Require Import Reals.
From Verif Require Import Base Field FieldR LmModel HubModel LogModel.
Local Open Scope R_scope.

(** What the machine computes for finite arguments. *)
Record machine : Type := Machine {
  m_add : R -> R -> R;      (* a + b *)
  m_mul : R -> R -> R;      (* a * b *)
  m_sum : R -> R -> R;      (* sfst::NegLogSum(a, b) *)
  m_ln : R -> R;            (* std::log *)
  m_exp : R -> R            (* std::exp *)
}.

Section Rounded.
  Variable m : machine.

  (** a + b and a - b on doubles (language_model_hub.cc:40, 69, 104, 233, 239, language_model.cc:82). *)
  Definition r_add (a b : cost) : cost :=
    match a, b with Fin x, Fin y => Fin (m_add m x y) | _, _ => cadd a b end.
  Definition r_sub (a b : cost) : cost := r_add a (copp b).
  (** sfst::NegLogSum (language_model_hub.cc:42, 58, 99, 236, language_model.cc:78). *)
  Definition r_nls (a b : cost) : cost :=
    match a, b with Fin x, Fin y => Fin (m_sum m x y) | _, _ => neg_log_sum a b end.
  (** -std::log(p) (language_model_hub.cc:40). *)
  Definition r_neg_log (p : R) : cost :=
    if Rle_dec p 0 then (if Rle_dec 0 p then PInf else CNaN) else Fin (- m_ln m p).
  (** std::exp(-c) (language_model_hub.cc:69). *)
  Definition r_exp_neg (c : cost) : num R_field :=
    match c with
    | Fin x => Val (F := R_field) (m_exp m (- x)) | PInf => Val (F := R_field) 0 | MInf | CNaN => NaN
    end.

  (** NegLogSum over a vector from its first element (language_model_hub.cc:54-60, 95-101, 232-237). *)
  Definition r_total (l : list cost) : cost :=
    match l with [] => PInf | x :: t => fold_left r_nls t x end.

  (** language_model.cc:73-83 SoftmaxRenormalize. *)
  Definition r_softmax (costs : list cost) : outcome (list cost) :=
    match costs with
    | [] => UB
    | x :: rest => let tot := fold_left r_nls rest x in Ok (map (fun c => r_sub c tot) costs)
    end.

  (** language_model_hub.cc:92-106: the mixture weights (two or more models). *)
  Definition r_weights (ws : list cost) : list cost := map (fun w => r_sub w (r_total ws)) ws.

  (** language_model_hub.cc:230-242 GetBayesianMixtureWeights. *)
  Fixpoint r_zip (ws sums : list cost) : outcome (list cost) :=
    match ws with
    | [] => Ok []
    | w :: ws' =>
        match sums with
        | [] => UB
        | p :: sums' => let* r := r_zip ws' sums' in Ok (r_add w p :: r)
        end
    end.
  Definition r_bayes_weights (ws sums : list cost) : outcome (list cost) :=
    let* l := r_zip ws sums in Ok (map (fun w => r_sub w (r_total l)) l).

  (** language_model_hub.cc:35-45 MixResults. *)
  Fixpoint r_mix_add (key : str) (v : cost) (acc : list (str * cost)) : list (str * cost) :=
    match acc with
    | [] => [(key, v)]
    | (k, x) :: t => if str_eqb k key then (k, r_nls v x) :: t else (k, x) :: r_mix_add key v t
    end.
  Definition r_mix_results (sc : lm_scores R) (w : cost) (acc : list (str * cost)) : list (str * cost) :=
    fold_left (fun acc '(key, p) => r_mix_add key (r_add (r_neg_log p) w) acc) (sc_entries sc) acc.

  (** language_model_hub.cc:49-71 ExtractMixture: exp(-value + norm), sorted by key.  The sum is over
      an absl::flat_hash_map, whose order of iteration is unspecified and changes from run to run:
      [order] is the order of this run. *)
  Variable order : list (str * cost) -> list (str * cost).
  Definition r_extract_mixture (mixed : list (str * cost)) : list (str * num R_field) :=
    let norm := r_total (map snd (order mixed)) in
    map (fun '(k, v) => (k, r_exp_neg (r_sub v norm))) (fold_right insert_key_log [] mixed).

  (** language_model_hub.cc:261-276: the loop of ExtractLMScores over the answers of the models and
      their weights, all of which answered. *)
  Definition r_mixture (answers : list (lm_scores R * cost)) : list (str * num R_field) :=
    r_extract_mixture (fold_left (fun acc '(sc, w) => r_mix_results sc w acc) answers []).

  (** language_model_hub.cc:47, 270: the normalization field, the sum of
      [normalization * exp(-mix_weight)]. *)
  Definition r_num2 (f : R -> R -> R) (a b : num R_field) : num R_field :=
    match a, b with Val x, Val y => Val (F := R_field) (f x y) | _, _ => NaN end.
  Definition r_normalization (answers : list (lm_scores R * cost)) : num R_field :=
    fold_left (fun acc '(sc, w) =>
        r_num2 (m_add m) acc (r_num2 (m_mul m) (Val (F := R_field) (sc_norm sc)) (r_exp_neg w)))
      answers (Val (F := R_field) 0).

  (** language_model_hub.cc:366-383 LanguageModelHubState::UpdateBayesianHistory: the sum for one
      model, from the cost of the latest symbol and those of the previous state, oldest first, of
      which the first drops out of the window. *)
  Definition r_history_sum (latest : cost) (previous : list cost) : cost :=
    fold_left r_add (tl previous) latest.
End Rounded.
