(** Specification vocabulary for rounding in the word model (C76). *)
From Coq Require Import Reals.
From Verif Require Import Base Field FieldR LmModel HubModel LogModel RoundModel RoundSpec WordRoundModel.
Local Open Scope R_scope.

(** The probability that a cost is the negative logarithm of. *)
Definition has_value (c : cost) (v : R) : Prop :=
  match c with Fin x => v = exp (- x) | PInf => v = 0 | MInf | CNaN => False end.

(** The machine computes with the logarithms of numbers up to [V] with a relative error of at most
    [u], or an absolute one of at most [E] (for very small numbers).  NegLogDiff loses digits by
    cancellation: its error is relative to its larger argument. *)
Record log_accurate (u E V : R) (m : machine) (diff : R -> R -> cost) : Prop := LogAccurate {
  la_sum : forall x y, exp (- x) <= V -> exp (- y) <= V ->
    Rabs (exp (- m_sum m x y) - (exp (- x) + exp (- y))) <= u * (exp (- x) + exp (- y)) + E;
  la_add : forall x y, exp (- x) <= V -> exp (- y) <= V ->
    Rabs (exp (- m_add m x y) - exp (- x) * exp (- y)) <= u * (exp (- x) * exp (- y)) + E;
  la_diff : forall x y, x < y -> exp (- x) <= V ->
    exists z, has_value (diff x y) z /\ Rabs (z - (exp (- x) - exp (- y))) <= u * exp (- x) + E
}.

(** The probabilities the model defines: index 0 is the end of the string, then the words in
    lexicographic order.  A word with no arc at a state has the probability of the back-off state
    times the back-off weight; with no back-off state, 0. *)
Definition prob (c : cost) : R := match c with Fin x => exp (- x) | _ => 0 end.
Fixpoint back_off (g : R) (ws : list (option cost)) (qs : list R) : list R :=
  match ws, qs with
  | w :: ws', q :: qs' => (match w with Some x => prob x | None => g * q end) :: back_off g ws' qs'
  | _, _ => []
  end.
Fixpoint true_probs (ls : list level) : list R :=
  match ls with
  | [] => []
  | l :: rest =>
      match true_probs rest with
      | [] => prob (lv_final l) :: map (fun w => match w with Some x => prob x | None => 0 end) (lv_words l)
      | q0 :: qs =>
          (match lv_final l with PInf => prob (lv_back l) * q0 | f => prob f end)
            :: back_off (prob (lv_back l)) (lv_words l) qs
      end
  end.

(** The weights of a model file: numbers or plus infinity, [n] words at every state, back-off
    weights up to [G], and probabilities that sum to at most 1 at every state of the path. *)
Definition proper (c : cost) : Prop := match c with Fin _ | PInf => True | _ => False end.
Fixpoint good_path (n : nat) (G : R) (ls : list level) : Prop :=
  match ls with
  | [] => True
  | l :: rest =>
      proper (lv_final l) /\ Forall (fun w => match w with Some x => proper x | None => True end) (lv_words l) /\
      length (lv_words l) = n /\ proper (lv_back l) /\ prob (lv_back l) <= G /\
      rsum (true_probs ls) <= 1 /\ good_path n G rest
  end.

(** The error of one operation, and the error per word after a path of [k] states. *)
Definition rounding (u E G : R) : R := 2 * G * u + E.
Fixpoint word_error (r G : R) (k : nat) : R :=
  match k with O => 0 | S O => r | S k' => G * (word_error r G k' + r) + 2 * r end.
