(** Specification vocabulary for rounding in PPM models (C77). *)
From Coq Require Import Reals.
From Verif Require Import Base Field FieldR LmModel HubModel LogModel RoundModel RoundSpec WordRoundSpec PpmRoundModel.
Local Open Scope R_scope.

(** NegLogDiff loses digits by cancellation: its error is relative to its larger argument. *)
Definition diff_accurate (u B : R) (diff : R -> R -> cost) : Prop :=
  forall x y, x < y -> Rabs x <= B -> Rabs y <= B ->
  exists z, has_value (diff x y) z /\ Rabs (z - (exp (- x) - exp (- y))) <= u * exp (- x).

(** The counts themselves. *)
Record true_counts : Type := TrueCounts { tc_syms : list (option R); tc_total : R }.

(** P(s | h) = (c(hs) - beta) / (c(h) + alpha) + gamma P(s | h'), gamma = (n beta + alpha) / (c(h) +
    alpha) with n the number of different symbols seen after h, renormalised; relative frequencies
    at the unigram state. *)
Definition renormalise (l : list R) : list R := map (fun p => p / rsum l) l.
Definition gamma_of (alpha beta : R) (l : true_counts) : R :=
  (INR (seen (tc_syms l)) * beta + alpha) / (tc_total l + alpha).
Fixpoint blend (beta den g : R) (cs : list (option R)) (lower : list R) : list R :=
  match cs, lower with
  | c :: cs', q :: lower' =>
      (match c with Some x => g * q + (x - beta) / den | None => g * q end) :: blend beta den g cs' lower'
  | _, _ => []
  end.
Definition unigram_raw (alpha : R) (l : true_counts) : list R :=
  map (fun c => match c with Some x => x / (tc_total l + alpha) | None => 1 end) (tc_syms l).
Fixpoint ppm_probs (alpha beta : R) (ls : list true_counts) : list R :=
  match ls with
  | [] => []
  | [l] => renormalise (unigram_raw alpha l)
  | l :: rest => renormalise
      (blend beta (tc_total l + alpha) (gamma_of alpha beta l) (tc_syms l) (ppm_probs alpha beta rest))
  end.

(** The counts a path holds are the true ones up to a factor exp d (they are stored in single
    precision, C74). *)
Definition counts_stand_for (d : R) (l : counts) (t : true_counts) : Prop :=
  Forall2 (fun c x => match c, x with Some c, Some x => stands_for d c x | None, None => True | _, _ => False end)
    (ct_syms l) (tc_syms t) /\ stands_for d (ct_total l) (tc_total t).

(** A path as training makes them, of ordinary size: every count is at least 1 and no more than
    exp L; every symbol has been counted at the unigram state and at least one at every other. *)
Definition count_ok (L : R) (c : option R) : Prop := match c with Some x => 1 <= x <= exp L | None => True end.
Fixpoint path_ok (n : nat) (L : R) (ls : list true_counts) : Prop :=
  match ls with
  | [] => True
  | l :: rest =>
      length (tc_syms l) = n /\ Forall (count_ok L) (tc_syms l) /\ 1 <= tc_total l <= exp L /\
      (match rest with [] => Forall (fun c => c <> None) (tc_syms l) | _ => (0 < seen (tc_syms l))%nat end) /\
      path_ok n L rest
  end.

(** The error of a difference c - beta, and of the vectors of a path of [k] states over [n] symbols. *)
Definition diff_error (u d beta : R) : R := 2 * (4 * d + 3 * u) / (1 - beta).
Fixpoint ppm_error (u d beta : R) (n k : nat) : R :=
  match k with
  | O => 0
  | S O => 4 * d + 4 * u + (INR n + 1) * u
  | S k' => 2 * (ppm_error u d beta n k' + diff_error u d beta + d + 8 * u) + (INR n + 1) * u
  end.
