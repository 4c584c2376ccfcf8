(** Specification vocabulary for sampling in doubles (C73). *)
From Coq Require Import ZArith Reals String.
From Flocq Require Import Core BinarySingleNaN.
From Verif Require Import Base BigramFloatModel.
Close Scope string_scope.
Open Scope list_scope.
Local Open Scope R_scope.

(** The double nearest to a real number (ties to even, no overflow). *)
Definition nearest (x : R) : R := round radix2 (FLT_exp (-1074) 53) ZnearestE x.

(** The number a double stands for; whether it is a number at all. *)
Definition real (x : double) : R := B2R x.
Definition is_number (x : double) : Prop := is_finite x = true.

(** A list of symbols with their probabilities. *)
Definition probabilities (l : list (double * string)) : Prop :=
  Forall (fun e => is_number (fst e) /\ 0 <= real (fst e) <= 1) l.

(** The list of the numbers. *)
Definition numbers (l : list (double * string)) : list R := map (fun e => real (fst e)) l.

(** The sum of the first [i] probabilities, and the same rounded to a double after every
    addition. *)
Definition exact_sum (l : list (double * string)) (i : nat) : R :=
  fold_left Rplus (firstn i (numbers l)) 0.
Definition rounded_sum (l : list (double * string)) (i : nat) : R :=
  fold_left (fun t p => nearest (t + p)) (firstn i (numbers l)) 0.
