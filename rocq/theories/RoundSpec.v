(** Specification vocabulary for rounding in the mixture code (C75). *)
From Coq Require Import Reals.
From Verif Require Import Base Field FieldR LmModel HubModel LogModel RoundModel.
Local Open Scope R_scope.

(** The machine computes with costs up to [B] with an absolute error of at most [u], and with
    numbers that are 0 or between exp(-B) and exp B, and exp, with a relative one. *)
Record accurate (u B : R) (m : machine) : Prop := Accurate {
  acc_add : forall x y, Rabs x <= B -> Rabs y <= B -> Rabs (m_add m x y - (x + y)) <= u;
  acc_plus : forall x y, 0 <= x -> 0 <= y -> x + y = 0 \/ exp (- B) <= x + y <= exp B ->
              Rabs (m_add m x y - (x + y)) <= u * (x + y);
  acc_mul : forall x y, 0 <= x -> 0 <= y -> x * y = 0 \/ exp (- B) <= x * y <= exp B ->
              Rabs (m_mul m x y - x * y) <= u * (x * y);
  acc_sum : forall x y, Rabs x <= B -> Rabs y <= B ->
              Rabs (m_sum m x y - - ln (exp (- x) + exp (- y))) <= u;
  acc_ln : forall p, exp (- B) <= p <= exp B -> Rabs (m_ln m p - ln p) <= u;
  acc_exp : forall x, Rabs x <= B -> Rabs (m_exp m x - exp x) <= u * exp x
}.

(** A computed probability [y] is right up to the factor [exp d], which is 1 + d to the first
    order. *)
Definition close (d p y : R) : Prop := p * exp (- d) <= y <= p * exp d.

(** A computed cost stands for the probability [p], up to that factor. *)
Definition stands_for (d : R) (c : cost) (p : R) : Prop :=
  match c with
  | Fin x => 0 < p /\ close d p (exp (- x))
  | PInf => p = 0
  | MInf | CNaN => False
  end.

(** A number of ordinary size: 0 or within a factor exp L of 1. *)
Definition sized (L p : R) : Prop := p = 0 \/ exp (- L) <= p <= exp L.

Definition rsum (l : list R) : R := fold_right Rplus 0 l.
