(** Specification vocabulary for rounding in the character n-gram model (C78). *)
From Coq Require Import ZArith Reals.
From Verif Require Import Base Field FieldR LogModel PpmModel NgramModel RoundModel RoundSpec NgramRoundModel.
Local Open Scope R_scope.

(** An addition with absolute error [u] on numbers up to [B]. *)
Definition plus_accurate (u B : R) (plus : R -> R -> R) : Prop :=
  forall x y, Rabs x <= B -> Rabs y <= B -> Rabs (plus x y - (x + y)) <= u.

(** The automata are the same but for the representation of the weights: the stored costs stand for
    the probabilities up to a factor exp d, and these are 0 or of ordinary size. *)
Definition weight_for (d G : R) (c : cost) (p : R) : Prop := stands_for d c p /\ sized G p.
Definition arc_for (d G : R) (c : carc) (a : @arc R_field) : Prop :=
  ca_label c = a_label a /\ ca_next c = a_next a /\ weight_for d G (ca_weight c) (a_count a : R).
Definition state_for (d G : R) (c : cstate) (s : @pstate R_field) : Prop :=
  Forall2 (arc_for d G) (cs_arcs c) (ps_arcs s) /\ weight_for d G (cs_final c) (ps_final s : R).
Definition model_for (d G : R) (c : cngram) (n : ngram R_field) : Prop :=
  Forall2 (state_for d G) (cn_fst c) (ng_fst n) /\ cn_start c = ng_start n /\ cn_syms c = ng_syms n /\
  cn_oov c = ng_oov n /\ cn_unigram c = ng_unigram n.

(** A bound on the number of back-offs from each state (its order, less one). *)
Definition backs_off_within (f : list (@pstate R_field)) (rank : Z -> nat) : Prop :=
  forall s st a, vgetZ f s = Ok st -> In a (ps_arcs st) -> a_label a = 0%Z -> a_next a <> s ->
  (rank (a_next a) < rank s)%nat.
