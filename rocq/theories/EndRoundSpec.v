(** Specification vocabulary for C79: answers that are right up to rounding. *)
From Coq Require Import Reals.
From Verif Require Import Base Field FieldR LmModel HubModel LogModel RoundModel RoundSpec.
Local Open Scope R_scope.

(** A list of scores and the exact one: the same symbols in the same order, every probability right
    up to the factor exp d. *)
Definition near (d : R) (computed exact : list (str * R)) : Prop :=
  Forall2 (fun a b => fst a = fst b /\ close d (snd b) (snd a)) computed exact.

(** The answers of all the models. *)
Definition all_near (d : R) (computed exact : list (lm_scores R)) : Prop :=
  Forall2 (fun a b => near d (sc_entries a) (sc_entries b)) computed exact.
