(** What a back-off n-gram automaton means, independently of the traversal code. *)
From Verif Require Import Base Field HubModel PpmModel.
Local Open Scope Z_scope.

Section Spec.
  Context {F : ofield}.
  Variable f : list (@pstate F).

  Definition has_state (s : Z) (st : @pstate F) : Prop := 0 <= s /\ nth_error f (Z.to_nat s) = Some st.

  (** What the checks of sfst::IsCanonical promise (external): arcs lead to states, carry distinct
      non-negative labels, and following back-off arcs (label 0) never comes back. *)
  Record canonical : Prop := {
    can_dest : forall s st a, has_state s st -> In a (ps_arcs st) -> exists st', has_state (a_next a) st';
    can_labels : forall s st, has_state s st -> NoDup (map a_label (ps_arcs st));
    can_label_nonneg : forall s st a, has_state s st -> In a (ps_arcs st) -> 0 <= a_label a;
    can_weights : forall s st, has_state s st ->
      fle f0 (ps_final st) = true /\ (forall a, In a (ps_arcs st) -> fle f0 (a_count a) = true);
    can_acyclic : exists rank : Z -> nat, forall s st g b,
      has_state s st -> In (Arc 0 g b) (ps_arcs st) -> (rank b < rank s)%nat
  }.

  Definition no_arc (x : Z) (st : @pstate F) : Prop := forall g b, ~ In (Arc x g b) (ps_arcs st).

  (** The probability of symbol [x] (not 0) in state [s]: that of the arc labelled [x] if there is
      one; otherwise the back-off weight times the probability in the back-off state; 0 when there
      is no back-off state either. *)
  Inductive symbol_prob (x : Z) : Z -> car F -> Prop :=
  | prob_here s st w d : has_state s st -> In (Arc x w d) (ps_arcs st) -> symbol_prob x s w
  | prob_backoff s st g b p : has_state s st -> no_arc x st -> In (Arc 0 g b) (ps_arcs st) ->
      symbol_prob x b p -> symbol_prob x s (fmul g p)
  | prob_none s st : has_state s st -> no_arc x st -> no_arc 0 st -> symbol_prob x s f0.

  (** The probability of the end of the string in state [s]. *)
  Inductive end_prob : Z -> car F -> Prop :=
  | end_here s st : has_state s st -> ps_final st <> f0 -> end_prob s (ps_final st)
  | end_backoff s st g b p : has_state s st -> ps_final st = f0 -> In (Arc 0 g b) (ps_arcs st) ->
      end_prob b p -> end_prob s (fmul g p)
  | end_none s st : has_state s st -> ps_final st = f0 -> no_arc 0 st -> end_prob s f0.

  (** Where symbol [x] leads from state [s]: the arc of the first state on the back-off chain that
      has one; [None] if no state has. *)
  Inductive symbol_dest (x : Z) : Z -> option Z -> Prop :=
  | dest_here s st w d : has_state s st -> In (Arc x w d) (ps_arcs st) -> symbol_dest x s (Some d)
  | dest_backoff s st g b r : has_state s st -> no_arc x st -> In (Arc 0 g b) (ps_arcs st) ->
      symbol_dest x b r -> symbol_dest x s r
  | dest_none s st : has_state s st -> no_arc x st -> no_arc 0 st -> symbol_dest x s None.

  (** Arcs that consume a symbol. *)
  Definition symbol_arcs (st : @pstate F) : list (@arc F) :=
    filter (fun a => negb (a_label a =? 0)) (ps_arcs st).

  (** Local normalization (sfst::IsNormalized): the mass of a state's own events, plus its back-off
      weight times the mass the back-off state gives to all other events, is one. *)
  Definition normalized : Prop := forall s st, has_state s st ->
    (no_arc 0 st -> fadd (ps_final st) (fsum (map a_count (symbol_arcs st))) = f1) /\
    (forall g b e ps, In (Arc 0 g b) (ps_arcs st) -> end_prob b e ->
       Forall2 (fun a p => symbol_prob (a_label a) b p) (symbol_arcs st) ps ->
       fadd (fadd (ps_final st) (fsum (map a_count (symbol_arcs st))))
            (fmul g (fsub (fsub f1 (if feqb (ps_final st) f0 then f0 else e)) (fsum ps))) = f1).
End Spec.
