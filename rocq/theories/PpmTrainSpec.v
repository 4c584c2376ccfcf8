(** Training a PPM model from text: what is counted, and the contract of the external counter
    (sfst::NGramCounter, called at ppm_as_fst_model.cc:420-444). *)
From Verif Require Import Base Field PpmModel PpmSpec PpmStruct.
Local Open Scope Z_scope.

(** The predictions a string of labels consists of: every symbol after everything that precedes it
    (beginning with the beginning of the string, 0), and the end of the string, 0. *)
Fixpoint events_from (p : history) (s : list Z) : list (history * Z) :=
  match s with
  | [] => [(p, 0)]
  | x :: t => (p, x) :: events_from (p ++ [x]) t
  end.
Definition events (strings : list (list Z)) : list (history * Z) := flat_map (events_from [0]) strings.

(** How often x occurs after h. *)
Definition occurrences (strings : list (list Z)) (h : history) (x : Z) : Z :=
  Z.of_nat (length (filter (fun e => existsb (hist_eqb h) (suffixes (fst e)) && (snd e =? x)) (events strings))).

(** The histories of fewer than n symbols that something follows. *)
Definition context (n : Z) (strings : list (list Z)) (h : history) : Prop :=
  Z.of_nat (length h) < n /\ exists p y, In (p, y) (events strings) /\ suffix h p.

(** g is h with one more symbol at its beginning. *)
Definition longer (h g : history) : bool :=
  match g with [] => false | _ :: g' => hist_eqb g' h end.

(** The counts of a trained model whose known histories are K: a history no known history is longer
    than counts occurrences; another counts the longer histories a symbol was seen after; the empty
    history has one more for every symbol. V is the number of symbols. *)
Definition trained_counts (V : nat) (strings : list (list Z)) (K : list history) (h : history) (x : Z) : Z :=
  if existsb (hist_eqb h) K then
    (if existsb (longer h) K
     then Z.of_nat (length (filter (fun g => longer h g && (0 <? occurrences strings g x)) K))
     else occurrences strings h x)
    + (if hist_eqb h [] && (0 <=? x) && (x <=? Z.of_nat V) then 1 else 0)
  else 0.

(** The contract of the counter, for order n >= 2 and strings not all empty: the automaton has one
    state per context; its final weight and its arcs are the counts of what follows; an arc leads to
    the longest suffix that is a context; the back-off arc leads to the history without its oldest
    symbol and carries the total. The order of arcs is not specified. *)
Record counted {F : ofield} (n : Z) (strings : list (list Z)) (f : list (pstate F)) (start : Z)
  (ctx : list history) : Prop := {
  ct_len : length ctx = length f;
  ct_nodup : NoDup ctx;
  ct_ctx : forall h, In h ctx <-> context n strings h;
  ct_start : getZ ctx start = Some [0];
  ct_final : forall s st h, getZ f s = Some st -> getZ ctx s = Some h ->
    ps_final st = ofZ (occurrences strings h 0);
  ct_labels : forall s st, getZ f s = Some st -> NoDup (map (@a_label F) (ps_arcs st));
  ct_backoff : forall s st c h, getZ f s = Some st -> getZ ctx s = Some (c :: h) ->
    exists a, In a (ps_arcs st) /\ a_label a = 0 /\ getZ ctx (a_next a) = Some h /\
      a_count a = fadd (ps_final st) (fsum (map (@a_count F) (filter (fun a => 0 <? a_label a) (ps_arcs st))));
  ct_empty : forall s st a, getZ f s = Some st -> getZ ctx s = Some [] -> In a (ps_arcs st) -> a_label a <> 0;
  ct_arc : forall s st h a, getZ f s = Some st -> getZ ctx s = Some h -> In a (ps_arcs st) -> a_label a <> 0 ->
    0 < a_label a /\ 0 < occurrences strings h (a_label a) /\ a_count a = ofZ (occurrences strings h (a_label a)) /\
    getZ ctx (a_next a) = Some (longest ctx (h ++ [a_label a]));
  ct_all : forall s st h x, getZ f s = Some st -> getZ ctx s = Some h -> 0 < x ->
    0 < occurrences strings h x -> exists a, In a (ps_arcs st) /\ a_label a = x
}.
