(** Model of the loading half of mozolm/models/ppm_as_fst_model.cc (Read and everything it calls,
    and WriteFst).  Simplifications beside those of PpmModel.v: files are given by what reading
    them yields (nisaba::file::ReadLines: the lines as lists of code points, StdVectorFst::Read: an
    automaton with its symbols); sfst::NGramCounter is the parameter [counter]; ArcSort is a stable
    sort (std::sort is not, but labels are distinct). *)
From Verif Require Import Base Field LmModel TextModel HubModel PpmModel.
Local Open Scope Z_scope.

(** Conversion of an int64 to int (two's complement). *)
Definition narrow32 (z : Z) : Z := (z + 2147483648) mod 4294967296 - 2147483648.

Section PpmRead.
  Context {F : ofield}.

  (** ppm_as_fst_options.proto PpmAsFstOptions (model_is_fst is given by [model_file] below). *)
  Record ppm_options : Type := PpmOptions {
    po_max_order : Z;
    po_alpha : car F;
    po_beta : car F;
    po_static : bool;
    po_max_cache : Z
  }.

  (** ppm_as_fst_model.h:44-50 (kAlpha 0.5, kBeta 0.75, kMaxOrder 4, kMaxCache 2000). *)
  Definition k_alpha : car F := fdiv f1 (ofZ 2).
  Definition k_beta : car F := fdiv (ofZ 3) (ofZ 4).
  Definition k_max_order : Z := 4.
  Definition k_max_cache : Z := 2000.

  (** ppm_as_fst_model.cc:523-542 InitParameters: max_order_, alpha_, beta_, static_model_,
      max_cache_size_. *)
  Definition init_order (o : ppm_options) : Z :=
    if 0 <? po_max_order o then po_max_order o else k_max_order.
  Definition init_alpha (o : ppm_options) : car F :=
    if fle (po_alpha o) f0 || fle f1 (po_alpha o) then k_alpha else po_alpha o.
  Definition init_beta (o : ppm_options) : car F :=
    if fle (po_beta o) f0 || fle f1 (po_beta o) then k_beta else po_beta o.
  Definition init_cache (o : ppm_options) : Z :=
    if init_order o <? po_max_cache o then narrow32 (po_max_cache o) else k_max_cache.

  (** fst::ArcSort with ILabelCompare. *)
  Fixpoint arc_insert (a : arc F) (l : list (arc F)) : list (arc F) :=
    match l with
    | [] => [a]
    | b :: t => if a_label a <=? a_label b then a :: l else b :: arc_insert a t
    end.
  Fixpoint arc_sort (l : list (arc F)) : list (arc F) :=
    match l with [] => [] | a :: t => arc_insert a (arc_sort t) end.
  Definition sort_states (f : list (pstate F)) : list (pstate F) :=
    map (fun st => PState (arc_sort (ps_arcs st)) (ps_final st)) f.

  (** ppm_as_fst_model.cc:55-62 MakeEmpty (start state 0, unigram state 1). *)
  Definition make_empty : list (pstate F) := [PState [Arc 0 f1 1] f0; PState [] f1].

  (** ppm_as_fst_model.cc:297-306 AddExtraCharacters, the loop. *)
  Fixpoint add_chars (u : Z) (f : list (pstate F)) (syms : list Z) (line : list Z)
    : outcome (list (pstate F) * list Z) :=
    match line with
    | [] => Ok (f, syms)
    | c :: t =>
        if find_sym 1 syms c <? 0 then
          let syms' := syms ++ [c] in
          let idx := find_sym 1 syms' c in
          let* st := vgetZ f u in
          let* f' := vsetZ f u (PState (ps_arcs st ++ [Arc idx f1 u]) (ps_final st)) in
          add_chars u f' syms' t
        else add_chars u f syms t
    end.
  (** ppm_as_fst_model.cc:288-308 AddExtraCharacters, for every line of the vocabulary (.cc:503-505). *)
  Fixpoint add_lines (start : Z) (f : list (pstate F)) (syms : list Z) (lines : list (list Z))
    : outcome (list (pstate F) * list Z) :=
    match lines with
    | [] => Ok (f, syms)
    | line :: t =>
        let* u := backoff_state f start in
        if u <? 0 then Err
        else let* (f', syms') := add_chars u f syms line in add_lines start f' syms' t
    end.

  (** ppm_as_fst_model.cc:309-323 CalculateStateOrder ([fuel]: a back-off cycle would exhaust the
      stack). *)
  Fixpoint state_order (fuel : nat) (f : list (pstate F)) (orders : list Z) (s : Z)
    : outcome (Z * list Z) :=
    match fuel with
    | O => UB
    | S k =>
        let* o := vgetZ orders s in
        if 0 <=? o then Ok (o, orders)
        else
          let* b := backoff_state f s in
          if b <? 0 then Err
          else
            let* (ob, orders') := state_order k f orders b in
            let* orders'' := vsetZ orders' s (ob + 1) in
            Ok (ob + 1, orders'')
    end.
  (** ppm_as_fst_model.cc:334-342: the loop over the states. *)
  Fixpoint orders_loop (f : list (pstate F)) (orders : list Z) (maxo : Z) (ss : list nat)
    : outcome (list Z * Z) :=
    match ss with
    | [] => Ok (orders, maxo)
    | s :: t =>
        let* (o, orders') := state_order (S (length f)) f orders (Z.of_nat s) in
        orders_loop f orders' (if maxo <? o then o else maxo) t
    end.
  (** ppm_as_fst_model.cc:325-345 CalculateStateOrders: state_orders_ before line 343, and the
      highest order. *)
  Definition state_orders (start : Z) (f : list (pstate F)) : outcome (list Z * Z) :=
    let* o1 := vsetZ (repeat (-1) (length f)) start 1 in
    let* u := backoff_state f start in
    if u <? 0 then Err
    else
      let* o2 := vsetZ o1 u 0 in
      orders_loop f o2 1 (seq 0 (length f)).

  (** ppm_as_fst_model.cc:347-381 AddPriorCounts. *)
  Fixpoint missing_arcs (u : Z) (has : list Z) (i : Z) (syms : list Z) : list (arc F) :=
    match syms with
    | [] => []
    | _ :: t =>
        (if existsb (Z.eqb i) has then [] else [Arc i f1 u]) ++ missing_arcs u has (i + 1) t
    end.
  Definition add_prior (start : Z) (syms : list Z) (f : list (pstate F)) : outcome (list (pstate F)) :=
    let* u := backoff_state f start in
    if u <? 0 then Err
    else
      let* st := vgetZ f u in
      let new := missing_arcs u (map (@a_label F) (ps_arcs st)) 1 syms in
      let* f' := vsetZ f u
        (PState (map (fun a => Arc (a_label a) (fadd (a_count a) f1) (a_next a)) (ps_arcs st) ++ new)
                (fadd (ps_final st) f1)) in
      Ok (match new with [] => f' | _ => sort_states f' end).

  (** The update-exclusion counting of a freshly counted automaton; during it the weights of the
      back-off states are plain counts, and [None] is the final weight Weight::Zero(). *)
  Record rstate : Type := RState { r_arcs : list (arc F); r_final : option (car F) }.
  Definition r_of (st : pstate F) : rstate :=
    RState (ps_arcs st) (if feqb (ps_final st) f0 then None else Some (ps_final st)).
  Definition r_to (st : rstate) : pstate F :=
    PState (r_arcs st) (match r_final st with Some c => c | None => f0 end).

  (** ppm_as_fst_model.cc:92-105 DetermineBackoffStates: the states backed off to. *)
  Fixpoint backoff_targets (f : list (pstate F)) (ss : list nat) : outcome (list Z) :=
    match ss with
    | [] => Ok []
    | s :: t =>
        let* b := backoff_state f (Z.of_nat s) in
        if Z.of_nat (length f) <=? b then Err
        else let* r := backoff_targets f t in Ok (if 0 <=? b then b :: r else r)
    end.
  Definition is_target (ts : list Z) (s : nat) : bool := existsb (Z.eqb (Z.of_nat s)) ts.

  (** ppm_as_fst_model.cc:156-172 ZeroOutLowerOrderCounts. *)
  Fixpoint zero_out (ts : list Z) (s : nat) (l : list rstate) : list rstate :=
    match l with
    | [] => []
    | st :: t =>
        (if is_target ts s
         then RState (map (fun a => Arc (a_label a) f0 (a_next a)) (r_arcs st))
                     (option_map (fun _ => f0) (r_final st))
         else st) :: zero_out ts (S s) t
    end.
  (** GetBackoffState on these automata. *)
  Definition r_backoff (l : list rstate) (s : Z) : outcome Z := backoff_state (map r_to l) s.
  (** ppm_as_fst_model.cc:175-198 IncrementLowerOrderCounts. *)
  Fixpoint increment_lower (l : list rstate) (ss : list nat) : outcome (list rstate) :=
    match ss with
    | [] => Ok l
    | s :: t =>
        let* b := r_backoff l (Z.of_nat s) in
        if 0 <=? b then
          let* st := vget l s in
          let* sb := vgetZ l b in
          let has x := existsb (fun a => (0 <? a_label a) && (a_label a =? x)) (r_arcs st) in
          let* l' := vsetZ l b
            (RState (map (fun a => if (0 <? a_label a) && has (a_label a)
                                   then Arc (a_label a) (fadd (a_count a) f1) (a_next a) else a)
                         (r_arcs sb))
                    (match r_final st with
                     | Some _ => option_map (fun c => fadd c f1) (r_final sb)
                     | None => r_final sb
                     end)) in
          increment_lower l' t
        else increment_lower l t
    end.
  (** ppm_as_fst_model.cc:108-130 AggregateAndLogCounts and .cc:133-153 FinalizeLowerOrderCounts. *)
  Definition finalize_state (st : rstate) : outcome rstate :=
    if existsb (fun a => (0 <? a_label a) && fle (a_count a) f0) (r_arcs st) then Err
    else
      let sum := fadd (fsum (map (@a_count F) (filter (fun a => 0 <? a_label a) (r_arcs st))))
                      (match r_final st with Some c => c | None => f0 end) in
      let* a := first_arc (r_arcs st) in
      if a_label a =? 0 then
        if fle sum f0 then Err
        else Ok (RState (Arc 0 sum (a_next a) :: tl (r_arcs st)) (r_final st))
      else Ok st.
  Fixpoint finalize_lower (ts : list Z) (s : nat) (l : list rstate) : outcome (list rstate) :=
    match l with
    | [] => Ok []
    | st :: t =>
        let* st' := (if is_target ts s then finalize_state st else Ok st) in
        let* t' := finalize_lower ts (S s) t in
        Ok (st' :: t')
    end.
  (** ppm_as_fst_model.cc:201-207 CalculateUpdateExclusions. *)
  Definition update_exclusions (f : list (pstate F)) : outcome (list (pstate F)) :=
    let* ts := backoff_targets f (seq 0 (length f)) in
    let* l := increment_lower (zero_out ts 0 (map r_of f)) (seq 0 (length f)) in
    let* l' := finalize_lower ts 0 l in
    Ok (map r_to l').

  (** ppm_as_fst_model.cc:383-400 GetSymsVector with add_sym, for String2Fst (.cc:402-418): the
      labels of a line; new characters get the next label. *)
  Fixpoint intern (syms : list Z) (line : list Z) : list Z * list Z :=
    match line with
    | [] => ([], syms)
    | c :: t =>
        let syms' := if find_sym 1 syms c <? 0 then syms ++ [c] else syms in
        let '(ls, syms'') := intern syms' t in
        (find_sym 1 syms' c :: ls, syms'')
    end.
  Fixpoint intern_lines (syms : list Z) (lines : list (list Z)) : list (list Z) * list Z :=
    match lines with
    | [] => ([], syms)
    | [] :: t => intern_lines syms t
    | line :: t =>
        let '(ls, syms') := intern syms line in
        let '(lss, syms'') := intern_lines syms' t in (ls :: lss, syms'')
    end.

  (** sfst::NGramCounter: the count automaton of some strings of labels, and its start state. *)
  Variable counter : Z -> list (list Z) -> outcome (list (pstate F) * Z).

  (** ppm_as_fst_model.cc:420-444 TrainFromText: automaton, start state, symbols. *)
  Definition train (max_order : Z) (lines : list (list Z)) : outcome (list (pstate F) * Z * list Z) :=
    let '(strings, syms) := intern_lines [] lines in
    let* (f, start) := counter max_order strings in
    let* f := update_exclusions (sort_states f) in
    let* f := add_prior start syms f in
    Ok (f, start, syms).

  (** storage.model_file(): absent; to be read as an automaton (model_is_fst), or as text, with
      what reading gives ([None]: it cannot be read). *)
  Inductive model_file : Type :=
  | NoModel
  | FstModel (content : option (list (pstate F) * Z * list Z))
  | TextModel (lines : option (list (list Z))).

  (** ppm_as_fst_model.cc:455-521 Read. [vocab]: storage.vocabulary_file(), absent, not readable, or
      its lines. *)
  Definition ppm_read (o : ppm_options) (model : model_file) (vocab : option (option (list (list Z))))
    : outcome (ppm F) :=
    let* (f, start, syms) :=
      match model with
      | FstModel None => Err
      | FstModel (Some r) => Ok r
      | TextModel None => Err
      | TextModel (Some []) => Ok ([], -1, [])
      | TextModel (Some lines) => train (init_order o) lines
      | NoModel => match vocab with None => Err | Some _ => Ok (make_empty, 0, []) end
      end in
    let* (f, syms) :=
      match vocab with
      | None => Ok (f, syms)
      | Some None => Err
      | Some (Some []) => Err
      | Some (Some lines) =>
          let* (f', syms') := add_lines start f syms lines in
          Ok (match model with NoModel => sort_states f' | _ => f' end, syms')
      end in
    let* (orders, maxo) := state_orders start f in
    let mo := if init_order o <=? maxo then maxo + 1 else init_order o in
    let cache := if init_cache o <? mo then mo + 1 else init_cache o in
    Ok (Ppm f start syms (if po_static o then [] else orders) mo (init_alpha o) (init_beta o)
            (po_static o) cache 0 (repeat (-1) (length f)) []).

  (** ppm_as_fst_model.cc:446-453 WriteFst: the model after it, and what the file contains. *)
  Definition write_fst (m : ppm F) : ppm F * (list (pstate F) * Z * list Z) :=
    let m' := set_fst m (sort_states (p_fst m)) in
    (m', (p_fst m', p_start m', p_syms m')).
End PpmRead.

Arguments ppm_options F : clear implicits.
Arguments rstate F : clear implicits.
Arguments model_file F : clear implicits.
