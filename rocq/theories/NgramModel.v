(** Model of mozolm/models/ngram_fst_model.{h,cc} and ngram_char_fst_model.{h,cc}.

    Weights are probabilities (the code stores -log): Times is multiplication, Weight::Zero() is 0
    and Weight::One() is 1.  The automaton reuses the records [arc] and [pstate] of PpmModel.v
    (fst::StdVectorFst).  State ids and labels are unbounded integers.  Strings are lists of code
    points (EncodeUnicodeChar(c) is [[c]]).  External code written down here: fst::SortedMatcher
    (OpenFst matcher.h), fst::SymbolTable, sfst::Backoff; parameters: the two model checks of sfst. *)
From Verif Require Import Base Field LmModel HubModel PpmModel.
Local Open Scope Z_scope.

Section Ngram.
  Context {F : ofield}.
  Notation arc := (@arc F).
  Notation pstate := (@pstate F).

  (** ngram_fst_model.h:62-73 data members.  [ng_syms] is the input symbol table in position order
      (GetNthKey), as (label, symbol) pairs. *)
  Record ngram : Type := Ngram {
    ng_fst : list pstate;
    ng_start : Z;
    ng_syms : list (Z * str);
    ng_oov : Z;
    ng_unigram : Z
  }.

  (** The arc found by a SortedMatcher: first arc with that label. *)
  Definition arc_with (l : Z) (arcs : list arc) : option arc := find (fun a => a_label a =? l) arcs.

  (** fst::SortedMatcher after SetState(s); Find(label); Value(): label 0 matches the implicit
      self-loop of weight One first, kNoLabel (-1) searches for label 0.  Returns (nextstate,
      weight). *)
  Definition matcher_find (s : Z) (st : pstate) (label : Z) : option (Z * car F) :=
    if label =? 0 then Some (s, f1)
    else match arc_with (if label =? -1 then 0 else label) (ps_arcs st) with
         | Some a => Some (a_next a, a_count a)
         | None => None
         end.

  (** ngram_fst_model.cc:110-128 GetBackoff (the weight is always returned).  SetState on a state
      that does not exist is undefined. *)
  Definition ng_backoff (f : list pstate) (s : Z) : outcome (Z * car F) :=
    if s =? -1 then Ok (-1, f1)
    else
      let* st := vgetZ f s in
      match find (fun a => (a_label a =? 0) && negb (a_next a =? s)) (ps_arcs st) with
      | Some a => Ok (a_next a, a_count a)
      | None => Ok (-1, f1)
      end.

  (** ngram_fst_model.cc:89-98 CheckCurrentState. *)
  Definition check_state (m : ngram) (s : Z) : Z :=
    if s =? -1 then (if ng_unigram m =? -1 then ng_start m else ng_unigram m) else s.

  (** ngram_fst_model.cc:130-145 NextModelState: the loop.  [fuel] bounds the number of states
      visited; running out stands for an endless loop. *)
  Fixpoint next_model_loop (fuel : nat) (m : ngram) (s label : Z) : outcome Z :=
    if s =? -1 then Ok (ng_unigram m)
    else match fuel with
         | O => UB
         | S fuel' =>
             let* st := vgetZ (ng_fst m) s in
             match matcher_find s st label with
             | Some (next, _) => Ok next
             | None => let* (b, _) := ng_backoff (ng_fst m) s in next_model_loop fuel' m b label
             end
         end.
  Definition next_model_state (m : ngram) (s label : Z) : outcome Z :=
    next_model_loop (S (length (ng_fst m))) m s label.

  (** fst::SymbolTable::Find(symbol): the label or kNoSymbol (-1). *)
  Definition find_label (tab : list (Z * str)) (w : str) : Z :=
    match find (fun e => str_eqb (snd e) w) tab with Some (l, _) => l | None => -1 end.
  (** fst::SymbolTable::Find(label): the symbol or the empty string. *)
  Definition find_symbol (tab : list (Z * str)) (l : Z) : str :=
    match find (fun e => fst e =? l) tab with Some (_, w) => w | None => [] end.

  (** ngram_char_fst_model.cc:34-42 SymLabel. *)
  Definition sym_label (m : ngram) (c : Z) : Z :=
    if c =? 0 then c
    else let label := find_label (ng_syms m) [c] in
         if label =? -1 then ng_oov m else label.

  (** ngram_char_fst_model.cc:44-47 NextState. *)
  Definition ng_next_state (m : ngram) (s c : Z) : outcome Z :=
    next_model_state m (check_state m s) (sym_label m c).

  (** ngram_char_fst_model.cc:102-119 FinalCostInState.  fst_->Final(s) is undefined on a state
      that does not exist. *)
  Fixpoint final_loop (fuel : nat) (m : ngram) (s : Z) (bo : car F) : outcome (car F) :=
    match fuel with
    | O => UB
    | S fuel' =>
        let* (b, g) := ng_backoff (ng_fst m) s in
        let bo' := fmul bo g in
        if 0 <=? b then
          let* st := vgetZ (ng_fst m) b in
          if feqb (ps_final st) f0 then final_loop fuel' m b bo'
          else Ok (fmul (ps_final st) bo')
        else Ok f0
    end.
  Definition final_cost (m : ngram) (s : Z) : outcome (car F) :=
    let* st := vgetZ (ng_fst m) s in
    if feqb (ps_final st) f0 then final_loop (S (length (ng_fst m))) m s f1
    else Ok (ps_final st).

  (** ngram_char_fst_model.cc:80-100 LabelCostInState. *)
  Fixpoint label_loop (fuel : nat) (m : ngram) (s label : Z) (cost : car F) : outcome (car F) :=
    if s <? 0 then Ok f0
    else match fuel with
         | O => UB
         | S fuel' =>
             let* st := vgetZ (ng_fst m) s in
             match matcher_find s st label with
             | Some (_, w) => Ok (fmul cost w)
             | None => let* (b, g) := ng_backoff (ng_fst m) s in
                       label_loop fuel' m b label (fmul cost g)
             end
         end.
  Definition label_cost (m : ngram) (s label : Z) : outcome (car F) :=
    if label =? 0 then final_cost m s
    else label_loop (S (length (ng_fst m))) m s label f1.

  (** ngram_char_fst_model.cc:76-78 SymLMScore (no CheckCurrentState here). *)
  Definition ng_score (m : ngram) (s c : Z) : outcome (car F) := label_cost m s (sym_label m c).

  (** ngram_char_fst_model.cc:49-74 ExtractLMScores. *)
  Fixpoint label_costs (m : ngram) (s : Z) (labels : list Z) : outcome (list (car F)) :=
    match labels with
    | [] => Ok []
    | l :: t => let* c := label_cost m s l in let* cs := label_costs m s t in Ok (c :: cs)
    end.
  Definition ng_extract (m : ngram) (s : Z) : outcome (lm_scores (num F)) :=
    let s := check_state m s in
    let labels := map fst (tl (ng_syms m)) in
    let* c0 := label_cost m s 0 in
    let* cs := label_costs m s labels in
    let* probs := softmax_renormalize (c0 :: cs) in
    Ok (LmScores (Val f1) (combine ([] :: map (find_symbol (ng_syms m)) labels) probs)).

  (** ngram_fst_model.cc:81-87 UpdateLMCounts: a no-op. *)
  Definition ng_update (m : ngram) (s : Z) (w : list Z) (n : Z) : outcome (bool * ngram) := Ok (true, m).

  (** An FST file: states, start state (-1 if none), input symbol table if there is one. *)
  Record fst_file : Type := FstFile {
    ff_states : list pstate;
    ff_start : Z;
    ff_syms : option (list (Z * str))
  }.
  (** ModelStorage: [None] for an unset path, [Some None] for a file that cannot be read. *)
  Record storage : Type := Storage {
    st_model : option (option fst_file);
    st_vocab : option (option (list (Z * str)))
  }.

  (** "<unk>" (line 41). *)
  Definition unk_symbol : str := [60; 117; 110; 107; 62].

  (** ngram_fst_model.cc:47-79 Read, with the checks of lines 100-108 (sfst::IsCanonical and
      sfst::IsNormalized) as [accept]. sfst::Backoff::GetBackoffState is [ng_backoff]. *)
  Definition ng_read (accept : list pstate -> Z -> bool) (sg : storage) : outcome ngram :=
    match st_model sg with
    | None => Err
    | Some None => Err
    | Some (Some ff) =>
        let* syms := match ff_syms ff with
                     | Some t => Ok t
                     | None => match st_vocab sg with
                               | Some (Some t) => Ok t
                               | _ => Err
                               end
                     end in
        let oov := find_label syms unk_symbol in
        let* (b, _) := ng_backoff (ff_states ff) (ff_start ff) in
        let unigram := if b =? -1 then ff_start ff else b in
        if accept (ff_states ff) (ff_start ff)
        then Ok (Ngram (ff_states ff) (ff_start ff) syms oov unigram)
        else Err
    end.

  Definition plain_scores (sc : lm_scores (num F)) : outcome (lm_scores (car F)) :=
    match sc_norm sc with
    | NaN => UB
    | Val n =>
        let* e := (fix go l := match l with
                  | [] => Ok []
                  | (k, Val p) :: t => let* r := go t in Ok ((k, p) :: r)
                  | (_, NaN) :: _ => UB
                  end) (sc_entries sc) in
        Ok (LmScores n e)
    end.

  (** The virtual interface (language_model.h). The start state of the base class is 0
      (language_model.h:81) and NGramFstModel::Read does not change it. *)
  Definition ngram_ops : comp_ops F ngram := {|
    c_start := fun _ => 0;
    c_next := fun m s c => let* r := ng_next_state m s c in Ok (r, m);
    c_score := fun m s c => let* r := ng_score m s c in Ok (r, m);
    c_extract := fun m s => let* r := ng_extract m s in
                            let* p := plain_scores r in Ok (Some p, m);
    c_update := ng_update
  |}.
End Ngram.
Arguments ngram F : clear implicits.
Arguments fst_file F : clear implicits.
Arguments storage F : clear implicits.
