(** A reference machine for the PPM model behind the interface of language_model.h: it remembers the
    known histories, in the order in which they became known (state i is the i-th of them), and a
    table of counts, and answers with the formulas of PpmSpec.v. *)
From Verif Require Import Base Field LmModel TextModel HubModel PpmModel PpmSpec PpmReadModel PpmStruct PpmTrainSpec.
Local Open Scope Z_scope.

(** A call of the interface: NextState, SymLMScore, ExtractLMScores, UpdateLMCounts. *)
Inductive call : Type :=
| CNext (state c : Z)
| CScore (state c : Z)
| CExtract (state : Z)
| CUpdate (state : Z) (cs : list Z) (count : Z).
Definition call_state (k : call) : Z :=
  match k with CNext s _ => s | CScore s _ => s | CExtract s => s | CUpdate s _ _ => s end.
Definition is_query (k : call) : bool := match k with CUpdate _ _ _ => false | _ => true end.

Section Ref.
  Context {F : ofield}.

  Inductive answer : Type :=
  | ANext (state : Z)
  | AScore (p : car F)
  | AExtract (scores : option (lm_scores (car F)))
  | AUpdate (ok : bool).

  Variables (syms : list Z) (alpha beta : car F) (max_order : Z) (static : bool).
  Notation V := (length syms).

  (** The number of a known history. *)
  Fixpoint index_from (i : Z) (K : list history) (h : history) : Z :=
    match K with
    | [] => -1
    | g :: t => if hist_eqb g h then i else index_from (i + 1) t h
    end.

  Definition ref_answer (K : list history) (C : @counts F) (h : history) (k : call) : answer :=
    match k with
    | CNext _ c => ANext (index_from 0 K (next_history K h (label_from 1 syms c)))
    | CScore _ c =>
        let x := if c =? 0 then 0 else label_from 1 syms c in
        AScore (if 0 <=? x then prob V alpha beta C h x else f0)
    | CExtract _ =>
        AExtract (Some (LmScores (norm V alpha C h)
          (combine ([] :: map (fun c => [c]) syms) (map (prob V alpha beta C h) (symbols V)))))
    | CUpdate _ _ _ => AUpdate true
    end.
  Definition ref_next (K : list history) (C : @counts F) (h : history) (k : call) : list history * @counts F :=
    match k with
    | CUpdate _ cs n => if static || (n <=? 0) then (K, C) else learn max_order (label_from 1 syms) K C h cs n
    | _ => (K, C)
    end.
  (** A sequence of calls; [None] if a call uses a number no history has. *)
  Fixpoint ref_run (K : list history) (C : @counts F) (ks : list call)
    : option (list answer * (list history * @counts F)) :=
    match ks with
    | [] => Some ([], (K, C))
    | k :: t =>
        match getZ K (call_state k) with
        | None => None
        | Some h =>
            let (K', C') := ref_next K C h k in
            match ref_run K' C' t with
            | None => None
            | Some (l, r) => Some (ref_answer K C h k :: l, r)
            end
        end
    end.

  (** The same calls on the model. *)
  Definition ppm_call (m : ppm F) (k : call) : outcome (answer * ppm F) :=
    match k with
    | CNext s c => let* (s', m') := ppm_next m s c in Ok (ANext s', m')
    | CScore s c => let* (p, m') := ppm_score m s c in Ok (AScore p, m')
    | CExtract s => let* (r, m') := ppm_extract m s in Ok (AExtract r, m')
    | CUpdate s cs n => let* (b, m') := ppm_update m s cs n in Ok (AUpdate b, m')
    end.
  Fixpoint ppm_run (m : ppm F) (ks : list call) : outcome (list answer * ppm F) :=
    match ks with
    | [] => Ok ([], m)
    | k :: t =>
        let* (a, m1) := ppm_call m k in
        let* (l, m2) := ppm_run m1 t in
        Ok (a :: l, m2)
    end.
End Ref.
Arguments answer F : clear implicits.

(** The code points of a text in order of first occurrence, those of [l] coming first: labels are
    given in this order (ppm_as_fst_model.cc:288-308, 383-418). *)
Fixpoint with_chars (l : list Z) (text : list Z) : list Z :=
  match text with
  | [] => l
  | c :: t => with_chars (if existsb (Z.eqb c) l then l else l ++ [c]) t
  end.

(** The strings of labels of the lines of a text that are not blank. *)
Definition not_blank (line : list Z) : bool := match line with [] => false | _ => true end.
Definition strings_of (syms : list Z) (lines : list (list Z)) : list (list Z) :=
  map (map (label_from 1 syms)) (filter not_blank lines).

Section Input.
  Context {F : ofield}.

  (** The contract of the external counter. *)
  Definition counter_contract (counter : Z -> list (list Z) -> outcome (list (pstate F) * Z)) : Prop :=
    forall n strings, 2 <= n -> strings <> [] ->
      (forall s, In s strings -> s <> [] /\ forall x, In x s -> 1 <= x) ->
      exists f start ctx, counter n strings = Ok (f, start) /\ counted n strings f start ctx.

  (** The counts after adding the symbols V+1 .. V' after the empty history. *)
  Definition add_sym_count (V V' : nat) (C : @counts F) : @counts F :=
    fun g y => if hist_eqb g [] && (Z.of_nat V <? y) && (y <=? Z.of_nat V') then f1 else C g y.
  (** The counts of a model that knows its vocabulary only. *)
  Definition prior_counts (V : nat) : @counts F :=
    fun h x => if hist_eqb h [] && (0 <=? x) && (x <=? Z.of_nat V) then f1 else f0.

  Definition vocab_chars (vocab : option (list (list Z))) : list Z :=
    match vocab with None => [] | Some lines => concat lines end.

  (** Inputs Read is meant for: a vocabulary with at least one character; a text with at least one
      character and an order of at least 2; an automaton in the format of WriteFst with distinct symbols. A vocabulary, if
      any, has at least one line. *)
  Definition readable (counter : Z -> list (list Z) -> outcome (list (pstate F) * Z)) (o : ppm_options F)
    (model : model_file F) (vocab : option (list (list Z))) : Prop :=
    vocab <> Some [] /\
    match model with
    | NoModel => vocab_chars vocab <> []
    | TextModel (Some lines) => counter_contract counter /\ 2 <= init_order o /\ concat lines <> []
    | TextModel None => False
    | FstModel (Some (f, start, syms)) =>
        NoDup syms /\ exists mo u K, wf (length syms) (init_beta o) mo start u (fun _ => False) f K
    | FstModel None => False
    end.

  (** The symbols, known histories and counts such an input stands for. *)
  Definition described (o : ppm_options F) (model : model_file F) (vocab : option (list (list Z)))
    (syms : list Z) (K : list history) (C : @counts F) : Prop :=
    match model with
    | NoModel => syms = with_chars [] (vocab_chars vocab) /\ K = [[0]; []] /\ C = prior_counts (length syms)
    | TextModel (Some lines) =>
        let syms0 := with_chars [] (concat lines) in
        let strings := strings_of syms0 lines in
        syms = with_chars syms0 (vocab_chars vocab) /\ NoDup K /\
        (forall h, In h K <-> context (init_order o) strings h) /\
        C = add_sym_count (length syms0) (length syms)
              (fun h x => ofZ (trained_counts (length syms0) strings K h x))
    | FstModel (Some (f, start, syms0)) =>
        syms = with_chars syms0 (vocab_chars vocab) /\
        (exists mo u, wf (length syms0) (init_beta o) mo start u (fun _ => False) f K) /\
        C = add_sym_count (length syms0) (length syms) (table K f)
    | _ => False
    end.
End Input.
