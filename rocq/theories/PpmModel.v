(** Model of mozolm/models/ppm_as_fst_model.{h,cc}: the PPM model.

    Weights of the automaton and of the cache are -log of counts and of probabilities in the code;
    here they are the counts and probabilities themselves, in an ordered field: sfst::NegLogSum is
    addition, sfst::NegLogDiff subtraction, adding costs is multiplication, subtracting them
    division, Weight::Zero() (infinite cost) is 0 and Weight::One() (cost 0) is 1.  Simplifications:
    int counters (cache_accessed_, state ids) are unbounded integers; symbols are code points
    (EncodeUnicodeChar and the string symbol table are an injective renaming), so the symbol table
    is the list of the code points of labels 1, 2, ...; sfst::NGramCounter is external and a
    parameter of [ppm_read]. *)
From Verif Require Import Base Field LmModel TextModel HubModel.
Local Open Scope Z_scope.

Section Ppm.
  Context {F : ofield}.
  Implicit Types x y : car F.

  (** fst::StdArc (ilabel = olabel) and one state of fst::StdVectorFst. A final weight 0 is
      Weight::Zero(). *)
  Record arc : Type := Arc { a_label : Z; a_count : car F; a_next : Z }.
  Record pstate : Type := PState { ps_arcs : list arc; ps_final : car F }.

  (** ppm_as_fst_model.h:86-156 PpmStateCache: the cached vectors, and the entry. *)
  Record vals : Type := Vals {
    v_origins : list Z;
    v_dests : list Z;
    v_probs : list (car F);
    v_norm : car F
  }.
  Record pcache : Type := PCache { pc_state : Z; pc_accessed : Z; pc_updated : Z; pc_vals : vals }.

  (** ppm_as_fst_model.h:158-341 PpmAsFstModel, the data members. *)
  Record ppm : Type := Ppm {
    p_fst : list pstate;
    p_start : Z;
    p_syms : list Z;
    p_orders : list Z;
    p_max_order : Z;
    p_alpha : car F;
    p_beta : car F;
    p_static : bool;
    p_max_cache : Z;
    p_accessed : Z;
    p_cindex : list Z;
    p_caches : list pcache
  }.
  Definition set_fst (m : ppm) f : ppm :=
    Ppm f (p_start m) (p_syms m) (p_orders m) (p_max_order m) (p_alpha m) (p_beta m) (p_static m)
        (p_max_cache m) (p_accessed m) (p_cindex m) (p_caches m).
  Definition set_cache (m : ppm) accessed cindex caches : ppm :=
    Ppm (p_fst m) (p_start m) (p_syms m) (p_orders m) (p_max_order m) (p_alpha m) (p_beta m)
        (p_static m) (p_max_cache m) accessed cindex caches.
  Definition set_states (m : ppm) f orders cindex : ppm :=
    Ppm f (p_start m) (p_syms m) orders (p_max_order m) (p_alpha m) (p_beta m)
        (p_static m) (p_max_cache m) (p_accessed m) cindex (p_caches m).

  Definition vsetZ {A} (l : list A) (i : Z) (a : A) : outcome (list A) :=
    if i <? 0 then UB else vset l (Z.to_nat i) a.

  (** The first arc of a state: ArcIterator::Value() right after construction, undefined on a state
      without arcs. *)
  Definition first_arc (l : list arc) : outcome arc :=
    match l with [] => UB | a :: _ => Ok a end.

  (** ppm_as_fst_model.cc:64-75 GetBackoffState. *)
  Definition backoff_state (f : list pstate) (s : Z) : outcome Z :=
    if (0 <=? s) && (s <? Z.of_nat (length f)) then
      let* st := vgetZ f s in
      let* a := first_arc (ps_arcs st) in
      Ok (if a_label a =? 0 then a_next a else -1)
    else Ok (-1).

  (** ppm_as_fst_model.cc:210-219 NoObservations. *)
  Definition no_observations (f : list pstate) (s : Z) : outcome bool :=
    let* st := vgetZ f s in
    let* a := first_arc (ps_arcs st) in
    Ok (feqb (ps_final st) f0 && (length (ps_arcs st) =? 1)%nat && (a_label a =? 0)).

  (** ppm_as_fst_model.cc:224-238 IncrementBackoffArcReturnBackoffState. *)
  Definition increment_backoff (f : list pstate) (s : Z) : outcome (Z * list pstate) :=
    let* none := no_observations f s in
    let* st := vgetZ f s in
    match ps_arcs st with
    | [] => UB
    | a :: t =>
        if a_label a =? 0 then
          let a' := if none then a else Arc (a_label a) (fadd (a_count a) f1) (a_next a) in
          let* f' := vsetZ f s (PState (a' :: t) (ps_final st)) in
          Ok (a_next a, f')
        else Ok (-1, f)
    end.

  (** ppm_as_fst_model.cc:241-254 GetTotalStateCount. *)
  Fixpoint total_from (acc : car F) (l : list arc) : car F :=
    match l with
    | [] => acc
    | a :: t => if a_label a =? 0 then a_count a else total_from (fadd acc (a_count a)) t
    end.
  Definition total_state_count (st : pstate) : car F := total_from (ps_final st) (ps_arcs st).

  (** ppm_as_fst_model.cc:257-279 UpdateIndexProb; [None] is the returned error. *)
  Definition update_index_prob (count beta denominator lower_order_prob : car F) (at_unigram : bool)
    : option (car F) :=
    if at_unigram then Some (fdiv count denominator)
    else if fle count beta then None
    else Some (fadd lower_order_prob (fdiv (fsub count beta) denominator)).

  (** ppm_as_fst_model.cc:544-554 FindOldestLastAccessedCache. *)
  Fixpoint find_oldest (i : nat) (best : nat) (oldest : Z) (l : list pcache) : nat :=
    match l with
    | [] => best
    | c :: t => if pc_accessed c <? oldest then find_oldest (S i) i (pc_accessed c) t
                else find_oldest (S i) best oldest t
    end.
  Definition find_oldest_last_accessed (l : list pcache) : outcome nat :=
    match l with [] => UB | c :: t => Ok (find_oldest 1 0 (pc_accessed c) t) end.

  (** PpmStateCache(state): vectors empty (.h:90-93). *)
  Definition new_cache (s : Z) : pcache := PCache s (-1) (-1) (Vals [] [] [] f0).

  (** Calls that return absl::Status or StatusOr: [None] is an error; the model's memory after the
      call either way. *)
  Definition try A : Type := outcome (option A * ppm).

  (** ppm_as_fst_model.cc:556-571 GetNewCacheIndex. *)
  Definition get_new_cache_index (m : ppm) (s : Z) : try unit :=
    if Z.of_nat (length (p_caches m)) <? p_max_cache m then
      let* ci := vsetZ (p_cindex m) s (Z.of_nat (length (p_caches m))) in
      Ok (Some tt, set_cache m (p_accessed m) ci (p_caches m ++ [new_cache s]))
    else
      let* idx := find_oldest_last_accessed (p_caches m) in
      let* old := vget (p_caches m) idx in
      let* oi := vgetZ (p_cindex m) (pc_state old) in
      if negb (oi =? Z.of_nat idx) then Ok (None, m)
      else
        let* ci := vsetZ (p_cindex m) (pc_state old) (-1) in
        let* cs := vset (p_caches m) idx (new_cache s) in
        let* ci := vsetZ ci s (Z.of_nat idx) in
        Ok (Some tt, set_cache m (p_accessed m) ci cs).

  (** ppm_as_fst_model.cc:573-586 InitCacheStates ([backoff]: the vector of the back-off cache). *)
  Definition init_cache_states (st : pstate) (has_backoff : bool) (backoff : list Z) : list Z :=
    if has_backoff then backoff else repeat 0 (S (length (ps_arcs st))).

  (** ppm_as_fst_model.cc:588-611 InitCacheProbs (a fresh vector of costs 0 is of probabilities
      1). *)
  Definition init_cache_probs (m : ppm) (st : pstate) (has_backoff : bool) (backoff : list (car F))
    (denominator : car F) : list (car F) :=
    if has_backoff then
      let n := if feqb (ps_final st) f0 then Z.of_nat (length (ps_arcs st)) - 1
               else Z.of_nat (length (ps_arcs st)) in
      let gamma := fdiv (fadd (fmul (ofZ n) (p_beta m)) (p_alpha m)) denominator in
      map (fun p => fmul p gamma) backoff
    else repeat f1 (S (length (ps_arcs st))).

  (** ppm_as_fst_model.cc:632-646: one step of the loop over the arcs. *)
  Fixpoint fill_arcs (m : ppm) (s : Z) (at_unigram : bool) (denominator : car F) (l : list arc)
    (v : list Z * list Z * list (car F)) : outcome (option (list Z * list Z * list (car F))) :=
    match l with
    | [] => Ok (Some v)
    | a :: t =>
        if a_label a <=? 0 then fill_arcs m s at_unigram denominator t v
        else
          let '(origins, dests, probs) := v in
          if Z.of_nat (length origins) <=? a_label a then Ok None
          else
            let* o' := vsetZ origins (a_label a) s in
            let* d' := vsetZ dests (a_label a) (a_next a) in
            let* p := vgetZ probs (a_label a) in
            match update_index_prob (a_count a) (p_beta m) denominator p at_unigram with
            | None => Ok None
            | Some p' => let* ps' := vsetZ probs (a_label a) p' in
                         fill_arcs m s at_unigram denominator t (o', d', ps')
            end
    end.

  (** The probabilities after SoftmaxRenormalize; a NaN (total 0) is [Crash] here, and shown never
      to occur in a sound model. *)
  Fixpoint plain_probs (l : list (num F)) : outcome (list (car F)) :=
    match l with
    | [] => Ok []
    | Val p :: t => let* r := plain_probs t in Ok (p :: r)
    | NaN :: _ => Crash
    end.

  (** ppm_as_fst_model.cc:613-649 UpdateCacheStatesAndProbs. *)
  Definition update_cache_states_and_probs (m : ppm) (s : Z) (st : pstate) (at_unigram : bool)
    (denominator : car F) (v : list Z * list Z * list (car F))
    : outcome (option (list Z * list Z * list (car F))) :=
    let* v1 :=
      (if negb (feqb (ps_final st) f0) then
         let '(origins, dests, probs) := v in
         let* o' := vset origins 0 s in
         let* d' := vset dests 0 (p_start m) in
         let* p := vget probs 0 in
         match update_index_prob (ps_final st) (p_beta m) denominator p at_unigram with
         | None => Ok None
         | Some p' => let* ps' := vset probs 0 p' in Ok (Some (o', d', ps'))
         end
       else if at_unigram then Ok None
       else Ok (Some v)) in
    match v1 with
    | None => Ok None
    | Some v1 =>
        let* v2 := fill_arcs m s at_unigram denominator (ps_arcs st) v1 in
        match v2 with
        | None => Ok None
        | Some (o, d, ps) =>
            let* ps' := softmax_renormalize ps in
            let* ps'' := plain_probs ps' in
            Ok (Some (o, d, ps''))
        end
    end.

  (** PpmStateCache::UpdateCache (.cc:1010-1032, both) on the cache entry of state [s]. *)
  Definition store_cache (m : ppm) (s : Z) (v : vals) : outcome ppm :=
    let* i := vgetZ (p_cindex m) s in
    let* c := vgetZ (p_caches m) i in
    let* cs := vsetZ (p_caches m) i (PCache (pc_state c) (p_accessed m) (p_accessed m) v) in
    Ok (set_cache m (p_accessed m + 1) (p_cindex m) cs).

  (** The common end of UpdateCacheAtState and UpdateCacheAtNonEmptyState. *)
  Definition allocate_and_store (m : ppm) (s : Z) (v : vals) : try unit :=
    let* i := vgetZ (p_cindex m) s in
    let* (ok, m1) := (if i <? 0 then get_new_cache_index m s else Ok (Some tt, m)) in
    match ok with
    | None => Ok (None, m1)
    | Some _ => let* m2 := store_cache m1 s v in Ok (Some tt, m2)
    end.

  (** ppm_as_fst_model.cc:651-675 UpdateCacheAtNonEmptyState. *)
  Definition update_cache_at_nonempty (m : ppm) (s : Z) (backoff : Z) (bv : vals) : try unit :=
    let* st := vgetZ (p_fst m) s in
    let has_backoff := 0 <=? backoff in
    let denominator := fadd (total_state_count st) (p_alpha m) in
    let* r := update_cache_states_and_probs m s st (negb has_backoff) denominator
                (init_cache_states st has_backoff (v_origins bv),
                 init_cache_states st has_backoff (v_dests bv),
                 init_cache_probs m st has_backoff (v_probs bv) denominator) in
    match r with
    | None => Ok (None, m)
    | Some (o, d, ps) => allocate_and_store m s (Vals o d ps denominator)
    end.

  (** ppm_as_fst_model.cc:677-701 UpdateCacheAtState, given EnsureCacheAtState for the back-off
      state. *)
  Definition update_cache_at_state (ensure : ppm -> Z -> try vals) (m : ppm) (s : Z) : try unit :=
    if s <? 0 then Ok (None, m)
    else if Z.of_nat (length (p_fst m)) <=? s then Ok (None, m)
    else
      let* b := backoff_state (p_fst m) s in
      let* (bc, m1) := (if 0 <=? b then ensure m b else Ok (Some (Vals [] [] [] f0), m)) in
      match bc with
      | None => Ok (None, m1)
      | Some bv =>
          let* none := no_observations (p_fst m1) s in
          if none then allocate_and_store m1 s bv
          else update_cache_at_nonempty m1 s b bv
      end.

  (** ppm_as_fst_model.cc:721-734 LowerOrderCacheUpdated, the loop ([fuel]: a back-off cycle would
      loop forever). *)
  Fixpoint lower_updated_loop (fuel : nat) (m : ppm) (last_updated b : Z) : outcome bool :=
    match fuel with
    | O => UB
    | S k =>
        if b <? 0 then Ok false
        else
          let* i := vgetZ (p_cindex m) b in
          let* newer := (if 0 <=? i then let* c := vgetZ (p_caches m) i in
                                         Ok (last_updated <? pc_updated c)
                         else Ok false) in
          if newer then Ok true
          else let* b' := backoff_state (p_fst m) b in lower_updated_loop k m last_updated b'
    end.
  Definition lower_order_cache_updated (m : ppm) (s : Z) : outcome bool :=
    let* i := vgetZ (p_cindex m) s in
    if i <? 0 then Ok true
    else
      let* c := vgetZ (p_caches m) i in
      let* b := backoff_state (p_fst m) s in
      lower_updated_loop (S (length (p_fst m))) m (pc_updated c) b.

  (** ppm_as_fst_model.cc:736-758 EnsureCacheAtState ([fuel]: depth of the back-off recursion, a
      cycle would exhaust the stack). *)
  Fixpoint ensure_cache_fuel (fuel : nat) (m : ppm) (s : Z) : try vals :=
    match fuel with
    | O => UB
    | S k =>
        let* i := vgetZ (p_cindex m) s in
        let* stale := (if i <? 0 then Ok true else lower_order_cache_updated m s) in
        let* (ok, m1) := (if stale then update_cache_at_state (ensure_cache_fuel k) m s
                          else Ok (Some tt, m)) in
        match ok with
        | None => Ok (None, m1)
        | Some _ =>
            let* i := vgetZ (p_cindex m1) s in
            if i <? 0 then Ok (None, m1)
            else if Z.of_nat (length (p_caches m1)) <=? i then Ok (None, m1)
            else
              let* c := vgetZ (p_caches m1) i in
              if negb (pc_state c =? s) then Ok (None, m1)
              else if stale then Ok (Some (pc_vals c), m1)
              else
                let* cs := vsetZ (p_caches m1) i
                             (PCache (pc_state c) (p_accessed m1) (pc_updated c) (pc_vals c)) in
                Ok (Some (pc_vals c), set_cache m1 (p_accessed m1 + 1) (p_cindex m1) cs)
        end
    end.
  Definition ensure_cache (m : ppm) (s : Z) : try vals :=
    ensure_cache_fuel (S (length (p_fst m))) m s.
  Definition update_cache (m : ppm) (s : Z) : try unit :=
    update_cache_at_state (ensure_cache_fuel (S (length (p_fst m)))) m s.

  (** ppm_as_fst_model.cc:1034-1077 PpmStateCache::VerifyAccess and the accessors. *)
  Definition access {A} (l : list A) (i : Z) : option A :=
    if (i <? 0) || (Z.of_nat (length l) <=? i) then None else nth_error l (Z.to_nat i).

  (** ppm_as_fst_model.cc:760-812 GetNegLogProb, GetArcOriginState, GetDestinationState. *)
  Definition cached {A} (pick : vals -> list A) (m : ppm) (s sym_index : Z) : try A :=
    let* (v, m1) := ensure_cache m s in
    match v with
    | None => Ok (None, m1)
    | Some v => Ok (access (pick v) sym_index, m1)
    end.
  Definition get_prob := cached v_probs.
  Definition get_arc_origin_state := cached v_origins.
  Definition get_destination_state := cached v_dests.

  (** ppm_as_fst_model.cc:703-719 NeedsNewState. *)
  Definition needs_new_state (m : ppm) (curr next : Z) : outcome (option bool) :=
    let* on := vgetZ (p_orders m) next in
    let* oc := vgetZ (p_orders m) curr in
    if oc <? on then Ok (Some false)
    else if negb (on =? oc) then Ok None
    else Ok (Some (negb (p_max_order m <=? on + 1))).

  (** ppm_as_fst_model.cc:814-828 AddNewState. *)
  Definition add_new_state (m : ppm) (backoff_dest : Z) : try Z :=
    let idx := Z.of_nat (length (p_fst m)) in
    if negb (idx =? Z.of_nat (length (p_orders m))) then
      Ok (None, set_fst m (p_fst m ++ [PState [] f0]))
    else if 0 <=? backoff_dest then
      let* o := vgetZ (p_orders m) backoff_dest in
      Ok (Some idx, set_states m (p_fst m ++ [PState [Arc 0 f1 backoff_dest] f0])
                               (p_orders m ++ [o + 1]) (p_cindex m ++ [-1]))
    else
      Ok (Some idx, set_states m (p_fst m ++ [PState [] f0]) (p_orders m ++ [0]) (p_cindex m ++ [-1])).

  (** ppm_as_fst_model.cc:839-862: the scan for the arc of the symbol; the result is the arcs after
      the update, the old next state and the new one. *)
  Fixpoint scan_arcs (m : ppm) (curr sym : Z) (l : list arc)
    : outcome (option (list arc * Z * Z)) :=
    match l with
    | [] => Ok (Some ([], -1, -1))
    | a :: t =>
        if a_label a =? sym then
          let* need := needs_new_state m curr (a_next a) in
          match need with
          | None => Ok None
          | Some n =>
              let new := if n then Z.of_nat (length (p_orders m)) else -1 in
              let a' := Arc (a_label a) (fadd (a_count a) f1) (if n then new else a_next a) in
              Ok (Some (a' :: t, a_next a, new))
          end
        else
          let* r := scan_arcs m curr sym t in
          Ok (option_map (fun '(t', o, n) => (a :: t', o, n)) r)
    end.

  (** ppm_as_fst_model.cc:830-873 UpdateHighestFoundState. *)
  Definition update_highest_found (m : ppm) (curr sym : Z) : try unit :=
    let* st := vgetZ (p_fst m) curr in
    if sym =? 0 then
      let* f := vsetZ (p_fst m) curr (PState (ps_arcs st) (fadd (ps_final st) f1)) in
      Ok (Some tt, set_fst m f)
    else
      let* r := scan_arcs m curr sym (ps_arcs st) in
      match r with
      | None => Ok (None, m)
      | Some (arcs, old, new) =>
          let* f := vsetZ (p_fst m) curr (PState arcs (ps_final st)) in
          let m1 := set_fst m f in
          if old <? 0 then Ok (None, m1)
          else if 0 <=? new then
            let* (r, m2) := add_new_state m1 old in
            Ok (option_map (fun _ => tt) r, m2)
          else Ok (Some tt, m1)
      end.

  (** ppm_as_fst_model.cc:905-924 UpdateModel with .cc:875-903 UpdateNotFoundState inlined. *)
  Fixpoint update_model_fuel (fuel : nat) (m : ppm) (curr highest sym : Z) : try Z :=
    match fuel with
    | O => UB
    | S k =>
        let* (b, f) := increment_backoff (p_fst m) curr in
        let m0 := set_fst m f in
        let* (ok, m1) :=
          (if highest =? curr then update_highest_found m0 curr sym
           else
             let* (r, m1) := update_model_fuel k m0 b highest sym in
             match r with
             | None => Ok (None, m1)
             | Some bdest =>
                 let* st := vgetZ (p_fst m1) curr in
                 if sym =? 0 then
                   let* f := vsetZ (p_fst m1) curr (PState (ps_arcs st) f1) in
                   Ok (Some tt, set_fst m1 f)
                 else
                   let* need := needs_new_state m1 curr bdest in
                   match need with
                   | None => Ok (None, m1)
                   | Some need =>
                       let* (d, m2) := (if need then add_new_state m1 bdest
                                        else Ok (Some bdest, m1)) in
                       match d with
                       | None => Ok (None, m2)
                       | Some d =>
                           let* st := vgetZ (p_fst m2) curr in
                           let* f := vsetZ (p_fst m2) curr
                                       (PState (ps_arcs st ++ [Arc sym f1 d]) (ps_final st)) in
                           Ok (Some tt, set_fst m2 f)
                       end
                   end
             end) in
        match ok with
        | None => Ok (None, m1)
        | Some _ =>
            let* (ok, m2) := update_cache m1 curr in
            match ok with
            | None => Ok (None, m2)
            | Some _ => get_destination_state m2 curr sym
            end
        end
    end.
  Definition update_model (m : ppm) (curr highest sym : Z) : try Z :=
    update_model_fuel (S (length (p_fst m))) m curr highest sym.

  (** SymbolTable::Find: the label of a code point, or -1. *)
  Fixpoint find_sym (i : Z) (l : list Z) (c : Z) : Z :=
    match l with
    | [] => -1
    | d :: t => if d =? c then i else find_sym (i + 1) t c
    end.
  Definition sym_index (m : ppm) (c : Z) : Z := find_sym 1 (p_syms m) c.

  (** ppm_as_fst_model.cc:926-938 NextState. *)
  Definition ppm_next (m : ppm) (state c : Z) : outcome (Z * ppm) :=
    let i := sym_index m c in
    let* (d, m1) := (if 0 <? i then get_destination_state m state i else Ok (None, m)) in
    match d with
    | Some d => Ok (d, m1)
    | None => let* b := backoff_state (p_fst m1) (p_start m1) in Ok (b, m1)
    end.

  (** ppm_as_fst_model.cc:947-964 SymLMScore. *)
  Definition ppm_score (m : ppm) (state c : Z) : outcome (car F * ppm) :=
    let i := if c =? 0 then 0 else sym_index m c in
    let* (p, m1) := (if 0 <=? i then get_prob m state i else Ok (None, m)) in
    Ok (match p with Some p => p | None => f0 end, m1).

  (** ppm_as_fst_model.cc:1079-1096 FillLMScores: "" for the end of string, then the symbols. *)
  Definition fill_lm_scores (syms : list Z) (v : vals) : lm_scores (car F) :=
    LmScores (v_norm v)
      (combine ([] :: map (fun c => [c]) syms) (v_probs v)).

  (** ppm_as_fst_model.cc:940-945 ExtractLMScores. (Indexing probability 0 of an empty vector would
      be undefined.) *)
  Definition ppm_extract (m : ppm) (state : Z) : outcome (option (lm_scores (car F)) * ppm) :=
    let* (v, m1) := ensure_cache m state in
    match v with
    | None => Ok (None, m1)
    | Some v => match v_probs v with
                | [] => UB
                | _ => Ok (Some (fill_lm_scores (p_syms m1) v), m1)
                end
    end.

  (** ppm_as_fst_model.cc:989-993: the further observations of one symbol. *)
  Fixpoint update_again (n : nat) (m : ppm) (state sym : Z) : outcome (bool * ppm) :=
    match n with
    | O => Ok (true, m)
    | S k => let* (r, m1) := update_model m state state sym in
             match r with
             | None => Ok (false, m1)
             | Some _ => update_again k m1 state sym
             end
    end.

  (** ppm_as_fst_model.cc:974-997: the loop over the symbols. *)
  Fixpoint update_loop (m : ppm) (state : Z) (syms : list Z) (count : Z) : outcome (bool * ppm) :=
    match syms with
    | [] => Ok (true, m)
    | c :: t =>
        let i := if 0 <? c then sym_index m c else c in
        if i <? 0 then update_loop m (p_start m) t count
        else
          let* (o, m1) := get_arc_origin_state m state i in
          match o with
          | None => Ok (false, m1)
          | Some o =>
              let* (r, m2) := update_model m1 state o i in
              match r with
              | None => Ok (false, m2)
              | Some _ =>
                  let* (ok, m3) := update_again (Z.to_nat (count - 1)) m2 state i in
                  if ok then let* (s', m4) := ppm_next m3 state c in update_loop m4 s' t count
                  else Ok (false, m3)
              end
          end
    end.

  (** ppm_as_fst_model.cc:966-1000 UpdateLMCounts. *)
  Definition ppm_update (m : ppm) (state : Z) (syms : list Z) (count : Z) : outcome (bool * ppm) :=
    if p_static m || (count <=? 0) then Ok (true, m)
    else update_loop m state syms count.

  (** ppm_as_fst_model.cc:383-400 GetSymsVector without add_sym; the string as code points. *)
  Fixpoint get_syms_vector (m : ppm) (cs : list Z) : option (list Z) :=
    match cs with
    | [] => Some []
    | c :: t => if sym_index m c <=? 0 then None else option_map (cons (sym_index m c)) (get_syms_vector m t)
    end.

  (** ppm_as_fst_model.cc:772-801 GetNegLogProbs (as probabilities; return_bits only changes the base
      of the logarithm). *)
  Fixpoint get_probs_loop (m : ppm) (curr : Z) (idxs : list Z) : try (list (car F)) :=
    match idxs with
    | [] => Ok (Some [], m)
    | i :: t =>
        let* (p, m1) := get_prob m curr i in
        match p with
        | None => Ok (None, m1)
        | Some p =>
            let* (ok, m2) :=
              (if p_static m1 then Ok (Some tt, m1)
               else
                 let* (o, m2) := get_arc_origin_state m1 curr i in
                 match o with
                 | None => Ok (None, m2)
                 | Some o => let* (r, m3) := update_model m2 curr o i in
                             Ok (option_map (fun _ => tt) r, m3)
                 end) in
            match ok with
            | None => Ok (None, m2)
            | Some _ =>
                let* (d, m3) := get_destination_state m2 curr i in
                match d with
                | None => Ok (None, m3)
                | Some d => let* (r, m4) := get_probs_loop m3 d t in
                            Ok (option_map (cons p) r, m4)
                end
            end
        end
    end.
  Definition get_probs (m : ppm) (idxs : list Z) : try (list (car F)) :=
    get_probs_loop m (p_start m) idxs.

  (** The PPM model behind the interface of language_model.h. *)
  Definition ppm_ops : comp_ops F ppm := {|
    c_start := p_start;
    c_next := ppm_next;
    c_score := ppm_score;
    c_extract := ppm_extract;
    c_update := ppm_update
  |}.
End Ppm.

Arguments arc F : clear implicits.
Arguments pstate F : clear implicits.
Arguments vals F : clear implicits.
Arguments pcache F : clear implicits.
Arguments ppm F : clear implicits.
Arguments try F A : clear implicits.
