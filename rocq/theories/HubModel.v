(** Model of mozolm/models/language_model_hub.{h,cc}. *)
From Verif Require Import Base Field LmModel.
Local Open Scope Z_scope.

(** A response string, as its list of code points (the empty string is end-of-string).  Byte order
    of UTF-8 strings is the lexicographic order of their code points. *)
Definition str := list Z.

Fixpoint str_cmp (a b : str) : comparison :=
  match a, b with
  | [], [] => Eq
  | [], _ => Lt
  | _, [] => Gt
  | x :: a', y :: b' => match x ?= y with Eq => str_cmp a' b' | c => c end
  end.
Definition str_eqb (a b : str) : bool := match str_cmp a b with Eq => true | _ => false end.
Definition str_leb (a b : str) : bool := match str_cmp a b with Gt => false | _ => true end.

(** lm_scores.proto: normalization and parallel lists of symbols and probabilities. *)
Record lm_scores (A : Type) : Type := LmScores {
  sc_norm : A;
  sc_entries : list (str * A)
}.
Arguments LmScores {A} _ _.
Arguments sc_norm {A} _.
Arguments sc_entries {A} _.

(** language_model.h: the virtual interface of a component model.  [M] is the memory of a model
    (it may change on queries, e.g. caches).  A score is the probability [exp(-cost)].
    [c_extract] returning [None] is a [false] result. *)
Record comp_ops (F : ofield) (M : Type) : Type := CompOps {
  c_start : M -> Z;
  c_next : M -> Z -> Z -> outcome (Z * M);
  c_score : M -> Z -> Z -> outcome (car F * M);
  c_extract : M -> Z -> outcome (option (lm_scores (car F)) * M);
  c_update : M -> Z -> list Z -> Z -> outcome (bool * M)
}.
Arguments c_start {F M} _ _.
Arguments c_next {F M} _ _ _ _.
Arguments c_score {F M} _ _ _ _.
Arguments c_extract {F M} _ _ _.
Arguments c_update {F M} _ _ _ _ _.

(** language_model_hub.h:105-117 LanguageModelHubState.  [next_states_] is a hash map: an
    association list here, iterated in insertion order (the order only matters to the order of
    SymLMScore calls).  The history holds probabilities, so its "sum" is a product. *)
Record hstate (F : ofield) : Type := HState {
  h_models : list Z;
  h_prev : Z;
  h_next : list (Z * Z);
  h_sym : Z;
  h_hist : list (list (car F));
  h_sum : list (car F)
}.
Arguments HState {F} _ _ _ _ _ _.
Arguments h_models {F} _.
Arguments h_prev {F} _.
Arguments h_next {F} _.
Arguments h_sym {F} _.
Arguments h_hist {F} _.
Arguments h_sum {F} _.

(** language_model_hub.h:198-206 LanguageModelHub. *)
Record hub (F : ofield) (M : Type) : Type := Hub {
  hs : list (hstate F);
  h_last : Z;
  h_max : Z;
  h_weights : list (num F);
  h_bayes : nat;
  h_lms : list M
}.
Arguments Hub {F M} _ _ _ _ _ _.
Arguments hs {F M} _.
Arguments h_last {F M} _.
Arguments h_max {F M} _.
Arguments h_weights {F M} _.
Arguments h_bayes {F M} _.
Arguments h_lms {F M} _.

(** Arithmetic on doubles in the probability domain with NaN. *)
Definition nadd {F : ofield} (a b : num F) : num F :=
  match a, b with Val x, Val y => Val (fadd x y) | _, _ => NaN end.
Definition nmul {F : ofield} (a b : num F) : num F :=
  match a, b with Val x, Val y => Val (fmul x y) | _, _ => NaN end.
Definition ndiv {F : ofield} (a b : num F) : num F :=
  match a, b with Val x, Val y => num_div x y | _, _ => NaN end.
(** NegLogSum over a vector, starting from its first element (only used on non-empty vectors). *)
Definition nsum {F : ofield} (l : list (num F)) : num F :=
  match l with [] => Val f0 | x :: t => fold_left nadd t x end.

Definition kMaxHubStates : Z := 10000.   (* language_model_hub.cc:28 *)

(** language_model_hub.h:71-75 next_state, over the association list. *)
Fixpoint assoc (c : Z) (l : list (Z * Z)) : option Z :=
  match l with
  | [] => None
  | (k, v) :: t => if k =? c then Some v else assoc c t
  end.
Definition hs_next {F} (s : hstate F) (c : Z) : Z :=
  match assoc c (h_next s) with Some i => i | None => -1 end.

(** language_model_hub.h:77-80 model_state. *)
Definition hs_model {F} (s : hstate F) (idx : nat) : Z :=
  match nth_error (h_models s) idx with Some x => x | None => -1 end.

(** language_model_hub.h:82-85 AddNextState: insert does not overwrite. *)
Definition hs_add_next {F} (s : hstate F) (c i : Z) : hstate F :=
  HState (h_models s) (h_prev s)
         (match assoc c (h_next s) with Some _ => h_next s | None => h_next s ++ [(c, i)] end)
         (h_sym s) (h_hist s) (h_sum s).

(** language_model_hub.h:102-104 ResetPrevState. *)
Definition hs_reset_prev {F} (s : hstate F) : hstate F :=
  HState (h_models s) (-1) (h_next s) (h_sym s) (h_hist s) (h_sum s).

(** language_model_hub.h:38-47 constructor and .cc:404-412 InitBayesianHistory. *)
Definition new_hstate {F : ofield} (model_states : list Z) (prev sym : Z) (bayes : nat) : hstate F :=
  HState model_states prev [] sym
         (if (0 <? bayes)%nat then repeat (repeat f1 bayes) (length model_states) else [])
         (if (0 <? bayes)%nat then repeat f1 (length model_states) else []).

Section Hub.
  Context {F : ofield} {M : Type}.
  Variable ops : comp_ops F M.

  Notation hub := (hub F M).

  Definition set_hs (h : hub) (l : list (hstate F)) : hub :=
    Hub l (h_last h) (h_max h) (h_weights h) (h_bayes h) (h_lms h).
  Definition set_lms (h : hub) (l : list M) : hub :=
    Hub (hs h) (h_last h) (h_max h) (h_weights h) (h_bayes h) l.
  Definition set_last (h : hub) (i : Z) : hub :=
    Hub (hs h) i (h_max h) (h_weights h) (h_bayes h) (h_lms h).

  (** language_model_hub.cc:135-148 UpdateHubState together with .cc:385-402
      LanguageModelHubState::UpdateHubState: overwrite state [idx] and clear the back pointers of
      the states it led to. *)
  Fixpoint reset_prevs (l : list (hstate F)) (nexts : list (Z * Z)) : outcome (list (hstate F)) :=
    match nexts with
    | [] => Ok l
    | (_, i) :: t =>
        let* s := vgetZ l i in
        reset_prevs (upd l (Z.to_nat i) (hs_reset_prev s)) t
    end.
  Definition update_hub_state (h : hub) (idx : Z) (model_states : list Z) (prev sym : Z)
    : outcome hub :=
    let* old := vgetZ (hs h) idx in
    if negb (length (h_models old) =? length model_states)%nat then Err       (* 387-389 *)
    else
      let l := upd (hs h) (Z.to_nat idx) (new_hstate model_states prev sym (h_bayes h)) in
      let* l' := reset_prevs l (h_next old) in
      Ok (set_hs h l').

  (** language_model_hub.cc:150-156 InitializeStartHubState. *)
  Definition initialize_start_hub_state (h : hub) : outcome hub :=
    update_hub_state h 0 (map (c_start ops) (h_lms h)) (-1) 0.

  (** The loops "for idx < language_models_.size()" calling NextState of each component. *)
  Fixpoint comps_next (s : hstate F) (idx : nat) (lms : list M) (sym : Z)
    : outcome (list Z * list M) :=
    match lms with
    | [] => Ok ([], [])
    | m :: t =>
        let* (x, m') := c_next ops m (hs_model s idx) sym in
        let* (xs, t') := comps_next s (S idx) t sym in
        Ok (x :: xs, m' :: t')
    end.

  (** Lines 284-289: SymLMScore of each component. *)
  Fixpoint comps_score (s : hstate F) (idx : nat) (lms : list M) (sym : Z)
    : outcome (list (car F) * list M) :=
    match lms with
    | [] => Ok ([], [])
    | m :: t =>
        let* (x, m') := c_score ops m (hs_model s idx) sym in
        let* (xs, t') := comps_score s (S idx) t sym in
        Ok (x :: xs, m' :: t')
    end.

  (** language_model_hub.cc:368-383 LanguageModelHubState::UpdateBayesianHistory.  [prev_probs]
      has one row per model (same length as [lm_probs]); each row shifts left by one and takes the
      new probability at its back; the "sum" is the product of the row. *)
  Definition shift_history (lm_probs : list (car F)) (prev_probs : list (list (car F)))
    : list (list (car F)) :=
    map (fun '(p, row) => tl row ++ [p]) (combine lm_probs prev_probs).
  Definition history_sums (lm_probs : list (car F)) (prev_probs : list (list (car F)))
    : list (car F) :=
    map (fun '(p, row) => fold_left fmul (tl row) p) (combine lm_probs prev_probs).

  (** language_model_hub.cc:280-294 UpdateBayesianHistory(state). *)
  Definition update_bayesian_history (h : hub) (state : Z) : outcome hub :=
    if (0 <=? state) && (0 <? h_bayes h)%nat then
      let* s := vgetZ (hs h) state in
      let prev := h_prev s in
      if 0 <=? prev then
        let* ps := vgetZ (hs h) prev in
        let* (probs, lms') := comps_score ps 0 (h_lms h) (h_sym s) in
        let s' := HState (h_models s) (h_prev s) (h_next s) (h_sym s)
                         (shift_history probs (h_hist ps)) (history_sums probs (h_hist ps)) in
        Ok (set_lms (set_hs h (upd (hs h) (Z.to_nat state) s')) lms')
      else Ok h
    else Ok h.

  (** language_model_hub.cc:158-180 AssignNewHubState. [Err] is a non-OK status. *)
  Definition assign_new_hub_state (h : hub) (model_states : list Z) (prev sym : Z)
    : outcome (Z * hub) :=
    let size := Z.of_nat (length (hs h)) in
    let* (idx, h1) :=
      (if h_max h <=? size then
         let idx := h_last h + 1 in
         let* (idx, h') :=
           (if h_max h <=? idx
            then let* h' := initialize_start_hub_state h in Ok (1, h')
            else Ok (idx, h)) in
         let* h'' := update_hub_state h' idx model_states prev sym in
         Ok (idx, h'')
       else
         Ok (size, set_hs h (hs h ++ [new_hstate model_states prev sym (h_bayes h)]))) in
    let h2 := set_last h1 idx in
    let* ps := vgetZ (hs h2) prev in
    let h3 := set_hs h2 (upd (hs h2) (Z.to_nat prev) (hs_add_next ps sym idx)) in
    let* h4 := update_bayesian_history h3 idx in
    Ok (idx, h4).

  Definition in_range (h : hub) (state : Z) : bool :=
    (0 <=? state) && (state <? Z.of_nat (length (hs h))).

  (** language_model_hub.cc:182-202 NextState. *)
  Definition hub_next (h : hub) (state sym : Z) : outcome (Z * hub) :=
    let state := if in_range h state then state else 0 in
    let* s := vgetZ (hs h) state in
    let next := hs_next s sym in
    if (sym <? 0) || (0 <=? next) then Ok (next, h)
    else
      let* (states, lms') := comps_next s 0 (h_lms h) sym in
      let h' := set_lms h lms' in
      match assign_new_hub_state h' states state sym with
      | Err => Ok (0, h')                        (* 201; the partial changes are not modelled *)
      | r => r
      end.

  (** language_model_hub.cc:204-220 ContextState; an empty context returns [init_state] (or 0 when
      negative) without looking at it. *)
  Fixpoint hub_context_loop (h : hub) (this_state : Z) (ctx : list Z) : outcome (Z * hub) :=
    match ctx with
    | [] => Ok (this_state, h)
    | c :: rest =>
        let* (s, h') := hub_next h this_state c in
        hub_context_loop h' (if s <? 0 then 0 else s) rest
    end.
  Definition hub_context (h : hub) (ctx : list Z) (init_state : Z) : outcome (Z * hub) :=
    hub_context_loop h (if init_state <? 0 then 0 else init_state) ctx.

  (** language_model_hub.cc:128-133 StateSym. *)
  Definition hub_state_sym (h : hub) (state : Z) : outcome Z :=
    if in_range h state then let* s := vgetZ (hs h) state in Ok (h_sym s) else Ok (-1).

  (** language_model_hub.cc:222-243 GetBayesianMixtureWeights and 245-252 GetMixtureWeights:
      weight times history product, divided by the total. *)
  Fixpoint zip_weights (ws : list (num F)) (sums : list (car F)) : outcome (list (num F)) :=
    match ws with
    | [] => Ok []
    | w :: ws' =>
        match sums with
        | [] => UB                                                   (* 233 *)
        | p :: sums' => let* r := zip_weights ws' sums' in Ok (nmul w (Val p) :: r)
        end
    end.
  Definition mixture_weights_at (h : hub) (state : Z) : outcome (list (num F)) :=
    if (h_bayes h =? 0)%nat || negb (in_range h state) then Ok (h_weights h)
    else
      let* s := vgetZ (hs h) state in
      let* ws := zip_weights (h_weights h) (h_sum s) in
      Ok (map (fun w => ndiv w (nsum ws)) ws).

  (** language_model_hub.cc:33-47 MixResults: add [w * p] under each key. *)
  Fixpoint mix_add (key : str) (v : num F) (acc : list (str * num F)) : list (str * num F) :=
    match acc with
    | [] => [(key, v)]
    | (k, x) :: t => if str_eqb k key then (k, nadd v x) :: t else (k, x) :: mix_add key v t
    end.
  Definition mix_results (sc : lm_scores (car F)) (w : num F) (acc : list (str * num F))
    : list (str * num F) :=
    fold_left (fun acc '(key, p) => mix_add key (nmul (Val p) w) acc) (sc_entries sc) acc.

  (** language_model_hub.cc:49-72 ExtractMixture: normalise and sort by key. *)
  Fixpoint insert_key (x : str * num F) (l : list (str * num F)) :=
    match l with
    | [] => [x]
    | y :: t => if str_leb (fst x) (fst y) then x :: l else y :: insert_key x t
    end.
  Definition sort_keys (l : list (str * num F)) : list (str * num F) := fold_right insert_key [] l.
  Definition extract_mixture (mixed : list (str * num F)) (norm : num F) : lm_scores (num F) :=
    let total := nsum (map snd mixed) in
    LmScores norm (map (fun '(k, v) => (k, ndiv v total)) (sort_keys mixed)).

  (** language_model_hub.cc:263-273, the loop over the mixed components. *)
  Fixpoint mix_loop (s : hstate F) (idx : nat) (ws : list (num F)) (lms : list M)
    (norm : num F) (acc : list (str * num F))
    : outcome (option (num F * list (str * num F)) * list M) :=
    match ws with
    | [] => Ok (Some (norm, acc), lms)
    | w :: ws' =>
        match lms with
        | [] => UB
        | m :: t =>
            let* (r, m') := c_extract ops m (hs_model s idx) in
            match r with
            | None => Ok (None, m' :: t)
            | Some sc =>
                let* (r, t') := mix_loop s (S idx) ws' t
                                  (nadd norm (nmul (Val (sc_norm sc)) w)) (mix_results sc w acc) in
                Ok (r, m' :: t')
            end
        end
    end.

  (** language_model_hub.cc:253-278 ExtractLMScores; [None] is a false result. *)
  Definition hub_extract (h : hub) (state : Z) : outcome (option (lm_scores (num F)) * hub) :=
    if negb (in_range h state) then Ok (None, h)
    else
      let* s := vgetZ (hs h) state in
      if (length (h_weights h) <? 2)%nat then
        match h_lms h with
        | [] => UB
        | m :: t =>
            let* (r, m') := c_extract ops m (hs_model s 0) in
            Ok (option_map (fun sc => LmScores (Val (sc_norm sc))
                                        (map (fun '(k, p) => (k, Val p)) (sc_entries sc))) r,
                set_lms h (m' :: t))
        end
      else
        let* ws := mixture_weights_at h state in
        let* (r, lms') := mix_loop s 0 ws (h_lms h) (Val f0) [] in
        Ok (option_map (fun '(norm, mixed) => extract_mixture mixed norm) r, set_lms h lms').

  (** language_model_hub.cc:301-305: make sure that hub states exist for all continuations. *)
  Fixpoint ensure_states (h : hub) (state : Z) (syms : list Z) : outcome hub :=
    match syms with
    | [] => Ok h
    | c :: t => let* (s, h') := hub_next h state c in ensure_states h' s t
    end.

  (** language_model_hub.cc:306-316: refresh the Bayesian history of every continuation. *)
  Fixpoint refresh_next (h : hub) (nexts : list (Z * Z)) : outcome hub :=
    match nexts with
    | [] => Ok h
    | (_, i) :: t => let* h' := update_bayesian_history h i in refresh_next h' t
    end.
  Fixpoint refresh_bayes (h : hub) (state : Z) (syms : list Z) : outcome hub :=
    match syms with
    | [] => Ok h
    | c :: t =>
        let* s := vgetZ (hs h) state in                             (* 310: unchecked index *)
        let* h1 := refresh_next h (h_next s) in
        let* (s', h2) := hub_next h1 state c in
        refresh_bayes h2 s' t
    end.

  (** language_model_hub.cc:317-322: update the mixed components in turn, stopping at the first
      that refuses. *)
  Fixpoint update_comps (s : hstate F) (idx : nat) (ws : list (num F)) (lms : list M)
    (syms : list Z) (count : Z) : outcome (bool * list M) :=
    match ws with
    | [] => Ok (true, lms)
    | _ :: ws' =>
        match lms with
        | [] => UB
        | m :: t =>
            let* (ok, m') := c_update ops m (hs_model s idx) syms count in
            if ok then
              let* (ok', t') := update_comps s (S idx) ws' t syms count in Ok (ok', m' :: t')
            else Ok (false, m' :: t)
        end
    end.

  (** language_model_hub.cc:328-366 VerifyOrCorrectModelStates (both classes). *)
  Fixpoint overwrite (old new : list Z) : list Z :=
    match new, old with
    | x :: new', _ :: old' => x :: overwrite old' new'
    | _, _ => old
    end.
  Fixpoint verify_states (h : hub) (state : Z) (syms : list Z) : outcome (bool * hub) :=
    match syms with
    | [] => Ok (true, h)
    | c :: t =>
        let* s := vgetZ (hs h) state in
        let next := hs_next s c in
        if next <? 0 then Ok (true, h)                               (* 345-349 *)
        else
          let* (states, lms') := comps_next s 0 (h_lms h) c in
          let h1 := set_lms h lms' in
          let* ns := vgetZ (hs h1) next in
          if (h_prev ns =? state) && (h_sym ns =? c) then            (* 359-361 *)
            let ns' := HState (overwrite (h_models ns) states) (h_prev ns) (h_next ns) (h_sym ns)
                              (h_hist ns) (h_sum ns) in
            verify_states (set_hs h1 (upd (hs h1) (Z.to_nat next) ns')) next t
          else Ok (false, h1)
    end.

  (** language_model_hub.cc:296-326 UpdateLMCounts. *)
  Definition hub_update (h : hub) (state : Z) (syms : list Z) (count : Z) : outcome (bool * hub) :=
    let ok := in_range h state in
    let* h1 := ensure_states h state syms in
    let* h2 := (if (0 <? h_bayes h)%nat then refresh_bayes h1 state syms else Ok h1) in
    if ok then
      let* s := vgetZ (hs h2) state in
      let* (ok1, lms') := update_comps s 0 (h_weights h2) (h_lms h2) syms count in
      let h3 := set_lms h2 lms' in
      if ok1 then verify_states h3 state syms else Ok (false, h3)
    else Ok (false, h2).

  (** model_config.proto ModelHubConfig, the fields used.  Weights as probabilities
      [exp(-weight)]. *)
  Inductive mixture_type := MixNone | MixInterpolation | MixUnknown.
  Record hub_config : Type := HubConfig {
    cfg_type : mixture_type;
    cfg_weights : list (car F);              (* one per model_config *)
    cfg_bayes : Z;
    cfg_max_states : Z
  }.

  (** language_model_hub.cc:77-126 InitializeModels, on a hub whose component models [lms] have been
      added. *)
  Definition initialize_models (lms : list M) (cfg : hub_config) : outcome hub :=
    let* (ws, bayes) :=
      match cfg_type cfg with
      | MixNone => Ok ([Val f1], 0%nat)
      | MixInterpolation =>
          if (length (cfg_weights cfg) <? 2)%nat then Ok ([Val f1], 0%nat)
          else
            let ws := map Val (cfg_weights cfg) in
            Ok (map (fun w => ndiv w (nsum ws)) ws, Z.to_nat (cfg_bayes cfg))
      | MixUnknown => Err
      end in
    let max := if cfg_max_states cfg <? 10 then kMaxHubStates else cfg_max_states cfg in
    let h := Hub [new_hstate (repeat 0 (length lms)) (-1) 0 bayes] 0 max ws bayes lms in
    initialize_start_hub_state h.

  (** Calls a client of the hub can make. *)
  Inductive hub_op :=
  | OpNext (state sym : Z)
  | OpContext (ctx : list Z) (init : Z)
  | OpSym (state : Z)
  | OpExtract (state : Z)
  | OpUpdate (state : Z) (syms : list Z) (count : Z).

  Inductive hub_out :=
  | OutState (s : Z)
  | OutScores (r : option (lm_scores (num F)))
  | OutBool (b : bool).

  Definition hub_step (h : hub) (o : hub_op) : outcome (hub_out * hub) :=
    match o with
    | OpNext s c => let* (r, h') := hub_next h s c in Ok (OutState r, h')
    | OpContext w s => let* (r, h') := hub_context h w s in Ok (OutState r, h')
    | OpSym s => let* r := hub_state_sym h s in Ok (OutState r, h)
    | OpExtract s => let* (r, h') := hub_extract h s in Ok (OutScores r, h')
    | OpUpdate s syms n => let* (r, h') := hub_update h s syms n in Ok (OutBool r, h')
    end.

  Fixpoint hub_run (h : hub) (l : list hub_op) : outcome hub :=
    match l with
    | [] => Ok h
    | o :: t => let* (_, h') := hub_step h o in hub_run h' t
    end.
End Hub.
