(** Vocabulary for stating the hub properties: how a component model can evolve, the state and the
    probabilities a component assigns to a context, and when its answers are repeatable. *)
From Verif Require Import Base Field LmModel HubModel.
Local Open Scope Z_scope.

Section Spec.
  Context {F : ofield} {M : Type}.
  Variable ops : comp_ops F M.

  (** One call on a component model; learning calls count only when [learning]. *)
  Inductive c_step (learning : bool) : M -> M -> Prop :=
  | step_next m s c r m' : c_next ops m s c = Ok (r, m') -> c_step learning m m'
  | step_score m s c r m' : c_score ops m s c = Ok (r, m') -> c_step learning m m'
  | step_extract m s r m' : c_extract ops m s = Ok (r, m') -> c_step learning m m'
  | step_update m s w n r m' :
      learning = true -> c_update ops m s w n = Ok (r, m') -> c_step learning m m'.

  Inductive c_reach (learning : bool) (m : M) : M -> Prop :=
  | reach_refl : c_reach learning m m
  | reach_step m1 m2 : c_reach learning m m1 -> c_step learning m1 m2 -> c_reach learning m m2.

  (** The state a component reaches by feeding it the symbols of [ctx] one by one. *)
  Fixpoint c_walk (m : M) (s : Z) (ctx : list Z) : outcome (Z * M) :=
    match ctx with
    | [] => Ok (s, m)
    | c :: t => let* (s', m') := c_next ops m s c in c_walk m' s' t
    end.

  (** The probability it gives to symbol [c] after context [ctx]. *)
  Definition c_prob (m : M) (ctx : list Z) (c : Z) : outcome (car F * M) :=
    let* (t, m1) := c_walk m (c_start ops m) ctx in c_score ops m1 t c.

  (** [ps] lists the probabilities it gives to the successive symbols of [ctx], each after the
      symbols before it. *)
  Definition gives_probs (m : M) (ctx : list Z) (ps : list (car F)) : Prop :=
    length ps = length ctx /\
    forall i c p, nth_error ctx i = Some c -> nth_error ps i = Some p ->
      exists m', c_prob m (firstn i ctx) c = Ok (p, m').

  (** A component whose NextState answers are repeatable: whatever happens later (queries, and
      learning calls when [learning]), the same question gets the same answer.  The start state
      does not change. *)
  Record repeatable (learning : bool) (m0 : M) : Prop := {
    rep_next : forall m t c u m1 m2, c_reach learning m0 m ->
      c_next ops m t c = Ok (u, m1) -> c_reach learning m1 m2 ->
      exists m3, c_next ops m2 t c = Ok (u, m3);
    rep_start : forall m, c_reach learning m0 m -> c_start ops m = c_start ops m0
  }.

  (** Scoring has no error result (SymLMScore returns a plain number). *)
  Definition scores_total (m0 : M) : Prop :=
    forall m t c, c_reach true m0 m -> c_score ops m t c <> Err.

  (** The same for its scores: a static model. *)
  Definition repeatable_scores (learning : bool) (m0 : M) : Prop :=
    forall m t c p m1 m2, c_reach learning m0 m ->
      c_score ops m t c = Ok (p, m1) -> c_reach learning m1 m2 ->
      exists m3, c_score ops m2 t c = Ok (p, m3).

  (** Every component of [lms] is told once, in its own state, to learn [syms] with [count]; the
      first refusal stops the process. *)
  Inductive told (syms : list Z) (count : Z) : list Z -> list M -> list M -> bool -> Prop :=
  | told_nil lms : told syms count [] lms lms true
  | told_ok s states m m' t t' b :
      c_update ops m s syms count = Ok (true, m') -> told syms count states t t' b ->
      told syms count (s :: states) (m :: t) (m' :: t') b
  | told_refused s states m m' t :
      c_update ops m s syms count = Ok (false, m') ->
      told syms count (s :: states) (m :: t) (m' :: t) false.

  (** Components that never run into undefined behaviour.  [Inv b m]: the memory [m] is sound and
      leaves room for [b] more observations (a bigram counter can overflow, see C09); a learning
      call makes at most [learn_cost] of them. *)
  Definition learn_cost (syms : list Z) (count : Z) : Z := Z.max 0 count * Z.of_nat (length syms).
  Record comps_safe (Inv : Z -> M -> Prop) : Prop := {
    safe_next : forall b m s c, Inv b m -> match c_next ops m s c with
                                       | Ok (_, m') => Inv b m' | UB => False | _ => True end;
    safe_score : forall b m s c, Inv b m -> match c_score ops m s c with
                                       | Ok (_, m') => Inv b m' | UB => False | _ => True end;
    safe_extract : forall b m s, Inv b m -> match c_extract ops m s with
                                       | Ok (_, m') => Inv b m' | UB => False | _ => True end;
    safe_update : forall b m s w n, Inv b m -> learn_cost w n <= b ->
                                       match c_update ops m s w n with
                                       | Ok (_, m') => Inv (b - learn_cost w n) m'
                                       | UB => False | _ => True end;
    safe_mono : forall b b' m, b' <= b -> Inv b m -> Inv b' m
  }.

  (** A history without learning calls. *)
  Definition is_query (o : hub_op) : bool := match o with OpUpdate _ _ _ => false | _ => true end.
End Spec.

(** The last [n] elements. *)
Definition last_n {A} (n : nat) (l : list A) : list A := skipn (length l - n) l.

(** Mixtures.  The probability a score list gives to symbol [k] (repeated symbols add up). *)
Definition prob_at {F : ofield} (k : str) (entries : list (str * car F)) : car F :=
  fsum (map snd (filter (fun e => str_eqb (fst e) k) entries)).

(** Weighted sums over several score lists, of one symbol and of everything. *)
Definition mix_at {F : ofield} (ws : list (car F)) (scs : list (lm_scores (car F))) (k : str) : car F :=
  fsum (map (fun '(w, sc) => fmul w (prob_at k (sc_entries sc))) (combine ws scs)).
Definition mix_total {F : ofield} (ws : list (car F)) (scs : list (lm_scores (car F))) : car F :=
  fsum (map (fun '(w, sc) => fmul w (fsum (map snd (sc_entries sc)))) (combine ws scs)).

(** Strict lexicographic order. *)
Definition str_lt (a b : str) : Prop := str_cmp a b = Lt.

(** [resp] lists exactly the symbols of [scs], in order and once, each with its share. *)
Record is_mixture {F : ofield} (ws : list (car F)) (scs : list (lm_scores (car F)))
  (resp : lm_scores (num F)) : Prop := {
  mx_sorted : StronglySorted str_lt (map fst (sc_entries resp));
  mx_keys : forall k, In k (map fst (sc_entries resp)) <->
                      exists sc, In sc scs /\ In k (map fst (sc_entries sc));
  mx_probs : forall k v, In (k, v) (sc_entries resp) ->
                         v = Val (fdiv (mix_at ws scs k) (mix_total ws scs));
  mx_norm : sc_norm resp = Val (fsum (map (fun '(w, sc) => fmul w (sc_norm sc)) (combine ws scs)))
}.

(** The values of a response that has no NaN. *)
Definition values {F : ofield} (l : list (str * num F)) : list (car F) :=
  map (fun '(_, v) => match v with Val x => x | NaN => f0 end) l.
