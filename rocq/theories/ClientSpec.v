(** Specification vocabulary for the client properties C44-C46: cumulative probability, and
    what a run of random generation is, in terms of the calls of service.proto only. *)
From Coq Require Import String.
From Verif Require Import Base Field LmModel ServerModel ClientModel.

Section Spec.
  Context {F : ofield} {W : Type}.
  Local Open Scope F_scope.

  (** Probability of the first [i] entries together. *)
  Definition cumulative (l : list (car F * string)) (i : nat) : car F :=
    fsum (map fst (firstn i l)).
  Definition total (l : list (car F * string)) : car F := fsum (map fst l).
  Definition nonneg (l : list (car F * string)) : Prop :=
    forall e, In e l -> 0 <= fst e.

  (** [ranking r l]: [l] lists the entries of the reply [r], most probable first. *)
  Definition well_formed (r : scores_msg F) : Prop :=
    length (msg_probs r) = length (msg_symbols r) /\ msg_probs r <> [].
  Definition ranking (r : scores_msg F) (l : list (car F * string)) : Prop :=
    well_formed r /\ Permutation (combine (msg_probs r) (msg_symbols r)) l /\
    StronglySorted (fun a b => fst b <= fst a) l.

  (** The symbol a draw [u] selects from the ranked list: the entry in whose cumulative
      interval [u] falls; the last one if rounding leaves [u] beyond the total. *)
  Definition selects (l : list (car F * string)) (u : car F) (s : string) : Prop :=
    exists i p, nth_error l i = Some (p, s) /\
      (cumulative l i < u \/ i = O) /\
      (u <= cumulative l (S i) \/ S i = length l).

  Variable srv : server F W.
  Variable unicode : string -> list Z.
  Variable rank : scores_msg F -> list (car F * string).  (* how ties are ordered *)
  Variable draws : nat -> car F.

  (** The two calls made after symbol [s] was chosen in state [st]: learn it once, then move. *)
  Definition moves (w : W) (st : Z) (s : string) (st' : Z) (r' : scores_msg F) (w' : W) : Prop :=
    exists w1, rpc_update srv w (unicode s) (to_int st) 1 = (Some r', w1) /\
      well_formed r' /\ rpc_next srv w1 s (to_int st) = (Some st', w').
  Definition fails (w : W) (st : Z) (s : string) (w' : W) : Prop :=
    rpc_update srv w (unicode s) (to_int st) 1 = (None, w') \/
    (exists r', rpc_update srv w (unicode s) (to_int st) 1 = (Some r', w') /\ ~ well_formed r') \/
    (exists r' w1, rpc_update srv w (unicode s) (to_int st) 1 = (Some r', w1) /\
       well_formed r' /\ rpc_next srv w1 s (to_int st) = (None, w')).

  Inductive ending := EndOfText | LimitReached | UpdateFailed.

  (** [generates w st r k b syms e w' k']: in world [w] and model state [st], with the server
      having answered [r], draws [k .. k'-1] generate the symbols [syms] (at most [b] bytes
      before the last one) and end in world [w'] for reason [e]. *)
  Inductive generates : W -> Z -> scores_msg F -> nat -> nat ->
                        list string -> ending -> W -> nat -> Prop :=
  | gen_end w st r k b :
      selects (rank r) (draws k) ""%string ->
      generates w st r k b [] EndOfText w (S k)
  | gen_limit w st r k b s st' r' w' :
      selects (rank r) (draws k) s -> s <> ""%string -> moves w st s st' r' w' ->
      (b <= String.length s)%nat ->
      generates w st r k b [s] LimitReached w' (S k)
  | gen_fail w st r k b s w' :
      selects (rank r) (draws k) s -> s <> ""%string -> fails w st s w' ->
      generates w st r k b [s] UpdateFailed w' (S k)
  | gen_more w st r k b s st' r' w' ss e w'' k' :
      selects (rank r) (draws k) s -> s <> ""%string -> moves w st s st' r' w' ->
      (String.length s < b)%nat ->
      generates w' st' r' (S k) (b - String.length s) ss e w'' k' ->
      generates w st r k b (s :: ss) e w'' k'.

  (** What is appended to the text at the end. *)
  Definition note (e : ending) : string :=
    match e with LimitReached => "(reached_length_limit)"%string | _ => ""%string end.

  (** All the symbols put together. *)
  Fixpoint concat_all (l : list string) : string :=
    match l with [] => ""%string | s :: t => (s ++ concat_all t)%string end.
End Spec.
