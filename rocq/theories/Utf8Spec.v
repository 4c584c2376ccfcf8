(** Specification vocabulary for C71: reading a text with a server, in code points and requests of service.proto, with
    no byte string in it. *)
From Coq Require Import String Ascii.
From Verif Require Import Base Field LmModel HubModel ServerModel ClientModel TextModel Utf8Model.
Local Open Scope Z_scope.
Close Scope string_scope.
Local Notation length := List.length.

(** A file with the given lines, in UTF-8. *)
Definition utf8_file (lines : list (list Z)) : bytes :=
  concat (map (fun l => list_ascii_of_string (utf8_encode l) ++ [ascii_of_nat 10]) lines).
Definition line_ok (l : list Z) : Prop := Forall scalar l /\ ~ In 10 l.

Section Reads.
  Context {F : ofield} {M : Type}.
  Variable ops : comp_ops F M.

  (** From state [st], where the server has answered [sc], the symbols [ks] are read: each is learned once and then
      followed.  [tr] lists each symbol with the answer that was current when it was read. *)
  Inductive line_read : hub F M -> Z -> lm_scores (num F) -> list str -> list (str * lm_scores (num F)) -> hub F M -> Prop :=
  | lr_nil h st sc : line_read h st sc [] [] h
  | lr_cons h st sc k ks sc' h1 st' h2 tr h3 :
      handle ops h (UpdateLMScoresReq (to_int st) k 1) = Ok (ScoresReply sc', h1) ->
      handle ops h1 (GetNextStateReq (to_int st) k) = Ok (StateReply st', h2) ->
      line_read h2 st' sc' ks tr h3 ->
      line_read h st sc (k :: ks) ((k, sc) :: tr) h3.

  (** The symbols of a line: its characters, then the end of the line, which is the empty symbol. *)
  Definition symbols_of (l : list Z) : list str := map (fun c => [c]) l ++ [[]].
  (** Every line starts in state 0. *)
  Inductive text_read : hub F M -> list (list Z) -> list (str * lm_scores (num F)) -> hub F M -> Prop :=
  | tr_nil h : text_read h [] [] h
  | tr_cons h l ls sc h1 tr h2 tr' h3 :
      handle ops h (GetLMScoresReq 0 []) = Ok (ScoresReply sc, h1) ->
      line_read h1 0 sc (symbols_of l) tr h2 -> text_read h2 ls tr' h3 ->
      text_read h (l :: ls) (tr ++ tr') h3.

  (** What an answer says of a symbol: its probability, or nothing. *)
  Definition says (e : str * lm_scores (num F)) (o : option (car F)) : Prop :=
    match o with
    | Some p => In (fst e, Val p) (sc_entries (snd e))
    | None => ~ In (fst e) (map fst (sc_entries (snd e)))
    end.
End Reads.
