(** Model of the client: mozolm/grpc/client_async_impl.cc (one request at a time) and
    mozolm/grpc/client_helper.cc (random generation, k-best, bits per character).

    The other side of the wire is arbitrary: a [server] gives, in any world [W], a reply or a
    failure to each of the three calls of service.proto ([None]: transport error, deadline or
    non-OK status; client_async_impl.cc:30-50 WaitAndCheck and the status test behind each
    call), and the next world.  Strings are byte strings; [unicode] is
    nisaba::utf8::StrSplitByCharToUnicode and [chars] nisaba::utf8::StrSplitByChar. *)
From Coq Require Import String.
From Verif Require Import Base Field LmModel ServerModel.
Local Open Scope string_scope.
Local Open Scope Z_scope.

(** service.proto, message LMScores. *)
Record scores_msg (F : ofield) := mk_scores {
  msg_probs : list (car F); msg_symbols : list string; msg_norm : car F }.
Arguments mk_scores {F}. Arguments msg_probs {F}. Arguments msg_symbols {F}.
Arguments msg_norm {F}.

Record server (F : ofield) (W : Type) := mk_server {
  rpc_scores : W -> string -> Z -> option (scores_msg F) * W;     (* GetLMScores *)
  rpc_next : W -> string -> Z -> option Z * W;                    (* GetNextState *)
  rpc_update : W -> list Z -> Z -> Z -> option (scores_msg F) * W (* UpdateLMScores *) }.
Arguments mk_server {F W}. Arguments rpc_scores {F W}. Arguments rpc_next {F W}.
Arguments rpc_update {F W}.

Section Client.
  Context {F : ofield} {W : Type}.
  Variable sort : list (car F * string) -> list (car F * string).  (* std::sort, LmModel.v *)
  Variable unicode : string -> list Z.
  Local Open Scope F_scope.

  (** Best hypotheses of a reply: client_async_impl.cc:96-97, 171-176 (top_n = -1). *)
  Definition hyps_of (r : scores_msg F) : outcome (list (car F * string)) :=
    get_top_hypotheses sort (msg_probs r) (msg_symbols r) (-1)%Z.

  (** client_async_impl.cc:68-100 GetLMScore.  The [int] parameter truncates the int64 states
      the callers pass. *)
  Definition async_get_scores (s : server F W) (w : W) (ctx : string) (st : Z)
    : outcome (car F * list (car F * string)) * W :=
    match rpc_scores s w ctx (to_int st) with
    | (None, w') => (Err, w')
    | (Some r, w') => ((let* h := hyps_of r in Ok (msg_norm r, h)), w')
    end.

  (** client_async_impl.cc:102-130 GetNextState. *)
  Definition async_next_state (s : server F W) (w : W) (ctx : string) (st : Z)
    : outcome Z * W :=
    match rpc_next s w ctx (to_int st) with
    | (None, w') => (Err, w')
    | (Some n, w') => (Ok n, w')
    end.

  (** client_async_impl.cc:132-179 UpdateCountGetDestStateScore, both overloads. *)
  Definition async_update (s : server F W) (w : W) (ctx : string) (st count : Z)
    : outcome (Z * car F * list (car F * string)) * W :=
    match rpc_update s w (unicode ctx) (to_int st) count with
    | (None, w1) => (Err, w1)
    | (Some r, w1) =>
        match hyps_of r with
        | Ok h =>
            match async_next_state s w1 ctx (to_int st) with
            | (Ok n, w2) => (Ok (n, msg_norm r, h), w2)
            | (Err, w2) => (Err, w2)
            | (Crash, w2) => (Crash, w2)
            | (UB, w2) => (UB, w2)
            end
        | Err => (Err, w1)
        | Crash => (Crash, w1)
        | UB => (UB, w1)
        end
    end.

  (** client_helper.cc:134-149 ClientHelper::GetLMScores; [c = None]: not initialized. *)
  Definition helper_get_scores (c : option (server F W)) (w : W) (ctx : string) (st : Z)
    : outcome (car F * list (car F * string)) * W :=
    match c with
    | None => (Err, w)                                              (* 137-139 *)
    | Some s =>
        match async_get_scores s w ctx st with
        | (Ok (norm, h), w') => ((if norm <=? 0 then Err else Ok (norm, h)), w')
        | e => e
        end
    end.

  (** client_helper.cc:151-164 ClientHelper::GetNextState (GOOGLE_CHECK_NE aborts). *)
  Definition helper_next_state (c : option (server F W)) (w : W) (ctx : string) (st : Z)
    : outcome Z * W :=
    match c with None => (Crash, w) | Some s => async_next_state s w ctx (to_int st) end.

  (** client_helper.cc:166-176 ClientHelper::UpdateCountGetDestStateScore. *)
  Definition helper_update (c : option (server F W)) (w : W) (ctx : string) (st count : Z)
    : outcome (Z * car F * list (car F * string)) * W :=
    match c with None => (Err, w) | Some s => async_update s w ctx (to_int st) count end.

  (** client_helper.cc:53-67 GetRandomPosition, with the drawn threshold as argument.  The
      result is the number of entries consumed minus one (0 if none). *)
  Fixpoint random_position_loop (thresh total : car F) (l : list (car F * string)) (pos : nat)
    : nat :=
    if total <? thresh then
      match l with
      | [] => pos
      | (p, _) :: t => random_position_loop thresh (total + p) t (S pos)
      end
    else pos.
  Definition get_random_position (l : list (car F * string)) (thresh : car F) : nat :=
    Nat.pred (random_position_loop thresh 0 l 0).

  (** What RandGen leaves behind: its status, the string, the world, the number of draws. *)
  Record rg_result := mk_rg {
    rg_status : outcome unit; rg_text : string; rg_world : W; rg_draws : nat }.

  (** client_helper.h:31. *)
  Definition kMaxRandGenLen : nat := 128.

  (** client_helper.cc:193-223: the do-while loop.  [draws k] is the k-th number drawn from
      the generator; [fuel] bounds the iterations ([None]: exhausted). *)
  Fixpoint rand_gen_loop (fuel : nat) (c : option (server F W)) (draws : nat -> car F)
    (max_length : nat) (success : bool) (chosen text : string) (st : Z)
    (hyps : list (car F * string)) (w : W) (k : nat) : option rg_result :=
    match fuel with
    | O => None
    | S fuel' =>
        let continue success chosen text st hyps w k :=
          if success && negb (String.eqb chosen "") && (String.length text <? max_length)%nat
          then rand_gen_loop fuel' c draws max_length success chosen text st hyps w k
          else
            let text := if success && (max_length <=? String.length text)%nat
                        then (text ++ "(reached_length_limit)")%string else text in (* 216-218 *)
            Some (mk_rg (if success then Ok tt else Err) text w k) in          (* 219-223 *)
        if success then
          let pos := get_random_position hyps (draws k) in                     (* 197 *)
          match nth_error hyps pos with
          | None => Some (mk_rg Err text w (S k))                              (* 198-200 *)
          | Some (_, ch) =>
              if negb (String.eqb ch "") then                                  (* 201-210 *)
                let text := (text ++ ch)%string in
                match helper_update c w ch st 1 with
                | (Ok (st', _, hyps'), w') => continue true ch text st' hyps' w' (S k)
                | (Err, w') => continue false ch text st [] w' (S k)
                | (Crash, w') => Some (mk_rg Crash text w' (S k))
                | (UB, w') => Some (mk_rg UB text w' (S k))
                end
              else continue true ch text st hyps w (S k)
          end
        else continue success chosen
               (text ++ "(subsequent generation failed)")%string st hyps w k   (* 211-213 *)
    end.

  (** client_helper.cc:178-224 ClientHelper::RandGen. *)
  Definition rand_gen (fuel : nat) (c : option (server F W)) (draws : nat -> car F)
    (w : W) (ctx : string) : option rg_result :=
    let max_length := (kMaxRandGenLen + String.length ctx)%nat in
    match helper_next_state c w ctx (-1)%Z with
    | (Ok st, w1) =>
        match helper_get_scores c w1 "" st with
        | (Ok (_, hyps), w2) =>
            rand_gen_loop fuel c draws max_length true "" ctx st hyps w2 0
        | (Err, w2) => Some (mk_rg Err ctx w2 0)
        | (Crash, w2) => Some (mk_rg Crash ctx w2 0)
        | (UB, w2) => Some (mk_rg UB ctx w2 0)
        end
    | (Err, w1) => Some (mk_rg Err ctx w1 0)
    | (Crash, w1) => Some (mk_rg Crash ctx w1 0)
    | (UB, w1) => Some (mk_rg UB ctx w1 0)
    end.

  (** client_helper.cc:234-238: the loop of OneKbestSample from index [i], [n] more rounds. *)
  Fixpoint kbest_loop (l : list (car F * string)) (i n : nat)
    : outcome (list (car F * string)) :=
    match n with
    | O => Ok []
    | S n' => let* x := vget l i in
              let* r := kbest_loop l (S i) n' in Ok (x :: r)
    end.

  (** client_helper.cc:226-240 OneKbestSample.  The result is the list of continuations with
      their probabilities; their formatting into one string is not modelled. *)
  Definition one_kbest (c : option (server F W)) (w : W) (k : Z) (ctx : string)
    : outcome (list (car F * string)) * W :=
    match helper_get_scores c w ctx (-1)%Z with
    | (Ok (_, hyps), w1) => (kbest_loop hyps 0 (Z.to_nat k), w1)
    | (Err, w1) => (Err, w1)
    | (Crash, w1) => (Crash, w1)
    | (UB, w1) => (UB, w1)
    end.

  (** client_helper.cc:69-81 FindStringIndex; [None] is -1. *)
  Fixpoint find_string (l : list (car F * string)) (s : string) : option nat :=
    match l with
    | [] => None
    | (_, x) :: t => if String.eqb s x then Some O else option_map S (find_string t s)
    end.

  (** client_helper.cc:45-46, 83-86: kNumCodepoints, UniformMixValue. *)
  Definition kNumCodepoints : Z := 143859.
  Definition uniform_mix (eps : car F) : car F := eps / ofZ kNumCodepoints.

  (** client_helper.cc:91-99, the probability whose bits CalculateBits returns. *)
  Definition mixed_prob (eps : car F) (idx : option nat) (l : list (car F * string))
    : outcome (car F) :=
    match idx with
    | None => Ok (uniform_mix eps)
    | Some i => let* x := vget l i in Ok (uniform_mix eps + fst x * (1 - eps))
    end.

  (** The three totals of client_helper.cc:250-252. *)
  Record totals (B : Type) := mk_totals { tot_chars : Z; tot_oov : Z; tot_bits : B }.
End Client.
Arguments mk_totals {B}. Arguments tot_chars {B}. Arguments tot_oov {B}.
Arguments tot_bits {B}.
Arguments rg_result : clear implicits.
Arguments mk_rg {W}. Arguments rg_status {W}. Arguments rg_text {W}.
Arguments rg_world {W}. Arguments rg_draws {W}.

(** Bits are numbers of an arbitrary ring-like type [B] here, with [log2bits p = -log2 p];
    ClientBits.v takes the real numbers. *)
Section Bits.
  Context {F : ofield} {W B : Type}.
  Variable sort : list (car F * string) -> list (car F * string).
  Variables unicode : string -> list Z.
  Variable chars : string -> list string.
  Variable log2bits : car F -> B.
  Variable badd : B -> B -> B.
  Variable eps : car F.     (* kMixEpsilon *)

  (** client_helper.cc:262-274: the loop over the symbols of one line.  A failed update makes
      the function return its status (lines 273, 279): [Err]. *)
  Fixpoint bits_line (c : option (server F W)) (w : W) (st : Z)
    (hyps : list (car F * string)) (syms : list string) (t : totals B)
    : outcome (totals B) * W :=
    match syms with
    | [] => (Ok t, w)
    | s :: rest =>
        let idx := find_string hyps s in
        match mixed_prob eps idx hyps with
        | Ok p =>
            let t' := mk_totals (tot_chars t + 1)
                        (match idx with None => tot_oov t + 1 | Some _ => tot_oov t end)
                        (badd (tot_bits t) (log2bits p)) in
            match helper_update sort unicode c w s st 1 with
            | (Ok (st', _, hyps'), w') => bits_line c w' st' hyps' rest t'
            | (Err, w') => (Err, w')
            | (Crash, w') => (Crash, w')
            | (UB, w') => (UB, w')
            end
        | Err => (Err, w) | Crash => (Crash, w) | UB => (UB, w)
        end
    end.

  (** client_helper.cc:254-275: the loop over the lines. *)
  Fixpoint bits_lines (c : option (server F W)) (w : W) (lines : list string) (t : totals B)
    : outcome (totals B) * W :=
    match lines with
    | [] => (Ok t, w)
    | l :: rest =>
        match helper_get_scores sort c w "" 0 with
        | (Ok (_, hyps), w1) =>
            match bits_line c w1 0 hyps (chars l ++ [""%string])%list t with
            | (Ok t', w2) => bits_lines c w2 rest t'
            | e => e
            end
        | (Err, w1) => (Err, w1)
        | (Crash, w1) => (Crash, w1)
        | (UB, w1) => (UB, w1)
        end
    end.

  (** client_helper.cc:242-285 CalcBitsPerCharacter; the file is [None] when it cannot be
      opened, else the lines std::getline yields.  The result is the totals; the quotient of
      line 283 is formed in ClientBits.v. *)
  Definition calc_bits (b0 : B) (c : option (server F W)) (w : W) (file : option (list string))
    : outcome (totals B) * W :=
    match file with
    | None => (Err, w)
    | Some lines => bits_lines c w lines (mk_totals 0 0 b0)
    end.
End Bits.
