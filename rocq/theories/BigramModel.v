(** Model of mozolm/models/simple_bigram_char_model.{h,cc}. *)
From Verif Require Import Base Field LmModel TextModel.
From Coq Require Import Ascii String.
Close Scope string_scope.
Open Scope list_scope.
Local Open Scope Z_scope.

(** simple_bigram_char_model.h:68-80, the data members.  [utf8_normalizer] is a vector of
    doubles in the code; here it holds the exact integers (doubles are exact up to 2^53; the
    version in double arithmetic is BigramFloatModel.v, property C68).  The two mutexes are not modelled: every public method holds
    them for its whole duration, so methods are atomic. *)
Record bigram : Type := Bigram {
  utf8_indices : list Z;           (* symbols of the vocabulary *)
  vocab_indices : list Z;          (* symbol -> position or -1 *)
  utf8_normalizer : list Z;
  bigram_counts : list (list Z)
}.

(** simple_bigram_char_model.cc:40-53, the while loop of ReadVocabSymbols. *)
Fixpoint read_vocab_lines (last_idx : Z) (lines : list bytes) : outcome (list Z) :=
  match lines with
  | [] => Ok []
  | str :: rest =>
      match str with
      | [] => Err                                                    (* 41 *)
      | _ =>
          match split_space str with
          | [field] =>
              let* utf8_sym := stoi field in                         (* 47 *)
              if utf8_sym <=? last_idx then Err                      (* 48-50 *)
              else let* l := read_vocab_lines utf8_sym rest in Ok (utf8_sym :: l)
          | _ => Err                                                 (* 44-46 *)
          end
      end
  end.

(** simple_bigram_char_model.cc:31-56 ReadVocabSymbols; [None] is a file that cannot be opened. *)
Definition read_vocab (file : option bytes) : outcome (list Z) :=
  match file with
  | None => Err
  | Some content => read_vocab_lines (-1) (getlines content)
  end.

(** simple_bigram_char_model.cc:76-83, the loop over the fields of one row: parse, clamp to one,
    add to [normalizer[idx]] (which is out of bounds when there are more rows than symbols). *)
Fixpoint read_count_fields (idx : nat) (fields : list bytes) (normalizer : list Z)
  : outcome (list Z * list Z) :=
  match fields with
  | [] => Ok ([], normalizer)
  | f :: rest =>
      let* count := stol f in                                        (* 77 *)
      let c := if 1 <? count then count else 1 in                    (* 75, 78-81 *)
      let* n := vget normalizer idx in                               (* 82 *)
      let* normalizer' := vset normalizer idx (n + c) in
      let* (row, normalizer'') := read_count_fields idx rest normalizer' in
      Ok (c :: row, normalizer'')
  end.

(** simple_bigram_char_model.cc:67-87, the while loop of ReadCountMatrix. *)
Fixpoint read_count_lines (rows : nat) (idx : nat) (lines : list bytes) (normalizer : list Z)
  : outcome (list (list Z) * list Z) :=
  match lines with
  | [] => if (idx =? rows)%nat then Ok ([], normalizer) else Err     (* 87-89 *)
  | str :: rest =>
      match str with
      | [] => Err                                                    (* 68 *)
      | _ =>
          let fields := split_space str in
          if negb (List.length fields =? rows)%nat then Err          (* 71-74 *)
          else
            let* (row, normalizer') := read_count_fields idx fields normalizer in
            let* (m, normalizer'') := read_count_lines rows (S idx) rest normalizer' in
            Ok (row :: m, normalizer'')
      end
  end.

(** simple_bigram_char_model.cc:58-92 ReadCountMatrix. *)
Definition read_counts (file : option bytes) (rows : nat) (normalizer : list Z)
  : outcome (list (list Z) * list Z) :=
  match file with
  | None => Err
  | Some content => read_count_lines rows 0 (getlines content) normalizer
  end.

(** simple_bigram_char_model.cc:112-116: 0, space, a-z. *)
Definition default_vocab : list Z :=
  0 :: 32 :: map Z.of_nat (seq 97 26).

(** simple_bigram_char_model.cc:128-139: building the inverse table.  The range checks of lines
    130-137 are kept. *)
Fixpoint fill_vocab_indices (i : nat) (syms : list Z) (table : list Z) : outcome (list Z) :=
  match syms with
  | [] => Ok table
  | s :: rest =>
      if (Z.of_nat (List.length table) <=? s) then Err
      else if s <? 0 then Err
      else let* table' := vset table (Z.to_nat s) (Z.of_nat i) in
           fill_vocab_indices (S i) rest table'
  end.

(** A file name in the storage proto: absent (empty string), or naming a file that either
    cannot be opened ([None]) or has some content. *)
Definition file_arg := option (option bytes).

(** simple_bigram_char_model.cc:96-141 Read, on a freshly constructed object (no code path in
    /repo calls Read twice).  Line 127 evaluates [utf8_indices_.back() + 1]: undefined for an
    empty vocabulary and for INT_MAX. *)
Definition bigram_read (vocab_file counts_file : file_arg) : outcome bigram :=
  let* (idx, norm, counts) :=
    match vocab_file with
    | Some vf =>
        let* v := read_vocab vf in                                   (* 102 *)
        let norm := repeat 0 (List.length v) in                      (* 103 *)
        match counts_file with
        | Some cf =>
            let* (m, norm') := read_counts cf (List.length v) norm in  (* 104-108 *)
            Ok (v, norm', m)
        | None => Ok (v, norm, [])
        end
    | None => Ok (default_vocab, [], [])                             (* 109-117 *)
    end in
  let n := List.length idx in
  let '(norm, counts) :=
    match counts with
    | [] => (repeat (Z.of_nat n) n, repeat (repeat 1 n) n)           (* 118-126 *)
    | _ => (norm, counts)
    end in
  let* last := match idx with [] => UB | _ => Ok (List.last idx 0) end in
  if last =? int32_max then UB
  else
    let* table := fill_vocab_indices 0 idx (repeat (-1) (Z.to_nat (last + 1))) in
    Ok {| utf8_indices := idx; vocab_indices := table;
          utf8_normalizer := norm; bigram_counts := counts |}.

(** simple_bigram_char_model.cc:143-145 *)
Definition valid_state (m : bigram) (state : Z) : bool :=
  (state <? Z.of_nat (List.length (utf8_indices m))) && (0 <=? state).

(** simple_bigram_char_model.cc:147-149 *)
Definition valid_sym (m : bigram) (sym : Z) : bool :=
  (sym <? Z.of_nat (List.length (vocab_indices m))) && (0 <=? sym).

(** simple_bigram_char_model.cc:151-153 *)
Definition state_sym (m : bigram) (state : Z) : outcome Z :=
  if valid_state m state then vgetZ (utf8_indices m) state else Ok (-1).

(** simple_bigram_char_model.cc:155-157 *)
Definition sym_state (m : bigram) (sym : Z) : outcome Z :=
  if valid_sym m sym then vgetZ (vocab_indices m) sym else Ok (-1).

(** simple_bigram_char_model.cc:159-161 *)
Definition next_state (m : bigram) (state sym : Z) : outcome Z := sym_state m sym.

(** Lines 166-169, 180-183, 203-206: invalid states become the start state 0. *)
Definition fix_state (m : bigram) (state : Z) : Z := if valid_state m state then state else 0.

Section Scores.
  Context {F : ofield}.

  (** simple_bigram_char_model.cc:171-175, the loop filling the response.
      A normalizer of zero would give NaN; it is positive in every loaded model. *)
  Fixpoint extract_loop (i : nat) (row : list Z) (indices : list Z) (norm : Z)
    : outcome (list (Z * num F)) :=
    match row with
    | [] => Ok []
    | c :: rest =>
        let* sym := vget indices i in
        let* l := extract_loop (S i) rest indices norm in
        Ok ((sym, num_div (ofZ c) (ofZ norm)) :: l)
    end.

  (** simple_bigram_char_model.cc:163-177 ExtractLMScores: normalization and the list of
      (symbol, probability). The symbol is given as code point; the response holds its UTF-8
      encoding. *)
  Definition extract_lm_scores (m : bigram) (state : Z) : outcome (Z * list (Z * num F)) :=
    let state := fix_state m state in
    let* norm := vgetZ (utf8_normalizer m) state in
    let* row := vgetZ (bigram_counts m) state in
    let* l := extract_loop 0 row (utf8_indices m) norm in
    Ok (norm, l).

  (** simple_bigram_char_model.cc:179-193 SymLMScore, as probability [exp(-score)]. *)
  Definition sym_lm_score (m : bigram) (state sym : Z) : outcome (num F) :=
    let state := fix_state m state in
    let* sym_st := next_state m state sym in
    if valid_state m state && valid_state m sym_st then
      let* row := vgetZ (bigram_counts m) state in
      let* c := vgetZ row sym_st in
      let* norm := vgetZ (utf8_normalizer m) state in
      Ok (num_div (ofZ c) (ofZ norm))
    else Ok (Val f0).
End Scores.

(** simple_bigram_char_model.cc:207-217, the loop of UpdateLMCounts. The int64 addition of line
    214 is undefined on overflow. *)
Fixpoint update_loop (m : bigram) (state : Z) (syms : list Z) (count : Z) : outcome bigram :=
  match syms with
  | [] => Ok m
  | sym :: rest =>
      let* next := next_state m state sym in
      if next <? 0 then update_loop m 0 rest count
      else
        let* n := vgetZ (utf8_normalizer m) state in
        let* row := vgetZ (bigram_counts m) state in
        let* c := vgetZ row next in
        if int64_max <? c + count then UB
        else
          let s := Z.to_nat state in
          update_loop
            {| utf8_indices := utf8_indices m;
               vocab_indices := vocab_indices m;
               utf8_normalizer := upd (utf8_normalizer m) s (n + count);
               bigram_counts := upd (bigram_counts m) s (upd row (Z.to_nat next) (c + count)) |}
            next rest count
  end.

(** simple_bigram_char_model.cc:195-220 UpdateLMCounts (always returns true). *)
Definition update_lm_counts (m : bigram) (state : Z) (syms : list Z) (count : Z) : outcome bigram :=
  if count <=? 0 then Ok m
  else update_loop m (fix_state m state) syms count.

(** A history of update calls: state, symbols, count. *)
Definition bg_call : Type := Z * list Z * Z.
Fixpoint bigram_run (m : bigram) (h : list bg_call) : outcome bigram :=
  match h with
  | [] => Ok m
  | (state, syms, count) :: rest =>
      let* m' := update_lm_counts m state syms count in bigram_run m' rest
  end.
