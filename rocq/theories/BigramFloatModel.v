(** Model of mozolm/models/simple_bigram_char_model.{h,cc} in IEEE double arithmetic.
    [BigramModel] computes with exact numbers; here the normalizers and the probabilities are
    the 64-bit binary floating point numbers of the code, rounded to nearest (ties to even)
    after every operation, as formalized in Flocq.  Everything that involves integers only
    (vocabulary, symbol table, states, count matrix) is taken over from [BigramModel]. *)
From Flocq Require Import BinarySingleNaN.
From Coq Require Import Ascii String.
From Verif Require Import Base Field LmModel TextModel BigramModel.
Close Scope string_scope.
Open Scope list_scope.
Local Open Scope Z_scope.

(** C++ [double]: IEEE 754 binary64 (53 bits of precision, exponent bound 1024). *)
Definition double : Type := binary_float 53 1024.
Lemma prec53 : FLX.Prec_gt_0 53. Proof. reflexivity. Qed.
Lemma emax1024 : Prec_lt_emax 53 1024. Proof. reflexivity. Qed.

(** Conversion of an integer to double (simple_bigram_char_model.cc:82, 123, 173, 189, 214). *)
Definition d_of_Z (z : Z) : double := binary_normalize 53 1024 prec53 emax1024 mode_NE z 0 false.
(** [+] on doubles (simple_bigram_char_model.cc:82, 214). *)
Definition d_add (x y : double) : double := @Bplus 53 1024 prec53 emax1024 mode_NE x y.
(** [/] on doubles (simple_bigram_char_model.cc:173-174, 189-190). *)
Definition d_div (x y : double) : double := @Bdiv 53 1024 prec53 emax1024 mode_NE x y.

(** simple_bigram_char_model.h:70-79, the data members. *)
Record dbigram : Type := DBigram {
  d_indices : list Z;
  d_table : list Z;
  d_norm : list double;
  d_counts : list (list Z)
}.

(** The integer part of the data members, for the functions that do not use the normalizers
    (ValidState, ValidSym, SymState, NextState: simple_bigram_char_model.cc:143-161). *)
Definition d_view (m : dbigram) : bigram :=
  {| utf8_indices := d_indices m; vocab_indices := d_table m; utf8_normalizer := [];
     bigram_counts := d_counts m |}.

(** simple_bigram_char_model.cc:76-83, the loop over the fields of one row. *)
Fixpoint d_read_count_fields (idx : nat) (fields : list bytes) (normalizer : list double)
  : outcome (list Z * list double) :=
  match fields with
  | [] => Ok ([], normalizer)
  | f :: rest =>
      let* count := stol f in
      let c := if 1 <? count then count else 1 in
      let* n := vget normalizer idx in                               (* 82 *)
      let* normalizer' := vset normalizer idx (d_add n (d_of_Z c)) in
      let* (row, normalizer'') := d_read_count_fields idx rest normalizer' in
      Ok (c :: row, normalizer'')
  end.

(** simple_bigram_char_model.cc:67-89, the while loop of ReadCountMatrix. *)
Fixpoint d_read_count_lines (rows : nat) (idx : nat) (lines : list bytes) (normalizer : list double)
  : outcome (list (list Z) * list double) :=
  match lines with
  | [] => if (idx =? rows)%nat then Ok ([], normalizer) else Err
  | str :: rest =>
      match str with
      | [] => Err
      | _ =>
          let fields := split_space str in
          if negb (List.length fields =? rows)%nat then Err
          else
            let* (row, normalizer') := d_read_count_fields idx fields normalizer in
            let* (m, normalizer'') := d_read_count_lines rows (S idx) rest normalizer' in
            Ok (row :: m, normalizer'')
      end
  end.

(** simple_bigram_char_model.cc:58-92 ReadCountMatrix. *)
Definition d_read_counts (file : option bytes) (rows : nat) (normalizer : list double)
  : outcome (list (list Z) * list double) :=
  match file with
  | None => Err
  | Some content => d_read_count_lines rows 0 (getlines content) normalizer
  end.

(** simple_bigram_char_model.cc:96-141 Read. *)
Definition d_bigram_read (vocab_file counts_file : file_arg) : outcome dbigram :=
  let* (idx, norm, counts) :=
    match vocab_file with
    | Some vf =>
        let* v := read_vocab vf in                                   (* 102 *)
        let norm := repeat (d_of_Z 0) (List.length v) in             (* 103 *)
        match counts_file with
        | Some cf =>
            let* (m, norm') := d_read_counts cf (List.length v) norm in  (* 104-108 *)
            Ok (v, norm', m)
        | None => Ok (v, norm, [])
        end
    | None => Ok (default_vocab, [], [])                             (* 109-117 *)
    end in
  let n := List.length idx in
  let '(norm, counts) :=
    match counts with
    | [] => (repeat (d_of_Z (Z.of_nat n)) n, repeat (repeat 1 n) n)  (* 118-126 *)
    | _ => (norm, counts)
    end in
  let* last := match idx with [] => UB | _ => Ok (List.last idx 0) end in
  if last =? int32_max then UB
  else
    let* table := fill_vocab_indices 0 idx (repeat (-1) (Z.to_nat (last + 1))) in
    Ok {| d_indices := idx; d_table := table; d_norm := norm; d_counts := counts |}.

(** simple_bigram_char_model.cc:171-175, the loop filling the response. *)
Fixpoint d_extract_loop (i : nat) (row : list Z) (indices : list Z) (norm : double)
  : outcome (list (Z * double)) :=
  match row with
  | [] => Ok []
  | c :: rest =>
      let* sym := vget indices i in
      let* l := d_extract_loop (S i) rest indices norm in
      Ok ((sym, d_div (d_of_Z c) norm) :: l)
  end.

(** simple_bigram_char_model.cc:163-177 ExtractLMScores. *)
Definition d_extract_lm_scores (m : dbigram) (state : Z) : outcome (double * list (Z * double)) :=
  let state := fix_state (d_view m) state in
  let* norm := vgetZ (d_norm m) state in
  let* row := vgetZ (d_counts m) state in
  let* l := d_extract_loop 0 row (d_indices m) norm in
  Ok (norm, l).

(** simple_bigram_char_model.cc:179-191 SymLMScore, up to the final [-std::log(prob)] (line 192),
    which is not modelled: the value is the [prob] the logarithm is taken of. *)
Definition d_sym_lm_score (m : dbigram) (state sym : Z) : outcome double :=
  let state := fix_state (d_view m) state in
  let* sym_st := next_state (d_view m) state sym in
  if valid_state (d_view m) state && valid_state (d_view m) sym_st then
    let* row := vgetZ (d_counts m) state in
    let* c := vgetZ row sym_st in
    let* norm := vgetZ (d_norm m) state in
    Ok (d_div (d_of_Z c) norm)
  else Ok (d_of_Z 0).

(** simple_bigram_char_model.cc:208-218, the loop of UpdateLMCounts. *)
Fixpoint d_update_loop (m : dbigram) (state : Z) (syms : list Z) (count : Z) : outcome dbigram :=
  match syms with
  | [] => Ok m
  | sym :: rest =>
      let* next := next_state (d_view m) state sym in
      if next <? 0 then d_update_loop m 0 rest count
      else
        let* n := vgetZ (d_norm m) state in
        let* row := vgetZ (d_counts m) state in
        let* c := vgetZ row next in
        if int64_max <? c + count then UB
        else
          let s := Z.to_nat state in
          d_update_loop
            {| d_indices := d_indices m;
               d_table := d_table m;
               d_norm := upd (d_norm m) s (d_add n (d_of_Z count));                (* 214 *)
               d_counts := upd (d_counts m) s (upd row (Z.to_nat next) (c + count)) |}
            next rest count
  end.

(** simple_bigram_char_model.cc:195-220 UpdateLMCounts (always returns true). *)
Definition d_update_lm_counts (m : dbigram) (state : Z) (syms : list Z) (count : Z) : outcome dbigram :=
  if count <=? 0 then Ok m
  else d_update_loop m (fix_state (d_view m) state) syms count.

(** A history of UpdateLMCounts calls (state, symbols, count), as in [bigram_run]. *)
Fixpoint d_bigram_run (m : dbigram) (h : list (Z * list Z * Z)) : outcome dbigram :=
  match h with
  | [] => Ok m
  | (s, syms, n) :: t => let* m' := d_update_lm_counts m s syms n in d_bigram_run m' t
  end.
