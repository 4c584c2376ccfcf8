(** UTF-8, as RFC 3629 defines it: the concrete functions behind the parameters [unicode], [chars], [encode] and
    [decode] of the other models.

    The code calls nisaba::utf8 (external, not in /repo): StrSplitByCharToUnicode in language_model.cc:30,
    language_model_hub.cc:209 and client_async_impl.cc:136; StrSplitByChar in client_helper.cc:255,
    ppm_as_fst_model.cc:290, 385 and ngram_word_fst_model.cc:59, 92, 298, 578; EncodeUnicodeChar in
    simple_bigram_char_model.cc:172, ngram_char_fst_model.cc:36, ppm_as_fst_model.cc:927, 952, 977 and
    ngram_word_fst_model.cc:310; DecodeSingleUnicodeChar in ngram_word_fst_model.cc:263, 464 and
    ngram_fst_relabel.cc:91.  On well-formed text these are what the RFC says.  On ill-formed text the choice made
    here (a byte that starts no well-formed character counts as one character, U+FFFD) is an assumption about
    nisaba; the theorems of Utf8Props.v about ill-formed text say only what holds of this choice. *)
From Coq Require Import String Ascii.
From Verif Require Import Base.
Local Open Scope Z_scope.
Close Scope string_scope.
Local Notation length := List.length.

(** The Unicode characters: no surrogates (RFC 3629 section 3). *)
Definition scalar (c : Z) : Prop := (0 <= c < 55296) \/ (57344 <= c < 1114112).
Definition is_scalar (c : Z) : bool := ((0 <=? c) && (c <? 55296)) || ((57344 <=? c) && (c <? 1114112)).

Definition code (a : ascii) : Z := Z.of_N (N_of_ascii a).
Definition chr (z : Z) : ascii := ascii_of_N (Z.to_N z).
(** The bytes of one character. *)
Definition enc (c : Z) : string :=
  if c <? 128 then String (chr c) EmptyString
  else if c <? 2048 then String (chr (192 + c / 64)) (String (chr (128 + c mod 64)) EmptyString)
  else if c <? 65536 then
    String (chr (224 + c / 4096)) (String (chr (128 + (c / 64) mod 64)) (String (chr (128 + c mod 64)) EmptyString))
  else
    String (chr (240 + c / 262144)) (String (chr (128 + (c / 4096) mod 64))
      (String (chr (128 + (c / 64) mod 64)) (String (chr (128 + c mod 64)) EmptyString))).
Fixpoint utf8_encode (l : list Z) : string :=
  match l with [] => EmptyString | c :: t => append (enc c) (utf8_encode t) end.

Definition bad_char : Z := 65533.   (* U+FFFD REPLACEMENT CHARACTER *)
Definition cont (b : ascii) : bool := (128 <=? code b) && (code b <? 192).
(** The value of a sequence of two, three, four bytes; [None] if it encodes no character, or not in the shortest
    form. *)
Definition two (a b : ascii) : option Z :=
  let v := (code a - 192) * 64 + (code b - 128) in
  if (192 <=? code a) && (code a <? 224) && cont b && (128 <=? v) then Some v else None.
Definition three (a b c : ascii) : option Z :=
  let v := (code a - 224) * 4096 + (code b - 128) * 64 + (code c - 128) in
  if (224 <=? code a) && (code a <? 240) && cont b && cont c && (2048 <=? v) && is_scalar v then Some v else None.
Definition four (a b c d : ascii) : option Z :=
  let v := (code a - 240) * 262144 + (code b - 128) * 4096 + (code c - 128) * 64 + (code d - 128) in
  if (240 <=? code a) && (code a <? 248) && cont b && cont c && cont d && (65536 <=? v) && is_scalar v
  then Some v else None.

(** The characters of a text, each with its bytes. *)
Fixpoint runes (s : string) : list (Z * string) :=
  match s with
  | EmptyString => []
  | String a t =>
      if code a <? 128 then (code a, String a EmptyString) :: runes t else
      match t with
      | EmptyString => [(bad_char, String a EmptyString)]
      | String b t1 =>
          match two a b with
          | Some v => (v, String a (String b EmptyString)) :: runes t1
          | None =>
              match t1 with
              | EmptyString => (bad_char, String a EmptyString) :: runes t
              | String c t2 =>
                  match three a b c with
                  | Some v => (v, String a (String b (String c EmptyString))) :: runes t2
                  | None =>
                      match t2 with
                      | EmptyString => (bad_char, String a EmptyString) :: runes t
                      | String d t3 =>
                          match four a b c d with
                          | Some v => (v, String a (String b (String c (String d EmptyString)))) :: runes t3
                          | None => (bad_char, String a EmptyString) :: runes t
                          end
                      end
                  end
              end
          end
      end
  end.

(** StrSplitByCharToUnicode, StrSplitByChar, DecodeSingleUnicodeChar. *)
Definition utf8_codes (s : string) : list Z := map fst (runes s).
Definition utf8_chars (s : string) : list string := map snd (runes s).
Definition utf8_single (s : string) : option Z :=
  match runes s with [(c, p)] => if String.eqb (enc c) s then Some c else None | _ => None end.
