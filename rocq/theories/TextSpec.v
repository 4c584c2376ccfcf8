(** How a table of numbers is written in a text file, independently of the functions of TextModel.v that read it.
    Used by C69. *)
From Coq Require Import Ascii String DecimalString Decimal DecimalZ.
From Verif Require Import Base TextModel.
Close Scope string_scope.
Open Scope list_scope.
Local Open Scope Z_scope.

(** The number in the usual decimal notation (standard library): "0", "17", "-3". *)
Definition decimal (z : Z) : bytes := bstr (NilZero.string_of_int (Z.to_int z)).

(** A field that says [z]: its decimal notation, possibly after white space (tabs and the like) and a plus sign, and
    possibly followed by other characters, such as the carriage return at the end of a line of a Windows file, that do
    not continue it. *)
Definition white (c : ascii) : Prop := (9 <= nat_of_ascii c <= 13 \/ nat_of_ascii c = 32)%nat.
Definition no_digit_first (rest : bytes) : Prop :=
  forall c t, rest = c :: t -> ~ (48 <= nat_of_ascii c <= 57)%nat.
Definition says (f : bytes) (z : Z) : Prop :=
  exists ws sign rest, f = ws ++ sign ++ decimal z ++ rest /\ Forall white ws /\
    (sign = [] \/ sign = ["+"%char] /\ (0 <= z)%Z) /\ no_digit_first rest.

(** A line made of fields with blanks around them. *)
Inductive spaced : bytes -> list bytes -> Prop :=
| spaced_end n : spaced (repeat " "%char n) []
| spaced_last n f : f <> [] -> ~ In " "%char f -> spaced (repeat " "%char n ++ f) [f]
| spaced_cons n f rest fs : f <> [] -> ~ In " "%char f -> spaced rest fs ->
    spaced (repeat " "%char n ++ f ++ " "%char :: rest) (f :: fs).

(** A file made of lines; the newline behind the last one may be missing. *)
Inductive lined : bytes -> list bytes -> Prop :=
| lined_nil : lined [] []
| lined_last l : l <> [] -> ~ In (ascii_of_nat 10) l -> lined l [l]
| lined_cons l rest ls : ~ In (ascii_of_nat 10) l -> lined rest ls -> lined (l ++ ascii_of_nat 10 :: rest) (l :: ls).

(** A vocabulary file: one number per line.  A count file: one row of numbers per line. *)
Definition vocabulary_file (content : bytes) (v : list Z) : Prop :=
  exists ls, lined content ls /\ Forall2 (fun l x => exists f, spaced l [f] /\ says f x) ls v.
Definition table_file (content : bytes) (rows : list (list Z)) : Prop :=
  exists ls, lined content ls /\ Forall2 (fun l row => exists fs, spaced l fs /\ Forall2 says fs row) ls rows.

(** One way to write them. *)
Definition write_row (row : list Z) : bytes := concat (map (fun z => decimal z ++ [" "%char]) row).
Definition write_table (rows : list (list Z)) : bytes := concat (map (fun row => write_row row ++ [ascii_of_nat 10]) rows).
Definition write_vocabulary (v : list Z) : bytes := write_table (map (fun x => [x]) v).
