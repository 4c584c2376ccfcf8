(** Text-file primitives used by the readers in /repo: std::getline, absl::StrSplit with
    SkipEmpty, std::stoi / std::stol.  These are external library calls; this file writes
    down their documented behaviour. *)
From Verif Require Import Base.
From Coq Require Import Ascii String.
Close Scope string_scope.
Open Scope list_scope.

Definition bytes := list ascii.
Definition bstr (s : string) : bytes := list_ascii_of_string s.

Definition newline : ascii := ascii_of_nat 10.
Definition space : ascii := ascii_of_nat 32.

(** Successive results of std::getline until it fails: the bytes between newlines; a last line
    without a newline counts if it is not empty. *)
Fixpoint getlines_from (cur : bytes) (l : bytes) : list bytes :=
  match l with
  | [] => match cur with [] => [] | _ => [rev cur] end
  | c :: t => if Ascii.eqb c newline then rev cur :: getlines_from [] t
              else getlines_from (c :: cur) t
  end.
Definition getlines (l : bytes) : list bytes := getlines_from [] l.

(** absl::StrSplit(str, ' ', absl::SkipEmpty()). *)
Fixpoint split_from (cur : bytes) (l : bytes) : list bytes :=
  match l with
  | [] => match cur with [] => [] | _ => [rev cur] end
  | c :: t => if Ascii.eqb c space
              then match cur with [] => split_from [] t | _ => rev cur :: split_from [] t end
              else split_from (c :: cur) t
  end.
Definition split_space (l : bytes) : list bytes := split_from [] l.

(** std::stoi / std::stol (base 10): skip white space, optional sign, at least one digit, the
    rest of the string is ignored; no digits or a value out of range throws, which nothing in
    /repo catches. *)
Definition is_space (c : ascii) : bool :=
  let n := N_of_ascii c in ((9 <=? n) && (n <=? 13))%N || (n =? 32)%N.
Definition digit (c : ascii) : option Z :=
  let n := N_of_ascii c in
  if ((48 <=? n) && (n <=? 57))%N then Some (Z.of_N n - 48)%Z else None.
Fixpoint digits (acc : option Z) (l : bytes) : option Z :=
  match l with
  | [] => acc
  | c :: t => match digit c with
              | Some d => digits (Some (match acc with Some a => 10 * a + d | None => d end)%Z) t
              | None => acc
              end
  end.
Fixpoint skip_spaces (l : bytes) : bytes :=
  match l with c :: t => if is_space c then skip_spaces t else l | [] => [] end.
Definition parse_int (lo hi : Z) (l : bytes) : outcome Z :=
  let l := skip_spaces l in
  let v := match l with
           | c :: t => if Ascii.eqb c "-"%char then option_map Z.opp (digits None t)
                       else if Ascii.eqb c "+"%char then digits None t
                       else digits None l
           | [] => None
           end in
  match v with
  | Some z => if ((lo <=? z) && (z <=? hi))%Z then Ok z else Crash
  | None => Crash
  end.
Definition int32_min := (-2147483648)%Z.
Definition int32_max := 2147483647%Z.
Definition int64_min := (-9223372036854775808)%Z.
Definition int64_max := 9223372036854775807%Z.
Definition stoi := parse_int int32_min int32_max.
Definition stol := parse_int int64_min int64_max.
