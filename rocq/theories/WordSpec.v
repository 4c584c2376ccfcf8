(** What a word n-gram model predicts, character by character, independently of the sorted tables,
    ranges and caches of the code. *)
From Verif Require Import Base Field LmModel HubModel HubSpec PpmModel NgramModel NgramSpec.
Local Open Scope Z_scope.

(** [p] is a prefix of [w]. *)
Fixpoint prefixb (p w : str) : bool :=
  match p, w with
  | [], _ => true
  | x :: p', y :: w' => (x =? y) && prefixb p' w'
  | _, [] => false
  end.

Section Spec.
  Context {F : ofield}.
  Variable f : list (@pstate F).
  (** The words of the model with their labels. *)
  Variable vocab : list (Z * str).
  Variable unigram : Z.

  Definition words : list str := map snd vocab.
  Definition begins (p : str) : bool := existsb (prefixb p) words.
  Definition is_word (p : str) : Prop := In p words.

  (** Where a user can be while typing: in the n-gram context (automaton state) [s] having typed
      [p] of the next word, or inside a word the vocabulary does not have. *)
  Inductive place : Type :=
  | Typing (s : Z) (p : str)
  | Unknown.

  (** Typing one more character.  A space ends a word. At the beginning of a word, a character that
      begins no word is ignored and the context is lost. *)
  Inductive types : place -> Z -> place -> Prop :=
  | type_first s c : begins [c] = true -> types (Typing s []) c (Typing s [c])
  | type_first_unknown s c : begins [c] = false -> types (Typing s []) c (Typing unigram [])
  | type_more s p c : p <> [] -> c <> 32 -> begins (p ++ [c]) = true ->
      types (Typing s p) c (Typing s (p ++ [c]))
  | type_astray s p c : p <> [] -> c <> 32 -> begins (p ++ [c]) = false -> types (Typing s p) c Unknown
  | type_word s p x d : p <> [] -> In (x, p) vocab -> symbol_dest f x s d ->
      types (Typing s p) 32 (Typing (match d with Some d' => d' | None => unigram end) [])
  | type_no_word s p : p <> [] -> ~ is_word p -> types (Typing s p) 32 (Typing unigram [])
  | type_unknown c : c <> 32 -> types Unknown c Unknown
  | type_unknown_space : types Unknown 32 (Typing unigram []).

  (** [mass s p v]: the total probability [v], in context [s], of the words beginning with [p]. *)
  Definition mass (s : Z) (p : str) (v : car F) : Prop :=
    exists ps, Forall2 (fun '(x, _) q => symbol_prob f x s q)
                       (filter (fun '(_, w) => prefixb p w) vocab) ps /\ v = fsum ps.

  (** The predictions in context [s] after typing [p]: every character that continues some word,
      with the share of the words it leads to; if [p] is a word, a space, and the end of the string
      if the context after that word allows it, sharing the probability of the word; at the
      beginning of a word, the end of the string, if possible.  [total] is the mass of all that is
      possible. *)
  Inductive predicts (s : Z) : str -> car F -> str -> car F -> Prop :=
  | pred_char p c v total : c <> 32 -> begins (p ++ [c]) = true -> mass s (p ++ [c]) v ->
      predicts s p total [c] (fdiv v total)
  | pred_space p x d e v total : p <> [] -> In (x, p) vocab -> symbol_prob f x s v -> symbol_dest f x s d ->
      end_prob f (match d with Some d' => d' | None => unigram end) e ->
      predicts s p total [32] (fdiv (fmul v (fsub f1 e)) total)
  | pred_word_end p x d e v total : p <> [] -> In (x, p) vocab -> symbol_prob f x s v -> symbol_dest f x s d ->
      end_prob f (match d with Some d' => d' | None => unigram end) e -> e <> f0 ->
      predicts s p total [] (fdiv (fmul v e) total)
  | pred_end e total : end_prob f s e -> e <> f0 -> predicts s [] total [] (fdiv e total).

  (** The mass of everything possible at a place. *)
  Definition total_mass (s : Z) (p : str) (total : car F) : Prop :=
    exists v, mass s p v /\
      match p with
      | [] => exists e, end_prob f s e /\ total = fadd e v
      | _ => total = v
      end.
End Spec.
