(** Reference description of a PPM model with update exclusion and blending, following the comment
    of ppm_as_fst_model.h:20-63, with no automaton, no back-off arcs and no cache: a table of
    counts indexed by a history and a symbol, and the list of the histories that are known.

    Histories are lists of symbol labels, oldest first; the beginning of a string is the history
    [[0]] (0 cannot otherwise occur in a history).  Label 0 as a predicted symbol is the end of
    string; labels 1..V are the vocabulary. *)
From Verif Require Import Base Field.
Local Open Scope Z_scope.

Section Spec.
  Context {F : ofield}.
  (** Vocabulary size, alpha, beta, max_order. *)
  Variable V : nat.
  Variables alpha beta : car F.
  Variable max_order : Z.

  Definition history := list Z.
  Definition counts := history -> Z -> car F.

  Definition hist_eqb (g h : history) : bool := if list_eq_dec Z.eq_dec g h then true else false.

  (** All suffixes of a history, longest first. *)
  Fixpoint suffixes (h : history) : list history :=
    match h with [] => [[]] | _ :: h' => h :: suffixes h' end.
  Definition suffix (g h : history) : Prop := exists p, h = p ++ g.

  (** The symbols that can follow: the end of string and the vocabulary. *)
  Definition symbols : list Z := map Z.of_nat (seq 0 (S V)).

  (** S(h), the total count at h, and |U(h)|, the number of symbols seen after h. *)
  Definition total (C : counts) (h : history) : car F := fsum (map (C h) symbols).
  Definition kinds (C : counts) (h : history) : Z :=
    Z.of_nat (length (filter (fun x => flt f0 (C h x)) symbols)).

  (** P(x | h) of the header comment: C(hx) is the discounted count if x was seen after h. The
      unigram counts already include the Laplace smoothing. *)
  Fixpoint prob (C : counts) (h : history) (x : Z) : car F :=
    match h with
    | [] => fdiv (C [] x) (total C [])
    | _ :: h' =>
        fdiv (fadd (if flt f0 (C h x) then fsub (C h x) beta else f0)
                   (fmul (fadd (fmul (ofZ (kinds C h)) beta) alpha) (prob C h' x)))
             (fadd (total C h) alpha)
    end.

  (** The normalization reported with the scores: the denominator at the longest suffix of h after
      which anything was seen. *)
  Fixpoint norm (C : counts) (h : history) : car F :=
    match h with
    | [] => fadd (total C []) alpha
    | _ :: h' => if feqb (total C h) f0 then norm C h' else fadd (total C h) alpha
    end.

  (** The longest suffix of h after which x was already seen (the empty history if none). *)
  Fixpoint seen (C : counts) (h : history) (x : Z) : history :=
    match h with
    | [] => []
    | _ :: h' => if flt f0 (C h x) then h else seen C h' x
    end.

  (** The longest suffix of h among the known histories (the empty history if none). *)
  Fixpoint longest (K : list history) (h : history) : history :=
    if existsb (hist_eqb h) K then h
    else match h with [] => [] | _ :: h' => longest K h' end.

  (** One observation of x after h, with update exclusion: one more count at every suffix of h at
      least as long as [seen C h x]. *)
  Definition observe (C : counts) (h : history) (x : Z) : counts :=
    fun g y =>
      if (y =? x) && existsb (hist_eqb g) (suffixes h)
         && (Nat.leb (length (seen C h x)) (length g))
      then fadd (C g y) f1 else C g y.

  (** The histories that become known with that observation: those suffixes extended by x, shortest
      first, if new and within the order of the model (none for the end of string). *)
  Definition extended (K : list history) (C : counts) (h : history) (x : Z) : list history :=
    if x =? 0 then K
    else
      K ++ filter (fun g => (Z.of_nat (length g) <? max_order) && negb (existsb (hist_eqb g) K))
             (map (fun g => g ++ [x])
                (filter (fun g => Nat.leb (length (seen C h x)) (length g)) (rev (suffixes h)))).

  (** [n] further counts for x after h itself. *)
  Definition add_count (C : counts) (h : history) (x : Z) (n : Z) : counts :=
    fun g y => if (y =? x) && hist_eqb g h then fadd (C g y) (ofZ n) else C g y.

  (** The history after reading code point c in history h, [label] being its label (not positive
      when c is not in the vocabulary). *)
  Definition next_history (K : list history) (h : history) (label : Z) : history :=
    if 0 <? label then longest K (h ++ [label]) else [].

  (** UpdateLMCounts(h, cs, n) with n > 0: each symbol is observed after the current history, with
      n - 1 further counts there; unknown symbols restart at the beginning of a string. *)
  Fixpoint learn (labels : Z -> Z) (K : list history) (C : counts) (h : history) (cs : list Z)
    (n : Z) : list history * counts :=
    match cs with
    | [] => (K, C)
    | c :: t =>
        let x := if 0 <? c then labels c else c in
        if x <? 0 then learn labels K C [0] t n
        else
          let K1 := extended K C h x in
          let C1 := add_count (observe C h x) h x (n - 1) in
          learn labels K1 C1 (next_history K1 h (labels c)) t n
    end.

  (** The label of a code point in the list of the vocabulary's code points, or -1. *)
  Fixpoint label_from (i : Z) (l : list Z) (c : Z) : Z :=
    match l with
    | [] => -1
    | d :: t => if d =? c then i else label_from (i + 1) t c
    end.
End Spec.
