(** Model of mozolm/utils/ngram_fst_relabel.cc: relabelling an n-gram FST with code points.

    OpenFst is external; what the code uses of it, as documented: a symbol table is a list of
    (label, symbol) pairs with distinct labels and distinct symbols in iteration order;
    RelabelSymbolTable and Relabel replace the labels that have an entry in the mapping and
    keep the others; ArcSort reorders the arcs of each state by input label.
    nisaba::utf8::DecodeSingleUnicodeChar is a function [decode] ([None] = false). *)
From Coq Require Import String.
From Verif Require Import Base.
Local Open Scope Z_scope.

Definition symtab := list (Z * string).

Record rarc (Wt : Type) := mk_rarc { ra_il : Z; ra_ol : Z; ra_w : Wt; ra_next : nat }.
Arguments mk_rarc {Wt}. Arguments ra_il {Wt}. Arguments ra_ol {Wt}. Arguments ra_w {Wt}.
Arguments ra_next {Wt}.

(** A VectorFst: start state, per state its arcs and final weight, the symbol tables. *)
Record rfst (Wt : Type) := mk_rfst {
  rf_start : Z; rf_states : list (list (rarc Wt) * option Wt);
  rf_isyms : option symtab; rf_osyms : option symtab }.
Arguments mk_rfst {Wt}. Arguments rf_start {Wt}. Arguments rf_states {Wt}.
Arguments rf_isyms {Wt}. Arguments rf_osyms {Wt}.

(** ngram_fst_relabel.cc:49 *)
Definition kEpsilonLabel : Z := 0.

(** ngram_fst_relabel.cc:53-61 AllowedWithheldCharLabels: 1..8, 14..31, 127. *)
Definition allowed_withheld : list Z :=
  (map Z.of_nat (seq 1 8) ++ map Z.of_nat (seq 14 18) ++ [127])%list.

Definition inZ (z : Z) (l : list Z) : bool := existsb (Z.eqb z) l.
Definition in_strings (s : string) (l : list string) : bool := existsb (String.eqb s) l.

Section Mapping.
  Variable decode : string -> option Z.
  Variable keep : list string.

  (** ngram_fst_relabel.cc:81-99: the loop over the symbols; returns the mapping of the normal
      symbols and the kept labels, both in order.  [new_labels] is the set of the targets of
      the mapping. *)
  Fixpoint scan_symbols (syms : symtab) : outcome (list (Z * Z) * list Z) :=
    match syms with
    | [] => Ok ([], [])
    | (label, symbol) :: t =>
        if label =? kEpsilonLabel then scan_symbols t                          (* 84 *)
        else if in_strings symbol keep then                                    (* 85-89 *)
          let* (m, k) := scan_symbols t in Ok (m, label :: k)
        else
          match decode symbol with                                             (* 90-94 *)
          | None => Err
          | Some c => let* (m, k) := scan_symbols t in Ok ((label, c) :: m, k) (* 95-97 *)
          end
    end.

  (** ngram_fst_relabel.cc:101-115: the loop over the kept labels; [free] are the allowed
      labels not handed out yet. *)
  Fixpoint relabel_kept (new_labels : list Z) (kept free : list Z) : outcome (list (Z * Z)) :=
    match kept with
    | [] => Ok []
    | k :: t =>
        if inZ k new_labels then
          match free with
          | [] => Err
          | a :: free' => let* m := relabel_kept new_labels t free' in Ok ((k, a) :: m)
          end
        else relabel_kept new_labels t free
    end.

  (** ngram_fst_relabel.cc:72-119 GetCodepointMapping. *)
  Definition codepoint_mapping (syms : symtab) : outcome (list (Z * Z)) :=
    let* (m, kept) := scan_symbols syms in
    let* m2 := relabel_kept (map snd m) kept allowed_withheld in
    Ok (m ++ m2)%list.
End Mapping.

(** OpenFst: the label a label is replaced with. *)
Fixpoint new_label (m : list (Z * Z)) (z : Z) : Z :=
  match m with
  | [] => z
  | (a, b) :: t => if z =? a then b else new_label t z
  end.
(** OpenFst RelabelSymbolTable. *)
Definition relabel_symtab (m : list (Z * Z)) (t : symtab) : symtab :=
  map (fun e => (new_label m (fst e), snd e)) t.

Section Fst.
  Context {Wt : Type}.
  Implicit Types f : rfst Wt.

  (** ngram_fst_relabel.cc:122-133 CheckProperties: kAcceptor, kIDeterministic,
      kILabelSorted. *)
  Definition arcs_acceptor (l : list (rarc Wt)) : bool :=
    forallb (fun a => ra_il a =? ra_ol a) l.
  Fixpoint nodupZ (l : list Z) : bool :=
    match l with [] => true | x :: t => negb (inZ x t) && nodupZ t end.
  Definition arcs_deterministic (l : list (rarc Wt)) : bool := nodupZ (map ra_il l).
  Fixpoint sortedZ (l : list Z) : bool :=
    match l with
    | [] => true
    | x :: t => (match t with y :: _ => x <=? y | [] => true end) && sortedZ t
    end.
  Definition arcs_sorted (l : list (rarc Wt)) : bool := sortedZ (map ra_il l).
  Definition check_properties f : bool :=
    forallb (fun s => arcs_acceptor (fst s)) (rf_states f) &&
    forallb (fun s => arcs_deterministic (fst s)) (rf_states f) &&
    forallb (fun s => arcs_sorted (fst s)) (rf_states f).

  Definition relabel_arc (m : list (Z * Z)) (a : rarc Wt) : rarc Wt :=
    mk_rarc (new_label m (ra_il a)) (new_label m (ra_ol a)) (ra_w a) (ra_next a).

  (** Any sorting of arcs by input label. *)
  Variable arcsort : list (rarc Wt) -> list (rarc Wt).
  Variable decode : string -> option Z.

  (** ngram_fst_relabel.cc:137-159 RelabelWithCodepoints.  Relabel can only fail on kNoLabel
      targets, which the mapping never contains (code points and allowed labels). *)
  Definition relabel_with_codepoints (keep : list string) f : outcome (rfst Wt) :=
    if negb (check_properties f) then Err                                      (* 139 *)
    else
      match rf_isyms f with
      | None => Err                                                            (* 144 *)
      | Some syms =>
          let* m := codepoint_mapping decode keep syms in                      (* 145-146 *)
          let syms' := relabel_symtab m syms in                                (* 148-151 *)
          Ok (mk_rfst (rf_start f)
                (map (fun s => (arcsort (map (relabel_arc m) (fst s)), snd s)) (rf_states f))
                (Some syms') (Some syms'))                                     (* 153-157 *)
      end.
End Fst.
