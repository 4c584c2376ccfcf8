(** Shared vocabulary of the model: outcomes of C++ calls, small list utilities.
    No source file of /repo corresponds to this file: it fixes the conventions
    described in DESIGN.md. *)
From Coq Require Export List Arith ZArith Lia Bool Permutation Sorted.
From Coq Require Export ZifyBool ZifyNat ZifyN.
Export ListNotations.

(** What a call of a C++ function can do.  [Err] is a returned non-OK
    absl::Status (or [false] where the function returns bool); [Crash] an
    uncaught exception or failed CHECK; [UB] undefined behaviour, i.e. an
    out-of-bounds access or a signed overflow. *)
Inductive outcome (A : Type) : Type :=
| Ok (a : A)
| Err
| Crash
| UB.
Arguments Ok {A} _.
Arguments Err {A}.
Arguments Crash {A}.
Arguments UB {A}.

Definition bind {A B} (x : outcome A) (f : A -> outcome B) : outcome B :=
  match x with
  | Ok a => f a
  | Err => Err
  | Crash => Crash
  | UB => UB
  end.

Declare Scope outcome_scope.
Delimit Scope outcome_scope with outcome.
Notation "'let*' x ':=' e1 'in' e2" := (bind e1 (fun x => e2))
  (at level 200, x pattern, e1 at level 100, e2 at level 200, right associativity)
  : outcome_scope.
Open Scope outcome_scope.

(** Reading [v[i]] of a std::vector with operator[] and an [int] or [size_t] index:
    undefined when out of range. *)
Definition vget {A} (v : list A) (i : nat) : outcome A :=
  match nth_error v i with
  | Some a => Ok a
  | None => UB
  end.

Definition vgetZ {A} (v : list A) (i : Z) : outcome A :=
  if (i <? 0)%Z then UB else vget v (Z.to_nat i).

(** [v[i] = a]: replace one element; indices out of range leave the list alone
    (callers that model C++ writes check the range first, see [vset]). *)
Fixpoint upd {A} (v : list A) (i : nat) (a : A) : list A :=
  match v, i with
  | [], _ => []
  | _ :: t, O => a :: t
  | x :: t, S j => x :: upd t j a
  end.

Definition vset {A} (v : list A) (i : nat) (a : A) : outcome (list A) :=
  if i <? length v then Ok (upd v i a) else UB.

Lemma bind_Ok A B (x : outcome A) (f : A -> outcome B) b :
  bind x f = Ok b -> exists a, x = Ok a /\ f a = Ok b.
Proof. destruct x; simpl; intros; try discriminate; eauto. Qed.

Lemma upd_length A (v : list A) i a : length (upd v i a) = length v.
Proof. revert i; induction v as [|x t IH]; intros [|i]; simpl; auto. Qed.

Lemma nth_error_upd_eq A (v : list A) i a :
  i < length v -> nth_error (upd v i a) i = Some a.
Proof.
  revert i; induction v as [|x t IH]; intros [|i]; simpl; intros; try lia; auto.
  apply IH; lia.
Qed.

Lemma nth_error_upd_neq A (v : list A) i j a :
  i <> j -> nth_error (upd v i a) j = nth_error v j.
Proof.
  revert i j; induction v as [|x t IH]; intros [|i] [|j]; simpl; intros; try lia; auto.
Qed.

Lemma nth_error_upd A (v : list A) i j a :
  nth_error (upd v i a) j =
  if (i =? j) && (i <? length v) then Some a else nth_error v j.
Proof.
  destruct (Nat.eqb_spec i j) as [->|Hne]; simpl.
  - destruct (Nat.ltb_spec j (length v)) as [Hlt|Hge].
    + apply nth_error_upd_eq; exact Hlt.
    + transitivity (@None A); [|symmetry]; apply nth_error_None;
        rewrite ?upd_length; lia.
  - apply nth_error_upd_neq; exact Hne.
Qed.

Lemma upd_overflow A (v : list A) i a : length v <= i -> upd v i a = v.
Proof.
  revert i; induction v as [|x t IH]; intros [|i]; simpl; intros; try lia; auto.
  f_equal; apply IH; lia.
Qed.

Lemma upd_app_l A (v w : list A) i a :
  i < length v -> upd (v ++ w) i a = upd v i a ++ w.
Proof.
  revert i; induction v as [|x t IH]; intros [|i]; simpl; intros; try lia; auto.
  f_equal; apply IH; lia.
Qed.

Lemma vget_Ok A (v : list A) i a : vget v i = Ok a <-> nth_error v i = Some a.
Proof. unfold vget; destruct (nth_error v i); split; congruence. Qed.

Lemma nth_error_Some_lt A (v : list A) i a : nth_error v i = Some a -> i < length v.
Proof. intros H; apply nth_error_Some; congruence. Qed.

Lemma Forall2_length {A B} (R : A -> B -> Prop) l l' : Forall2 R l l' -> length l = length l'.
Proof. induction 1; simpl; congruence. Qed.

(** Close a computation [a = b] on closed terms by the kernel's virtual machine, without reading
    the normal forms back. *)
Ltac vmr := match goal with |- ?a = ?b => exact (@eq_refl _ b <: a = b) end.

(** Existence of a result, by computation. *)
Definition is_ok {A} (x : outcome A) : bool := match x with Ok _ => true | _ => false end.
Lemma is_ok_ex {A} (x : outcome A) : is_ok x = true -> exists a, x = Ok a.
Proof. destruct x; simpl; try discriminate; eauto. Qed.
