(** Model of the sampling of mozolm/grpc/client_helper.cc in IEEE double arithmetic.
    [ClientModel.get_random_position] computes with exact numbers; here the probabilities, the
    threshold and the running total are the doubles of the code, rounded to nearest (ties to
    even) after every addition, as formalized in Flocq. *)
From Flocq Require Import BinarySingleNaN.
From Coq Require Import String.
From Verif Require Import Base BigramFloatModel.
Close Scope string_scope.
Open Scope list_scope.

(** [<] on doubles (client_helper.cc:60). *)
Definition d_ltb (x y : double) : bool := Bltb x y.

(** The constant 0.0 (client_helper.cc:58). *)
Definition d_zero : double := d_of_Z 0.

(** client_helper.cc:58-64: the loop of GetRandomPosition, [total_prob] is [total]. *)
Fixpoint d_position_loop (thresh total : double) (l : list (double * string)) (pos : nat) : nat :=
  if d_ltb total thresh then
    match l with
    | [] => pos
    | (p, _) :: t => d_position_loop thresh (d_add total p) t (S pos)
    end
  else pos.

(** client_helper.cc:53-67 GetRandomPosition, with the drawn threshold as argument. *)
Definition d_random_position (l : list (double * string)) (thresh : double) : nat :=
  Nat.pred (d_position_loop thresh d_zero l 0).
