(** Specification vocabulary for C77: the back-off path of a history, from the table of counts of
    the reference description of PPM (PpmSpec.v). *)
From Coq Require Import Reals.
From Verif Require Import Base Field FieldR PpmRoundModel PpmRoundSpec.
From Verif Require PpmSpec.
Local Open Scope R_scope.

Section Path.
  Variable V : nat.
  Variable C : @PpmSpec.counts R_field.
  (** What has been counted after the history [h]. *)
  Definition counted_after (h : PpmSpec.history) : true_counts :=
    TrueCounts (map (fun x => if @flt R_field f0 (C h x) then Some (C h x : R) else None) (PpmSpec.symbols V))
      (PpmSpec.total V C h).
  (** The histories one backs off to, from [h] on, without those after which nothing was counted. *)
  Fixpoint back_off_path (h : PpmSpec.history) : list true_counts :=
    match h with
    | [] => [counted_after []]
    | _ :: h' => if @feqb R_field (PpmSpec.total V C h) f0 then back_off_path h'
                 else counted_after h :: back_off_path h'
    end.
End Path.
