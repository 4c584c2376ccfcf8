(** The real numbers as an [ofield], and the correspondence between the probability domain of
    the model and the negative-log domain the code computes in.  This file uses Coq's
    standard real numbers (and so their axioms). *)
From Coq Require Import Reals Lra RealField.
From Verif Require Import Base Field.
Local Open Scope R_scope.

Definition Rle_b (x y : R) : bool := if Rle_dec x y then true else false.
Lemma Rle_b_iff x y : Rle_b x y = true <-> x <= y.
Proof. unfold Rle_b. destruct (Rle_dec x y); split; auto; discriminate. Qed.

Definition R_field : ofield.
Proof.
  refine (OField R 0 1 Rplus Rmult Rminus Ropp Rdiv Rinv Rle_b Rfield _ _ _ _ _ _);
    setoid_rewrite Rle_b_iff; intros; try lra.
  apply Rmult_le_pos; assumption.
Defined.

Lemma fle_R (x y : R) : @fle R_field x y = true <-> x <= y.
Proof. apply Rle_b_iff. Qed.
Lemma flt_R (x y : R) : @flt R_field x y = true <-> x < y.
Proof.
  rewrite flt_not_le, fle_R. lra.
Qed.
Lemma ofZ_R (z : Z) : @ofZ R_field z = IZR z.
Proof.
  unfold ofZ.
  assert (H : forall n : nat, @ofZ R_field (Z.of_nat n) = INR n).
  { induction n as [|n IH]; [reflexivity|].
    rewrite Nat2Z.inj_succ. unfold Z.succ. rewrite ofZ_add, IH, S_INR. reflexivity. }
  destruct z as [|p|p].
  - reflexivity.
  - fold (@ofZ R_field (Z.pos p)). rewrite <- (positive_nat_Z p), H, INR_IZR_INZ. reflexivity.
  - fold (@ofZ R_field (Z.neg p)).
    replace (Z.neg p) with (- Z.pos p)%Z by reflexivity.
    rewrite ofZ_opp, <- (positive_nat_Z p), H, opp_IZR, INR_IZR_INZ. reflexivity.
Qed.
