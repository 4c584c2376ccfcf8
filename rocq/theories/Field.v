(** Exact arithmetic for probabilities: an ordered field, generic in its carrier.

    The code of /repo computes with [double] negative log probabilities
    (mozolm/models/*.cc, through sfst::NegLogSum and friends).  The model keeps the
    probability [p = exp(-cost)] instead; [Field.v] fixes what is assumed about
    those numbers.  Instances: [Qc_field] (computable) here, [R_field] in FieldR.v,
    where the correspondence with exp/ln is proved. *)
From Verif Require Import Base.
From Coq Require Import Field InitialRing Ring_theory Field_theory.
From Coq Require Import QArith Qcanon.
Close Scope Q_scope.

Record ofield : Type := OField {
  car : Type;
  f0 : car;
  f1 : car;
  fadd : car -> car -> car;
  fmul : car -> car -> car;
  fsub : car -> car -> car;
  fopp : car -> car;
  fdiv : car -> car -> car;
  finv : car -> car;
  fle : car -> car -> bool;
  f_th : field_theory f0 f1 fadd fmul fsub fopp fdiv finv (@eq car);
  fle_refl_ : forall x, fle x x = true;
  fle_trans_ : forall x y z, fle x y = true -> fle y z = true -> fle x z = true;
  fle_antisym_ : forall x y, fle x y = true -> fle y x = true -> x = y;
  fle_total_ : forall x y, fle x y = true \/ fle y x = true;
  fle_add_ : forall x y z, fle x y = true -> fle (fadd x z) (fadd y z) = true;
  fle_mul_ : forall x y, fle f0 x = true -> fle f0 y = true -> fle f0 (fmul x y) = true
}.

Arguments f0 {_}.
Arguments f1 {_}.
Arguments fadd {_} _ _.
Arguments fmul {_} _ _.
Arguments fsub {_} _ _.
Arguments fopp {_} _.
Arguments fdiv {_} _ _.
Arguments finv {_} _.
Arguments fle {_} _ _.

Declare Scope F_scope.
Delimit Scope F_scope with F.
Bind Scope F_scope with car.
Notation "0" := f0 : F_scope.
Notation "1" := f1 : F_scope.
Infix "+" := fadd : F_scope.
Infix "*" := fmul : F_scope.
Infix "-" := fsub : F_scope.
Infix "/" := fdiv : F_scope.
Infix "<=?" := fle : F_scope.
Definition flt {F : ofield} (x y : car F) : bool := negb (fle y x).
Infix "<?" := flt : F_scope.
Definition feqb {F : ofield} (x y : car F) : bool := fle x y && fle y x.
Infix "=?" := feqb : F_scope.
Notation "x <= y" := (fle x y = true) : F_scope.
Notation "x < y" := (flt x y = true) : F_scope.

(** The integers inside the field. *)
Definition ofZ {F : ofield} (z : Z) : car F := gen_phiZ f0 f1 fadd fmul fopp z.

(** Sum of a list. *)
Definition fsum {F : ofield} (l : list (car F)) : car F := fold_right fadd f0 l.
(** Product of a list. *)
Definition fprod {F : ofield} (l : list (car F)) : car F := fold_right fmul f1 l.

Section Lemmas.
Context {F : ofield}.
Local Open Scope F_scope.
Implicit Types x y z : car F.

Add Field Ffield : (f_th F).

Lemma Feq_dec x y : {x = y} + {x <> y}.
Proof.
  destruct (fle x y) eqn:E1; destruct (fle y x) eqn:E2.
  - left; apply fle_antisym_; assumption.
  - right; intros ->. rewrite fle_refl_ in E2; discriminate.
  - right; intros ->. rewrite fle_refl_ in E1; discriminate.
  - right; intros ->. rewrite fle_refl_ in E1; discriminate.
Qed.

Lemma feqb_eq x y : (x =? y) = true <-> x = y.
Proof.
  unfold feqb; rewrite andb_true_iff; split.
  - intros [H1 H2]; apply fle_antisym_; assumption.
  - intros ->; rewrite fle_refl_; auto.
Qed.

Lemma feqb_neq x y : (x =? y) = false <-> x <> y.
Proof.
  rewrite <- not_true_iff_false, feqb_eq; reflexivity.
Qed.

Lemma feqb_refl x : (x =? x) = true.
Proof. apply feqb_eq; reflexivity. Qed.

Lemma fle_refl x : x <= x.
Proof. apply fle_refl_. Qed.
Lemma fle_trans x y z : x <= y -> y <= z -> x <= z.
Proof. apply fle_trans_. Qed.
Lemma fle_antisym x y : x <= y -> y <= x -> x = y.
Proof. apply fle_antisym_. Qed.

Lemma flt_iff x y : x < y <-> x <= y /\ x <> y.
Proof.
  unfold flt; rewrite negb_true_iff; split.
  - intros H; split.
    + destruct (fle_total_ F x y) as [E|E]; congruence.
    + intros ->; rewrite fle_refl_ in H; discriminate.
  - intros [H1 H2]. destruct (fle y x) eqn:E; auto.
    elim H2; apply fle_antisym; auto.
Qed.

Lemma flt_not_le x y : x < y <-> ~ y <= x.
Proof. unfold flt; rewrite negb_true_iff, not_true_iff_false; reflexivity. Qed.

Lemma flt_le x y : x < y -> x <= y.
Proof. rewrite flt_iff; tauto. Qed.

Lemma flt_neq x y : x < y -> x <> y.
Proof. rewrite flt_iff; tauto. Qed.

Lemma flt_irrefl x : ~ x < x.
Proof. rewrite flt_iff; tauto. Qed.

Lemma fle_lt_eq x y : x <= y -> x < y \/ x = y.
Proof. intros H; destruct (Feq_dec x y); auto. left; apply flt_iff; auto. Qed.

Lemma flt_le_trans x y z : x < y -> y <= z -> x < z.
Proof.
  rewrite !flt_iff; intros [H1 H2] H3; split; [eapply fle_trans; eauto|].
  intros ->; apply H2; apply fle_antisym; auto.
Qed.

Lemma fle_lt_trans x y z : x <= y -> y < z -> x < z.
Proof.
  rewrite !flt_iff; intros H1 [H2 H3]; split; [eapply fle_trans; eauto|].
  intros ->; apply H3; apply fle_antisym; auto.
Qed.

Lemma flt_trans x y z : x < y -> y < z -> x < z.
Proof. intros; eapply flt_le_trans; eauto using flt_le. Qed.

Lemma fle_add_r x y z : x <= y -> x + z <= y + z.
Proof. apply fle_add_. Qed.

Lemma fle_add_l x y z : x <= y -> z + x <= z + y.
Proof.
  intros H. replace (z + x) with (x + z) by ring. replace (z + y) with (y + z) by ring.
  apply fle_add_r; auto.
Qed.

Lemma fle_add x y x' y' : x <= y -> x' <= y' -> x + x' <= y + y'.
Proof. intros; eapply fle_trans; [apply fle_add_r | apply fle_add_l]; eauto. Qed.

Lemma fle_sub x y : x <= y <-> 0 <= y - x.
Proof.
  split; intros H.
  - apply (fle_add_r _ _ (fopp x)) in H.
    replace (x + fopp x) with (0 : car F) in H by ring.
    replace (y - x) with (y + fopp x) by ring; exact H.
  - apply (fle_add_r _ _ x) in H.
    replace (0 + x) with x in H by ring.
    replace (y - x + x) with y in H by ring; exact H.
Qed.

Lemma flt_sub x y : x < y <-> 0 < y - x.
Proof.
  rewrite !flt_iff, fle_sub. split; intros [H1 H2]; split; auto; intros E; apply H2.
  - replace y with (y - x + x) by ring. rewrite <- E; ring.
  - rewrite E; ring.
Qed.

Lemma flt_add_r x y z : x < y -> x + z < y + z.
Proof.
  rewrite (flt_sub x y), (flt_sub (x + z)).
  replace (y + z - (x + z)) with (y - x) by ring; auto.
Qed.

Lemma fadd_nonneg x y : 0 <= x -> 0 <= y -> 0 <= x + y.
Proof. intros. replace (0 : car F) with (0 + 0 : car F) by ring. apply fle_add; auto. Qed.

Lemma fadd_pos_l x y : 0 < x -> 0 <= y -> 0 < x + y.
Proof.
  intros H1 H2. eapply flt_le_trans; [exact H1|].
  rewrite fle_sub. replace (x + y - x) with y by ring; auto.
Qed.

Lemma fadd_pos_r x y : 0 <= x -> 0 < y -> 0 < x + y.
Proof. intros. replace (x + y) with (y + x) by ring. apply fadd_pos_l; auto. Qed.

Lemma fmul_nonneg x y : 0 <= x -> 0 <= y -> 0 <= x * y.
Proof. apply fle_mul_. Qed.

Lemma fmul_zero x y : x * y = 0 -> x = 0 \/ y = 0.
Proof.
  intros H. destruct (Feq_dec x 0) as [E|E]; auto. right.
  replace y with (finv x * (x * y)) by (field; auto). rewrite H; ring.
Qed.

Lemma fmul_pos x y : 0 < x -> 0 < y -> 0 < x * y.
Proof.
  rewrite !flt_iff; intros [H1 H2] [H3 H4]; split; [apply fmul_nonneg; auto|].
  intros E; symmetry in E; apply fmul_zero in E; destruct E; congruence.
Qed.

Lemma f1_neq_0 : (1 : car F) <> 0.
Proof. exact (F_1_neq_0 (f_th F)). Qed.

Lemma f1_pos : (0 : car F) < 1.
Proof.
  apply flt_iff; split; [|intros E; apply f1_neq_0; auto].
  destruct (fle_total_ F 0 1) as [H|H]; auto.
  assert (H' : 0 <= fopp (1 : car F)).
  { apply (fle_add_r _ _ (fopp 1)) in H.
    replace (1 + fopp 1) with (0 : car F) in H by ring.
    replace (0 + fopp 1) with (fopp (1 : car F)) in H by ring; auto. }
  pose proof (fmul_nonneg _ _ H' H') as H2.
  replace (fopp 1 * fopp 1) with (1 : car F) in H2 by ring; auto.
Qed.

Lemma finv_pos x : 0 < x -> 0 < finv x.
Proof.
  intros H. assert (Hx : x <> 0) by (intros ->; apply (flt_irrefl _ H)).
  apply flt_iff; split.
  - destruct (fle_total_ F 0 (finv x)) as [E|E]; auto.
    assert (E2 : 0 <= fopp (finv x)).
    { apply fle_sub in E. replace (0 - finv x) with (fopp (finv x)) in E by ring; auto. }
    pose proof (fmul_nonneg _ _ (flt_le _ _ H) E2) as E3.
    replace (x * fopp (finv x)) with (fopp (1 : car F)) in E3 by (field; auto).
    exfalso. pose proof f1_pos as P. apply flt_not_le in P; apply P.
    apply fle_sub. replace (0 - 1) with (fopp (1 : car F)) by ring; auto.
  - intros E. apply f1_neq_0. replace (1 : car F) with (x * finv x) by (field; auto).
    rewrite <- E; ring.
Qed.

Lemma fdiv_pos x y : 0 < x -> 0 < y -> 0 < x / y.
Proof.
  intros. assert (y <> 0) by (intros ->; eapply flt_irrefl; eauto).
  replace (x / y) with (x * finv y) by (field; auto).
  apply fmul_pos; auto using finv_pos.
Qed.

Lemma fdiv_nonneg x y : 0 <= x -> 0 < y -> 0 <= x / y.
Proof.
  intros. assert (y <> 0) by (intros ->; eapply flt_irrefl; eauto).
  replace (x / y) with (x * finv y) by (field; auto).
  apply fmul_nonneg; auto using finv_pos, flt_le.
Qed.

Lemma fpos_neq x : 0 < x -> x <> 0.
Proof. intros H ->; apply (flt_irrefl _ H). Qed.

Lemma fmul_le_r x y z : 0 <= z -> x <= y -> x * z <= y * z.
Proof.
  intros Hz H. apply fle_sub. replace (y * z - x * z) with ((y - x) * z) by ring.
  apply fmul_nonneg; auto. apply fle_sub in H; auto.
Qed.

Lemma fmul_lt_r x y z : 0 < z -> x < y -> x * z < y * z.
Proof.
  intros Hz H. apply flt_sub. replace (y * z - x * z) with ((y - x) * z) by ring.
  apply fmul_pos; auto. apply flt_sub in H; auto.
Qed.

(** Integers. *)
Lemma ofZ_morph :
  ring_morph f0 f1 (@fadd F) fmul fsub fopp eq
             0%Z 1%Z Z.add Z.mul Z.sub Z.opp Zeq_bool ofZ.
Proof.
  apply (gen_phiZ_morph (Eqsth (car F)) (Eq_ext fadd fmul fopp) (F_R (f_th F))).
Qed.

Lemma ofZ_0 : @ofZ F 0%Z = 0.  Proof. reflexivity. Qed.
Lemma ofZ_1 : @ofZ F 1%Z = 1.  Proof. reflexivity. Qed.
Lemma ofZ_add a b : @ofZ F (a + b)%Z = ofZ a + ofZ b.
Proof. apply (morph_add ofZ_morph). Qed.
Lemma ofZ_mul a b : @ofZ F (a * b)%Z = ofZ a * ofZ b.
Proof. apply (morph_mul ofZ_morph). Qed.
Lemma ofZ_sub a b : @ofZ F (a - b)%Z = ofZ a - ofZ b.
Proof. apply (morph_sub ofZ_morph). Qed.
Lemma ofZ_opp a : @ofZ F (- a)%Z = fopp (ofZ a).
Proof. apply (morph_opp ofZ_morph). Qed.

Lemma ofZ_nonneg a : (0 <= a)%Z -> 0 <= @ofZ F a.
Proof.
  intros H. rewrite <- (Z2Nat.id a H). induction (Z.to_nat a) as [|n IH].
  - apply fle_refl.
  - rewrite Nat2Z.inj_succ, <- Z.add_1_r, ofZ_add.
    apply fadd_nonneg; auto. apply flt_le, f1_pos.
Qed.

Lemma ofZ_pos a : (0 < a)%Z -> 0 < @ofZ F a.
Proof.
  intros H. replace a with ((a - 1) + 1)%Z by lia. rewrite ofZ_add.
  apply fadd_pos_r; [apply ofZ_nonneg; lia | apply f1_pos].
Qed.

Lemma ofZ_neq0 a : (a <> 0)%Z -> @ofZ F a <> 0.
Proof.
  intros H. destruct (Z_lt_le_dec 0 a) as [E|E].
  - apply fpos_neq, ofZ_pos; auto.
  - intros E2. assert (P : 0 < @ofZ F (- a)) by (apply ofZ_pos; lia).
    rewrite ofZ_opp, E2 in P. apply fpos_neq in P. apply P; ring.
Qed.

Lemma ofZ_inj a b : @ofZ F a = ofZ b -> a = b.
Proof.
  intros H. destruct (Z.eq_dec a b) as [|N]; auto. exfalso.
  apply (ofZ_neq0 (a - b)); [lia|]. rewrite ofZ_sub, H; ring.
Qed.

Lemma ofZ_le a b : (a <= b)%Z -> @ofZ F a <= ofZ b.
Proof. intros. apply fle_sub. rewrite <- ofZ_sub. apply ofZ_nonneg; lia. Qed.

Lemma ofZ_lt a b : (a < b)%Z -> @ofZ F a < ofZ b.
Proof. intros. apply flt_sub. rewrite <- ofZ_sub. apply ofZ_pos; lia. Qed.

Lemma ofZ_sum l : @ofZ F (fold_right Z.add 0%Z l) = fsum (map ofZ l).
Proof. induction l; simpl; auto. rewrite ofZ_add, IHl; auto. Qed.

(** Sums. *)
Lemma fsum_nil : fsum [] = (0 : car F). Proof. reflexivity. Qed.
Lemma fsum_cons x l : fsum (x :: l) = x + fsum l. Proof. reflexivity. Qed.
Lemma fsum_app l l' : fsum (l ++ l') = fsum l + (fsum l' : car F).
Proof. induction l as [|x l IH]; simpl; [ring|]. rewrite IH; ring. Qed.

Lemma fsum_perm l l' : Permutation l l' -> fsum l = (fsum l' : car F).
Proof.
  induction 1; simpl; auto; [congruence|ring|congruence].
Qed.

Lemma fsum_map_mul A (f : A -> car F) c l :
  fsum (map (fun a => c * f a) l) = c * fsum (map f l).
Proof. induction l as [|x l IH]; simpl; [ring|]. rewrite IH; ring. Qed.

Lemma fsum_map_mul_r A (f : A -> car F) c l :
  fsum (map (fun a => f a * c) l) = fsum (map f l) * c.
Proof. induction l as [|x l IH]; simpl; [ring|]. rewrite IH; ring. Qed.

Lemma fsum_map_add A (f g : A -> car F) l :
  fsum (map (fun a => f a + g a) l) = fsum (map f l) + fsum (map g l).
Proof. induction l as [|x l IH]; simpl; [ring|]. rewrite IH; ring. Qed.

Lemma fsum_map_div A (f : A -> car F) c l :
  c <> 0 -> fsum (map (fun a => f a / c) l) = fsum (map f l) / c.
Proof.
  intros Hc. induction l as [|x l IH]; simpl; [field; auto|]. rewrite IH; field; auto.
Qed.

Lemma fsum_map_ext A (f g : A -> car F) l :
  (forall a, In a l -> f a = g a) -> fsum (map f l) = fsum (map g l).
Proof. intros H; f_equal; apply map_ext_in; auto. Qed.

Lemma fsum_map_zero A l : fsum (map (fun _ : A => (0 : car F)) l) = 0.
Proof. induction l as [|x l IH]; simpl; auto. rewrite IH; ring. Qed.

Lemma fsum_nonneg l : (forall x, In x l -> 0 <= x) -> 0 <= (fsum l : car F).
Proof.
  induction l as [|x l IH]; simpl; intros H; [apply fle_refl|].
  apply fadd_nonneg; auto.
Qed.

Lemma fsum_ge_elem l x : (forall y, In y l -> 0 <= y) -> In x l -> x <= fsum l.
Proof.
  induction l as [|y l IH]; simpl; intros H Hin; [contradiction|].
  assert (Hl : 0 <= fsum l) by (apply fsum_nonneg; auto).
  destruct Hin as [->|Hin].
  - apply fle_sub. replace (x + fsum l - x) with (fsum l) by ring; auto.
  - apply fle_sub. replace (y + fsum l - x) with (y + (fsum l - x)) by ring.
    apply fadd_nonneg; auto. rewrite <- fle_sub; apply IH; auto.
Qed.

Lemma fsum_pos l x :
  (forall y, In y l -> 0 <= y) -> In x l -> 0 < x -> 0 < fsum l.
Proof. intros H Hin Hx. eapply flt_le_trans; [exact Hx|]. apply fsum_ge_elem; auto. Qed.

Lemma fsum_pos_all l : l <> [] -> (forall y, In y l -> 0 < y) -> 0 < (fsum l : car F).
Proof.
  intros Hn H. destruct l as [|x l]; [congruence|].
  apply (fsum_pos _ x); [|simpl; auto|apply H; simpl; auto].
  intros y Hy. apply flt_le, H; auto.
Qed.

Lemma fsum_zero_all l x : (forall y, In y l -> 0 <= y) -> fsum l = 0 -> In x l -> x = 0.
Proof.
  intros H E Hin. apply fle_antisym.
  - rewrite <- E; apply fsum_ge_elem; auto.
  - auto.
Qed.

Lemma fprod_app l l' : fprod (l ++ l') = fprod l * (fprod l' : car F).
Proof. induction l as [|x l IH]; simpl; [ring|]. rewrite IH; ring. Qed.

Lemma fprod_pos l : (forall x, In x l -> 0 < x) -> 0 < (fprod l : car F).
Proof.
  induction l as [|x l IH]; simpl; intros H; [apply f1_pos|]. apply fmul_pos; auto.
Qed.

Lemma fprod_nonneg l : (forall x, In x l -> 0 <= x) -> 0 <= (fprod l : car F).
Proof.
  induction l as [|x l IH]; simpl; intros H; [apply flt_le, f1_pos|]. apply fmul_nonneg; auto.
Qed.

Lemma fdiv_self x : x <> 0 -> x / x = 1.
Proof. intros; field; auto. Qed.

Lemma fdiv_1 (x : car F) : x / 1 = x.
Proof. field. apply f1_neq_0. Qed.
Lemma fdiv_mul x y : y <> 0 -> x / y * y = x.
Proof. intros; field; auto. Qed.

Lemma fdiv_cross x y z : z <> 0 -> x / z * y = y / z * x.
Proof. intros; field; auto. Qed.
Lemma fdiv_mul_swap x y z : z <> 0 -> x / z * y = (x * y) / z.
Proof. intros; field; auto. Qed.
Lemma fdiv_div x y z : z <> 0 -> y <> 0 -> (x / z) / (y / z) = x / y.
Proof. intros; field; auto. Qed.
Lemma fdiv_zero x y : x / y = 0 -> y <> 0 -> x = 0.
Proof. intros H Hy. rewrite <- (fdiv_mul x y Hy), H. ring. Qed.

Lemma fdiv_le_1 x y : 0 < y -> x <= y -> x / y <= 1.
Proof.
  intros Hy H. assert (y <> 0) by (apply fpos_neq; auto).
  replace (1 : car F) with (y / y) by (field; auto).
  replace (x / y) with (x * finv y) by (field; auto).
  replace (y / y) with (y * finv y) by (field; auto).
  apply fmul_le_r; auto. apply flt_le, finv_pos; auto.
Qed.

End Lemmas.

(** * The computable instance: reduced rationals

    Like the standard library's [Qc], but the canonicity proof is a boolean equation that
    evaluates to [eq_refl] on closed terms, so that closed computations can be compared
    with [reflexivity]. *)
Definition Q_is_reduced (r : Q) : bool := (Z.gcd (Qnum r) (Zpos (Qden r)) =? 1)%Z.

Record QQ : Type := MkQQ { qval : Q; qred_ok : Q_is_reduced qval = true }.

Definition QQ_zero : QQ := {| qval := 0%Q; qred_ok := eq_refl |}.

Definition mkQQ (r : Q) : QQ :=
  let r' := Qred r in
  match Q_is_reduced r' as b return Q_is_reduced r' = b -> QQ with
  | true => fun e => {| qval := r'; qred_ok := e |}
  | false => fun _ => QQ_zero
  end eq_refl.

Lemma Qred_reduced r : Q_is_reduced (Qred r) = true.
Proof.
  unfold Q_is_reduced. apply Z.eqb_eq. apply Qred_identity2. apply Qred_involutive.
Qed.

Lemma qval_mkQQ r : qval (mkQQ r) = Qred r.
Proof.
  unfold mkQQ. generalize (eq_refl (Q_is_reduced (Qred r))).
  pattern (Q_is_reduced (Qred r)) at 2 3.
  rewrite Qred_reduced. reflexivity.
Qed.

Lemma qval_eq x y : (qval x == qval y)%Q -> x = y.
Proof.
  destruct x as [x Hx], y as [y Hy]; simpl; intros H.
  assert (E : x = y).
  { unfold Q_is_reduced in Hx, Hy. apply Z.eqb_eq in Hx; apply Z.eqb_eq in Hy.
    rewrite <- (Qred_identity x Hx), <- (Qred_identity y Hy). apply Qred_complete; auto. }
  subst y. f_equal. apply Eqdep_dec.UIP_dec. apply bool_dec.
Qed.

Definition QQ_add x y := mkQQ (qval x + qval y).
Definition QQ_mul x y := mkQQ (qval x * qval y).
Definition QQ_sub x y := mkQQ (qval x - qval y).
Definition QQ_opp x := mkQQ (- qval x).
Definition QQ_div x y := mkQQ (qval x / qval y).
Definition QQ_inv x := mkQQ (/ qval x).
Definition QQ_one : QQ := {| qval := 1%Q; qred_ok := eq_refl |}.
Definition QQ_leb x y := Qle_bool (qval x) (qval y).

Lemma qval_mk r : (qval (mkQQ r) == r)%Q.
Proof. rewrite qval_mkQQ. apply Qred_correct. Qed.

Lemma QQ_ft : field_theory QQ_zero QQ_one QQ_add QQ_mul QQ_sub QQ_opp QQ_div QQ_inv eq.
Proof.
  constructor; [constructor| | |]; intros;
    try (apply qval_eq; unfold QQ_add, QQ_mul, QQ_sub, QQ_opp, QQ_div, QQ_inv;
         rewrite ?qval_mk; simpl; ring).
  - discriminate.
  - apply qval_eq; unfold QQ_mul, QQ_div, QQ_inv; rewrite ?qval_mk. reflexivity.
  - apply qval_eq; unfold QQ_mul, QQ_inv; rewrite ?qval_mk; simpl.
    rewrite Qmult_comm. apply Qmult_inv_r. intros E. apply H. apply qval_eq; exact E.
Qed.

Lemma QQ_le_refl x : QQ_leb x x = true.
Proof. apply Qle_bool_iff, Qle_refl. Qed.
Lemma QQ_le_trans x y z : QQ_leb x y = true -> QQ_leb y z = true -> QQ_leb x z = true.
Proof. unfold QQ_leb; rewrite !Qle_bool_iff; apply Qle_trans. Qed.
Lemma QQ_le_antisym x y : QQ_leb x y = true -> QQ_leb y x = true -> x = y.
Proof. unfold QQ_leb; rewrite !Qle_bool_iff; intros H1 H2; apply qval_eq, Qle_antisym; auto. Qed.
Lemma QQ_le_total x y : QQ_leb x y = true \/ QQ_leb y x = true.
Proof.
  unfold QQ_leb; rewrite !Qle_bool_iff. destruct (Qlt_le_dec (qval x) (qval y)) as [H|H]; auto.
  left; apply Qlt_le_weak; auto.
Qed.
Lemma QQ_le_add x y z : QQ_leb x y = true -> QQ_leb (QQ_add x z) (QQ_add y z) = true.
Proof.
  unfold QQ_leb; rewrite !Qle_bool_iff; intros H. unfold QQ_add; rewrite !qval_mk.
  apply Qplus_le_compat; auto. apply Qle_refl.
Qed.
Lemma QQ_le_mul x y :
  QQ_leb QQ_zero x = true -> QQ_leb QQ_zero y = true -> QQ_leb QQ_zero (QQ_mul x y) = true.
Proof.
  unfold QQ_leb; rewrite !Qle_bool_iff; intros H1 H2. unfold QQ_mul; rewrite !qval_mk.
  simpl in *. apply Qmult_le_0_compat; auto.
Qed.

Definition Qc_field : ofield :=
  {| car := QQ; f0 := QQ_zero; f1 := QQ_one; fadd := QQ_add; fmul := QQ_mul;
     fsub := QQ_sub; fopp := QQ_opp; fdiv := QQ_div; finv := QQ_inv;
     fle := QQ_leb; f_th := QQ_ft;
     fle_refl_ := QQ_le_refl; fle_trans_ := QQ_le_trans; fle_antisym_ := QQ_le_antisym;
     fle_total_ := QQ_le_total; fle_add_ := QQ_le_add; fle_mul_ := QQ_le_mul |}.

(** Rational literal [n/d]. *)
Definition q (n : Z) (d : positive) : car Qc_field := mkQQ (n # d).
