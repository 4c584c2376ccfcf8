(** Proofs about LmModel.v. *)
From Coq Require Import Field.
From Verif Require Import Base Field LmModel.

Section Ctx.
  Context {M : Type}.
  Variable next : M -> Z -> Z -> outcome (Z * M).
  Variable start : Z.

  Lemma context_loop_app m s x y :
    context_loop next start m s (x ++ y) =
    (let* (s', m') := context_loop next start m s x in context_loop next start m' s' y).
  Proof.
    revert m s; induction x as [|c x IH]; intros m s; simpl; auto.
    destruct (next m s c) as [[s' m']| | |]; simpl; auto.
  Qed.

  Lemma context_loop_nonneg m s x s' m' :
    (0 <= start)%Z -> (0 <= s)%Z ->
    context_loop next start m s x = Ok (s', m') -> (0 <= s')%Z.
  Proof.
    intros Hs. revert m s; induction x as [|c x IH]; intros m s Hn; simpl.
    - intros [= <- <-]; auto.
    - destruct (next m s c) as [[s1 m1]| | |]; simpl; try discriminate.
      apply IH. destruct (Z.ltb_spec s1 0); lia.
  Qed.

  Lemma context_state_app m s x y :
    (0 <= start)%Z ->
    context_state next start m (x ++ y) s =
    (let* (s', m') := context_state next start m x s in context_state next start m' y s').
  Proof.
    intros Hs. unfold context_state. rewrite context_loop_app.
    destruct (context_loop next start m _ x) as [[s' m']| | |] eqn:E; simpl; auto.
    apply context_loop_nonneg in E; auto; [|destruct (Z.ltb_spec s 0); lia].
    destruct (Z.ltb_spec s' 0); auto; lia.
  Qed.

  Lemma context_state_nonneg m s x s' m' :
    (0 <= start)%Z -> context_state next start m x s = Ok (s', m') -> (0 <= s')%Z.
  Proof.
    unfold context_state; intros Hs. apply context_loop_nonneg; auto.
    destruct (Z.ltb_spec s 0); lia.
  Qed.
End Ctx.

Section Top.
  Context {F : ofield} {S : Type}.
  Local Open Scope F_scope.
  Let desc (a b : car F * S) : Prop := fst b <= fst a.

  Lemma insert_desc_perm x (l : list (car F * S)) : Permutation (x :: l) (insert_desc x l).
  Proof.
    induction l as [|y t IH]; simpl; auto.
    destruct (fle (fst y) (fst x)); auto.
    etransitivity; [apply perm_swap|]. apply perm_skip; auto.
  Qed.

  Lemma insert_desc_sorted x (l : list (car F * S)) :
    StronglySorted desc l -> StronglySorted desc (insert_desc x l).
  Proof.
    induction l as [|y t IH]; simpl; intros H.
    - constructor; constructor.
    - inversion H as [|? ? Ht Hy]; subst.
      destruct (fle (fst y) (fst x)) eqn:E.
      + constructor; auto. constructor; [exact E|].
        eapply Forall_impl; [|exact Hy]. unfold desc; intros a Ha.
        eapply fle_trans; eauto.
      + constructor; auto.
        apply (Permutation_Forall (insert_desc_perm x t)). constructor; auto.
        unfold desc. destruct (fle_total_ F (fst x) (fst y)) as [H1|H1]; auto; congruence.
  Qed.

  Lemma sort_desc_spec : sort_spec (@sort_desc F S).
  Proof.
    intros l; split.
    - induction l as [|x l IH]; simpl; auto.
      etransitivity; [apply perm_skip, IH|]. apply insert_desc_perm.
    - induction l as [|x l IH]; simpl; [constructor|]. apply insert_desc_sorted; auto.
  Qed.

  Lemma StronglySorted_app_inv (R : car F * S -> car F * S -> Prop) l1 l2 :
    StronglySorted R (l1 ++ l2) ->
    StronglySorted R l1 /\ (forall x y, In x l1 -> In y l2 -> R x y).
  Proof.
    induction l1 as [|a l1 IH]; simpl; intros H.
    - split; [constructor|]. intros; contradiction.
    - inversion H as [|? ? Hs Hf]; subst. destruct (IH Hs) as [H1 H2].
      rewrite Forall_app in Hf. destruct Hf as [Hf1 Hf2]. split; [constructor; auto|].
      intros x y [<-|Hx] Hy; auto. rewrite Forall_forall in Hf2; auto.
  Qed.

  Variable sort : list (car F * S) -> list (car F * S).
  Hypothesis Hsort : sort_spec sort.

  Lemma top_hyps_ok probs syms k :
    length probs = length syms -> (0 < k < Z.of_nat (length probs))%Z ->
    exists best rest,
      get_top_hypotheses sort probs syms k = Ok best /\
      Z.of_nat (length best) = k /\
      Permutation (combine probs syms) (best ++ rest) /\
      StronglySorted desc best /\
      (forall x y, In x best -> In y rest -> fst y <= fst x).
  Proof.
    intros Hl Hk. unfold get_top_hypotheses.
    rewrite Hl, Nat.eqb_refl; simpl. rewrite <- Hl.
    destruct (Z.leb_spec (Z.of_nat (length probs)) k); [lia|].
    destruct (Z.eqb_spec (Z.of_nat (length probs)) 0); [lia|].
    destruct (Z.ltb_spec 0 k); [|lia].
    destruct (Hsort (combine probs syms)) as [Hp Hs].
    set (l := sort (combine probs syms)) in *.
    exists (firstn (Z.to_nat k) l), (skipn (Z.to_nat k) l).
    assert (Hlen : length l = length probs).
    { rewrite <- (Permutation_length Hp), combine_length, Hl; lia. }
    split; [reflexivity|]. split; [rewrite firstn_length; lia|].
    rewrite firstn_skipn. split; [exact Hp|].
    rewrite <- (firstn_skipn (Z.to_nat k) l) in Hs.
    apply StronglySorted_app_inv in Hs. exact Hs.
  Qed.

  Lemma top_hyps_all probs syms k :
    length probs = length syms -> (k <= 0)%Z -> probs <> [] ->
    exists all,
      get_top_hypotheses sort probs syms k = Ok all /\
      Permutation (combine probs syms) all /\ StronglySorted desc all.
  Proof.
    intros Hl Hk Hn. assert (length probs <> 0%nat) by (destruct probs; simpl; congruence).
    unfold get_top_hypotheses. rewrite Hl, Nat.eqb_refl; simpl. rewrite <- Hl.
    destruct (Z.leb_spec (Z.of_nat (length probs)) k); [lia|].
    destruct (Z.eqb_spec (Z.of_nat (length probs)) 0); [lia|].
    destruct (Z.ltb_spec 0 k); [lia|].
    eexists; split; [reflexivity|]. apply Hsort.
  Qed.

  Lemma top_hyps_err probs syms k :
    length probs <> length syms \/ (Z.of_nat (length probs) <= k)%Z \/ probs = [] <->
    get_top_hypotheses sort probs syms k = Err.
  Proof.
    unfold get_top_hypotheses. split.
    - intros [H|[H|H]].
      + apply Nat.eqb_neq in H; rewrite H; auto.
      + destruct (negb _); auto.
        destruct (Z.leb_spec (Z.of_nat (length probs)) k); auto; lia.
      + subst; simpl. destruct (negb _); auto. destruct (0 <=? k)%Z; auto.
    - destruct (Nat.eqb_spec (length probs) (length syms)); simpl; auto.
      destruct (Z.leb_spec (Z.of_nat (length probs)) k); auto.
      destruct (Z.eqb_spec (Z.of_nat (length probs)) 0).
      + right; right. destruct probs; simpl in *; auto; lia.
      + destruct (0 <? k)%Z; discriminate.
  Qed.
End Top.

Section Softmax.
  Context {F : ofield}.
  Local Open Scope F_scope.
  Add Field Ff_softmax : (f_th F).

  Lemma fold_left_fadd (l : list (car F)) x : fold_left fadd l x = x + fsum l.
  Proof.
    revert x; induction l as [|y l IH]; intros x; simpl; [ring|]. rewrite IH; ring.
  Qed.

  Lemma softmax_ok (l : list (car F)) :
    (forall x, In x l -> 0 <= x) -> (exists x, In x l /\ 0 < x) ->
    softmax_renormalize l = Ok (map (fun p => Val (p / fsum l)) l) /\ 0 < fsum l.
  Proof.
    intros Hn [x [Hin Hx]].
    assert (Hp : 0 < fsum l) by (eapply fsum_pos; eauto).
    split; auto. destruct l as [|y l]; [contradiction|].
    unfold softmax_renormalize. f_equal. apply map_ext. intros a.
    rewrite fold_left_fadd. change (y + fsum l) with (fsum (y :: l)).
    unfold num_div. destruct (feqb (fsum (y :: l)) 0) eqn:E; auto.
    apply feqb_eq in E. apply fpos_neq in Hp; contradiction.
  Qed.

  Lemma softmax_distribution (l : list (car F)) :
    (forall x, In x l -> 0 <= x) -> (exists x, In x l /\ 0 < x) ->
    exists out : list (car F),
      softmax_renormalize l = Ok (map Val out) /\
      fsum out = 1 /\
      exists total, 0 < total /\ l = map (fun x => x * total) out /\
        (forall x, In x out -> 0 <= x).
  Proof.
    intros Hn Hp. destruct (softmax_ok l Hn Hp) as [E Ht].
    exists (map (fun p => p / fsum l) l). split.
    { rewrite E, map_map. reflexivity. }
    assert (Hz := fpos_neq _ Ht). split.
    { rewrite (fsum_map_div _ (fun x => x) (fsum l) l Hz), map_id. apply fdiv_self; exact Hz. }
    exists (fsum l). split; [exact Ht|]. split.
    - rewrite map_map. rewrite <- (map_id l) at 1. apply map_ext. intros a.
      symmetry; apply fdiv_mul; exact Hz.
    - intros x Hx. apply in_map_iff in Hx. destruct Hx as [p [<- Hin]]. apply fdiv_nonneg; auto.
  Qed.
End Softmax.
