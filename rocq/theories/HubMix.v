(** Proofs about HubModel.v: mixtures of component distributions. *)
From Coq Require Import Field.
From Verif Require Import Base Field LmModel HubModel HubSpec HubProofs.
Local Open Scope Z_scope.

(** * String order *)
Lemma str_cmp_eq a : forall b, str_cmp a b = Eq <-> a = b.
Proof.
  induction a as [|x a IH]; intros [|y b]; simpl; split; intros H; try discriminate; auto.
  - destruct (Z.compare_spec x y) as [->|?|?]; try discriminate. f_equal. apply IH; auto.
  - injection H as -> ->. rewrite Z.compare_refl. apply IH; auto.
Qed.

Lemma str_eqb_eq a b : str_eqb a b = true <-> a = b.
Proof.
  unfold str_eqb. rewrite <- str_cmp_eq. destruct (str_cmp a b); split; congruence.
Qed.

Lemma str_eqb_refl a : str_eqb a a = true.
Proof. apply str_eqb_eq; auto. Qed.

Lemma str_eqb_neq a b : str_eqb a b = false <-> a <> b.
Proof. rewrite <- str_eqb_eq. destruct (str_eqb a b); split; congruence. Qed.

Lemma str_cmp_antisym a : forall b, str_cmp b a = CompOpp (str_cmp a b).
Proof.
  induction a as [|x a IH]; intros [|y b]; simpl; auto.
  rewrite Z.compare_antisym. destruct (x ?= y); simpl; auto.
Qed.

Lemma str_lt_trans a : forall b c, str_lt a b -> str_lt b c -> str_lt a c.
Proof.
  unfold str_lt. induction a as [|x a IH]; intros [|y b] [|z c]; simpl; try discriminate; auto.
  destruct (Z.compare_spec x y) as [->|?|?]; try discriminate;
    destruct (Z.compare_spec y z) as [->|?|?]; try discriminate; intros H1 H2.
  - rewrite ?Z.compare_refl. eauto.
  - destruct (Z.compare_spec y z); try lia. auto.
  - destruct (Z.compare_spec x z); try lia. auto.
  - destruct (Z.compare_spec x z); try lia. auto.
Qed.

Section Mix.
  Context {F : ofield}.
  Add Field HubMixField : (f_th F).
  Local Open Scope F_scope.

  Definition vals (l : list (str * car F)) : list (str * num F) := map (fun '(k, v) => (k, Val v)) l.

  Fixpoint mixF_add (key : str) (v : car F) (acc : list (str * car F)) : list (str * car F) :=
    match acc with
    | [] => [(key, v)]
    | (k, x) :: t => if str_eqb k key then (k, v + x) :: t else (k, x) :: mixF_add key v t
    end.

  Lemma mix_add_vals key v acc : mix_add key (Val v) (vals acc) = vals (mixF_add key v acc).
  Proof.
    induction acc as [|[k x] t IH]; simpl; auto. destruct (str_eqb k key); simpl; auto.
    f_equal. exact IH.
  Qed.

  Lemma mixF_add_keys key v acc : forall k,
    In k (map fst (mixF_add key v acc)) <-> k = key \/ In k (map fst acc).
  Proof.
    induction acc as [|[k0 x] t IH]; intros k; simpl; [intuition|].
    destruct (str_eqb k0 key) eqn:E; simpl.
    - apply str_eqb_eq in E. subst. intuition.
    - rewrite IH. intuition.
  Qed.

  Lemma mixF_add_nodup key v acc : NoDup (map fst acc) -> NoDup (map fst (mixF_add key v acc)).
  Proof.
    induction acc as [|[k0 x] t IH]; simpl; intros H; [constructor; auto; constructor|].
    inversion H; subst. destruct (str_eqb k0 key) eqn:E; simpl; constructor; auto.
    rewrite mixF_add_keys. intros [->|Hin]; auto. rewrite str_eqb_refl in E. discriminate.
  Qed.

  Lemma prob_at_cons k k0 (x : car F) t :
    prob_at k ((k0, x) :: t) = (if str_eqb k0 k then x else 0) + prob_at k t.
  Proof. unfold prob_at; simpl. destruct (str_eqb k0 k); simpl; rewrite ?fsum_cons; field. Qed.

  Lemma mixF_add_at key v acc k :
    prob_at k (mixF_add key v acc) = prob_at k acc + (if str_eqb key k then v else 0).
  Proof.
    induction acc as [|[k0 x] t IH]; simpl.
    - rewrite prob_at_cons. unfold prob_at at 1 2; simpl. field.
    - destruct (str_eqb k0 key) eqn:E.
      + apply str_eqb_eq in E; subst. rewrite !prob_at_cons. destruct (str_eqb key k); field.
      + rewrite !prob_at_cons, IH. field.
  Qed.

  Lemma mixF_add_sum key v acc : fsum (map snd (mixF_add key v acc)) = fsum (map snd acc) + v.
  Proof.
    induction acc as [|[k0 x] t IH]; simpl.
    - field.
    - destruct (str_eqb k0 key); simpl; [field|]. rewrite IH. field.
  Qed.

  Lemma mix_entries entries : forall w acc, NoDup (map fst acc) ->
    exists acc', fold_left (fun acc '(key, p) => mix_add key (nmul (Val p) (Val w)) acc) entries (vals acc)
                   = vals acc' /\
      NoDup (map fst acc') /\
      (forall k, In k (map fst acc') <-> In k (map fst acc) \/ In k (map fst entries)) /\
      (forall k, prob_at k acc' = prob_at k acc + w * prob_at k entries) /\
      fsum (map snd acc') = fsum (map snd acc) + w * fsum (map snd entries).
  Proof.
    induction entries as [|[k0 p] t IH]; intros w acc Hn; simpl.
    - exists acc. split; auto. split; auto. split; [intuition|].
      split; [intros k; unfold prob_at at 3; simpl|]; field.
    - rewrite mix_add_vals.
      destruct (IH w (mixF_add k0 (p * w) acc) (mixF_add_nodup _ _ _ Hn)) as (acc' & A1 & A2 & A3 & A4 & A5).
      exists acc'. split; auto. split; auto. split; [|split].
      + intros k. rewrite A3, mixF_add_keys. intuition.
      + intros k. rewrite A4, mixF_add_at, prob_at_cons. destruct (str_eqb k0 k); field.
      + rewrite A5, mixF_add_sum. field.
  Qed.

  Lemma mix_loop_spec {M} (ops : comp_ops F M) s ws : forall idx lms norm acc r lms',
    NoDup (map fst acc) ->
    mix_loop ops s idx (map Val ws) lms (Val norm) (vals acc) = Ok (Some r, lms') ->
    exists scs acc', length scs = length ws /\
      (forall k, (k < length ws)%nat -> exists m sc m', nth_error lms k = Some m /\
         nth_error scs k = Some sc /\ c_extract ops m (hs_model s (idx + k)) = Ok (Some sc, m')) /\
      r = (Val (norm + fsum (map (fun '(w, sc) => w * sc_norm sc) (combine ws scs))), vals acc') /\
      NoDup (map fst acc') /\
      (forall k, In k (map fst acc') <->
         In k (map fst acc) \/ exists sc, In sc scs /\ In k (map fst (sc_entries sc))) /\
      (forall k, prob_at k acc' = prob_at k acc + mix_at ws scs k) /\
      fsum (map snd acc') = fsum (map snd acc) + mix_total ws scs.
  Proof.
    induction ws as [|w ws IH]; intros idx lms norm acc r lms' Hn; simpl.
    - intros [= <- <-]. exists [], acc. split; auto. split; [intros; lia|].
      split; [simpl; do 2 f_equal; field|]. split; auto. split.
      + intros k. split; auto. intros [H|[sc [[] _]]]; auto.
      + unfold mix_at, mix_total; simpl. split; intros; field.
    - destruct lms as [|m t]; [discriminate|]. intros E.
      apply bind_Ok in E. destruct E as [[r1 m'] [E1 E]]. destruct r1 as [sc|]; [|discriminate].
      apply bind_Ok in E. destruct E as [[r2 t'] [E2 E]]. injection E as -> <-.
      unfold mix_results in E2.
      destruct (mix_entries (sc_entries sc) w acc Hn) as (acc1 & A1 & A2 & A3 & A4 & A5).
      rewrite A1 in E2. simpl nadd in E2.
      destruct (IH _ _ _ _ _ _ A2 E2) as (scs & acc' & B1 & B2 & B3 & B4 & B5 & B6 & B7).
      exists (sc :: scs), acc'. simpl. split; [lia|]. split.
      { intros [|k] Hk; simpl; [exists m, sc, m'; rewrite Nat.add_0_r; auto|].
        destruct (B2 k) as (m0 & sc0 & m0' & C1 & C2 & C3); [lia|]. exists m0, sc0, m0'. rewrite Nat.add_succ_r. auto. }
      split; [rewrite B3; simpl; do 2 f_equal; field|]. split; auto. split.
      { intros k. rewrite B5, A3. split.
        - intros [[H|H]|(sc0 & H1 & H2)]; eauto 10.
        - intros [H|(sc0 & [<-|H1] & H2)]; eauto. }
      unfold mix_at, mix_total in *. simpl. split.
      + intros k. rewrite B6, A4. field.
      + rewrite B7, A5. field.
  Qed.

  (** * Sorting by key *)
  Lemma insert_key_perm (x : str * num F) l : Permutation (x :: l) (insert_key x l).
  Proof.
    induction l as [|y t IH]; simpl; auto. destruct (str_leb (fst x) (fst y)); auto.
    rewrite perm_swap. constructor. exact IH.
  Qed.

  Lemma sort_keys_perm (l : list (str * num F)) : Permutation l (sort_keys l).
  Proof.
    induction l as [|x t IH]; simpl; auto. rewrite <- insert_key_perm. constructor; auto.
  Qed.

  Lemma str_le_lt a b : str_leb a b = true -> a <> b -> str_lt a b.
  Proof.
    unfold str_leb, str_lt. intros H Hn. destruct (str_cmp a b) eqn:E; auto; [|discriminate].
    apply str_cmp_eq in E. congruence.
  Qed.
  Lemma str_not_le_lt a b : str_leb a b = false -> str_lt b a.
  Proof.
    unfold str_leb, str_lt. intros H. rewrite str_cmp_antisym. destruct (str_cmp a b); try discriminate; auto.
  Qed.

  Lemma insert_key_sorted (x : str * num F) l :
    ~ In (fst x) (map fst l) -> StronglySorted str_lt (map fst l) ->
    StronglySorted str_lt (map fst (insert_key x l)).
  Proof.
    induction l as [|y t IH]; simpl; intros Hn H; [constructor; auto|].
    inversion H as [|? ? Hs Hf]; subst. destruct (str_leb (fst x) (fst y)) eqn:E; simpl.
    - assert (L : str_lt (fst x) (fst y)) by (apply str_le_lt; auto).
      constructor; auto. constructor; auto. rewrite Forall_forall in *. intros z Hz.
      eapply str_lt_trans; eauto.
    - constructor; [apply IH; auto|]. apply str_not_le_lt in E.
      rewrite Forall_forall in *. intros z Hz.
      apply (Permutation_in _ (Permutation_sym (Permutation_map fst (insert_key_perm x t)))) in Hz.
      destruct Hz as [<-|Hz]; auto.
  Qed.

  Lemma sort_keys_sorted (l : list (str * num F)) :
    NoDup (map fst l) -> StronglySorted str_lt (map fst (sort_keys l)).
  Proof.
    induction l as [|x t IH]; simpl; intros H; [constructor|]. inversion H; subst.
    apply insert_key_sorted; auto. intros Hin.
    apply (Permutation_in _ (Permutation_sym (Permutation_map fst (sort_keys_perm t)))) in Hin. auto.
  Qed.

  Lemma nsum_vals l : l <> [] -> nsum (map Val l) = Val (fsum l : car F).
  Proof.
    destruct l as [|x t]; [congruence|]. intros _. simpl. revert x.
    induction t as [|y t IH]; intros x; simpl; [f_equal; field|].
    rewrite IH. f_equal. simpl. field.
  Qed.

  Lemma prob_at_nodup acc k v : NoDup (map fst acc) -> In (k, v) acc -> prob_at k acc = (v : car F).
  Proof.
    induction acc as [|[k0 x] t IH]; simpl; [tauto|]. intros H [E|Hin]; inversion H; subst.
    - injection E as -> ->. rewrite prob_at_cons, str_eqb_refl.
      assert (Z : prob_at k t = 0).
      { clear -H2. unfold prob_at. induction t as [|[k1 y] t IH]; simpl in *; auto.
        destruct (str_eqb k1 k) eqn:E; [apply str_eqb_eq in E; subst; tauto|]. apply IH; tauto. }
      rewrite Z. field.
    - rewrite prob_at_cons. destruct (str_eqb k0 k) eqn:E.
      + apply str_eqb_eq in E. subst. exfalso. apply H2. apply (in_map fst) in Hin. exact Hin.
      + rewrite (IH H3 Hin). field.
  Qed.

  Lemma extract_mixture_spec (ws : list (car F)) scs acc norm :
    NoDup (map fst acc) ->
    (forall k, In k (map fst acc) <-> exists sc, In sc scs /\ In k (map fst (sc_entries sc))) ->
    (forall k, prob_at k acc = mix_at ws scs k) ->
    fsum (map snd acc) = mix_total ws scs -> mix_total ws scs <> 0 ->
    norm = fsum (map (fun '(w, sc) => w * sc_norm sc) (combine ws scs)) ->
    is_mixture ws scs (extract_mixture (vals acc) (Val norm)) /\
    fsum (values (sc_entries (extract_mixture (vals acc) (Val norm)))) = 1.
  Proof.
    intros Hn Hk Hp Ht Hz ->.
    assert (Hne : acc <> []).
    { intros ->. apply Hz. rewrite <- Ht. reflexivity. }
    assert (Es : nsum (map snd (vals acc)) = Val (mix_total ws scs)).
    { unfold vals. rewrite map_map. rewrite (map_ext _ (fun x => Val (snd x))) by (intros [? ?]; auto).
      rewrite <- (map_map snd Val), nsum_vals; [f_equal; exact Ht|].
      destruct acc; [congruence|discriminate]. }
    assert (Ez : feqb (mix_total ws scs) 0 = false) by (apply feqb_neq; auto).
    assert (P := sort_keys_perm (vals acc)).
    assert (Kv : map fst (vals acc) = map fst acc).
    { unfold vals. rewrite map_map. apply map_ext. intros [? ?]; auto. }
    unfold extract_mixture. rewrite Es.
    assert (Kk : map fst (map (fun '(k, v) => (k, ndiv v (Val (mix_total ws scs)))) (sort_keys (vals acc)))
                 = map fst (sort_keys (vals acc))).
    { rewrite map_map. apply map_ext. intros [? ?]; auto. }
    split; [constructor; simpl sc_entries; simpl sc_norm; auto|].
    - rewrite Kk. apply sort_keys_sorted. rewrite Kv; auto.
    - intros k. rewrite Kk, <- Hk, <- Kv. split; apply Permutation_in.
      + apply Permutation_map, Permutation_sym, P.
      + apply Permutation_map, P.
    - intros k v Hin. apply in_map_iff in Hin. destruct Hin as [[k0 v0] [E Hin]].
      injection E as -> <-. apply (Permutation_in _ (Permutation_sym P)) in Hin.
      unfold vals in Hin. apply in_map_iff in Hin. destruct Hin as [[k1 v1] [E Hin]].
      injection E as -> <-. simpl. unfold num_div. rewrite Ez. do 2 f_equal.
      rewrite <- Hp. symmetry. apply prob_at_nodup; auto.
    - simpl. transitivity (fsum (map (fun x => x / mix_total ws scs) (map snd acc))).
      + unfold values. rewrite !map_map.
        transitivity (fsum (map (fun '(_, v) => match ndiv v (Val (mix_total ws scs)) with Val x => x | NaN => 0 end) (vals acc))).
        * apply fsum_perm. rewrite (map_ext _ (fun '(_, v) => match ndiv v (Val (mix_total ws scs)) with Val x => x | NaN => 0 end))
            by (intros [? ?]; auto).
          apply Permutation_map, Permutation_sym, P.
        * unfold vals. rewrite map_map. apply fsum_map_ext. intros [k v] _. simpl. unfold num_div. rewrite Ez. auto.
      + rewrite fsum_map_div by auto. rewrite map_id, Ht. apply fdiv_self; auto.
  Qed.

  (** The answer of an interpolating hub. *)
  Lemma hub_extract_mixture {M} (ops : comp_ops F M) h s ws resp h' :
    hub_extract ops h s = Ok (Some resp, h') -> (2 <= length (h_weights h))%nat ->
    mixture_weights_at h s = Ok (map Val ws) ->
    exists st scs, vgetZ (hs h) s = Ok st /\ length scs = length ws /\
      (forall k, (k < length ws)%nat -> exists m sc m', nth_error (h_lms h) k = Some m /\
         nth_error scs k = Some sc /\ c_extract ops m (hs_model st k) = Ok (Some sc, m')) /\
      (mix_total ws scs <> 0 ->
       is_mixture ws scs resp /\ fsum (values (sc_entries resp)) = 1).
  Proof.
    intros E Hw Ew. unfold hub_extract in E. destruct (negb (in_range h s)); [discriminate|].
    apply bind_Ok in E. destruct E as [st [E1 E]].
    destruct (Nat.ltb_spec (length (h_weights h)) 2); [lia|].
    rewrite Ew in E. cbn [bind] in E.
    apply bind_Ok in E. destruct E as [[r lms'] [E2 E]]. injection E as E _.
    destruct r as [r|]; [|discriminate].
    change (@nil (str * num F)) with (vals []) in E2.
    destruct (mix_loop_spec ops st ws 0 (h_lms h) 0 [] r lms' (NoDup_nil _) E2)
      as (scs & acc' & B1 & B2 & B3 & B4 & B5 & B6 & B7).
    exists st, scs. split; auto. split; auto. split; auto.
    intros Hz. rewrite B3 in E. simpl in E. injection E as <-.
    apply extract_mixture_spec; auto.
    - intros k. rewrite B5. simpl. split; [intros [[]|H0]; auto|auto].
    - intros k. rewrite B6. unfold prob_at; simpl. field.
    - rewrite B7. simpl. field.
    - field.
  Qed.

  (** When the components return distributions and the weights are one, nothing is lost. *)
  Lemma mix_total_one (ws : list (car F)) scs :
    length ws = length scs -> fsum ws = 1 ->
    (forall sc, In sc scs -> fsum (map snd (sc_entries sc)) = 1) -> mix_total ws scs = 1.
  Proof.
    unfold mix_total. intros L Hw H. rewrite <- Hw. clear Hw. revert scs L H.
    induction ws as [|w ws IH]; intros [|sc scs] L H; simpl in *; try discriminate; auto.
    rewrite IH; auto. rewrite (H sc) by auto. field.
  Qed.
End Mix.
