(** Structure of a PPM automaton (ppm_as_fst_model.cc): its states stand for histories, its
    back-off chain for the suffixes of a history, its counts for a table of counts. *)
From Coq Require Import Field.
From Verif Require Import Base Field LmModel TextModel HubModel PpmModel PpmSpec.
Local Open Scope Z_scope.

Definition getZ {A} (l : list A) (i : Z) : option A :=
  if i <? 0 then None else nth_error l (Z.to_nat i).

Lemma vgetZ_get {A} (l : list A) i : vgetZ l i = match getZ l i with Some a => Ok a | None => UB end.
Proof. unfold vgetZ, getZ, vget. destruct (i <? 0); reflexivity. Qed.
Lemma vgetZ_Some {A} (l : list A) i a : getZ l i = Some a -> vgetZ l i = Ok a.
Proof. intros H; rewrite vgetZ_get, H; reflexivity. Qed.
Lemma getZ_range {A} (l : list A) i a : getZ l i = Some a -> 0 <= i < Z.of_nat (length l).
Proof.
  unfold getZ; destruct (Z.ltb_spec i 0); [discriminate|]. intros E.
  apply nth_error_Some_lt in E. lia.
Qed.
Lemma getZ_ex {A} (l : list A) i : 0 <= i < Z.of_nat (length l) -> exists a, getZ l i = Some a.
Proof.
  unfold getZ; intros H. destruct (Z.ltb_spec i 0); [lia|].
  destruct (nth_error l (Z.to_nat i)) eqn:E; eauto. apply nth_error_None in E; lia.
Qed.
Lemma vsetZ_Ok {A} (l : list A) i a : 0 <= i < Z.of_nat (length l) ->
  vsetZ l i a = Ok (upd l (Z.to_nat i) a).
Proof.
  intros H. unfold vsetZ, vset. destruct (Z.ltb_spec i 0); [lia|].
  destruct (Nat.ltb_spec (Z.to_nat i) (length l)); [reflexivity|lia].
Qed.
Lemma getZ_upd {A} (l : list A) i j a : 0 <= i < Z.of_nat (length l) ->
  getZ (upd l (Z.to_nat i) a) j = if j =? i then Some a else getZ l j.
Proof.
  intros H. unfold getZ. destruct (Z.ltb_spec j 0).
  - destruct (Z.eqb_spec j i); [lia|reflexivity].
  - rewrite nth_error_upd. destruct (Z.eqb_spec j i) as [->|Hne].
    + rewrite Nat.eqb_refl. destruct (Nat.ltb_spec (Z.to_nat i) (length l)); [reflexivity|lia].
    + destruct (Nat.eqb_spec (Z.to_nat i) (Z.to_nat j)); [lia|reflexivity].
Qed.
Lemma getZ_app_l {A} (l l' : list A) i a : getZ l i = Some a -> getZ (l ++ l') i = Some a.
Proof.
  intros H. pose proof (getZ_range _ _ _ H). unfold getZ in *.
  destruct (i <? 0); [discriminate|]. rewrite nth_error_app1; [exact H|lia].
Qed.
Lemma getZ_app_lt {A} (l l' : list A) i : i < Z.of_nat (length l) -> getZ (l ++ l') i = getZ l i.
Proof.
  intros H. unfold getZ. destruct (Z.ltb_spec i 0); [reflexivity|].
  rewrite nth_error_app1; [reflexivity|lia].
Qed.
Lemma getZ_app_eq {A} (l : list A) a : getZ (l ++ [a]) (Z.of_nat (length l)) = Some a.
Proof.
  unfold getZ. destruct (Z.ltb_spec (Z.of_nat (length l)) 0); [lia|].
  rewrite Nat2Z.id, nth_error_app2, Nat.sub_diag by lia. reflexivity.
Qed.
Lemma getZ_app_inv {A} (l : list A) a i x : getZ (l ++ [a]) i = Some x ->
  getZ l i = Some x \/ (i = Z.of_nat (length l) /\ x = a).
Proof.
  intros H. pose proof (getZ_range _ _ _ H) as Hr. rewrite app_length in Hr; simpl in Hr.
  destruct (Z.eq_dec i (Z.of_nat (length l))) as [->|Hne].
  - rewrite getZ_app_eq in H. injection H as ->. auto.
  - rewrite getZ_app_lt in H by lia. auto.
Qed.
Lemma getZ_nodup {A} (l : list A) i j a : NoDup l -> getZ l i = Some a -> getZ l j = Some a -> i = j.
Proof.
  unfold getZ. destruct (Z.ltb_spec i 0); [discriminate|]. destruct (Z.ltb_spec j 0); [discriminate|].
  intros Hn Hi Hj. pose proof (nth_error_Some_lt _ _ _ _ Hi).
  rewrite NoDup_nth_error in Hn. specialize (Hn (Z.to_nat i) (Z.to_nat j)). lapply Hn; [|lia].
  intros K. rewrite Hi, Hj in K. specialize (K eq_refl). lia.
Qed.
Lemma getZ_In {A} (l : list A) i a : getZ l i = Some a -> In a l.
Proof. unfold getZ. destruct (i <? 0); [discriminate|]. apply nth_error_In. Qed.
Lemma In_getZ {A} (l : list A) a : In a l -> exists i, getZ l i = Some a.
Proof.
  intros H. apply In_nth_error in H. destruct H as [n H]. exists (Z.of_nat n).
  unfold getZ. destruct (Z.ltb_spec (Z.of_nat n) 0); [lia|]. rewrite Nat2Z.id. exact H.
Qed.

Lemma hist_eqb_eq g h : hist_eqb g h = true <-> g = h.
Proof. unfold hist_eqb. destruct (list_eq_dec Z.eq_dec g h); split; congruence. Qed.
Lemma mem_In (K : list history) h : existsb (hist_eqb h) K = true <-> In h K.
Proof.
  rewrite existsb_exists. split.
  - intros (g & Hg & E). apply hist_eqb_eq in E. subst; auto.
  - intros H. exists h. split; auto. apply hist_eqb_eq; reflexivity.
Qed.

Section Struct.
  Context {F : ofield}.
  Add Field FfieldPpm1 : (f_th F).

  (** The count of a symbol at a state: the final weight for the end of string, else the weight of
      the arc with this label, or 0. *)
  Definition find_arc (l : list (arc F)) (x : Z) : option (arc F) :=
    find (fun a => a_label a =? x) l.
  Definition count (st : pstate F) (x : Z) : car F :=
    if x =? 0 then ps_final st
    else match find_arc (ps_arcs st) x with Some a => a_count a | None => f0 end.

  (** The table of counts of an automaton whose states stand for the histories [ctx]. *)
  Fixpoint table (ctx : list history) (f : list (pstate F)) (h : history) (x : Z) : car F :=
    match ctx, f with
    | g :: ctx', st :: f' => if hist_eqb g h then count st x else table ctx' f' h x
    | _, _ => f0
    end.

  Definition is_eps (a : arc F) : bool := a_label a =? 0.

  Definition good_arcs (V : nat) (low : car F) (l : list (arc F)) : Prop :=
    NoDup (map (@a_label F) l) /\
    (forall a, In a l -> 1 <= a_label a <= Z.of_nat V /\ flt low (a_count a) = true).

  Definition seen_nothing (st : pstate F) (rest : list (arc F)) : bool :=
    feqb (ps_final st) f0 && (length rest =? 0)%nat.

  (** A sound automaton: state number i stands for the history ctx_i.  The total on the back-off arc
      of the states in [D], which are being updated, is not constrained. *)
  Record wf (V : nat) (beta : car F) (mo start u : Z) (D : Z -> Prop) (f : list (pstate F))
    (ctx : list history) : Prop := {
    wf_len : length ctx = length f;
    wf_nodup : NoDup ctx;
    wf_V : (0 < V)%nat;
    wf_start : getZ ctx start = Some [0];
    wf_u : getZ ctx u = Some [];
    wf_uni : forall st, getZ f u = Some st ->
      good_arcs V f0 (ps_arcs st) /\ length (ps_arcs st) = V /\ flt f0 (ps_final st) = true;
    wf_state : forall s st c h, getZ f s = Some st -> getZ ctx s = Some (c :: h) ->
      exists S b rest,
        ps_arcs st = Arc 0 S b :: rest /\ getZ ctx b = Some h /\
        good_arcs V beta rest /\ (ps_final st = f0 \/ flt beta (ps_final st) = true) /\
        (D s \/ S = (if seen_nothing st rest then f1
                      else fadd (ps_final st) (fsum (map (@a_count F) rest))));
    wf_arc : forall s st a h, getZ f s = Some st -> getZ ctx s = Some h ->
      In a (ps_arcs st) -> a_label a <> 0 ->
      exists t, getZ ctx (a_next a) = Some t /\ suffix t (h ++ [a_label a]) /\
                (length h <= length t)%nat;
    wf_prefix : forall v h x, getZ ctx v = Some (h ++ [x]) -> v <> start ->
      exists s st a, getZ ctx s = Some h /\ getZ f s = Some st /\ In a (ps_arcs st) /\
                     a_label a = x /\ a_next a = v /\ x <> 0;
    wf_ord : forall s h, getZ ctx s = Some h -> Z.of_nat (length h) < mo
  }.

  (** The states from s down its back-off arcs. *)
  Inductive chain (f : list (pstate F)) : Z -> list (Z * pstate F) -> Prop :=
  | chain_end s st a t : getZ f s = Some st -> ps_arcs st = a :: t -> a_label a <> 0 ->
      chain f s [(s, st)]
  | chain_step s st S b t l : getZ f s = Some st -> ps_arcs st = Arc 0 S b :: t ->
      chain f b l -> chain f s ((s, st) :: l).

  Lemma chain_det f s l l' : chain f s l -> chain f s l' -> l = l'.
  Proof.
    intros H; revert l'. induction H as [s st a t Hg Ha Hl|s st S b t l Hg Ha Hc IH];
      intros l' H'; inversion H' as [s' st' a' t' Hg' Ha' Hl' E1 E2|s' st' S' b' t' l2 Hg' Ha' Hc' E1 E2];
      subst; assert (st' = st) by congruence; subst.
    - reflexivity.
    - rewrite Ha in Ha'. injection Ha' as -> ->. simpl in Hl. congruence.
    - rewrite Ha in Ha'. injection Ha' as <- <-. simpl in Hl'. congruence.
    - rewrite Ha in Ha'. injection Ha' as -> -> ->. f_equal. apply IH; auto.
  Qed.

  Lemma chain_hd f s l : chain f s l -> exists st l', l = (s, st) :: l' /\ getZ f s = Some st.
  Proof. intros H; inversion H; subst; eauto. Qed.

  (** Every member of a chain has the rest of the chain as its own. *)
  Lemma chain_sub f s l d st : chain f s l -> In (d, st) l ->
    getZ f d = Some st /\ exists l1 l2, l = l1 ++ l2 /\ chain f d l2.
  Proof.
    intros H; induction H as [s st0 a t Hg Ha Hl|s st0 S b t l Hg Ha Hc IH]; intros Hin.
    - destruct Hin as [E|[]]. injection E as -> ->. split; auto.
      exists [], [(d, st)]. split; auto. econstructor; eauto.
    - destruct Hin as [E|Hin].
      + injection E as -> ->. split; auto. exists [], ((d, st) :: l). split; auto.
        econstructor; eauto.
      + destruct (IH Hin) as (G & l1 & l2 & -> & Hc2). split; auto.
        exists ((s, st0) :: l1), l2. split; auto.
  Qed.

  (** A chain only depends on its own states. *)
  Lemma chain_frame f f' s l : chain f s l ->
    (forall d st, In (d, st) l -> getZ f' d = Some st) -> chain f' s l.
  Proof.
    intros H; induction H as [s st a t Hg Ha Hl|s st S b t l Hg Ha Hc IH]; intros Hf.
    - econstructor; eauto. apply Hf; left; reflexivity.
    - econstructor; eauto.
      + apply Hf; left; reflexivity.
      + apply IH. intros; apply Hf; right; auto.
  Qed.

  Lemma chain_states_ok f s l : chain f s l -> forall d st, In (d, st) l -> getZ f d = Some st.
  Proof. intros H d st Hin. eapply chain_sub; eauto. Qed.

  (** What the blending of the chain gives; these are the vectors a cache entry should hold. *)
  Section Chain.
    Variable V : nat.
    Variables alpha beta : car F.
    Variable start : Z.
    Notation symbols := (symbols V).

    Definition stotal (st : pstate F) : car F := fsum (map (count st) symbols).
    Definition skinds (st : pstate F) : Z :=
      Z.of_nat (length (filter (fun x => flt f0 (count st x)) symbols)).
    Definition sdest (st : pstate F) (x : Z) : Z :=
      if x =? 0 then start
      else match find_arc (ps_arcs st) x with Some a => a_next a | None => -1 end.

    Fixpoint corigin (l : list (Z * pstate F)) (x : Z) : Z :=
      match l with
      | [] => -1
      | (s, st) :: l' =>
          match l' with [] => s | _ => if flt f0 (count st x) then s else corigin l' x end
      end.
    Fixpoint cdest (l : list (Z * pstate F)) (x : Z) : Z :=
      match l with
      | [] => -1
      | (s, st) :: l' =>
          match l' with
          | [] => sdest st x
          | _ => if flt f0 (count st x) then sdest st x else cdest l' x
          end
      end.
    Fixpoint cprob (l : list (Z * pstate F)) (x : Z) : car F :=
      match l with
      | [] => f0
      | (s, st) :: l' =>
          match l' with
          | [] => fdiv (count st x) (stotal st)
          | _ =>
              fdiv (fadd (if flt f0 (count st x) then fsub (count st x) beta else f0)
                         (fmul (fadd (fmul (ofZ (skinds st)) beta) alpha) (cprob l' x)))
                   (fadd (stotal st) alpha)
          end
      end.
    Fixpoint cnorm (l : list (Z * pstate F)) : car F :=
      match l with
      | [] => f0
      | (s, st) :: l' =>
          match l' with
          | [] => fadd (stotal st) alpha
          | _ => if feqb (stotal st) f0 then cnorm l' else fadd (stotal st) alpha
          end
      end.
    Definition cvals (l : list (Z * pstate F)) : vals F :=
      Vals (map (corigin l) symbols) (map (cdest l) symbols) (map (cprob l) symbols) (cnorm l).
  End Chain.
End Struct.
