(** Sorting arcs and adding characters keep a PPM automaton sound. *)
From Coq Require Import Field Permutation.
From Verif Require Import Base Field LmModel TextModel HubModel PpmModel PpmSpec PpmReadModel PpmStruct PpmTrainSpec PpmRef PpmVals PpmCache PpmWf PpmUpdate PpmObserve PpmApi PpmRead.
Local Open Scope Z_scope.

Lemma NoDup_snoc {A} (l : list A) x : NoDup l -> ~ In x l -> NoDup (l ++ [x]).
Proof.
  intros H Hx. induction H as [|a l Ha H IH]; cbn [app]; [repeat constructor; auto|].
  constructor.
  - intros K. apply in_app_iff in K. destruct K as [K|[<-|[]]]; [auto|]. apply Hx. left; reflexivity.
  - apply IH. intros K; apply Hx; right; auto.
Qed.
Lemma find_app {A} (p : A -> bool) l l' : find p (l ++ l') = match find p l with Some a => Some a | None => find p l' end.
Proof. induction l as [|a t IH]; cbn [find app]; [reflexivity|]. destruct (p a); auto. Qed.

Section Sort.
  Context {F : ofield}.
  Add Field FfieldPpm8 : (f_th F).
  Notation none := (fun _ : Z => False).
  Implicit Types l : list (arc F).

  Lemma arc_insert_perm a l : Permutation (arc_insert a l) (a :: l).
  Proof.
    induction l as [|b t IH]; cbn [arc_insert]; [reflexivity|].
    destruct (a_label a <=? a_label b); [reflexivity|]. rewrite IH. apply perm_swap.
  Qed.
  Lemma arc_sort_perm l : Permutation (arc_sort l) l.
  Proof. induction l as [|a t IH]; cbn [arc_sort]; [reflexivity|]. rewrite arc_insert_perm, IH. reflexivity. Qed.
  Lemma arc_insert_least a l : (forall b, In b l -> a_label a <= a_label b) -> arc_insert a l = a :: l.
  Proof.
    destruct l as [|b t]; intros H; cbn [arc_insert]; [reflexivity|].
    destruct (Z.leb_spec (a_label a) (a_label b)); [reflexivity|]. specialize (H b (or_introl eq_refl)). lia.
  Qed.

  (** Looking up a label does not depend on the order of arcs with distinct labels. *)
  Lemma find_arc_In l x a : NoDup (map (@a_label F) l) -> In a l -> a_label a = x -> find_arc l x = Some a.
  Proof.
    unfold find_arc. induction l as [|b t IH]; intros Hn Hin Hx; [destruct Hin|]. cbn [find map] in *.
    inversion Hn as [|? ? Hnb Hnt]; subst. destruct Hin as [->|Hin].
    - rewrite Z.eqb_refl. reflexivity.
    - destruct (Z.eqb_spec (a_label b) (a_label a)) as [E|E]; [|apply IH; auto].
      elim Hnb. rewrite E. apply in_map; auto.
  Qed.
  Lemma find_arc_None l x : (forall a, In a l -> a_label a <> x) -> find_arc l x = None.
  Proof.
    unfold find_arc. induction l as [|b t IH]; intros H; [reflexivity|]. cbn [find].
    destruct (Z.eqb_spec (a_label b) x) as [E|E]; [elim (H b (or_introl eq_refl) E)|].
    apply IH. intros; apply H; right; auto.
  Qed.
  Lemma find_arc_Some l x a : find_arc l x = Some a -> In a l /\ a_label a = x.
  Proof.
    unfold find_arc. intros H. apply find_some in H. destruct H as [H E]. apply Z.eqb_eq in E. auto.
  Qed.
  Lemma find_arc_perm l l' x : NoDup (map (@a_label F) l) -> Permutation l l' -> find_arc l x = find_arc l' x.
  Proof.
    intros Hn Hp. destruct (find_arc l x) as [a|] eqn:E.
    - apply find_arc_Some in E. destruct E as [Hin Hx]. symmetry. apply find_arc_In; auto.
      + eapply Permutation_NoDup; [|exact Hn]. apply Permutation_map; auto.
      + eapply Permutation_in; eauto.
    - symmetry. apply find_arc_None. intros a Hin Hx. apply Permutation_sym in Hp.
      rewrite (find_arc_In l x a Hn (Permutation_in _ Hp Hin) Hx) in E. discriminate.
  Qed.

  Definition sorted (st : pstate F) : pstate F := PState (arc_sort (ps_arcs st)) (ps_final st).
  Lemma getZ_map {A B} (g : A -> B) (l0 : list A) i : getZ (map g l0) i = option_map g (getZ l0 i).
  Proof. unfold getZ. destruct (i <? 0); [reflexivity|]. apply nth_error_map. Qed.
  Lemma sort_states_get (f : list (pstate F)) s : getZ (sort_states f) s = option_map sorted (getZ f s).
  Proof. apply getZ_map. Qed.
  Lemma sort_states_get_inv (f : list (pstate F)) s st : getZ (sort_states f) s = Some st ->
    exists st0, getZ f s = Some st0 /\ st = sorted st0.
  Proof. rewrite sort_states_get. destruct (getZ f s) as [st0|]; [|discriminate]. intros [= <-]. eauto. Qed.

  Lemma good_arcs_perm V low l l' : Permutation l l' -> good_arcs V low l -> good_arcs V low l'.
  Proof.
    intros Hp [Hn H]. split.
    - eapply Permutation_NoDup; [|exact Hn]. apply Permutation_map; auto.
    - intros a Ha. apply H. eapply Permutation_in; [|exact Ha]. apply Permutation_sym; auto.
  Qed.
  Lemma sorted_eps S b (rest : list (arc F)) : (forall a, In a rest -> 1 <= a_label a) ->
    arc_sort (Arc 0 S b :: rest) = Arc 0 S b :: arc_sort rest.
  Proof.
    intros H. cbn [arc_sort]. apply arc_insert_least. intros a Ha. cbn [a_label].
    specialize (H a (Permutation_in _ (arc_sort_perm rest) Ha)). lia.
  Qed.

  Lemma sort_wf V beta mo start u D (f : list (pstate F)) ctx : wf V beta mo start u D f ctx ->
    wf V beta mo start u D (sort_states f) ctx.
  Proof.
    intros Hw. pose proof Hw as []. constructor; auto.
    - unfold sort_states. rewrite map_length. auto.
    - intros st Hst. apply sort_states_get_inv in Hst. destruct Hst as (st0 & Hst0 & ->).
      destruct (wf_uni _ Hst0) as (G & L & P). cbn [sorted ps_arcs ps_final].
      pose proof (Permutation_sym (arc_sort_perm (ps_arcs st0))) as Hp.
      split; [eapply good_arcs_perm; eauto|]. split; auto. rewrite <- (Permutation_length Hp). auto.
    - intros s st c h Hst Hs. apply sort_states_get_inv in Hst. destruct Hst as (st0 & Hst0 & ->).
      destruct (wf_state s st0 c h Hst0 Hs) as (S & b & rest & Ha & Hb & G & Hf & HS).
      pose proof (Permutation_sym (arc_sort_perm rest)) as Hp.
      exists S, b, (arc_sort rest). cbn [sorted ps_arcs ps_final]. rewrite Ha, sorted_eps.
      2: { intros a Hin. apply (proj2 G) in Hin. lia. }
      split; [reflexivity|]. split; auto. split; [eapply good_arcs_perm; eauto|]. split; auto.
      destruct HS as [HS|HS]; [auto|right]. unfold seen_nothing in *. cbn [ps_final].
      rewrite <- (Permutation_length Hp), <- (fsum_perm _ _ (Permutation_map (@a_count F) Hp)). exact HS.
    - intros s st a h Hst Hs Ha Hl. apply sort_states_get_inv in Hst. destruct Hst as (st0 & Hst0 & ->).
      cbn [sorted ps_arcs] in Ha. eapply wf_arc; eauto. eapply Permutation_in; [|exact Ha]. apply arc_sort_perm.
    - intros v h x Hv Hne. destruct (wf_prefix v h x Hv Hne) as (s & st & a & H1 & H2 & H3 & H4).
      exists s, (sorted st), a. split; auto. split; [rewrite sort_states_get, H2; reflexivity|]. split; auto.
      cbn [sorted ps_arcs]. eapply Permutation_in; [apply Permutation_sym, arc_sort_perm|auto].
  Qed.

  Lemma wf_nodup_labels V beta mo start u D (f : list (pstate F)) ctx s st : wf V beta mo start u D f ctx -> getZ f s = Some st ->
    NoDup (map (@a_label F) (ps_arcs st)).
  Proof.
    intros Hw Hst. pose proof (getZ_range _ _ _ Hst) as Hr. rewrite <- (wf_len _ _ _ _ _ _ _ _ Hw) in Hr.
    destruct (getZ_ex ctx s Hr) as [[|c h] Hs].
    - pose proof (getZ_nodup _ _ _ _ (wf_nodup _ _ _ _ _ _ _ _ Hw) Hs (wf_u _ _ _ _ _ _ _ _ Hw)) as ->.
      apply (wf_uni _ _ _ _ _ _ _ _ Hw _ Hst).
    - destruct (wf_state _ _ _ _ _ _ _ _ Hw s st c h Hst Hs) as (S & b & rest & -> & _ & [Hn H] & _).
      cbn [map a_label]. constructor; auto. intros K. apply in_map_iff in K. destruct K as (a & E & Ha).
      specialize (H a Ha). lia.
  Qed.
  Lemma count_sorted V beta mo start u D (f : list (pstate F)) ctx s st x : wf V beta mo start u D f ctx -> getZ f s = Some st ->
    count (sorted st) x = count st x.
  Proof.
    intros Hw Hst. unfold count. cbn [sorted ps_final ps_arcs]. destruct (x =? 0); [reflexivity|].
    rewrite (find_arc_perm (arc_sort (ps_arcs st)) (ps_arcs st)); [reflexivity| |apply arc_sort_perm].
    eapply Permutation_NoDup; [apply Permutation_map, Permutation_sym, arc_sort_perm|].
    eapply wf_nodup_labels; eauto.
  Qed.
  Lemma table_sorted V beta mo start u D (f : list (pstate F)) ctx h x : wf V beta mo start u D f ctx ->
    table ctx (sort_states f) h x = table ctx f h x.
  Proof.
    intros Hw. apply table_ext.
    - apply (wf_nodup _ _ _ _ _ _ _ _ Hw).
    - apply (wf_len _ _ _ _ _ _ _ _ Hw).
    - unfold sort_states. apply map_length.
    - intros s st st' _ H1 H2. rewrite sort_states_get, H1 in H2. injection H2 as <-. eapply count_sorted; eauto.
  Qed.
End Sort.

Section AddChars.
  Context {F : ofield}.
  Add Field FfieldPpm9 : (f_th F).
  Notation none := (fun _ : Z => False).

  Lemma label_absent l : forall i c, 0 <= i -> (label_from i l c <? 0) = negb (existsb (Z.eqb c) l).
  Proof.
    induction l as [|d t IH]; intros i c Hi; cbn [label_from existsb]; [reflexivity|].
    rewrite (Z.eqb_sym c d). destruct (d =? c); cbn [orb negb]; [apply Z.ltb_ge; auto|]. apply IH; lia.
  Qed.
  Lemma label_new l : forall i c, existsb (Z.eqb c) l = false -> label_from i (l ++ [c]) c = i + Z.of_nat (length l).
  Proof.
    induction l as [|d t IH]; intros i c H; cbn [label_from app length] in *.
    - rewrite Z.eqb_refl. lia.
    - cbn [existsb] in H. apply orb_false_iff in H. destruct H as [H1 H2]. rewrite Z.eqb_sym in H1. rewrite H1, IH by auto. lia.
  Qed.

  Definition with_arc (st : pstate F) (x u : Z) : pstate F :=
    PState (ps_arcs st ++ [Arc x f1 u]) (ps_final st).

  Lemma wf_add_sym V beta mo start u (f : list (pstate F)) ctx st : wf V beta mo start u none f ctx -> getZ f u = Some st ->
    let f' := upd f (Z.to_nat u) (with_arc st (Z.of_nat (S V)) u) in
    wf (S V) beta mo start u none f' ctx /\
    forall g y, table ctx f' g y = add_sym_count V (S V) (table ctx f) g y.
  Proof.
    intros Hw Hst f'. pose proof Hw as []. pose proof (getZ_range _ _ _ Hst) as Hr.
    destruct (wf_uni st Hst) as ([Hn Hg] & HL & Hfin).
    assert (Hget : forall s, getZ f' s = if s =? u then Some (with_arc st (Z.of_nat (S V)) u) else getZ f s)
      by (intros; unfold f'; apply getZ_upd; auto).
    assert (Hmono : forall (low : car F) l, good_arcs V low l -> good_arcs (S V) low l).
    { intros low l [Hn' H']. split; auto. intros a Ha. specialize (H' a Ha). split; [lia|tauto]. }
    split.
    - constructor; auto.
      + unfold f'. rewrite upd_length. auto.
      + intros st' Hst'. rewrite Hget, Z.eqb_refl in Hst'. injection Hst' as <-. cbn [with_arc ps_arcs ps_final].
        split; [|split; auto].
        * split.
          -- rewrite map_app. cbn [map a_label]. apply NoDup_snoc; auto. intros K. apply in_map_iff in K.
             destruct K as (a & E & Ha). specialize (Hg a Ha). lia.
          -- intros a Ha. apply in_app_iff in Ha. destruct Ha as [Ha|[<-|[]]].
             ++ specialize (Hg a Ha). split; [lia|tauto].
             ++ cbn [a_label a_count]. split; [lia|apply f1_pos].
        * rewrite app_length. cbn [length]. lia.
      + intros s st' c h Hst' Hs. rewrite Hget in Hst'. destruct (Z.eqb_spec s u) as [->|Hne].
        * rewrite wf_u in Hs. discriminate.
        * destruct (wf_state s st' c h Hst' Hs) as (S0 & b & rest & H1 & H2 & H3 & H4 & H5).
          exists S0, b, rest. repeat (split; [auto|]). auto.
      + intros s st' a h Hst' Hs Ha Hl. rewrite Hget in Hst'. destruct (Z.eqb_spec s u) as [->|Hne]; [|eapply wf_arc; eauto].
        injection Hst' as <-. cbn [with_arc ps_arcs] in Ha. apply in_app_iff in Ha. destruct Ha as [Ha|[<-|[]]]; [eapply wf_arc; eauto|].
        cbn [a_next a_label]. rewrite wf_u in Hs. injection Hs as <-. exists []. split; auto. split; [apply suffix_nil|simpl; lia].
      + intros v h x Hv Hne. destruct (wf_prefix v h x Hv Hne) as (s & st' & a & H1 & H2 & H3 & H4).
        destruct (Z.eqb_spec s u) as [->|Hsu].
        * exists u, (with_arc st (Z.of_nat (S V)) u), a. rewrite Hget, Z.eqb_refl.
          split; auto. split; auto. split; auto. cbn [with_arc ps_arcs]. apply in_app_iff. left. congruence.
        * exists s, st', a. rewrite Hget. destruct (Z.eqb_spec s u); [congruence|]. auto.
    - intros g y. unfold add_sym_count. destruct (hist_eqb g []) eqn:Eg; cbn [andb].
      + apply hist_eqb_eq in Eg. subst g.
        rewrite (table_get ctx f' u [] (with_arc st (Z.of_nat (S V)) u) y); auto; [|rewrite Hget, Z.eqb_refl; auto].
        rewrite (table_get ctx f u [] st y); auto. unfold count. cbn [with_arc ps_arcs ps_final].
        destruct (Z.eqb_spec y 0) as [->|Hy].
        * replace (Z.of_nat V <? 0) with false by (symmetry; apply Z.ltb_ge; lia). reflexivity.
        * destruct ((Z.of_nat V <? y) && (y <=? Z.of_nat (S V))) eqn:E.
          -- apply andb_true_iff in E. destruct E as [E1 E2]. apply Z.ltb_lt in E1. apply Z.leb_le in E2.
             assert (y = Z.of_nat (S V)) as -> by lia.
             rewrite (find_arc_In (ps_arcs st ++ [Arc (Z.of_nat (S V)) f1 u]) _ (Arc (Z.of_nat (S V)) f1 u)); auto.
             ++ rewrite map_app. cbn [map a_label]. apply NoDup_snoc; auto. intros K. apply in_map_iff in K.
                destruct K as (a & E & Ha). specialize (Hg a Ha). lia.
             ++ apply in_app_iff. right. left. reflexivity.
          -- assert (Hyn : y <> Z.of_nat (S V)).
             { intros ->. apply andb_false_iff in E. rewrite Z.ltb_ge, Z.leb_gt in E. lia. }
             unfold find_arc. rewrite find_app. cbn [find a_label].
             destruct (find (fun a => a_label a =? y) (ps_arcs st)); [reflexivity|].
             destruct (Z.eqb_spec (Z.of_nat (S V)) y); [congruence|reflexivity].
      + apply table_ext; auto; [unfold f'; apply upd_length|]. intros s st0 st' Hs H1 H2. rewrite Hget in H2.
        destruct (Z.eqb_spec s u) as [->|]; [|congruence]. rewrite wf_u in Hs. injection Hs as <-. discriminate.
  Qed.

  Lemma add_sym_trans V V1 V2 (C : @counts F) g y : (V <= V1)%nat -> (V1 <= V2)%nat ->
    add_sym_count V1 V2 (add_sym_count V V1 C) g y = add_sym_count V V2 C g y.
  Proof.
    intros H1 H2. unfold add_sym_count. destruct (hist_eqb g []); cbn [andb]; [|reflexivity].
    destruct (Z.ltb_spec (Z.of_nat V1) y), (Z.leb_spec y (Z.of_nat V2)), (Z.ltb_spec (Z.of_nat V) y),
      (Z.leb_spec y (Z.of_nat V1)); cbn [andb]; try reflexivity; lia.
  Qed.
  Lemma add_sym_same V (C : @counts F) g y : add_sym_count V V C g y = C g y.
  Proof.
    unfold add_sym_count. destruct (hist_eqb g []); cbn [andb]; [|reflexivity].
    destruct (Z.ltb_spec (Z.of_nat V) y), (Z.leb_spec y (Z.of_nat V)); cbn [andb]; try reflexivity; lia.
  Qed.
  Lemma add_sym_ext V V' (C C' : @counts F) g y : (forall g y, C g y = C' g y) ->
    add_sym_count V V' C g y = add_sym_count V V' C' g y.
  Proof. intros H. unfold add_sym_count. rewrite H. reflexivity. Qed.
  Lemma with_chars_len text : forall l, (length l <= length (with_chars l text))%nat.
  Proof.
    induction text as [|c t IH]; intros l; cbn [with_chars]; [lia|].
    specialize (IH (if existsb (Z.eqb c) l then l else l ++ [c])). destruct (existsb (Z.eqb c) l); [auto|].
    rewrite app_length in IH. simpl in IH. lia.
  Qed.
  Lemma with_chars_app text text' : forall l, with_chars l (text ++ text') = with_chars (with_chars l text) text'.
  Proof. induction text as [|c t IH]; intros l; cbn [with_chars app]; auto. Qed.

  Section Adding.
    Variables (beta : car F) (mo start u : Z) (ctx : list history).

    (** An automaton ready to receive characters. *)
    Definition ready (f : list (pstate F)) (syms : list Z) : Prop :=
      (syms = [] /\ f = make_empty /\ start = 0 /\ u = 1 /\ ctx = [[0]; []] /\ 2 <= mo) \/
      wf (length syms) beta mo start u none f ctx.

    Lemma first_sym_wf : 2 <= mo ->
      wf 1 beta mo 0 1 none [PState [Arc 0 f1 1] f0; PState [@Arc F 1 f1 1] f1] [[0]; []].
    Proof.
      intros Hmo.
      assert (G : forall A (a b x : A) s, getZ [a; b] s = Some x -> (s = 0 /\ x = a) \/ (s = 1 /\ x = b)).
      { intros A a b x s H. pose proof (getZ_range _ _ _ H) as Hr. simpl in Hr.
        assert (s = 0 \/ s = 1) as [-> | ->] by lia; cbn in H; injection H as <-; auto. }
      constructor; auto.
      - constructor; [intros [E|[]]; discriminate|]. repeat constructor. auto.
      - intros st H. cbn in H. injection H as <-. cbn [ps_arcs ps_final]. split; [|split; [reflexivity|apply f1_pos]].
        split; [repeat constructor; auto|]. intros a [<-|[]]. cbn [a_label a_count]. split; [lia|apply f1_pos].
      - intros s st c h H1 H2. apply G in H1, H2. destruct H2 as [[-> E]|[-> E]]; [|discriminate].
        injection E as -> ->. destruct H1 as [[_ ->]|[E _]]; [|discriminate].
        exists f1, 1, []. cbn [ps_arcs ps_final]. split; auto. split; auto. split; [split; [constructor|intros a []]|].
        split; auto. right. unfold seen_nothing. cbn [ps_final length Nat.eqb].
        rewrite (proj2 (feqb_eq _ _)) by auto. reflexivity.
      - intros s st a h H1 H2 Ha Hl. apply G in H1, H2.
        destruct H1 as [[-> ->]|[-> ->]], H2 as [[E2 ->]|[E2 ->]]; try discriminate.
        + destruct Ha as [<-|[]]. cbn in Hl. congruence.
        + destruct Ha as [<-|[]]. cbn [a_next a_label]. exists []. split; auto. split; [apply suffix_nil|simpl; lia].
      - intros v h x Hv Hne. apply G in Hv. destruct Hv as [[-> E]|[-> E]]; [congruence|].
        destruct h; discriminate.
      - intros s h H. apply G in H. destruct H as [[_ ->]|[_ ->]]; simpl; lia.
    Qed.

    Lemma ready_backoff f syms : ready f syms -> backoff_state f start = Ok u.
    Proof.
      intros [(_ & -> & -> & -> & _)|Hw]; [reflexivity|]. eapply start_backoff; eauto.
    Qed.
    Lemma ready_u f syms : ready f syms -> 0 <= u.
    Proof.
      intros [(_ & _ & _ & -> & _)|Hw]; [lia|]. pose proof (getZ_range _ _ _ (wf_u _ _ _ _ _ _ _ _ Hw)). lia.
    Qed.

    Lemma add_one f syms c : ready f syms ->
      exists st, getZ f u = Some st /\
        let f' := upd f (Z.to_nat u) (with_arc st (Z.of_nat (S (length syms))) u) in
        wf (S (length syms)) beta mo start u none f' ctx /\
        ready f' (syms ++ [c]) /\
        forall g y, table ctx f' g y = add_sym_count (length syms) (S (length syms)) (table ctx f) g y.
    Proof.
      intros [(-> & -> & E1 & E2 & E3 & Hmo)|Hw].
      - unfold ready. rewrite E1, E2, E3. exists (PState [] f1). split; [reflexivity|]. cbn zeta.
        pose proof (first_sym_wf Hmo) as Hw. split; [exact Hw|]. split; [right; exact Hw|].
        intros g y. change (upd make_empty (Z.to_nat 1) (with_arc (PState [] f1) (Z.of_nat (S (length (@nil Z)))) 1))
          with [PState [Arc 0 f1 1] f0; PState [@Arc F 1 f1 1] f1].
        unfold add_sym_count, make_empty. cbn [table length Z.of_nat].
        destruct (hist_eqb g []) eqn:E; cbn [andb].
        + apply hist_eqb_eq in E. subst g. rewrite (hist_eqb_neq [0] []) by discriminate.
          rewrite (hist_eqb_refl []). unfold count, find_arc. cbn [ps_final ps_arcs find a_label].
          destruct (Z.eqb_spec y 0) as [->|]; [reflexivity|].
          destruct (Z.eqb_spec 1 y) as [<-|]; [reflexivity|].
          destruct (Z.ltb_spec 0 y), (Z.leb_spec y (Z.pos (Pos.of_succ_nat 0))); cbn [andb]; try reflexivity; lia.
        + rewrite (hist_eqb_neq [] g) by (intros <-; discriminate).
          destruct (hist_eqb [0] g); [|reflexivity]. reflexivity.
      - pose proof (wf_u _ _ _ _ _ _ _ _ Hw) as Hu. pose proof (getZ_range _ _ _ Hu) as Hr.
        rewrite (wf_len _ _ _ _ _ _ _ _ Hw) in Hr. destruct (getZ_ex f u Hr) as [st Hst].
        exists st. split; auto. destruct (wf_add_sym _ _ _ _ _ _ _ _ Hw Hst) as [H1 H2]. cbn zeta in *.
        split; auto. split; auto. right. rewrite app_length. cbn [length]. rewrite Nat.add_1_r. exact H1.
    Qed.

    Lemma add_chars_ok : forall line f syms, ready f syms ->
      exists f', add_chars u f syms line = Ok (f', with_chars syms line) /\ ready f' (with_chars syms line) /\
        forall g y, table ctx f' g y = add_sym_count (length syms) (length (with_chars syms line)) (table ctx f) g y.
    Proof.
      induction line as [|c t IH]; intros f syms Hr; cbn [add_chars with_chars].
      - exists f. split; auto. split; auto. intros g y. rewrite add_sym_same. reflexivity.
      - rewrite find_sym_label, label_absent by lia. destruct (existsb (Z.eqb c) syms) eqn:E; cbn [negb].
        + apply IH; auto.
        + destruct (add_one f syms c Hr) as (st & Hst & H1 & H2 & H3).
          rewrite (vgetZ_Some _ _ _ Hst). cbn [bind]. rewrite vsetZ_Ok by (eapply getZ_range; eauto). cbn [bind].
          rewrite find_sym_label, label_new by auto.
          replace (1 + Z.of_nat (length syms)) with (Z.of_nat (S (length syms))) by lia.
          change (PState (ps_arcs st ++ [Arc (Z.of_nat (S (length syms))) f1 u]) (ps_final st))
            with (with_arc st (Z.of_nat (S (length syms))) u).
          destruct (IH _ _ H2) as (f' & E' & H4 & H5). exists f'. split; auto. split; auto.
          intros g y. rewrite H5. rewrite (add_sym_ext _ _ _ _ _ _ H3).
          rewrite app_length. cbn [length]. rewrite Nat.add_1_r. apply add_sym_trans; [lia|].
          pose proof (with_chars_len t (syms ++ [c])) as HL. rewrite app_length in HL. cbn [length] in HL. lia.
    Qed.

    Lemma add_lines_ok : forall lines f syms, ready f syms ->
      exists f', add_lines start f syms lines = Ok (f', with_chars syms (concat lines)) /\
        ready f' (with_chars syms (concat lines)) /\
        forall g y, table ctx f' g y =
          add_sym_count (length syms) (length (with_chars syms (concat lines))) (table ctx f) g y.
    Proof.
      induction lines as [|line t IH]; intros f syms Hr; cbn [add_lines concat].
      - exists f. split; auto. split; auto. intros g y. rewrite add_sym_same. reflexivity.
      - rewrite (ready_backoff f syms Hr). cbn [bind]. pose proof (ready_u f syms Hr).
        destruct (Z.ltb_spec u 0); [lia|].
        destruct (add_chars_ok line f syms Hr) as (f1 & E & H1 & H2). rewrite E. cbn [bind].
        destruct (IH f1 _ H1) as (f2 & E2 & H3 & H4). rewrite with_chars_app. exists f2. split; auto. split; auto.
        intros g y. rewrite H4, (add_sym_ext _ _ _ _ _ _ H2). apply add_sym_trans; apply with_chars_len.
    Qed.
  End Adding.
End AddChars.
