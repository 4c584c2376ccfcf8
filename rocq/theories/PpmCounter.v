(** A counter that meets the contract of PpmRef.v [counter_contract] (sfst::NGramCounter is external):
    it builds the automaton of PpmTrainSpec.v directly from the predictions of the strings. It shows
    that the contract can be met, and is used in examples. *)
From Verif Require Import Base Field LmModel TextModel HubModel PpmModel PpmSpec PpmReadModel PpmStruct PpmTrainSpec PpmRef PpmVals PpmCache PpmWf PpmTrain PpmRefine.
Local Open Scope Z_scope.

Lemma getZ_index (K : list history) h : NoDup K -> In h K -> getZ K (index_from 0 K h) = Some h.
Proof.
  intros Hn Hin. apply In_getZ in Hin. destruct Hin as [s Hs].
  rewrite (index_from_getZ K 0 h s Hn Hs). exact Hs.
Qed.

Section Counter.
  Context {F : ofield}.

  Definition contexts (n : Z) (strings : list (list Z)) : list history :=
    nodup (list_eq_dec Z.eq_dec)
      (filter (fun h => Z.of_nat (length h) <? n) (flat_map (fun e => suffixes (fst e)) (events strings))).
  Definition labels_after (strings : list (list Z)) (h : history) : list Z :=
    nodup Z.eq_dec (filter (fun x => (0 <? x) && (0 <? occurrences strings h x)) (map snd (events strings))).
  Definition label_arcs (strings : list (list Z)) (K : list history) (h : history) : list (arc F) :=
    map (fun x => Arc x (ofZ (occurrences strings h x)) (index_from 0 K (longest K (h ++ [x])))) (labels_after strings h).
  Definition context_state (strings : list (list Z)) (K : list history) (h : history) : pstate F :=
    PState
      (match h with
       | [] => []
       | _ :: h' => [Arc 0 (fadd (ofZ (occurrences strings h 0)) (fsum (map (@a_count F) (label_arcs strings K h))))
                        (index_from 0 K h')]
       end ++ label_arcs strings K h)
      (ofZ (occurrences strings h 0)).
  Definition reference_counter (n : Z) (strings : list (list Z)) : outcome (list (pstate F) * Z) :=
    let K := contexts n strings in
    Ok (map (context_state strings K) K, index_from 0 K [0]).

  Lemma contexts_In n strings h : In h (contexts n strings) <-> context n strings h.
  Proof.
    unfold contexts, context. rewrite nodup_In, filter_In, in_flat_map, Z.ltb_lt. split.
    - intros [((p & y) & He & Hs) Hl]. apply suffixes_In in Hs. eauto.
    - intros [Hl (p & y & He & Hs)]. split; auto. exists (p, y). split; auto. apply suffixes_In; auto.
  Qed.
  Lemma labels_after_In strings h x : In x (labels_after strings h) <-> 0 < x /\ 0 < occurrences strings h x.
  Proof.
    unfold labels_after. rewrite nodup_In, filter_In, andb_true_iff, !Z.ltb_lt. split; [tauto|].
    intros [H1 H2]. split; auto. apply occ_pos in H2. destruct H2 as (p & H2 & _).
    change x with (snd (p, x)). apply in_map; auto.
  Qed.
  Lemma label_arcs_In strings K h (a : arc F) : In a (label_arcs strings K h) ->
    0 < a_label a /\ 0 < occurrences strings h (a_label a) /\ a_count a = ofZ (occurrences strings h (a_label a)) /\
    a_next a = index_from 0 K (longest K (h ++ [a_label a])).
  Proof.
    unfold label_arcs. intros H. apply in_map_iff in H. destruct H as (x & <- & Hx). apply labels_after_In in Hx.
    cbn [a_label a_count a_next]. tauto.
  Qed.

  Theorem reference_counter_meets_contract : counter_contract reference_counter.
  Proof.
    intros n strings Hn Hne Hok. set (K := contexts n strings).
    exists (map (context_state strings K) K), (index_from 0 K [0]), K. split; [reflexivity|].
    assert (Hnd : NoDup K) by apply NoDup_nodup.
    assert (Hfirst : exists y, In ([0], y) (events strings)).
    { destruct strings as [|s t]; [congruence|]. destruct (events_from_first s [0]) as [y Hy]. exists y.
      unfold events. cbn [flat_map]. apply in_or_app; auto. }
    destruct Hfirst as [y0 Hy0].
    assert (H0 : In [0] K).
    { apply contexts_In. split; [simpl; lia|]. exists [0], y0. split; auto. apply suffix_refl. }
    assert (Hnil : In [] K).
    { apply contexts_In. split; [simpl; lia|]. exists [0], y0. split; auto. exists [0]. reflexivity. }
    assert (Hst : forall s st h, getZ (map (context_state strings K) K) s = Some st -> getZ K s = Some h ->
      st = context_state strings K h).
    { intros s st h Hs Hh. unfold getZ in *. destruct (s <? 0); [discriminate|]. rewrite nth_error_map, Hh in Hs.
      cbn [option_map] in Hs. congruence. }
    assert (Hex : forall s st, getZ (map (context_state strings K) K) s = Some st -> exists h, getZ K s = Some h).
    { intros s st Hs. unfold getZ in *. destruct (s <? 0); [discriminate|]. rewrite nth_error_map in Hs.
      destruct (nth_error K (Z.to_nat s)); [eauto|discriminate]. }
    assert (Hlong : forall h, In (longest K h) K).
    { intros h. destruct (longest_In K h) as [H|[_ H]]; auto. contradiction. }
    assert (Hpos : forall h (a : arc F), In a (label_arcs strings K h) -> (0 <? a_label a) = true).
    { intros h a Ha. apply label_arcs_In in Ha. apply Z.ltb_lt. tauto. }
    assert (Hin : forall h (a : arc F), In a (ps_arcs (context_state strings K h)) -> a_label a <> 0 -> In a (label_arcs strings K h)).
    { intros h a Ha Hl. cbn [context_state ps_arcs] in Ha. apply in_app_or in Ha. destruct Ha as [Ha|Ha]; auto.
      destruct h; [destruct Ha|]. destruct Ha as [<-|[]]. elim Hl. reflexivity. }
    assert (Hnl : forall h, NoDup (map (@a_label F) (label_arcs strings K h)) /\ ~ In 0 (map (@a_label F) (label_arcs strings K h))).
    { intros h. unfold label_arcs. rewrite map_map. cbn [a_label]. rewrite map_id. split; [apply NoDup_nodup|].
      intros H. apply labels_after_In in H. lia. }
    constructor.
    - rewrite map_length. reflexivity.
    - exact Hnd.
    - apply contexts_In.
    - apply getZ_index; auto.
    - intros s st h Hs Hh. rewrite (Hst s st h Hs Hh). reflexivity.
    - intros s st Hs. destruct (Hex s st Hs) as [h Hh]. rewrite (Hst s st h Hs Hh). cbn [context_state ps_arcs].
      rewrite map_app. destruct (Hnl h). destruct h; cbn [map app a_label]; auto. constructor; auto.
    - intros s st c h Hs Hh. rewrite (Hst s st _ Hs Hh). eexists. split; [left; reflexivity|]. cbn [a_label a_next a_count].
      split; auto. split.
      + apply getZ_index; auto. apply getZ_In in Hh. apply contexts_In in Hh. apply contexts_In.
        destruct Hh as [Hl (p & y & He & Hs')]. split; [simpl in Hl; lia|]. exists p, y. split; auto.
        eapply suffix_trans; [|exact Hs']. exists [c]. reflexivity.
      + cbn [context_state ps_arcs ps_final app filter]. do 3 f_equal.
        induction (label_arcs strings K (c :: h)) as [|a t IH] eqn:E in Hpos |- *.
        * reflexivity.
        * cbn [filter a_label].
          assert (G : forall l, (forall a : arc F, In a l -> (0 <? a_label a) = true) -> filter (fun a : arc F => 0 <? a_label a) l = l).
          { intros l. induction l as [|b l IHl]; intros Hl; [reflexivity|]. cbn [filter]. rewrite Hl by (left; auto).
            rewrite IHl by (intros; apply Hl; right; auto). reflexivity. }
          change (0 <? 0) with false. cbn iota.
          symmetry. change (filter (fun a0 : arc F => 0 <? a_label a0) (a :: t) = a :: t). apply G. rewrite <- E. apply Hpos.
    - intros s st a Hs Hh Ha. rewrite (Hst s st _ Hs Hh) in Ha. cbn [context_state ps_arcs app] in Ha.
      apply Hpos in Ha. apply Z.ltb_lt in Ha. lia.
    - intros s st h a Hs Hh Ha Hl. rewrite (Hst s st _ Hs Hh) in Ha. apply Hin in Ha; auto.
      apply label_arcs_In in Ha. destruct Ha as (A1 & A2 & A3 & A4). split; auto. split; auto. split; auto.
      rewrite A4. apply getZ_index; auto.
    - intros s st h x Hs Hh Hx Ho. rewrite (Hst s st _ Hs Hh).
      exists (Arc x (ofZ (occurrences strings h x)) (index_from 0 K (longest K (h ++ [x])))). split; [|reflexivity].
      cbn [context_state ps_arcs]. apply in_or_app. right. unfold label_arcs.
      apply in_map_iff. exists x. split; auto. apply labels_after_In; auto.
  Qed.
End Counter.
