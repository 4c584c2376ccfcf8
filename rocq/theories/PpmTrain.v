(** Training from text (ppm_as_fst_model.cc:92-207, 347-381, 420-444) gives a sound automaton with
    the counts of update exclusion, if the counter keeps its contract. *)
From Coq Require Import Field Permutation.
From Verif Require Import Base Field LmModel TextModel HubModel PpmModel PpmSpec PpmReadModel PpmStruct PpmTrainSpec PpmVals PpmCache PpmWf PpmUpdate PpmObserve PpmApi PpmRead PpmRead2.
Local Open Scope Z_scope.

(** Longest known suffix. *)
Lemma longest_suffix (K : list history) h : suffix (longest K h) h.
Proof.
  induction h as [|c h IH]; cbn [longest]; [destruct (existsb (hist_eqb []) K); apply suffix_refl|].
  destruct (existsb (hist_eqb (c :: h)) K); [apply suffix_refl|]. apply suffix_cons; auto.
Qed.
Lemma longest_ge (K : list history) h g : suffix g h -> In g K -> (length g <= length (longest K h))%nat.
Proof.
  induction h as [|c h IH]; intros Hs Hg; cbn [longest].
  - destruct Hs as (p & E). symmetry in E. apply app_eq_nil in E. destruct E as [_ ->]. destruct (existsb (hist_eqb []) K); simpl; lia.
  - destruct (existsb (hist_eqb (c :: h)) K) eqn:E; [apply suffix_len; auto|].
    apply suffix_cons in Hs. destruct Hs as [->|Hs]; [|auto]. rewrite (proj2 (mem_In _ _) Hg) in E. discriminate.
Qed.
Lemma longest_In (K : list history) h : In (longest K h) K \/ (longest K h = [] /\ ~ In [] K).
Proof.
  induction h as [|c h IH]; cbn [longest].
  - destruct (existsb (hist_eqb []) K) eqn:E; [left; apply mem_In; auto|right]. split; auto. intros K0.
    rewrite (proj2 (mem_In _ _) K0) in E. discriminate.
  - destruct (existsb (hist_eqb (c :: h)) K) eqn:E; [left; apply mem_In; auto|auto].
Qed.
Lemma longest_self (K : list history) h : In h K -> longest K h = h.
Proof. intros H. destruct h; cbn [longest]; rewrite (proj2 (mem_In _ _) H); reflexivity. Qed.

(** Predictions. *)
Lemma events_from_prev s : forall p q y, In (q, y) (events_from p s) ->
  q = p \/ exists q0 x, q = q0 ++ [x] /\ In (q0, x) (events_from p s) /\ In x s.
Proof.
  induction s as [|a t IH]; intros p q y H; cbn [events_from In] in H.
  - destruct H as [[= -> _]|[]]; auto.
  - destruct H as [[= -> _]|H]; auto. right. destruct (IH _ _ _ H) as [->|(q0 & x & -> & H1 & H2)].
    + exists p, a. cbn [events_from In]. auto.
    + exists q0, x. cbn [events_from In]. auto.
Qed.
Lemma events_from_next s : forall p q y, In (q, y) (events_from p s) -> y <> 0 ->
  In y s /\ exists z, In (q ++ [y], z) (events_from p s).
Proof.
  induction s as [|a t IH]; intros p q y H Hy; cbn [events_from In] in H.
  - destruct H as [[= -> <-]|[]]. congruence.
  - destruct H as [[= <- <-]|H].
    + split; [left; auto|]. destruct t as [|b t]; cbn [events_from In]; eauto.
    + destruct (IH _ _ _ H Hy) as [H1 [z H2]]. split; [right; auto|]. exists z. right; auto.
Qed.
Lemma events_from_history s : forall p q y, In (q, y) (events_from p s) ->
  exists t, q = p ++ t /\ incl t s.
Proof.
  induction s as [|a t IH]; intros p q y H; cbn [events_from In] in H.
  - destruct H as [[= -> _]|[]]. exists []. rewrite app_nil_r. split; auto. intros z [].
  - destruct H as [[= -> _]|H]; [exists []; rewrite app_nil_r; split; auto; intros z []|].
    destruct (IH _ _ _ H) as (t' & -> & Hi). exists (a :: t'). rewrite <- app_assoc. split; auto.
    intros z [<-|Hz]; [left; auto|right; auto].
Qed.
Lemma events_from_sym s : forall p q y, In (q, y) (events_from p s) -> y = 0 \/ In y s.
Proof.
  intros p q y H. destruct (Z.eq_dec y 0); auto. right. apply (events_from_next s p q y); auto.
Qed.
Lemma events_from_all s : forall p x, In x s -> exists q, In (q, x) (events_from p s).
Proof.
  induction s as [|a t IH]; intros p x H; [destruct H|]. cbn [events_from].
  destruct H as [->|H]; [exists p; left; auto|]. destruct (IH (p ++ [a]) x H) as [q Hq]. exists q. right; auto.
Qed.
Lemma events_from_first s p : exists y, In (p, y) (events_from p s).
Proof. destruct s; cbn [events_from]; eexists; left; reflexivity. Qed.

Section Text.
  Variables (V : nat) (strings : list (list Z)) (n : Z).
  Hypothesis labels_ok : forall s x, In s strings -> In x s -> 1 <= x <= Z.of_nat V.
  Notation O := (occurrences strings).

  Lemma occ_pos h x : 0 < O h x <-> exists p, In (p, x) (events strings) /\ suffix h p.
  Proof. clear labels_ok.
    unfold occurrences. split.
    - intros H. destruct (filter _ (events strings)) as [|[p y] t] eqn:E; [simpl in H; lia|].
      assert (Hin : In (p, y) ((p, y) :: t)) by (left; auto). rewrite <- E in Hin.
      apply filter_In in Hin. cbn [fst snd] in Hin. destruct Hin as [Hin Hp]. apply andb_true_iff in Hp.
      destruct Hp as [H1 H2]. apply Z.eqb_eq in H2. subst y. apply mem_In, suffixes_In in H1. eauto.
    - intros (p & H1 & H2).
      assert (Hin : In (p, x) (filter (fun e => existsb (hist_eqb h) (suffixes (fst e)) && (snd e =? x)) (events strings))).
      { apply filter_In. split; auto. cbn [fst snd]. rewrite Z.eqb_refl, andb_true_r. apply mem_In, suffixes_In; auto. }
      destruct (filter _ (events strings)); [destruct Hin|simpl; lia].
  Qed.
  Lemma occ_nonneg h x : 0 <= O h x.
  Proof. clear labels_ok. unfold occurrences. lia. Qed.
  Lemma occ_range h x : 0 < O h x -> 0 <= x <= Z.of_nat V.
  Proof.
    intros H. apply occ_pos in H. destruct H as (p & H & _). unfold events in H. apply in_flat_map in H.
    destruct H as (s & Hs & H). apply events_from_sym in H. destruct H as [->|H]; [lia|].
    specialize (labels_ok s x Hs H). lia.
  Qed.
  Lemma occ_tail c h x : 0 < O (c :: h) x -> 0 < O h x.
  Proof. clear labels_ok.
    intros H. apply occ_pos in H. destruct H as (p & H1 & H2). apply occ_pos. exists p. split; auto.
    eapply suffix_trans; [|exact H2]. exists [c]. reflexivity.
  Qed.
  Lemma event_prev p y : In (p, y) (events strings) ->
    p = [0] \/ exists p0 x, p = p0 ++ [x] /\ In (p0, x) (events strings) /\ 1 <= x.
  Proof.
    intros H. unfold events in H. apply in_flat_map in H. destruct H as (s & Hs & H).
    apply events_from_prev in H. destruct H as [->|(q0 & x & -> & H1 & H2)]; auto. right.
    exists q0, x. split; auto. split; [apply in_flat_map; eauto|]. specialize (labels_ok s x Hs H2). lia.
  Qed.
  Lemma event_next p x : In (p, x) (events strings) -> x <> 0 -> exists z, In (p ++ [x], z) (events strings).
  Proof. clear labels_ok.
    intros H Hx. unfold events in *. apply in_flat_map in H. destruct H as (s & Hs & H).
    destruct (events_from_next _ _ _ _ H Hx) as [_ [z Hz]]. exists z. apply in_flat_map; eauto.
  Qed.
  Lemma event_head p y : In (p, y) (events strings) -> exists t, p = 0 :: t /\ ~ In 0 t.
  Proof.
    intros H. unfold events in H. apply in_flat_map in H. destruct H as (s & Hs & H).
    apply events_from_history in H. destruct H as (t & -> & Hi). exists t. split; auto.
    intros K. specialize (labels_ok s 0 Hs (Hi 0 K)). lia.
  Qed.

  (** Contexts. *)
  Notation ctxt := (context n strings).
  Lemma ctx_tail c h : ctxt (c :: h) -> ctxt h.
  Proof. clear labels_ok.
    intros [H (p & y & H1 & H2)]. split; [simpl in H; lia|]. exists p, y. split; auto.
    eapply suffix_trans; [|exact H2]. exists [c]. reflexivity.
  Qed.
  Lemma ctx_some h : ctxt h -> exists x, 0 <= x <= Z.of_nat V /\ 0 < O h x.
  Proof.
    intros [H (p & y & H1 & H2)]. exists y.
    assert (K : 0 < O h y) by (apply occ_pos; eauto). split; auto. eapply occ_range; eauto.
  Qed.
  Lemma ctx_prefix h x : ctxt (h ++ [x]) -> h ++ [x] <> [0] -> ctxt h /\ 0 < O h x /\ 1 <= x.
  Proof.
    intros [H (p & y & H1 & H2)] Hne. rewrite app_length in H. simpl in H.
    destruct (event_prev p y H1) as [->|(p0 & x' & -> & H3 & H4)].
    - destruct H2 as (q & E). destruct q as [|c q].
      + cbn [app] in E. congruence.
      + injection E as _ E. symmetry in E. apply app_eq_nil in E. destruct E as [_ E].
        apply app_eq_nil in E. destruct E; discriminate.
    - destruct H2 as (q & E). rewrite app_assoc in E. apply app_inj_tail in E. destruct E as [-> ->].
      assert (suffix h (q ++ h)) by (exists q; auto).
      split; [split; [lia|eauto]|]. split; auto. apply occ_pos; eauto.
  Qed.
  Lemma ctx_step h x : ctxt h -> 0 < O h x -> 1 <= x -> Z.of_nat (length h) + 1 < n -> ctxt (h ++ [x]).
  Proof. clear labels_ok.
    intros _ H Hx Hl. apply occ_pos in H. destruct H as (p & H1 & H2).
    destruct (event_next p x H1 ltac:(lia)) as [z Hz]. split; [rewrite app_length; simpl; lia|].
    exists (p ++ [x]), z. split; auto. apply suffix_app; auto.
  Qed.
  Lemma ctx_ext h g x : ctxt g -> longer h g = true -> 0 < O h x ->
    exists g', ctxt g' /\ longer h g' = true /\ 0 < O g' x.
  Proof.
    intros Hg Hl H. destruct g as [|c g]; [discriminate|]. cbn [longer] in Hl. apply hist_eqb_eq in Hl. subst g.
    apply occ_pos in H. destruct H as (p & H1 & (q & E)).
    destruct (@exists_last _ q) as (q0 & c' & ->).
    - intros ->. cbn [app] in E. subst p. destruct (event_head _ _ H1) as (t & -> & _).
      destruct Hg as [_ (p' & y & H2 & (q & E))]. destruct (event_head _ _ H2) as (t' & -> & Ht').
      destruct q as [|z q]; injection E as _ E; subst t'; apply Ht'; [left; auto|].
      apply in_app_iff. right. right. left. reflexivity.
    - exists (c' :: h). cbn [longer]. rewrite hist_eqb_refl. rewrite <- app_assoc in E. cbn [app] in E.
      assert (Hs : suffix (c' :: h) p) by (exists q0; auto).
      split; [|split; auto; apply occ_pos; eauto].
      destruct Hg as [Hg _]. split; [simpl in *; lia|eauto].
  Qed.
  Lemma ctx_start : 2 <= n -> strings <> [] -> ctxt [0] /\ ctxt [].
  Proof. clear labels_ok.
    intros Hn Hs. destruct strings as [|s t]; [congruence|].
    destruct (events_from_first s [0]) as [y Hy].
    assert (Hin : In ([0], y) (events (s :: t))) by (unfold events; cbn [flat_map]; apply in_app_iff; auto).
    split; (split; [simpl; lia|]); exists [0], y; (split; [exact Hin|]); [apply suffix_refl|apply suffix_nil].
  Qed.
  Lemma all_seen x : (exists s, In s strings /\ In x s) -> 0 < O [] x.
  Proof. clear labels_ok.
    intros (s & Hs & Hx). apply occ_pos. destruct (events_from_all s [0] x Hx) as [q Hq]. exists q.
    split; [apply in_flat_map; eauto|apply suffix_nil].
  Qed.
End Text.

Lemma filter_all {A} (p : A -> bool) l : (forall a, In a l -> p a = true) -> filter p l = l.
Proof.
  induction l as [|a t IH]; intros H; cbn [filter]; [reflexivity|].
  rewrite (H a) by (left; auto). f_equal. apply IH. intros; apply H; right; auto.
Qed.

Section Exclusions.
  Context {F : ofield}.
  Add Field FfieldPpm10 : (f_th F).
  Variables (V : nat) (strings : list (list Z)) (n : Z).
  Variables (raw : list (pstate F)) (start : Z) (ctx : list history).
  Hypothesis labels_ok : forall s x, In s strings -> In x s -> 1 <= x <= Z.of_nat V.
  Hypothesis labels_all : forall x, 1 <= x <= Z.of_nat V -> exists s, In s strings /\ In x s.
  Hypothesis HV : (0 < V)%nat.
  Hypothesis Hn : 2 <= n.
  Hypothesis Hc : counted n strings raw start ctx.
  Notation O := (occurrences strings).
  Notation none := (fun _ : Z => False).

  Definition f1s : list (pstate F) := sort_states raw.

  Definition arcs_ok (cnt : history -> Z -> Z) (h : history) (l rest : list (arc F)) (T : car F) : Prop :=
    match h with [] => l = rest | _ :: h' => exists b, l = Arc 0 T b :: rest /\ getZ ctx b = Some h' end /\
    NoDup (map (@a_label F) rest) /\
    (forall a, In a rest -> 1 <= a_label a /\ 0 < O h (a_label a) /\ a_count a = ofZ (cnt h (a_label a)) /\
                            getZ ctx (a_next a) = Some (longest ctx (h ++ [a_label a]))) /\
    (forall x, 1 <= x -> 0 < O h x -> In x (map (@a_label F) rest)).

  Lemma strings_ne : strings <> [].
  Proof. destruct (labels_all 1) as (s & Hs & _); [lia|]. intros E. rewrite E in Hs. destruct Hs. Qed.
  Lemma In_ctx h : In h ctx <-> context n strings h.
  Proof. apply (ct_ctx _ _ _ _ _ Hc). Qed.
  Lemma nil_ctx : In ([] : history) ctx.
  Proof. apply In_ctx. exact (proj2 (ctx_start strings n Hn strings_ne)). Qed.

  (** A change of counts only. *)
  Lemma arcs_ok_map cnt cnt' h l rest T (g : arc F -> arc F) : arcs_ok cnt h l rest T ->
    (forall a, In a rest -> a_label (g a) = a_label a /\ a_next (g a) = a_next a /\
                            a_count (g a) = ofZ (cnt' h (a_label a))) ->
    (forall T b, a_label (g (Arc 0 T b)) = 0 /\ a_next (g (Arc 0 T b)) = b) ->
    exists T', arcs_ok cnt' h (map g l) (map g rest) T' /\ T' = a_count (g (Arc 0 T (match l with [] => 0 | a :: _ => a_next a end))).
  Proof.
    intros (H1 & H2 & H3 & H4) Hg Hg0.
    assert (Em : map (@a_label F) (map g rest) = map (@a_label F) rest).
    { rewrite map_map. apply map_ext_in. intros a Ha. apply Hg; auto. }
    eexists. split; [|reflexivity]. split; [|split; [|split]].
    - destruct h as [|c h']; [subst l; reflexivity|]. destruct H1 as (b & -> & Hb). exists b. split; auto.
      cbn [map]. f_equal. cbn [a_next]. destruct (Hg0 T b) as [E1 E2]. destruct (g (Arc 0 T b)) as [la ca na] eqn:E.
      cbn [a_label a_next a_count] in *. subst. reflexivity.
    - rewrite Em. auto.
    - intros a Ha. apply in_map_iff in Ha. destruct Ha as (a0 & <- & Ha). destruct (Hg a0 Ha) as (E1 & E2 & E3).
      rewrite E1, E2, E3. specialize (H3 a0 Ha). tauto.
    - rewrite Em. auto.
  Qed.

  Lemma sorted_ok s h : getZ ctx s = Some h -> exists st rest T, getZ f1s s = Some st /\
    arcs_ok O h (ps_arcs st) rest T /\ ps_final st = ofZ (O h 0) /\
    T = fadd (ofZ (O h 0)) (fsum (map (@a_count F) rest)).
  Proof.
    intros Hs. pose proof (getZ_range _ _ _ Hs) as Hr. rewrite (ct_len _ _ _ _ _ Hc) in Hr.
    destruct (getZ_ex raw s Hr) as [st Hst].
    pose proof (ct_labels _ _ _ _ _ Hc s st Hst) as Hnd.
    pose proof (arc_sort_perm (ps_arcs st)) as Hp.
    assert (Hst' : getZ f1s s = Some (sorted st)) by (unfold f1s; rewrite sort_states_get, Hst; reflexivity).
    assert (Hlab : forall a, In a (ps_arcs st) -> a_label a = 0 \/ 0 < a_label a).
    { intros a Ha. destruct (Z.eq_dec (a_label a) 0); auto. right.
      apply (ct_arc _ _ _ _ _ Hc s st h a Hst Hs Ha); auto. }
    destruct h as [|c h].
    - exists (sorted st), (arc_sort (ps_arcs st)). eexists. split; [exact Hst'|].
      split; [|split; [cbn [sorted ps_final]; eapply ct_final; eauto|reflexivity]].
      cbn [sorted ps_arcs]. split; [reflexivity|]. split; [|split].
      + eapply Permutation_NoDup; [|exact Hnd]. apply Permutation_map, Permutation_sym; auto.
      + intros a Ha. apply (Permutation_in _ Hp) in Ha.
        destruct (ct_arc _ _ _ _ _ Hc s st [] a Hst Hs Ha) as (A1 & A2 & A3 & A4).
        { eapply ct_empty; eauto. } split; [lia|auto].
      + intros x Hx Ho. destruct (ct_all _ _ _ _ _ Hc s st [] x Hst Hs) as (a & Ha & <-); [lia|auto|].
        apply in_map. eapply Permutation_in; [apply Permutation_sym; exact Hp|auto].
    - destruct (ct_backoff _ _ _ _ _ Hc s st c h Hst Hs) as (e & He & He0 & Heb & Het).
      apply in_split in He. destruct He as (l1 & l2 & El).
      assert (Hrest : forall a, In a (l1 ++ l2) -> 1 <= a_label a).
      { intros a Ha. assert (Hin : In a (ps_arcs st)).
        { rewrite El. apply in_app_iff in Ha. apply in_app_iff. cbn [In]. tauto. }
        destruct (Hlab a Hin) as [E|E]; [|lia]. exfalso.
        rewrite El, map_app in Hnd. cbn [map] in Hnd. apply NoDup_remove_2 in Hnd. apply Hnd.
        rewrite <- map_app. rewrite He0, <- E. apply in_map; auto. }
      assert (Hp2 : Permutation (arc_sort (ps_arcs st)) (e :: arc_sort (l1 ++ l2))).
      { rewrite Hp, El. rewrite <- Permutation_middle. rewrite arc_sort_perm. reflexivity. }
      assert (Hsort : exists rest, arc_sort (ps_arcs st) = e :: rest /\ Permutation rest (l1 ++ l2)).
      { assert (Hmin : forall l, Permutation l (e :: l1 ++ l2) -> exists rest, arc_sort l = e :: rest /\ Permutation rest (l1 ++ l2)).
        { intros l Hl. assert (Hs1 : Permutation (arc_sort l) (e :: l1 ++ l2)) by (rewrite arc_sort_perm; auto).
          assert (Hhead : forall l, Permutation l (e :: l1 ++ l2) -> exists rest, arc_sort l = e :: rest).
          { clear l Hl Hs1. intros l Hl. assert (Hle : forall a, In a l -> a_label e <= a_label a).
            { intros a Ha. apply (Permutation_in _ Hl) in Ha. rewrite He0. destruct Ha as [<-|Ha]; [lia|]. apply Hrest in Ha. lia. }
            assert (Hin : In e l) by (eapply Permutation_in; [apply Permutation_sym; exact Hl|left; auto]).
            assert (Huniq : forall a, In a l -> a_label a <= 0 -> a = e).
            { intros a Ha Hle0. apply (Permutation_in _ Hl) in Ha. destruct Ha as [<-|Ha]; auto. apply Hrest in Ha. lia. }
            clear Hl. induction l as [|b t IH]; [destruct Hin|]. cbn [arc_sort].
            destruct (Z.leb_spec (a_label b) 0) as [Hb|Hb].
            - pose proof (Huniq b (or_introl eq_refl) Hb) as ->. rewrite arc_insert_least; [eauto|].
              intros a Ha. apply Hle. right. eapply Permutation_in; [apply arc_sort_perm|exact Ha].
            - destruct Hin as [->|Hin]; [rewrite He0 in Hb; lia|].
              destruct IH as [rest ->]; auto; [intros; apply Hle; right; auto|intros; apply Huniq; auto; right; auto|].
              cbn [arc_insert]. destruct (Z.leb_spec (a_label b) (a_label e)); [rewrite He0 in *; lia|eauto]. }
          destruct (Hhead l Hl) as [rest E]. exists rest. split; auto. rewrite E in Hs1. eapply Permutation_cons_inv; eauto. }
        apply Hmin. rewrite El. symmetry. apply Permutation_middle. }
      destruct Hsort as (rest & Er & Hpr).
      exists (sorted st), rest, (a_count e). split; [exact Hst'|].
      split; [|split; [cbn [sorted ps_final]; eapply ct_final; eauto|]].
      + cbn [sorted ps_arcs]. split; [|split; [|split]].
        * exists (a_next e). rewrite Er. split; auto. destruct e as [le ce ne]; cbn [a_label a_count a_next] in *. subst. reflexivity.
        * eapply Permutation_NoDup; [apply Permutation_map, Permutation_sym; exact Hpr|].
          rewrite El, map_app in Hnd. cbn [map] in Hnd. apply NoDup_remove_1 in Hnd. rewrite map_app. auto.
        * intros a Ha. apply (Permutation_in _ Hpr) in Ha. pose proof (Hrest a Ha) as Hla.
          assert (Hin : In a (ps_arcs st)) by (rewrite El; apply in_app_iff in Ha; apply in_app_iff; cbn [In]; tauto).
          destruct (ct_arc _ _ _ _ _ Hc s st _ a Hst Hs Hin) as (A1 & A2 & A3 & A4); [lia|]. auto.
        * intros x Hx Ho. destruct (ct_all _ _ _ _ _ Hc s st _ x Hst Hs) as (a & Ha & <-); [lia|auto|].
          apply in_map. eapply Permutation_in; [apply Permutation_sym; exact Hpr|].
          rewrite El in Ha. apply in_app_iff in Ha. apply in_app_iff. destruct Ha as [Ha|[<-|Ha]]; auto. lia.
      + rewrite Het, (ct_final _ _ _ _ _ Hc s st _ Hst Hs). f_equal. apply fsum_perm, Permutation_map.
        rewrite Hpr, El, filter_app. cbn [filter]. rewrite He0. cbn [Z.ltb Z.compare]. rewrite <- filter_app.
        rewrite (filter_all _ (l1 ++ l2)); [reflexivity|]. intros a Ha. apply Z.ltb_lt.
        apply Hrest in Ha. lia.
  Qed.

  (** Back-off states. *)
  Definition tgt (h : history) : bool := existsb (longer h) ctx.

  Lemma ctx_state s h : getZ ctx s = Some h -> context n strings h.
  Proof. intros H. apply In_ctx. eapply getZ_In; eauto. Qed.

  Lemma uni_rest cnt l rest T : arcs_ok cnt [] l rest T -> exists a t, l = a :: t /\ 1 <= a_label a.
  Proof.
    intros (-> & _ & H3 & H4). destruct rest as [|a t].
    - destruct (labels_all 1) as (s & Hs & H1); [lia|].
      destruct (H4 1); [lia|]. eapply all_seen; eauto.
    - exists a, t. split; auto. apply H3. left; auto.
  Qed.
  Lemma arcs_backoff cnt (f : list (pstate F)) s st h rest T : getZ f s = Some st -> arcs_ok cnt h (ps_arcs st) rest T ->
    match h with
    | [] => backoff_state f s = Ok (-1)
    | _ :: h' => exists b, backoff_state f s = Ok b /\ getZ ctx b = Some h'
    end.
  Proof.
    intros Hst Ha. destruct h as [|c h'].
    - destruct (uni_rest _ _ _ _ Ha) as (a & t & E & Hl).
      rewrite (backoff_end f s st a t Hst E); [reflexivity|lia].
    - destruct Ha as ((b & E & Hb) & _). exists b. split; auto. exact (backoff_step f s st _ b _ Hst E).
  Qed.

  Lemma longer_tgt c h : In (c :: h) ctx -> tgt h = true.
  Proof. intros H. unfold tgt. apply existsb_exists. exists (c :: h). split; auto. cbn [longer]. apply hist_eqb_refl. Qed.

  Lemma targets_ok : forall ss, (forall s, In s ss -> (s < length ctx)%nat) ->
    exists ts, backoff_targets f1s ss = Ok ts /\
      forall b, In b ts <-> exists s c h, In s ss /\ getZ ctx (Z.of_nat s) = Some (c :: h) /\ getZ ctx b = Some h.
  Proof.
    assert (Hlen : length f1s = length ctx) by (unfold f1s, sort_states; rewrite map_length, (ct_len _ _ _ _ _ Hc); auto).
    induction ss as [|s t IH]; intros Hss; cbn [backoff_targets].
    - exists []. split; auto. intros b. split; [intros []|intros (s & c & h & [] & _)].
    - destruct (getZ_ex ctx (Z.of_nat s)) as [h Hs]; [specialize (Hss s (or_introl eq_refl)); lia|].
      destruct (IH ltac:(intros; apply Hss; right; auto)) as (ts & E & Hts).
      destruct (sorted_ok _ _ Hs) as (st & rest & T & Hst & Ha & _).
      pose proof (arcs_backoff _ _ _ _ _ _ _ Hst Ha) as Hb. destruct h as [|c h].
      + rewrite Hb. cbn [bind]. destruct (Z.leb_spec (Z.of_nat (length f1s)) (-1)); [lia|]. rewrite E. cbn [bind].
        exists ts. split; [reflexivity|]. intros b. rewrite Hts. split; intros (s' & c & h & G1 & G2 & G3).
        * exists s', c, h. split; [right|]; auto.
        * destruct G1 as [<-|G1]; [congruence|]. exists s', c, h. auto.
      + destruct Hb as (b & Hb & Hbc). rewrite Hb. cbn [bind]. pose proof (getZ_range _ _ _ Hbc).
        destruct (Z.leb_spec (Z.of_nat (length f1s)) b); [lia|]. rewrite E. cbn [bind].
        destruct (Z.leb_spec 0 b); [|lia]. exists (b :: ts). split; [reflexivity|]. intros b'. cbn [In]. rewrite Hts. split.
        * intros [<-|(s' & c' & h' & G1 & G2 & G3)]; [exists s, c, h; auto|exists s', c', h'; auto].
        * intros (s' & c' & h' & [<-|G1] & G2 & G3); [left|right; exists s', c', h'; auto].
          rewrite Hs in G2. injection G2 as <- <-. eapply getZ_nodup; eauto. apply (ct_nodup _ _ _ _ _ Hc).
  Qed.

  Lemma is_target_ok ts : (forall b, In b ts <-> exists s c h, In s (seq 0 (length ctx)) /\ getZ ctx (Z.of_nat s) = Some (c :: h) /\ getZ ctx b = Some h) ->
    forall s h, getZ ctx (Z.of_nat s) = Some h -> is_target ts s = tgt h.
  Proof.
    intros Hts s h Hs. unfold is_target. destruct (tgt h) eqn:E.
    - apply existsb_exists. exists (Z.of_nat s). split; [|apply Z.eqb_refl]. apply Hts.
      unfold tgt in E. apply existsb_exists in E. destruct E as (g & Hg & El).
      destruct g as [|c g]; [discriminate|]. cbn [longer] in El. apply hist_eqb_eq in El. subst g.
      apply In_getZ in Hg. destruct Hg as [i Hi]. pose proof (getZ_range _ _ _ Hi). exists (Z.to_nat i), c, h.
      rewrite Z2Nat.id by lia. split; [apply in_seq; lia|auto].
    - destruct (existsb (Z.eqb (Z.of_nat s)) ts) eqn:E2; auto. apply existsb_exists in E2. destruct E2 as (b & Hb & Eb).
      apply Z.eqb_eq in Eb. subst b. apply Hts in Hb. destruct Hb as (s' & c & h' & _ & H2 & H3).
      rewrite Hs in H3. injection H3 as <-. rewrite (longer_tgt c h) in E; [discriminate|]. eapply getZ_In; eauto.
  Qed.

  (** Counting. *)
  Definition CN (hs : list history) (h : history) (x : Z) : Z :=
    if tgt h then Z.of_nat (length (filter (fun g => longer h g && (0 <? O g x)) hs)) else O h x.

  Definition rk (cnt : history -> Z -> Z) (l : list (rstate F)) : Prop :=
    length l = length ctx /\
    forall s h, getZ ctx s = Some h -> exists rs rest T, getZ l s = Some rs /\ arcs_ok cnt h (r_arcs rs) rest T /\
      r_final rs = (if 0 <? O h 0 then Some (ofZ (cnt h 0)) else None) /\
      (tgt h = false -> T = fadd (ofZ (O h 0)) (fsum (map (@a_count F) rest))).

  Lemma zero_out_get ts : forall (l : list (rstate F)) k i, nth_error (zero_out ts k l) i =
    option_map (fun st => if is_target ts (k + i)
         then RState (map (fun a => Arc (a_label a) f0 (a_next a)) (r_arcs st)) (option_map (fun _ => f0) (r_final st))
         else st) (nth_error l i).
  Proof.
    induction l as [|st t IH]; intros k [|i]; cbn [zero_out nth_error option_map]; try reflexivity.
    - rewrite Nat.add_0_r. reflexivity.
    - rewrite IH. replace (S k + i)%nat with (k + S i)%nat by lia. reflexivity.
  Qed.
  Lemma zero_out_len ts : forall (l : list (rstate F)) k, length (zero_out ts k l) = length l.
  Proof. induction l as [|st t IH]; intros k; cbn [zero_out length]; auto. Qed.

  Lemma r_final_of h st : ps_final st = ofZ (O h 0) -> r_final (@r_of F st) = if 0 <? O h 0 then Some (ofZ (O h 0)) else None.
  Proof.
    intros E. unfold r_of. cbn [r_final]. rewrite E. pose proof (occ_nonneg strings h 0).
    destruct (Z.ltb_spec 0 (O h 0)) as [Hp|Hp].
    - destruct (feqb (ofZ (O h 0)) f0) eqn:E2; auto. apply feqb_eq in E2.
      elim (ofZ_neq0 (F:=F) (O h 0)); auto. lia.
    - replace (O h 0) with 0 by lia. rewrite ofZ_0, feqb_refl. reflexivity.
  Qed.

  Lemma zero_ok ts : (forall s h, getZ ctx (Z.of_nat s) = Some h -> is_target ts s = tgt h) ->
    rk (CN []) (zero_out ts 0 (map (@r_of F) f1s)).
  Proof.
    intros Hts. split.
    - rewrite zero_out_len, map_length. unfold f1s, sort_states. rewrite map_length. symmetry. apply (ct_len _ _ _ _ _ Hc).
    - intros s h Hs. destruct (sorted_ok s h Hs) as (st & rest & T & Hst & Ha & Hf & HT).
      pose proof (getZ_range _ _ _ Hs) as Hr.
      assert (Hg : getZ (zero_out ts 0 (map (@r_of F) f1s)) s = Some (if tgt h
         then RState (map (fun a => Arc (a_label a) f0 (a_next a)) (ps_arcs st)) (option_map (fun _ => f0) (r_final (r_of st)))
         else r_of st)).
      { assert (Es : exists k, s = Z.of_nat k) by (exists (Z.to_nat s); lia). destruct Es as [k ->]. rewrite getZ_nat in Hst. rewrite getZ_nat.
        rewrite zero_out_get, nth_error_map, Hst. cbn [option_map].
        rewrite Nat.add_0_l, (Hts _ h); [reflexivity|]. exact Hs. }
      destruct (tgt h) eqn:Et.
      + destruct (arcs_ok_map O (CN []) h (ps_arcs st) rest T (fun a => Arc (a_label a) f0 (a_next a)) Ha) as (T' & Ha' & _).
        * intros a _. cbn [a_label a_next a_count]. unfold CN. rewrite Et. auto.
        * intros; auto.
        * eexists _, _, _. split; [exact Hg|]. cbn [r_arcs r_final]. split; [exact Ha'|]. split; [|discriminate].
          rewrite (r_final_of h st Hf). unfold CN. rewrite Et. destruct (0 <? O h 0); reflexivity.
      + exists (r_of st), rest, T. split; auto. cbn [r_of r_arcs]. split; [|split].
        * destruct Ha as (A1 & A2 & A3 & A4). split; auto. split; auto. split; auto. intros a Hin.
          unfold CN. rewrite Et. auto.
        * unfold CN. rewrite Et. exact (r_final_of h st Hf).
        * auto.
  Qed.

  Lemma CN_snoc_other hs g h x : longer h g = false -> CN (hs ++ [g]) h x = CN hs h x.
  Proof. intros E. unfold CN. rewrite filter_snoc, E. cbn [andb]. rewrite app_nil_r. reflexivity. Qed.
  Lemma CN_snoc hs c h x : tgt h = true -> CN (hs ++ [c :: h]) h x = CN hs h x + (if 0 <? O (c :: h) x then 1 else 0).
  Proof.
    intros E. unfold CN. rewrite E, filter_snoc. cbn [longer]. rewrite hist_eqb_refl. cbn [andb]. rewrite app_length.
    destruct (0 <? O (c :: h) x); simpl; lia.
  Qed.
  Lemma rk_ext cnt cnt' l : (forall h x, cnt h x = cnt' h x) -> rk cnt l -> rk cnt' l.
  Proof.
    intros E [H1 H2]. split; auto. intros s h Hs. destruct (H2 s h Hs) as (rs & rest & T & Hg & (A1 & A2 & A3 & A4) & Hf & HT).
    exists rs, rest, T. split; auto. split; [|rewrite <- E; auto]. split; auto. split; auto. split; auto.
    intros a Ha. rewrite <- E. auto.
  Qed.

  Lemma has_ok cnt c h l rest T x : arcs_ok cnt (c :: h) l rest T -> 1 <= x ->
    existsb (fun a => (0 <? a_label a) && (a_label a =? x)) l = (0 <? O (c :: h) x).
  Proof.
    intros ((b & -> & _) & _ & A3 & A4) Hx. cbn [existsb a_label]. cbn [Z.ltb Z.compare andb orb].
    destruct (Z.ltb_spec 0 (O (c :: h) x)) as [Hp|Hp].
    - apply A4 in Hp; auto. apply in_map_iff in Hp. destruct Hp as (a & <- & Ha). apply existsb_exists. exists a.
      split; auto. rewrite Z.eqb_refl, andb_true_r. apply Z.ltb_lt. lia.
    - destruct (existsb _ rest) eqn:E; auto. apply existsb_exists in E. destruct E as (a & Ha & E).
      apply andb_true_iff in E. destruct E as [_ E]. apply Z.eqb_eq in E. subst x. apply A3 in Ha. lia.
  Qed.

  Lemma increment_ok : forall ss hs done l, Forall2 (fun s h => getZ ctx (Z.of_nat s) = Some h) ss hs ->
    rk (CN done) l -> exists l', increment_lower l ss = Ok l' /\ rk (CN (done ++ hs)) l'.
  Proof.
    induction ss as [|s t IH]; intros hs done l Hf Hl; inversion Hf as [|? g ? hs' Hs Hf']; subst; cbn [increment_lower].
    - exists l. rewrite app_nil_r. auto.
    - assert (Hr0 : forall s rs, getZ l s = Some rs -> getZ (map (@r_to F) l) s = Some (r_to rs)).
      { intros s0 rs H. rewrite getZ_map, H. reflexivity. }
      destruct (proj2 Hl _ _ Hs) as (rs & rest & T & Hg & Ha & Hfin & HT).
      pose proof (arcs_backoff (CN done) (map (@r_to F) l) (Z.of_nat s) (r_to rs) g rest T (Hr0 _ _ Hg) Ha) as Hb.
      unfold r_backoff. replace (done ++ g :: hs') with ((done ++ [g]) ++ hs') by (rewrite <- app_assoc; reflexivity).
      destruct g as [|c h].
      + rewrite Hb. cbn [bind]. replace (0 <=? -1) with false by reflexivity. apply IH; auto.
        eapply rk_ext; [|exact Hl]. intros h x. symmetry. apply CN_snoc_other. reflexivity.
      + destruct Hb as (b & Hb & Hbc). rewrite Hb. cbn [bind]. pose proof (getZ_range _ _ _ Hbc) as Hrb.
        destruct (Z.leb_spec 0 b); [|lia].
        assert (Hv : vget l s = Ok rs) by (apply vget_Ok; rewrite getZ_nat in Hg; exact Hg). rewrite Hv. cbn [bind].
        destruct (proj2 Hl _ _ Hbc) as (rb & restb & Tb & Hgb & Hab & Hfb & HTb).
        rewrite (vgetZ_Some _ _ _ Hgb). cbn [bind]. pose proof (getZ_range _ _ _ Hgb) as Hrl.
        rewrite vsetZ_Ok by auto. cbn [bind]. apply IH; auto.
        assert (Etg : tgt h = true) by (eapply longer_tgt, getZ_In; eauto).
        set (inc := fun a : arc F => if (0 <? a_label a) && existsb (fun a0 => (0 <? a_label a0) && (a_label a0 =? a_label a)) (r_arcs rs)
                                   then Arc (a_label a) (fadd (a_count a) f1) (a_next a) else a).
        split; [rewrite upd_length; apply (proj1 Hl)|]. intros s' h' Hs'. rewrite getZ_upd by auto.
        destruct (Z.eqb_spec s' b) as [->|Hne].
        * rewrite Hbc in Hs'. injection Hs' as <-.
          destruct (arcs_ok_map (CN done) (CN (done ++ [c :: h])) h (r_arcs rb) restb Tb inc Hab) as (T' & Ha' & _).
          -- intros a Hin. pose proof (proj1 (proj2 (proj2 Hab)) a Hin) as (B1 & B2 & B3 & _). unfold inc.
             rewrite (has_ok (CN done) c h (r_arcs rs) rest T (a_label a) Ha) by lia.
             replace (0 <? a_label a) with true by (symmetry; apply Z.ltb_lt; lia). cbn [andb].
             rewrite CN_snoc by auto.
             destruct (0 <? O (c :: h) (a_label a)); cbn [a_label a_next a_count]; split; auto; split; auto.
             ++ rewrite ofZ_add, ofZ_1, B3. reflexivity.
             ++ rewrite Z.add_0_r. auto.
          -- intros T0 b0. unfold inc. cbn [a_label Z.ltb Z.compare andb a_next]. auto.
          -- eexists _, _, _. split; [reflexivity|]. cbn [r_arcs r_final]. split; [exact Ha'|].
             split; [|intros E; congruence]. rewrite Hfin, Hfb, CN_snoc by auto.
             destruct (Z.ltb_spec 0 (O (c :: h) 0)) as [Hp|Hp].
             ++ pose proof (occ_tail strings c h 0 Hp) as Hp2.
                destruct (Z.ltb_spec 0 (O h 0)); [|lia]. cbn [option_map]. rewrite ofZ_add, ofZ_1. reflexivity.
             ++ rewrite Z.add_0_r. reflexivity.
        * destruct (proj2 Hl _ _ Hs') as (rs' & rest' & T' & Hg' & Ha' & Hf'' & HT').
          exists rs', rest', T'. split; auto.
          assert (Eo : forall x, CN (done ++ [c :: h]) h' x = CN done h' x).
          { intros x. apply CN_snoc_other. cbn [longer]. apply hist_eqb_neq. intros E. apply Hne.
            rewrite <- E in Hs'. exact (getZ_nodup _ _ _ _ (ct_nodup _ _ _ _ _ Hc) Hs' Hbc). }
          split; [|rewrite Eo; auto]. destruct Ha' as (A1 & A2 & A3 & A4). split; auto. split; auto. split; auto.
          intros a Hin. rewrite Eo. auto.
  Qed.

  Lemma CN_pos h x : In h ctx -> (0 < CN ctx h x <-> 0 < O h x).
  Proof.
    intros Hh. unfold CN. destruct (tgt h) eqn:E; [|tauto]. split.
    - intros H. destruct (filter _ ctx) as [|g t] eqn:Ef; [simpl in H; lia|].
      assert (Hin : In g (g :: t)) by (left; auto). rewrite <- Ef in Hin. apply filter_In in Hin.
      destruct Hin as [Hg Hp]. apply andb_true_iff in Hp. destruct Hp as [Hl Ho]. destruct g as [|c g]; [discriminate|].
      cbn [longer] in Hl. apply hist_eqb_eq in Hl. subst g. apply Z.ltb_lt in Ho. eapply occ_tail; eauto.
    - intros H. unfold tgt in E. apply existsb_exists in E. destruct E as (g & Hg & El).
      destruct (ctx_ext V strings n labels_ok h g x) as (g' & H1 & H2 & H3); auto; [apply In_ctx; auto|].
      apply In_ctx in H1. assert (Hin : In g' (filter (fun g => longer h g && (0 <? O g x)) ctx)).
      { apply filter_In. split; auto. rewrite H2. apply Z.ltb_lt. auto. }
      destruct (filter _ ctx); [destruct Hin|simpl; lia].
  Qed.
  Lemma CN_nonneg hs h x : 0 <= CN hs h x.
  Proof. unfold CN. destruct (tgt h); [lia|]. apply occ_nonneg. Qed.

  Definition sk (cnt : history -> Z -> Z) (f : list (pstate F)) : Prop :=
    length f = length ctx /\
    forall s h, getZ ctx s = Some h -> exists st rest T, getZ f s = Some st /\ arcs_ok cnt h (ps_arcs st) rest T /\
      ps_final st = ofZ (cnt h 0) /\ (h <> [] -> T = fadd (ps_final st) (fsum (map (@a_count F) rest))).

  Lemma fle_pos_false (x : car F) : flt f0 x = true -> fle x f0 = false.
  Proof. intros H. destruct (fle x f0) eqn:E; auto. apply flt_not_le in H. congruence. Qed.

  Lemma fin_pos h : In h ctx -> 0 < CN ctx h 0 \/ CN ctx h 0 = 0 /\ O h 0 = 0.
  Proof.
    intros Hh. pose proof (CN_pos h 0 Hh). pose proof (CN_nonneg ctx h 0). pose proof (occ_nonneg strings h 0). lia.
  Qed.

  Lemma finalize_one s h rs rest T : getZ ctx s = Some h -> arcs_ok (CN ctx) h (r_arcs rs) rest T ->
    r_final rs = (if 0 <? O h 0 then Some (ofZ (CN ctx h 0)) else None) ->
    exists rs' T', finalize_state rs = Ok rs' /\ arcs_ok (CN ctx) h (ps_arcs (r_to rs')) rest T' /\
      ps_final (r_to rs') = ofZ (CN ctx h 0) /\
      (h <> [] -> T' = fadd (ps_final (r_to rs')) (fsum (map (@a_count F) rest))).
  Proof.
    intros Hs Ha Hfin. pose proof (getZ_In _ _ _ Hs) as Hin.
    assert (Hrf : (match r_final rs with Some c => c | None => f0 end) = ofZ (CN ctx h 0)).
    { rewrite Hfin. destruct (fin_pos h Hin) as [Hp|[E1 E2]].
      - apply CN_pos in Hp; auto. destruct (Z.ltb_spec 0 (O h 0)); [reflexivity|lia].
      - rewrite E1, E2. reflexivity. }
    destruct Ha as (A1 & A2 & A3 & A4).
    assert (Hpos : forall a, In a rest -> flt f0 (a_count a) = true).
    { intros a Hain. destruct (A3 a Hain) as (B1 & B2 & B3 & _). rewrite B3. apply ofZ_pos. apply CN_pos; auto. }
    assert (Hnb : existsb (fun a => (0 <? a_label a) && fle (a_count a) f0) rest = false).
    { destruct (existsb _ rest) eqn:E; auto. apply existsb_exists in E. destruct E as (a & Hain & E).
      apply andb_true_iff in E. destruct E as [_ E]. rewrite (fle_pos_false _ (Hpos a Hain)) in E. discriminate. }
    assert (Hfl : filter (fun a : arc F => 0 <? a_label a) rest = rest).
    { apply filter_all. intros a Hain. apply Z.ltb_lt. apply A3 in Hain. lia. }
    unfold finalize_state. destruct h as [|c h'].
    - subst rest. rewrite Hnb. destruct (uni_rest (CN ctx) (r_arcs rs) (r_arcs rs) T) as (a & t & E & Hl); [split; auto|].
      rewrite E. cbn [first_arc bind]. destruct (Z.eqb_spec (a_label a) 0); [lia|].
      exists rs, T. split; [reflexivity|]. cbn [r_to ps_arcs ps_final]. rewrite <- E.
      split; [split; [reflexivity|split; [auto|split; auto]]|]. split; [exact Hrf|]. intros K; congruence.
    - destruct A1 as (b & E & Hb). rewrite E. cbn [existsb a_label filter]. cbn [Z.ltb Z.compare andb orb].
      rewrite Hnb, Hfl. cbn [first_arc bind a_label Z.eqb]. rewrite Hrf.
      assert (Hsum : flt f0 (fadd (fsum (map (@a_count F) rest)) (ofZ (CN ctx (c :: h') 0))) = true).
      { destruct (ctx_some V strings n labels_ok (c :: h')) as (x & Hx & Ho); [apply In_ctx; auto|].
        destruct (Z.eq_dec x 0) as [->|Hx0].
        - apply fadd_pos_r.
          + apply fsum_nonneg. intros y Hy. apply in_map_iff in Hy. destruct Hy as (a & <- & Hy). apply flt_le; auto.
          + apply ofZ_pos. apply CN_pos; auto.
        - apply fadd_pos_l; [|apply ofZ_nonneg, CN_nonneg].
          apply fsum_pos_all.
          + intros En. apply map_eq_nil in En. specialize (A4 x ltac:(lia) Ho). rewrite En in A4. destruct A4.
          + intros y Hy. apply in_map_iff in Hy. destruct Hy as (a & <- & Hy). auto. }
      rewrite (fle_pos_false _ Hsum). eexists _, _. split; [reflexivity|]. cbn [r_to ps_arcs ps_final r_arcs r_final a_next tl].
      split; [split; [exists b; split; [reflexivity|auto]|split; [auto|split; auto]]|]. split; [exact Hrf|].
      intros _. rewrite Hrf. ring.
  Qed.

  Lemma finalize_ok ts : (forall s h, getZ ctx (Z.of_nat s) = Some h -> is_target ts s = tgt h) ->
    forall l k, (forall i rs, nth_error l i = Some rs -> exists h rest T, getZ ctx (Z.of_nat (k + i)) = Some h /\
        arcs_ok (CN ctx) h (r_arcs rs) rest T /\
        r_final rs = (if 0 <? O h 0 then Some (ofZ (CN ctx h 0)) else None) /\
        (tgt h = false -> T = fadd (ofZ (O h 0)) (fsum (map (@a_count F) rest)))) ->
    exists l', finalize_lower ts k l = Ok l' /\ length l' = length l /\
      forall i rs, nth_error l' i = Some rs -> exists h rest T, getZ ctx (Z.of_nat (k + i)) = Some h /\
        arcs_ok (CN ctx) h (ps_arcs (r_to rs)) rest T /\ ps_final (r_to rs) = ofZ (CN ctx h 0) /\
        (h <> [] -> T = fadd (ps_final (r_to rs)) (fsum (map (@a_count F) rest))).
  Proof.
    intros Hts. induction l as [|rs t IH]; intros k Hl; cbn [finalize_lower].
    - exists []. split; auto. split; auto. intros [|i]; discriminate.
    - destruct (Hl 0%nat rs eq_refl) as (h & rest & T & Hs & Ha & Hf & HT). rewrite Nat.add_0_r in Hs.
      rewrite (Hts k h Hs).
      assert (H1 : exists rs' T', (if tgt h then finalize_state rs else Ok rs) = Ok rs' /\
                arcs_ok (CN ctx) h (ps_arcs (r_to rs')) rest T' /\ ps_final (r_to rs') = ofZ (CN ctx h 0) /\
                (h <> [] -> T' = fadd (ps_final (r_to rs')) (fsum (map (@a_count F) rest)))).
      { destruct (tgt h) eqn:Et.
        - eapply finalize_one; eauto.
        - exists rs, T. split; auto. cbn [r_to ps_arcs ps_final]. split; auto.
          assert (Eo : CN ctx h 0 = O h 0) by (unfold CN; rewrite Et; reflexivity).
          assert (Ef : match r_final rs with Some c => c | None => f0 end = @ofZ F (O h 0)).
          { rewrite Hf, Eo. pose proof (occ_nonneg strings h 0). destruct (Z.ltb_spec 0 (O h 0)); [reflexivity|].
            replace (O h 0) with 0 by lia. reflexivity. }
          rewrite Eo, Ef. auto. }
      destruct H1 as (rs' & T' & E1 & H1). rewrite E1. cbn [bind].
      destruct (IH (S k)) as (t' & E2 & Hlen & H2).
      { intros i rs0 Hi. specialize (Hl (S i) rs0 Hi). replace (S k + i)%nat with (k + S i)%nat by lia. exact Hl. }
      rewrite E2. cbn [bind]. exists (rs' :: t'). split; auto. split; [simpl; auto|]. intros [|i] rs0 Hi.
      + injection Hi as <-. exists h, rest, T'. rewrite Nat.add_0_r. tauto.
      + specialize (H2 i rs0 Hi). replace (k + S i)%nat with (S k + i)%nat by lia. exact H2.
  Qed.

  Lemma exclusions_ok : exists f, update_exclusions f1s = Ok f /\ sk (CN ctx) f.
  Proof.
    assert (Hlen : length f1s = length ctx) by (unfold f1s, sort_states; rewrite map_length, (ct_len _ _ _ _ _ Hc); auto).
    unfold update_exclusions. rewrite Hlen.
    destruct (targets_ok (seq 0 (length ctx))) as (ts & E & Hts); [intros s Hs; apply in_seq in Hs; lia|].
    rewrite E. cbn [bind]. pose proof (is_target_ok ts Hts) as Hit.
    assert (Hseq : Forall2 (fun s h => getZ ctx (Z.of_nat s) = Some h) (seq 0 (length ctx)) ctx).
    { assert (G : forall pre suf, ctx = pre ++ suf -> Forall2 (fun s h => getZ ctx (Z.of_nat s) = Some h) (seq (length pre) (length suf)) suf).
      { intros pre suf; revert pre. induction suf as [|h t IH]; intros pre Ep; cbn [length seq]; constructor.
        - rewrite getZ_nat, Ep, nth_error_app2, Nat.sub_diag by lia. reflexivity.
        - specialize (IH (pre ++ [h])). rewrite app_length in IH. cbn [length] in IH. rewrite Nat.add_1_r in IH. apply IH.
          rewrite <- app_assoc. exact Ep. }
      exact (G [] ctx eq_refl). }
    destruct (increment_ok (seq 0 (length ctx)) ctx [] _ Hseq (zero_ok ts Hit)) as (l & El & Hl).
    rewrite El. cbn [bind app] in *.
    destruct (finalize_ok ts Hit l 0) as (l' & E2 & Hl2 & H2).
    { intros i rs Hi. cbn [Nat.add]. pose proof (nth_error_Some_lt _ _ _ _ Hi) as Hlt. rewrite (proj1 Hl) in Hlt.
      destruct (getZ_ex ctx (Z.of_nat i)) as [h Hs]; [lia|].
      destruct (proj2 Hl _ _ Hs) as (rs0 & rest & T & Hg & K). rewrite getZ_nat, Hi in Hg. injection Hg as <-.
      exists h, rest, T. auto. }
    rewrite E2. cbn [bind]. eexists. split; [reflexivity|]. split; [rewrite map_length, Hl2; apply (proj1 Hl)|].
    intros s h Hs. pose proof (getZ_range _ _ _ Hs) as Hr. rewrite getZ_map.
    destruct (getZ_ex l' s) as [rs Hrs]; [rewrite Hl2, (proj1 Hl); lia|]. rewrite Hrs. cbn [option_map].
    assert (Es : exists k, s = Z.of_nat k) by (exists (Z.to_nat s); lia). destruct Es as [k ->].
    rewrite getZ_nat in Hrs. destruct (H2 k rs Hrs) as (h' & rest & T & Hs' & K). cbn [Nat.add] in Hs'.
    rewrite Hs in Hs'. injection Hs' as <-. exists (r_to rs), rest, T. split; auto.
  Qed.

  (** Prior counts. *)
  Definition PC (h : history) (x : Z) : Z :=
    CN ctx h x + (if hist_eqb h [] && (0 <=? x) && (x <=? Z.of_nat V) then 1 else 0).

  Lemma missing_none (u : Z) has : forall (syms : list Z) i, (forall x, i <= x < i + Z.of_nat (length syms) -> In x has) ->
    @missing_arcs F u has i syms = [].
  Proof.
    induction syms as [|c t IH]; intros i H; cbn [missing_arcs]; [reflexivity|].
    assert (E : existsb (Z.eqb i) has = true).
    { apply existsb_exists. exists i. split; [apply H; simpl; lia|apply Z.eqb_refl]. }
    rewrite E, IH; [reflexivity|]. intros x Hx. apply H. simpl length. lia.
  Qed.

  Lemma arcs_ok_ext cnt cnt' h l rest T : (forall x, cnt h x = cnt' h x) -> arcs_ok cnt h l rest T -> arcs_ok cnt' h l rest T.
  Proof.
    intros E (A1 & A2 & A3 & A4). split; auto. split; auto. split; auto. intros a Ha. rewrite <- E. auto.
  Qed.

  Lemma prior_ok syms f : length syms = V -> sk (CN ctx) f -> exists f', add_prior start syms f = Ok f' /\ sk PC f'.
  Proof.
    intros Hsy Hsk. destruct (proj2 Hsk start [0] (ct_start _ _ _ _ _ Hc)) as (ss & rs0 & T0 & Hss & Has & _).
    pose proof (arcs_backoff _ _ _ _ _ _ _ Hss Has) as Hb. cbn in Hb. destruct Hb as (u & Hb & Hu).
    pose proof (getZ_range _ _ _ Hu) as Hr. unfold add_prior. rewrite Hb. cbn [bind].
    destruct (Z.ltb_spec u 0); [lia|]. destruct (proj2 Hsk u [] Hu) as (st & rest & T & Hst & Ha & Hf & _).
    rewrite (vgetZ_Some _ _ _ Hst). cbn [bind]. destruct Ha as (A1 & A2 & A3 & A4).
    rewrite missing_none.
    2: { intros x Hx. rewrite A1. apply A4; [lia|]. apply all_seen. apply labels_all. lia. }
    rewrite app_nil_r. rewrite vsetZ_Ok by (rewrite (proj1 Hsk); lia). cbn [bind]. eexists. split; [reflexivity|].
    split; [rewrite upd_length; apply (proj1 Hsk)|]. intros s h Hs. rewrite getZ_upd by (rewrite (proj1 Hsk); lia).
    destruct (Z.eqb_spec s u) as [->|Hne].
    - rewrite Hu in Hs. injection Hs as <-. eexists _, _, T. split; [reflexivity|]. cbn [ps_arcs ps_final]. split; [|split].
      + split; [reflexivity|]. rewrite A1. split; [|split].
        * rewrite map_map. cbn [a_label]. exact A2.
        * intros a Hin. apply in_map_iff in Hin. destruct Hin as (a0 & <- & Hin). cbn [a_label a_count a_next].
          destruct (A3 a0 Hin) as (B1 & B2 & B3 & B4). split; auto. split; auto. split; auto.
          unfold PC. rewrite hist_eqb_refl. pose proof (occ_range V strings n labels_ok [] _ B2).
          replace ((true && (0 <=? a_label a0)) && (a_label a0 <=? Z.of_nat V)) with true
            by (symmetry; apply andb_true_iff; split; [apply andb_true_iff; split; auto|]; apply Z.leb_le; lia).
          rewrite ofZ_add, ofZ_1, B3. reflexivity.
        * intros x Hx Ho. rewrite map_map. cbn [a_label]. auto.
      + rewrite Hf. unfold PC. rewrite hist_eqb_refl.
        replace ((true && (0 <=? 0)) && (0 <=? Z.of_nat V)) with true
          by (symmetry; apply andb_true_iff; split; [reflexivity|]; apply Z.leb_le; lia).
        rewrite ofZ_add, ofZ_1. reflexivity.
      + congruence.
    - destruct (proj2 Hsk s h Hs) as (st' & rest' & T' & Hst' & Ha' & Hf' & HT').
      assert (Eh : forall x, CN ctx h x = PC h x).
      { intros x. unfold PC. rewrite hist_eqb_neq; [cbn [andb]; lia|]. intros ->. apply Hne.
        exact (getZ_nodup _ _ _ _ (ct_nodup _ _ _ _ _ Hc) Hs Hu). }
      exists st', rest', T'. split; auto. split; [eapply arcs_ok_ext; eauto|]. rewrite <- Eh. auto.
  Qed.

  Lemma PC_pos h x : In h ctx -> 0 < O h x -> 1 <= PC h x.
  Proof.
    intros Hh Ho. apply CN_pos in Ho; auto. unfold PC. destruct (hist_eqb h [] && (0 <=? x) && (x <=? Z.of_nat V)); lia.
  Qed.
  Lemma PC_zero c h x : In (c :: h) ctx -> O (c :: h) x = 0 -> PC (c :: h) x = 0.
  Proof.
    intros Hh Ho. unfold PC. rewrite hist_eqb_neq by discriminate. cbn [andb].
    pose proof (CN_pos (c :: h) x Hh). pose proof (CN_nonneg ctx (c :: h) x). lia.
  Qed.

  Lemma sk_wf f beta : sk PC f -> flt beta f1 = true -> flt f0 beta = true ->
    exists u, wf V beta n start u none f ctx /\
      forall h x, table ctx f h x = ofZ (trained_counts V strings ctx h x).
  Proof.
    intros Hsk Hb1 Hb0. destruct (In_getZ _ _ nil_ctx) as [u Hu]. exists u.
    pose proof (ct_nodup _ _ _ _ _ Hc) as Hnd.
    assert (Hget : forall s h st, getZ ctx s = Some h -> getZ f s = Some st -> exists rest T,
      arcs_ok PC h (ps_arcs st) rest T /\ ps_final st = ofZ (PC h 0) /\ (h <> [] -> T = fadd (ps_final st) (fsum (map (@a_count F) rest)))).
    { intros s h st Hs Hst. destruct (proj2 Hsk s h Hs) as (st' & rest & T & Hst' & K).
      rewrite Hst in Hst'. injection Hst' as <-. exists rest, T. exact K. }
    assert (Hbig : forall h x, In h ctx -> 0 < O h x -> flt beta (ofZ (PC h x)) = true).
    { intros h x Hh Ho. eapply flt_le_trans; [exact Hb1|]. rewrite <- ofZ_1. apply ofZ_le. apply PC_pos; auto. }
    assert (Hw : wf V beta n start u none f ctx).
    { constructor; auto.
      - symmetry. apply (proj1 Hsk).
      - apply (ct_start _ _ _ _ _ Hc).
      - intros st Hst. destruct (Hget u [] st Hu Hst) as (rest & T & (A1 & A2 & A3 & A4) & Hf & _). rewrite A1.
        assert (Hrange : forall a, In a rest -> 1 <= a_label a <= Z.of_nat V).
        { intros a Ha. destruct (A3 a Ha) as (B1 & B2 & _). pose proof (occ_range V strings n labels_ok [] _ B2). lia. }
        split; [split; auto|split].
        + intros a Ha. split; auto. destruct (A3 a Ha) as (B1 & B2 & B3 & _). rewrite B3. apply ofZ_pos.
          pose proof (PC_pos [] _ nil_ctx B2). lia.
        + rewrite <- (map_length (@a_label F)).
          rewrite <- (seq_length V 1), <- (map_length Z.of_nat (seq 1 V)). apply Permutation_length.
          apply NoDup_Permutation; auto.
          * apply FinFun.Injective_map_NoDup; [|apply seq_NoDup]. intros a b; lia.
          * intros x. split.
            -- intros Hx. apply in_map_iff in Hx. destruct Hx as (a & <- & Ha). apply Hrange in Ha. apply in_map_iff.
               exists (Z.to_nat (a_label a)). rewrite in_seq. lia.
            -- intros Hx. apply in_map_iff in Hx. destruct Hx as (k & <- & Hk). apply in_seq in Hk.
               apply A4; [lia|]. apply all_seen. apply labels_all. lia.
        + rewrite Hf. apply ofZ_pos. unfold PC. rewrite hist_eqb_refl. pose proof (CN_nonneg ctx [] 0).
          replace ((true && (0 <=? 0)) && (0 <=? Z.of_nat V)) with true
            by (symmetry; apply andb_true_iff; split; [reflexivity|]; apply Z.leb_le; lia). lia.
      - intros s st c h Hst Hs. pose proof (getZ_In _ _ _ Hs) as Hin.
        destruct (Hget s (c :: h) st Hs Hst) as (rest & T & (A1 & A2 & A3 & A4) & Hf & HT).
        destruct A1 as (b & E & Hb). exists T, b, rest. split; auto. split; auto. split; [split; auto|split].
        + intros a Ha. destruct (A3 a Ha) as (B1 & B2 & B3 & _). pose proof (occ_range V strings n labels_ok _ _ B2).
          split; [lia|]. rewrite B3. auto.
        + rewrite Hf. pose proof (occ_nonneg strings (c :: h) 0). destruct (Z.eq_dec (O (c :: h) 0) 0) as [E0|E0].
          * left. rewrite PC_zero by auto. reflexivity.
          * right. apply Hbig; auto. lia.
        + right. rewrite HT by discriminate.
          replace (seen_nothing st rest) with false; [reflexivity|]. symmetry. unfold seen_nothing.
          destruct (ctx_some V strings n labels_ok (c :: h)) as (x & Hx & Ho); [apply In_ctx; auto|].
          destruct (Z.eq_dec x 0) as [->|Hx0].
          * replace (feqb (ps_final st) f0) with false; [reflexivity|]. symmetry. apply feqb_neq.
            rewrite Hf. apply ofZ_neq0. pose proof (PC_pos _ _ Hin Ho). lia.
          * specialize (A4 x ltac:(lia) Ho). destruct rest; [destruct A4|]. cbn [length]. apply andb_false_r.
      - intros s st a h Hst Hs Ha Hl. destruct (Hget s h st Hs Hst) as (rest & T & (A1 & A2 & A3 & A4) & _).
        assert (Hin : In a rest).
        { destruct h as [|c h]; [rewrite <- A1; auto|]. destruct A1 as (b & E & _). rewrite E in Ha.
          destruct Ha as [<-|Ha]; auto. cbn [a_label] in Hl. congruence. }
        destruct (A3 a Hin) as (B1 & B2 & B3 & B4). eexists. split; [exact B4|]. split; [apply longest_suffix|].
        pose proof (ctx_state s h Hs) as Hcx. destruct (Z.ltb_spec (Z.of_nat (length h) + 1) n) as [Hlt|Hge].
        + rewrite longest_self; [rewrite app_length; lia|]. apply In_ctx. eapply ctx_step; eauto.
        + destruct h as [|c h]; [simpl in Hge; lia|].
          assert (Hx : In (h ++ [a_label a]) ctx).
          { apply In_ctx. pose proof (proj1 Hcx) as Hcl. simpl in Hcl, Hge. eapply ctx_step; eauto; [eapply ctx_tail; eauto|eapply occ_tail; eauto|lia]. }
          pose proof (longest_ge ctx ((c :: h) ++ [a_label a]) (h ++ [a_label a]) ltac:(exists [c]; reflexivity) Hx) as Hle.
          rewrite app_length in Hle. simpl length in *. lia.
      - intros v h x Hv Hne. pose proof (ctx_state _ _ Hv) as Hcx.
        destruct (ctx_prefix V strings n labels_ok h x Hcx) as (C1 & C2 & C3).
        { intros E. apply Hne. rewrite E in Hv. exact (getZ_nodup _ _ _ _ Hnd Hv (ct_start _ _ _ _ _ Hc)). }
        apply In_ctx in C1. apply In_getZ in C1. destruct C1 as [s Hs].
        destruct (proj2 Hsk s h Hs) as (st & rest & T & Hst & (A1 & A2 & A3 & A4) & _).
        specialize (A4 x C3 C2). apply in_map_iff in A4. destruct A4 as (a & El & Ha).
        exists s, st, a. split; auto. split; auto. split.
        + destruct h as [|c h]; [rewrite A1; auto|]. destruct A1 as (b & -> & _). right; auto.
        + split; auto. split; [|lia]. destruct (A3 a Ha) as (_ & _ & _ & B4). rewrite El in B4.
          rewrite longest_self in B4 by (eapply getZ_In; eauto). exact (getZ_nodup _ _ _ _ Hnd B4 Hv).
      - intros s h Hs. apply (ctx_state _ _ Hs). }
    split; auto. intros h x. unfold trained_counts. destruct (existsb (hist_eqb h) ctx) eqn:Em.
    - apply mem_In in Em. pose proof Em as Hin. apply In_getZ in Em. destruct Em as [s Hs].
      destruct (proj2 Hsk s h Hs) as (st & rest & T & Hst & (A1 & A2 & A3 & A4) & Hf & _).
      rewrite (table_get ctx f s h st x Hnd Hs Hst). fold (tgt h). fold (CN ctx h x). fold (PC h x).
      unfold count. destruct (Z.eqb_spec x 0) as [->|Hx]; [exact Hf|].
      assert (Efa : find_arc (ps_arcs st) x = find_arc rest x).
      { destruct h as [|c h]; [rewrite A1; auto|]. destruct A1 as (b & -> & _). rewrite find_arc_cons. cbn [a_label].
        destruct (Z.eqb_spec 0 x); [congruence|reflexivity]. }
      rewrite Efa. destruct (find_arc rest x) as [a|] eqn:Ea.
      + apply find_arc_Some in Ea. destruct Ea as [Ha <-]. apply A3 in Ha. tauto.
      + assert (Ho : O h x = 0).
        { pose proof (occ_nonneg strings h x). destruct (Z.eq_dec (O h x) 0); auto. exfalso.
          assert (Hp : 0 < O h x) by lia. pose proof (occ_range V strings n labels_ok _ _ Hp).
          specialize (A4 x ltac:(lia) Hp). apply in_map_iff in A4. destruct A4 as (a & El & Ha).
          rewrite (PpmRead2.find_arc_In rest x a A2 Ha El) in Ea. discriminate. }
        destruct h as [|c h]; [|rewrite PC_zero by auto; reflexivity].
        unfold PC. pose proof (CN_pos [] x Hin). pose proof (CN_nonneg ctx [] x).
        replace (CN ctx [] x) with 0 by lia. rewrite hist_eqb_refl.
        destruct (Z.leb_spec 0 x), (Z.leb_spec x (Z.of_nat V)); cbn [andb]; try reflexivity.
        exfalso. assert (Hp : 0 < O [] x) by (apply all_seen, labels_all; lia). lia.
    - rewrite table_none; [reflexivity|]. intros K. apply mem_In in K. congruence.
  Qed.
End Exclusions.
