(** The bounded cache of ppm_as_fst_model.cc: what is read through it is what the automaton says. *)
From Verif Require Import Base Field LmModel TextModel HubModel PpmModel PpmSpec PpmStruct PpmVals.
Local Open Scope Z_scope.

Section Cache.
  Context {F : ofield}.
  Variable V : nat.

  Definition entry (m : ppm F) (s : Z) (c : pcache F) : Prop :=
    exists i, getZ (p_cindex m) s = Some i /\ getZ (p_caches m) i = Some c.

  (** Structure: slots and indices agree, the cache is bounded, times are in the past. *)
  Record sinv (m : ppm F) : Prop := {
    si_len : length (p_cindex m) = length (p_fst m);
    si_max : 1 <= p_max_cache m /\ Z.of_nat (length (p_caches m)) <= p_max_cache m;
    si_slot : forall j c, getZ (p_caches m) j = Some c -> getZ (p_cindex m) (pc_state c) = Some j;
    si_idx : forall s i, getZ (p_cindex m) s = Some i ->
      i = -1 \/ exists c, getZ (p_caches m) i = Some c /\ pc_state c = s;
    si_time : forall j c, getZ (p_caches m) j = Some c ->
      pc_updated c <= pc_accessed c < p_accessed m
  }.

  Lemma entry_state m s c : sinv m -> entry m s c -> pc_state c = s.
  Proof.
    intros H (i & Hi & Hc). destruct (si_idx m H s i Hi) as [->|(c' & Hc' & E)].
    - apply getZ_range in Hc. lia.
    - congruence.
  Qed.
  Lemma entry_fun m s c c' : entry m s c -> entry m s c' -> c = c'.
  Proof. intros (i & Hi & Hc) (i' & Hi' & Hc'). congruence. Qed.
  Lemma entry_time m s c : sinv m -> entry m s c -> pc_updated c <= pc_accessed c < p_accessed m.
  Proof. intros H (i & Hi & Hc). eapply si_time; eauto. Qed.

  Lemma find_oldest_spec (l : list (pcache F)) : forall i best oldest,
    let r := find_oldest i best oldest l in
    (r = best /\ (forall c, In c l -> oldest <= pc_accessed c)) \/
    (exists k c, r = (i + k)%nat /\ nth_error l k = Some c /\ pc_accessed c < oldest /\
                 forall c', In c' l -> pc_accessed c <= pc_accessed c').
  Proof.
    induction l as [|c t IH]; intros i best oldest; cbn zeta; cbn [find_oldest].
    - left. split; auto. intros c [].
    - destruct (Z.ltb_spec (pc_accessed c) oldest).
      + destruct (IH (S i) i (pc_accessed c)) as [(E & H1)|(k & c' & E & Hk & Hlt & H1)].
        * right. exists 0%nat, c. rewrite E. repeat split; try lia; auto.
          intros c' [<-|Hin]; [lia|auto].
        * right. exists (S k), c'. rewrite E. repeat split; try lia; auto.
          intros c2 [<-|Hin]; [lia|auto].
      + destruct (IH (S i) best oldest) as [(E & H1)|(k & c' & E & Hk & Hlt & H1)].
        * left. split; auto. intros c' [<-|Hin]; auto.
        * right. exists (S k), c'. rewrite E. repeat split; try lia; auto.
          intros c2 [<-|Hin]; [lia|auto].
  Qed.

  Lemma find_oldest_ok (l : list (pcache F)) : l <> [] ->
    exists i c, find_oldest_last_accessed l = Ok i /\ nth_error l i = Some c /\
                forall c', In c' l -> pc_accessed c <= pc_accessed c'.
  Proof.
    destruct l as [|c t]; [congruence|]. intros _. cbn [find_oldest_last_accessed].
    destruct (find_oldest_spec t 1 0 (pc_accessed c)) as [(E & H)|(k & c' & E & Hk & Hlt & H)].
    - exists 0%nat, c. rewrite E. repeat split; auto. intros c' [<-|Hin]; [lia|auto].
    - exists (1 + k)%nat, c'. rewrite E. repeat split; auto. intros c2 [<-|Hin]; [lia|auto].
  Qed.

  Lemma getZ_nat {A} (l : list A) i : getZ l (Z.of_nat i) = nth_error l i.
  Proof. unfold getZ. destruct (Z.ltb_spec (Z.of_nat i) 0); [lia|]. rewrite Nat2Z.id. reflexivity. Qed.

  Lemma upd_upd {A} (l : list A) i a b : upd (upd l i a) i b = upd l i b.
  Proof. revert i; induction l as [|x t IH]; intros [|i]; cbn [upd]; auto. rewrite IH; reflexivity. Qed.
  Lemma upd_app_eq {A} (l : list A) a b : upd (l ++ [a]) (length l) b = l ++ [b].
  Proof. induction l as [|x t IH]; cbn [upd app length]; auto. rewrite IH; reflexivity. Qed.

  (** Writing an entry: only this entry appears, and at most one other disappears, a least recently
      accessed one. *)
  Lemma alloc_store_struct m s v : sinv m -> 0 <= s < Z.of_nat (length (p_fst m)) ->
    exists ci cs, let m' := set_cache m (p_accessed m + 1) ci cs in
      allocate_and_store m s v = Ok (Some tt, m') /\ sinv m' /\
      entry m' s (PCache s (p_accessed m) (p_accessed m) v) /\
      (forall s0 c0, s0 <> s -> entry m' s0 c0 -> entry m s0 c0) /\
      (forall s0 c0, s0 <> s -> entry m s0 c0 -> entry m' s0 c0 \/
         forall s1 c1, entry m s1 c1 -> pc_accessed c0 <= pc_accessed c1).
  Proof.
    intros H Hs. pose proof (si_len m H) as Hlen.
    destruct (getZ_ex (p_cindex m) s ltac:(lia)) as [i Hi].
    unfold allocate_and_store. rewrite (vgetZ_Some _ _ _ Hi). cbn [bind].
    destruct (Z.ltb_spec i 0) as [Hneg|Hpos].
    - (* a new slot *)
      assert (Hi' : i = -1).
      { destruct (si_idx m H s i Hi) as [E|(c & Hc & _)]; auto. apply getZ_range in Hc. lia. }
      subst i. clear Hneg.
      unfold get_new_cache_index.
      destruct (Z.ltb_spec (Z.of_nat (length (p_caches m))) (p_max_cache m)) as [Hroom|Hfull].
      + (* room *)
        rewrite vsetZ_Ok by lia. cbn [bind].
        unfold store_cache. cbn [p_cindex p_caches p_accessed set_cache].
        assert (G : getZ (upd (p_cindex m) (Z.to_nat s) (Z.of_nat (length (p_caches m)))) s =
                    Some (Z.of_nat (length (p_caches m)))).
        { rewrite getZ_upd by lia. rewrite Z.eqb_refl. reflexivity. }
        rewrite (vgetZ_Some _ _ _ G). cbn [bind].
        rewrite (vgetZ_Some _ _ _ (getZ_app_eq _ _)). cbn [bind].
        rewrite vsetZ_Ok by (rewrite app_length; simpl; lia). cbn [bind].
        rewrite Nat2Z.id, upd_app_eq. cbn [pc_state new_cache].
        eexists _, _. cbn zeta. split; [reflexivity|].
        set (ci := upd (p_cindex m) (Z.to_nat s) (Z.of_nat (length (p_caches m)))) in *.
        set (e := PCache s (p_accessed m) (p_accessed m) v).
        assert (Gci : forall s0, s0 <> s -> getZ ci s0 = getZ (p_cindex m) s0).
        { intros s0 Hne. unfold ci. rewrite getZ_upd by lia. destruct (Z.eqb_spec s0 s); [lia|reflexivity]. }
        repeat split.
        * cbn. unfold ci. rewrite upd_length. auto.
        * cbn. apply H.
        * cbn [p_caches set_cache p_max_cache]. rewrite app_length; simpl; lia.
        * cbn [p_caches p_cindex set_cache]. intros j c Hj. apply getZ_app_inv in Hj.
          destruct Hj as [Hj|(-> & ->)]; [|exact G].
          pose proof (si_slot m H j c Hj) as K. destruct (Z.eq_dec (pc_state c) s) as [E|E].
          -- rewrite E, Hi in K. injection K as <-. apply getZ_range in Hj; lia.
          -- rewrite Gci; auto.
        * cbn [p_caches p_cindex set_cache]. intros s0 i0 H0. destruct (Z.eq_dec s0 s) as [->|E].
          -- right. exists e. rewrite G in H0. injection H0 as <-. split; [apply getZ_app_eq|reflexivity].
          -- rewrite Gci in H0 by auto. destruct (si_idx m H s0 i0 H0) as [->|(c & Hc & Ec)]; auto.
             right. exists c. split; auto. apply getZ_app_l; auto.
        * cbn [p_caches set_cache] in H0. apply getZ_app_inv in H0. destruct H0 as [H0|(-> & ->)].
          -- apply (si_time m H) in H0. lia.
          -- simpl. lia.
        * cbn [p_caches p_accessed set_cache] in *. apply getZ_app_inv in H0. destruct H0 as [H0|(-> & ->)].
          -- apply (si_time m H) in H0. lia.
          -- simpl. lia.
        * exists (Z.of_nat (length (p_caches m))). split; [exact G|apply getZ_app_eq].
        * intros s0 c0 Hne (i0 & Hi0 & Hc0). cbn [p_caches p_cindex set_cache] in *.
          rewrite Gci in Hi0 by auto. exists i0. split; auto.
          apply getZ_app_inv in Hc0. destruct Hc0 as [Hc0|(-> & ->)]; auto.
          destruct (si_idx m H s0 _ Hi0) as [E|(c & Hc & _)]; [lia|]. apply getZ_range in Hc. lia.
        * intros s0 c0 Hne (i0 & Hi0 & Hc0). left. exists i0. cbn [p_caches p_cindex set_cache].
          rewrite Gci by auto. split; auto. apply getZ_app_l; auto.
      + (* eviction *)
        assert (Hnn : p_caches m <> []).
        { intros E. rewrite E in Hfull. simpl in Hfull. pose proof (si_max m H). lia. }
        destruct (find_oldest_ok _ Hnn) as (idx & old & Ho & Hold & Hmin). rewrite Ho. cbn [bind].
        unfold vget. rewrite Hold. cbn [bind].
        pose proof Hold as HoldZ. rewrite <- getZ_nat in HoldZ.
        pose proof (si_slot m H _ _ HoldZ) as Hsl. rewrite (vgetZ_Some _ _ _ Hsl). cbn [bind].
        rewrite Z.eqb_refl. cbn [negb].
        pose proof (getZ_range _ _ _ Hsl) as Hro. pose proof (getZ_range _ _ _ HoldZ) as Hri.
        assert (Hos : pc_state old <> s).
        { intros E. rewrite E, Hi in Hsl. injection Hsl as E2. lia. }
        rewrite vsetZ_Ok by lia. cbn [bind].
        unfold vset. destruct (Nat.ltb_spec idx (length (p_caches m))) as [Hil|Hil]; [|lia]. cbn [bind].
        rewrite vsetZ_Ok by (rewrite upd_length; lia). cbn [bind].
        set (ci := upd (upd (p_cindex m) (Z.to_nat (pc_state old)) (-1)) (Z.to_nat s) (Z.of_nat idx)).
        assert (G : getZ ci s = Some (Z.of_nat idx)).
        { unfold ci. rewrite getZ_upd by (rewrite upd_length; lia). rewrite Z.eqb_refl. reflexivity. }
        assert (Gold : getZ ci (pc_state old) = Some (-1)).
        { unfold ci. rewrite getZ_upd by (rewrite upd_length; lia).
          destruct (Z.eqb_spec (pc_state old) s); [congruence|].
          rewrite getZ_upd by lia. rewrite Z.eqb_refl. reflexivity. }
        assert (Gci : forall s0, s0 <> s -> s0 <> pc_state old -> getZ ci s0 = getZ (p_cindex m) s0).
        { intros s0 H1 H2. unfold ci. rewrite getZ_upd by (rewrite upd_length; lia).
          destruct (Z.eqb_spec s0 s); [congruence|]. rewrite getZ_upd by lia.
          destruct (Z.eqb_spec s0 (pc_state old)); [congruence|reflexivity]. }
        unfold store_cache. cbn [p_cindex p_caches p_accessed set_cache].
        rewrite (vgetZ_Some _ _ _ G). cbn [bind].
        assert (G2 : getZ (upd (p_caches m) idx (new_cache s)) (Z.of_nat idx) = Some (new_cache s)).
        { rewrite getZ_nat. apply nth_error_upd_eq; auto. }
        rewrite (vgetZ_Some _ _ _ G2). cbn [bind].
        rewrite vsetZ_Ok by (rewrite upd_length; lia). cbn [bind].
        rewrite Nat2Z.id, upd_upd. cbn [pc_state new_cache].
        eexists _, _. cbn zeta. split; [reflexivity|].
        set (e := PCache s (p_accessed m) (p_accessed m) v).
        assert (Gcs : forall j, getZ (upd (p_caches m) idx e) j =
                                if j =? Z.of_nat idx then Some e else getZ (p_caches m) j).
        { intros j. replace idx with (Z.to_nat (Z.of_nat idx)) at 1 by apply Nat2Z.id.
          apply getZ_upd. lia. }
        repeat split.
        * cbn. unfold ci. rewrite !upd_length. auto.
        * cbn. apply H.
        * cbn [p_caches set_cache p_max_cache]. rewrite upd_length. apply H.
        * cbn [p_caches p_cindex set_cache]. intros j c Hj. rewrite Gcs in Hj.
          destruct (Z.eqb_spec j (Z.of_nat idx)) as [->|Hne].
          -- injection Hj as <-. exact G.
          -- pose proof (si_slot m H j c Hj) as K.
             rewrite Gci; auto; intros E; rewrite E in K.
             ++ rewrite Hi in K. injection K as <-. apply getZ_range in Hj; lia.
             ++ congruence.
        * cbn [p_caches p_cindex set_cache]. intros s0 i0 H0. destruct (Z.eq_dec s0 s) as [->|E].
          -- right. exists e. rewrite G in H0. injection H0 as <-. rewrite Gcs, Z.eqb_refl. auto.
          -- destruct (Z.eq_dec s0 (pc_state old)) as [->|E2].
             ++ left. congruence.
             ++ rewrite Gci in H0 by auto. destruct (si_idx m H s0 i0 H0) as [->|(c & Hc & Ec)]; auto.
                right. exists c. split; auto. rewrite Gcs.
                destruct (Z.eqb_spec i0 (Z.of_nat idx)) as [->|]; auto. congruence.
        * cbn [p_caches set_cache] in H0. rewrite Gcs in H0. destruct (j =? Z.of_nat idx).
          -- injection H0 as <-. simpl. lia.
          -- apply (si_time m H) in H0. lia.
        * cbn [p_caches p_accessed set_cache] in *. rewrite Gcs in H0. destruct (j =? Z.of_nat idx).
          -- injection H0 as <-. simpl. lia.
          -- apply (si_time m H) in H0. lia.
        * exists (Z.of_nat idx). cbn [p_caches p_cindex set_cache]. rewrite Gcs, Z.eqb_refl. auto.
        * intros s0 c0 Hne (i0 & Hi0 & Hc0). cbn [p_caches p_cindex set_cache] in *.
          destruct (Z.eq_dec s0 (pc_state old)) as [->|E2].
          { rewrite Gold in Hi0. injection Hi0 as <-. apply getZ_range in Hc0. lia. }
          rewrite Gci in Hi0 by auto. exists i0. split; auto.
          rewrite Gcs in Hc0. destruct (Z.eqb_spec i0 (Z.of_nat idx)) as [->|]; auto.
          destruct (si_idx m H s0 _ Hi0) as [E|(c & Hc & Ec)]; [lia|]. congruence.
        * intros s0 c0 Hne (i0 & Hi0 & Hc0).
          destruct (Z.eq_dec s0 (pc_state old)) as [->|E2].
          -- right. intros s1 c1 (i1 & _ & Hc1). rewrite Hsl in Hi0. injection Hi0 as <-.
             rewrite HoldZ in Hc0. injection Hc0 as <-. apply Hmin. eapply getZ_In; eauto.
          -- left. exists i0. cbn [p_caches p_cindex set_cache]. rewrite Gci by auto. split; auto.
             rewrite Gcs. destruct (Z.eqb_spec i0 (Z.of_nat idx)) as [->|]; auto.
             rewrite HoldZ in Hc0. injection Hc0 as <-.
             destruct (si_idx m H s0 _ Hi0) as [E|(c & Hc & Ec)]; [lia|]. congruence.
    - (* already cached *)
      cbn [bind]. destruct (si_idx m H s i Hi) as [->|(c & Hc & Ec)]; [lia|].
      unfold store_cache. rewrite (vgetZ_Some _ _ _ Hi). cbn [bind].
      rewrite (vgetZ_Some _ _ _ Hc). cbn [bind]. pose proof (getZ_range _ _ _ Hc) as Hri.
      rewrite vsetZ_Ok by lia. cbn [bind]. rewrite Ec.
      eexists _, _. cbn zeta. split; [reflexivity|].
      set (e := PCache s (p_accessed m) (p_accessed m) v).
      assert (Gcs : forall j, getZ (upd (p_caches m) (Z.to_nat i) e) j =
                                if j =? i then Some e else getZ (p_caches m) j)
        by (intros j; apply getZ_upd; lia).
      repeat split.
      + cbn. auto.
      + cbn. apply H.
      + cbn [p_caches set_cache p_max_cache]. rewrite upd_length. apply H.
      + cbn [p_caches p_cindex set_cache]. intros j c' Hj. rewrite Gcs in Hj.
        destruct (Z.eqb_spec j i) as [->|Hne].
        * injection Hj as <-. exact Hi.
        * apply (si_slot m H j c' Hj).
      + cbn [p_caches p_cindex set_cache]. intros s0 i0 H0.
        destruct (si_idx m H s0 i0 H0) as [->|(c' & Hc' & Ec')]; auto.
        right. rewrite Gcs. destruct (Z.eqb_spec i0 i) as [->|]; eauto.
        exists e. split; auto. simpl. congruence.
      + cbn [p_caches set_cache] in H0. rewrite Gcs in H0. destruct (j =? i).
        * injection H0 as <-. simpl. lia.
        * apply (si_time m H) in H0. lia.
      + cbn [p_caches p_accessed set_cache] in *. rewrite Gcs in H0. destruct (j =? i).
        * injection H0 as <-. simpl. lia.
        * apply (si_time m H) in H0. lia.
      + exists i. cbn [p_caches p_cindex set_cache]. rewrite Gcs, Z.eqb_refl. auto.
      + intros s0 c0 Hne (i0 & Hi0 & Hc0). cbn [p_caches p_cindex set_cache] in *.
        exists i0. split; auto. rewrite Gcs in Hc0. destruct (Z.eqb_spec i0 i) as [->|]; auto.
        destruct (si_idx m H s0 _ Hi0) as [E|(c' & Hc' & Ec')]; [lia|]. congruence.
      + intros s0 c0 Hne (i0 & Hi0 & Hc0). left. exists i0. cbn [p_caches p_cindex set_cache].
        split; auto. rewrite Gcs. destruct (Z.eqb_spec i0 i) as [->|]; auto.
        destruct (si_idx m H s0 _ Hi0) as [E|(c' & Hc' & Ec')]; [lia|]. congruence.
  Qed.

  (** Values: each entry is what the automaton says, or older than an entry further down its chain
      (so that it is recomputed when used, and evicted before that entry), or above a state that is
      being updated ([D]). *)
  Definition fresh (m : ppm F) (s : Z) (v : vals F) : Prop :=
    exists l, chain (p_fst m) s l /\ v = cvals V (p_alpha m) (p_beta m) (p_start m) l.
  Definition below (f : list (pstate F)) (s d : Z) : Prop :=
    exists p l, chain f s (p :: l) /\ In d (map fst l).
  Definition on_chain (f : list (pstate F)) (s d : Z) : Prop :=
    exists l, chain f s l /\ In d (map fst l).
  Definition superseded (m : ppm F) (s : Z) (c : pcache F) : Prop :=
    exists d cd, below (p_fst m) s d /\ entry m d cd /\
      pc_updated c < pc_updated cd /\ pc_accessed c < pc_accessed cd.
  Record cinv (D : Z -> Prop) (m : ppm F) : Prop := {
    ci_s : sinv m;
    ci_val : forall s c, entry m s c ->
      fresh m s (pc_vals c) \/ superseded m s c \/ (exists d, D d /\ on_chain (p_fst m) s d)
  }.

  Lemma cinv_mono (D D' : Z -> Prop) m : (forall d, D d -> D' d) -> cinv D m -> cinv D' m.
  Proof.
    intros H [H1 H2]. split; auto. intros s c He.
    destruct (H2 s c He) as [K|[K|(d & Hd & K)]]; auto. right; right; exists d; auto.
  Qed.

  Lemma alloc_store_ok D m s v : cinv D m -> 0 <= s < Z.of_nat (length (p_fst m)) ->
    fresh m s v ->
    exists ci cs, let m' := set_cache m (p_accessed m + 1) ci cs in
      allocate_and_store m s v = Ok (Some tt, m') /\ cinv (fun d => D d /\ d <> s) m' /\
      entry m' s (PCache s (p_accessed m) (p_accessed m) v).
  Proof.
    intros [H Hv] Hs Hf.
    destruct (alloc_store_struct m s v H Hs) as (ci & cs & E & H' & Hes & Hsub & Hkeep).
    exists ci, cs. cbn zeta. split; [exact E|]. split; [|exact Hes].
    set (m' := set_cache m (p_accessed m + 1) ci cs) in *.
    split; auto. intros s0 c0 He0. destruct (Z.eq_dec s0 s) as [->|Hne].
    - left. rewrite (entry_fun _ _ _ _ He0 Hes). exact Hf.
    - pose proof (Hsub s0 c0 Hne He0) as He. pose proof (entry_time m _ _ H He) as Ht.
      destruct (Hv s0 c0 He) as [K|[(d & cd & Hb & Hd & U & A)|(d & Hd & l & Hc & Hin)]].
      + left. exact K.
      + right; left. destruct (Z.eq_dec d s) as [->|Hds].
        * exists s, (PCache s (p_accessed m) (p_accessed m) v). repeat split; auto; cbn; lia.
        * destruct (Hkeep d cd Hds Hd) as [Hd'|Hmin].
          -- exists d, cd. repeat split; auto.
          -- specialize (Hmin s0 c0 He). lia.
      + destruct (Z.eq_dec d s) as [->|Hds].
        * right; left. exists s, (PCache s (p_accessed m) (p_accessed m) v).
          split; [|split; [exact Hes|cbn; lia]].
          destruct (chain_hd _ _ _ Hc) as (st & l' & -> & _).
          exists (s0, st), l'. split; auto. destruct Hin as [E2|Hin]; auto. simpl in E2. congruence.
        * right; right. exists d. split; auto. exists l; auto.
  Qed.

  (** LowerOrderCacheUpdated. *)
  Lemma backoff_step (f : list (pstate F)) s st S b t : getZ f s = Some st ->
    ps_arcs st = Arc 0 S b :: t -> backoff_state f s = Ok b.
  Proof.
    intros H Ha. unfold backoff_state. pose proof (getZ_range _ _ _ H).
    destruct (Z.leb_spec 0 s); [|lia]. destruct (Z.ltb_spec s (Z.of_nat (length f))); [|lia].
    cbn [andb]. rewrite (vgetZ_Some _ _ _ H). cbn [bind]. rewrite Ha. reflexivity.
  Qed.
  Lemma backoff_end (f : list (pstate F)) s st a t : getZ f s = Some st ->
    ps_arcs st = a :: t -> a_label a <> 0 -> backoff_state f s = Ok (-1).
  Proof.
    intros H Ha Hl. unfold backoff_state. pose proof (getZ_range _ _ _ H).
    destruct (Z.leb_spec 0 s); [|lia]. destruct (Z.ltb_spec s (Z.of_nat (length f))); [|lia].
    cbn [andb]. rewrite (vgetZ_Some _ _ _ H). cbn [bind]. rewrite Ha. cbn [bind first_arc].
    destruct (Z.eqb_spec (a_label a) 0); [congruence|reflexivity].
  Qed.

  Lemma lower_loop_ok m t : sinv m -> forall fuel b l, chain (p_fst m) b l -> (length l < fuel)%nat ->
    exists r, lower_updated_loop fuel m t b = Ok r /\
      (r = false -> forall d c, In d (map fst l) -> entry m d c -> pc_updated c <= t).
  Proof.
    intros H fuel. induction fuel as [|k IH]; intros b l Hc Hlen; [lia|].
    cbn [lower_updated_loop]. destruct (chain_hd _ _ _ Hc) as (st & l' & -> & Hst).
    pose proof (getZ_range _ _ _ Hst) as Hr. destruct (Z.ltb_spec b 0); [lia|].
    destruct (getZ_ex (p_cindex m) b) as [i Hi]; [rewrite (si_len m H); lia|].
    rewrite (vgetZ_Some _ _ _ Hi). cbn [bind].
    assert (N : exists nw, (if 0 <=? i then let* c := vgetZ (p_caches m) i in Ok (t <? pc_updated c)
                            else Ok false) = Ok nw /\
                           (nw = false -> forall c, entry m b c -> pc_updated c <= t)).
    { destruct (si_idx m H b i Hi) as [->|(c & Hcc & Ec)].
      - exists false. split; [reflexivity|]. intros _ c (i' & Hi' & Hcc). rewrite Hi in Hi'.
        injection Hi' as <-. apply getZ_range in Hcc. lia.
      - pose proof (getZ_range _ _ _ Hcc). destruct (Z.leb_spec 0 i); [|lia].
        rewrite (vgetZ_Some _ _ _ Hcc). cbn [bind]. eexists; split; [reflexivity|].
        intros Hn c' (i' & Hi' & Hcc'). assert (c' = c) by congruence. subst.
        apply Z.ltb_ge in Hn. exact Hn. }
    destruct N as (nw & -> & Hn). cbn [bind]. destruct nw.
    - exists true. split; [reflexivity|discriminate].
    - inversion Hc as [s0 st0 a0 t0 Hg Ha Hl E1 E2|s0 st0 S0 b0 t0 l0 Hg Ha Hc0 E1 E2]; subst.
      + rewrite (backoff_end _ _ _ _ _ Hg Ha Hl). cbn [bind].
        exists false. split.
        * destruct k; [simpl in Hlen; lia|reflexivity].
        * intros _ d c [<-|[]] He. auto.
      + rewrite (backoff_step _ _ _ _ _ _ Hg Ha). cbn [bind].
        destruct (IH b0 l' Hc0 ltac:(simpl in Hlen; lia)) as (r & Er & Hr2).
        exists r. split; auto. intros Er' d c [<-|Hin] He; eauto.
  Qed.

  (** The chain of a state is short enough for the recursion. *)
  Definition good_at (m : ppm F) (s : Z) (l : list (Z * pstate F)) : Prop :=
    chain (p_fst m) s l /\ good_chain V (p_beta m) l /\ (length l <= length (p_fst m))%nat.

  Lemma good_at_next m s st p l : good_at m s ((s, st) :: p :: l) ->
    exists S b rest, ps_arcs st = Arc 0 S b :: rest /\ good_at m b (p :: l).
  Proof.
    intros (Hc & Hg & Hl). inversion Hc as [|s0 st0 S0 b0 t0 l0 Hs Ha Hc0]; subst.
    inversion Hg; subst. exists S0, b0, t0. repeat split; auto. simpl in *; lia.
  Qed.

  (** UpdateCacheAtState, given that the back-off state can be ensured. *)
  Lemma update_cache_at_ok D m s l ensure :
    flt f0 (p_alpha m) = true -> flt f0 (p_beta m) = true ->
    cinv D m -> good_at m s l -> (forall d, D d -> ~ In d (map fst (tl l))) ->
    (forall m1 b l', cinv D m1 -> good_at m1 b l' -> p_fst m1 = p_fst m -> p_alpha m1 = p_alpha m ->
       p_beta m1 = p_beta m -> p_start m1 = p_start m ->
       l' = tl l -> exists a ci cs, let m2 := set_cache m1 a ci cs in
         ensure m1 b = Ok (Some (cvals V (p_alpha m) (p_beta m) (p_start m) l'), m2) /\
         cinv D m2 /\ p_accessed m1 <= a) ->
    exists a ci cs, let m' := set_cache m a ci cs in
      update_cache_at_state ensure m s = Ok (Some tt, m') /\
      cinv (fun d => D d /\ d <> s) m' /\ p_accessed m < a /\
      exists t, entry m' s (PCache s t t (cvals V (p_alpha m) (p_beta m) (p_start m) l)).
  Proof.
    intros Halpha Hbeta Hci Hga Hdis Hens.
    destruct Hga as (Hc & Hg & Hlen).
    destruct (chain_hd _ _ _ Hc) as (st & l' & El & Hst). subst l.
    pose proof (getZ_range _ _ _ Hst) as Hr.
    unfold update_cache_at_state. destruct (Z.ltb_spec s 0); [lia|].
    destruct (Z.leb_spec (Z.of_nat (length (p_fst m))) s); [lia|].
    inversion Hc as [s0 st0 a0 t0 Hs0 Ha Hl E1 E2|s0 st0 S0 b0 t0 l0 Hs0 Ha Hc0 E1 E2]; subst.
    - (* the unigram state *)
      rewrite (backoff_end _ _ _ _ _ Hst Ha Hl). cbn [bind].
      replace (0 <=? -1) with false by reflexivity. cbn [bind].
      unfold no_observations. rewrite (vgetZ_Some _ _ _ Hst). cbn [bind]. rewrite Ha. cbn [bind first_arc].
      destruct (Z.eqb_spec (a_label a0) 0); [congruence|]. rewrite andb_false_r.
      rewrite (unigram_state_ok V) with (st := st) by auto.
      destruct (alloc_store_ok D m s (cvals V (p_alpha m) (p_beta m) (p_start m) [(s, st)]) Hci Hr)
        as (ci & cs & E & Hci' & He).
      { exists [(s, st)]. split; auto. }
      exists (p_accessed m + 1), ci, cs. cbn zeta. split; [exact E|]. split; [exact Hci'|]. split; [lia|].
      eexists. exact He.
    - (* a state with a back-off arc *)
      rewrite (backoff_step _ _ _ _ _ _ Hst Ha). cbn [bind].
      destruct (chain_hd _ _ _ Hc0) as (stb & lb & -> & Hstb).
      pose proof (getZ_range _ _ _ Hstb) as Hrb. destruct (Z.leb_spec 0 b0); [|lia].
      assert (Hgb : good_at m b0 ((b0, stb) :: lb)).
      { repeat split; auto. inversion Hg; auto. simpl in *; lia. }
      destruct (Hens m b0 ((b0, stb) :: lb) Hci Hgb eq_refl eq_refl eq_refl eq_refl eq_refl)
        as (a1 & ci1 & cs1 & E1 & Hci1 & Ha1).
      rewrite E1. cbn [bind]. set (m1 := set_cache m a1 ci1 cs1) in *.
      unfold no_observations. change (p_fst m1) with (p_fst m).
      rewrite (vgetZ_Some _ _ _ Hst). cbn [bind]. rewrite Ha. cbn [first_arc bind a_label length].
      replace (feqb (ps_final st) f0 && (S (length t0) =? 1)%nat && (0 =? 0))
        with (seen_nothing st t0)
        by (unfold seen_nothing; destruct (feqb (ps_final st) f0), t0; reflexivity).
      assert (Hf : fresh m1 s (cvals V (p_alpha m) (p_beta m) (p_start m) ((s, st) :: (b0, stb) :: lb))).
      { exists ((s, st) :: (b0, stb) :: lb). split; auto. }
      destruct (alloc_store_ok D m1 s _ Hci1 Hr Hf) as (ci & cs & E & Hci' & He).
      exists (p_accessed m1 + 1), ci, cs. cbn zeta.
      assert (Eq : (if seen_nothing st t0
        then allocate_and_store m1 s (cvals V (p_alpha m) (p_beta m) (p_start m) ((b0, stb) :: lb))
        else update_cache_at_nonempty m1 s b0 (cvals V (p_alpha m) (p_beta m) (p_start m) ((b0, stb) :: lb)))
        = allocate_and_store m1 s (cvals V (p_alpha m) (p_beta m) (p_start m) ((s, st) :: (b0, stb) :: lb))).
      { destruct (seen_nothing st t0) eqn:Ens.
        - rewrite <- (cvals_nothing V (p_alpha m) (p_beta m) Halpha (p_start m) s st S0 b0 t0); auto.
        - apply (nonempty_state_ok V m1 s st (b0, stb) lb b0 S0 t0); auto; try apply Hrb. }
      cbn [bind]. split; [exact (eq_trans Eq E)|]. split; [exact Hci'|].
      split; [change (p_accessed m < a1 + 1); lia|]. eexists. exact He.
  Qed.

  (** EnsureCacheAtState returns the vectors of the chain. *)
  Lemma ensure_ok D : forall fuel m s l,
    flt f0 (p_alpha m) = true -> flt f0 (p_beta m) = true ->
    cinv D m -> good_at m s l -> (length l <= fuel)%nat ->
    (forall d, D d -> ~ In d (map fst l)) ->
    exists a ci cs, let m' := set_cache m a ci cs in
      ensure_cache_fuel fuel m s = Ok (Some (cvals V (p_alpha m) (p_beta m) (p_start m) l), m') /\
      cinv D m' /\ p_accessed m <= a.
  Proof.
    intros fuel. induction fuel as [|k IH]; intros m s l Halpha Hbeta Hci Hga Hfuel Hdis.
    { destruct Hga as (Hc & _). destruct (chain_hd _ _ _ Hc) as (st & l' & -> & _). simpl in Hfuel; lia. }
    pose proof Hga as (Hc & Hg & Hlen).
    destruct (chain_hd _ _ _ Hc) as (st & l' & El & Hst).
    pose proof (getZ_range _ _ _ Hst) as Hr. pose proof (ci_s _ _ Hci) as Hs.
    destruct (getZ_ex (p_cindex m) s) as [i Hi]; [rewrite (si_len m Hs); lia|].
    cbn [ensure_cache_fuel]. rewrite (vgetZ_Some _ _ _ Hi). cbn [bind].
    assert (Hstale : exists stale, (if i <? 0 then Ok true else lower_order_cache_updated m s) = Ok stale /\
      (stale = false -> exists c, getZ (p_caches m) i = Some c /\ pc_state c = s /\
          forall d cd, In d (map fst l') -> entry m d cd -> pc_updated cd <= pc_updated c)).
    { destruct (Z.ltb_spec i 0); [exists true; split; [reflexivity|discriminate]|].
      destruct (si_idx m Hs s i Hi) as [->|(c & Hcc & Ec)]; [lia|].
      unfold lower_order_cache_updated. rewrite (vgetZ_Some _ _ _ Hi). cbn [bind].
      destruct (Z.ltb_spec i 0); [lia|]. rewrite (vgetZ_Some _ _ _ Hcc). cbn [bind]. subst l.
      inversion Hc as [s0 st0 a0 t0 Hs0 Ha Hl E1 E2|s0 st0 S0 b0 t0 l0 Hs0 Ha Hc0 E1 E2]; subst.
      - rewrite (backoff_end _ _ _ _ _ Hst Ha Hl). cbn [bind]. exists false. split; [reflexivity|].
        intros _. exists c. repeat split; auto. intros d cd [].
      - rewrite (backoff_step _ _ _ _ _ _ Hst Ha). cbn [bind].
        destruct (lower_loop_ok m (pc_updated c) Hs (S (length (p_fst m))) b0 l' Hc0) as (r & Er & Hr2).
        + simpl in Hlen; lia.
        + exists r. split; auto. intros E. exists c. split; [exact Hcc|]. split; [reflexivity|]. exact (Hr2 E). }
    destruct Hstale as (stale & -> & Hst2). cbn [bind]. destruct stale.
    - (* recomputed *)
      destruct (update_cache_at_ok D m s l (ensure_cache_fuel k) Halpha Hbeta Hci Hga)
        as (a & ci & cs & E & Hci' & Ha & t & He).
      + intros d Hd Hin. apply (Hdis d Hd). destruct l; auto. right; auto.
      + intros m1 b lb Hci1 Hgb Ef Eal Ebe Est Elb.
        destruct (IH m1 b lb) as (a & ci & cs & E & Hci2 & Ha); try congruence.
        * subst lb l. simpl in Hfuel |- *. lia.
        * intros d Hd Hin. apply (Hdis d Hd). subst lb l. right; auto.
        * exists a, ci, cs. cbn zeta. rewrite <- Eal, <- Ebe, <- Est. auto.
      + rewrite E. cbn [bind]. destruct He as (i' & Hi' & Hc').
        rewrite (vgetZ_Some _ _ _ Hi'). cbn [bind]. pose proof (getZ_range _ _ _ Hc') as Hri.
        destruct (Z.ltb_spec i' 0); [lia|].
        destruct (Z.leb_spec (Z.of_nat (length (p_caches (set_cache m a ci cs)))) i'); [lia|].
        rewrite (vgetZ_Some _ _ _ Hc'). cbn [bind pc_state pc_vals]. rewrite Z.eqb_refl. cbn [negb].
        exists a, ci, cs. cbn zeta. split; [reflexivity|]. split; [|lia].
        eapply cinv_mono; [|exact Hci']. intros d [Hd _]; auto.
    - (* up to date *)
      destruct (Hst2 eq_refl) as (c & Hcc & Ec & Hup). cbn [bind]. rewrite (vgetZ_Some _ _ _ Hi). cbn [bind].
      pose proof (getZ_range _ _ _ Hcc) as Hri. destruct (Z.ltb_spec i 0); [lia|].
      destruct (Z.leb_spec (Z.of_nat (length (p_caches m))) i); [lia|].
      rewrite (vgetZ_Some _ _ _ Hcc). cbn [bind]. rewrite Ec, Z.eqb_refl. cbn [negb].
      rewrite vsetZ_Ok by lia. cbn [bind].
      assert (He : entry m s c) by (exists i; auto).
      assert (Hfr : pc_vals c = cvals V (p_alpha m) (p_beta m) (p_start m) l).
      { destruct (ci_val _ _ Hci s c He) as [(l2 & Hc2 & ->)|[(d & cd & (p & l2 & Hb & Hin) & Hd & U & A)|(d & Hd & l2 & Hb & Hin)]].
        - rewrite (chain_det _ _ _ _ Hc Hc2). reflexivity.
        - pose proof (chain_det _ _ _ _ Hc Hb) as E. rewrite El in E. injection E as _ <-.
          specialize (Hup d cd Hin Hd). lia.
        - pose proof (chain_det _ _ _ _ Hc Hb) as E. subst l2. elim (Hdis d Hd Hin). }
      rewrite Hfr. eexists _, _, _. cbn zeta. split; [reflexivity|]. split; [|lia].
      set (e := PCache s (p_accessed m) (pc_updated c) (cvals V (p_alpha m) (p_beta m) (p_start m) l)).
      assert (Gcs : forall j, getZ (upd (p_caches m) (Z.to_nat i) e) j =
                                if j =? i then Some e else getZ (p_caches m) j)
        by (intros j; apply getZ_upd; lia).
      set (m' := set_cache m (p_accessed m + 1) (p_cindex m) (upd (p_caches m) (Z.to_nat i) e)).
      pose proof (si_time m Hs i c Hcc) as Htc.
      assert (Hes : entry m' s e).
      { exists i. split; auto. change (getZ (upd (p_caches m) (Z.to_nat i) e) i = Some e).
        rewrite Gcs, Z.eqb_refl. reflexivity. }
      assert (Hsub : forall s0 c0, s0 <> s -> entry m' s0 c0 <-> entry m s0 c0).
      { intros s0 c0 Hne. split; intros (i0 & Hi0 & Hc0); exists i0; split; auto;
          cbn [p_caches m' set_cache] in *; rewrite Gcs in *;
          (destruct (Z.eqb_spec i0 i) as [->|]; auto);
          (destruct (si_idx m Hs s0 i Hi0) as [E2|(c' & Hc' & Ec')]; [lia|congruence]). }
      split.
      + constructor.
        * apply Hs.
        * cbn [p_caches m' set_cache p_max_cache]. rewrite upd_length. apply Hs.
        * intros j c' Hj. cbn [p_caches p_cindex m' set_cache] in *. rewrite Gcs in Hj.
          destruct (Z.eqb_spec j i) as [->|]; [injection Hj as <-; exact Hi|apply (si_slot m Hs _ _ Hj)].
        * intros s0 i0 Hi0. cbn [p_caches p_cindex m' set_cache] in *.
          destruct (si_idx m Hs s0 i0 Hi0) as [->|(c' & Hc' & Ec')]; auto. right. rewrite Gcs.
          destruct (Z.eqb_spec i0 i) as [->|]; eauto. exists e. split; auto. simpl. congruence.
        * intros j c' Hj. cbn [p_caches p_accessed m' set_cache] in *. rewrite Gcs in Hj.
          destruct (Z.eqb_spec j i) as [->|]; [injection Hj as <-; simpl; lia|].
          apply (si_time m Hs) in Hj. lia.
      + intros s0 c0 He0. destruct (Z.eq_dec s0 s) as [->|Hne].
        * left. rewrite (entry_fun _ _ _ _ He0 Hes). exists l. split; auto.
        * apply Hsub in He0; auto.
          destruct (ci_val _ _ Hci s0 c0 He0) as [K|[(d & cd & Hb & Hd & U & A)|K]]; auto.
          right; left. destruct (Z.eq_dec d s) as [->|Hds].
          -- exists s, e. rewrite (entry_fun _ _ _ _ Hd He) in *. repeat split; auto. simpl. lia.
          -- exists d, cd. repeat split; auto. apply Hsub; auto.
  Qed.

  Lemma ensure_cache_ok D m s l :
    flt f0 (p_alpha m) = true -> flt f0 (p_beta m) = true ->
    cinv D m -> good_at m s l -> (forall d, D d -> ~ In d (map fst l)) ->
    exists a ci cs, let m' := set_cache m a ci cs in
      ensure_cache m s = Ok (Some (cvals V (p_alpha m) (p_beta m) (p_start m) l), m') /\
      cinv D m' /\ p_accessed m <= a.
  Proof.
    intros. apply ensure_ok; auto. destruct H2 as (_ & _ & H2). lia.
  Qed.

  Lemma update_cache_ok D m s l :
    flt f0 (p_alpha m) = true -> flt f0 (p_beta m) = true ->
    cinv D m -> good_at m s l -> (forall d, D d -> ~ In d (map fst (tl l))) ->
    exists a ci cs, let m' := set_cache m a ci cs in
      update_cache m s = Ok (Some tt, m') /\ cinv (fun d => D d /\ d <> s) m' /\ p_accessed m < a.
  Proof.
    intros Ha Hb Hci Hga Hdis.
    destruct (update_cache_at_ok D m s l (ensure_cache_fuel (S (length (p_fst m)))) Ha Hb Hci Hga Hdis)
      as (a & ci & cs & E & Hci' & Hlt & _).
    - intros m1 b l' Hci1 Hgb Ef Eal Ebe Est El.
      destruct (ensure_ok D (S (length (p_fst m))) m1 b l') as (a & ci & cs & E & Hci2 & Hle); try congruence.
      + destruct Hgb as (_ & _ & Hl). rewrite Ef in Hl. lia.
      + subst l'. auto.
      + exists a, ci, cs. cbn zeta. rewrite <- Eal, <- Ebe, <- Est. auto.
    - exists a, ci, cs. auto.
  Qed.

  (** Reading one element through the cache. *)
  Lemma access_map {A} (g : Z -> A) x : In x (symbols V) -> access (map g (symbols V)) x = Some (g x).
  Proof.
    intros Hx. apply symbols_In in Hx. unfold access. rewrite map_length, symbols_length.
    destruct (Z.ltb_spec x 0); [lia|]. destruct (Z.leb_spec (Z.of_nat (S V)) x); [lia|]. cbn [orb].
    rewrite nth_error_map, symbols_nth. destruct (Nat.leb_spec (Z.to_nat x) V); [|lia].
    cbn [option_map]. rewrite Z2Nat.id by lia. reflexivity.
  Qed.
  Lemma cached_ok {A} (pick : vals F -> list A) (g : Z -> A) D m s l x :
    flt f0 (p_alpha m) = true -> flt f0 (p_beta m) = true ->
    cinv D m -> good_at m s l -> (forall d, D d -> ~ In d (map fst l)) ->
    pick (cvals V (p_alpha m) (p_beta m) (p_start m) l) = map g (symbols V) -> In x (symbols V) ->
    exists a ci cs, let m' := set_cache m a ci cs in
      cached pick m s x = Ok (Some (g x), m') /\ cinv D m' /\ p_accessed m <= a.
  Proof.
    intros Ha Hb Hci Hga Hdis Hp Hx.
    destruct (ensure_cache_ok D m s l Ha Hb Hci Hga Hdis) as (a & ci & cs & E & H1 & H2).
    exists a, ci, cs. cbn zeta. unfold cached. rewrite E. cbn [bind]. rewrite Hp, access_map by auto. auto.
  Qed.
End Cache.
