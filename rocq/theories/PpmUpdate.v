(** One observation (UpdateModel of ppm_as_fst_model.cc) follows the reference description, and
    keeps the automaton and the cache sound. *)
From Coq Require Import Field.
From Verif Require Import Base Field LmModel TextModel HubModel PpmModel PpmSpec PpmStruct PpmVals PpmCache PpmWf.
Local Open Scope Z_scope.

Lemma hist_eqb_refl (h : history) : hist_eqb h h = true.
Proof. apply hist_eqb_eq; reflexivity. Qed.
Lemma hist_eqb_neq (g h : history) : g <> h -> hist_eqb g h = false.
Proof. intros H. destruct (hist_eqb g h) eqn:E; auto. apply hist_eqb_eq in E. contradiction. Qed.
Lemma mem_false (K : list history) h : ~ In h K -> existsb (hist_eqb h) K = false.
Proof. intros H. destruct (existsb (hist_eqb h) K) eqn:E; auto. apply mem_In in E. contradiction. Qed.

(** The reference description, unrolled. *)
Section SpecLemmas.
  Context {F : ofield}.
  Variable mo : Z.
  Implicit Types C : @counts F.

  Lemma seen_found C h x : flt f0 (C h x) = true -> seen C h x = h.
  Proof. intros H. destruct h; cbn [seen]; [reflexivity|rewrite H; reflexivity]. Qed.
  Lemma seen_step C c h x : flt f0 (C (c :: h) x) = false -> seen C (c :: h) x = seen C h x.
  Proof. intros H. cbn [seen]. rewrite H. reflexivity. Qed.
  Lemma seen_ext C C' h x : (forall g, suffix g h -> C g x = C' g x) -> seen C h x = seen C' h x.
  Proof.
    induction h as [|c h IH]; intros H; cbn [seen]; [reflexivity|].
    rewrite (H (c :: h)) by apply suffix_refl. destruct (flt f0 (C' (c :: h) x)); [reflexivity|].
    apply IH. intros g Hg. apply H. apply suffix_cons; auto.
  Qed.

  Lemma observe_found C h x g y : flt f0 (C h x) = true ->
    observe C h x g y = if (y =? x) && hist_eqb g h then fadd (C g y) f1 else C g y.
  Proof.
    intros H. unfold observe. rewrite (seen_found C h x H). destruct (y =? x); cbn [andb]; [|reflexivity].
    destruct (hist_eqb g h) eqn:E.
    - apply hist_eqb_eq in E. subst g. rewrite (proj2 (mem_In _ _)) by (apply suffixes_In, suffix_refl).
      rewrite Nat.leb_refl. reflexivity.
    - destruct (existsb (hist_eqb g) (suffixes h)) eqn:E2; [|reflexivity]. cbn [andb].
      apply mem_In, suffixes_In in E2. destruct (Nat.leb_spec (length h) (length g)); [|reflexivity].
      pose proof (suffix_len _ _ E2). rewrite (suffix_same_len g h E2 ltac:(lia)), hist_eqb_refl in E.
      discriminate.
  Qed.
  Lemma observe_step C c h x g y : flt f0 (C (c :: h) x) = false ->
    observe C (c :: h) x g y =
    if (y =? x) && hist_eqb g (c :: h) then fadd (C g y) f1 else observe C h x g y.
  Proof.
    intros H. unfold observe. rewrite (seen_step C c h x H). destruct (y =? x); cbn [andb]; [|reflexivity].
    cbn [suffixes existsb]. destruct (hist_eqb g (c :: h)) eqn:E; cbn [orb andb]; [|reflexivity].
    apply hist_eqb_eq in E. subst g.
    pose proof (suffix_len _ _ (seen_suffix C h x)).
    destruct (Nat.leb_spec (length (seen C h x)) (length (c :: h))); [reflexivity|]. simpl in *. lia.
  Qed.
  Lemma observe_ext C C' h x g y : (forall g y, C g y = C' g y) -> observe C h x g y = observe C' h x g y.
  Proof.
    intros H. unfold observe. rewrite (seen_ext C C') by auto. rewrite H. reflexivity.
  Qed.

  Definition fits (K : list history) (g : history) : bool :=
    (Z.of_nat (length g) <? mo) && negb (existsb (hist_eqb g) K).

  Lemma filter_snoc {A} (p : A -> bool) l a : filter p (l ++ [a]) = filter p l ++ (if p a then [a] else []).
  Proof. induction l as [|b t IH]; cbn [filter app]; [reflexivity|]. rewrite IH. destruct (p b); reflexivity. Qed.
  Lemma filter_none {A} (p : A -> bool) l : (forall a, In a l -> p a = false) -> filter p l = [].
  Proof.
    induction l as [|b t IH]; intros H; cbn [filter]; [reflexivity|].
    rewrite (H b) by (left; auto). apply IH. intros; apply H; right; auto.
  Qed.

  Lemma extended_found K C h x : flt f0 (C h x) = true -> x <> 0 ->
    extended mo K C h x = K ++ (if fits K (h ++ [x]) then [h ++ [x]] else []).
  Proof.
    intros H Hx. unfold extended. destruct (Z.eqb_spec x 0); [congruence|]. f_equal.
    rewrite (seen_found C h x H). fold (fits K).
    assert (E : filter (fun g : list Z => (length h <=? length g)%nat) (rev (suffixes h)) = [h]).
    { destruct h as [|c h]; [reflexivity|]. cbn [suffixes rev]. rewrite filter_snoc, Nat.leb_refl.
      rewrite filter_none; [reflexivity|]. intros g Hg. apply in_rev, suffixes_In, suffix_len in Hg.
      apply Nat.leb_gt. simpl. lia. }
    rewrite E. cbn [map filter]. reflexivity.
  Qed.
  Lemma extended_step K C c h x : flt f0 (C (c :: h) x) = false -> x <> 0 ->
    extended mo K C (c :: h) x = extended mo K C h x ++
      (if fits K ((c :: h) ++ [x]) then [(c :: h) ++ [x]] else []).
  Proof.
    intros H Hx. unfold extended. destruct (Z.eqb_spec x 0); [congruence|].
    rewrite (seen_step C c h x H). cbn [suffixes rev]. rewrite filter_snoc.
    pose proof (suffix_len _ _ (seen_suffix C h x)).
    replace (length (seen C h x) <=? length (c :: h))%nat with true
      by (symmetry; apply Nat.leb_le; simpl; lia).
    rewrite map_app. cbn [map]. rewrite filter_snoc, app_assoc. reflexivity.
  Qed.
  Lemma extended_0 K C h : extended mo K C h 0 = K.
  Proof. reflexivity. Qed.
  Lemma extended_ext K C C' h x : (forall g y, C g y = C' g y) -> extended mo K C h x = extended mo K C' h x.
  Proof. intros H. unfold extended. rewrite (seen_ext C C') by auto. reflexivity. Qed.
  Lemma extended_app K C h x : exists N, extended mo K C h x = K ++ N.
  Proof. unfold extended. destruct (x =? 0); [exists []; rewrite app_nil_r; auto|eauto]. Qed.
End SpecLemmas.

Section Update.
  Context {F : ofield}.
  Add Field FfieldPpm4 : (f_th F).
  Variable V : nat.
  Variable u : Z.

  Definition olen (h : history) : Z := Z.of_nat (length h).

  (** The invariant of the model between (and, with [D] not empty, during) calls. *)
  Record minv (D : Z -> Prop) (m : ppm F) (ctx : list history) : Prop := {
    mi_wf : wf V (p_beta m) (p_max_order m) (p_start m) u D (p_fst m) ctx;
    mi_c : cinv V D m;
    mi_ord : p_static m = false -> p_orders m = map olen ctx;
    mi_alpha : flt f0 (p_alpha m) = true;
    mi_beta : flt f0 (p_beta m) = true;
    mi_beta1 : flt (p_beta m) f1 = true;
    mi_syms : length (p_syms m) = V
  }.

  (** Calls never change the parameters. *)
  Record same (m m' : ppm F) : Prop := {
    sm_start : p_start m' = p_start m;
    sm_syms : p_syms m' = p_syms m;
    sm_mo : p_max_order m' = p_max_order m;
    sm_alpha : p_alpha m' = p_alpha m;
    sm_beta : p_beta m' = p_beta m;
    sm_static : p_static m' = p_static m;
    sm_max : p_max_cache m' = p_max_cache m
  }.
  Lemma same_refl m : same m m.
  Proof. constructor; reflexivity. Qed.
  Lemma same_trans m m1 m2 : same m m1 -> same m1 m2 -> same m m2.
  Proof. intros [] []. constructor; congruence. Qed.
  Lemma same_set_cache m a ci cs : same m (set_cache m a ci cs).
  Proof. constructor; reflexivity. Qed.

  (** Changing one state of the automaton keeps its back-off arc. *)
  Definition same_eps (st st' : pstate F) : Prop :=
    (exists S S' b t t', ps_arcs st = Arc 0 S b :: t /\ ps_arcs st' = Arc 0 S' b :: t') \/
    (exists a t a' t', ps_arcs st = a :: t /\ ps_arcs st' = a' :: t' /\ a_label a <> 0 /\ a_label a' <> 0).

  Lemma chain_modify (f f' : list (pstate F)) s st st' :
    getZ f s = Some st -> getZ f' s = Some st' -> same_eps st st' ->
    (forall d x, d <> s -> getZ f d = Some x -> getZ f' d = Some x) ->
    forall r l, chain f r l -> exists l', chain f' r l' /\ map fst l' = map fst l.
  Proof.
    intros Hs Hs' He Hf r l H. induction H as [r st0 a t Hg Ha Hl|r st0 S b t l Hg Ha Hc (l' & IH & E)].
    - destruct (Z.eq_dec r s) as [->|Hne].
      + assert (st0 = st) by congruence. subst.
        destruct He as [(S & S' & b & t1 & t2 & E1 & E2)|(a1 & t1 & a2 & t2 & E1 & E2 & L1 & L2)].
        * rewrite Ha in E1. injection E1 as -> ->. elim Hl. reflexivity.
        * exists [(s, st')]. split; [econstructor; eauto|reflexivity].
      + exists [(r, st0)]. split; [econstructor; eauto|reflexivity].
    - destruct (Z.eq_dec r s) as [->|Hne].
      + assert (st0 = st) by congruence. subst.
        destruct He as [(S1 & S2 & b1 & t1 & t2 & E1 & E2)|(a1 & t1 & a2 & t2 & E1 & E2 & L1 & L2)].
        * rewrite Ha in E1. injection E1 as -> -> ->. exists ((s, st') :: l').
          split; [econstructor; eauto|cbn; congruence].
        * rewrite Ha in E1. injection E1 as <- <-. elim L1. reflexivity.
      + exists ((r, st0) :: l'). split; [econstructor; eauto|cbn; congruence].
  Qed.

  (** The model after replacing state s by st', and adding a state. *)
  Definition put (m : ppm F) (s : Z) (st' : pstate F) (ext : option (history * Z)) : ppm F :=
    set_states m (upd (p_fst m) (Z.to_nat s) st' ++ ext_fst ext)
      (p_orders m ++ map olen (ext_ctx ext)) (p_cindex m ++ map (fun _ => -1) (ext_ctx ext)).

  Lemma put_cinv D m s st st' ext : cinv V D m -> getZ (p_fst m) s = Some st -> same_eps st st' ->
    cinv V (fun d => D d \/ d = s) (put m s st' ext).
  Proof.
    intros [Hs Hv] Hst He. pose proof (getZ_range _ _ _ Hst) as Hr.
    set (m' := put m s st' ext). set (f' := p_fst m').
    assert (Gs : getZ f' s = Some st').
    { apply getZ_app_l. rewrite getZ_upd, Z.eqb_refl by auto. reflexivity. }
    assert (Gf : forall d x, d <> s -> getZ (p_fst m) d = Some x -> getZ f' d = Some x).
    { intros d x Hne Hd. apply getZ_app_l. rewrite getZ_upd by auto. destruct (Z.eqb_spec d s); [congruence|auto]. }
    assert (Gi : forall d i, getZ (p_cindex m) d = Some i -> getZ (p_cindex m') d = Some i)
      by (intros; apply getZ_app_l; auto).
    assert (Gi' : forall d i, getZ (p_cindex m') d = Some i -> getZ (p_cindex m) d = Some i \/ i = -1).
    { intros d i Hd. destruct ext as [(g, b)|]; cbn in Hd.
      - apply getZ_app_inv in Hd. destruct Hd as [Hd|(_ & ->)]; auto.
      - rewrite app_nil_r in Hd. auto. }
    assert (Ge : forall d c, entry m' d c <-> entry m d c).
    { intros d c. split; intros (i & Hi & Hc); exists i; split; auto.
      destruct (Gi' _ _ Hi) as [K| ->]; auto. apply getZ_range in Hc. lia. }
    assert (Fr : forall r l, chain (p_fst m) r l -> ~ In s (map fst l) -> chain f' r l).
    { intros r l Hc Hni. apply (chain_frame (p_fst m)); auto. intros d x Hin. apply Gf.
      - intros ->. apply Hni. apply in_map_iff. exists (s, x). auto.
      - eapply chain_states_ok; eauto. }
    assert (Mo : forall r d, on_chain (p_fst m) r d -> on_chain f' r d).
    { intros r d (l & Hc & Hin). destruct (chain_modify (p_fst m) f' s st st' Hst Gs He Gf r l Hc) as (l' & Hc' & E).
      exists l'. split; auto. rewrite E. auto. }
    split.
    - constructor.
      + cbn. rewrite !app_length, upd_length, (si_len m Hs). destruct ext as [(g, b)|]; reflexivity.
      + apply Hs.
      + intros j c Hj. apply Gi. apply (si_slot m Hs j c Hj).
      + intros d i Hd. destruct (Gi' _ _ Hd) as [K|K]; auto. apply (si_idx m Hs d i K).
      + apply (si_time m Hs).
    - intros r c Hr'. apply Ge in Hr'.
      destruct (Hv r c Hr') as [(l & Hc & E)|[(d & cd & (p & l & Hc & Hin) & Hd & U & A)|(d & Hd & Hon)]].
      + destruct (in_dec Z.eq_dec s (map fst l)) as [Hin|Hni].
        * right; right. exists s. split; auto. apply Mo. exists l; auto.
        * left. exists l. split; auto.
      + destruct (in_dec Z.eq_dec s (map fst (p :: l))) as [Hin'|Hni].
        * right; right. exists s. split; auto. apply Mo. exists (p :: l); auto.
        * right; left. exists d, cd. split; [exists p, l; split; auto|]. split; [apply Ge; auto|auto].
      + right; right. exists d. split; auto.
  Qed.

  (** NeedsNewState. *)
  Lemma needs_ok (m : ppm F) ctx curr next h t : p_orders m = map olen ctx ->
    getZ ctx curr = Some h -> getZ ctx next = Some t -> (length h <= length t)%nat ->
    needs_new_state m curr next =
    Ok (Some ((length t =? length h)%nat && (olen h + 1 <? p_max_order m))).
  Proof.
    intros Ho Hc Hn Hl.
    assert (G : forall s g, getZ ctx s = Some g -> vgetZ (p_orders m) s = Ok (olen g)).
    { intros s g Hs. apply vgetZ_Some. rewrite Ho. unfold getZ in *. destruct (s <? 0); [discriminate|].
      rewrite nth_error_map, Hs. reflexivity. }
    unfold needs_new_state. rewrite (G _ _ Hn), (G _ _ Hc). cbn [bind]. unfold olen.
    destruct (Z.ltb_spec (Z.of_nat (length h)) (Z.of_nat (length t))).
    - destruct (Nat.eqb_spec (length t) (length h)); [lia|reflexivity].
    - destruct (Z.eqb_spec (Z.of_nat (length t)) (Z.of_nat (length h))); [|lia].
      destruct (Nat.eqb_spec (length t) (length h)); [|lia]. cbn [negb andb].
      do 2 f_equal. rewrite e.
      destruct (Z.leb_spec (p_max_order m) (Z.of_nat (length h) + 1)), (Z.ltb_spec (Z.of_nat (length h) + 1) (p_max_order m)); try lia; reflexivity.
  Qed.

  Lemma scan_ok (m : ppm F) curr x (l : list (arc F)) a n : find_arc l x = Some a ->
    needs_new_state m curr (a_next a) = Ok (Some n) ->
    scan_arcs m curr x l =
    Ok (Some (set_arc l x (if n then Z.of_nat (length (p_orders m)) else a_next a), a_next a,
              if n then Z.of_nat (length (p_orders m)) else -1)).
  Proof.
    intros Hf Hn. induction l as [|b t IH]; [discriminate|]. rewrite find_arc_cons in Hf.
    cbn [scan_arcs set_arc]. destruct (Z.eqb_spec (a_label b) x) as [E|E].
    - injection Hf as ->. rewrite Hn. cbn [bind]. rewrite E. destruct n; reflexivity.
    - rewrite IH by auto. reflexivity.
  Qed.

  (** The state after observing x: [S'] is the new total, [d] the destination. *)
  Definition obs_state (S' : car F) (st : pstate F) (x d : Z) : pstate F :=
    PState (match ps_arcs st with
            | [] => []
            | a :: t =>
                if a_label a =? 0
                then Arc 0 S' (a_next a) :: (if x =? 0 then t else set_arc t x d)
                else if x =? 0 then a :: t else set_arc (a :: t) x d
            end)
           (if x =? 0 then fadd (ps_final st) f1 else ps_final st).

  (** Where the arc goes, and the state that is added for it. *)
  Definition dest_ok (ctx : list history) (mo n : Z) (h : history) (st : pstate F) (x d : Z)
    (ext : option (history * Z)) : Prop :=
    match ext with
    | None => x <> 0 ->
        (exists t, getZ ctx d = Some t /\ suffix t (h ++ [x]) /\ (length h <= length t)%nat) /\
        (forall a, find_arc (ps_arcs st) x = Some a -> a_next a = d)
    | Some (g, b) => x <> 0 /\ g = h ++ [x] /\ ~ In g ctx /\ olen g < mo /\ d = n /\
                     getZ ctx b = Some (tl g)
    end.

  Lemma obs_count S' st x d y : 0 <= x ->
    (exists a t, ps_arcs st = a :: t) ->
    count (obs_state S' st x d) y = if y =? x then fadd (count st y) f1 else count st y.
  Proof.
    intros Hx0 (a & t & Ha). unfold count, obs_state. cbn [ps_final ps_arcs]. rewrite Ha.
    destruct (Z.eqb_spec y 0) as [->|Hy].
    - rewrite (Z.eqb_sym 0 x). destruct (x =? 0); reflexivity.
    - destruct (Z.eqb_spec x 0) as [->|Hx].
      + destruct (Z.eqb_spec y 0); [congruence|].
        destruct (Z.eqb_spec (a_label a) 0) as [E|E]; [|reflexivity].
        rewrite !find_arc_cons. cbn [a_label]. destruct (Z.eqb_spec 0 y), (Z.eqb_spec (a_label a) y); congruence.
      + destruct (Z.eqb_spec (a_label a) 0) as [E|E].
        * rewrite !find_arc_cons. cbn [a_label]. rewrite set_arc_find. rewrite E.
          destruct (Z.eqb_spec 0 y); [congruence|]. destruct (Z.eqb_spec y x) as [->|]; [|reflexivity].
          unfold rcount. reflexivity.
        * rewrite set_arc_find. destruct (Z.eqb_spec y x) as [->|]; [|reflexivity]. unfold rcount. reflexivity.
  Qed.

  Lemma obs_same_eps S' st x d : (exists a t, ps_arcs st = a :: t) -> 0 <= x ->
    same_eps st (obs_state S' st x d).
  Proof.
    intros (a & t & Ha) Hx. unfold obs_state, same_eps. rewrite Ha. cbn [ps_arcs].
    destruct a as [la ca na]. cbn [a_label a_next].
    destruct (Z.eqb_spec la 0) as [->|E].
    - left. eexists _, _, _, _, _. split; reflexivity.
    - right. destruct (Z.eqb_spec x 0) as [->|Hx0].
      + eexists _, _, _, _. repeat split; auto.
      + cbn [set_arc a_label]. destruct (Z.eqb_spec la x) as [->|].
        * eexists _, _, _, _. repeat split; auto.
        * eexists _, _, _, _. repeat split; auto.
  Qed.

  Lemma wf_obs D' (D : Z -> Prop) beta mo start f ctx s h st x d ext S' :
    wf V beta mo start u D' f ctx -> fle f0 beta = true -> flt beta f1 = true ->
    (forall d, D' d -> D d \/ d = s) ->
    getZ ctx s = Some h -> getZ f s = Some st -> In x (symbols V) ->
    dest_ok ctx mo (Z.of_nat (length f)) h st x d ext ->
    let st' := obs_state S' st x d in
    (h <> [] -> S' = fadd (ps_final st') (fsum (map (@a_count F) (tl (ps_arcs st'))))) ->
    wf V beta mo start u D (upd f (Z.to_nat s) st' ++ ext_fst ext) (ctx ++ ext_ctx ext).
  Proof.
    intros H Hb0 Hb1 HD Hs Hst Hx Hd st' HS. apply symbols_In in Hx.
    pose proof (wf_nodup _ _ _ _ _ _ _ _ H) as Hnd.
    pose proof (wf_len _ _ _ _ _ _ _ _ H) as Hlen.
    (* the non-epsilon arcs *)
    assert (Hrest : exists low rest, good_arcs V low rest /\ fle f0 low = true /\ flt low f1 = true /\
      (forall a, In a (ps_arcs st) -> a_label a <> 0 -> In a rest) /\
      (forall a, In a (ps_arcs st') -> a_label a <> 0 -> In a (if x =? 0 then rest else set_arc rest x d)) /\
      (forall a, In a (if x =? 0 then rest else set_arc rest x d) -> In a (ps_arcs st')) /\
      (forall a, In a rest -> In a (ps_arcs st)) /\
      (forall y, y <> 0 -> find_arc (ps_arcs st) y = find_arc rest y) /\
      (h = [] -> low = f0 /\ ps_arcs st' = (if x =? 0 then rest else set_arc rest x d) /\ length rest = V /\
                 flt f0 (ps_final st) = true) /\
      (forall c h', h = c :: h' -> low = beta /\ exists S b, ps_arcs st = Arc 0 S b :: rest /\
                 ps_arcs st' = Arc 0 S' b :: (if x =? 0 then rest else set_arc rest x d) /\
                 getZ ctx b = Some h' /\ (ps_final st = f0 \/ flt beta (ps_final st) = true))).
    { destruct h as [|c h'].
      - pose proof (getZ_nodup _ _ _ _ Hnd Hs (wf_u _ _ _ _ _ _ _ _ H)) as ->.
        destruct (wf_uni _ _ _ _ _ _ _ _ H st Hst) as (Hg & Hl & Hf).
        pose proof (wf_V _ _ _ _ _ _ _ _ H) as HV.
        assert (Ea : ps_arcs st' = if x =? 0 then ps_arcs st else set_arc (ps_arcs st) x d).
        { unfold st', obs_state. cbn [ps_arcs]. destruct (ps_arcs st) as [|a t] eqn:Ea; [simpl in Hl; lia|].
          destruct Hg as [_ Hg]. specialize (Hg a (or_introl eq_refl)).
          destruct (Z.eqb_spec (a_label a) 0); [lia|]. reflexivity. }
        exists f0, (ps_arcs st). repeat match goal with |- _ /\ _ => split end; auto.
        + apply fle_refl.
        + apply f1_pos.
        + intros a Ha _. rewrite <- Ea. auto.
        + intros a Ha. rewrite Ea. auto.
        + intros; discriminate.
      - destruct (wf_state _ _ _ _ _ _ _ _ H s st c h' Hst Hs) as (S & b & rest & Ha & Hb & Hg & Hf & _).
        assert (Ea : ps_arcs st' = Arc 0 S' b :: (if x =? 0 then rest else set_arc rest x d)).
        { unfold st', obs_state. cbn [ps_arcs]. rewrite Ha. reflexivity. }
        exists beta, rest. repeat match goal with |- _ /\ _ => split end; auto.
        + intros a Hin Hl. rewrite Ha in Hin. destruct Hin as [<-|Hin]; auto. elim Hl; reflexivity.
        + intros a Hin Hl. rewrite Ea in Hin. destruct Hin as [<-|Hin]; auto. elim Hl; reflexivity.
        + intros a Hin. rewrite Ea. right; auto.
        + intros a Hin. rewrite Ha. right; auto.
        + intros y Hy. rewrite Ha, find_arc_cons. cbn [a_label]. destruct (Z.eqb_spec 0 y); [congruence|reflexivity].
        + intros; discriminate.
        + intros c0 h0 E. injection E as <- <-. split; auto. exists S, b. auto. }
    destruct Hrest as (low & rest & Hg & Hlow & Hlow1 & R1 & R2 & R3 & R4 & R5 & R6 & R7).
    assert (Hg' : good_arcs V low (if x =? 0 then rest else set_arc rest x d)).
    { destruct (Z.eqb_spec x 0); auto. apply set_arc_good; auto. lia. }
    assert (Hfinpos : fle f0 (ps_final st) = true -> flt f0 (fadd (ps_final st) f1) = true).
    { intros K. apply fadd_pos_r; auto. apply f1_pos. }
    assert (Hnew : x <> 0 -> exists t, getZ (ctx ++ ext_ctx ext) d = Some t /\ suffix t (h ++ [x]) /\
                                       (length h <= length t)%nat).
    { intros Hx0. destruct ext as [(g, b)|]; cbn [dest_ok ext_ctx] in Hd |- *.
      - destruct Hd as (_ & -> & _ & _ & -> & _). exists (h ++ [x]).
        rewrite <- Hlen. split; [apply getZ_app_eq|]. split; [apply suffix_refl|rewrite app_length; lia].
      - destruct (Hd Hx0) as ((t & Ht & K) & _). exists t. rewrite app_nil_r. auto. }
    assert (Hnewarc : x <> 0 -> exists a, In a (ps_arcs st') /\ a_label a = x /\ a_next a = d).
    { intros Hx0. destruct (set_arc_In_new rest x d) as (k & Hk). exists (Arc x k d).
      split; [|auto]. apply R3. destruct (Z.eqb_spec x 0); [congruence|auto]. }
    apply (wf_modify V beta mo start u D' D f ctx s h st st' ext H); auto.
    - intros E. destruct (R6 E) as (-> & Ea & Hl & Hf). rewrite Ea. split; [exact Hg'|]. split.
      + destruct (Z.eqb_spec x 0); auto. rewrite set_arc_length.
        assert (Ec : h = []) by auto. subst h.
        pose proof (getZ_nodup _ _ _ _ Hnd Hs (wf_u _ _ _ _ _ _ _ _ H)) as ->.
        destruct (wf_uni _ _ _ _ _ _ _ _ H st Hst) as (Hgu & Hlu & _).
        destruct (uni_count V st x Hgu Hlu ltac:(lia)) as [a Ef]. rewrite R5 in Ef by auto. rewrite Ef. auto.
      + unfold st', obs_state. cbn [ps_final]. destruct (x =? 0); auto. apply Hfinpos, flt_le; auto.
    - intros c h' E. destruct (R7 c h' E) as (-> & S & b & Ea & Ea' & Hb & Hf).
      exists S', b, (if x =? 0 then rest else set_arc rest x d).
      split; [exact Ea'|]. split; [exact Hb|]. split; [exact Hg'|].
      assert (Hf' : ps_final st' = f0 \/ flt beta (ps_final st') = true).
      { unfold st', obs_state. cbn [ps_final]. destruct (x =? 0); auto. right.
        destruct Hf as [->|Hf].
        - replace (fadd f0 f1) with (@f1 F) by ring. auto.
        - eapply flt_trans; [exact Hf|]. apply flt_sub.
          replace (fsub (fadd (ps_final st) f1) (ps_final st)) with (@f1 F) by ring. apply f1_pos. }
      split; [exact Hf'|]. right.
      rewrite HS by (rewrite E; discriminate). rewrite Ea'. cbn [tl].
      replace (seen_nothing st' (if x =? 0 then rest else set_arc rest x d)) with false; [reflexivity|].
      symmetry. unfold seen_nothing. destruct (Z.eqb_spec x 0) as [->|Hx0].
      + unfold st', obs_state. cbn [ps_final]. replace (0 =? 0) with true by reflexivity.
        assert (P : flt f0 (fadd (ps_final st) f1) = true).
        { apply Hfinpos. destruct Hf as [->|Hf]; [apply fle_refl|]. apply flt_le. eapply fle_lt_trans; eauto. }
        destruct (feqb (fadd (ps_final st) f1) f0) eqn:E0; [|reflexivity].
        apply feqb_eq in E0. rewrite E0 in P. elim (flt_irrefl _ P).
      + rewrite set_arc_length. destruct (find_arc rest x) as [a|] eqn:Ef; [|apply andb_false_r].
        apply find_arc_In in Ef. destruct rest; [destruct Ef as [[] _]|apply andb_false_r].
    - intros a Hin Hl. pose proof (R2 a Hin Hl) as Hin'. destruct (Z.eqb_spec x 0) as [Ex|Hx0].
      + destruct (wf_arc _ _ _ _ _ _ _ _ H s st a h Hst Hs (R4 _ Hin') Hl) as (t & Ht & K).
        exists t. split; auto. apply getZ_app_l; auto.
      + apply set_arc_In in Hin'; [|apply Hg]. destruct Hin' as [->|[Hin' Hne]].
        * cbn [a_next a_label]. auto.
        * destruct (wf_arc _ _ _ _ _ _ _ _ H s st a h Hst Hs (R4 _ Hin') Hl) as (t & Ht & K).
          exists t. split; auto. apply getZ_app_l; auto.
    - intros v y Hv Hns.
      destruct (wf_prefix _ _ _ _ _ _ _ _ H v h y Hv Hns) as (s0 & st0 & a & K1 & K2 & K3 & K4 & K5 & K6).
      pose proof (getZ_nodup _ _ _ _ Hnd K1 Hs) as ->. rewrite Hst in K2. injection K2 as <-.
      assert (Hin : In a rest) by (apply R1; auto; lia).
      destruct (Z.eq_dec x 0) as [Ex|Hx0].
      + exists a. repeat split; auto. apply R3. destruct (Z.eqb_spec x 0); [auto|congruence].
      + destruct (Z.eq_dec y x) as [->|Hyx].
        * destruct (Hnewarc Hx0) as (a' & A1 & A2 & A3). exists a'. repeat split; auto.
          rewrite A3. destruct ext as [(g, b)|]; cbn [dest_ok] in Hd.
          -- destruct Hd as (_ & -> & Hni & _). elim Hni. eapply getZ_In; eauto.
          -- destruct (Hd Hx0) as (_ & Ha). rewrite <- (Ha a); auto.
             rewrite R5 by auto. rewrite <- K4. apply find_arc_nodup; auto. apply Hg.
        * exists a. repeat split; auto. apply R3. destruct (Z.eqb_spec x 0); [congruence|].
          apply set_arc_In_old; auto. congruence.
    - intros g b Eext. subst ext. cbn [dest_ok] in Hd. destruct Hd as (Hx0 & -> & Hni & Hlt & -> & Hb).
      repeat split; auto. destruct (Hnewarc Hx0) as (a & A1 & A2 & A3). exists x, a. repeat split; auto.
  Qed.
End Update.
