(** One observation, the main induction: UpdateModel of ppm_as_fst_model.cc follows the reference
    description and keeps the automaton and the cache sound. *)
From Coq Require Import Field.
From Verif Require Import Base Field LmModel TextModel HubModel PpmModel PpmSpec PpmStruct PpmVals PpmCache PpmWf PpmUpdate.
Local Open Scope Z_scope.

Lemma upd_self {A} (l : list A) : forall i a, nth_error l i = Some a -> upd l i a = l.
Proof.
  induction l as [|b t IH]; intros [|i] a H; cbn in H; try discriminate; cbn.
  - injection H as ->. reflexivity.
  - f_equal. auto.
Qed.
Lemma Forall2_l {A B} (R : A -> B -> Prop) l l' a : Forall2 R l l' -> In a l -> exists b, In b l' /\ R a b.
Proof.
  induction 1 as [|x y l l' Hr Hf IH]; intros Hin; [destruct Hin|].
  destruct Hin as [<-|Hin]; [exists y; split; [left|]; auto|].
  destruct (IH Hin) as (b & Hb & K). exists b. split; [right|]; auto.
Qed.

Section Observe.
  Context {F : ofield}.
  Add Field FfieldPpm5 : (f_th F).
  Variable V : nat.
  Variable u : Z.
  Notation minv := (minv V u).

  Lemma put_none (m : ppm F) s st' : put m s st' None = set_fst m (upd (p_fst m) (Z.to_nat s) st').
  Proof. unfold put, set_states, set_fst. cbn [ext_fst ext_ctx map]. rewrite !app_nil_r. reflexivity. Qed.
  Lemma put_some (m : ppm F) s st' g b : put m s st' (Some (g, b)) =
    set_states m (upd (p_fst m) (Z.to_nat s) st' ++ [PState [Arc 0 f1 b] f0]) (p_orders m ++ [olen g])
      (p_cindex m ++ [-1]).
  Proof. reflexivity. Qed.

  Lemma tl_suffix (t h : history) x : suffix t (h ++ [x]) -> length t = length h -> t = tl (h ++ [x]).
  Proof.
    intros Hs Hl. destruct h as [|c h]; cbn [app tl].
    - destruct t; [reflexivity|simpl in Hl; lia].
    - cbn [app] in Hs. apply suffix_cons in Hs. destruct Hs as [->|Hs].
      + simpl in Hl. rewrite app_length in Hl. simpl in Hl. lia.
      + apply suffix_same_len; auto. rewrite app_length. simpl in *. lia.
  Qed.

  (** A known history is reached by the arc from its prefix. *)
  Lemma not_known D beta mo start (f : list (pstate F)) ctx s h st x :
    wf V beta mo start u D f ctx -> getZ ctx s = Some h -> getZ f s = Some st -> x <> 0 ->
    (forall a, In a (ps_arcs st) -> a_label a = x -> exists t, getZ ctx (a_next a) = Some t /\ length t = length h) ->
    ~ @In history (h ++ [x]) ctx.
  Proof.
    intros H Hs Hst Hx Ha Hin. apply In_getZ in Hin. destruct Hin as [v Hv].
    destruct (Z.eq_dec v start) as [Ev|Hne].
    - pose proof (wf_start _ _ _ _ _ _ _ _ H) as Hs0. rewrite <- Ev, Hv in Hs0. injection Hs0 as E.
      destruct h as [|c h]; cbn in E; [injection E; intros; congruence|].
      injection E as _ E. destruct h; discriminate.
    - destruct (wf_prefix _ _ _ _ _ _ _ _ H v h x Hv Hne) as (s0 & st0 & a & K1 & K2 & K3 & K4 & K5 & K6).
      pose proof (getZ_nodup _ _ _ _ (wf_nodup _ _ _ _ _ _ _ _ H) K1 Hs) as ->.
      rewrite Hst in K2. injection K2 as <-. destruct (Ha a K3 K4) as (t & Ht & Hl).
      rewrite K5, Hv in Ht. injection Ht as <-. rewrite app_length in Hl. simpl in Hl. lia.
  Qed.

  Lemma orders_length (m : ppm F) D ctx : minv D m ctx -> p_static m = false ->
    length (p_orders m) = length (p_fst m).
  Proof.
    intros H Hs. rewrite (mi_ord _ _ _ _ _ H Hs), map_length. apply (wf_len _ _ _ _ _ _ _ _ (mi_wf _ _ _ _ _ H)).
  Qed.
  Lemma orders_get (m : ppm F) D ctx s h : minv D m ctx -> p_static m = false -> getZ ctx s = Some h ->
    vgetZ (p_orders m) s = Ok (olen h).
  Proof.
    intros H Hst Hs. apply vgetZ_Some. rewrite (mi_ord _ _ _ _ _ H Hst). unfold getZ in *.
    destruct (s <? 0); [discriminate|]. rewrite nth_error_map, Hs. reflexivity.
  Qed.

  (** AddNewState. *)
  Lemma add_state_ok (m : ppm F) D ctx b t : minv D m ctx -> p_static m = false -> getZ ctx b = Some t ->
    forall f1' : list (pstate F), length f1' = length (p_fst m) ->
    add_new_state (set_fst m f1') b =
    Ok (Some (Z.of_nat (length (p_fst m))),
        set_states m (f1' ++ [PState [Arc 0 f1 b] f0]) (p_orders m ++ [olen t + 1]) (p_cindex m ++ [-1])).
  Proof.
    intros H Hs Hb f1' Hl. unfold add_new_state. cbn [p_fst set_fst p_orders].
    rewrite Hl, (orders_length _ _ _ H Hs), Z.eqb_refl. cbn [negb].
    pose proof (getZ_range _ _ _ Hb). destruct (Z.leb_spec 0 b); [|lia].
    rewrite (orders_get _ _ _ _ _ H Hs Hb). cbn [bind]. reflexivity.
  Qed.

  (** IncrementBackoffArcReturnBackoffState. *)
  Lemma inc_uni D (m : ppm F) ctx curr st : minv D m ctx -> getZ ctx curr = Some [] ->
    getZ (p_fst m) curr = Some st -> increment_backoff (p_fst m) curr = Ok (-1, p_fst m).
  Proof.
    intros H Hc Hst. pose proof (mi_wf _ _ _ _ _ H) as Hw.
    pose proof (getZ_nodup _ _ _ _ (wf_nodup _ _ _ _ _ _ _ _ Hw) Hc (wf_u _ _ _ _ _ _ _ _ Hw)) as ->.
    destruct (wf_uni _ _ _ _ _ _ _ _ Hw st Hst) as (Hg & Hl & _). pose proof (wf_V _ _ _ _ _ _ _ _ Hw).
    unfold increment_backoff, no_observations. rewrite (vgetZ_Some _ _ _ Hst). cbn [bind].
    destruct (ps_arcs st) as [|a t] eqn:Ea; [simpl in Hl; lia|]. cbn [first_arc bind].
    destruct Hg as [_ Hg]. specialize (Hg a (or_introl eq_refl)).
    destruct (Z.eqb_spec (a_label a) 0); [lia|]. reflexivity.
  Qed.
  Lemma inc_eps D (m : ppm F) ctx curr st c h : minv D m ctx -> getZ ctx curr = Some (c :: h) ->
    getZ (p_fst m) curr = Some st -> ~ D curr ->
    exists S b rest, ps_arcs st = Arc 0 S b :: rest /\ getZ ctx b = Some h /\ good_arcs V (p_beta m) rest /\
      (ps_final st = f0 \/ flt (p_beta m) (ps_final st) = true) /\
      let S' := fadd (fadd (ps_final st) (fsum (map (@a_count F) rest))) f1 in
      increment_backoff (p_fst m) curr =
        Ok (b, upd (p_fst m) (Z.to_nat curr) (PState (Arc 0 S' b :: rest) (ps_final st))).
  Proof.
    intros H Hc Hst HD. pose proof (mi_wf _ _ _ _ _ H) as Hw.
    destruct (wf_state _ _ _ _ _ _ _ _ Hw curr st c h Hst Hc) as (S & b & rest & Ha & Hb & Hg & Hf & HS).
    exists S, b, rest. repeat (split; [assumption|]). cbn zeta.
    destruct HS as [HS|HS]; [contradiction|].
    unfold increment_backoff, no_observations. rewrite (vgetZ_Some _ _ _ Hst). cbn [bind].
    rewrite Ha. cbn [first_arc bind a_label length].
    replace (feqb (ps_final st) f0 && (Datatypes.S (length rest) =? 1)%nat && (0 =? 0)) with (seen_nothing st rest)
      by (unfold seen_nothing; destruct (feqb (ps_final st) f0), rest; reflexivity).
    replace (0 =? 0) with true by reflexivity.
    rewrite vsetZ_Ok by (eapply getZ_range; eauto). cbn [bind a_next]. do 3 f_equal.
    f_equal. destruct (seen_nothing st rest) eqn:E.
    - f_equal. rewrite HS. unfold seen_nothing in E. apply andb_prop in E. destruct E as [E1 E2].
      apply feqb_eq in E1. rewrite E1. destruct rest; [|discriminate]. unfold fsum. cbn. 
      replace (fadd (fadd f0 f0) f1) with (@f1 F) by ring. reflexivity.
    - rewrite HS. reflexivity.
  Qed.

  Lemma count_arc (st : pstate F) x : x <> 0 -> flt f0 (count st x) = true ->
    exists a, find_arc (ps_arcs st) x = Some a.
  Proof.
    intros Hx H. unfold count in H. destruct (Z.eqb_spec x 0); [congruence|].
    destruct (find_arc (ps_arcs st) x); eauto. elim (flt_irrefl _ H).
  Qed.

  Definition target (mo : Z) (ctx : list history) (h : history) (x d : Z) : Prop :=
    exists t, getZ ctx d = Some t /\ suffix t (h ++ [x]) /\ olen t = Z.min (olen h + 1) (mo - 1).

  (** The symbol was already seen after h. *)
  Lemma found_step D (m : ppm F) ctx curr h st x : minv D m ctx -> p_static m = false ->
    getZ ctx curr = Some h -> getZ (p_fst m) curr = Some st -> In x (symbols V) -> ~ D curr ->
    flt f0 (count st x) = true ->
    exists S' d ext b f,
      increment_backoff (p_fst m) curr = Ok (b, f) /\
      update_highest_found (set_fst m f) curr x = Ok (Some tt, put m curr (obs_state S' st x d) ext) /\
      dest_ok ctx (p_max_order m) (Z.of_nat (length (p_fst m))) h st x d ext /\
      (let st' := obs_state S' st x d in
       h <> [] -> S' = fadd (ps_final st') (fsum (map (@a_count F) (tl (ps_arcs st'))))) /\
      (x <> 0 -> target (p_max_order m) (ctx ++ ext_ctx ext) h x d) /\
      ctx ++ ext_ctx ext = extended (p_max_order m) ctx (table ctx (p_fst m)) h x.
  Proof.
    intros H Hns Hc Hst Hx HD Hpos. pose proof (mi_wf _ _ _ _ _ H) as Hw.
    pose proof (getZ_range _ _ _ Hst) as Hr. apply symbols_In in Hx.
    pose proof (wf_nodup _ _ _ _ _ _ _ _ Hw) as Hnd. pose proof (wf_len _ _ _ _ _ _ _ _ Hw) as Hlen.
    (* the state after the back-off arc is incremented *)
    assert (Hinc : exists S' b st0 f, increment_backoff (p_fst m) curr = Ok (b, f) /\
      f = upd (p_fst m) (Z.to_nat curr) st0 /\ ps_final st0 = ps_final st /\
      (forall y, y <> 0 -> find_arc (ps_arcs st0) y = find_arc (ps_arcs st) y) /\
      (forall d, PState (ps_arcs st0) (fadd (ps_final st) f1) = obs_state S' st 0 d) /\
      (forall d, x <> 0 -> PState (set_arc (ps_arcs st0) x d) (ps_final st) = obs_state S' st x d) /\
      (forall d, h <> [] -> S' = fadd (ps_final (obs_state S' st x d))
                              (fsum (map (@a_count F) (tl (ps_arcs (obs_state S' st x d))))))).
    { destruct h as [|c h].
      - exists f0, (-1), st, (p_fst m). split; [eapply inc_uni; eauto|].
        pose proof (getZ_nodup _ _ _ _ Hnd Hc (wf_u _ _ _ _ _ _ _ _ Hw)) as E. subst curr.
        destruct (wf_uni _ _ _ _ _ _ _ _ Hw st Hst) as ((_ & Hg) & Hl & _). pose proof (wf_V _ _ _ _ _ _ _ _ Hw).
        assert (Hne : exists a t, ps_arcs st = a :: t /\ a_label a <> 0).
        { destruct (ps_arcs st) as [|a t]; [simpl in Hl; lia|]. exists a, t. split; auto.
          specialize (Hg a (or_introl eq_refl)). lia. }
        destruct Hne as (a & t & Ea & La).
        split; [symmetry; apply upd_self; unfold getZ in Hst; destruct (u <? 0); [discriminate|auto]|].
        split; [reflexivity|]. split; [reflexivity|]. split; [|split].
        + intros d. unfold obs_state. rewrite Ea. destruct (Z.eqb_spec (a_label a) 0); [congruence|reflexivity].
        + intros d Hx0. unfold obs_state. rewrite Ea. destruct (Z.eqb_spec (a_label a) 0); [congruence|].
          destruct (Z.eqb_spec x 0); [congruence|reflexivity].
        + intros d K. congruence.
      - destruct (inc_eps _ _ _ _ _ _ _ H Hc Hst HD) as (S & b & rest & Ha & Hb & Hg & Hf & Hi).
        cbn zeta in Hi. eexists _, b, _, _. split; [exact Hi|]. split; [reflexivity|].
        split; [reflexivity|]. split; [|split; [|split]].
        + intros y Hy. rewrite Ha. cbn [ps_arcs]. rewrite !find_arc_cons. cbn [a_label].
          destruct (Z.eqb_spec 0 y); [congruence|reflexivity].
        + intros d. unfold obs_state. rewrite Ha. reflexivity.
        + intros d Hx0. unfold obs_state. rewrite Ha. cbn [ps_arcs a_label a_next].
          replace (0 =? 0) with true by reflexivity. destruct (Z.eqb_spec x 0); [congruence|].
          cbn [set_arc a_label]. destruct (Z.eqb_spec 0 x); [congruence|]. reflexivity.
        + intros d _. unfold obs_state. rewrite Ha. cbn [ps_arcs a_label a_next ps_final].
          replace (0 =? 0) with true by reflexivity. cbn [tl].
          destruct (Z.eqb_spec x 0); [ring|]. rewrite set_arc_sum. ring. }
    destruct Hinc as (S' & b & st0 & f & Hinc & Hf & Hfin & Hfind & Ho0 & Hox & HS').
    assert (Hf0 : getZ f curr = Some st0) by (subst f; rewrite getZ_upd, Z.eqb_refl; auto).
    assert (Hlf : length f = length (p_fst m)) by (subst f; apply upd_length).
    assert (Huu : forall st', upd f (Z.to_nat curr) st' = upd (p_fst m) (Z.to_nat curr) st')
      by (intros; subst f; apply upd_upd).
    destruct (Z.eq_dec x 0) as [Ex|Hx0].
    - subst x. exists S', 0, None, b, f. split; [exact Hinc|]. split.
      + unfold update_highest_found. cbn [p_fst set_fst]. rewrite (vgetZ_Some _ _ _ Hf0). cbn [bind].
        replace (0 =? 0) with true by reflexivity. rewrite vsetZ_Ok by lia. cbn [bind].
        rewrite put_none, Huu, Hfin, (Ho0 0). reflexivity.
      + split; [intros K; congruence|]. split; [apply HS'|]. split; [congruence|].
        cbn [ext_ctx]. rewrite app_nil_r. reflexivity.
    - destruct (count_arc st x Hx0 Hpos) as [a Hfa].
      destruct (find_arc_In _ _ _ Hfa) as [Hin Hla].
      destruct (wf_arc _ _ _ _ _ _ _ _ Hw curr st a h Hst Hc Hin ltac:(congruence)) as (t & Ht & Hsuf & Hle).
      rewrite Hla in Hsuf. pose proof (suffix_len _ _ Hsuf) as Hlt. rewrite app_length in Hlt. simpl in Hlt.
      pose proof (needs_ok m ctx curr (a_next a) h t (mi_ord _ _ _ _ _ H Hns) Hc Ht Hle) as Hneed.
      set (n := (length t =? length h)%nat && (olen h + 1 <? p_max_order m)) in *.
      assert (Hscan := scan_ok (set_fst m f) curr x (ps_arcs st0) a n).
      rewrite Hfind in Hscan by auto. specialize (Hscan Hfa Hneed). cbn [p_orders set_fst] in Hscan.
      rewrite (orders_length _ _ _ H Hns) in Hscan.
      pose proof (getZ_range _ _ _ Ht) as Hrt.
      assert (Hnk : length t = length h -> ~ @In history (h ++ [x]) ctx).
      { intros El. eapply not_known; eauto. intros a' Hin' Hl'. exists t.
        assert (Some a' = Some a) as K; [|injection K as ->; auto].
        rewrite <- Hfa, <- Hl'. symmetry. 
        destruct h as [|c h].
        - pose proof (getZ_nodup _ _ _ _ Hnd Hc (wf_u _ _ _ _ _ _ _ _ Hw)) as E. subst curr.
          apply find_arc_nodup; auto. apply (wf_uni _ _ _ _ _ _ _ _ Hw st Hst).
        - destruct (wf_state _ _ _ _ _ _ _ _ Hw curr st c h Hst Hc) as (S0 & b0 & rest & Ha & _ & Hg & _).
          rewrite Ha in *. destruct Hin' as [<-|Hin']; [simpl in Hl'; congruence|].
          rewrite find_arc_cons. cbn [a_label]. destruct (Z.eqb_spec 0 (a_label a')); [congruence|].
          apply find_arc_nodup; auto. apply Hg. }
      pose proof (wf_ord _ _ _ _ _ _ _ _ Hw _ _ Hc) as Hoh. pose proof (wf_ord _ _ _ _ _ _ _ _ Hw _ _ Ht) as Hot.
      assert (Hext : extended (p_max_order m) ctx (table ctx (p_fst m)) h x =
        ctx ++ (if fits (p_max_order m) ctx (h ++ [x]) then [h ++ [x]] else [])).
      { apply extended_found; auto. rewrite (table_get ctx (p_fst m) curr h st x); auto. }
      rewrite Hext. unfold fits. rewrite app_length. cbn [length].
      exists S', (if n then Z.of_nat (length (p_fst m)) else a_next a),
        (if n then Some (h ++ [x], a_next a) else None), b, f.
      split; [exact Hinc|]. split; [|split; [|split; [apply HS'|split]]].
      + unfold update_highest_found. cbn [p_fst set_fst]. rewrite (vgetZ_Some _ _ _ Hf0). cbn [bind].
        destruct (Z.eqb_spec x 0); [congruence|]. rewrite Hscan. cbn [bind].
        rewrite vsetZ_Ok by lia. cbn [bind].
        destruct (Z.ltb_spec (a_next a) 0); [lia|]. rewrite Huu, Hfin. destruct n eqn:En.
        * destruct (Z.leb_spec 0 (Z.of_nat (length (p_fst m)))); [|lia].
          rewrite Hox by auto. unfold n in En. apply andb_prop in En. destruct En as [En _]. apply Nat.eqb_eq in En.
          change (set_fst (set_fst m f) (upd (p_fst m) (Z.to_nat curr) (obs_state S' st x (Z.of_nat (length (p_fst m))))))
            with (set_fst m (upd (p_fst m) (Z.to_nat curr) (obs_state S' st x (Z.of_nat (length (p_fst m)))))).
          rewrite (add_state_ok m D ctx (a_next a) t H Hns Ht) by (apply upd_length). cbn [bind option_map].
          rewrite put_some. unfold olen. rewrite app_length, En. cbn [length]. do 4 f_equal. f_equal. lia.
        * replace (0 <=? -1) with false by reflexivity. rewrite Hox by auto. rewrite put_none. reflexivity.
      + destruct n eqn:En; cbn [dest_ok].
        * unfold n in En. apply andb_prop in En. destruct En as [En1 En2]. apply Nat.eqb_eq in En1.
          apply Z.ltb_lt in En2. split; [auto|]. split; [auto|]. split; [auto|].
          split; [unfold olen in *; rewrite app_length; simpl; lia|]. split; [auto|].
          rewrite Ht. f_equal. apply tl_suffix; auto.
        * intros _. split; [exists t; auto|]. intros a' Ha'. congruence.
      + intros _. unfold target. destruct n eqn:En; cbn [ext_ctx].
        * unfold n in En. apply andb_prop in En. destruct En as [En1 En2]. apply Z.ltb_lt in En2.
          exists (h ++ [x]). rewrite <- Hlen. split; [apply getZ_app_eq|]. split; [apply suffix_refl|].
          unfold olen in *. rewrite app_length. simpl. lia.
        * exists t. rewrite app_nil_r. split; auto. split; auto. unfold n in En. unfold olen in *.
          destruct (Nat.eqb_spec (length t) (length h)).
          -- cbn [andb] in En. apply Z.ltb_ge in En. lia.
          -- lia.
      + f_equal. unfold n, olen in *. destruct (Nat.eqb_spec (length t) (length h)) as [El|El]; cbn [andb].
        * rewrite (mem_false ctx (h ++ [x])) by auto. cbn [negb]. rewrite andb_true_r.
          replace (Z.of_nat (length h + 1)) with (Z.of_nat (length h) + 1) by lia.
          destruct (Z.of_nat (length h) + 1 <? p_max_order m); reflexivity.
        * assert (t = h ++ [x]) as -> by (apply suffix_same_len; auto; rewrite app_length; simpl; lia).
          rewrite (proj2 (mem_In ctx (h ++ [x]))) by (eapply getZ_In; exact Ht). cbn [negb].
          rewrite andb_false_r. reflexivity.
  Qed.

  (** The symbol is new after c :: h; [miss] is UpdateNotFoundState after the recursive call. *)
  Definition miss (m1 : ppm F) (curr sym bdest : Z) : try F unit :=
    let* st := vgetZ (p_fst m1) curr in
    if sym =? 0 then
      let* f := vsetZ (p_fst m1) curr (PState (ps_arcs st) f1) in
      Ok (Some tt, set_fst m1 f)
    else
      let* need := needs_new_state m1 curr bdest in
      match need with
      | None => Ok (None, m1)
      | Some need =>
          let* (d, m2) := (if need then add_new_state m1 bdest else Ok (Some bdest, m1)) in
          match d with
          | None => Ok (None, m2)
          | Some d =>
              let* st := vgetZ (p_fst m2) curr in
              let* f := vsetZ (p_fst m2) curr
                          (PState (ps_arcs st ++ [Arc sym f1 d]) (ps_final st)) in
              Ok (Some tt, set_fst m2 f)
          end
      end.

  Lemma miss_step D (m : ppm F) ctx curr c h st S b rest x bdest : minv D m ctx -> p_static m = false ->
    getZ ctx curr = Some (c :: h) -> getZ (p_fst m) curr = Some st -> In x (symbols V) ->
    ps_arcs st = Arc 0 S b :: rest -> good_arcs V (p_beta m) rest ->
    (ps_final st = f0 \/ flt (p_beta m) (ps_final st) = true) ->
    flt f0 (count st x) = false ->
    S = fadd (fadd (ps_final st) (fsum (map (@a_count F) rest))) f1 ->
    (x <> 0 -> getZ ctx bdest = Some (h ++ [x])) ->
    exists d ext,
      miss m curr x bdest = Ok (Some tt, put m curr (obs_state S st x d) ext) /\
      dest_ok ctx (p_max_order m) (Z.of_nat (length (p_fst m))) (c :: h) st x d ext /\
      (let st' := obs_state S st x d in
       S = fadd (ps_final st') (fsum (map (@a_count F) (tl (ps_arcs st'))))) /\
      (x <> 0 -> target (p_max_order m) (ctx ++ ext_ctx ext) (c :: h) x d) /\
      (x = 0 -> ext = None) /\
      (x <> 0 -> ~ @In history ((c :: h) ++ [x]) ctx /\
                 ext_ctx ext = if olen (c :: h) + 1 <? p_max_order m then [(c :: h) ++ [x]] else []).
  Proof.
    intros H Hns Hc Hst Hx Ha Hg Hf Hpos HS Hbd. pose proof (mi_wf _ _ _ _ _ H) as Hw.
    pose proof (getZ_range _ _ _ Hst) as Hr. apply symbols_In in Hx.
    pose proof (wf_nodup _ _ _ _ _ _ _ _ Hw) as Hnd. pose proof (wf_len _ _ _ _ _ _ _ _ Hw) as Hlen.
    assert (HSx : forall d, S = fadd (ps_final (obs_state S st x d))
                     (fsum (map (@a_count F) (tl (ps_arcs (obs_state S st x d)))))).
    { intros d. unfold obs_state. rewrite Ha. cbn [ps_arcs a_label a_next ps_final].
      replace (0 =? 0) with true by reflexivity. cbn [tl]. rewrite HS at 1.
      destruct (Z.eqb_spec x 0); [ring|]. rewrite set_arc_sum. ring. }
    destruct (Z.eq_dec x 0) as [Ex|Hx0].
    - subst x. exists 0, None. split; [|split; [intros K; congruence|]].
      + unfold miss. rewrite (vgetZ_Some _ _ _ Hst). cbn [bind]. replace (0 =? 0) with true by reflexivity.
        rewrite vsetZ_Ok by auto. cbn [bind]. rewrite put_none. do 5 f_equal. unfold obs_state.
        rewrite Ha. cbn [a_label a_next]. replace (0 =? 0) with true by reflexivity.
        f_equal. unfold count in Hpos. replace (0 =? 0) with true in Hpos by reflexivity.
        destruct Hf as [->|Hf]; [ring|].
        assert (P : flt f0 (ps_final st) = true).
        { eapply flt_trans; [apply (mi_beta _ _ _ _ _ H)|exact Hf]. }
        congruence.
      + split; [apply HSx|]. split; [congruence|]. split; [auto|]. congruence.
    - specialize (Hbd Hx0).
      assert (Hnf : find_arc rest x = None).
      { unfold count in Hpos. destruct (Z.eqb_spec x 0); [congruence|]. rewrite Ha, find_arc_cons in Hpos.
        cbn [a_label] in Hpos. destruct (Z.eqb_spec 0 x); [congruence|].
        destruct (find_arc rest x) as [a|] eqn:E; auto. apply find_arc_In in E. destruct E as [E _].
        apply Hg in E. destruct E as [_ E].
        rewrite (flt_trans _ _ _ (mi_beta _ _ _ _ _ H) E) in Hpos. discriminate. }
      assert (Hnk : ~ @In history ((c :: h) ++ [x]) ctx).
      { eapply not_known; eauto. intros a Hin Hl. rewrite Ha in Hin. destruct Hin as [<-|Hin]; [simpl in Hl; congruence|].
        apply find_arc_None in Hnf. elim Hnf. rewrite <- Hl. apply in_map; auto. }
      assert (Hlen2 : length (h ++ [x]) = length (c :: h)) by (rewrite app_length; simpl; lia).
      pose proof (needs_ok m ctx curr bdest (c :: h) (h ++ [x]) (mi_ord _ _ _ _ _ H Hns) Hc Hbd ltac:(lia)) as Hneed.
      rewrite Hlen2, Nat.eqb_refl in Hneed. cbn [andb] in Hneed.
      set (n := olen (c :: h) + 1 <? p_max_order m) in *.
      pose proof (wf_ord _ _ _ _ _ _ _ _ Hw _ _ Hc) as Hoh.
      pose proof (getZ_range _ _ _ Hbd) as Hrb.
      assert (Hobs : forall d, PState (ps_arcs st ++ [Arc x f1 d]) (ps_final st) = obs_state S st x d).
      { intros d. unfold obs_state. rewrite Ha. cbn [a_label a_next app].
        replace (0 =? 0) with true by reflexivity. destruct (Z.eqb_spec x 0); [congruence|].
        rewrite set_arc_app by auto. reflexivity. }
      exists (if n then Z.of_nat (length (p_fst m)) else bdest),
        (if n then Some ((c :: h) ++ [x], bdest) else None).
      split; [|split; [|split; [apply HSx|split; [|split; [congruence|]]]]].
      + unfold miss. rewrite (vgetZ_Some _ _ _ Hst). cbn [bind]. destruct (Z.eqb_spec x 0); [congruence|].
        rewrite Hneed. cbn [bind]. destruct n eqn:En.
        * pose proof (add_state_ok m D ctx bdest (h ++ [x]) H Hns Hbd (p_fst m) eq_refl) as Hadd.
          replace (set_fst m (p_fst m)) with m in Hadd by (destruct m; reflexivity).
          rewrite Hadd. cbn [bind]. cbn [p_fst set_states].
          rewrite (vgetZ_Some _ _ _ (getZ_app_l _ _ _ _ Hst)). cbn [bind].
          rewrite vsetZ_Ok by (rewrite app_length; lia). cbn [bind]. rewrite Hobs.
          rewrite put_some. rewrite upd_app_l by lia. unfold set_fst, set_states.
          cbn [p_fst p_start p_syms p_orders p_max_order p_alpha p_beta p_static p_max_cache p_accessed p_cindex p_caches].
          do 3 f_equal. f_equal. f_equal. unfold olen. rewrite Hlen2. rewrite (app_length (c :: h)). simpl. lia.
        * cbn [bind]. rewrite (vgetZ_Some _ _ _ Hst). cbn [bind]. rewrite vsetZ_Ok by auto. cbn [bind].
          rewrite Hobs, put_none. reflexivity.
      + destruct n eqn:En; cbn [dest_ok].
        * unfold n in En. apply Z.ltb_lt in En. split; [auto|]. split; [auto|]. split; [auto|].
          split; [unfold olen in *; rewrite app_length; simpl in *; lia|]. split; auto.
        * intros _. split.
          -- exists (h ++ [x]). split; auto. split; [exists [c]; reflexivity|lia].
          -- intros a Hfa. rewrite Ha, find_arc_cons in Hfa. cbn [a_label] in Hfa.
             destruct (Z.eqb_spec 0 x); [congruence|]. congruence.
      + intros _. unfold target. destruct n eqn:En; cbn [ext_ctx].
        * unfold n in En. apply Z.ltb_lt in En.
          exists ((c :: h) ++ [x]). rewrite <- Hlen. split; [apply getZ_app_eq|]. split; [apply suffix_refl|].
          unfold olen in *. rewrite app_length. simpl in *. lia.
        * unfold n in En. apply Z.ltb_ge in En. exists (h ++ [x]). rewrite app_nil_r. split; auto.
          split; [exists [c]; reflexivity|]. unfold olen in *. lia.
      + intros _. split; auto. destruct n; reflexivity.
  Qed.

  (** The cache is refreshed and the destination read back from it. *)
  Lemma finish_ok (D : Z -> Prop) (m : ppm F) ctx curr h st x :
    flt f0 (p_alpha m) = true -> flt f0 (p_beta m) = true ->
    wf V (p_beta m) (p_max_order m) (p_start m) u D (p_fst m) ctx ->
    cinv V (fun d => D d \/ d = curr) m ->
    getZ ctx curr = Some h -> getZ (p_fst m) curr = Some st -> In x (symbols V) ->
    (forall d g, D d -> getZ ctx d = Some g -> ~ suffix g h) ->
    flt f0 (count st x) = true ->
    exists a ci cs, let m' := set_cache m a ci cs in
      (let* (ok, m2) := update_cache m curr in
       match ok with
       | None => Ok (None, m2)
       | Some _ => get_destination_state m2 curr x
       end) = Ok (Some (sdest (p_start m) st x), m') /\ cinv V D m'.
  Proof.
    intros Ha Hb Hw Hci Hc Hst Hx HD Hpos.
    destruct (wf_chain V _ _ _ u D _ _ Hw h curr Hc HD) as (l & Hch & Hgc & Hall).
    assert (Hga : good_at V m curr l).
    { split; [auto|]. split; [auto|]. apply Forall2_length in Hall. rewrite Hall, suffixes_length.
      eapply wf_order_lt; eauto. }
    pose proof (chain_hd _ _ _ Hch) as (st0 & l' & -> & Hst0). rewrite Hst in Hst0. injection Hst0 as <-.
    assert (Hmem : forall d, In d (map fst ((curr, st) :: l')) -> exists g, getZ ctx d = Some g /\ suffix g h)
      by (intros d Hin; apply (wf_chain_iff V _ _ _ _ _ _ _ _ _ _ Hw Hc Hch d); exact Hin).
    assert (HDl : forall d, D d -> ~ In d (map fst ((curr, st) :: l'))).
    { intros d Hd Hin. destruct (Hmem d Hin) as (g & Hg & Hs). exact (HD d g Hd Hg Hs). }
    assert (Hnc : ~ In curr (map fst l')).
    { cbn [suffixes] in Hall. intros Hin.
      apply in_map_iff in Hin. destruct Hin as ((d & st1) & E & Hin). cbn in E. subst d.
      destruct h as [|c h]; cbn [suffixes] in Hall.
      - inversion Hall as [|? ? ? ? _ H2]; subst. inversion H2; subst. destruct Hin.
      - inversion Hall as [|? ? ? ? _ H2]; subst.
        destruct (Forall2_l _ _ _ _ H2 Hin) as (g & Hg & Hgc2). cbn in Hgc2.
        apply suffixes_In, suffix_len in Hg. rewrite Hc in Hgc2. injection Hgc2 as <-.
        simpl in Hg. lia. }
    destruct (update_cache_ok V (fun d => D d \/ d = curr) m curr _ Ha Hb Hci Hga) as (a1 & ci1 & cs1 & E1 & Hci1 & _).
    { intros d [Hd| ->]; cbn [tl]; auto. intros Hin. apply (HDl d Hd). right; auto. }
    rewrite E1. cbn [bind]. set (m1 := set_cache m a1 ci1 cs1) in *.
    assert (Hci1' : cinv V D m1).
    { eapply cinv_mono; [|exact Hci1]. cbn. intros d [[Hd|Hd] Hne]; [auto|contradiction]. }
    destruct (cached_ok V v_dests (cdest (p_start m) ((curr, st) :: l')) D m1 curr ((curr, st) :: l') x) as (a & ci & cs & E & Hci2 & _); auto.
    exists a, ci, cs. cbn zeta. split; [|exact Hci2]. unfold get_destination_state. rewrite E. 
    do 3 f_equal. cbn [cdest]. rewrite Hpos. destruct l'; reflexivity.
  Qed.

  Lemma same_put (m : ppm F) s st' ext : same m (put m s st' ext).
  Proof. constructor; reflexivity. Qed.
  Lemma same_set_fst (m : ppm F) f : same m (set_fst m f).
  Proof. constructor; reflexivity. Qed.

  (** What the model becomes after [put] and the refresh of the cache. *)
  Lemma step_ok (D : Z -> Prop) D' (m : ppm F) ctx curr h st x d ext S' :
    minv D' m ctx -> p_static m = false -> (forall e, D' e -> D e \/ e = curr) ->
    getZ ctx curr = Some h -> getZ (p_fst m) curr = Some st -> In x (symbols V) ->
    (forall e g, D e -> getZ ctx e = Some g -> ~ suffix g h) ->
    (forall e, D e -> 0 <= e < Z.of_nat (length (p_fst m))) ->
    dest_ok ctx (p_max_order m) (Z.of_nat (length (p_fst m))) h st x d ext ->
    let st' := obs_state S' st x d in
    (h <> [] -> S' = fadd (ps_final st') (fsum (map (@a_count F) (tl (ps_arcs st'))))) ->
    (x <> 0 -> target (p_max_order m) (ctx ++ ext_ctx ext) h x d) ->
    exists m' d', let ctx' := ctx ++ ext_ctx ext in
      (let* (ok, m2) := update_cache (put m curr st' ext) curr in
       match ok with
       | None => Ok (None, m2)
       | Some _ => get_destination_state m2 curr x
       end) = Ok (Some d', m') /\
      minv D m' ctx' /\ same m m' /\
      (forall g y, table ctx' (p_fst m') g y =
         if (y =? x) && hist_eqb g h then fadd (table ctx (p_fst m) g y) f1 else table ctx (p_fst m) g y) /\
      (forall s g, getZ ctx s = Some g -> ~ suffix g h -> getZ (p_fst m') s = getZ (p_fst m) s) /\
      (x = 0 -> d' = p_start m) /\ (x <> 0 -> d' = d).
  Proof.
    intros H Hns HD' Hc Hst Hx HD HDr Hdest st' HS' Htgt.
    pose proof (mi_wf _ _ _ _ _ H) as Hw. pose proof (getZ_range _ _ _ Hst) as Hr.
    pose proof (wf_nodup _ _ _ _ _ _ _ _ Hw) as Hnd.
    pose proof (proj1 (symbols_In V x) Hx) as Hxr.
    assert (Hne : exists a t, ps_arcs st = a :: t).
    { destruct h as [|c h].
      - pose proof (getZ_nodup _ _ _ _ Hnd Hc (wf_u _ _ _ _ _ _ _ _ Hw)) as E. subst curr.
        destruct (wf_uni _ _ _ _ _ _ _ _ Hw st Hst) as (_ & Hl & _). pose proof (wf_V _ _ _ _ _ _ _ _ Hw).
        destruct (ps_arcs st); [simpl in Hl; lia|eauto].
      - destruct (wf_state _ _ _ _ _ _ _ _ Hw curr st c h Hst Hc) as (S0 & b0 & rest & Ha & _). eauto. }
    assert (Hcnt : forall y, count st' y = if y =? x then fadd (count st y) f1 else count st y)
      by (intros; apply obs_count; auto; lia).
    assert (Hcntpos : fle f0 (count st x) = true).
    { destruct h as [|c h].
      - pose proof (getZ_nodup _ _ _ _ Hnd Hc (wf_u _ _ _ _ _ _ _ _ Hw)) as E. subst curr.
        destruct (wf_uni _ _ _ _ _ _ _ _ Hw st Hst) as (Hg & Hl & Hfp).
        apply flt_le, (uni_pos V); auto.
      - destruct (wf_state _ _ _ _ _ _ _ _ Hw curr st c h Hst Hc) as (S0 & b0 & rest & Ha & _ & Hg & Hf & _).
        eapply (count_nonneg V (p_beta m)); eauto. apply flt_le, (mi_beta _ _ _ _ _ H). }
    set (m1 := put m curr st' ext).
    assert (Hw1 : wf V (p_beta m) (p_max_order m) (p_start m) u D (p_fst m1) (ctx ++ ext_ctx ext)).
    { change (p_fst m1) with (upd (p_fst m) (Z.to_nat curr) st' ++ ext_fst ext).
      eapply wf_obs; eauto; [apply flt_le, (mi_beta _ _ _ _ _ H)|apply (mi_beta1 _ _ _ _ _ H)]. }
    assert (Hc1 : cinv V (fun e => D e \/ e = curr) m1).
    { eapply cinv_mono; [|eapply put_cinv; [exact (mi_c _ _ _ _ _ H)|exact Hst|apply obs_same_eps; auto; lia]].
      cbn. intros e [He|He]; auto. }
    assert (Gst : getZ (p_fst m1) curr = Some st').
    { apply getZ_app_l. rewrite getZ_upd, Z.eqb_refl by auto. reflexivity. }
    destruct (finish_ok D m1 (ctx ++ ext_ctx ext) curr h st' x) as (a & ci & cs & E & Hci); auto.
    { apply (mi_alpha _ _ _ _ _ H). }
    { apply (mi_beta _ _ _ _ _ H). }
    { apply getZ_app_l; auto. }
    { intros e g He Hg. apply (HD e g He). rewrite getZ_app_lt in Hg; auto.
      rewrite (wf_len _ _ _ _ _ _ _ _ Hw). apply HDr; auto. }
    { rewrite Hcnt, Z.eqb_refl. apply fadd_pos_r; auto. apply f1_pos. }
    exists (set_cache m1 a ci cs), (sdest (p_start m) st' x). cbn zeta.
    split; [exact E|]. split; [|split; [|split; [|split; [|split]]]].
    - constructor; try apply H; auto.
      + intros _. change (p_orders (set_cache m1 a ci cs)) with (p_orders m ++ map olen (ext_ctx ext)).
        rewrite map_app, (mi_ord _ _ _ _ _ H Hns). reflexivity.
    - constructor; reflexivity.
    - intros g y. change (p_fst (set_cache m1 a ci cs)) with (upd (p_fst m) (Z.to_nat curr) st' ++ ext_fst ext).
      rewrite (table_modify V (p_beta m) (p_max_order m) (p_start m) u D' (p_fst m) ctx curr h st st' ext g y Hw Hc Hst).
      + destruct (hist_eqb g h) eqn:Eg; [|rewrite andb_false_r; reflexivity]. rewrite andb_true_r.
        apply hist_eqb_eq in Eg. subst g. rewrite Hcnt, (table_get ctx (p_fst m) curr h st y Hnd Hc Hst). reflexivity.
      + intros g0 b0 Ee. subst ext. cbn [dest_ok] in Hdest. tauto.
    - intros s g Hs Hsuf. change (p_fst (set_cache m1 a ci cs)) with (upd (p_fst m) (Z.to_nat curr) st' ++ ext_fst ext).
      pose proof (getZ_range _ _ _ Hs) as Hrs. rewrite (wf_len _ _ _ _ _ _ _ _ Hw) in Hrs.
      rewrite getZ_app_lt by (rewrite upd_length; lia). rewrite getZ_upd by auto.
      destruct (Z.eqb_spec s curr) as [->|]; [|reflexivity]. rewrite Hc in Hs. injection Hs as <-.
      elim Hsuf. apply suffix_refl.
    - intros ->. reflexivity.
    - intros Hx0. unfold sdest. destruct (Z.eqb_spec x 0); [congruence|].
      unfold st', obs_state. cbn [ps_arcs]. destruct Hne as (a0 & t0 & Ea). rewrite Ea.
      destruct (Z.eqb_spec x 0); [congruence|].
      destruct (Z.eqb_spec (a_label a0) 0).
      + rewrite find_arc_cons. cbn [a_label]. destruct (Z.eqb_spec 0 x); [congruence|].
        rewrite set_arc_find, Z.eqb_refl. reflexivity.
      + rewrite set_arc_find, Z.eqb_refl. reflexivity.
  Qed.

  Lemma seen_id (ctx : list history) (C : @counts F) h x s : NoDup ctx -> getZ ctx s = Some h ->
    seen C h x <> h -> forall hi, getZ ctx hi = Some (seen C h x) -> hi <> s.
  Proof. intros Hnd Hs Hne hi Hhi ->. congruence. Qed.

  (** UpdateModel. *)
  Lemma update_ok : forall h k (D : Z -> Prop) (m : ppm F) ctx curr highest x,
    minv D m ctx -> p_static m = false -> getZ ctx curr = Some h -> (length h < k)%nat ->
    (forall d g, D d -> getZ ctx d = Some g -> ~ suffix g h) ->
    (forall e, D e -> 0 <= e < Z.of_nat (length (p_fst m))) ->
    let C := table ctx (p_fst m) in
    getZ ctx highest = Some (seen C h x) -> In x (symbols V) ->
    exists m' d, let ctx' := extended (p_max_order m) ctx C h x in
      update_model_fuel k m curr highest x = Ok (Some d, m') /\ minv D m' ctx' /\ same m m' /\
      (forall g y, table ctx' (p_fst m') g y = observe C h x g y) /\
      (forall s g, getZ ctx s = Some g -> ~ suffix g h -> getZ (p_fst m') s = getZ (p_fst m) s) /\
      (x = 0 -> d = p_start m) /\ (x <> 0 -> target (p_max_order m) ctx' h x d).
  Proof.
    induction h as [|c h IH]; intros k D m ctx curr highest x H Hns Hc Hk HD HDr C Hhi Hx;
      (destruct k as [|k]; [lia|]);
      pose proof (mi_wf _ _ _ _ _ H) as Hw;
      pose proof (wf_nodup _ _ _ _ _ _ _ _ Hw) as Hnd; pose proof (wf_len _ _ _ _ _ _ _ _ Hw) as Hlen;
      pose proof (getZ_range _ _ _ Hc) as Hr;
      (destruct (getZ_ex (p_fst m) curr ltac:(lia)) as [st Hst]);
      (assert (HDc : ~ D curr) by (intros Hd; apply (HD _ _ Hd Hc), suffix_refl)).
    - (* the unigram state *)
      pose proof (getZ_nodup _ _ _ _ Hnd Hc (wf_u _ _ _ _ _ _ _ _ Hw)) as Eu.
      pose proof Hst as Hst'. rewrite Eu in Hst'.
      destruct (wf_uni _ _ _ _ _ _ _ _ Hw st Hst') as (Hg & Hl & Hfp).
      pose proof (uni_pos V st x Hg Hl Hfp Hx) as Hpos.
      destruct (found_step D m ctx curr [] st x H Hns Hc Hst Hx HDc Hpos)
        as (S' & d & ext & b & f & Hinc & Hup & Hdest & HS' & Htgt & Hext).
      cbn [seen] in Hhi. pose proof (getZ_nodup _ _ _ _ Hnd Hhi Hc) as ->.
      destruct (step_ok D D m ctx curr [] st x d ext S' H Hns ltac:(auto) Hc Hst Hx HD HDr Hdest HS' Htgt)
        as (m' & d' & E & Hm & Hsm & Htab & Hfr & Hd0 & Hd1).
      exists m', d'. cbn zeta. fold C in Hext. rewrite Hext in *.
      split; [|split; [exact Hm|split; [exact Hsm|split; [|split; [exact Hfr|split; [exact Hd0|]]]]]].
      + cbn [update_model_fuel]. rewrite Hinc. cbn [bind]. rewrite Z.eqb_refl, Hup. cbn [bind]. exact E.
      + intros g y. rewrite Htab. symmetry. apply observe_found.
        unfold C. rewrite (table_get ctx (p_fst m) curr [] st x Hnd Hc Hst). exact Hpos.
      + intros Hx0. rewrite (Hd1 Hx0). apply Htgt; auto.
    - destruct (flt f0 (C (c :: h) x)) eqn:Hpos.
      + (* seen here *)
        pose proof Hpos as Hpos'. unfold C in Hpos'. rewrite (table_get ctx (p_fst m) curr _ st x Hnd Hc Hst) in Hpos'.
        destruct (found_step D m ctx curr _ st x H Hns Hc Hst Hx HDc Hpos')
          as (S' & d & ext & b & f & Hinc & Hup & Hdest & HS' & Htgt & Hext).
        rewrite (seen_found C (c :: h) x Hpos) in Hhi. pose proof (getZ_nodup _ _ _ _ Hnd Hhi Hc) as ->.
        destruct (step_ok D D m ctx curr _ st x d ext S' H Hns ltac:(auto) Hc Hst Hx HD HDr Hdest HS' Htgt)
          as (m' & d' & E & Hm & Hsm & Htab & Hfr & Hd0 & Hd1).
        exists m', d'. cbn zeta. fold C in Hext. rewrite Hext in *.
        split; [|split; [exact Hm|split; [exact Hsm|split; [|split; [exact Hfr|split; [exact Hd0|]]]]]].
        * cbn [update_model_fuel]. rewrite Hinc. cbn [bind]. rewrite Z.eqb_refl, Hup. cbn [bind]. exact E.
        * intros g y. rewrite Htab. symmetry. apply observe_found. exact Hpos.
        * intros Hx0. rewrite (Hd1 Hx0). apply Htgt; auto.
      + (* not seen here *)
        rewrite (seen_step C c h x Hpos) in Hhi.
        assert (Hne : highest <> curr).
        { intros ->. rewrite Hc in Hhi. injection Hhi as E. pose proof (suffix_len _ _ (seen_suffix C h x)) as L.
          rewrite <- E in L. simpl in L. lia. }
        destruct (inc_eps D m ctx curr st c h H Hc Hst HDc) as (S & b & rest & Ha & Hb & Hg & Hf & Hinc).
        cbn zeta in Hinc. set (S' := fadd (fadd (ps_final st) (fsum (map (@a_count F) rest))) f1) in *.
        set (st0 := PState (Arc 0 S' b :: rest) (ps_final st)) in *.
        set (m0 := set_fst m (upd (p_fst m) (Z.to_nat curr) st0)).
        set (D1 := fun e => D e \/ e = curr).
        assert (Hcnt0 : forall y, count st0 y = count st y).
        { intros y. unfold count. cbn [st0 ps_final ps_arcs]. destruct (Z.eqb_spec y 0); auto.
          rewrite Ha, !find_arc_cons. cbn [a_label]. destruct (Z.eqb_spec 0 y); [congruence|reflexivity]. }
        assert (Hw0 : wf V (p_beta m) (p_max_order m) (p_start m) u D1 (p_fst m0) ctx).
        { replace (p_fst m0) with (upd (p_fst m) (Z.to_nat curr) st0 ++ ext_fst None) by (apply app_nil_r).
          replace ctx with (ctx ++ ext_ctx None) by (apply app_nil_r).
          apply (wf_modify V (p_beta m) (p_max_order m) (p_start m) u D D1 (p_fst m) ctx curr (c :: h) st st0 None); auto.
          - apply flt_le, (mi_beta _ _ _ _ _ H).
          - intros d Hd. left; left; auto.
          - discriminate.
          - intros c0 h0 E. injection E as <- <-. exists S', b, rest. split; [reflexivity|].
            repeat (split; [assumption|]). left. right. reflexivity.
          - intros a Hin Hl. cbn [st0 ps_arcs] in Hin. destruct Hin as [<-|Hin]; [elim Hl; reflexivity|].
            cbn [ext_ctx]. rewrite app_nil_r.
            apply (wf_arc _ _ _ _ _ _ _ _ Hw curr st a (c :: h) Hst Hc); auto. rewrite Ha; right; auto.
          - intros v y Hv Hns'.
            destruct (wf_prefix _ _ _ _ _ _ _ _ Hw v (c :: h) y Hv Hns') as (s0 & st1 & a & K1 & K2 & K3 & K4 & K5 & K6).
            pose proof (getZ_nodup _ _ _ _ Hnd K1 Hc) as ->. rewrite Hst in K2. injection K2 as <-.
            exists a. rewrite Ha in K3. destruct K3 as [<-|K3]; [cbn in K4; congruence|].
            repeat split; auto. right; auto.
          - intros g b0 E. discriminate. }
        assert (H0 : minv D1 m0 ctx).
        { constructor; try apply H; auto.
          unfold m0. rewrite <- (put_none m curr st0). eapply put_cinv; [apply H|exact Hst|].
          left. exists S, S', b, rest, rest. auto. }
        assert (HC0 : forall g y, table ctx (p_fst m0) g y = C g y).
        { intros g y. unfold C. apply table_ext; auto; [cbn; apply upd_length|].
          intros s s1 s2 Hs Hs1 Hs2. cbn [p_fst m0 set_fst] in Hs2. rewrite getZ_upd in Hs2 by lia.
          destruct (Z.eqb_spec s curr) as [->|]; [|congruence].
          injection Hs2 as <-. rewrite Hcnt0. congruence. }
        destruct (IH k D1 m0 ctx b highest x H0 Hns Hb ltac:(simpl in Hk; lia)) as
          (m1 & bd & E1 & H1 & Hs1 & Ht1 & Hf1 & Hd0 & Hd1); auto.
        { intros d g [Hd| ->] Hdg Hsuf.
          - apply (HD d g Hd Hdg). apply suffix_cons; auto.
          - rewrite Hc in Hdg. injection Hdg as <-. apply suffix_len in Hsuf. simpl in Hsuf. lia. }
        { intros e [He| ->]; cbn [p_fst m0 set_fst]; rewrite upd_length; auto. lia. }
        { rewrite (seen_ext _ C) by auto. exact Hhi. }
        rewrite (extended_ext _ _ _ C) in * by auto.
        change (p_max_order m0) with (p_max_order m) in *.
        destruct (extended_app (p_max_order m) ctx C h x) as [N HN].
        set (ctx1 := extended (p_max_order m) ctx C h x) in *.
        assert (Hc1 : getZ ctx1 curr = Some (c :: h)) by (rewrite HN; apply getZ_app_l; auto).
        assert (Hst1 : getZ (p_fst m1) curr = Some st0).
        { rewrite (Hf1 curr (c :: h) Hc).
          - cbn [p_fst m0 set_fst]. rewrite getZ_upd, Z.eqb_refl by lia. reflexivity.
          - intros Hs. apply suffix_len in Hs. simpl in Hs. lia. }
        pose proof (sm_beta _ _ Hs1) as Eb. change (p_beta m0) with (p_beta m) in Eb.
        pose proof (sm_mo _ _ Hs1) as Emo. change (p_max_order m0) with (p_max_order m) in Emo.
        pose proof (sm_static _ _ Hs1) as Ens. change (p_static m0) with (p_static m) in Ens.
        pose proof (sm_start _ _ Hs1) as Est. change (p_start m0) with (p_start m) in Est.
        pose proof (wf_ord _ _ _ _ _ _ _ _ Hw _ _ Hc) as Hoc.
        assert (Hpos0 : flt f0 (count st0 x) = false).
        { rewrite Hcnt0. rewrite <- (table_get ctx (p_fst m) curr _ st x Hnd Hc Hst). exact Hpos. }
        destruct (miss_step D1 m1 ctx1 curr c h st0 S' b rest x bd H1 ltac:(congruence) Hc1 Hst1 Hx eq_refl)
          as (d & ext & Em & Hdest & HS' & Htgt & Hx0e & Hxe); auto; try (rewrite Eb; auto).
        { intros Hx0. destruct (Hd1 Hx0) as (t & Ht & Hsuf & Hlt). rewrite Ht. f_equal.
          apply suffix_same_len; auto. rewrite app_length. unfold olen in Hlt. simpl in *. lia. }
        assert (Ect : ctx1 ++ ext_ctx ext = extended (p_max_order m) ctx C (c :: h) x).
        { destruct (Z.eq_dec x 0) as [Ex|Hx0].
          - rewrite (Hx0e Ex). cbn [ext_ctx]. rewrite app_nil_r. unfold ctx1. rewrite Ex, !extended_0. reflexivity.
          - rewrite (extended_step (p_max_order m) ctx C c h x Hpos Hx0). fold ctx1. f_equal.
            destruct (Hxe Hx0) as (Hni & ->). unfold fits. rewrite Emo.
            rewrite (mem_false ctx ((c :: h) ++ [x])).
            + cbn [negb]. rewrite andb_true_r. unfold olen.
              replace (Z.of_nat (length ((c :: h) ++ [x]))) with (Z.of_nat (length (c :: h)) + 1)
                by (rewrite app_length; simpl; lia). reflexivity.
            + intros Hin. apply Hni. rewrite HN. apply in_or_app; auto. }
        destruct (step_ok D D1 m1 ctx1 curr (c :: h) st0 x d ext S' H1 ltac:(congruence) ltac:(auto) Hc1 Hst1 Hx)
          as (m' & d' & E & Hm & Hsm & Htab & Hfr & Hdd0 & Hdd1); auto.
        { intros e g He Hge. apply (HD e g He). rewrite HN in Hge. rewrite getZ_app_lt in Hge; auto.
          rewrite Hlen. apply HDr; auto. }
        { intros e He. rewrite <- (wf_len _ _ _ _ _ _ _ _ (mi_wf _ _ _ _ _ H1)), HN, app_length.
          specialize (HDr e He). lia. }
        cbn zeta in E, Hm, Htab. rewrite Ect in *.
        exists m', d'. cbn zeta.
        split; [|split; [exact Hm|split; [|split; [|split; [|split]]]]].
        * cbn [update_model_fuel]. rewrite Hinc. cbn [bind]. fold m0.
          destruct (Z.eqb_spec highest curr); [congruence|]. rewrite E1. cbn [bind].
          change ((let* (ok, m3) := miss m1 curr x bd in
                  match ok with
                  | Some _ => let* (ok0, m2) := update_cache m3 curr in
                              match ok0 with
                              | Some _ => get_destination_state m2 curr x
                              | None => Ok (None, m2)
                              end
                  | None => Ok (None, m3)
                  end) = Ok (Some d', m')).
          rewrite Em. cbn [bind]. exact E.
        * eapply same_trans; [apply same_set_fst|]. eapply same_trans; [exact Hs1|exact Hsm].
        * intros g y. rewrite Htab, Ht1. rewrite (observe_ext _ C) by auto.
          rewrite (observe_step C c h x g y Hpos). destruct ((y =? x) && hist_eqb g (c :: h)) eqn:Ec; [|reflexivity].
          apply andb_prop in Ec. destruct Ec as [_ Ec]. apply hist_eqb_eq in Ec. subst g. f_equal.
          unfold observe. rewrite (mem_false (suffixes h)); [rewrite andb_false_r; reflexivity|].
          intros Hin. apply suffixes_In, suffix_len in Hin. simpl in Hin. lia.
        * intros s g Hs Hsuf. rewrite (Hfr s g); auto; [|rewrite HN; apply getZ_app_l; auto].
          rewrite (Hf1 s g); auto.
          -- cbn [p_fst m0 set_fst]. rewrite getZ_upd by lia. destruct (Z.eqb_spec s curr) as [->|]; auto.
             rewrite Hc in Hs. injection Hs as <-. elim Hsuf. apply suffix_refl.
          -- intros K. apply Hsuf. apply suffix_cons; auto.
        * intros Ex. rewrite (Hdd0 Ex). exact Est.
        * intros Hx0. rewrite (Hdd1 Hx0). rewrite Emo in Htgt. apply Htgt; auto.
  Qed.
End Observe.
