(** Sound automata: chains are suffixes, and how one observation keeps the automaton sound. *)
From Coq Require Import Field.
From Verif Require Import Base Field LmModel TextModel HubModel PpmModel PpmSpec PpmStruct PpmVals PpmCache.
Local Open Scope Z_scope.

(** Suffixes of histories. *)
Lemma suffixes_length h : length (suffixes h) = S (length h).
Proof. induction h; simpl; auto. Qed.
Lemma suffix_refl (h : history) : suffix h h.
Proof. exists []; reflexivity. Qed.
Lemma suffix_nil (h : history) : suffix [] h.
Proof. exists h. rewrite app_nil_r. reflexivity. Qed.
Lemma suffix_len (g h : history) : suffix g h -> (length g <= length h)%nat.
Proof. intros (p & ->). rewrite app_length. lia. Qed.
Lemma suffix_cons (g : history) c h : suffix g (c :: h) <-> g = c :: h \/ suffix g h.
Proof.
  split.
  - intros (p & E). destruct p as [|d p]; [left; auto|]. injection E as -> ->. right. exists p; auto.
  - intros [->|(p & ->)]; [apply suffix_refl|]. exists (c :: p). reflexivity.
Qed.
Lemma suffixes_In (g h : history) : In g (suffixes h) <-> suffix g h.
Proof.
  induction h as [|c h IH]; cbn [suffixes].
  - split.
    + intros [<-|[]]. apply suffix_refl.
    + intros (p & E). symmetry in E. apply app_eq_nil in E. left. symmetry. tauto.
  - rewrite suffix_cons, <- IH. cbn [In]. split; intros [E|E]; auto.
Qed.
Lemma suffixes_NoDup h : NoDup (suffixes h).
Proof.
  induction h as [|c h IH]; cbn [suffixes]; [repeat constructor; auto|].
  constructor; auto. intros H. apply suffixes_In, suffix_len in H. simpl in H. lia.
Qed.
Lemma suffix_same_len (g h : history) : suffix g h -> length g = length h -> g = h.
Proof. intros (p & ->) E. rewrite app_length in E. destruct p; [reflexivity|simpl in E; lia]. Qed.
Lemma suffix_trans (f g h : history) : suffix f g -> suffix g h -> suffix f h.
Proof. intros (p & ->) (q & ->). exists (q ++ p). rewrite app_assoc. reflexivity. Qed.
Lemma suffix_app (g h : history) x : suffix g h -> suffix (g ++ [x]) (h ++ [x]).
Proof. intros (p & ->). exists p. rewrite app_assoc. reflexivity. Qed.
Lemma suffix_two (f g h : history) : suffix f h -> suffix g h -> (length f <= length g)%nat -> suffix f g.
Proof.
  intros (p & ->) (q & E) Hl. revert q E. induction p as [|c p IH]; intros q E.
  - destruct q as [|d q]; simpl in *; [exists []; auto|].
    exfalso. assert (L := f_equal (@length Z) E). simpl in L. rewrite app_length in L. lia.
  - destruct q as [|d q]; simpl in E.
    + exists (c :: p). auto.
    + injection E as _ E. eauto.
Qed.
Lemma suffix_snoc (t h : history) x : suffix t (h ++ [x]) -> t = [] \/ exists g, t = g ++ [x] /\ suffix g h.
Proof.
  intros (p & E).
  destruct t as [|c t]; [left; reflexivity|right].
  destruct (@exists_last _ (c :: t)) as (g & y & Et); [discriminate|].
  rewrite Et in *. rewrite app_assoc in E. apply app_inj_tail in E. destruct E as [-> ->].
  exists g. split; auto. exists p; auto.
Qed.

Lemma seen_suffix {F : ofield} (C : @counts F) h x : suffix (seen C h x) h.
Proof.
  induction h as [|c h IH]; cbn [seen]; [apply suffix_refl|].
  destruct (flt f0 (C (c :: h) x)); [apply suffix_refl|]. apply suffix_cons; auto.
Qed.

Section Wf.
  Context {F : ofield}.
  Add Field FfieldPpm3 : (f_th F).
  Variable V : nat.
  Variable beta : car F.
  Variables mo start u : Z.

  Notation wf := (wf V beta mo start u).

  (** The table of counts. *)
  Lemma table_get (ctx : list history) (f : list (pstate F)) s h st y :
    NoDup ctx -> getZ ctx s = Some h -> getZ f s = Some st ->
    table ctx f h y = count st y.
  Proof.
    unfold getZ. destruct (Z.ltb_spec s 0) as [|Hs]; [discriminate|].
    generalize (Z.to_nat s) as n. clear Hs. revert f. induction ctx as [|g ctx IH]; intros f n Hn Hc Hf.
    - destruct n; discriminate.
    - destruct f as [|st0 f]; [destruct n; discriminate|]. cbn [table].
      inversion Hn as [|? ? Hg Hn']; subst. destruct n as [|n].
      + cbn in Hc, Hf. injection Hc as ->. injection Hf as ->.
        replace (hist_eqb h h) with true; auto. symmetry; apply hist_eqb_eq; auto.
      + cbn in Hc, Hf. destruct (hist_eqb g h) eqn:E.
        * apply hist_eqb_eq in E. subst g. elim Hg. eapply nth_error_In; eauto.
        * eapply IH; eauto.
  Qed.
  Lemma table_none (ctx : list history) (f : list (pstate F)) h y : ~ In h ctx -> table ctx f h y = f0.
  Proof.
    revert f. induction ctx as [|g ctx IH]; intros [|st f] H; cbn [table]; auto.
    destruct (hist_eqb g h) eqn:E.
    - apply hist_eqb_eq in E. elim H. left; auto.
    - apply IH. intros K; apply H; right; auto.
  Qed.
  Lemma ctx_dec (ctx : list history) h : {exists s, getZ ctx s = Some h} + {~ In h ctx}.
  Proof.
    destruct (in_dec (list_eq_dec Z.eq_dec) h ctx) as [H|H]; [left|right; auto].
    apply In_getZ; auto.
  Qed.
  (** Two automata for the same histories have the same table if they have the same counts. *)
  Lemma table_ext (ctx : list history) (f f' : list (pstate F)) h y : NoDup ctx ->
    length ctx = length f -> length f' = length f ->
    (forall s st st', getZ ctx s = Some h -> getZ f s = Some st -> getZ f' s = Some st' ->
       count st' y = count st y) ->
    table ctx f' h y = table ctx f h y.
  Proof.
    intros Hn Hl Hl' H. destruct (ctx_dec ctx h) as [(s & Hs)|Hno].
    - pose proof (getZ_range _ _ _ Hs) as Hr.
      destruct (getZ_ex f s ltac:(lia)) as [st Hst]. destruct (getZ_ex f' s ltac:(lia)) as [st' Hst'].
      rewrite (table_get _ _ _ _ _ _ Hn Hs Hst), (table_get _ _ _ _ _ _ Hn Hs Hst'). eauto.
    - rewrite !table_none; auto.
  Qed.

  (** The states of a chain stand for the suffixes. *)
  Lemma wf_suffix_state D f ctx s h : wf D f ctx -> getZ ctx s = Some h ->
    forall g, suffix g h -> exists s', getZ ctx s' = Some g.
  Proof.
    intros H. revert s. induction h as [|c h IH]; intros s Hs g Hg.
    - exists s. destruct Hg as (p & E). symmetry in E. apply app_eq_nil in E. destruct E as [_ ->]. auto.
    - apply suffix_cons in Hg. destruct Hg as [->|Hg]; [eauto|].
      pose proof (getZ_range _ _ _ Hs) as Hr.
      destruct (getZ_ex f s) as [st Hst]; [rewrite <- (wf_len _ _ _ _ _ _ _ _ H); auto|].
      destruct (wf_state _ _ _ _ _ _ _ _ H s st c h Hst Hs) as (S & b & rest & _ & Hb & _).
      eauto.
  Qed.
  Lemma wf_order_lt D f ctx s h : wf D f ctx -> getZ ctx s = Some h ->
    (S (length h) <= length f)%nat.
  Proof.
    intros H Hs. rewrite <- (wf_len _ _ _ _ _ _ _ _ H), <- suffixes_length.
    apply NoDup_incl_length; [apply suffixes_NoDup|]. intros g Hg. apply suffixes_In in Hg.
    destruct (wf_suffix_state D f ctx s h H Hs g Hg) as [s' Hs']. eapply getZ_In; eauto.
  Qed.

  Lemma wf_chain D f ctx : wf D f ctx -> forall h s, getZ ctx s = Some h ->
    (forall d g, D d -> getZ ctx d = Some g -> ~ suffix g h) ->
    exists l, chain f s l /\ good_chain V beta l /\
      Forall2 (fun p g => getZ ctx (fst p) = Some g) l (suffixes h).
  Proof.
    intros H h. induction h as [|c h IH]; intros s Hs HD.
    - pose proof (wf_u _ _ _ _ _ _ _ _ H) as Hu.
      pose proof (getZ_nodup _ _ _ _ (wf_nodup _ _ _ _ _ _ _ _ H) Hs Hu) as ->.
      destruct (getZ_ex f u) as [st Hst].
      { rewrite <- (wf_len _ _ _ _ _ _ _ _ H). eapply getZ_range; eauto. }
      destruct (wf_uni _ _ _ _ _ _ _ _ H st Hst) as (Hg & Hl & Hf).
      pose proof (wf_V _ _ _ _ _ _ _ _ H) as HV.
      destruct (ps_arcs st) as [|a t] eqn:Ea; [simpl in Hl; lia|].
      exists [(u, st)]. split; [|split].
      + econstructor; eauto. destruct Hg as [_ Hg]. specialize (Hg a (or_introl eq_refl)). lia.
      + constructor; auto; rewrite Ea; auto.
      + constructor; auto.
    - destruct (getZ_ex f s) as [st Hst].
      { rewrite <- (wf_len _ _ _ _ _ _ _ _ H). eapply getZ_range; eauto. }
      destruct (wf_state _ _ _ _ _ _ _ _ H s st c h Hst Hs) as (S & b & rest & Ha & Hb & Hg & Hf & HS).
      destruct (IH b Hb) as (l & Hc & Hgc & Hall).
      { intros d g Hd Hdg Hsuf. apply (HD d g Hd Hdg). apply suffix_cons; auto. }
      exists ((s, st) :: l). split; [econstructor; eauto|]. split; [|constructor; auto].
      destruct l as [|p l]; [inversion Hgc|]. eapply gc_s; eauto.
      destruct HS as [HS|HS]; auto. elim (HD s (c :: h) HS Hs). apply suffix_refl.
  Qed.

  Lemma wf_chain_iff D f ctx s h l : wf D f ctx -> getZ ctx s = Some h -> chain f s l ->
    forall d, In d (map fst l) <-> exists g, getZ ctx d = Some g /\ suffix g h.
  Proof.
    intros H. revert s l. induction h as [|c h IH]; intros s l Hs Hc d.
    - pose proof (wf_u _ _ _ _ _ _ _ _ H) as Hu.
      pose proof (getZ_nodup _ _ _ _ (wf_nodup _ _ _ _ _ _ _ _ H) Hs Hu) as ->.
      inversion Hc as [s0 st0 a0 t0 Hs0 Ha Hl E1 E2|s0 st0 S0 b0 t0 l0 Hs0 Ha Hc0 E1 E2]; subst.
      + simpl. split.
        * intros [<-|[]]. exists []. split; auto. apply suffix_refl.
        * intros (g & Hg & (p & E)). symmetry in E. apply app_eq_nil in E. destruct E as [_ ->].
          left. exact (getZ_nodup _ _ _ _ (wf_nodup _ _ _ _ _ _ _ _ H) Hu Hg).
      + destruct (wf_uni _ _ _ _ _ _ _ _ H st0 Hs0) as ((_ & Hg) & _). rewrite Ha in Hg.
        specialize (Hg _ (or_introl eq_refl)). simpl in Hg. lia.
    - inversion Hc as [s0 st0 a0 t0 Hs0 Ha Hl E1 E2|s0 st0 S0 b0 t0 l0 Hs0 Ha Hc0 E1 E2]; subst;
      destruct (wf_state _ _ _ _ _ _ _ _ H s st0 c h Hs0 Hs) as (S & b & rest & Ha' & Hb & _);
      rewrite Ha in Ha'; injection Ha'; intros; subst.
      + simpl in Hl. congruence.
      + cbn [map fst In]. rewrite (IH b l0 Hb Hc0 d). split.
        * intros [<-|(g & Hg & Hsuf)].
          -- exists (c :: h). split; auto. apply suffix_refl.
          -- exists g. split; auto. apply suffix_cons; auto.
        * intros (g & Hg & Hsuf). apply suffix_cons in Hsuf. destruct Hsuf as [->|Hsuf]; [left|right; eauto].
          exact (getZ_nodup _ _ _ _ (wf_nodup _ _ _ _ _ _ _ _ H) Hs Hg).
  Qed.

  (** Setting the arc of a symbol: one more count, and the destination. *)
  Fixpoint set_arc (l : list (arc F)) (x d : Z) : list (arc F) :=
    match l with
    | [] => [Arc x f1 d]
    | a :: t => if a_label a =? x then Arc x (fadd (a_count a) f1) d :: t else a :: set_arc t x d
    end.

  Lemma set_arc_find l x d y : find_arc (set_arc l x d) y =
    if y =? x then Some (Arc x (fadd (rcount l x) f1) d) else find_arc l y.
  Proof.
    induction l as [|a t IH]; cbn [set_arc].
    - rewrite find_arc_cons. cbn [a_label]. rewrite (Z.eqb_sym x y).
      destruct (Z.eqb_spec y x); auto. unfold rcount. simpl. do 2 f_equal. ring.
    - destruct (Z.eqb_spec (a_label a) x) as [E|E].
      + rewrite !find_arc_cons. cbn [a_label]. unfold rcount. rewrite find_arc_cons, E, Z.eqb_refl.
        rewrite (Z.eqb_sym x y). destruct (Z.eqb_spec y x); auto.
      + rewrite !find_arc_cons, IH. unfold rcount. rewrite find_arc_cons.
        destruct (Z.eqb_spec (a_label a) y) as [E2|E2].
        * destruct (Z.eqb_spec y x); [congruence|auto].
        * destruct (Z.eqb_spec (a_label a) x); [congruence|]. destruct (y =? x); auto.
  Qed.
  Lemma set_arc_In l x d a : NoDup (map (@a_label F) l) -> In a (set_arc l x d) ->
    a = Arc x (fadd (rcount l x) f1) d \/ (In a l /\ a_label a <> x).
  Proof.
    induction l as [|b t IH]; cbn [set_arc]; intros Hn Hin.
    - destruct Hin as [<-|[]]. left. unfold rcount; simpl. f_equal. ring.
    - inversion Hn as [|? ? Hb Hn']; subst. unfold rcount. rewrite find_arc_cons.
      destruct (Z.eqb_spec (a_label b) x) as [E|E].
      + destruct Hin as [<-|Hin]; [left; reflexivity|]. right. split; [right; auto|].
        intros E2. apply Hb. rewrite E, <- E2. apply in_map; auto.
      + destruct Hin as [<-|Hin]; [right; split; [left|]; auto|].
        destruct (IH Hn' Hin) as [->|[H1 H2]]; [left; reflexivity|right; split; [right|]; auto].
  Qed.
  Lemma set_arc_In_new l x d : exists c, In (Arc x c d) (set_arc l x d).
  Proof.
    induction l as [|b t [c IH]]; cbn [set_arc]; [eexists; left; reflexivity|].
    destruct (a_label b =? x); [eexists; left; reflexivity|]. exists c. right; auto.
  Qed.
  Lemma set_arc_In_old l x d a : In a l -> a_label a <> x -> In a (set_arc l x d).
  Proof.
    induction l as [|b t IH]; cbn [set_arc]; intros Hin Hx; [destruct Hin|].
    destruct (Z.eqb_spec (a_label b) x) as [E|E].
    - destruct Hin as [->|Hin]; [congruence|right; auto].
    - destruct Hin as [->|Hin]; [left; auto|right; auto].
  Qed.
  Lemma set_arc_labels l x d : map (@a_label F) (set_arc l x d) =
    match find_arc l x with Some _ => map (@a_label F) l | None => map (@a_label F) l ++ [x] end.
  Proof.
    induction l as [|b t IH]; [reflexivity|]. cbn [set_arc]. rewrite find_arc_cons.
    destruct (Z.eqb_spec (a_label b) x) as [E|E].
    - cbn [map a_label]. rewrite E. reflexivity.
    - cbn [map]. rewrite IH. destruct (find_arc t x); reflexivity.
  Qed.
  Lemma set_arc_sum l x d : fsum (map (@a_count F) (set_arc l x d)) = fadd (fsum (map (@a_count F) l)) f1.
  Proof.
    induction l as [|b t IH]; cbn [set_arc map]; [unfold fsum; simpl; ring|].
    destruct (a_label b =? x); cbn [map]; unfold fsum in *; cbn [fold_right a_count]; [ring|rewrite IH; ring].
  Qed.
  Lemma set_arc_good low l x d : good_arcs V low l -> 1 <= x <= Z.of_nat V ->
    fle f0 low = true -> flt low f1 = true -> good_arcs V low (set_arc l x d).
  Proof.
    intros [Hn Hl] Hx Hlow H1. split.
    - rewrite set_arc_labels. destruct (find_arc l x) eqn:E; auto.
      apply find_arc_None in E. apply (Permutation_NoDup (l := x :: map (@a_label F) l)).
      + apply Permutation_cons_append.
      + constructor; auto.
    - intros a Hin. apply set_arc_In in Hin; auto. destruct Hin as [->|[Hin _]]; auto.
      cbn [a_label a_count]. split; auto. unfold rcount. destruct (find_arc l x) as [a|] eqn:E.
      + apply find_arc_In in E. destruct E as [Hin _]. destruct (Hl a Hin) as [_ Hc].
        eapply flt_trans; [exact Hc|]. apply flt_sub. replace (fsub (fadd (a_count a) f1) (a_count a)) with (@f1 F) by ring.
        apply f1_pos.
      + replace (fadd f0 f1) with (@f1 F) by ring. auto.
  Qed.
  Lemma set_arc_app l x d : find_arc l x = None -> set_arc l x d = l ++ [Arc x f1 d].
  Proof.
    induction l as [|b t IH]; [reflexivity|]. rewrite find_arc_cons. cbn [set_arc].
    destruct (a_label b =? x); [discriminate|]. intros H. rewrite IH; auto.
  Qed.
  Lemma set_arc_length l x d : length (set_arc l x d) =
    match find_arc l x with Some _ => length l | None => S (length l) end.
  Proof.
    induction l as [|b t IH]; [reflexivity|]. cbn [set_arc]. rewrite find_arc_cons.
    destruct (a_label b =? x); cbn [length]; auto. rewrite IH. destruct (find_arc t x); reflexivity.
  Qed.

  (** Replacing one state, and possibly adding one after it. *)
  Definition ext_ctx (ext : option (history * Z)) : list history :=
    match ext with None => [] | Some (g, _) => [g] end.
  Definition ext_fst (ext : option (history * Z)) : list (pstate F) :=
    match ext with None => [] | Some (_, b) => [PState [Arc 0 f1 b] f0] end.

  Lemma wf_modify D' (D : Z -> Prop) f ctx s h st st' ext : wf D' f ctx ->
    fle f0 beta = true ->
    (forall d, D' d -> D d \/ d = s) ->
    getZ ctx s = Some h -> getZ f s = Some st ->
    (h = [] -> good_arcs V f0 (ps_arcs st') /\ length (ps_arcs st') = V /\ flt f0 (ps_final st') = true) ->
    (forall c h', h = c :: h' -> exists S b rest, ps_arcs st' = Arc 0 S b :: rest /\ getZ ctx b = Some h' /\
        good_arcs V beta rest /\ (ps_final st' = f0 \/ flt beta (ps_final st') = true) /\
        (D s \/ S = (if seen_nothing st' rest then f1
                      else fadd (ps_final st') (fsum (map (@a_count F) rest))))) ->
    (forall a, In a (ps_arcs st') -> a_label a <> 0 ->
      exists t, getZ (ctx ++ ext_ctx ext) (a_next a) = Some t /\ suffix t (h ++ [a_label a]) /\
                (length h <= length t)%nat) ->
    (forall v x, getZ ctx v = Some (h ++ [x]) -> v <> start ->
      exists a, In a (ps_arcs st') /\ a_label a = x /\ a_next a = v /\ x <> 0) ->
    (forall g b, ext = Some (g, b) -> ~ In g ctx /\ Z.of_nat (length g) < mo /\
       getZ ctx b = Some (tl g) /\
       exists x a, g = h ++ [x] /\ In a (ps_arcs st') /\ a_label a = x /\
                   a_next a = Z.of_nat (length f) /\ x <> 0) ->
    wf D (upd f (Z.to_nat s) st' ++ ext_fst ext) (ctx ++ ext_ctx ext).
  Proof.
    intros H Hbeta HD Hs Hst Huni Hstate Harc Hpre Hext.
    pose proof (getZ_range _ _ _ Hst) as Hr. pose proof (getZ_range _ _ _ Hs) as Hrc.
    pose proof (wf_len _ _ _ _ _ _ _ _ H) as Hlen. pose proof (wf_nodup _ _ _ _ _ _ _ _ H) as Hnd.
    assert (Ff : forall s0 st0, getZ (upd f (Z.to_nat s) st' ++ ext_fst ext) s0 = Some st0 ->
      (s0 = s /\ st0 = st') \/ (s0 <> s /\ getZ f s0 = Some st0) \/
      (s0 = Z.of_nat (length f) /\ exists g b, ext = Some (g, b) /\ st0 = PState [Arc 0 f1 b] f0)).
    { intros s0 st0 H0. destruct ext as [(g, b)|]; cbn [ext_fst] in H0.
      - apply getZ_app_inv in H0. rewrite upd_length in H0. destruct H0 as [H0|(-> & ->)].
        + rewrite getZ_upd in H0 by auto. destruct (Z.eqb_spec s0 s); [left|right; left]; split; congruence.
        + right; right. eauto.
      - rewrite app_nil_r, getZ_upd in H0 by auto.
        destruct (Z.eqb_spec s0 s); [left|right; left]; split; congruence. }
    assert (Fc : forall s0 g0, getZ (ctx ++ ext_ctx ext) s0 = Some g0 ->
      getZ ctx s0 = Some g0 \/
      (s0 = Z.of_nat (length f) /\ exists b, ext = Some (g0, b))).
    { intros s0 g0 H0. destruct ext as [(g, b)|]; cbn [ext_ctx] in H0.
      - apply getZ_app_inv in H0. rewrite Hlen in H0. destruct H0 as [H0|(-> & ->)]; [left|right]; eauto.
      - rewrite app_nil_r in H0. auto. }
    assert (Gc : forall s0 g0, getZ ctx s0 = Some g0 -> getZ (ctx ++ ext_ctx ext) s0 = Some g0)
      by (intros; apply getZ_app_l; auto).
    assert (Gf : forall s0 st0, s0 <> s -> getZ f s0 = Some st0 ->
       getZ (upd f (Z.to_nat s) st' ++ ext_fst ext) s0 = Some st0).
    { intros s0 st0 Hne H0. apply getZ_app_l. rewrite getZ_upd by auto.
      destruct (Z.eqb_spec s0 s); [congruence|auto]. }
    assert (Gs : getZ (upd f (Z.to_nat s) st' ++ ext_fst ext) s = Some st').
    { apply getZ_app_l. rewrite getZ_upd, Z.eqb_refl by auto. reflexivity. }
    assert (Nc : forall g0 b, ext = Some (g0, b) -> getZ ctx (Z.of_nat (length f)) = None).
    { intros. destruct (getZ ctx (Z.of_nat (length f))) eqn:E; auto. apply getZ_range in E. lia. }
    constructor.
    - rewrite !app_length, upd_length, Hlen. destruct ext as [(g, b)|]; reflexivity.
    - destruct ext as [(g, b)|]; cbn [ext_ctx]; [|rewrite app_nil_r; auto].
      destruct (Hext g b eq_refl) as (Hni & _). apply (Permutation_NoDup (l := g :: ctx)).
      + apply Permutation_cons_append.
      + constructor; auto.
    - apply (wf_V _ _ _ _ _ _ _ _ H).
    - apply Gc, (wf_start _ _ _ _ _ _ _ _ H).
    - apply Gc, (wf_u _ _ _ _ _ _ _ _ H).
    - intros st0 H0. pose proof (wf_u _ _ _ _ _ _ _ _ H) as Hu. pose proof (getZ_range _ _ _ Hu) as Hru.
      destruct (Ff _ _ H0) as [(E & ->)|[(Hne & H1)|(E & _)]].
      + apply Huni. rewrite E in Hu. congruence.
      + apply (wf_uni _ _ _ _ _ _ _ _ H st0 H1).
      + lia.
    - intros s0 st0 c h0 H0 Hc0. destruct (Ff _ _ H0) as [(-> & ->)|[(Hne & H1)|(-> & g & b & Eext & ->)]].
      + destruct (Fc _ _ Hc0) as [Hc1|(E & _)]; [|lia]. rewrite Hs in Hc1. injection Hc1 as E.
        destruct (Hstate c h0 E) as (S & b & rest & E1 & Hb & K). exists S, b, rest. split; auto.
      + destruct (Fc _ _ Hc0) as [Hc1|(E & _)]; [|apply getZ_range in H1; lia].
        destruct (wf_state _ _ _ _ _ _ _ _ H s0 st0 c h0 H1 Hc1) as (S & b & rest & E1 & Hb & K1 & K2 & K3).
        exists S, b, rest. split; [exact E1|]. split; [auto|]. split; [exact K1|]. split; [exact K2|].
        destruct K3 as [K3|K3]; auto. destruct (HD _ K3); [auto|congruence].
      + destruct (Fc _ _ Hc0) as [Hc1|(_ & b' & Eext')]; [rewrite (Nc g b) in Hc1; [discriminate|auto]|].
        rewrite Eext in Eext'. injection Eext' as -> <-.
        destruct (Hext _ _ Eext) as (_ & _ & Hb & _). cbn [tl] in Hb.
        exists f1, b, []. split; [reflexivity|]. split; [auto|].
        split; [split; [constructor|intros a []]|]. split; [left; reflexivity|].
        right. unfold seen_nothing. cbn [ps_final length]. rewrite feqb_refl. reflexivity.
    - intros s0 st0 a h0 H0 Hc0 Hin Hl. destruct (Ff _ _ H0) as [(-> & ->)|[(Hne & H1)|(-> & g & b & Eext & ->)]].
      + destruct (Fc _ _ Hc0) as [Hc1|(E & _)]; [|lia]. rewrite Hs in Hc1. injection Hc1 as <-. auto.
      + destruct (Fc _ _ Hc0) as [Hc1|(E & _)]; [|apply getZ_range in H1; lia].
        destruct (wf_arc _ _ _ _ _ _ _ _ H s0 st0 a h0 H1 Hc1 Hin Hl) as (t & Ht & K). exists t. split; auto.
      + destruct Hin as [<-|[]]. elim Hl. reflexivity.
    - intros v h0 x Hv Hns. destruct (Fc _ _ Hv) as [Hv1|(-> & b & Eext)].
      + destruct (wf_prefix _ _ _ _ _ _ _ _ H v h0 x Hv1 Hns) as (s0 & st0 & a & K1 & K2 & K3 & K4 & K5 & K6).
        destruct (Z.eq_dec s0 s) as [->|Hne].
        * rewrite Hs in K1. injection K1 as <-. destruct (Hpre v x Hv1 Hns) as (a' & A1 & A2 & A3 & A4).
          exists s, st', a'. repeat split; auto.
        * exists s0, st0, a. repeat split; auto.
      + destruct (Hext _ _ Eext) as (_ & _ & _ & x' & a & E & A1 & A2 & A3 & A4).
        apply app_inj_tail in E. destruct E as [-> ->]. exists s, st', a. repeat split; auto.
    - intros s0 h0 Hc0. destruct (Fc _ _ Hc0) as [Hc1|(_ & b & Eext)].
      + apply (wf_ord _ _ _ _ _ _ _ _ H _ _ Hc1).
      + destruct (Hext _ _ Eext) as (_ & K & _). exact K.
  Qed.

  (** The table after such a change. *)
  Lemma table_modify D' f ctx s h st st' ext g y : wf D' f ctx ->
    getZ ctx s = Some h -> getZ f s = Some st ->
    (forall g0 b, ext = Some (g0, b) -> ~ In g0 ctx) ->
    table (ctx ++ ext_ctx ext) (upd f (Z.to_nat s) st' ++ ext_fst ext) g y =
    if hist_eqb g h then count st' y else table ctx f g y.
  Proof.
    intros H Hs Hst Hext. pose proof (getZ_range _ _ _ Hst) as Hr.
    pose proof (wf_len _ _ _ _ _ _ _ _ H) as Hlen. pose proof (wf_nodup _ _ _ _ _ _ _ _ H) as Hnd.
    assert (Hnd' : NoDup (ctx ++ ext_ctx ext)).
    { destruct ext as [(g0, b)|]; cbn [ext_ctx]; [|rewrite app_nil_r; auto].
      apply (Permutation_NoDup (l := g0 :: ctx)).
      + apply Permutation_cons_append.
      + constructor; eauto. }
    destruct (hist_eqb g h) eqn:E.
    - apply hist_eqb_eq in E. subst g. apply (table_get _ _ s); auto.
      + apply getZ_app_l; auto.
      + apply getZ_app_l. rewrite getZ_upd, Z.eqb_refl by auto. reflexivity.
    - assert (Hgh : g <> h) by (intros ->; rewrite (proj2 (hist_eqb_eq h h) eq_refl) in E; discriminate).
      destruct (ctx_dec ctx g) as [(s0 & Hs0)|Hno].
      + pose proof (getZ_range _ _ _ Hs0). destruct (getZ_ex f s0 ltac:(lia)) as [st0 Hst0].
        rewrite (table_get ctx f s0 g st0); auto. apply (table_get _ _ s0); auto.
        * apply getZ_app_l; auto.
        * apply getZ_app_l. rewrite getZ_upd by auto. destruct (Z.eqb_spec s0 s); [congruence|auto].
      + rewrite (table_none ctx f g); auto. destruct ext as [(g0, b)|].
        * cbn [ext_ctx ext_fst]. destruct (list_eq_dec Z.eq_dec g g0) as [->|Hne].
          -- rewrite (table_get _ _ (Z.of_nat (length f)) g0 (PState [Arc 0 f1 b] f0)); auto.
             ++ unfold count. cbn [ps_final ps_arcs]. destruct (Z.eqb_spec y 0); auto.
                rewrite find_arc_cons. cbn [a_label]. destruct (Z.eqb_spec 0 y); [congruence|reflexivity].
             ++ rewrite <- Hlen. apply getZ_app_eq.
             ++ rewrite <- (upd_length _ f (Z.to_nat s) st'). apply getZ_app_eq.
          -- apply table_none. rewrite in_app_iff. intros [K|[K|[]]]; congruence.
        * apply table_none. cbn [ext_ctx]. rewrite app_nil_r. auto.
  Qed.
End Wf.
