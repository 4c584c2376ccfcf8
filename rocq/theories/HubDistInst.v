(** The four kinds of component answer with distributions. *)
From Coq Require Import Field.
From Verif Require Import Base Field LmModel LmProofs HubModel HubSpec HubProofs HubMix HubLive HubLiveInst HubDist.
From Verif Require Import TextModel BigramModel BigramProofs BigramComp.
From Verif Require Import PpmModel PpmSpec PpmReadModel PpmStruct PpmRef PpmRefine.
From Verif Require Import NgramModel NgramSpec NgramProofs NgramProps.
From Verif Require Import WordModel WordSpec WordLex WordIndex WordRange WordState WordNext WordCache WordScores
  WordPredict WordInit WordProps FactoryModel.
Local Open Scope Z_scope.

(** Only the word model has states (out of vocabulary) about which it lists nothing. *)
Definition is_word {F : ofield} (m : any_model F) : Prop := exists w, m = Wd w.

Section Inst.
  Context {F : ofield}.
  Add Field FfieldDistInst : (f_th F).
  Definition proper (sc : lm_scores (car F)) : Prop :=
    NoDup (map fst (sc_entries sc)) /\ (forall k p, In (k, p) (sc_entries sc) -> fle f0 p = true) /\ fsum (map snd (sc_entries sc)) = f1.

  Lemma combine_fst (A B : Type) (a : list A) (b : list B) : length a = length b -> map fst (combine a b) = a.
  Proof. revert b. induction a as [|x a IH]; intros [|y b] H; simpl in *; try discriminate; auto. f_equal. auto. Qed.
  Lemma combine_snd (A B : Type) (a : list A) (b : list B) : length a = length b -> map snd (combine a b) = b.
  Proof. revert b. induction a as [|x a IH]; intros [|y b] H; simpl in *; try discriminate; auto. f_equal. auto. Qed.

  (** ** Bigrams *)
  Lemma ofZ_sum v (f : Z -> Z) : ofZ (F := F) (zsum (map f v)) = fsum (map (fun c => ofZ (f c)) v).
  Proof. induction v as [|c v IH]; [reflexivity|]. cbn [map]. rewrite fsum_cons, <- IH, <- ofZ_add. reflexivity. Qed.
  Lemma state_symbol_In m v C s : repr m v C -> In (state_symbol v s) v.
  Proof. intros R. destruct (fix_state_spec m v C s R) as [_ E]. eapply nth_error_In; eauto. Qed.
  Lemma zsum_pos v (f : Z -> Z) : v <> [] -> (forall c, In c v -> 1 <= f c) -> 1 <= zsum (map f v).
  Proof.
    destruct v as [|c v]; [congruence|]. intros _ H. cbn [map]. change (zsum (f c :: map f v)) with (f c + zsum (map f v)).
    assert (0 <= zsum (map f v)).
    { assert (forall x, In x v -> 1 <= f x) by (intros; apply H; right; auto). clear -H0. induction v as [|x v IH]; [simpl; lia|].
      cbn [map]. change (zsum (f x :: map f v)) with (f x + zsum (map f v)). pose proof (H0 x (or_introl eq_refl)).
      assert (0 <= zsum (map f v)) by (apply IH; intros; apply H0; right; auto). lia. }
    pose proof (H c (or_introl eq_refl)). lia.
  Qed.
  Lemma bg_score_nonneg m v C s c : repr m v C -> In c v -> fle f0 (bg_score (F := F) v C (state_symbol v s) c) = true.
  Proof.
    intros R Hc. unfold bg_score. pose proof (state_symbol_In m v C s R) as Ha. apply fdiv_nonneg.
    - apply ofZ_nonneg. pose proof (repr_pos _ _ _ R _ c Ha Hc). lia.
    - apply ofZ_pos. pose proof (zsum_pos v (C (state_symbol v s)) (repr_ne _ _ _ R)) as Z. 
      assert (1 <= zsum (map (C (state_symbol v s)) v)) by (apply Z; intros; apply (repr_pos _ _ _ R); auto). lia.
  Qed.
  Lemma bigram_proper b m s r m' : bg_room b m -> c_extract (bigram_ops (F := F)) m s = Ok (r, m') -> exists sc, r = Some sc /\ proper sc.
  Proof.
    intros (v & C & R & _) E. rewrite (bg_extract m v C s R) in E. injection E as <- <-. eexists. split; [reflexivity|].
    unfold proper. cbn [sc_entries]. split; [|split].
    - rewrite map_map. cbn [fst]. apply FinFun.Injective_map_NoDup; [intros a c [= ->]; reflexivity|]. apply sorted_NoDup, (repr_sorted _ _ _ R).
    - intros k p I. apply in_map_iff in I. destruct I as [c [X I]]. injection X as <- <-. eapply bg_score_nonneg; eauto.
    - rewrite map_map. cbn [snd]. unfold bg_score.
      set (t := ofZ (zsum (map (C (state_symbol v s)) v))).
      assert (T : t <> f0).
      { apply not_eq_sym, flt_neq, ofZ_pos. pose proof (state_symbol_In m v C s R) as Ha.
        assert (1 <= zsum (map (C (state_symbol v s)) v)); [|lia]. apply zsum_pos; [apply (repr_ne _ _ _ R)|]. intros; apply (repr_pos _ _ _ R); auto. }
      rewrite (fsum_map_div _ (fun c => ofZ (C (state_symbol v s) c))) by auto. rewrite <- ofZ_sum. apply fdiv_self. exact T.
  Qed.

  (** ** Characters *)
  Lemma plain_is n (l : list (str * car F)) : plain_scores (LmScores (Val n) (map (fun '(k, p) => (k, Val p)) l)) = Ok (LmScores n l).
  Proof.
    unfold plain_scores. cbn [sc_norm sc_entries].
    match goal with |- bind (?g _) _ = _ => set (go := g) end.
    assert (X : go (map (fun '(k, p) => (k, Val p)) l) = Ok l).
    { induction l as [|[k p] t IH]; [reflexivity|]. unfold go in *. cbn. rewrite IH. reflexivity. }
    rewrite X. reflexivity.
  Qed.
  Lemma ngram_proper m s r m' : ng_inv m -> valid_state m s -> c_extract (ngram_ops (F := F)) m s = Ok (r, m') -> exists sc, r = Some sc /\ proper sc.
  Proof.
    intros [L CV] V E.
    destruct (C31_scores_are_a_distribution F m s s L) as (e & ps & Ee & Lp & _ & _ & Pp & Ps); auto.
    { destruct (Z.eqb_spec s (-1)); auto. unfold valid_state in V. lia. }
    cbn [c_extract ngram_ops] in E. rewrite Ee in E. cbn [bind] in E.
    assert (X : ([], Val e) :: combine (map snd (tl (ng_syms m))) (map Val ps) =
                map (fun '(k, p) => (k, Val p)) (([], e) :: combine (map snd (tl (ng_syms m))) ps)).
    { cbn [map]. f_equal. clear. generalize (map snd (tl (ng_syms m))) as ks. induction ps as [|p ps IH]; intros [|k ks]; cbn [combine map]; auto. f_equal; auto. }
    rewrite X, plain_is in E. cbn [bind] in E. injection E as <- <-. eexists. split; [reflexivity|].
    assert (LL : length (map snd (tl (ng_syms m))) = length ps) by (rewrite map_length; auto).
    unfold proper. cbn [sc_entries map fst snd]. rewrite combine_fst, combine_snd by auto. pose proof (ld_table _ L) as T. split; [|split].
    - constructor.
      + intros I. apply in_map_iff in I. destruct I as [[x w] [Ew I]]. destruct (tab_positive _ T _ _ I). auto.
      + pose proof (tab_symbols _ T) as Q. destruct (tab_eps _ T) as [e0 [rest Er]]. rewrite Er in *. cbn [tl map] in *. inversion Q; auto.
    - intros k p [I|I]; [injection I as <- <-; apply Pp; left; auto|]. apply Pp. right. eapply in_combine_r; eauto.
    - rewrite fsum_cons. exact Ps.
  Qed.
  Lemma ngram_score_nonneg m s c p m' : ng_inv m -> valid_state m s -> c_score (ngram_ops (F := F)) m s c = Ok (p, m') -> fle f0 p = true.
  Proof.
    intros [L _] V E. destruct (ld_facts m L) as [C _]. apply has_state_ex in V. destruct V as [st Hs].
    cbn [c_score ngram_ops] in E. apply bind_Ok in E. destruct E as [p' [E X]]. injection X as -> _.
    unfold ng_score in E. set (x := sym_label m c) in *.
    destruct (Z.eq_dec x 0) as [Ex|X0]; [rewrite Ex in E|destruct (Z.eq_dec x (-1)) as [Ex|X1]; [rewrite Ex in E|]].
    - destruct (label_cost_end _ C m eq_refl s st Hs) as [q [Q P]]. assert (p = q) by congruence. subst. eapply end_prob_nonneg; eauto.
    - rewrite (label_cost_unk _ m eq_refl s st Hs) in E. injection E as <-.
      destruct (arc_with 0 (ps_arcs st)) as [a|] eqn:Ea; [|apply fle_refl].
      destruct (can_weights _ C s st Hs) as [_ W]. apply W. eapply arc_with_In; eauto.
    - destruct (label_cost_sym _ C m eq_refl x s st X0 X1 Hs) as [q [Q P]]. assert (p = q) by congruence. subst. eapply symbol_prob_nonneg; eauto.
  Qed.

  (** ** PPM *)
  Lemma ppm_proper m s r m' : ppm_inv m -> PpmRefine.valid m s -> c_extract (ppm_ops (F := F)) m s = Ok (r, m') -> exists sc, r = Some sc /\ proper sc.
  Proof.
    intros [(u & K & C & Ht) ND] V E.
    assert (Hh : exists h, getZ K s = Some h) by (apply getZ_ex; rewrite (tracks_len _ _ _ _ Ht); exact V).
    destruct Hh as [h Hh]. destruct (tracks_prob m u K C h Ht (getZ_In _ _ _ Hh)) as [Pp Ps].
    destruct Ht as [Hi HC]. destruct (PpmApi.extract_spec _ _ m K s h Hi Hh) as (m2 & E' & _).
    cbn [c_extract ppm_ops] in E. rewrite E' in E. apply (f_equal (fun o => match o with Ok (x, _) => x | _ => None end)) in E.
    cbv beta iota in E. subst r. eexists. split; [reflexivity|].
    set (W := length (p_syms m)) in *.
    assert (Ep : map (prob W (p_alpha m) (p_beta m) (table K (p_fst m)) h) (symbols W) = map (prob W (p_alpha m) (p_beta m) C h) (symbols W)).
    { apply map_ext. intros x. apply prob_ext. auto. }
    unfold proper. cbn [sc_entries]. rewrite Ep.
    assert (El : length ([] :: map (fun c : Z => [c]) (p_syms m)) = length (map (prob W (p_alpha m) (p_beta m) C h) (symbols W))).
    { cbn [length]. rewrite !map_length, PpmVals.symbols_length. reflexivity. }
    rewrite combine_fst, combine_snd by exact El. split; [|split; [|exact Ps]].
    - constructor; [intros I; apply in_map_iff in I; destruct I as [c [X _]]; discriminate|].
      apply FinFun.Injective_map_NoDup; auto. intros a c [= ->]; reflexivity.
    - intros k p I. apply in_combine_r in I. apply in_map_iff in I. destruct I as (x & <- & Hx). apply flt_le, Pp; auto.
  Qed.
  Lemma ppm_score_nonneg m s c p m' : ppm_inv m -> PpmRefine.valid m s -> c_score (ppm_ops (F := F)) m s c = Ok (p, m') -> fle f0 p = true.
  Proof.
    intros [(u & K & C & Ht) ND] V E.
    assert (Hh : exists h, getZ K s = Some h) by (apply getZ_ex; rewrite (tracks_len _ _ _ _ Ht); exact V).
    destruct Hh as [h Hh]. destruct (tracks_prob m u K C h Ht (getZ_In _ _ _ Hh)) as [Pp _].
    destruct Ht as [Hi HC]. destruct (PpmApi.score_spec _ _ m K s h c Hi Hh) as (m2 & E' & _).
    cbn [c_score ppm_ops] in E. rewrite E' in E. injection E as <- <-. cbv zeta.
    set (x := if c =? 0 then 0 else PpmApi.labels m c). destruct (Z.leb_spec 0 x); [|apply fle_refl].
    rewrite (prob_ext _ _ _ _ C h x HC). apply flt_le, Pp. apply PpmVals.symbols_In.
    unfold x in *. destruct (c =? 0); [lia|]. destruct (PpmApi.labels_range _ _ m K c Hi) as [X|X]; lia.
  Qed.

  (** ** Words *)
  Lemma word_list m s r m' : word_inv m -> word_valid m s -> w_extract m s = Ok (r, m') ->
    exists n l, r = Some (LmScores (Val n) (map (fun '(k, p) => (k, Val p)) l)) /\ NoDup (map fst l) /\
      (forall k p, In (k, p) l -> fle f0 p = true) /\ (fsum (map snd l) = (f1 : car F) \/ l = []).
  Proof.
    intros [[ws W] P] V E. pose proof (wi_base _ _ W) as B.
    destruct (stands_total _ _ _ (wb_im _ _ B) s V) as [pl Hp]. destruct pl as [s0 p|].
    - destruct (extract_place m ws s s0 p W Hp) as (ps & syms & m2 & E2 & _ & _ & L1 & L2 & L3 & _ & TM & b & e & _ & _ & R & _).
      pose proof (total_pos m ws s0 p b e _ W P R TM) as T. pose proof (flt_neq _ _ T) as NZ.
      rewrite E2 in E. injection E as <- <-.
      exists f1, (combine syms (map (fun q => fdiv q (fsum ps)) ps)). split.
      { do 2 f_equal. revert NZ. generalize (fsum ps) as t. intros t NZ. clear - NZ.
        revert syms. induction ps as [|x ps IH]; intros [|y syms]; cbn [combine map]; auto.
        f_equal; auto. f_equal. unfold num_div. destruct (feqb t f0) eqn:Q; auto. apply feqb_eq in Q. congruence. }
      rewrite combine_fst, combine_snd by (rewrite map_length; auto). split; auto. split.
      + intros k q I. apply in_combine_r, in_map_iff in I. destruct I as [x [<- I]]. apply fdiv_nonneg; auto.
      + left. rewrite fsum_map_div, map_id by auto. apply fdiv_self; auto.
    - simpl in Hp. subst s. rewrite (oov_extract m ws B) in E. injection E as <- <-. exists f0, []. split; [reflexivity|].
      split; [constructor|]. split; [intros k p []|auto].
  Qed.
  Lemma word_proper m s r m' : word_inv m -> word_valid m s -> c_extract (word_ops (F := F)) m s = Ok (r, m') ->
    exists sc, r = Some sc /\ (proper sc \/ sc_entries sc = []).
  Proof.
    intros H V E. cbn [c_extract word_ops] in E. apply bind_Ok in E. destruct E as [[r0 m0] [E1 E]].
    destruct (word_list m s r0 m0 H V E1) as (n & l & -> & L1 & L2 & L3).
    rewrite plain_is in E. cbn [bind] in E. injection E as <- <-. eexists. split; [reflexivity|]. cbn [sc_entries].
    destruct L3 as [L3|L3]; [left|right; exact L3]. split; auto.
  Qed.
  Lemma word_score_nonneg m s c p m' : word_inv m -> word_valid m s -> c_score (word_ops (F := F)) m s c = Ok (p, m') -> fle f0 p = true.
  Proof.
    intros H V E. cbn [c_score word_ops] in E. unfold w_score in E. apply bind_Ok in E. destruct E as [[x m1] [E1 E]].
    apply bind_Ok in E1. destruct E1 as [[r0 m0] [E1 E2]]. injection E2 as <- <-.
    destruct (word_list m s r0 m0 H V E1) as (n & l & -> & _ & L2 & _). cbn [sc_entries] in E.
    destruct (find _ _) as [[k q]|] eqn:Fd.
    - apply find_some in Fd. destruct Fd as [Fd _]. apply in_map_iff in Fd. destruct Fd as [[k' q'] [X I]].
      injection X as -> <-. injection E as <- _. eauto.
    - injection E as <- _. apply fle_refl.
  Qed.

  Lemma via_ok {A M : Type} (f : M -> any_model F) (x : outcome (A * M)) r m : via f x = Ok (r, m) -> exists m0, x = Ok (r, m0) /\ m = f m0.
  Proof. unfold via. intros E. apply bind_Ok in E. destruct E as [[r0 m0] [-> E]]. injection E as <- <-. eauto. Qed.

  Lemma any_dist : comps_dist (any_ops (F := F)) any_inv any_valid is_word.
  Proof.
    constructor.
    - assert (G : forall (sc : lm_scores (car F)) (m : any_model F), proper sc ->
                    NoDup (map fst (sc_entries sc)) /\ (forall k p, In (k, p) (sc_entries sc) -> fle f0 p = true) /\
                    (fsum (map snd (sc_entries sc)) = f1 \/ (sc_entries sc = [] /\ is_word m))) by (intros sc m (P1 & P2 & P3); auto).
      intros b m s r m' H V E. destruct m as [m|m|m|m]; cbn [any_inv any_valid any_ops c_extract] in *; apply via_ok in E; destruct E as [m0 [E _]].
      + destruct (bigram_proper b m s r m0 H E) as (sc & -> & P). exists sc. split; auto.
      + destruct (ngram_proper m s r m0 H V E) as (sc & -> & P). exists sc. split; auto.
      + destruct (ppm_proper m s r m0 H V E) as (sc & -> & P). exists sc. split; auto.
      + destruct (word_proper m s r m0 H V E) as (sc & -> & [P|P]); exists sc; split; auto. rewrite P.
        split; [constructor|]. split; [intros k p []|]. right. split; auto. exists m. reflexivity.
    - intros b m s c p m' H V E. destruct m as [m|m|m|m]; cbn [any_inv any_valid any_ops c_score] in *; apply via_ok in E; destruct E as [m0 [E _]].
      + destruct H as (v & C & R & _). rewrite (bg_score_eq m v C s c R) in E. injection E as <- _.
        destruct (existsb (Z.eqb c) v) eqn:Ex; [|apply fle_refl]. apply existsb_exists in Ex. destruct Ex as [c' [I X]]. apply Z.eqb_eq in X. subst c'.
        eapply bg_score_nonneg; eauto.
      + eapply ngram_score_nonneg; eauto.
      + eapply ppm_score_nonneg; eauto.
      + eapply word_score_nonneg; eauto.
  Qed.

  (** The kind of a model never changes. *)
  Lemma reach_word (m m' : any_model F) : c_reach any_ops true m m' -> is_word m' -> is_word m.
  Proof.
    intros H. induction H as [|m1 m2 H IH S]; auto. intros Wm. apply IH. clear IH H. destruct Wm as [w Ew]. revert Ew.
    destruct S as [m1 s c t m2 E|m1 s c t m2 E|m1 s t m2 E|m1 s w0 n t m2 Hl E]; cbn [any_ops c_next c_score c_extract c_update] in E;
      destruct m1 as [m1|m1|m1|m1]; apply via_ok in E; destruct E as [m0 [_ E]]; intros Ew; subst m2; try discriminate; eexists; reflexivity.
  Qed.
End Inst.
