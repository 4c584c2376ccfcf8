(** The symbols a reply lists are those of the models that are mixed, whatever has been learned. *)
From Coq Require Import Field.
From Verif Require Import Base Field LmModel HubModel HubSpec HubProofs HubMix HubLive HubLiveInst HubLive2 HubDist HubDistInst.
From Verif Require Import TextModel BigramModel BigramProofs BigramComp.
From Verif Require Import PpmModel PpmSpec PpmReadModel PpmStruct PpmRef PpmRefine.
From Verif Require Import NgramModel NgramSpec NgramProofs NgramProps.
From Verif Require Import WordModel WordSpec WordLex WordIndex WordRange WordState WordNext WordCache WordScores WordPredict WordInit WordProps FactoryModel.
From Verif Require Import VocabKeep.
Local Open Scope Z_scope.

Section HubVocab.
  Context {F : ofield} {M : Type}.
  Variable ops : comp_ops F M.
  Variable Inv : Z -> M -> Prop.
  Variable ok : M -> Z -> Prop.

  Lemma mix_add_iff key v acc k : In k (map fst (mix_add (F := F) key v acc)) <-> k = key \/ In k (map fst acc).
  Proof.
    split; [apply mix_add_in|]. induction acc as [|[k0 x0] t IH]; cbn [mix_add map fst In]; [intuition congruence|].
    destruct (str_eqb k0 key) eqn:E; cbn [map fst In].
    - apply str_eqb_eq in E. subst. intuition congruence.
    - intuition congruence.
  Qed.
  Lemma mix_results_iff sc w acc k : In k (map fst (mix_results (F := F) sc w acc)) <-> In k (map fst (sc_entries sc)) \/ In k (map fst acc).
  Proof.
    unfold mix_results. revert acc. induction (sc_entries sc) as [|[key p] t IH]; intros acc; cbn [fold_left map fst In]; [tauto|].
    rewrite IH, mix_add_iff. intuition congruence.
  Qed.

  (** What the models at some positions offer. *)
  Definition offered (b : Z) (lms : list M) (n : nat) (k : str) : Prop :=
    exists i m s sc m', (i < n)%nat /\ nth_error lms i = Some m /\ Inv b m /\ ok m s /\ c_extract ops m s = Ok (Some sc, m') /\ In k (map fst (sc_entries sc)).
  (** Each of them offers a list. *)
  Definition answered (b : Z) (lms : list M) (n : nat) (K : list str) : Prop :=
    forall i m, (i < n)%nat -> nth_error lms i = Some m -> exists s sc m', Inv b m /\ ok m s /\ c_extract ops m s = Ok (Some sc, m') /\ incl (map fst (sc_entries sc)) K.

  Lemma mix_loop_keys b (st : hstate F) lms0 ws : Forall2 ok lms0 (h_models st) -> Forall (Inv b) lms0 ->
    forall idx lms norm acc r lms', lms = skipn idx lms0 ->
    mix_loop ops st idx ws lms norm acc = Ok (Some r, lms') ->
    (forall k, In k (map fst (snd r)) -> In k (map fst acc) \/ offered b lms0 (idx + length ws) k) /\
    (forall k, In k (map fst acc) -> In k (map fst (snd r))) /\
    (forall i m, (idx <= i < idx + length ws)%nat -> nth_error lms0 i = Some m ->
       exists s sc m', Inv b m /\ ok m s /\ c_extract ops m s = Ok (Some sc, m') /\ incl (map fst (sc_entries sc)) (map fst (snd r))).
  Proof.
    intros L I. induction ws as [|w ws IH]; intros idx lms norm acc r lms' El E; cbn [mix_loop] in E.
    - injection E as <- <-. split; [auto|]. split; [auto|]. cbn [length]. intros; lia.
    - destruct lms as [|m t]; [discriminate|]. symmetry in El. apply skipn_cons in El. destruct El as [El Et].
      apply bind_Ok in E. destruct E as [[x m'] [E1 E]]. destruct (live_model Inv ok b st idx m lms0 L I El) as [Im Om].
      destruct x as [sc|]; [|discriminate].
      apply bind_Ok in E. destruct E as [[r2 t'] [E2 E]]. injection E as -> <-.
      destruct (IH (S idx) t _ _ r t' (eq_sym Et) E2) as (K1 & K2 & K3). cbn [length]. rewrite Nat.add_succ_r. split; [|split].
      + intros k Hk. destruct (K1 k Hk) as [Hk'|Hk']; [|right; exact Hk'].
        apply mix_results_iff in Hk'. destruct Hk' as [Hk'|Hk']; [right|left; exact Hk'].
        exists idx, m, (hs_model st idx), sc, m'. split; [lia|auto 8].
      + intros k Hk. apply K2, mix_results_iff. auto.
      + intros i m0 Hi Hm. destruct (Nat.eq_dec i idx) as [->|Ni]; [|apply (K3 i m0); auto; lia].
        rewrite El in Hm. injection Hm as <-. exists (hs_model st idx), sc, m'. split; [auto|]. split; [auto|]. split; [auto|].
        intros k Hk. apply K2, mix_results_iff. auto.
  Qed.

  Lemma insert_keys x (l : list (str * num F)) k : In k (map fst (insert_key x l)) <-> k = fst x \/ In k (map fst l).
  Proof.
    induction l as [|y t IH]; cbn [insert_key map In]; [intuition congruence|].
    destruct (str_leb (fst x) (fst y)); cbn [map In]; [intuition congruence|]. rewrite IH. tauto.
  Qed.
  Lemma mixture_keys (l : list (str * num F)) norm k : In k (map fst (sc_entries (extract_mixture l norm))) <-> In k (map fst l).
  Proof.
    unfold extract_mixture. cbn [sc_entries].
    assert (E : forall t : num F, map fst (map (fun '(k, v) => (k, ndiv v t)) (sort_keys l)) = map fst (sort_keys l)).
    { intros t. rewrite map_map. apply map_ext. intros [? ?]. reflexivity. }
    rewrite E. clear E. unfold sort_keys. induction l as [|x t IH]; cbn [fold_right map In]; [tauto|]. rewrite insert_keys, IH. intuition congruence.
  Qed.
  Lemma zip_length (ws : list (num F)) : forall sums r, zip_weights ws sums = Ok r -> length r = length ws.
  Proof.
    induction ws as [|w ws IH]; intros sums r E; cbn [zip_weights] in E; [injection E as <-; reflexivity|].
    destruct sums as [|p sums]; [discriminate|]. apply bind_Ok in E. destruct E as [r0 [E0 E]]. injection E as <-. cbn [length]. f_equal. eauto.
  Qed.
  Lemma weights_length (h : hub F M) s ws : mixture_weights_at h s = Ok ws -> length ws = length (h_weights h).
  Proof.
    unfold mixture_weights_at. destruct (_ || _); intros E; [injection E as <-; reflexivity|].
    apply bind_Ok in E. destruct E as [st [_ E]]. apply bind_Ok in E. destruct E as [zs [Ez E]]. injection E as <-. rewrite map_length. eapply zip_length; eauto.
  Qed.

  Lemma extract_keys b (h : hub F M) s resp h' : fit Inv ok b h -> hub_extract ops h s = Ok (Some resp, h') ->
    let n := Nat.max 1 (length (h_weights h)) in let keys := map fst (sc_entries resp) in
    (forall k, In k keys -> offered b (h_lms h) n k) /\ answered b (h_lms h) n keys.
  Proof.
    intros [H P] E. unfold hub_extract in E. destruct (HubModel.in_range h s) eqn:Er; cbn [negb] in E; [|discriminate].
    apply bind_Ok in E. destruct E as [st [E1 E]]. destruct (hl_live _ _ _ _ H _ (vgetZ_In _ _ _ _ E1)) as [L _].
    destruct (Nat.ltb_spec (length (h_weights h)) 2) as [Lt|Ge].
    - destruct (h_lms h) as [|m t] eqn:El; [discriminate|]. apply bind_Ok in E. destruct E as [[x m'] [E2 E]].
      destruct (live_model Inv ok b st 0 m (m :: t) L) as [Im Om]; [rewrite <- El; apply H|reflexivity|].
      destruct x as [sc|]; [|discriminate]. cbn [option_map] in E. injection E as <- <-. cbn [sc_entries].
      assert (Ek : map fst (map (fun '(k, p) => (k, Val p)) (sc_entries sc)) = map fst (sc_entries sc)) by (rewrite map_map; apply map_ext; intros [? ?]; reflexivity).
      cbv zeta. rewrite Ek. split.
      + intros k Hk. exists 0%nat, m, (hs_model st 0), sc, m'. split; [lia|]. auto 8.
      + intros i m0 Hi Hm. assert (i = 0%nat) by lia. subst i. injection Hm as <-.
        exists (hs_model st 0), sc, m'. split; [auto|]. split; [auto|]. split; [auto|]. apply incl_refl.
    - apply bind_Ok in E. destruct E as [ws [Ew E]]. apply bind_Ok in E. destruct E as [[r lms'] [E3 E]].
      destruct r as [[norm acc]|]; [|discriminate]. cbn [option_map] in E. injection E as <- <-.
      destruct (mix_loop_keys b st (h_lms h) ws L (hl_fine _ _ _ _ H) 0 (h_lms h) (Val f0) [] (norm, acc) lms' eq_refl E3) as (K1 & _ & K3).
      cbn [snd Nat.add] in *. pose proof (weights_length h s ws Ew) as Lw. cbv zeta. replace (Nat.max 1 (length (h_weights h))) with (length ws) by lia. split.
      + intros k Hk. apply mixture_keys in Hk. destruct (K1 k Hk) as [[]|Hk']. exact Hk'.
      + intros i m0 Hi Hm. destruct (K3 i m0) as (s0 & sc & m' & A1 & A2 & A3 & A4); [lia|auto|].
        exists s0, sc, m'. split; [auto|]. split; [auto|]. split; [auto|]. intros k Hk. apply mixture_keys. auto.
  Qed.
End HubVocab.

(** ** The symbols of a model of each kind. *)
Section Vocabulary.
  Context {F : ofield}.
  (** Bigram: the characters of the vocabulary (0 ends the text).  N-gram and PPM: the empty symbol (end of text)
      and those of the table.  Words: the empty symbol, the space and the characters of the words. *)
  Definition vocabulary (m : any_model F) : list str :=
    match m with
    | Bg m => map (fun c => [c]) (utf8_indices m)
    | Ng m => [] :: map snd (tl (ng_syms m))
    | Pp m => [] :: map (fun c => [c]) (p_syms m)
    | Wd m => [] :: [32] :: map (fun c => [c]) (concat (map snd (wvocab m)))
    end.

  Lemma bg_update_indices syms n : forall m s m', BigramModel.update_loop m s syms n = Ok m' -> utf8_indices m' = utf8_indices m.
  Proof.
    induction syms as [|c t IH]; intros m s m' E; cbn [BigramModel.update_loop] in E; [injection E as <-; reflexivity|].
    apply bind_Ok in E. destruct E as [nx [_ E]]. destruct (nx <? 0); [eauto|].
    apply bind_Ok in E. destruct E as [z [_ E]]. apply bind_Ok in E. destruct E as [row [_ E]]. apply bind_Ok in E. destruct E as [c0 [_ E]].
    destruct (int64_max <? c0 + n); [discriminate|]. apply IH in E. exact E.
  Qed.

  Lemma step_vocabulary (m m' : any_model F) : c_step any_ops true m m' -> vocabulary m' = vocabulary m.
  Proof.
    intros S. destruct S as [m s c t m2 E|m s c t m2 E|m s t m2 E|m s w0 n t m2 Hl E];
      cbn [any_ops c_next c_score c_extract c_update] in E;
      destruct m as [m|m|m|m]; apply via_ok in E; destruct E as [m0 [E X]]; subst m2; cbn [vocabulary].
    all: cbn [bigram_ops ngram_ops ppm_ops word_ops c_next c_score c_extract c_update] in E.
    - apply bind_Ok in E. destruct E as [r [_ E]]. injection E as _ <-. reflexivity.
    - apply bind_Ok in E. destruct E as [r [_ E]]. injection E as _ <-. reflexivity.
    - apply ks_next in E. rewrite E. reflexivity.
    - apply kw_next in E. unfold wvocab. rewrite E. reflexivity.
    - apply bind_Ok in E. destruct E as [r [_ E]]. destruct r; [|discriminate]. injection E as _ <-. reflexivity.
    - apply bind_Ok in E. destruct E as [r [_ E]]. injection E as _ <-. reflexivity.
    - apply ks_score in E. rewrite E. reflexivity.
    - apply bind_Ok in E. destruct E as [[r m1] [E1 E]]. apply kw_score in E1. destruct r; [|discriminate]. injection E as _ <-. unfold wvocab. rewrite E1. reflexivity.
    - apply bind_Ok in E. destruct E as [[r l] [_ E]]. apply bind_Ok in E. destruct E as [e [_ E]]. injection E as _ <-. reflexivity.
    - apply bind_Ok in E. destruct E as [r [_ E]]. apply bind_Ok in E. destruct E as [p [_ E]]. injection E as _ <-. reflexivity.
    - apply ks_extract in E. rewrite E. reflexivity.
    - apply bind_Ok in E. destruct E as [[r m1] [E1 E]]. apply kw_extract in E1. unfold wvocab.
      destruct r; [apply bind_Ok in E; destruct E as [p [_ E]]|]; injection E as _ <-; rewrite E1; reflexivity.
    - apply bind_Ok in E. destruct E as [r [E1 E]]. injection E as _ <-. unfold update_lm_counts in E1.
      destruct (n <=? 0); [injection E1 as <-; reflexivity|]. apply bg_update_indices in E1. rewrite E1. reflexivity.
    - unfold ng_update in E. injection E as _ <-. reflexivity.
    - apply ks_update in E. rewrite E. reflexivity.
    - injection E as _ <-. reflexivity.
  Qed.
  Lemma reach_vocabulary (m m' : any_model F) : c_reach any_ops true m m' -> vocabulary m' = vocabulary m.
  Proof. induction 1 as [|m1 m2 H IH S]; [reflexivity|]. rewrite (step_vocabulary _ _ S). exact IH. Qed.

  Lemma begins_chars (voc : list (Z * str)) p c : begins voc (p ++ [c]) = true -> In c (concat (map snd voc)).
  Proof.
    unfold begins. intros H. apply existsb_exists in H. destruct H as [w [I H]].
    apply in_concat. exists w. split; [exact I|].
    revert w H I. clear. intros w H _. revert w H. induction p as [|a p IH]; intros [|y w] H; cbn in H; try discriminate.
    - apply andb_prop in H. destruct H as [H _]. apply Z.eqb_eq in H. left. auto.
    - apply andb_prop in H. destruct H as [_ H]. right. apply IH. exact H.
  Qed.

  Lemma model_entries b (m : any_model F) s sc m' : any_inv b m -> any_valid m s -> c_extract any_ops m s = Ok (Some sc, m') ->
    incl (map fst (sc_entries sc)) (vocabulary m) /\ (HubDistInst.is_word m \/ map fst (sc_entries sc) = vocabulary m).
  Proof.
    intros H V E. assert (G : map fst (sc_entries sc) = vocabulary m -> incl (map fst (sc_entries sc)) (vocabulary m) /\ (HubDistInst.is_word m \/ map fst (sc_entries sc) = vocabulary m)).
    { intros ->. split; [apply incl_refl|auto]. }
    destruct m as [m|m|m|m]; cbn [any_inv any_valid any_ops c_extract] in *; apply via_ok in E; destruct E as [m0 [E _]].
    - apply G. destruct H as (v & C & R & _). rewrite (bg_extract m v C s R) in E. injection E as <- _. cbn [sc_entries vocabulary].
      rewrite map_map. cbn [fst]. rewrite (repr_idx _ _ _ R). reflexivity.
    - apply G. destruct H as [L CV]. destruct (C31_scores_are_a_distribution F m s s L) as (e & ps & Ee & Lp & _); auto.
      { destruct (Z.eqb_spec s (-1)); auto. unfold valid_state in V. lia. }
      cbn [c_extract ngram_ops] in E. rewrite Ee in E. cbn [bind] in E.
      assert (X : ([], Val e) :: combine (map snd (tl (ng_syms m))) (map Val ps) =
                  map (fun '(k, p) => (k, Val p)) (([], e) :: combine (map snd (tl (ng_syms m))) ps)).
      { cbn [map]. f_equal. clear. generalize (map snd (tl (ng_syms m))) as ks. induction ps as [|p ps IH]; intros [|k ks]; cbn [combine map]; auto. f_equal; auto. }
      rewrite X, plain_is in E. cbn [bind] in E. injection E as <- <-. cbn [sc_entries map fst vocabulary].
      rewrite combine_fst by (rewrite map_length; auto). reflexivity.
    - apply G. destruct H as [(u & K & C & Ht) ND].
      assert (Hh : exists h, getZ K s = Some h) by (apply getZ_ex; rewrite (tracks_len _ _ _ _ Ht); exact V).
      destruct Hh as [h Hh]. destruct Ht as [Hi HC]. destruct (PpmApi.extract_spec _ _ m K s h Hi Hh) as (m2 & E' & _).
      cbn [c_extract ppm_ops] in E. rewrite E' in E. apply (f_equal (fun o => match o with Ok (Some x, _) => sc_entries x | _ => [] end)) in E.
      cbv beta iota in E. rewrite <- E. cbn [sc_entries vocabulary]. apply combine_fst.
      cbn [length]. rewrite !map_length, PpmVals.symbols_length. reflexivity.
    - split; [|left; exists m; reflexivity]. destruct H as [[ws W] P]. pose proof (wi_base _ _ W) as B.
      cbn [c_extract word_ops] in E. apply bind_Ok in E. destruct E as [[r0 m1] [E1 E]].
      destruct (stands_total _ _ _ (wb_im _ _ B) s V) as [pl Hp]. destruct pl as [s0 p|].
      + destruct (extract_place m ws s s0 p W Hp) as (ps & syms & m2 & E2 & _ & _ & Ls & _ & _ & Off & TM & b0 & e0 & _ & _ & Rg & _).
        pose proof (total_pos m ws s0 p b0 e0 _ W P Rg TM) as T. pose proof (flt_neq _ _ T) as NZ.
        rewrite E2 in E1. injection E1 as <- <-.
        assert (X : combine syms (map (fun q => num_div q (fsum ps)) ps) = map (fun '(k, p) => (k, Val p)) (combine syms (map (fun q => fdiv q (fsum ps)) ps))).
        { revert NZ. generalize (fsum ps) as t. intros t NZ. clear - NZ. revert syms. induction ps as [|x ps IH]; intros [|y syms]; cbn [combine map]; auto.
          f_equal; auto. f_equal. unfold num_div. destruct (feqb t f0) eqn:Q; auto. apply feqb_eq in Q. congruence. }
        rewrite X, plain_is in E. cbn [bind] in E. injection E as <- _. cbn [sc_entries].
        rewrite combine_fst by (rewrite map_length; auto). intros k Hk.
        assert (Hv : exists v, In (k, v) (combine syms ps)).
        { clear - Hk Ls. revert ps Ls. induction syms as [|y syms IH]; intros [|x ps] L; try discriminate; [destruct Hk|]. destruct Hk as [<-|Hk].
          - exists x. left. reflexivity.
          - destruct (IH Hk ps) as [v Hv]; [cbn in L; lia|]. exists v. right. exact Hv. }
        destruct Hv as [v Hv]. apply Off in Hv. cbn [vocabulary]. destruct Hv as [p c v Nc Bg0 _|p x d e v _ _ _ _ _|p x d e v _ _ _ _ _ _|e _ _].
        * right. right. apply in_map_iff. exists c. split; [auto|]. eapply begins_chars; eauto.
        * right. left. reflexivity.
        * left. reflexivity.
        * left. reflexivity.
      + simpl in Hp. subst s. rewrite (oov_extract m ws B) in E1. injection E1 as <- <-.
        apply bind_Ok in E. destruct E as [x [E1 E]]. injection E as <- _.
        unfold plain_scores in E1. cbn [sc_norm sc_entries] in E1. apply bind_Ok in E1. destruct E1 as [en [E0 E1]]. injection E1 as <-.
        injection E0 as <-. intros k [].
  Qed.
End Vocabulary.
