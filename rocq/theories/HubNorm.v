(** The normalization that comes with a list of scores is positive. *)
From Coq Require Import Field.
From Verif Require Import Base Field LmModel HubModel HubSpec HubProofs HubMix HubLive HubLiveInst HubLive2 HubDist HubDistInst.
From Verif Require Import TextModel BigramModel BigramProofs BigramComp.
From Verif Require Import PpmModel PpmSpec PpmReadModel PpmStruct PpmRef PpmRefine.
From Verif Require Import NgramModel NgramSpec NgramProofs NgramProps.
From Verif Require Import WordModel WordSpec WordLex WordIndex WordRange WordState WordNext WordCache WordScores WordPredict WordInit WordProps FactoryModel.
Local Open Scope Z_scope.

Definition has_norm {F : ofield} (sc : lm_scores (car F)) : Prop :=
  fle f0 (sc_norm sc) = true /\ (sc_entries sc <> [] -> flt f0 (sc_norm sc) = true).
Definition comps_norm {F : ofield} {M : Type} (ops : comp_ops F M) (Inv : Z -> M -> Prop) (ok : M -> Z -> Prop) : Prop :=
  forall b m s sc m', Inv b m -> ok m s -> c_extract ops m s = Ok (Some sc, m') -> has_norm sc.

Section Norm.
  Context {F : ofield} {M : Type}.
  Add Field FfieldNorm : (f_th F).
  Variable ops : comp_ops F M.
  Variable Inv : Z -> M -> Prop.
  Variable ok : M -> Z -> Prop.
  Hypothesis CN : comps_norm ops Inv ok.
  Notation hub := (hub F M).
  Implicit Types (h : hub).

  Lemma mixed_norm (ws : list (car F)) scs : (forall w, In w ws -> flt f0 w = true) -> (forall sc, In sc scs -> has_norm sc) -> length ws = length scs ->
    fle f0 (fsum (map (fun '(w, sc) => fmul w (sc_norm sc)) (combine ws scs))) = true /\
    ((exists sc, In sc scs /\ sc_entries sc <> []) -> flt f0 (fsum (map (fun '(w, sc) => fmul w (sc_norm sc)) (combine ws scs))) = true).
  Proof.
    revert scs. induction ws as [|w ws IH]; intros [|sc scs] Hw Hs Hl; try discriminate Hl.
    - split; [apply fle_refl|]. intros [sc [[] _]].
    - cbn [combine map]. rewrite fsum_cons. destruct (IH scs) as [I1 I2]; [intros; apply Hw; right; auto|intros; apply Hs; right; auto|cbn in Hl; lia|].
      destruct (Hs sc (or_introl eq_refl)) as [S1 S2]. pose proof (Hw w (or_introl eq_refl)) as W1.
      assert (P0 : fle f0 (fmul w (sc_norm sc)) = true) by (apply fmul_nonneg; [apply flt_le; auto|auto]).
      split; [apply fadd_nonneg; auto|]. intros [sc' [[<-|I] Ne]].
      + apply fadd_pos_l; auto. apply flt_iff. split; auto. intros Z. specialize (S2 Ne). apply flt_iff in S2. destruct S2 as [_ S2].
        apply flt_iff in W1. destruct W1 as [_ W1]. apply S2.
        assert (X : sc_norm sc = fdiv (fmul w (sc_norm sc)) w) by (field; auto). rewrite X, <- Z. field. auto.
      + apply fadd_pos_r; eauto.
  Qed.

  Lemma extract_norm b h s ws resp h' : fit Inv ok b h -> h_bayes h = 0%nat \/ (length ws < 2)%nat -> h_weights h = map Val ws -> (forall w, In w ws -> flt f0 w = true) ->
    hub_extract ops h s = Ok (Some resp, h') -> sc_entries resp <> [] -> exists n, sc_norm resp = Val n /\ flt f0 n = true.
  Proof.
    intros [H P] B Hw Hp E Ne.
    unfold hub_extract in E. destruct (HubModel.in_range h s) eqn:Er; cbn [negb] in E; [|discriminate].
    apply bind_Ok in E. destruct E as [st [E1 E]]. destruct (hl_live _ _ _ _ H _ (vgetZ_In _ _ _ _ E1)) as [L _].
    assert (Lw : length (h_weights h) = length ws) by (rewrite Hw; apply map_length).
    destruct (Nat.ltb_spec (length (h_weights h)) 2).
    - destruct (h_lms h) as [|m t] eqn:El; [discriminate|]. apply bind_Ok in E. destruct E as [[x m'] [E2 E]].
      destruct (live_model Inv ok b st 0 m (m :: t) L) as [Im Om]; [rewrite <- El; apply H|reflexivity|].
      destruct x as [sc|]; [|discriminate]. cbn [option_map] in E. injection E as <- <-. cbn [sc_norm sc_entries] in *.
      destruct (CN b m _ sc m' Im Om E2) as [_ S2]. eexists. split; [reflexivity|]. apply S2. intros Z. rewrite Z in Ne. auto.
    - destruct B as [B|B]; [|lia]. unfold mixture_weights_at in E. rewrite B in E. cbn [Nat.eqb orb bind] in E. rewrite Hw in E.
      apply bind_Ok in E. destruct E as [[r lms'] [E3 E]]. destruct r as [r|]; [|discriminate]. cbn [option_map] in E.
      change (@nil (str * num F)) with (HubMix.vals (F := F) []) in E3.
      destruct (mix_loop_spec ops st ws 0 (h_lms h) f0 [] r lms' (NoDup_nil _) E3) as (scs & acc' & B1 & B2 & B3 & B4 & B5 & B6 & B7).
      destruct (mixed_norm ws scs) as [M1 M2]; auto.
      { intros sc I. apply In_nth_error in I. destruct I as [k I]. assert (Hk : (k < length ws)%nat) by (rewrite <- B1; apply nth_error_Some; congruence).
        destruct (B2 k Hk) as (m & sc' & m' & C1 & C2 & C3). rewrite I in C2. injection C2 as <-.
        destruct (live_model Inv ok b st k m (h_lms h) L (hl_fine _ _ _ _ H) C1) as [Im Om]. exact (CN b m _ sc m' Im Om C3). }
      subst r. injection E as <- <-. unfold extract_mixture in *. cbn [sc_norm sc_entries] in *.
      eexists. split; [reflexivity|].
      match goal with |- flt f0 ?x = true => replace x with (fsum (map (fun '(w, sc) => fmul w (sc_norm sc)) (combine ws scs))) by field end.
      apply M2. destruct acc' as [|[k v] e]; [exfalso; apply Ne; reflexivity|].
      destruct (proj1 (B5 k) (or_introl eq_refl)) as [[]|[sc [I1 I2]]]. exists sc. split; auto. intros Z. rewrite Z in I2. destruct I2.
  Qed.
End Norm.

Section NormInst.
  Context {F : ofield}.
  Lemma any_norm : comps_norm (any_ops (F := F)) any_inv any_valid.
  Proof.
    assert (G : forall sc : lm_scores (car F), flt f0 (sc_norm sc) = true -> has_norm sc) by (intros sc H; split; [apply flt_le; auto|auto]).
    intros b m s sc m' H V E. destruct m as [m|m|m|m]; cbn [any_inv any_valid any_ops c_extract] in *; apply via_ok in E; destruct E as [m0 [E _]].
    - destruct H as (v & C & R & _). rewrite (bg_extract m v C s R) in E. injection E as <- _. apply G. cbn [sc_norm].
      apply ofZ_pos. pose proof (state_symbol_In m v C s R) as Ha.
      assert (1 <= zsum (map (C (state_symbol v s)) v)); [|lia]. apply zsum_pos; [apply (repr_ne _ _ _ R)|]. intros; apply (repr_pos _ _ _ R); auto.
    - apply G. destruct H as [L CV]. destruct (C31_scores_are_a_distribution F m s s L) as (e & ps & Ee & _); auto.
      { destruct (Z.eqb_spec s (-1)); auto. unfold valid_state in V. lia. }
      cbn [c_extract ngram_ops] in E. rewrite Ee in E. cbn [bind] in E. apply bind_Ok in E. destruct E as [p [E1 E]]. injection E as <- _.
      unfold plain_scores in E1. cbn [sc_norm sc_entries] in E1. apply bind_Ok in E1. destruct E1 as [en [_ E1]]. injection E1 as <-. cbn [sc_norm]. apply f1_pos.
    - apply G. destruct H as [(u & K & C & Ht) ND].
      assert (Hh : exists h, getZ K s = Some h) by (apply getZ_ex; rewrite (tracks_len _ _ _ _ Ht); exact V).
      destruct Hh as [h Hh]. destruct Ht as [Hi HC]. destruct (PpmApi.extract_spec _ _ m K s h Hi Hh) as (m2 & E' & _).
      cbn [c_extract ppm_ops] in E. rewrite E' in E. apply (f_equal (fun o => match o with Ok (Some x, _) => sc_norm x | _ => f0 end)) in E.
      cbv beta iota in E. rewrite <- E. cbn [sc_norm]. clear E E'. set (W := length (p_syms m)) in *.
      assert (Hpos : forall g x, In x (symbols W) -> fle f0 (table K (p_fst m) g x) = true).
      { intros g x Hx. destruct (in_dec (list_eq_dec Z.eq_dec) g K) as [Hg|Hg].
        - apply (PpmApi.table_pos W u m K); auto.
        - rewrite PpmWf.table_none by auto. apply fle_refl. }
      assert (Ht0 : forall g, fle f0 (total W (table K (p_fst m)) g) = true).
      { intros g. unfold total. apply fsum_nonneg. intros y Hy. apply in_map_iff in Hy. destruct Hy as (x & <- & Hx). auto. }
      assert (Q : forall g, flt f0 (norm W (p_alpha m) (table K (p_fst m)) g) = true).
      { induction g as [|c g IH]; cbn [norm].
        - apply fadd_pos_r; [apply Ht0|apply (PpmUpdate.mi_alpha _ _ _ _ _ Hi)].
        - destruct (feqb (total W (table K (p_fst m)) (c :: g)) f0); [exact IH|].
          apply fadd_pos_r; [apply Ht0|apply (PpmUpdate.mi_alpha _ _ _ _ _ Hi)]. }
      apply Q.
    - destruct H as [[ws W] P]. pose proof (wi_base _ _ W) as B.
      cbn [c_extract word_ops] in E. apply bind_Ok in E. destruct E as [[r0 m1] [E1 E]].
      destruct (stands_total _ _ _ (wb_im _ _ B) s V) as [pl Hp]. destruct pl as [s0 p|].
      + destruct (extract_place m ws s s0 p W Hp) as (ps & syms & m2 & E2 & _). rewrite E2 in E1. injection E1 as <- <-.
        apply G. apply bind_Ok in E. destruct E as [x [E1 E]]. injection E as <- _.
        unfold plain_scores in E1. cbn [sc_norm sc_entries] in E1. apply bind_Ok in E1. destruct E1 as [en [_ E1]]. injection E1 as <-. cbn [sc_norm]. apply f1_pos.
      + simpl in Hp. subst s. rewrite (oov_extract m ws B) in E1. injection E1 as <- <-.
        apply bind_Ok in E. destruct E as [x [E1 E]]. injection E as <- _.
        unfold plain_scores in E1. cbn [sc_norm sc_entries] in E1. apply bind_Ok in E1. destruct E1 as [en [E0 E1]]. injection E1 as <-.
        injection E0 as <-. split; cbn [sc_norm sc_entries]; [apply fle_refl|congruence].
  Qed.
End NormInst.
