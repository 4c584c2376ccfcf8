(** Scoring a whole string: the reference for GetNegLogProbs, and proofs for C64. *)
From Coq Require Import Field.
From Verif Require Import Base Field LmModel TextModel HubModel PpmModel PpmSpec PpmReadModel PpmStruct PpmTrainSpec PpmRef PpmVals PpmCache PpmWf PpmUpdate PpmObserve PpmApi PpmRefine.
Local Open Scope Z_scope.

Section Spec.
  Context {F : ofield}.
  Variables (V : nat) (alpha beta : car F) (max_order : Z) (static : bool).

  (** The history after label x, the end of string leading back to the beginning. *)
  Definition after (K : list history) (h : history) (x : Z) : history := if x =? 0 then [0] else longest K (h ++ [x]).

  (** Each label has its probability after the current history; if the model is not static it is then
      observed there; then the history is extended.  A number that is no label ends it with an error. *)
  Fixpoint ref_string (K : list history) (C : @counts F) (h : history) (xs : list Z)
    : option (list (car F)) * (list history * @counts F) :=
    match xs with
    | [] => (Some [], (K, C))
    | x :: t =>
        if (x <? 0) || (Z.of_nat V <? x) then (None, (K, C))
        else
          let K1 := if static then K else extended max_order K C h x in
          let C1 := if static then C else observe C h x in
          let (r, kc) := ref_string K1 C1 (after K1 h x) t in
          (option_map (cons (prob V alpha beta C h x)) r, kc)
    end.

  (** All strings of n labels. *)
  Fixpoint all_strings (n : nat) : list (list Z) :=
    match n with
    | O => [[]]
    | S k => flat_map (fun x => map (cons x) (all_strings k)) (symbols V)
    end.
End Spec.

Section String.
  Context {F : ofield}.
  Add Field FfieldPpmString : (f_th F).

  Lemma bad_prob (m : ppm F) u K C s h x : tracks m u K C -> getZ K s = Some h ->
    (x <? 0) || (Z.of_nat (length (p_syms m)) <? x) = true ->
    exists m', get_prob m s x = Ok (None, m') /\ same m m' /\ tracks m' u K C.
  Proof.
    intros [H HC] Hs Hx. destruct (ensure_spec _ _ m K s h H Hs) as (m' & v & E & Hi & Hq & Ep & _).
    exists m'. unfold get_prob, cached. rewrite E. cbn [bind]. split; [|split; [apply (queried_same _ _ Hq)|]].
    - do 2 f_equal. unfold access. rewrite Ep, map_length. unfold symbols. rewrite map_length, seq_length.
      apply orb_true_iff in Hx. destruct Hx as [Hx|Hx]; apply Z.ltb_lt in Hx.
      + destruct (Z.ltb_spec x 0); [reflexivity|lia].
      + destruct (Z.leb_spec (Z.of_nat (S (length (p_syms m)))) x); [rewrite orb_true_r; reflexivity|lia].
    - split; [rewrite (sm_syms _ _ (queried_same _ _ Hq)); auto|]. rewrite (queried_fst _ _ Hq). auto.
  Qed.

  Lemma string_spec u : forall xs (m : ppm F) K C s h, tracks m u K C -> getZ K s = Some h ->
    exists m', get_probs_loop m s xs = Ok (fst (ref_string (length (p_syms m)) (p_alpha m) (p_beta m) (p_max_order m) (p_static m) K C h xs), m') /\
      same m m' /\
      let (K', C') := snd (ref_string (length (p_syms m)) (p_alpha m) (p_beta m) (p_max_order m) (p_static m) K C h xs) in
      tracks m' u K' C' /\ exists N, K' = K ++ N.
  Proof.
    induction xs as [|x t IH]; intros m K C s h T Hs; cbn [get_probs_loop ref_string].
    - exists m. split; [reflexivity|]. split; [apply same_refl|]. split; auto. exists []. rewrite app_nil_r; auto.
    - set (V := length (p_syms m)) in *. destruct ((x <? 0) || (Z.of_nat V <? x)) eqn:Bx.
      { destruct (bad_prob m u K C s h x T Hs Bx) as (m' & E & S' & T'). rewrite E. cbn [bind fst snd]. exists m'. split; [reflexivity|].
        split; auto. split; auto. exists []. rewrite app_nil_r; auto. }
      apply orb_false_iff in Bx. destruct Bx as [B1 B2]. apply Z.ltb_ge in B1. apply Z.ltb_ge in B2.
      assert (Hx : In x (symbols V)) by (apply symbols_In; lia).
      destruct T as [H HC].
      destruct (prob_spec _ _ m K s h H Hs x Hx) as (m1 & E1 & H1 & Q1). rewrite E1. cbn [bind].
      pose proof (queried_same _ _ Q1) as S1. pose proof (queried_fst _ _ Q1) as F1.
      rewrite (prob_ext _ _ _ _ C) by auto. fold V.
      set (K1 := if p_static m then K else extended (p_max_order m) K C h x).
      set (C1 := if p_static m then C else observe C h x).
      match goal with |- exists m', (let* (ok, m2) := ?e in _) = _ /\ _ => set (upd_step := e) end.
      assert (U : exists m2, upd_step = Ok (Some tt, m2) /\ same m m2 /\ tracks m2 u K1 C1 /\ exists N, K1 = K ++ N).
      { unfold upd_step. rewrite (sm_static _ _ S1). unfold K1, C1. destruct (p_static m) eqn:Es.
        - exists m1. split; [reflexivity|]. split; auto. split; [|exists []; rewrite app_nil_r; auto].
          split; [rewrite (sm_syms _ _ S1); auto|]. rewrite F1. auto.
        - destruct (origin_spec _ _ m1 K s h H1 Hs x Hx) as (m2 & og & Eo & Ho & H2 & Q2). rewrite Eo. cbn [bind].
          pose proof (queried_same _ _ Q2) as S2. pose proof (queried_fst _ _ Q2) as F2.
          destruct (update_model_spec _ _ m2 K s h x og H2) as (m3 & dd & Eu & H3 & S3 & T3 & _); auto.
          { rewrite (sm_static _ _ S2), (sm_static _ _ S1). auto. }
          { rewrite F2. exact Ho. }
          rewrite Eu. cbn [bind option_map]. exists m3. split; [reflexivity|].
          assert (S13 : same m m3) by (eapply same_trans; [exact S1|eapply same_trans; [exact S2|exact S3]]).
          split; auto. rewrite F2, F1, (sm_mo _ _ S2), (sm_mo _ _ S1) in *.
          rewrite (extended_ext (p_max_order m) K (table K (p_fst m)) C h x HC) in *.
          split; [|apply extended_app]. split.
          + rewrite (sm_syms _ _ S13). exact H3.
          + intros g y. rewrite T3. apply observe_ext. exact HC. }
      destruct U as (m2 & EU & S2 & [H2 HC2] & N1 & HN1). rewrite EU. cbn [bind].
      assert (Hs1 : getZ K1 s = Some h) by (rewrite HN1; apply getZ_app_l; auto).
      rewrite (sm_syms _ _ S2) in H2. fold V in H2.
      destruct (dest_spec _ _ m2 K1 s h H2 Hs1 x Hx) as (m3 & d & E3 & D1 & D0 & H3 & Q3). rewrite E3. cbn [bind].
      pose proof (queried_same _ _ Q3) as S3. pose proof (queried_fst _ _ Q3) as F3.
      assert (S13 : same m m3) by (eapply same_trans; eauto).
      assert (Hd : getZ K1 d = Some (after K1 h x)).
      { unfold after. destruct (Z.eqb_spec x 0) as [->|Hx0]; [|apply D1; lia]. rewrite D0 by reflexivity.
        apply (wf_start _ _ _ _ _ _ _ _ (mi_wf _ _ _ _ _ H2)). }
      destruct (IH m3 K1 C1 d (after K1 h x)) as (m4 & E4 & S4 & T4); auto.
      { split; [rewrite (sm_syms _ _ S13); auto|]. rewrite F3. auto. }
      rewrite (sm_syms _ _ S13), (sm_alpha _ _ S13), (sm_beta _ _ S13), (sm_mo _ _ S13), (sm_static _ _ S13) in E4, T4. fold V in E4, T4.
      rewrite E4. cbn [bind]. destruct (ref_string V (p_alpha m) (p_beta m) (p_max_order m) (p_static m) K1 C1 (after K1 h x) t) as [r [K' C']].
      cbn [fst snd] in *. exists m4. split; [reflexivity|]. split; [eapply same_trans; eauto|].
      destruct T4 as [T4 [N2 HN2]]. split; auto. exists (N1 ++ N2). rewrite HN2, HN1, app_assoc. reflexivity.
  Qed.

  Lemma fsum_flat_map {A B} (f : B -> car F) (g : A -> list B) l :
    fsum (map f (flat_map g l)) = fsum (map (fun a => fsum (map f (g a))) l).
  Proof.
    induction l as [|a l IH]; [reflexivity|]. cbn [flat_map map]. rewrite map_app, fsum_app, IH, fsum_cons. reflexivity.
  Qed.

  (** The probability of a string. *)
  Definition weight (r : option (list (car F))) : car F := match r with Some ps => fprod ps | None => f0 end.
  Lemma chain_rule u n : forall (m : ppm F) K C s h, tracks m u K C -> getZ K s = Some h ->
    fsum (map (fun xs => weight (fst (ref_string (length (p_syms m)) (p_alpha m) (p_beta m) (p_max_order m) (p_static m) K C h xs)))
      (all_strings (length (p_syms m)) n)) = f1.
  Proof.
    induction n as [|n IH]; intros m K C s h T Hs.
    - cbn. ring.
    - cbn [all_strings]. rewrite fsum_flat_map. set (V := length (p_syms m)).
      destruct (tracks_prob m u K C h T (getZ_In _ _ _ Hs)) as [_ PS]. fold V in PS.
      transitivity (fsum (map (prob V (p_alpha m) (p_beta m) C h) (symbols V))); [|exact PS].
      f_equal. apply map_ext_in. intros x Hx. pose proof Hx as Hx'. apply symbols_In in Hx'.
      rewrite map_map. cbn [ref_string].
      assert (Bx : (x <? 0) || (Z.of_nat V <? x) = false).
      { apply orb_false_iff. split; apply Z.ltb_ge; lia. }
      rewrite Bx. set (K1 := if p_static m then K else extended (p_max_order m) K C h x).
      set (C1 := if p_static m then C else observe C h x).
      assert (T1 : exists m1 s1, same m m1 /\ tracks m1 u K1 C1 /\ getZ K1 s1 = Some (after K1 h x)).
      { destruct (string_spec u [x] m K C s h T Hs) as (m1 & E1 & S1 & T1). cbn [ref_string] in T1. fold V in T1. rewrite Bx in T1. cbn [snd] in T1.
        fold K1 C1 in T1. destruct T1 as [T1 _].
        assert (Hs1 : getZ K1 s = Some h).
        { unfold K1. destruct (p_static m); auto. destruct (extended_app (p_max_order m) K C h x) as [N ->]. apply getZ_app_l; auto. }
        destruct T1 as [H1 HC1]. assert (V1 : length (p_syms m1) = V) by (rewrite (sm_syms _ _ S1); reflexivity). 
        assert (Hx1 : In x (symbols (length (p_syms m1)))) by (rewrite V1; auto).
        destruct (dest_spec _ _ m1 K1 s h H1 Hs1 x Hx1) as (m2 & d & _ & D1 & D0 & _).
        destruct (Z.eqb_spec x 0) as [Ex|Ex].
        - exists m1, (p_start m1). split; auto. split; [split; auto|]. unfold after. rewrite Ex. cbn [Z.eqb].
          apply (wf_start _ _ _ _ _ _ _ _ (mi_wf _ _ _ _ _ H1)).
        - exists m1, d. split; auto. split; [split; auto|]. unfold after. destruct (Z.eqb_spec x 0); [contradiction|]. apply D1. lia. }
      destruct T1 as (m1 & s1 & S1 & T1 & Hs1). specialize (IH m1 K1 C1 s1 _ T1 Hs1).
      rewrite (sm_syms _ _ S1), (sm_alpha _ _ S1), (sm_beta _ _ S1), (sm_mo _ _ S1), (sm_static _ _ S1) in IH. fold V in IH.
      set (p := prob V (p_alpha m) (p_beta m) C h x).
      transitivity (fmul p f1); [|ring]. rewrite <- IH, <- fsum_map_mul. f_equal. apply map_ext. intros xs.
      destruct (ref_string V (p_alpha m) (p_beta m) (p_max_order m) (p_static m) K1 C1 (after K1 h x) xs) as [[ps|] kc]; cbn [fst option_map weight].
      + reflexivity.
      + ring.
  Qed.

  (** ** Scoring learns as telling does *)
  Lemma ref_string_ext V a b mo st xs : forall K (C C' : @counts F) h, (forall g y, C g y = C' g y) ->
    fst (ref_string V a b mo st K C h xs) = fst (ref_string V a b mo st K C' h xs) /\
    fst (snd (ref_string V a b mo st K C h xs)) = fst (snd (ref_string V a b mo st K C' h xs)) /\
    forall g y, snd (snd (ref_string V a b mo st K C h xs)) g y = snd (snd (ref_string V a b mo st K C' h xs)) g y.
  Proof.
    induction xs as [|x t IH]; intros K C C' h H; cbn [ref_string]; [auto|].
    destruct ((x <? 0) || (Z.of_nat V <? x)); [auto|].
    assert (EK : (if st then K else extended mo K C h x) = (if st then K else extended mo K C' h x)).
    { destruct st; auto. apply extended_ext; auto. }
    rewrite EK. set (K1 := if st then K else extended mo K C' h x).
    destruct (IH K1 (if st then C else observe C h x) (if st then C' else observe C' h x) (after K1 h x)) as (I1 & I2 & I3).
    { intros g y. destruct st; auto. apply observe_ext; auto. }
    rewrite (prob_ext V a b C C') by auto.
    destruct (ref_string V a b mo st K1 (if st then C else observe C h x) (after K1 h x) t) as [r [K2 C2]].
    destruct (ref_string V a b mo st K1 (if st then C' else observe C' h x) (after K1 h x) t) as [r' [K2' C2']].
    cbn [fst snd] in *. subst. auto.
  Qed.

  Lemma ref_string_learn V a b mo lab cs : (forall c, In c cs -> 0 < c /\ 0 < lab c <= Z.of_nat V) -> forall K (C : @counts F) h,
    fst (snd (ref_string V a b mo false K C h (map lab cs))) = fst (learn mo lab K C h cs 1) /\
    forall g y, snd (snd (ref_string V a b mo false K C h (map lab cs))) g y = snd (learn mo lab K C h cs 1) g y.
  Proof.
    induction cs as [|c t IH]; intros Hc K C h; cbn [map ref_string learn]; [auto|].
    destruct (Hc c (or_introl eq_refl)) as [C0 [L1 L2]].
    assert (Bx : (lab c <? 0) || (Z.of_nat V <? lab c) = false) by (apply orb_false_iff; split; apply Z.ltb_ge; lia).
    rewrite Bx. destruct (Z.ltb_spec 0 c); [|lia]. destruct (Z.ltb_spec (lab c) 0); [lia|].
    set (K1 := extended mo K C h (lab c)).
    assert (EA : after K1 h (lab c) = next_history K1 h (lab c)).
    { unfold after, next_history. destruct (Z.eqb_spec (lab c) 0); [lia|]. destruct (Z.ltb_spec 0 (lab c)); [reflexivity|lia]. }
    rewrite EA. destruct (IH (fun c' H => Hc c' (or_intror H)) K1 (observe C h (lab c)) (next_history K1 h (lab c))) as [I1 I2].
    destruct (learn_ext mo lab t K1 (observe C h (lab c)) (add_count (observe C h (lab c)) h (lab c) (1 - 1)) (next_history K1 h (lab c)) 1) as [L3 L4].
    { intros g y. unfold add_count. cbn [Z.sub Z.add Z.opp Z.pos_sub]. change (@ofZ F 0) with (f0 : car F).
      destruct ((y =? lab c) && hist_eqb g h); [|reflexivity]. ring. }
    destruct (ref_string V a b mo false K1 (observe C h (lab c)) (next_history K1 h (lab c)) (map lab t)) as [r [K2 C2]].
    cbn [fst snd] in *. rewrite <- L3, <- I1. split; auto. intros g y. rewrite I2. apply L4.
  Qed.
  Lemma ref_string_static V a b mo xs : forall K (C : @counts F) h, snd (ref_string V a b mo true K C h xs) = (K, C).
  Proof.
    induction xs as [|x t IH]; intros K C h; cbn [ref_string]; [reflexivity|]. destruct (_ || _); [reflexivity|].
    specialize (IH K C (after K h x)). destruct (ref_string V a b mo true K C (after K h x) t) as [r kc]. exact IH.
  Qed.
  Lemma ref_string_ok V a b mo st xs : (forall x, In x xs -> 0 <= x <= Z.of_nat V) -> forall K (C : @counts F) h,
    exists ps, fst (ref_string V a b mo st K C h xs) = Some ps /\ length ps = length xs.
  Proof.
    induction xs as [|x t IH]; intros Hx K C h; cbn [ref_string]; [exists []; auto|].
    pose proof (Hx x (or_introl eq_refl)) as X0.
    destruct (orb_false_iff (x <? 0) (Z.of_nat V <? x)) as [_ O]. rewrite O by (split; apply Z.ltb_ge; lia).
    match goal with |- context [ref_string V a b mo st ?K1 ?C1 ?h1 t] => destruct (IH (fun y H => Hx y (or_intror H)) K1 C1 h1) as (ps & E & L);
      destruct (ref_string V a b mo st K1 C1 h1 t) as [r kc] end.
    cbn [fst] in *. subst r. eexists. split; [reflexivity|]. cbn [length]. auto.
  Qed.
  Lemma ref_string_bad V a b mo st xs x : In x xs -> ~ 0 <= x <= Z.of_nat V -> forall K (C : @counts F) h,
    fst (ref_string V a b mo st K C h xs) = None.
  Proof.
    intros Hin Hx. induction xs as [|y t IH]; intros K C h; [destruct Hin|]. cbn [ref_string].
    destruct ((y <? 0) || (Z.of_nat V <? y)) eqn:B; [reflexivity|].
    destruct Hin as [->|Hin].
    - apply orb_false_iff in B. destruct B as [B1 B2]. apply Z.ltb_ge in B1. apply Z.ltb_ge in B2. elim Hx. lia.
    - match goal with |- context [ref_string V a b mo st ?K1 ?C1 ?h1 t] => specialize (IH Hin K1 C1 h1);
        destruct (ref_string V a b mo st K1 C1 h1 t) as [r kc] end.
      cbn [fst] in *. subst r. reflexivity.
  Qed.

  (** Two models that stand for the same answer the same, for ever. *)
  Lemma tracks_alike (n n' : ppm F) u K C C' : tracks n u K C -> tracks n' u K C' -> (forall h x, C h x = C' h x) -> same n n' ->
    forall ks l n1, served n ks l n1 -> exists n1', served n' ks l n1'.
  Proof.
    intros T T0 HC Sm. assert (T' : tracks n' u K C) by (destruct T0 as [T1 T2]; split; auto; intros; rewrite T2, HC; auto).
    assert (G : forall ks l n1, served n ks l n1 -> exists n1', served n' ks l n1' /\ same n1 n1' /\ exists K1 C1, tracks n1 u K1 C1 /\ tracks n1' u K1 C1).
    { intros ks l n1 Hs. induction Hs as [|ks l n1 k a n2 Hs IH Hv E].
      - exists n'. split; [constructor|]. split; auto. eauto.
      - destruct IH as (n1' & Hs' & S1 & K1 & C1 & T1 & T1').
        assert (Hh : exists h, getZ K1 (call_state k) = Some h) by (apply getZ_ex; rewrite (tracks_len _ _ _ _ T1); exact Hv).
        destruct Hh as [h Hh].
        destruct (tracks_step n1 u K1 C1 k h T1 Hh) as (ma & Ea & Sa & Ta).
        destruct (tracks_step n1' u K1 C1 k h T1' Hh) as (mb & Eb & Sb & Tb).
        rewrite E in Ea. injection Ea as Ea <-.
        rewrite (sm_syms _ _ S1), (sm_alpha _ _ S1), (sm_beta _ _ S1) in Eb. rewrite (sm_syms _ _ S1), (sm_mo _ _ S1), (sm_static _ _ S1) in Tb.
        exists mb. split; [econstructor; [exact Hs'| |rewrite Ea; exact Eb]|].
        + unfold valid in *. rewrite <- (tracks_len _ _ _ _ T1'), (tracks_len _ _ _ _ T1). exact Hv.
        + split.
          * destruct Sa, Sb, S1. constructor; congruence.
          * destruct (ref_next _ _ _ K1 C1 h k) as [K2 C2]. exists K2, C2. split; [apply Ta|apply Tb]. }
    intros ks l n1 Hs. destruct (G _ _ _ Hs) as (n1' & H & _). eauto.
  Qed.

  (** Labels of a string. *)
  Lemma syms_vector_spec (m : ppm F) cs : get_syms_vector m cs =
    if forallb (fun c => 0 <? label_from 1 (p_syms m) c) cs then Some (map (label_from 1 (p_syms m)) cs) else None.
  Proof.
    induction cs as [|c t IH]; [reflexivity|]. cbn [get_syms_vector forallb map]. rewrite IH, sym_index_labels. unfold labels.
    destruct (Z.ltb_spec 0 (label_from 1 (p_syms m) c)) as [L|L]; destruct (Z.leb_spec (label_from 1 (p_syms m) c) 0); try lia; cbn [andb]; auto.
    destruct (forallb _ t); reflexivity.
  Qed.
  Lemma label_from_pos l : forall i c, 1 <= i -> (0 < label_from i l c <-> In c l).
  Proof.
    induction l as [|d t IH]; intros i c Hi; cbn [label_from In]; [lia|].
    destruct (Z.eqb_spec d c) as [->|N]; [intuition lia|]. rewrite IH by lia. intuition congruence.
  Qed.
End String.
