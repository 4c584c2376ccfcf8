(** The four kinds of component are calm: queries do not affect what can be observed of the states
    handed out before. *)
From Verif Require Import Base Field LmModel LmProofs HubModel HubSpec HubProofs HubMix HubLive HubQuery HubSim HubLiveInst.
From Verif Require Import TextModel BigramModel BigramProofs BigramComp.
From Verif Require Import PpmModel PpmSpec PpmReadModel PpmStruct PpmRef PpmUpdate PpmRefine.
From Verif Require Import NgramModel NgramSpec NgramProofs NgramProps.
From Verif Require Import WordModel WordSpec WordLex WordIndex WordRange WordState WordNext WordCache WordScores
  WordPredict WordInit WordProps FactoryModel.
Local Open Scope Z_scope.

(** A bisimulation relates states that behave the same. *)
Lemma obs_bisim {F : ofield} {M : Type} (ops : comp_ops F M) (R : M -> Z -> M -> Z -> Prop) :
  (forall m s m' s', R m s m' s' -> agree ops m s m' s') ->
  (forall m s m' s' c t m1 t' m1', R m s m' s' -> 0 <= c -> c_next ops m s c = Ok (t, m1) ->
     c_next ops m' s' c = Ok (t', m1') -> R m1 t m1' t') ->
  forall m s m' s', R m s m' s' -> obs ops m s m' s'.
Proof.
  intros HA HN m s m' s' H w. revert m s m' s' H.
  induction w as [|c w IH]; intros m s m' s' H t m1 t' m1' C E E'; cbn [c_walk] in *.
  - injection E as <- <-. injection E' as <- <-. auto.
  - apply bind_Ok in E. destruct E as [[u n] [E1 E]]. apply bind_Ok in E'. destruct E' as [[u' n'] [E1' E']].
    eapply (IH n u n' u'); [eapply HN; eauto; apply C; left; auto| |exact E|exact E']. intros d D. apply C. right; auto.
Qed.

Section Calm.
  Context {F : ofield}.

  (** Models that queries do not change at all. *)
  Lemma still_calm {M} (ops : comp_ops F M) Inv ok b :
    (forall m t c a m', c_next ops m t c = Ok (a, m') -> m' = m) ->
    (forall m t c a m', c_score ops m t c = Ok (a, m') -> m' = m) ->
    (forall m t a m', c_extract ops m t = Ok (a, m') -> m' = m) ->
    comps_calm ops Inv ok b.
  Proof.
    intros A B C. constructor.
    - intros m s c t m' _ _ _ E u _. rewrite (A _ _ _ _ _ E). apply obs_refl.
    - intros m s c p m' _ _ E u _. rewrite (B _ _ _ _ _ E). apply obs_refl.
    - intros m s r m' _ _ E u _. rewrite (C _ _ _ _ E). apply obs_refl.
  Qed.
  Lemma bigram_calm Inv ok b : comps_calm (bigram_ops (F := F)) Inv ok b.
  Proof.
    apply still_calm; cbn [bigram_ops c_next c_score c_extract].
    - intros m0 t c a m' E. apply bind_Ok in E. destruct E as [r [_ E]]. injection E as _ <-. auto.
    - intros m0 t c a m' E. apply bind_Ok in E. destruct E as [r [_ E]]. destruct r; [injection E as _ <-; auto|discriminate].
    - intros m0 t a m' E. apply bind_Ok in E. destruct E as [[x y] [_ E]]. apply bind_Ok in E. destruct E as [e [_ E]]. injection E as _ <-. auto.
  Qed.
  Lemma ngram_calm Inv ok b : comps_calm (ngram_ops (F := F)) Inv ok b.
  Proof.
    apply still_calm; cbn [ngram_ops c_next c_score c_extract].
    - intros m0 t c a m' E. apply bind_Ok in E. destruct E as [r [_ E]]. injection E as _ <-. auto.
    - intros m0 t c a m' E. apply bind_Ok in E. destruct E as [r [_ E]]. injection E as _ <-. auto.
    - intros m0 t a m' E. apply bind_Ok in E. destruct E as [r [_ E]]. apply bind_Ok in E. destruct E as [p [_ E]]. injection E as _ <-. auto.
  Qed.

  (** ** PPM *)
  Definition ppm_like (m : ppm F) (s : Z) (m' : ppm F) (s' : Z) : Prop :=
    exists u K C, tracks m u K C /\ tracks m' u K C /\ PpmUpdate.same m m' /\ s' = s /\ PpmRefine.valid m s.
  Lemma ppm_query (m : ppm F) u K C k : tracks m u K C -> PpmRefine.valid m (call_state k) -> is_query k = true ->
    exists h m', getZ K (call_state k) = Some h /\
      ppm_call m k = Ok (ref_answer (p_syms m) (p_alpha m) (p_beta m) K C h k, m') /\ PpmUpdate.same m m' /\ tracks m' u K C.
  Proof.
    intros H V Q. pose proof (tracks_len _ _ _ _ H) as HL.
    assert (Hh : exists h, getZ K (call_state k) = Some h) by (apply getZ_ex; rewrite HL; exact V).
    destruct Hh as [h Hh]. destruct (tracks_step m u K C k h H Hh) as (m' & E & S & H'). exists h, m'.
    split; auto. split; auto. split; auto. destruct k; try discriminate; apply H'.
  Qed.
  Lemma valid_len (m m' : ppm F) u K C s : tracks m u K C -> tracks m' u K C -> PpmRefine.valid m s -> PpmRefine.valid m' s.
  Proof. intros H H'. unfold PpmRefine.valid. rewrite <- (tracks_len _ _ _ _ H), <- (tracks_len _ _ _ _ H'). auto. Qed.
  Lemma ppm_pair (m m' : ppm F) s k a m1 a' m1' : ppm_like m s m' s -> call_state k = s -> is_query k = true ->
    ppm_call m k = Ok (a, m1) -> ppm_call m' k = Ok (a', m1') ->
    a = a' /\ forall t, PpmRefine.valid m t -> ppm_like m1 t m1' t.
  Proof.
    intros (u & K & C & H & H' & S & _ & V) Ek Q E E'. subst s.
    destruct (ppm_query m u K C k H V Q) as (h & m2 & Hh & E2 & S2 & H2).
    destruct (ppm_query m' u K C k H' (valid_len _ _ _ _ _ _ H H' V) Q) as (h' & m2' & Hh' & E2' & S2' & H2').
    rewrite E in E2. injection E2 as -> ->. rewrite E' in E2'. injection E2' as -> ->.
    rewrite Hh in Hh'. injection Hh' as <-. pose proof (sm_syms _ _ S) as S1. pose proof (sm_alpha _ _ S) as S3. pose proof (sm_beta _ _ S) as S4.
    split; [congruence|]. intros t T. exists u, K, C. split; auto. split; auto. split.
    - destruct S2, S2', S. constructor; congruence.
    - split; auto. eapply valid_len; [exact H|exact H2|auto].
  Qed.
  Lemma ppm_like_obs (m : ppm F) s m' s' : ppm_like m s m' s' -> obs (ppm_ops (F := F)) m s m' s'.
  Proof.
    apply obs_bisim; clear m s m' s'.
    - intros m s m' s' H. assert (s' = s) by (destruct H as (u & K & C & _ & _ & _ & E & _); auto). subst s'. split.
      + intros c p q Hp Hq. apply ans_inv in Hp, Hq. destruct Hp as [n Hp], Hq as [n' Hq]. cbn [c_score ppm_ops] in *.
        destruct (ppm_pair m m' s (CScore s c) (AScore p) n (AScore q) n' H eq_refl eq_refl) as [E _]; [| |congruence];
          cbn [ppm_call]; [rewrite Hp|rewrite Hq]; reflexivity.
      + intros p q Hp Hq. apply ans_inv in Hp, Hq. destruct Hp as [n Hp], Hq as [n' Hq]. cbn [c_extract ppm_ops] in *.
        destruct (ppm_pair m m' s (CExtract s) (AExtract p) n (AExtract q) n' H eq_refl eq_refl) as [E _]; [| |congruence];
          cbn [ppm_call]; [rewrite Hp|rewrite Hq]; reflexivity.
    - intros m s m' s' c t m1 t' m1' H C0 E E'. assert (s' = s) by (destruct H as (u & K & C & _ & _ & _ & X & _); auto). subst s'.
      cbn [c_next ppm_ops] in *.
      destruct (ppm_pair m m' s (CNext s c) (ANext t) m1 (ANext t') m1' H eq_refl eq_refl) as [X L].
      { cbn [ppm_call]. rewrite E. reflexivity. }
      { cbn [ppm_call]. rewrite E'. reflexivity. }
      injection X as <-.
      assert (V : PpmRefine.valid m1 t).
      { destruct H as (u & K & C & H & _ & _ & _ & V).
        destruct (tracked_call_ok m (CNext s c)) as (a & m2 & E2 & _ & _ & _ & P); [exists u, K, C; exact H|exact V|].
        cbn [ppm_call] in E2. rewrite E in E2. cbn [bind] in E2. injection E2 as <- <-. auto. }
      destruct H as (u & K & C & H & H' & S & _ & V0).
      destruct (ppm_query m u K C (CNext s c) H V0 eq_refl) as (h & m2 & _ & E2 & _ & H2).
      cbn [ppm_call] in E2. rewrite E in E2. cbn [bind] in E2. injection E2 as _ <-.
      apply L. eapply valid_len; [exact H2|exact H|exact V].
  Qed.
  Lemma ppm_calm b : comps_calm (ppm_ops (F := F)) (fun _ => ppm_inv) PpmRefine.valid b.
  Proof.
    assert (G : forall (m : ppm F) k a m', ppm_inv m -> PpmRefine.valid m (call_state k) -> is_query k = true ->
      ppm_call m k = Ok (a, m') -> forall u, PpmRefine.valid m u -> obs (ppm_ops (F := F)) m u m' u).
    { intros m k a m' [(u & K & C & H) _] V Q E t T. apply ppm_like_obs.
      destruct (ppm_query m u K C k H V Q) as (h & m2 & _ & E2 & S & H2). rewrite E in E2. injection E2 as _ <-.
      exists u, K, C. auto. }
    constructor.
    - intros m s c t m' H V _ E. eapply (G m (CNext s c)); auto. cbn [ppm_call]. cbn [c_next ppm_ops] in E. rewrite E. reflexivity.
    - intros m s c t m' H V E. eapply (G m (CScore s c)); auto. cbn [ppm_call]. cbn [c_score ppm_ops] in E. rewrite E. reflexivity.
    - intros m s t m' H V E. eapply (G m (CExtract s)); auto. cbn [ppm_call]. cbn [c_extract ppm_ops] in E. rewrite E. reflexivity.
  Qed.

  (** ** Words *)
  Definition word_like (m : word F) (s : Z) (m' : word F) (s' : Z) : Prop :=
    exists ws pl, winv m ws /\ winv m' ws /\ wm_ng m = wm_ng m' /\ place_of m ws s pl /\ place_of m' ws s' pl.
  Lemma extract_like (m m' : word F) ws s s' pl : winv m ws -> winv m' ws -> wm_ng m = wm_ng m' ->
    place_of m ws s pl -> place_of m' ws s' pl ->
    exists r m1 m1', w_extract m s = Ok (r, m1) /\ w_extract m' s' = Ok (r, m1').
  Proof.
    intros W W' EN P P'. destruct pl as [s0 p|].
    - destruct (extract_place m ws s s0 p W P) as [ps [sy [m1 [E [_ [_ [_ [_ [_ [_ [_ [b [e [ends [chars [R [G L]]]]]]]]]]]]]]]]].
      destruct (extract_place m' ws s' s0 p W' P') as [ps' [sy' [m1' [E' [_ [_ [_ [_ [_ [_ [_ [b' [e' [ends' [chars' [R' [G' L']]]]]]]]]]]]]]]]].
      destruct (range_unique _ _ _ _ _ _ R R') as [-> ->].
      assert (X : ends = ends' /\ chars = chars') by (eapply (grp_fun (fun _ => @f0 F)); eauto).
      destruct X as [-> ->]. rewrite EN in L. rewrite <- L' in L. injection L as -> ->. rewrite E, E'. eauto.
    - simpl in P, P'. subst s s'.
      rewrite (oov_extract m ws (wi_base _ _ W)), (oov_extract m' ws (wi_base _ _ W')). eauto.
  Qed.
  Lemma word_like_obs (m : word F) s m' s' : word_like m s m' s' -> obs (word_ops (F := F)) m s m' s'.
  Proof.
    apply obs_bisim; clear m s m' s'.
    - intros m s m' s' (ws & pl & W & W' & N & P & P').
      destruct (extract_like m m' ws s s' pl W W' N P P') as (r & m1 & m1' & E & E').
      split; cbn [c_score c_extract word_ops].
      + intros c p q. unfold w_score. rewrite E, E'. cbn [bind].
        destruct (match r with Some sc => _ | None => _ end); cbn; congruence.
      + intros p q. rewrite E, E'. cbn [bind]. destruct r as [sc|]; cbn [bind ans]; [|congruence].
        destruct (plain_scores sc); cbn; congruence.
    - intros m s m' s' c t m1 t' m1' (ws & pl & W & W' & N & P & P') C0 E E'. cbn [c_next word_ops] in *.
      destruct (next_ok m ws (wi_base _ _ W) s pl c P ltac:(lia)) as (s2 & im' & pl2 & E2 & I & _ & T & P2).
      destruct (next_ok m' ws (wi_base _ _ W') s' pl c P' ltac:(lia)) as (s2' & im2 & pl2' & E2' & I' & _ & T' & P2').
      rewrite E in E2. injection E2 as -> ->. rewrite E' in E2'. injection E2' as -> ->.
      exists ws, pl2. split; [apply winv_im; auto|]. split; [apply winv_im; auto|]. split; [exact N|]. split; [exact P2|].
      assert (pl2 = pl2'); [|subst; exact P2'].
      apply (types_fun m ws pl c pl2 pl2' (wi_base _ _ W) T). unfold wvocab, w_fst in *. rewrite N. exact T'.
  Qed.
  Lemma word_calm b : comps_calm (word_ops (F := F)) (fun _ => word_inv) word_valid b.
  Proof.
    assert (X : forall (m : word F) s r m', word_inv m -> word_valid m s -> w_extract m s = Ok (r, m') ->
      forall u, word_valid m u -> obs (word_ops (F := F)) m u m' u).
    { intros m s r m' [[ws W] P] V E u U. pose proof (wi_base _ _ W) as B.
      destruct (stands_total _ _ _ (wb_im _ _ B) s V) as [pl Hp]. destruct (stands_total _ _ _ (wb_im _ _ B) u U) as [q Hq].
      destruct (extract_total m ws s pl W Hp) as (r2 & m2 & E2 & W2 & CO). rewrite E in E2. injection E2 as <- <-.
      apply word_like_obs. destruct (core_fields _ _ CO) as (F1 & _ & _ & _ & _ & _ & _ & _ & F9).
      exists ws, q. split; auto. split; auto. split; auto. split; auto.
      unfold w_num, w_fst in *. rewrite F1, F9. exact Hq. }
    constructor.
    - intros m s c t m' [[ws W] P] V C E u U. pose proof (wi_base _ _ W) as B.
      destruct (stands_total _ _ _ (wb_im _ _ B) s V) as [pl Hp]. destruct (stands_total _ _ _ (wb_im _ _ B) u U) as [q Hq].
      destruct (next_ok m ws B s pl c Hp ltac:(lia)) as (s2 & im' & pl2 & E2 & I & EX & T & P2).
      cbn [c_next word_ops] in E. rewrite E in E2. injection E2 as -> ->.
      apply word_like_obs. exists ws, q. split; auto. split; [apply winv_im; auto|]. split; [reflexivity|]. split; auto.
      change (w_num (set_im m im')) with (w_num m). cbn [wm_im set_im]. eapply stands_im; eauto.
    - intros m s c p m' I V E. cbn [c_score word_ops] in E. unfold w_score in E. apply bind_Ok in E. destruct E as [[v m1] [E1 E]].
      apply bind_Ok in E1. destruct E1 as [[r m2] [E0 E1]]. injection E1 as _ <-.
      assert (m' = m2) by (destruct v; [congruence|discriminate]). subst m'. eapply X; eauto.
    - intros m s r m' I V E. cbn [c_extract word_ops] in E. apply bind_Ok in E. destruct E as [[v m1] [E1 E]].
      assert (m' = m1). { destruct v as [sc|]; [|congruence]. apply bind_Ok in E. destruct E as [p [_ E]]. congruence. }
      subst m'. eapply X; eauto.
  Qed.

  (** ** Any of the four *)
  Lemma walk_map {M} (ops : comp_ops F M) (mk : M -> any_model F)
    (EN : forall m s c, c_next any_ops (mk m) s c = let* (t, m') := c_next ops m s c in Ok (t, mk m')) w : forall m s t n,
    c_walk any_ops (mk m) s w = Ok (t, n) -> exists n', n = mk n' /\ c_walk ops m s w = Ok (t, n').
  Proof.
    induction w as [|c w IH]; intros m s t n; cbn [c_walk].
    - intros [= <- <-]. eauto.
    - rewrite EN. destruct (c_next ops m s c) as [[t1 m1]| | |]; cbn [bind]; try discriminate. apply IH.
  Qed.
  Lemma obs_map {M} (ops : comp_ops F M) (mk : M -> any_model F)
    (EN : forall m s c, c_next any_ops (mk m) s c = let* (t, m') := c_next ops m s c in Ok (t, mk m'))
    (ES : forall m s c, c_score any_ops (mk m) s c = let* (t, m') := c_score ops m s c in Ok (t, mk m'))
    (EX : forall m s, c_extract any_ops (mk m) s = let* (t, m') := c_extract ops m s in Ok (t, mk m')) m s m' s' :
    obs ops m s m' s' -> obs any_ops (mk m) s (mk m') s'.
  Proof.
    intros H w t n t' n' C E E'. apply (walk_map ops mk EN) in E, E'. destruct E as (n1 & -> & E), E' as (n2 & -> & E').
    destruct (H w _ _ _ _ C E E') as [P Q]. split.
    - intros c p q. rewrite !ES. intros Hp Hq. apply (P c p q).
      + destruct (c_score ops n1 t c) as [[? ?]| | |]; cbn in *; congruence.
      + destruct (c_score ops n2 t' c) as [[? ?]| | |]; cbn in *; congruence.
    - intros p q. rewrite !EX. intros Hp Hq. apply (Q p q).
      + destruct (c_extract ops n1 t) as [[? ?]| | |]; cbn in *; congruence.
      + destruct (c_extract ops n2 t') as [[? ?]| | |]; cbn in *; congruence.
  Qed.

  Lemma any_calm b : comps_calm (any_ops (F := F)) any_inv any_valid b.
  Proof.
    constructor.
    - intros [m|m|m|m] s c t m' I V C E u U; cbn [any_ops c_next] in E; apply bind_Ok in E; destruct E as [[t1 m1] [E1 E]]; injection E as <- <-;
        (eapply obs_map; [reflexivity..|]).
      all: first [ apply (ca_next _ _ _ _ (bigram_calm bg_room (fun _ _ => True) b)) with (2 := V) (4 := E1); auto
                 | apply (ca_next _ _ _ _ (ngram_calm (fun _ => ng_inv) valid_state b)) with (2 := V) (4 := E1); auto
                 | apply (ca_next _ _ _ _ (ppm_calm b)) with (2 := V) (4 := E1); auto
                 | apply (ca_next _ _ _ _ (word_calm b)) with (2 := V) (4 := E1); auto ].
    - intros [m|m|m|m] s c t m' I V E u U; cbn [any_ops c_score] in E; apply bind_Ok in E; destruct E as [[t1 m1] [E1 E]]; injection E as <- <-;
        (eapply obs_map; [reflexivity..|]).
      all: first [ apply (ca_score _ _ _ _ (bigram_calm bg_room (fun _ _ => True) b)) with (2 := V) (3 := E1); auto
                 | apply (ca_score _ _ _ _ (ngram_calm (fun _ => ng_inv) valid_state b)) with (2 := V) (3 := E1); auto
                 | apply (ca_score _ _ _ _ (ppm_calm b)) with (2 := V) (3 := E1); auto
                 | apply (ca_score _ _ _ _ (word_calm b)) with (2 := V) (3 := E1); auto ].
    - intros [m|m|m|m] s t m' I V E u U; cbn [any_ops c_extract] in E; apply bind_Ok in E; destruct E as [[t1 m1] [E1 E]]; injection E as <- <-;
        (eapply obs_map; [reflexivity..|]).
      all: first [ apply (ca_extract _ _ _ _ (bigram_calm bg_room (fun _ _ => True) b)) with (2 := V) (3 := E1); auto
                 | apply (ca_extract _ _ _ _ (ngram_calm (fun _ => ng_inv) valid_state b)) with (2 := V) (3 := E1); auto
                 | apply (ca_extract _ _ _ _ (ppm_calm b)) with (2 := V) (3 := E1); auto
                 | apply (ca_extract _ _ _ _ (word_calm b)) with (2 := V) (3 := E1); auto ].
  Qed.
End Calm.
