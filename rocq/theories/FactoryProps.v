(** Properties C19 (the factory) and C59 (the server object of the library). *)
From Coq Require Import String Field.
From Verif Require Import Base Field LmModel TextModel BigramModel HubModel BigramComp PpmModel
  PpmReadModel NgramModel WordModel FactoryModel.
From Verif Require Import BigramProofs BigramReadProofs HubSpec HubProofs HubProps2 HubProps3.
Local Open Scope Z_scope.
Close Scope string_scope.
Local Notation length := List.length.

(** * C19 *)

(** What it means for a configuration to load: an object of the class its type names, as that
    class reads the configured storage. *)
Inductive loads {F : ofield} (ext : externals F) (d : disk F) (c : model_config F) : any_model F -> Prop :=
| loads_bigram m : mc_type c = 0 ->
    bigram_read (path d f_bytes (ms_vocabulary_file (mc_storage c)))
                (path d f_bytes (ms_model_file (mc_storage c))) = Ok m ->
    loads ext d c (Bg m)
| loads_ngram m : mc_type c = 1 ->
    ng_read (e_accept ext) (fst_storage d (mc_storage c)) = Ok m ->
    loads ext d c (Ng m)
| loads_ppm m : mc_type c = 2 -> read_ppm ext d (mc_storage c) = Ok (Pp m) ->
    loads ext d c (Pp m)
| loads_word m : mc_type c = 3 -> read_word ext d (mc_storage c) = Ok (Wd m) ->
    loads ext d c (Wd m).

Lemma make_model_loads {F} (ext : externals F) d c m :
  make_model_config ext d c = Ok m <-> loads ext d c m.
Proof.
  unfold make_model_config, make_model. split.
  - destruct (Z.eqb_spec (mc_type c) SIMPLE_CHAR_BIGRAM) as [T|_].
    { intro E. apply bind_Ok in E. destruct E as [x [E X]]. injection X as <-. constructor; auto. }
    destruct (Z.eqb_spec (mc_type c) CHAR_NGRAM_FST) as [T|_].
    { intro E. apply bind_Ok in E. destruct E as [x [E X]]. injection X as <-. constructor; auto. }
    destruct (Z.eqb_spec (mc_type c) PPM_AS_FST) as [T|_].
    { intro E. pose proof E as E0. apply bind_Ok in E. destruct E as [x [E X]]. injection X as <-. constructor; auto. }
    destruct (Z.eqb_spec (mc_type c) WORD_NGRAM_FST) as [T|_]; [|discriminate].
    intro E. pose proof E as E0. apply bind_Ok in E. destruct E as [x [E X]]. injection X as <-. constructor; auto.
  - intros [x T E|x T E|x T E|x T E]; rewrite T; cbn [Z.eqb Pos.eqb SIMPLE_CHAR_BIGRAM CHAR_NGRAM_FST PPM_AS_FST WORD_NGRAM_FST];
      unfold read_bigram, read_ngram; rewrite ?E; auto.
Qed.

Lemma make_models_ok {F} (ext : externals F) d : forall l ms,
  make_models ext d l = Ok ms <-> Forall2 (loads ext d) l ms.
Proof.
  induction l as [|c l IH]; intros ms; cbn [make_models].
  - split; [intro E; injection E as <-; constructor|intro H; inversion H; auto].
  - split.
    + intro E. apply bind_Ok in E. destruct E as [m [E1 E]]. apply bind_Ok in E. destruct E as [ms' [E2 E]].
      injection E as <-. constructor; [apply make_model_loads|apply IH]; auto.
    + intro H. inversion H as [|? m ? ms' L R]; subst. apply make_model_loads in L. rewrite L. cbn [bind].
      apply IH in R. rewrite R. reflexivity.
Qed.

(** A hub made from a non-empty list of configurations has exactly the configured models, in
    order. *)
Theorem C19_models : forall (F : ofield) (ext : externals F) d c h,
  mh_models c <> [] -> make_model_hub ext d c = Ok h ->
  Forall2 (loads ext d) (mh_models c) (h_lms h).
Proof.
  intros F ext d c h N E. unfold make_model_hub in E.
  destruct (mh_models c) as [|c1 l] eqn:El; [congruence|].
  apply bind_Ok in E. destruct E as [ms [E1 E2]].
  apply initialize_ok in E2. destruct E2 as (_ & _ & -> & _).
  apply make_models_ok. exact E1.
Qed.
Print Assumptions C19_models.

(** Where each model comes from, in terms of the files on disk.  A path of the configuration names nothing (it is
    empty), a file that is not there, or a file, of which a reader takes its part. *)
Inductive named {F : ofield} {A} (d : disk F) (read : file F -> option A) (p : string) : option (option A) -> Prop :=
| not_named : p = ""%string -> named d read p None
| not_there : p <> ""%string -> d p = None -> named d read p (Some None)
| there f : p <> ""%string -> d p = Some f -> named d read p (Some (read f)).
Inductive made_from {F : ofield} (ext : externals F) (d : disk F) (c : model_config F) : any_model F -> Prop :=
| from_bigram v f m : mc_type c = 0 ->
    named d (fun x => Some (f_bytes x)) (ms_vocabulary_file (mc_storage c)) v ->
    named d (fun x => Some (f_bytes x)) (ms_model_file (mc_storage c)) f ->
    bigram_read v f = Ok m -> made_from ext d c (Bg m)
| from_ngram v f m : mc_type c = 1 ->
    named d f_symbols (ms_vocabulary_file (mc_storage c)) v -> named d f_fst (ms_model_file (mc_storage c)) f ->
    ng_read (e_accept ext) (Storage f v) = Ok m -> made_from ext d c (Ng m)
| from_ppm_nothing v m : mc_type c = 2 -> ms_model_file (mc_storage c) = ""%string ->
    named d (fun x => Some (f_lines x)) (ms_vocabulary_file (mc_storage c)) v ->
    ppm_read (e_counter ext) (ms_ppm_options (mc_storage c)) NoModel v = Ok m -> made_from ext d c (Pp m)
| from_ppm_fst v f m : mc_type c = 2 -> ms_model_is_fst (mc_storage c) = true ->
    named d f_ppm (ms_model_file (mc_storage c)) (Some f) ->
    named d (fun x => Some (f_lines x)) (ms_vocabulary_file (mc_storage c)) v ->
    ppm_read (e_counter ext) (ms_ppm_options (mc_storage c)) (FstModel f) v = Ok m -> made_from ext d c (Pp m)
| from_ppm_text v f m : mc_type c = 2 -> ms_model_is_fst (mc_storage c) = false ->
    named d (fun x => Some (f_lines x)) (ms_model_file (mc_storage c)) (Some f) ->
    named d (fun x => Some (f_lines x)) (ms_vocabulary_file (mc_storage c)) v ->
    ppm_read (e_counter ext) (ms_ppm_options (mc_storage c)) (PpmReadModel.TextModel f) v = Ok m -> made_from ext d c (Pp m)
| from_word v f m order : mc_type c = 3 ->
    named d f_symbols (ms_vocabulary_file (mc_storage c)) v -> named d f_fst (ms_model_file (mc_storage c)) f ->
    (forall a, f = Some (Some a) -> order = e_max_order ext a) -> (~ (exists a, f = Some (Some a)) -> order = 0) ->
    w_read (e_accept ext) order (ms_word_cache (mc_storage c)) (Storage f v) = Ok m -> made_from ext d c (Wd m).

Lemma path_named {F : ofield} {A} (d : disk F) (read : file F -> A) p x : path d read p = x <-> named d (fun f => Some (read f)) p x.
Proof.
  unfold path. destruct (String.eqb_spec p "") as [E|E].
  - split; [intros <-; constructor; auto|]. inversion 1; congruence.
  - split; [intros <-; destruct (d p) eqn:Ep; [apply (there d (fun f => Some (read f))); auto|constructor; auto]|].
    inversion 1 as [|? Ep|f ? Ep]; subst; try congruence; rewrite Ep; reflexivity.
Qed.
Lemma path'_named {F : ofield} {A} (d : disk F) (read : file F -> option A) p x : path' d read p = x <-> named d read p x.
Proof.
  unfold path'. destruct (String.eqb_spec p "") as [E|E].
  - split; [intros <-; constructor; auto|]. inversion 1; congruence.
  - split; [intros <-; destruct (d p) eqn:Ep; [apply there; auto|constructor; auto]|].
    inversion 1 as [|? Ep|f ? Ep]; subst; try congruence; rewrite Ep; reflexivity.
Qed.

(** Each configured model is made from the files its configuration names: the model file and the vocabulary file,
    each in its role, and with its options. *)
Theorem C19_files : forall (F : ofield) (ext : externals F) d c m,
  make_model_config ext d c = Ok m <-> made_from ext d c m.
Proof.
  intros F ext d c m. rewrite make_model_loads. split.
  - intros [x T E|x T E|x T E|x T E].
    + eapply from_bigram; [auto|apply path_named; reflexivity|apply path_named; reflexivity|exact E].
    + eapply from_ngram; [auto|apply path'_named; reflexivity|apply path'_named; reflexivity|exact E].
    + unfold read_ppm in E. apply bind_Ok in E. destruct E as [y [E X]]. injection X as ->.
      destruct (String.eqb_spec (ms_model_file (mc_storage c)) "") as [Z|Z].
      { eapply from_ppm_nothing; [auto|auto|apply path_named; reflexivity|exact E]. }
      destruct (ms_model_is_fst (mc_storage c)) eqn:Ef.
      * eapply from_ppm_fst; [auto|auto| |apply path_named; reflexivity|exact E].
        apply path'_named. unfold path'. apply String.eqb_neq in Z. rewrite Z. reflexivity.
      * eapply from_ppm_text; [auto|auto| |apply path_named; reflexivity|exact E].
        apply path_named. unfold path. apply String.eqb_neq in Z. rewrite Z. reflexivity.
    + unfold read_word in E. apply bind_Ok in E. destruct E as [y [E X]]. injection X as ->.
      eapply from_word; [auto|apply path'_named; reflexivity|apply path'_named; reflexivity| | |exact E].
      * intros a ->. reflexivity.
      * intros Nf. destruct (path' d f_fst (ms_model_file (mc_storage c))) as [[a|]|]; auto. exfalso. eauto.
  - intros [v f x T Nv Nf E|v f x T Nv Nf E|v x T Z Nv E|v f x T Ef Nf Nv E|v f x T Ef Nf Nv E|v f x o T Nv Nf O1 O2 E].
    + apply loads_bigram; auto. apply path_named in Nv, Nf. rewrite Nv, Nf. exact E.
    + apply loads_ngram; auto. apply path'_named in Nv, Nf. unfold fst_storage. rewrite Nv, Nf. exact E.
    + apply loads_ppm; auto. apply path_named in Nv. unfold read_ppm. rewrite Z, Nv. cbn [String.eqb]. rewrite E. reflexivity.
    + apply loads_ppm; auto. apply path_named in Nv. apply path'_named in Nf. unfold read_ppm. unfold path' in Nf.
      destruct (String.eqb (ms_model_file (mc_storage c)) ""); [discriminate|]. injection Nf as Nf. rewrite Ef, Nf, Nv, E. reflexivity.
    + apply loads_ppm; auto. apply path_named in Nv, Nf. unfold read_ppm. unfold path in Nf at 1.
      destruct (String.eqb (ms_model_file (mc_storage c)) ""); [discriminate|]. injection Nf as Nf. rewrite Ef, Nf, Nv, E. reflexivity.
    + apply loads_word; auto. apply path'_named in Nv, Nf. unfold read_word, fst_storage. rewrite Nv, Nf.
      assert (Ho : match f with Some (Some a) => e_max_order ext a | _ => 0 end = o).
      { destruct f as [[a|]|]; [symmetry; apply O1; auto|symmetry; apply O2; intros [a H]; discriminate..]. }
      rewrite Ho, E. reflexivity.
Qed.
Print Assumptions C19_files.

(** Without configurations the hub has one model: the bigram model over end of text, space and
    a..z in which, in every state, all symbols are equally likely. *)
Theorem C19_default : forall (F : ofield) (ext : externals F) d c,
  mh_models c = [] -> mh_mixture c <> MixUnknown ->
  exists h m, make_model_hub ext d c = Ok h /\ h_lms h = [Bg m] /\
    forall s, c_extract (any_ops (F := F)) (Bg m) s =
      Ok (Some (LmScores (ofZ 28)
            (map (fun ch => ([ch], fdiv (ofZ 1) (ofZ 28))) (0 :: 32 :: map Z.of_nat (seq 97 26)))), Bg m).
Proof.
  intros F ext d c N K.
  destruct (bigram_read None None) as [m| | |] eqn:E;
    try (exfalso; revert E; vm_compute; discriminate).
  destruct (C17_initialize_total F _ any_ops [Bg m] (hub_config_of c)) as [[h Eh]|[A _]];
    [|exfalso; apply K; exact A].
  exists h, m. split; [|split].
  - unfold make_model_hub. rewrite N. unfold make_model_config, make_model, default_model_config.
    cbn [mc_type mc_storage Z.eqb SIMPLE_CHAR_BIGRAM]. unfold read_bigram, default_storage, path.
    cbn [ms_vocabulary_file ms_model_file String.eqb]. rewrite E. cbn [bind]. exact Eh.
  - apply initialize_ok in Eh. destruct Eh as (_ & _ & -> & _). reflexivity.
  - intro s. destruct (read_loaded None None m E) as (v & C & R & L).
    cbn [c_extract any_ops]. rewrite (bg_extract m v C s R). cbn [via bind].
    cbn in L. destruct L as [-> L].
    assert (Z28 : zsum (map (C (state_symbol default_vocab s)) default_vocab) = 28).
    { rewrite (map_ext _ (fun _ => 1)) by (intro; apply L). reflexivity. }
    unfold bg_score. rewrite Z28. do 3 f_equal. f_equal.
    change (0 :: 32 :: map Z.of_nat (seq 97 26)) with default_vocab.
    apply map_ext. intro ch. rewrite L. reflexivity.
Qed.
Print Assumptions C19_default.

(** A configuration that fails to load, any of them and whatever the others, makes the hub fail;
    and nothing else does, but an unknown mixture type. *)
Theorem C19_errors : forall (F : ofield) (ext : externals F) d c,
  make_model_hub ext d c = Err <->
  (exists pre mc post ms, mh_models c = pre ++ mc :: post /\ Forall2 (loads ext d) pre ms /\
      make_model_config ext d mc = Err) \/
  (mh_mixture c = MixUnknown /\
   (mh_models c = [] \/ exists ms, Forall2 (loads ext d) (mh_models c) ms)).
Proof.
  intros F ext d c.
  assert (Hi : forall ms, initialize_models (any_ops (F := F)) ms (hub_config_of c) = Err <-> mh_mixture c = MixUnknown).
  { intro ms. destruct (C17_initialize_total F _ any_ops ms (hub_config_of c)) as [[h0 E]|[A E]]; split; auto; intro H.
    - congruence.
    - apply initialize_ok in E. destruct E as (_ & _ & _ & _ & _ & _ & E). cbn [hub_config_of cfg_type] in E.
      rewrite H in E. destruct E. }
  assert (Hm : forall l, make_models ext d l = Err <->
     exists pre mc post ms, l = pre ++ mc :: post /\ Forall2 (loads ext d) pre ms /\ make_model_config ext d mc = Err).
  { induction l as [|a l IH]; cbn [make_models].
    - split; [discriminate|]. intros (pre & mc & post & ms & E & _). destruct pre; discriminate.
    - destruct (make_model_config ext d a) as [m| | |] eqn:Ea; cbn [bind].
      + split.
        * destruct (make_models ext d l) as [ms| | |] eqn:El; try discriminate. intros _.
          destruct (proj1 IH eq_refl) as (pre & mc & post & ms & E & R & X).
          exists (a :: pre), mc, post, (m :: ms). split; [rewrite E; reflexivity|].
          split; [constructor; [apply make_model_loads|]; auto|exact X].
        * intros (pre & mc & post & ms & E & R & X). destruct pre as [|p pre].
          { cbn in E. injection E as -> _. congruence. }
          cbn in E. injection E as <- E. inversion R; subst.
          rewrite (proj2 IH); [reflexivity|]. exists pre, mc, post, l'. auto.
      + split; auto. intros _. exists [], a, l, []. repeat split; auto.
      + split; [discriminate|]. intros (pre & mc & post & ms & E & R & X). destruct pre as [|p pre].
        { cbn in E. injection E as -> _. congruence. }
        cbn in E. injection E as <- E. inversion R; subst. apply make_model_loads in H1. congruence.
      + split; [discriminate|]. intros (pre & mc & post & ms & E & R & X). destruct pre as [|p pre].
        { cbn in E. injection E as -> _. congruence. }
        cbn in E. injection E as <- E. inversion R; subst. apply make_model_loads in H1. congruence. }
  unfold make_model_hub. destruct (mh_models c) as [|c1 l] eqn:El.
  - destruct (bigram_read None None) as [m| | |] eqn:E;
      try (exfalso; revert E; vm_compute; discriminate).
    assert (Ed : make_model_config ext d default_model_config = Ok (Bg m)).
    { unfold make_model_config, make_model, default_model_config.
      cbn [mc_type mc_storage Z.eqb SIMPLE_CHAR_BIGRAM]. unfold read_bigram, default_storage, path.
      cbn [ms_vocabulary_file ms_model_file String.eqb]. rewrite E. reflexivity. }
    rewrite Ed. cbn [bind]. rewrite Hi. split; [auto|].
    intros [(pre & mc & post & ms & X & _)|[X _]]; [destruct pre; discriminate|exact X].
  - destruct (make_models ext d (c1 :: l)) as [ms| | |] eqn:Em; cbn [bind].
    + rewrite Hi. split.
      * intro X. right. split; auto. right. exists ms. apply make_models_ok. exact Em.
      * intros [X|[X _]]; auto. apply Hm in X. congruence.
    + split; auto. intros _. left. apply Hm. exact Em.
    + split; [discriminate|]. intros [X|[_ [X|[ms X]]]]; [apply Hm in X; congruence|discriminate|].
      apply make_models_ok in X. congruence.
    + split; [discriminate|]. intros [X|[_ [X|[ms X]]]]; [apply Hm in X; congruence|discriminate|].
      apply make_models_ok in X. congruence.
Qed.
Print Assumptions C19_errors.

(** Unless reading a model itself runs into undefined behaviour or a failed CHECK, the factory
    ends with a hub or an error; and each model has its weight: with interpolation of at least two
    models there are exactly as many mixture weights as models. *)
Theorem C19_outcome : forall (F : ofield) (ext : externals F) d c,
  (forall mc, In mc (mh_models c) ->
     (exists m, loads ext d mc m) \/ make_model_config ext d mc = Err) ->
  (exists h, make_model_hub ext d c = Ok h /\
     length (h_weights h) =
       match mh_mixture c with
       | MixInterpolation => Nat.max 1 (length (mh_models c))
       | _ => 1%nat
       end) \/
  make_model_hub ext d c = Err.
Proof.
  intros F ext d c H.
  assert (X : forall ms, mh_mixture c <> MixUnknown ->
     exists h, initialize_models any_ops ms (hub_config_of c) = Ok h /\
       length (h_weights h) = match mh_mixture c with
       | MixInterpolation => Nat.max 1 (length (mh_models c)) | _ => 1%nat end).
  { intros ms K. destruct (C17_initialize_total F _ any_ops ms (hub_config_of c)) as [[h Eh]|[A _]];
      [|exfalso; apply K; exact A].
    exists h. split; auto. apply initialize_ok in Eh. destruct Eh as (_ & _ & _ & _ & _ & _ & W).
    cbn [hub_config_of cfg_type cfg_weights] in W. destruct (mh_mixture c); [destruct W as [-> _]; auto| |contradiction].
    rewrite map_length in W. destruct (Nat.ltb_spec (length (mh_models c)) 2); destruct W as [-> _].
    - cbn [length]. lia.
    - rewrite !map_length. lia. }
  assert (D : mh_mixture c = MixUnknown \/ mh_mixture c <> MixUnknown) by (destruct (mh_mixture c); auto; right; discriminate).
  destruct (mh_models c) as [|c1 l] eqn:El.
  - destruct D as [D|D]; [right; apply C19_errors; right; auto|left].
    destruct (C19_default F ext d c El D) as (h & m & E & Em & _).
    exists h. split; auto. unfold make_model_hub in E. rewrite El in E. apply bind_Ok in E. destruct E as [ms [_ E]].
    destruct (X ms D) as (h' & E' & W). congruence.
  - assert (N : mh_models c <> []) by (rewrite El; discriminate).
    rewrite <- El in *. clear El.
    assert (L : (exists ms, Forall2 (loads ext d) (mh_models c) ms) \/
      exists pre mc post ms, mh_models c = pre ++ mc :: post /\ Forall2 (loads ext d) pre ms /\ make_model_config ext d mc = Err).
    { clear -H. induction (mh_models c) as [|a t IH]; [left; exists []; constructor|].
      destruct (H a (or_introl eq_refl)) as [[m Lm]|E].
      - destruct IH as [[ms IH]|(pre & mc & post & ms & E & R & Xe)].
        + intros mc Hin. apply H. right. exact Hin.
        + left. exists (m :: ms). constructor; auto.
        + right. exists (a :: pre), mc, post, (m :: ms). split; [rewrite E; reflexivity|]. split; [constructor; auto|auto].
      - right. exists [], a, t, []. repeat split; auto. }
    destruct L as [[ms L]|L].
    + destruct D as [D|D]; [right; apply C19_errors; right; eauto|].
      left. destruct (X ms D) as (h & E & W). exists h. split; auto.
      unfold make_model_hub. apply make_models_ok in L.
      destruct (mh_models c) as [|c2 l2]; [congruence|]. rewrite L. exact E.
    + right. apply C19_errors. left. exact L.
Qed.
Print Assumptions C19_outcome.

(** The settings of the hub are those of the configuration: at least two interpolated models with
    positive weights are mixed, forever, in the proportion of their configured weights, and the
    hub has room for the configured number of states (the default below 10). *)
Theorem C19_settings : forall (F : ofield) (ext : externals F) d c h0,
  make_model_hub ext d c = Ok h0 ->
  h_max h0 = (if mh_max_states c <? 10 then kMaxHubStates else mh_max_states c) /\
  (mh_mixture c = MixInterpolation -> (2 <= length (mh_models c))%nat ->
   (forall mc, In mc (mh_models c) -> flt f0 (mc_weight mc) = true) ->
   h_bayes h0 = Z.to_nat (mh_bayes c) /\
   forall l h, hub_run any_ops h0 l = Ok h ->
   exists ws, h_weights h = map Val ws /\ length ws = length (mh_models c) /\ fsum ws = f1 /\
     forall i j wi wj ci cj, nth_error ws i = Some wi -> nth_error ws j = Some wj ->
       nth_error (mh_models c) i = Some ci -> nth_error (mh_models c) j = Some cj ->
       fmul wi (mc_weight cj) = fmul wj (mc_weight ci)).
Proof.
  intros F ext d c h0 E. unfold make_model_hub in E. apply bind_Ok in E. destruct E as [ms [E1 E2]].
  pose proof (initialize_ok _ _ _ _ E2) as (_ & _ & _ & _ & E3 & _ & E4). split; [exact E3|].
  intros T L P.
  assert (Tc : cfg_type (hub_config_of c) = MixInterpolation) by exact T.
  assert (Lc : (2 <= length (cfg_weights (hub_config_of c)))%nat) by (cbn [cfg_weights hub_config_of]; rewrite map_length; exact L).
  split.
  - rewrite Tc in E4. destruct (Nat.ltb_spec (length (cfg_weights (hub_config_of c))) 2); [lia|].
    apply (proj2 E4).
  - intros l h R.
    destruct (C14_static_weights F _ any_ops ms (hub_config_of c) h0 l h E2 Tc Lc) as (ws & W1 & W2 & _ & W3 & W4 & _); auto.
    + intros x Hx. cbn [cfg_weights hub_config_of] in Hx. apply in_map_iff in Hx. destruct Hx as [mc [<- I]]. auto.
    + exists ws. split; auto. split; [|split; auto].
      * rewrite W2. cbn [cfg_weights hub_config_of]. apply map_length.
      * intros i j wi wj ci cj A B C D. eapply W4; eauto; cbn [cfg_weights hub_config_of]; rewrite nth_error_map, ?C, ?D; reflexivity.
Qed.
Print Assumptions C19_settings.

(** The hypotheses are met: a disk with a vocabulary and counts for a bigram model, and a hub of
    that model and the default one; and a configuration with an unknown type. *)
Definition ex_ext : externals Qc_field := Externals (fun _ _ => true) (fun _ => 1) (fun _ _ => Err).
Definition ex_disk : disk Qc_field := fun p =>
  if String.eqb p "v" then Some (File (bstr "0
97
") [] None None None) else if String.eqb p "c" then Some (File (bstr "1 2
3 4
") [] None None None) else None.
Definition ex_storage (mf vf : string) : model_storage Qc_field :=
  ModelStorage mf vf (PpmOptions 0 f0 f0 false 0) false 0.
Definition ex_hub_config (t : Z) : model_hub_config Qc_field :=
  ModelHubConfig [ModelConfig 0 (ex_storage "c" "v") f1; ModelConfig t (ex_storage "" "") f1]
    MixInterpolation 0 0.
Example C19_example_two :
  (let* h := make_model_hub ex_ext ex_disk (ex_hub_config 0) in
   Ok (map (fun m => match m with Bg b => (utf8_indices b, bigram_counts b) | _ => ([], []) end) (firstn 1 (h_lms h)),
       length (h_lms h), length (h_weights h)))
  = Ok ([([0; 97], [[1; 2]; [3; 4]])], 2%nat, 2%nat).
Proof. vmr. Qed.
Example C19_example_unknown_type : make_model_hub ex_ext ex_disk (ex_hub_config 7) = Err.
Proof. vmr. Qed.
Example C19_example_no_model : make_model_hub ex_ext ex_disk (ex_hub_config 1) = Err.
Proof. vmr. Qed.

(** * C59 *)

(** The calls after the last Shutdown. *)
Fixpoint since_shutdown {F} (l : list (@helper_call F)) : list (@helper_call F) :=
  match l with
  | [] => []
  | c :: t => if existsb (fun c => match c with CallShutdown => true | _ => false end) t
              then since_shutdown t
              else match c with CallShutdown => t | _ => c :: t end
  end.

Section C59.
  Context {F : ofield}.
  Variable ext : externals F.
  Implicit Types l : list (@helper_call F).

  (** Some Init since the last Shutdown could make the hub. *)
  Definition server_exists l : Prop :=
    exists d c starts h, In (CallInit d c starts) (since_shutdown l) /\ make_model_hub ext d c = Ok h.

  Lemma since_snoc l c : since_shutdown (l ++ [c]) =
    match c with CallShutdown => [] | _ => since_shutdown l ++ [c] end.
  Proof.
    induction l as [|a l IH]; [destruct c; reflexivity|].
    cbn [app since_shutdown]. rewrite existsb_app. cbn [existsb].
    destruct c as [d cf st| |]; cbn [orb]; rewrite ?orb_false_r, ?orb_true_r; try exact IH.
    - destruct (existsb _ l); [exact IH|]. destruct a; reflexivity.
    - destruct (existsb _ l); [exact IH|]. destruct a; reflexivity.
  Qed.

  Lemma calls_snoc s l c : helper_calls ext s (l ++ [c]) =
    let* (bs, s1) := helper_calls ext s l in
    let* (b, s2) := helper_step ext s1 c in Ok (bs ++ [b], s2).
  Proof.
    revert s. induction l as [|a l IH]; intro s; cbn [app helper_calls].
    - cbn [bind]. destruct (helper_step ext s c) as [[b s2]| | |]; reflexivity.
    - destruct (helper_step ext s a) as [[b s1]| | |]; cbn [bind]; auto. rewrite IH.
      destruct (helper_calls ext s1 l) as [[bs s2]| | |]; cbn [bind]; auto.
      destruct (helper_step ext s2 c) as [[b' s3]| | |]; reflexivity.
  Qed.

  Lemma calls_state l : forall bs s, helper_calls ext Idle l = Ok (bs, s) ->
    match s with
    | Idle => ~ server_exists l
    | Active st h run => server_exists l
    end.
  Proof.
    induction l as [|c l IH] using rev_ind; intros bs s E.
    - cbn in E. injection E as _ <-. intros (d & c & st & h & [] & _).
    - rewrite calls_snoc in E. apply bind_Ok in E. destruct E as [[bs1 s1] [E1 E]].
      apply bind_Ok in E. destruct E as [[b s2] [E2 E]]. injection E as _ <-.
      specialize (IH _ _ E1). destruct c as [d c st| |]; cbn [helper_step] in E2.
      + unfold helper_init in E2. destruct s1 as [|a h r].
        * destruct (make_model_hub ext d c) as [h| | |] eqn:Eh; try discriminate.
          { injection E2 as _ <-. exists d, c, st, h. rewrite since_snoc. split; auto. apply in_or_app. right. left. reflexivity. }
          injection E2 as _ <-. intros (d' & c' & st' & h' & I & X). rewrite since_snoc in I.
          apply in_app_or in I. destruct I as [I|[I|[]]].
          { apply IH. exists d', c', st', h'. auto. }
          injection I as -> -> ->. congruence.
        * injection E2 as _ <-. destruct IH as (d' & c' & st' & h' & I & X).
          exists d', c', st', h'. rewrite since_snoc. split; auto. apply in_or_app. auto.
      + unfold helper_run in E2. assert (K : server_exists (l ++ [CallRun]) <-> server_exists l).
        { unfold server_exists. split; intros (d' & c' & st' & h' & I & X); exists d', c', st', h'; split; auto;
            rewrite since_snoc in *; [apply in_app_or in I; destruct I as [I|[I|[]]]; auto; discriminate|apply in_or_app; auto]. }
        destruct s1 as [|[] h []]; try discriminate; injection E2 as _ <-; rewrite K; auto.
      + cbn in E2. injection E2 as _ <-. intros (d' & c' & st' & h' & I & X). rewrite since_snoc in I. destruct I.
  Qed.

  (** Init succeeds exactly when there is no server since the last Shutdown, the hub can be made
      from the configuration, and gRPC starts; an Init that could not make its hub is as if it had
      not been called. *)
  Theorem C59_init : forall l d c starts bs b s,
    helper_calls ext Idle (l ++ [CallInit d c starts]) = Ok (bs ++ [b], s) ->
    (b = true <-> ~ server_exists l /\ (exists h, make_model_hub ext d c = Ok h) /\ starts = true) /\
    (make_model_hub ext d c = Err -> helper_calls ext Idle l = Ok (bs, s)).
  Proof.
    intros l d c starts bs b s E. rewrite calls_snoc in E. apply bind_Ok in E. destruct E as [[bs1 s1] [E1 E]].
    apply bind_Ok in E. destruct E as [[b2 s2] [E2 E]]. injection E as Ebs <-. apply app_inj_tail in Ebs. destruct Ebs as [-> ->].
    pose proof (calls_state _ _ _ E1) as St. cbn [helper_step] in E2. unfold helper_init in E2.
    destruct s1 as [|a h r].
    - destruct (make_model_hub ext d c) as [h| | |] eqn:Eh; try discriminate; injection E2 as <- <-.
      + split; [|discriminate]. split; [intro; subst; split; [auto|split; [eauto|auto]]|intros (_ & _ & X); auto].
      + split; [|auto]. split; [discriminate|]. intros (_ & [h X] & _). discriminate.
    - injection E2 as <- <-. split; [|auto]. split; [discriminate|]. intros (X & _). contradiction.
  Qed.

  (** Run reports an error exactly when there is no server. *)
  Theorem C59_run : forall l bs b s,
    helper_calls ext Idle (l ++ [CallRun]) = Ok (bs ++ [b], s) ->
    (b = true <-> server_exists l).
  Proof.
    intros l bs b s E. rewrite calls_snoc in E. apply bind_Ok in E. destruct E as [[bs1 s1] [E1 E]].
    apply bind_Ok in E. destruct E as [[b2 s2] [E2 E]]. injection E as Ebs <-. apply app_inj_tail in Ebs. destruct Ebs as [-> ->].
    pose proof (calls_state _ _ _ E1) as St. cbn [helper_step] in E2. unfold helper_run in E2.
    destruct s1 as [|[] h []]; try discriminate; injection E2 as <- <-.
    - split; [discriminate|]. contradiction.
    - split; auto.
  Qed.

  (** After Shutdown everything is as in the beginning. *)
  Theorem C59_shutdown : forall l1 l2 bs1 s1,
    helper_calls ext Idle l1 = Ok (bs1, s1) ->
    helper_calls ext Idle (l1 ++ CallShutdown :: l2) =
    let* (bs2, s2) := helper_calls ext Idle l2 in Ok (bs1 ++ true :: bs2, s2).
  Proof.
    intros l1. assert (G : forall s0 l2 bs1 s1, helper_calls ext s0 l1 = Ok (bs1, s1) ->
      helper_calls ext s0 (l1 ++ CallShutdown :: l2) =
      let* (bs2, s2) := helper_calls ext Idle l2 in Ok (bs1 ++ true :: bs2, s2)).
    { induction l1 as [|c l1 IH]; intros s0 l2 bs1 s1 E; cbn [app helper_calls] in *.
      - injection E as <- <-. reflexivity.
      - apply bind_Ok in E. destruct E as [[b sb] [E1 E]]. apply bind_Ok in E. destruct E as [[bs' s'] [E2 E]].
        injection E as <- <-. rewrite E1. cbn [bind]. rewrite (IH _ _ _ _ E2).
        destruct (helper_calls ext Idle l2) as [[x y]| | |]; reflexivity. }
    intros. eapply G; eassumption.
  Qed.

  (** A client that calls Run at most once between two Shutdowns, and only if every Init since the
      last Shutdown reported success or could not make its hub, never crashes the program (unless
      reading a model does). *)
  Fixpoint polite (ran failed : bool) l : Prop :=
    match l with
    | [] => True
    | CallShutdown :: t => polite false false t
    | CallRun :: t => ran = false /\ failed = false /\ polite true failed t
    | CallInit d c starts :: t =>
        make_model_hub ext d c <> UB /\ make_model_hub ext d c <> Crash /\
        polite ran (failed || (negb starts && is_ok (make_model_hub ext d c))) t
    end.
  Theorem C59_no_crash_partial : forall l, polite false false l ->
    exists bs s, helper_calls ext Idle l = Ok (bs, s).
  Proof.
    assert (G : forall l ran failed s, polite ran failed l ->
      match s with Idle => True | Active st h run => (run = true -> ran = true) /\ (st = false -> failed = true) end ->
      exists bs s', helper_calls ext s l = Ok (bs, s')).
    { induction l as [|c l IH]; intros ran failed s P St; cbn [helper_calls]; [eauto|].
      assert (X : forall b s1 ran' failed', helper_step ext s c = Ok (b, s1) -> polite ran' failed' l ->
        match s1 with Idle => True | Active st h run => (run = true -> ran' = true) /\ (st = false -> failed' = true) end ->
        exists bs s', (let* (b, s1) := helper_step ext s c in let* (bs, s2) := helper_calls ext s1 l in Ok (b :: bs, s2)) = Ok (bs, s')).
      { intros b s1 ran' failed' E P' S'. rewrite E. cbn [bind]. destruct (IH _ _ _ P' S') as (bs & s' & ->). cbn. eauto. }
      destruct c as [d c st| |]; cbn [polite] in P.
      - destruct P as (P1 & P2 & P3). cbn [helper_step] in X. unfold helper_init in X. cbn [helper_step]. unfold helper_init.
        destruct s as [|a h r].
        + destruct (make_model_hub ext d c) as [h| | |]; try congruence.
          * eapply X; [reflexivity|exact P3|]. split; [discriminate|]. intros ->. destruct failed; reflexivity.
          * eapply X; [reflexivity|exact P3|exact I].
        + eapply X; [reflexivity|exact P3|]. destruct St as [St1 St2]. split; auto. intros H. rewrite (St2 H). reflexivity.
      - destruct P as (P1 & P2 & P3). destruct s as [|a h r].
        + eapply X; [reflexivity|exact P3|exact I].
        + destruct St as [St1 St2]. destruct r; [specialize (St1 eq_refl); congruence|].
          destruct a; [|specialize (St2 eq_refl); congruence]. eapply X; [reflexivity|exact P3|].
          split; auto; discriminate.
      - eapply X; [reflexivity|exact P|exact I]. }
    intros l P. apply (G l false false Idle P I).
  Qed.
End C59.
Print Assumptions C59_init.
Print Assumptions C59_run.
Print Assumptions C59_shutdown.
Print Assumptions C59_no_crash_partial.

Definition ex_empty : model_hub_config Qc_field := ModelHubConfig [] MixNone 0 0.
Definition results {A B} (x : outcome (A * B)) : outcome A := let* (a, _) := x in Ok a.
(** A usual session, with a configuration that cannot be loaded first and a second server after
    the first. *)
Example C59_example :
  results (helper_calls ex_ext Idle [CallRun; CallInit ex_disk (ex_hub_config 7) true;
    CallInit ex_disk ex_empty true; CallRun; CallInit ex_disk ex_empty true; CallShutdown;
    CallInit ex_disk (ex_hub_config 0) true; CallRun])
  = Ok [false; false; true; true; false; true; true; true].
Proof. vmr. Qed.
Lemma ex_empty_ok : is_ok (make_model_hub ex_ext ex_disk ex_empty) = true.
Proof. vmr. Qed.
Example C59_example_polite : polite ex_ext false false
  [CallInit ex_disk ex_empty true; CallRun; CallShutdown; CallInit ex_disk ex_empty false].
Proof.
  pose proof ex_empty_ok as K.
  cbn [polite]. destruct (make_model_hub ex_ext ex_disk ex_empty); try discriminate.
  repeat split; discriminate.
Qed.

(** Not every sequence of calls is fine: a second Run ends the program, a Run after an Init that
    failed to start the server is undefined, and after such an Init a second Init is refused
    although there is no server running. *)
Theorem C59_run_twice_refuted :
  helper_calls ex_ext Idle [CallInit ex_disk ex_empty true; CallRun; CallRun] = Crash.
Proof. vmr. Qed.
Theorem C59_run_after_failed_start_refuted :
  helper_calls ex_ext Idle [CallInit ex_disk ex_empty false; CallRun] = UB.
Proof. vmr. Qed.
Theorem C59_retry_refused_refuted :
  results (helper_calls ex_ext Idle [CallInit ex_disk ex_empty false; CallInit ex_disk ex_empty true])
  = Ok [false; false].
Proof. vmr. Qed.
Print Assumptions C59_run_twice_refuted.
Print Assumptions C59_run_after_failed_start_refuted.
Print Assumptions C59_retry_refused_refuted.
