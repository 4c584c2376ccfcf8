(** Property C71: text in UTF-8. *)
From Coq Require Import Reals String Ascii.
From Verif Require Import Base Field FieldR LmModel LmProofs TextModel TextSpec TextProofs Utf8Model Utf8Proofs HubModel FactoryModel.
From Verif Require Import NgramProps2 PpmReadModel BigramModel HubSpec HubProofs HubProps HubMix HubLive HubLiveInst HubLive2 HubDist HubDistInst HubNorm HubAccept HubAcceptInst.
From Verif Require Import ServerModel ServerEvolve ServerQuery ServerProps ServerProps2 ServerSim ServerUpdate FactoryProps FactoryProps2 FactoryProps3 FactoryProps4 FactoryProps5 FactoryProps6 HubVocab FactoryVocabProps.
From Verif Require Import ClientModel ClientSpec ClientProofs ClientBits ClientProps ClientServe ClientServeBits ConnectModel FactoryProps7 Utf8Spec.
Local Open Scope Z_scope.
Close Scope string_scope.
Local Notation length := List.length.
Local Notation says := Utf8Spec.says.

(** ** Characters and bytes *)

(** Every sequence of characters is read back from its bytes, as numbers and as pieces. *)
Theorem C71_round_trip : forall l, Forall scalar l ->
  utf8_codes (utf8_encode l) = l /\ utf8_chars (utf8_encode l) = map enc l.
Proof.
  intros l S. unfold utf8_codes, utf8_chars. rewrite runes_encode by auto. rewrite !map_map. cbn [fst snd]. rewrite map_id. auto.
Qed.
Print Assumptions C71_round_trip.

(** Different texts have different bytes. *)
Theorem C71_injective : forall l l', Forall scalar l -> Forall scalar l' -> utf8_encode l = utf8_encode l' -> l = l'.
Proof.
  intros l l' S S' E. rewrite <- (proj1 (C71_round_trip l S)), <- (proj1 (C71_round_trip l' S')), E. reflexivity.
Qed.
Print Assumptions C71_injective.

Lemma append_nil s : append s EmptyString = s.
Proof. induction s as [|a s IH]; cbn; [auto|rewrite IH; auto]. Qed.
Lemma append_assoc a b c : append (append a b) c = append a (append b c).
Proof. induction a as [|x a IH]; cbn; [auto|rewrite IH; auto]. Qed.
Lemma encode_one c : utf8_encode [c] = enc c.
Proof. cbn [utf8_encode]. apply append_nil. Qed.
Lemma encode_app a b : utf8_encode (a ++ b) = append (utf8_encode a) (utf8_encode b).
Proof. induction a as [|c a IH]; cbn [utf8_encode app]; [reflexivity|]. rewrite IH, append_assoc. reflexivity. Qed.

(** Every text, well-formed or not, is the concatenation of its pieces, of at most as many characters as bytes, and
    all of them are characters; it is the UTF-8 form of those characters exactly if it is the UTF-8 form of some. *)
Theorem C71_split : forall s,
  concat_all (utf8_chars s) = s /\ length (utf8_chars s) = length (utf8_codes s) /\
  (length (utf8_codes s) <= String.length s)%nat /\ Forall scalar (utf8_codes s) /\
  (utf8_encode (utf8_codes s) = s <-> exists l, Forall scalar l /\ s = utf8_encode l).
Proof.
  intros s. unfold utf8_chars, utf8_codes.
  assert (K : concat_all (map snd (runes s)) = s /\ (length (runes s) <= String.length s)%nat /\ Forall scalar (map fst (runes s))).
  { apply (runes_ind (fun s r => concat_all (map snd r) = s /\ (length r <= String.length s)%nat /\ Forall scalar (map fst r))).
    - split; [reflexivity|]. split; [cbn; lia|constructor].
    - intros c p s' l Lp Sc _ (I1 & I2 & I3). cbn [map snd fst concat_all length]. rewrite I1, append_length. split; [reflexivity|].
      split; [lia|]. constructor; auto. }
  destruct K as (K1 & K2 & K3). rewrite !map_length. split; [auto|]. split; [auto|]. split; [auto|]. split; [auto|]. split.
  - intros Es. exists (map fst (runes s)). auto.
  - intros (l & Sl & ->). f_equal. apply (C71_round_trip l Sl).
Qed.
Print Assumptions C71_split.

(** A string is a single character exactly if it is the UTF-8 form of that character. *)
Theorem C71_single : forall s c, utf8_single s = Some c <-> scalar c /\ s = enc c.
Proof.
  intros s c. unfold utf8_single. split.
  - pose proof (C71_split s) as (_ & _ & _ & S & _). unfold utf8_codes in S.
    destruct (runes s) as [|[c' p] [|x t]]; try discriminate. destruct (String.eqb_spec (enc c') s) as [E|]; [|discriminate].
    intros [= ->]. cbn in S. apply Forall_cons_iff in S. split; [apply S|auto].
  - intros [S ->]. rewrite <- (append_nil (enc c)) at 1. rewrite runes_enc by auto. cbn [runes]. rewrite String.eqb_refl. reflexivity.
Qed.
Print Assumptions C71_single.

(** Each character takes one to four bytes. *)
Lemma encode_length k : (length k <= String.length (utf8_encode k) <= 4 * length k)%nat.
Proof. induction k as [|c k IH]; cbn [utf8_encode length]; [cbn; lia|]. rewrite append_length. pose proof (enc_length c). lia. Qed.

(** The newline byte occurs only as the newline character. *)
Lemma newline_in c : scalar c -> In (ascii_of_nat 10) (list_ascii_of_string (enc c)) -> c = 10.
Proof.
  intros S I. assert (H : 0 <= c < 1114112) by (unfold scalar in S; lia).
  assert (A : forall x, 0 <= x < 256 -> chr x = ascii_of_nat 10 -> x = 10).
  { intros x Hx Ex. rewrite <- (code_chr x Hx), Ex. reflexivity. }
  pose proof (Z.mod_pos_bound c 64 ltac:(lia)). pose proof (Z.mod_pos_bound (c / 64) 64 ltac:(lia)). pose proof (Z.mod_pos_bound (c / 4096) 64 ltac:(lia)).
  assert (D1 : c < 2048 -> 0 <= c / 64 < 32) by (intros; split; [apply Z.div_pos|apply Z.div_lt_upper_bound]; lia).
  assert (D2 : c < 65536 -> 0 <= c / 4096 < 16) by (intros; split; [apply Z.div_pos|apply Z.div_lt_upper_bound]; lia).
  assert (D3 : 0 <= c / 262144 < 8) by (split; [apply Z.div_pos|apply Z.div_lt_upper_bound]; lia).
  unfold enc in I. destruct (Z.ltb_spec c 128); [|destruct (Z.ltb_spec c 2048); [|destruct (Z.ltb_spec c 65536)]]; cbn [list_ascii_of_string In] in I;
    repeat (destruct I as [I|I]; [apply A in I; lia|]); destruct I.
Qed.
Lemma loa_append a b : list_ascii_of_string (append a b) = list_ascii_of_string a ++ list_ascii_of_string b.
Proof. induction a as [|x a IH]; cbn; [auto|rewrite IH; auto]. Qed.
Lemma soa_loa s : string_of_list_ascii (list_ascii_of_string s) = s.
Proof. apply string_of_list_ascii_of_string. Qed.
Lemma no_newline l : line_ok l -> ~ In newline (list_ascii_of_string (utf8_encode l)).
Proof.
  intros [S N]. induction S as [|c l Sc _ IH]; [intros []|]. cbn [utf8_encode]. rewrite loa_append. intros I. apply in_app_or in I. destruct I as [I|I].
  - rewrite newline_eq in I. apply newline_in in I; auto. apply N. left. auto.
  - apply IH; auto. intros I'. apply N. right. auto.
Qed.

(** The lines of a file are read back as they were written. *)
Theorem C71_lines : forall lines, Forall line_ok lines -> text_lines (utf8_file lines) = map utf8_encode lines.
Proof.
  intros lines H. unfold text_lines. assert (L : lined (utf8_file lines) (map (fun l => list_ascii_of_string (utf8_encode l)) lines)).
  { unfold utf8_file. induction H as [|l ls Hl _ IH]; [constructor|]. cbn [map concat]. rewrite <- app_assoc. cbn [app].
    constructor; [|exact IH]. rewrite <- newline_eq. apply no_newline. auto. }
  rewrite (lined_getlines _ _ L), map_map. apply map_ext. intros a. apply soa_loa.
Qed.
Print Assumptions C71_lines.

(** ** A client and a server *)
Notation utf8_server := (connect (any_ops (F := R_field)) utf8_codes utf8_encode).

Section Translate.
  Context {F : ofield}.
  Notation ops := (any_ops (F := F)).
  Notation srv := (connect ops utf8_codes utf8_encode).

  Lemma update_inv h k st r h1 : rpc_update srv h k st 1 = (Some r, h1) ->
    exists sc, handle ops h (UpdateLMScoresReq st k 1) = Ok (ScoresReply sc, h1) /\ msg_of utf8_encode sc = Some r.
  Proof.
    cbn [rpc_update connect]. unfold call. destruct (handle ops h (UpdateLMScoresReq st k 1)) as [[rep h']| | |]; try discriminate.
    destruct rep as [s|sc|]; try discriminate. cbn [scores_in]. intros [= Em <-]. eauto.
  Qed.
  Lemma next_inv h ctx st s h1 : rpc_next srv h ctx st = (Some s, h1) ->
    handle ops h (GetNextStateReq st (utf8_codes ctx)) = Ok (StateReply s, h1).
  Proof.
    cbn [rpc_next connect]. unfold call. destruct (handle ops h (GetNextStateReq st (utf8_codes ctx))) as [[rep h']| | |]; try discriminate.
    destruct rep as [s'|sc|]; try discriminate. cbn [state_in]. intros [= <- <-]. reflexivity.
  Qed.
  Lemma scores_inv h ctx st r h1 : rpc_scores srv h ctx st = (Some r, h1) ->
    exists sc, handle ops h (GetLMScoresReq st (utf8_codes ctx)) = Ok (ScoresReply sc, h1) /\ msg_of utf8_encode sc = Some r.
  Proof.
    cbn [rpc_scores connect]. unfold call. destruct (handle ops h (GetLMScoresReq st (utf8_codes ctx))) as [[rep h']| | |]; try discriminate.
    destruct rep as [s|sc|]; try discriminate. cbn [scores_in]. intros [= Em <-]. eauto.
  Qed.
  Lemma moves_inv h st k st' r h2 : Forall scalar k -> moves srv utf8_codes h st (utf8_encode k) st' r h2 ->
    exists sc h1, handle ops h (UpdateLMScoresReq (to_int st) k 1) = Ok (ScoresReply sc, h1) /\
      handle ops h1 (GetNextStateReq (to_int st) k) = Ok (StateReply st', h2) /\ msg_of utf8_encode sc = Some r.
  Proof.
    intros S (h1 & M1 & _ & M2). rewrite (proj1 (C71_round_trip k S)) in M1.
    apply update_inv in M1. destruct M1 as (sc & M1 & M3). apply next_inv in M2. rewrite (proj1 (C71_round_trip k S)) in M2. eauto.
  Qed.

  Lemma symbols_encode l : Forall scalar l -> utf8_chars (utf8_encode l) ++ [EmptyString] = map utf8_encode (symbols_of l).
  Proof.
    intros S. rewrite (proj2 (C71_round_trip l S)). unfold symbols_of. rewrite map_app, map_map. f_equal. apply map_ext. intros a. symmetry. apply encode_one.
  Qed.
  Lemma symbols_scalar l : Forall scalar l -> Forall (Forall scalar) (symbols_of l).
  Proof.
    intros S. unfold symbols_of. apply Forall_app. split; [|constructor; constructor]. apply Forall_map. eapply Forall_impl; [|exact S]. intros a Ha. constructor; [exact Ha|constructor].
  Qed.

  (** A history of the server that follows the reading. *)
  Lemma read_history h0 : forall h st sc ks tr h', line_read ops h st sc ks tr h' ->
    forall l rs, handle_all ops h0 l = Ok (rs, h) -> In (ScoresReply sc) rs -> exists l' rs',
      handle_all ops h0 (l ++ l') = Ok (rs', h') /\ reqs_cost (l ++ l') = reqs_cost l + Z.of_nat (length (concat ks)) /\
      incl rs rs' /\ (forall e, In e tr -> In (ScoresReply (snd e)) rs').
  Proof.
    assert (Sn : forall l rs h q rep h', handle_all ops h0 l = Ok (rs, h) -> handle ops h q = Ok (rep, h') -> handle_all ops h0 (l ++ [q]) = Ok (rs ++ [rep], h')).
    { intros l rs h q rep h' E1 E2. rewrite handle_all_app, E1. cbn [bind handle_all]. rewrite E2. reflexivity. }
    assert (Ca : forall l q, reqs_cost (l ++ [q]) = reqs_cost l + req_cost q).
    { intros l q. unfold reqs_cost. rewrite fold_right_app. cbn [fold_right]. induction l as [|x l IH]; cbn [fold_right]; lia. }
    induction 1 as [h st sc|h st sc k ks sc' h1 st' h2 tr h3 E1 E2 H IH]; intros l rs El Is.
    - exists [], rs. rewrite app_nil_r. split; [auto|]. split; [cbn; lia|]. split; [intros x; auto|intros e []].
    - pose proof (Sn _ _ _ _ _ _ El E1) as El1. pose proof (Sn _ _ _ _ _ _ El1 E2) as El2.
      destruct (IH _ _ El2) as (l' & rs' & K1 & K2 & K3 & K4); [apply in_or_app; left; apply in_or_app; right; left; auto|].
      exists ([UpdateLMScoresReq (to_int st) k 1; GetNextStateReq (to_int st) k] ++ l'), rs'.
      rewrite <- !app_assoc in K1, K2. cbn [app] in *. split; [exact K1|]. split.
      { rewrite K2, !Ca. cbn [req_cost]. unfold learn_cost. cbn [concat]. rewrite app_length. lia. }
      split. { intros x Hx. apply K3. apply in_or_app. left. apply in_or_app. left. auto. }
      intros e [<-|He]; [|auto]. cbn [snd]. apply K3. apply in_or_app. left. apply in_or_app. left. auto.
  Qed.
  Lemma text_history h0 : forall h ls tr h', text_read ops h ls tr h' ->
    forall l rs, handle_all ops h0 l = Ok (rs, h) -> exists l' rs',
      handle_all ops h0 (l ++ l') = Ok (rs', h') /\ reqs_cost (l ++ l') = reqs_cost l + Z.of_nat (length (concat ls)) /\
      incl rs rs' /\ (forall e, In e tr -> In (ScoresReply (snd e)) rs').
  Proof.
    induction 1 as [h|h l0 ls sc h1 tr h2 tr' h3 E1 R _ IH]; intros l rs El.
    - exists [], rs. rewrite app_nil_r. split; [auto|]. split; [cbn; lia|]. split; [intros x; auto|intros e []].
    - assert (El1 : handle_all ops h0 (l ++ [GetLMScoresReq 0 []]) = Ok (rs ++ [ScoresReply sc], h1)).
      { rewrite handle_all_app, El. cbn [bind handle_all]. rewrite E1. reflexivity. }
      destruct (read_history h0 _ _ _ _ _ _ R _ _ El1) as (l1 & rs1 & K1 & K2 & K3 & K4); [apply in_or_app; right; left; auto|].
      destruct (IH _ _ K1) as (l2 & rs2 & J1 & J2 & J3 & J4).
      rewrite K2 in J2.
      assert (Z0 : reqs_cost (l ++ [GetLMScoresReq 0 []]) = reqs_cost l).
      { unfold reqs_cost. rewrite fold_right_app. cbn [fold_right req_cost]. reflexivity. }
      rewrite Z0 in J2.
      exists ([GetLMScoresReq 0 []] ++ l1 ++ l2), rs2. rewrite <- !app_assoc in J1, J2. cbn [app] in *. split; [exact J1|]. split.
      { rewrite J2.
        cbn [concat]. rewrite app_length. unfold symbols_of. rewrite concat_app, app_length. cbn [concat length app].
        assert (Zc : concat (map (fun c => [c]) l0) = l0) by (clear; induction l0 as [|a l0 IH]; cbn; [auto|f_equal; auto]). rewrite Zc. lia. }
      split. { intros x Hx. apply J3, K3. apply in_or_app. left. auto. }
      intros e He. apply in_app_or in He. destruct He as [He|He]; auto.
  Qed.
End Translate.

Lemma codes_short s : (length (utf8_codes s) <= String.length s)%nat.
Proof. apply C71_split. Qed.
Lemma codes_pos s x : In x (utf8_codes s) -> 0 <= x.
Proof. intros I. destruct (C71_split s) as (_ & _ & _ & S & _). rewrite Forall_forall in S. apply S in I. unfold scalar in I. lia. Qed.

(** The client's strings, as code points. *)
Notation as_codes := (fun (e : string * scores_msg R_field) (e' : str * lm_scores (num R_field)) =>
  fst e = utf8_encode (fst e') /\ msg_of utf8_encode (snd e') = Some (snd e) /\ Forall scalar (fst e')).

Lemma line_translated (h : hub R_field (any_model R_field)) st r ss tr h' : line_scored utf8_codes utf8_server h st r ss tr h' ->
  forall ks sc, ss = map utf8_encode ks -> Forall (Forall scalar) ks -> msg_of utf8_encode sc = Some r ->
  exists tr', line_read any_ops h st sc ks tr' h' /\ Forall2 as_codes tr tr'.
Proof.
  induction 1 as [h st r|h st r s ss st' r' h1 tr h' Mv _ IH]; intros ks sc Ek S Er.
  - destruct ks; [|discriminate]. exists []. split; constructor.
  - destruct ks as [|k ks]; [discriminate|]. cbn [map] in Ek. injection Ek as -> Ek. apply Forall_cons_iff in S. destruct S as [Sk S].
    destruct (moves_inv h st k st' r' h1 Sk Mv) as (sc' & h2 & M1 & M2 & M3).
    destruct (IH ks sc' Ek S M3) as (tr' & R & A). exists ((k, sc) :: tr'). split; [econstructor; eauto|]. constructor; [|exact A]. cbn [fst snd]. auto.
Qed.
Lemma text_translated (h : hub R_field (any_model R_field)) ss tr h' : text_scored utf8_codes utf8_chars utf8_server h ss tr h' ->
  forall ls, ss = map utf8_encode ls -> Forall (Forall scalar) ls ->
  exists tr', text_read any_ops h ls tr' h' /\ Forall2 as_codes tr tr'.
Proof.
  induction 1 as [h|h l ss r h1 tr h2 tr2 h3 E1 _ _ Ln _ IH]; intros ls El S.
  - destruct ls; [|discriminate]. exists []. split; constructor.
  - destruct ls as [|k ls]; [discriminate|]. cbn [map] in El. injection El as -> El. apply Forall_cons_iff in S. destruct S as [Sk S].
    apply scores_inv in E1. destruct E1 as (sc & E1 & Er). change (utf8_codes "") with (@nil Z) in E1.
    destruct (line_translated _ _ _ _ _ _ Ln (symbols_of k) sc) as (tr1 & R1 & A1); [apply symbols_encode; auto|apply symbols_scalar; auto|auto|].
    destruct (IH ls El S) as (tr3 & R3 & A3). exists (tr1 ++ tr3). split; [econstructor; eauto|]. apply Forall2_app; auto.
Qed.

(** What the client finds under a string is what the server says of the symbol. *)
Lemma scored_says (e : string * scores_msg R_field) e' o : as_codes e e' -> NoDup (map fst (sc_entries (snd e'))) ->
  (forall k, In k (map fst (sc_entries (snd e'))) -> Forall scalar k) -> scored e o -> says e' o.
Proof.
  destruct e as [s r], e' as [k sc]. cbn [fst snd]. intros (-> & Er & Sk) Nd Ks So. unfold msg_of in Er.
  destruct (sc_norm sc) as [n|]; [|discriminate]. destruct (numbers (map snd (sc_entries sc))) as [ps|] eqn:En; [|discriminate]. injection Er as <-.
  assert (C : forall (p : car R_field) k', In k' (map fst (sc_entries sc)) \/ Forall scalar k' ->
    In (p, utf8_encode k') (combine ps (map utf8_encode (map fst (sc_entries sc)))) <-> In (k', Val p) (sc_entries sc)).
  { intros p k' Hk'. assert (Sk' : Forall scalar k') by (destruct Hk'; auto). clear - En Ks Sk'. revert ps En. induction (sc_entries sc) as [|[k0 v0] t IH]; intros ps En.
    - cbn in En. injection En as <-. cbn. tauto.
    - cbn [map snd numbers] in En. destruct v0 as [x|]; [|discriminate]. destruct (numbers (map snd t)) as [qs|] eqn:Eq; [|discriminate]. injection En as <-.
      cbn [map fst combine In]. rewrite (IH (fun k1 I1 => Ks k1 (or_intror I1)) qs eq_refl). split; intros [H|H]; auto; left.
      + injection H as -> He. apply C71_injective in He; [congruence|apply Ks; left; reflexivity|auto].
      + injection H as -> ->. reflexivity. }
  destruct o as [p|]; cbn [scored Utf8Spec.says offers fst snd] in *; unfold offers in So; cbn [msg_probs msg_symbols] in So.
  - destruct So as [So _]. apply C; auto.
  - intros Ik. apply in_map_iff in Ik. destruct Ik as ([k1 v] & E1 & I1). cbn [fst] in E1. subst k1.
    assert (Hv : exists p, v = Val p).
    { clear - En I1. revert ps En. induction (sc_entries sc) as [|[k0 v0] t IH]; intros ps En; [destruct I1|].
      cbn [map snd numbers] in En. destruct v0 as [x|]; [|discriminate]. destruct (numbers (map snd t)) as [qs|]; [|discriminate].
      destruct I1 as [I1|I1]; [injection I1 as _ <-; eauto|eapply IH; eauto]. }
    destruct Hv as [p ->]. apply (So p). apply C; auto.
Qed.

Section Served.
  Context {F : ofield}.
  Variable ext : externals F.
  Variable d : disk F.
  Variable c : model_hub_config F.
  Variable b : Z.
  Variable h0 : hub F (any_model F).
  Hypothesis X : externals_ok ext.
  Hypothesis N : mh_models c <> [].
  Hypothesis E : make_model_hub ext d c = Ok h0.
  Hypothesis W : Forall2 (well_made ext d b) (mh_models c) (h_lms h0).
  Hypothesis St : steady c.
  (** Every reply is a distribution (C63). *)
  Lemma steady_distribution l rs h sc : reqs_cost l <= b -> handle_all any_ops h0 l = Ok (rs, h) -> In (ScoresReply sc) rs -> is_distribution (sc_entries sc).
  Proof.
    intros Hc El I. destruct St as [S0 [[Hm (mc & Hmc & Nt)]|(Ht & Hn & Hp & mc & Hmc & Nt)]].
    - destruct (C63_first_model ext d c b h0 X N E W l rs h sc Hm Hc El I) as [D|[_ D]]; [auto|]. exfalso. auto.
    - destruct S0 as [S0|S0]; [congruence|].
      destruct (C63_static_mixture ext d c b h0 X N E W l rs h sc Ht Hn S0 Hp Hc El I) as [D|[_ D]]; [auto|]. exfalso. auto.
  Qed.
  (** Of symbols of the models (C67). *)
  Lemma steady_symbols l rs h sc k : reqs_cost l <= b -> handle_all any_ops h0 l = Ok (rs, h) -> In (ScoresReply sc) rs ->
    In k (map fst (sc_entries sc)) -> exists m, In m (consulted c (h_lms h0)) /\ In k (vocabulary m).
  Proof.
    intros Hc El I Ik. refine (proj1 (C67_symbols ext d c b h0 X N E W l rs h sc Hc _ El I) k Ik). destruct St as [[G|G] _]; auto.
  Qed.
End Served.

(** Bits per character of a text file in UTF-8, over the real numbers: whatever the server was asked and taught before,
    for any lines of characters (in the vocabulary of the models or not), if there is room for them: the client
    reports the mean code length of what the server said of each character and of each end of line, each answer being
    a distribution over the symbols of the models. *)
Theorem C71_bits_partial : forall (ext : externals R_field) d c b h0 m sort,
  externals_ok ext -> mh_models c <> [] -> make_model_hub ext d c = Ok h0 ->
  Forall2 (well_made ext d b) (mh_models c) (h_lms h0) -> steady c -> h_max h0 <= 2 ^ 31 ->
  (forall m0 k, In m0 (consulted c (h_lms h0)) -> In k (vocabulary m0) -> Forall scalar k /\ (length k <= m)%nat) ->
  sort_spec sort ->
  forall l rs h lines, handle_all any_ops h0 l = Ok (rs, h) -> lines <> [] -> Forall line_ok lines ->
  let n := length (concat lines) in
  reqs_cost l + Z.of_nat n <= b -> Z.of_nat (1 + traffic l + 4 * n) < h_max h0 ->
  exists tr os x h',
    calc_bits_per_character sort utf8_codes utf8_chars (Some utf8_server) h (Some (utf8_file lines)) =
      (Ok (Z.of_nat (n + length lines), Z.of_nat (oov os), Some x), h') /\
    x = (sum (map code_length os) / INR (n + length lines))%R /\ (0 < x <= log2 (143859 / kMixEpsilon))%R /\
    text_read any_ops h lines tr h' /\ map fst tr = flat_map symbols_of lines /\ Forall2 says tr os /\
    (forall k sc, In (k, sc) tr -> is_distribution (sc_entries sc) /\
       forall k', In k' (map fst (sc_entries sc)) -> exists m0, In m0 (consulted c (h_lms h0)) /\ In k' (vocabulary m0)).
Proof.
  intros ext d c b h0 m sort X N E W St Mx Vo Hs l rs h lines El Ln Lo n Hc T.
  assert (Sc : Forall (Forall scalar) lines) by (eapply Forall_impl; [|exact Lo]; intros a Ha; apply Ha).
  assert (Sh : forall m0 k, In m0 (consulted c (h_lms h0)) -> In k (vocabulary m0) -> (String.length (utf8_encode k) <= 4 * m)%nat).
  { intros m0 k I1 I2. destruct (Vo m0 k I1 I2) as [_ L]. pose proof (encode_length k). lia. }
  assert (Nn : sent utf8_codes (flat_map utf8_chars (text_lines (utf8_file lines))) = n /\
               length (flat_map utf8_chars (text_lines (utf8_file lines))) = n /\ length (text_lines (utf8_file lines)) = length lines).
  { rewrite C71_lines by auto. rewrite map_length. unfold n. clear - Sc. split; [|split; [|reflexivity]].
    - induction Sc as [|a ls Sa _ IH]; [reflexivity|]. cbn [map flat_map concat]. rewrite (sent_app utf8_codes utf8_chars codes_short), app_length, IH. f_equal.
      rewrite (proj2 (C71_round_trip a Sa)). clear IH. induction Sa as [|x a Sx Sa IHa]; [reflexivity|]. cbn [map sent fold_right length].
      unfold sent in IHa. rewrite IHa. rewrite <- encode_one. rewrite (proj1 (C71_round_trip [x] ltac:(constructor; [exact Sx|constructor]))). reflexivity.
    - induction Sc as [|a ls Sa _ IH]; [reflexivity|]. cbn [map flat_map concat]. rewrite !app_length, IH. f_equal.
      rewrite (proj2 (C71_round_trip a Sa)). apply map_length. }
  destruct Nn as (N1 & N2 & N3).
  destruct (C66_bits_partial ext d c b h0 utf8_codes utf8_encode (4 * m) utf8_chars sort X N E W St Mx codes_short codes_pos Sh Hs l rs h (utf8_file lines) El)
    as (tr & os & x & h' & K1 & K2 & K3 & K4 & K5).
  - rewrite C71_lines by auto. destruct lines; [contradiction|discriminate].
  - cbv zeta. rewrite N1. exact Hc.
  - cbv zeta. rewrite N1. exact T.
  - cbv zeta in K1. rewrite N2, N3 in K1. rewrite C71_lines in K4 by auto.
    destruct (text_translated _ _ _ _ K4 lines eq_refl Sc) as (tr' & R' & A).
    destruct (text_history h0 _ _ _ _ R' l rs El) as (l' & rs' & H1 & H2 & _ & H4).
    assert (Hc' : reqs_cost (l ++ l') <= b) by (rewrite H2; exact Hc).
    assert (Sy : map fst tr' = flat_map symbols_of lines).
    { clear - R'. induction R' as [|h l0 ls sc h1 tr h2 tr' h3 E1 R _ IH]; [reflexivity|]. rewrite map_app, IH. cbn [flat_map]. f_equal.
      clear - R. induction R as [|h st sc k ks sc' h1 st' h2 tr h3 E1 E2 _ IH]; [reflexivity|]. cbn [map fst]. f_equal. exact IH. }
    assert (Len : length tr = (n + length lines)%nat).
    { rewrite (Forall2_length _ _ _ A), <- (map_length fst), Sy. unfold n. clear. induction lines as [|a ls IH]; [reflexivity|].
      cbn [flat_map concat length]. rewrite !app_length, IH. unfold symbols_of. rewrite app_length, map_length. cbn [length]. lia. }
    assert (Dist : forall k sc, In (k, sc) tr' -> is_distribution (sc_entries sc) /\
       forall k', In k' (map fst (sc_entries sc)) -> exists m0, In m0 (consulted c (h_lms h0)) /\ In k' (vocabulary m0)).
    { intros k sc I. apply H4 in I. cbn [snd] in I. split.
      - eapply (steady_distribution ext d c b h0 X N E W St); eauto.
      - intros k' Ik. eapply (steady_symbols ext d c b h0 X N E W St); eauto. }
    exists tr', os, x, h'. split; [exact K1|]. split; [rewrite K3, Len; reflexivity|]. split; [exact K2|]. split; [exact R'|]. split; [exact Sy|]. split; [|exact Dist].
    clear - A K5 Dist Vo. revert os K5. induction A as [|e e' tr tr' A1 A IH]; intros os K5; inversion K5 as [|? o ? os' So K5']; subst; [constructor|].
    constructor; [|apply IH; [intros k sc I; apply (Dist k sc); right; auto|auto]].
    destruct (Dist (fst e') (snd e')) as [D1 D2]; [left; destruct e'; reflexivity|].
    apply (scored_says e e' o A1); [apply D1| |exact So]. intros k Ik. destruct (D2 k Ik) as (m0 & I1 & I2). apply (Vo m0 k I1 I2).
Qed.
Print Assumptions C71_bits_partial.
