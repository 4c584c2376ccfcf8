(** Property C72: the relabelling program. *)
From Coq Require Import String Ascii.
From Verif Require Import Base RelabelModel RelabelProofs RelabelProps Utf8Model Utf8Proofs.
From Verif Require Import Utf8Props RelabelMainModel.
Local Open Scope Z_scope.
Close Scope string_scope.
Local Notation length := List.length.

(** ** Specification: what a transducer accepts, as symbols *)
Section Spec.
  Context {Wt : Type}.
  (** The symbol on an arc; label 0 is no symbol. *)
  Definition labelled (f : rfst Wt) (l : Z) (s : option string) : Prop :=
    match s with
    | None => l = 0
    | Some s => l <> 0 /\ exists syms, rf_isyms f = Some syms /\ In (l, s) syms
    end.
  (** A path from state [q] to state [q'] that spells the symbols [ss] (with [None] where the arc has no symbol), with
      the weights [ws] of its arcs. *)
  Inductive spells (f : rfst Wt) : nat -> list (option string) -> list Wt -> nat -> Prop :=
  | sp_nil q : spells f q [] [] q
  | sp_arc q st a s ss ws q' : nth_error (rf_states f) q = Some st -> In a (fst st) -> labelled f (ra_il a) s ->
      spells f (ra_next a) ss ws q' -> spells f q (s :: ss) (ra_w a :: ws) q'.
  (** Two transducers that cannot be told apart by their symbols: the same start, the same final weights, the same
      paths. *)
  Definition same_language (f g : rfst Wt) : Prop :=
    rf_start g = rf_start f /\ map snd (rf_states g) = map snd (rf_states f) /\
    forall q ss ws q', spells f q ss ws q' <-> spells g q ss ws q'.

  (** A transducer as OpenFst reads it: the labels and the symbols of its table are unique, its arcs use labels of the
      table (or 0). *)
  Definition proper (f : rfst Wt) : Prop := exists syms, rf_isyms f = Some syms /\ table_ok syms /\
    forall st a, In st (rf_states f) -> In a (fst st) -> ra_il a <> 0 -> In (ra_il a) (map fst syms).
  (** Its labels leave room: no symbol to be relabelled is the character 0, and if kept labels are in the way of code
      points, the control characters they move to are in use neither as characters nor as kept labels. *)
  Definition tidy (keep : list string) (f : rfst Wt) : Prop := exists syms, rf_isyms f = Some syms /\
    ~ is_codepoint utf8_single keep syms 0 /\
    exists ks, in_the_way utf8_single keep syms ks /\
      forall a, In a (firstn (length ks) allowed_withheld) ->
        ~ is_codepoint utf8_single keep syms a /\ forall s, ~ to_keep keep syms a s.

  Variable write : files (Wt := Wt) -> string -> rfst Wt -> files (Wt := Wt) * bool.
  (** Writing touches only the file written; if it reports success the file can be read back. *)
  Definition write_spec : Prop := forall fs p f,
    (forall p', p' <> p -> fst (write fs p f) p' = fs p') /\ (snd (write fs p f) = true -> fst (write fs p f) p = Some f).
End Spec.

Lemma nth_error_ext {A} (a b : list A) : (forall i, nth_error a i = nth_error b i) -> a = b.
Proof.
  revert b. induction a as [|x a IH]; intros b H.
  - destruct b; [reflexivity|]. specialize (H O). discriminate.
  - destruct b as [|y b]; [specialize (H O); discriminate|]. pose proof (H O) as H0. injection H0 as ->. f_equal. apply IH. intros i. apply (H (S i)).
Qed.

Section C72.
  Context {Wt : Type}.
  Variable arcsort : list (rarc Wt) -> list (rarc Wt).
  Hypothesis Harcsort : forall l, Permutation l (arcsort l) /\ StronglySorted (fun a b => ra_il a <= ra_il b) (arcsort l).
  Variable write : files (Wt := Wt) -> string -> rfst Wt -> files (Wt := Wt) * bool.
  Hypothesis Hw : write_spec write.
  Notation program := (relabel_main arcsort write).
  Notation relabelled := (relabel_with_codepoints arcsort utf8_single).

  Lemma relabelled_cases keep f : relabelled keep f = Err \/ exists f', relabelled keep f = Ok f'.
  Proof.
    unfold relabel_with_codepoints. destruct (check_properties f); cbn [negb]; [|auto]. destruct (rf_isyms f) as [syms|]; [|auto].
    destruct (mapping_cases utf8_single keep syms) as [(mc & F & [[L E]|[L E]])|[_ E]]; rewrite E; cbn [bind]; eauto.
  Qed.

  (** The program always exits, with 0 or 1; with 0 exactly if both files are named, the input can be read and relabelled
      and the output can be written.  Only the output file is ever touched, and only if the relabelling succeeded. *)
  Theorem C72_exit : forall input output keep fs, exists code fs', program input output keep fs = (Ok code, fs') /\
    (code = 0 \/ code = 1) /\
    (code = 0 <-> input <> EmptyString /\ output <> EmptyString /\ exists f f', fs input = Some f /\ relabelled keep f = Ok f' /\ snd (write fs output f') = true) /\
    (forall p, p <> output -> fs' p = fs p) /\
    ((forall f f', input <> EmptyString -> output <> EmptyString -> fs input = Some f -> relabelled keep f <> Ok f') -> fs' = fs) /\
    (code = 0 -> forall f f', fs input = Some f -> relabelled keep f = Ok f' -> fs' output = Some f').
  Proof.
    intros input output keep fs. unfold relabel_main, relabel_and_save.
    destruct (String.eqb_spec input EmptyString) as [Ei|Ei].
    { exists 1, fs. split; [reflexivity|]. split; [auto|]. split; [split; [discriminate|intros [H _]; contradiction]|]. split; [auto|]. split; [auto|discriminate]. }
    destruct (String.eqb_spec output EmptyString) as [Eo|Eo].
    { exists 1, fs. split; [reflexivity|]. split; [auto|]. split; [split; [discriminate|intros (_ & H & _); contradiction]|]. split; [auto|]. split; [auto|discriminate]. }
    destruct (fs input) as [f|] eqn:Ef.
    - destruct (relabelled_cases keep f) as [Er|(f' & Er)]; rewrite Er.
      + exists 1, fs. split; [reflexivity|]. split; [auto|]. split; [split; [discriminate|intros (_ & _ & g & g' & H1 & H2 & _); congruence]|]. split; [auto|]. split; [auto|discriminate].
      + destruct (Hw fs output f') as [W1 W2]. destruct (write fs output f') as [fs' ok] eqn:Ew. cbn [fst snd] in *. destruct ok.
        * exists 0, fs'. split; [reflexivity|]. split; [auto|]. split.
          { split; [intros _|reflexivity]. split; [auto|]. split; [auto|]. exists f, f'. rewrite Ew. auto. }
          split; [auto|]. split; [intros H; exfalso; exact (H f f' Ei Eo eq_refl Er)|]. intros _ g g' Hg Hg'. injection Hg as <-. rewrite Er in Hg'. injection Hg' as <-. auto.
        * exists 1, fs'. split; [reflexivity|]. split; [auto|]. split.
          { split; [discriminate|]. intros (_ & _ & g & g' & H1 & H2 & H3). injection H1 as <-. rewrite Er in H2. injection H2 as <-. rewrite Ew in H3. discriminate. }
          split; [auto|]. split; [intros H; exfalso; exact (H f f' Ei Eo eq_refl Er)|discriminate].
    - exists 1, fs. split; [reflexivity|]. split; [auto|]. split; [split; [discriminate|intros (_ & _ & g & g' & H1 & _); congruence]|]. split; [auto|]. split; [auto|discriminate].
  Qed.

  (** *** What is written *)
  Lemma tidy_injective keep (f : rfst Wt) syms m : rf_isyms f = Some syms -> table_ok syms -> tidy keep f -> codepoint_mapping utf8_single keep syms = Ok m ->
    forall l l', In l (0 :: map fst syms) -> In l' (0 :: map fst syms) -> new_label m l = new_label m l' -> l = l'.
  Proof.
    intros Es T (syms' & Es' & Nz & ks & K & Fr) Em l l' I I' Eq. rewrite Es in Es'. injection Es' as <-.
    assert (S : forall z, In z (0 :: map fst syms) -> exists s, In (z, s) ((0, "<epsilon>"%string) :: syms)).
    { intros z [<-|Hz]; [eexists; left; reflexivity|]. apply in_map_iff in Hz. destruct Hz as ([z' s] & <- & Hz). exists s. right. exact Hz. }
    destruct (S l I) as [s Hs], (S l' I') as [s' Hs'].
    refine (C49_distinct_partial utf8_single keep syms m ks T Em K _ Nz Fr l s l' s' Hs Hs' Eq).
    intros l1 s1 l2 s2 c _ _ D1 D2. apply C71_single in D1, D2. destruct D1 as [_ ->], D2 as [_ ->]. reflexivity.
  Qed.

  (** The output accepts exactly what the input accepts, with the same weights along the same states; each of its labels
      is the code point of its symbol, but for the kept symbols; both of its symbol tables are the same. *)
  Theorem C72_language : forall keep f f', proper f -> tidy keep f -> relabelled keep f = Ok f' ->
    same_language f f' /\ proper f' /\ rf_osyms f' = rf_isyms f' /\ check_properties f' = true /\
    (forall syms l s, rf_isyms f' = Some syms -> In (l, s) syms -> l <> 0 -> In s keep \/ s = enc l /\ scalar l).
  Proof.
    intros keep f f' (syms & Es & T & Lab) Ti Er.
    assert (Em : exists m, codepoint_mapping utf8_single keep syms = Ok m).
    { unfold relabel_with_codepoints in Er. destruct (check_properties f); [|discriminate Er]. cbn [negb] in Er. rewrite Es in Er.
      apply bind_Ok in Er. destruct Er as (m & Em & _). eauto. }
    destruct Em as [m Em]. pose proof (tidy_injective keep f syms m Es T Ti Em) as Inj.
    assert (Lab' : forall st a, In st (rf_states f) -> In a (fst st) -> In (ra_il a) (0 :: map fst syms)).
    { intros st a I J. destruct (Z.eq_dec (ra_il a) 0) as [Z0|Z0]; [left; auto|right; eauto]. }
    destruct (C49_transducer arcsort Harcsort utf8_single keep f f' syms m Es Em Inj Lab' Er) as (Rs & Rf & Rp & Ri & Ro).
    destruct (C49_codepoints utf8_single keep syms m T Em) as (P1 & P2 & P3 & P4).
    assert (N0 : forall l, In l (map fst syms) -> l <> 0 -> new_label m l <> 0).
    { intros l I Nl Z0. apply Nl. apply (Inj l 0); [right; auto|left; auto|]. rewrite P2. exact Z0. }
    assert (LabelFwd : forall l s, In l (0 :: map fst syms) -> labelled f l s -> labelled f' (new_label m l) s).
    { intros l [s|] I L; cbn [labelled] in *; [|rewrite L; exact P2]. destruct L as (Nl & syms1 & E1 & I1). rewrite Es in E1. injection E1 as <-.
      split; [apply N0; auto; apply in_map_iff; exists (l, s); auto|]. eexists. split; [exact Ri|]. apply in_map_iff. exists (l, s). auto. }
    assert (LabelBwd : forall l s, In l (0 :: map fst syms) -> labelled f' (new_label m l) s -> labelled f l s).
    { intros l [s|] I L; cbn [labelled] in *.
      - destruct L as (Nl & syms1 & E1 & I1). rewrite Ri in E1. injection E1 as <-. apply in_map_iff in I1. destruct I1 as ([l2 s2] & E2 & I2).
        injection E2 as E2 ->. assert (l2 = l) by (apply Inj; auto; right; apply in_map_iff; exists (l2, s); auto). subst l2.
        split; [intros ->; apply Nl; exact P2|]. exists syms. auto.
      - apply (Inj l 0); auto; [left; auto|]. rewrite P2. exact L. }
    apply BigramReadProofs.Forall2_nth in Rf. destruct Rf as [Lf Rf].
    assert (Fwd : forall q ss ws q', spells f q ss ws q' -> spells f' q ss ws q').
    { induction 1 as [q|q st a s ss ws q' Hq Ia La _ IH]; [constructor|].
      destruct (nth_error (rf_states f') q) as [st'|] eqn:Hq'.
      2:{ apply nth_error_None in Hq'. assert (q < length (rf_states f))%nat by (apply nth_error_Some; congruence). lia. }
      destruct (Rf q st st' Hq Hq') as [_ Pm].
      refine (sp_arc f' q st' (mk_rarc (new_label m (ra_il a)) (new_label m (ra_ol a)) (ra_w a) (ra_next a)) s ss ws q' Hq' _ _ IH).
      - eapply Permutation_in; [exact Pm|]. apply in_map_iff. exists a. auto.
      - cbn [ra_il]. apply LabelFwd; auto. eapply Lab'; [eapply nth_error_In; exact Hq|exact Ia]. }
    assert (Bwd : forall q ss ws q', spells f' q ss ws q' -> spells f q ss ws q').
    { induction 1 as [q|q st' a' s ss ws q' Hq' Ia La _ IH]; [constructor|].
      destruct (nth_error (rf_states f) q) as [st|] eqn:Hq.
      2:{ apply nth_error_None in Hq. assert (q < length (rf_states f'))%nat by (apply nth_error_Some; congruence). lia. }
      destruct (Rf q st st' Hq Hq') as [_ Pm]. eapply Permutation_in in Ia; [|apply Permutation_sym; exact Pm].
      apply in_map_iff in Ia. destruct Ia as (a & <- & Ia). cbn [ra_il ra_w ra_next] in *.
      refine (sp_arc f q st a s ss ws q' Hq Ia _ IH). apply LabelBwd; auto. eapply Lab'; [eapply nth_error_In; exact Hq|exact Ia]. }
    split.
    { split; [exact Rs|]. split; [|intros; split; auto]. clear - Lf Rf.
      assert (G : forall q, nth_error (map snd (rf_states f')) q = nth_error (map snd (rf_states f)) q).
      { intros q. rewrite !nth_error_map. destruct (nth_error (rf_states f) q) as [st|] eqn:H1, (nth_error (rf_states f') q) as [st'|] eqn:H2; cbn [option_map].
        - f_equal. apply (Rf q st st' H1 H2).
        - apply nth_error_None in H2. assert (q < length (rf_states f))%nat by (apply nth_error_Some; congruence). lia.
        - apply nth_error_None in H1. assert (q < length (rf_states f'))%nat by (apply nth_error_Some; congruence). lia.
        - reflexivity. }
      apply nth_error_ext. exact G. }
    split.
    { eexists. split; [exact Ri|]. split.
      - split; rewrite map_map; cbn [fst snd]; [|apply T]. destruct T as [T _]. rewrite <- (map_map fst (new_label m)).
        assert (Inj' : forall a b, In a (map fst syms) -> In b (map fst syms) -> new_label m a = new_label m b -> a = b) by (intros; apply Inj; auto; right; auto).
        clear - T Inj'. induction T as [|x l Nx _ IH]; [constructor|]. cbn [map]. constructor.
        + intros H. apply in_map_iff in H. destruct H as (y & Ey & Iy). apply Nx. rewrite <- (Inj' y x); auto; [right; auto|left; auto].
        + apply IH. intros a b Ha Hb. apply Inj'; right; auto.
      - intros st' a' I J Nz. apply In_nth_error in I. destruct I as [q Hq'].
        destruct (nth_error (rf_states f) q) as [st|] eqn:Hq.
        2:{ apply nth_error_None in Hq. assert (q < length (rf_states f'))%nat by (apply nth_error_Some; congruence). lia. }
        destruct (Rf q st st' Hq Hq') as [_ Pm]. eapply Permutation_in in J; [|apply Permutation_sym; exact Pm].
        apply in_map_iff in J. destruct J as (a & <- & Ia). cbn [ra_il] in *.
        rewrite map_map. cbn [fst]. rewrite <- (map_map fst (new_label m)). apply in_map. apply (Lab st a); auto; [eapply nth_error_In; exact Hq|].
        intros Z0. apply Nz. rewrite Z0. exact P2. }
    split; [exact Ro|]. split; [exact Rp|].
    intros syms1 l s E1 I1 Nl. rewrite Ri in E1. injection E1 as <-. apply in_map_iff in I1. destruct I1 as ([l0 s0] & E2 & I2). cbn [fst snd] in E2. injection E2 as <- ->.
    destruct (in_dec String.string_dec s keep) as [Ik|Nk]; [left; exact Ik|right].
    assert (Tr : to_relabel keep syms l0 s). { split; [exact I2|]. split; [intros ->; apply Nl; exact P2|exact Nk]. }
    apply P1 in Tr. apply C71_single in Tr. tauto.
  Qed.

  (** Run on its own output with the same kept symbols, the program changes nothing. *)
  Lemma sorted_unique : forall (a b : list (rarc Wt)), Permutation a b -> NoDup (map ra_il a) ->
    StronglySorted (fun x y => ra_il x <= ra_il y) a -> StronglySorted (fun x y => ra_il x <= ra_il y) b -> a = b.
  Proof.
    induction a as [|x a IH]; intros b P Nd Sa Sb; [apply Permutation_nil in P; auto|].
    destruct b as [|y b]; [apply Permutation_sym, Permutation_nil in P; discriminate|].
    cbn [map] in Nd. apply NoDup_cons_iff in Nd. destruct Nd as [Nx Nd]. inversion Sa as [|? ? Sa1 Sa2]; subst. inversion Sb as [|? ? Sb1 Sb2]; subst.
    assert (x = y).
    { assert (Iy : In y (x :: a)) by (eapply Permutation_in; [apply Permutation_sym; exact P|left; auto]).
      assert (Ix : In x (y :: b)) by (eapply Permutation_in; [exact P|left; auto]).
      destruct Iy as [Iy|Iy]; [auto|]. destruct Ix as [Ix|Ix]; [auto|]. rewrite Forall_forall in Sa2, Sb2. apply Sa2 in Iy as L1. apply Sb2 in Ix as L2.
      exfalso. apply Nx. replace (ra_il x) with (ra_il y) by lia. apply in_map. auto. }
    subst y. f_equal. apply IH; auto. eapply Permutation_cons_inv; exact P.
  Qed.
  Lemma sorted_strong l : sortedZ (map ra_il l) = true -> StronglySorted (fun x y : rarc Wt => ra_il x <= ra_il y) l.
  Proof.
    intros H. apply Sorted_StronglySorted; [intros x y z H1 H2; lia|]. induction l as [|x l IH]; [constructor|].
    cbn [map sortedZ] in H. apply andb_prop in H. destruct H as [H1 H2]. constructor; [auto|]. destruct l as [|y l]; constructor. apply Z.leb_le in H1. exact H1.
  Qed.
  Lemma nodupZ_NoDup l : nodupZ l = true -> NoDup l.
  Proof.
    induction l as [|x l IH]; intros H; [constructor|]. cbn [nodupZ] in H. apply andb_prop in H. destruct H as [H1 H2]. constructor; [|auto].
    intros I. apply negb_true_iff in H1. unfold inZ in H1. assert (existsb (Z.eqb x) l = true); [|congruence]. apply existsb_exists. exists x. split; [auto|apply Z.eqb_refl].
  Qed.
  Lemma identity_mapping (mm : list (Z * Z)) : (forall a b, In (a, b) mm -> a = b) -> forall z, new_label mm z = z.
  Proof.
    induction mm as [|[a b] t IH]; intros H z; [reflexivity|]. cbn [new_label]. destruct (Z.eqb_spec z a) as [->|]; [symmetry; apply H; left; auto|].
    apply IH. intros a' b' I. apply H. right. auto.
  Qed.

  Theorem C72_idempotent : forall keep f f', proper f -> tidy keep f -> relabelled keep f = Ok f' -> relabelled keep f' = Ok f'.
  Proof.
    intros keep f f' Pf Ti Er. pose proof (C72_language keep f f' Pf Ti Er) as (_ & Pf' & Eo & Cp & _).
    destruct Pf as (syms & Es & T & Lab). destruct Pf' as (syms' & Es' & T' & _).
    assert (Em : exists m, codepoint_mapping utf8_single keep syms = Ok m /\ syms' = relabel_symtab m syms).
    { unfold relabel_with_codepoints in Er. destruct (check_properties f); [|discriminate Er]. cbn [negb] in Er. rewrite Es in Er.
      apply bind_Ok in Er. destruct Er as (m & Em & Er). injection Er as <-. cbn [rf_isyms] in Es'. injection Es' as <-. eauto. }
    destruct Em as (m & Em & Sy).
    pose proof (tidy_injective keep f syms m Es T Ti Em) as Inj.
    destruct (C49_codepoints utf8_single keep syms m T Em) as (P1 & P2 & P3 & P4).
    destruct Ti as (syms2 & Es2 & Nz & ks & Kw & Fr). rewrite Es in Es2. injection Es2 as <-.
    assert (In' : forall l s, In (l, s) syms' <-> exists l0, In (l0, s) syms /\ l = new_label m l0).
    { intros l s. rewrite Sy. unfold relabel_symtab. rewrite in_map_iff. split.
      - intros ([l0 s0] & E2 & I2). cbn [fst snd] in E2. injection E2 as <- ->. eauto.
      - intros (l0 & I0 & ->). exists (l0, s). auto. }
    assert (N0 : forall l0 s, In (l0, s) syms -> (l0 = 0 <-> new_label m l0 = 0)).
    { intros l0 s I0. split; [intros ->; exact P2|]. intros Z0. apply (Inj l0 0); [right; apply in_map_iff; exists (l0, s); auto|left; auto|]. rewrite P2. exact Z0. }
    (* code points of the new table are those of the old *)
    assert (Rl : forall l s, to_relabel keep syms' l s <-> exists l0, to_relabel keep syms l0 s /\ l = new_label m l0).
    { intros l s. unfold to_relabel. rewrite In'. split.
      - intros ((l0 & I0 & ->) & Nl & Nk). exists l0. split; [|auto]. split; [auto|]. split; [|auto]. intros Z0. apply Nl. apply (N0 l0 s); auto.
      - intros (l0 & (I0 & Nl & Nk) & ->). split; [eauto|]. split; [|auto]. intros Z0. apply Nl. apply (N0 l0 s); auto. }
    assert (Cpt : forall z, is_codepoint utf8_single keep syms' z <-> is_codepoint utf8_single keep syms z).
    { intros z. unfold is_codepoint. split.
      - intros (l & s & H1 & H2). apply Rl in H1. destruct H1 as (l0 & H1 & _). eauto.
      - intros (l & s & H1 & H2). exists (new_label m l), s. split; [apply Rl; eauto|auto]. }
    (* no kept label is in the way any more *)
    assert (Kp : forall l s, to_keep keep syms' l s -> ~ is_codepoint utf8_single keep syms' l).
    { intros l s (I & Nl & Ik) C. apply Cpt in C. apply In' in I. destruct I as (l0 & I0 & ->).
      assert (Tk : to_keep keep syms l0 s). { split; [auto|]. split; [intros Z0; apply Nl; apply (N0 l0 s); auto|auto]. }
      destruct (in_dec Z.eq_dec l0 ks) as [Iw|Nw].
      - (* moved to a free label *)
        assert (Ifr : In (new_label m l0) (firstn (length ks) allowed_withheld)).
        { destruct Kw as [Kn Kw]. destruct (mapping_facts utf8_single keep syms m T Em) as (mc & ks' & F & W & L & Em' & Nm & M).
          assert (Lk : length ks' = length ks).
          { destruct W as [W1 W2]. apply Nat.le_antisymm; apply NoDup_incl_length; auto; intros x Hx; [apply Kw, W2|apply W2, Kw]; exact Hx. }
          assert (I' : In l0 ks') by (apply W; apply Kw; exact Iw). rewrite <- Lk.
          apply In_nth_error in I'. destruct I' as [i Hi]. assert (Hl : (i < length ks')%nat) by (apply nth_error_Some; congruence).
          assert (Hf : exists a, nth_error (firstn (length ks') allowed_withheld) i = Some a).
          { destruct (nth_error (firstn (length ks') allowed_withheld) i) eqn:Hn; [eauto|]. apply nth_error_None in Hn. rewrite firstn_length in Hn.
            change (length allowed_withheld) with 27%nat in *. lia. }
          destruct Hf as [a Ha]. rewrite (new_label_in m l0 a); [eapply nth_error_In; exact Ha|exact Nm|].
          rewrite Em'. apply in_or_app. right. clear - Hi Ha. revert i Hi Ha. generalize (firstn (length ks') allowed_withheld) as l2. induction ks' as [|k t IH]; intros [|y l2] [|i] Hi Ha; try discriminate.
          - cbn in *. left. congruence.
          - cbn in *. right. eauto. }
        destruct (Fr _ Ifr) as [F1 _]. contradiction.
      - assert (Nc : ~ is_codepoint utf8_single keep syms l0). { intros H. apply Nw. apply Kw. eauto. }
        rewrite (P3 l0 s Tk Nc) in C. contradiction. }
    (* so the second mapping is the identity *)
    assert (Em2 : exists m2, codepoint_mapping utf8_single keep syms' = Ok m2 /\ forall z, new_label m2 z = z).
    { destruct (C49_errors utf8_single keep syms' T') as [[E1 _] [E2|[m2 E2]]].
      - exfalso. destruct (E1 E2) as [(l & s & H1 & H2)|(ks2 & [Kn2 Kw2] & L2)].
        + apply Rl in H1. destruct H1 as (l0 & H1 & _). apply P1 in H1. congruence.
        + destruct ks2 as [|k ks2]; [cbn in L2; lia|]. destruct (proj1 (Kw2 k) (or_introl eq_refl)) as [(s & H1) H2]. exact (Kp k s H1 H2).
      - exists m2. split; [exact E2|].
        destruct (mapping_facts utf8_single keep syms' m2 T' E2) as (mc & ks' & F & [_ W] & L & Em' & Nm & M).
        assert (ks' = []). { destruct ks' as [|k t]; [reflexivity|]. exfalso. destruct (proj1 (W k) (or_introl eq_refl)) as [(s & H1) H2]. exact (Kp k s H1 H2). }
        subst ks'. cbn [combine] in Em'. rewrite app_nil_r in Em'. subst m2. apply identity_mapping.
        intros a c I. destruct (codes_are utf8_single keep syms' mc F) as (_ & C & _). apply C in I. destruct I as (s & H1 & H2).
        apply Rl in H1. destruct H1 as (l0 & H1 & ->). apply P1 in H1. congruence. }
    destruct Em2 as (m2 & Em2 & Id).
    unfold relabel_with_codepoints. rewrite Cp. cbn [negb]. rewrite Es', Em2. cbn [bind]. f_equal.
    destruct f' as [st0 sts is os]. cbn [rf_start rf_states rf_isyms rf_osyms] in *. subst is os.
    assert (Tb : relabel_symtab m2 syms' = syms').
    { unfold relabel_symtab. rewrite <- (map_id syms') at 2. apply map_ext. intros [l s]. cbn [fst snd]. rewrite Id. reflexivity. }
    rewrite Tb. f_equal.
    unfold check_properties in Cp. cbn [rf_states] in Cp. apply andb_prop in Cp. destruct Cp as [Cp C3]. apply andb_prop in Cp. destruct Cp as [_ C2].
    clear - C2 C3 Id Harcsort. induction sts as [|[arcs w] t IH]; [reflexivity|]. cbn [map forallb fst snd] in *. apply andb_prop in C2, C3.
    destruct C2 as [C2 C2'], C3 as [C3 C3']. rewrite IH by auto. do 2 f_equal.
    assert (Ia : map (relabel_arc m2) arcs = arcs).
    { rewrite <- (map_id arcs) at 2. apply map_ext. intros [i o wt n]. unfold relabel_arc. cbn [ra_il ra_ol ra_w ra_next]. rewrite !Id. reflexivity. }
    rewrite Ia. symmetry. apply sorted_unique; [apply Harcsort|apply nodupZ_NoDup; exact C2|apply sorted_strong; exact C3|apply Harcsort].
  Qed.

  (** The two together: run on a tidy transducer that it can relabel and write, the program exits with 0, the output
      accepts what the input accepts, and a second run from the output to any file writes the same again. *)
  Theorem C72_program : forall input output keep fs f fs', proper f -> tidy keep f -> fs input = Some f ->
    program input output keep fs = (Ok 0, fs') ->
    exists f', fs' output = Some f' /\ same_language f f' /\
      (output <> input -> fs' input = Some f) /\
      forall other, snd (write fs' other f') = true -> other <> EmptyString -> exists fs'', program output other keep fs' = (Ok 0, fs'') /\ fs'' other = Some f'.
  Proof.
    intros input output keep fs f fs' Pf Ti Ef E. destruct (C72_exit input output keep fs) as (code & fs1 & E1 & _ & C0 & Oth & _ & Out).
    rewrite E in E1. injection E1 as <- <-. destruct (proj1 C0 eq_refl) as (Ni & No & f1 & f' & Ef1 & Er & _). rewrite Ef in Ef1. injection Ef1 as <-.
    pose proof (Out eq_refl f f' Ef Er) as Eo. exists f'. split; [exact Eo|]. split; [apply (C72_language keep f f' Pf Ti Er)|].
    split; [intros D; rewrite Oth by auto; exact Ef|]. intros other Ww Nn.
    pose proof (C72_idempotent keep f f' Pf Ti Er) as Er2.
    destruct (C72_exit output other keep fs') as (code2 & fs2 & E2 & _ & C2 & _ & _ & Out2).
    assert (code2 = 0). { apply C2. split; [exact No|]. split; [exact Nn|]. exists f', f'. auto. }
    subst code2. exists fs2. split; [exact E2|]. exact (Out2 eq_refl f' f' Eo Er2).
  Qed.
End C72.
Print Assumptions C72_exit.
Print Assumptions C72_language.
Print Assumptions C72_idempotent.
Print Assumptions C72_program.

(** ** Examples *)
Definition plain_write {Wt} (fs : files (Wt := Wt)) (p : string) (f : rfst Wt) : files (Wt := Wt) * bool :=
  ((fun p' => if String.eqb p' p then Some f else fs p'), true).
Lemma plain_write_spec {Wt} : write_spec (@plain_write Wt).
Proof.
  intros fs p f. unfold plain_write. cbn [fst snd]. split; [|intros _; rewrite String.eqb_refl; reflexivity].
  intros p' D. destruct (String.eqb_spec p' p); [contradiction|reflexivity].
Qed.
(** Symbols of one, two and three bytes, a back-off arc, and a kept symbol whose label is the code point of "b". *)
Definition utf8_table : symtab :=
  [(0, "<epsilon>"); (1, "b"); (2, enc 233); (3, enc 8364); (98, "<sp>")]%string.
Definition utf8_fst : rfst Z :=
  mk_rfst 0 [([mk_rarc 0 0 7 1%nat; mk_rarc 1 1 5 0%nat; mk_rarc 98 98 6 1%nat], None); ([mk_rarc 2 2 3 0%nat; mk_rarc 3 3 4 1%nat], Some 2)]
    (Some utf8_table) None.
Definition utf8_relabelled : rfst Z :=
  mk_rfst 0 [([mk_rarc 0 0 7 1%nat; mk_rarc 1 1 6 1%nat; mk_rarc 98 98 5 0%nat], None); ([mk_rarc 233 233 3 0%nat; mk_rarc 8364 8364 4 1%nat], Some 2)]
    (Some [(0, "<epsilon>"); (98, "b"); (233, enc 233); (8364, enc 8364); (1, "<sp>")]%string)
    (Some [(0, "<epsilon>"); (98, "b"); (233, enc 233); (8364, enc 8364); (1, "<sp>")]%string).
Example C72_hypotheses_met :
  proper utf8_fst /\ tidy ["<sp>"%string] utf8_fst /\
  (forall fs, fs "in"%string = Some utf8_fst ->
     fst (relabel_main sort_arcs plain_write "in" "out" ["<sp>"%string] fs) = Ok 0 /\
     snd (relabel_main sort_arcs plain_write "in" "out" ["<sp>"%string] fs) "out"%string = Some utf8_relabelled).
Proof.
  assert (Tb : forall l s, In (l, s) utf8_table -> (l = 0 /\ s = "<epsilon>"%string) \/ (l = 1 /\ s = "b"%string) \/ (l = 2 /\ s = enc 233) \/ (l = 3 /\ s = enc 8364) \/ (l = 98 /\ s = "<sp>"%string)).
  { intros l s I. unfold utf8_table in I. cbn [In] in I. repeat destruct I as [I|I]; try (injection I as <- <-; tauto). destruct I. }
  assert (Cp : forall z, is_codepoint utf8_single ["<sp>"%string] utf8_table z -> z = 98 \/ z = 233 \/ z = 8364).
  { intros z (l & s & (I & Nl & Nk) & D). apply Tb in I. destruct I as [[-> ->]|[[-> ->]|[[-> ->]|[[-> ->]|[-> ->]]]]].
    - contradiction.
    - vm_compute in D. injection D as <-. auto.
    - vm_compute in D. injection D as <-. auto.
    - vm_compute in D. injection D as <-. auto.
    - exfalso. apply Nk. left. reflexivity. }
  assert (Kp : forall l s, to_keep ["<sp>"%string] utf8_table l s -> l = 98).
  { intros l s (I & Nl & [<-|[]]). apply Tb in I. destruct I as [[-> E]|[[-> E]|[[-> E]|[[-> E]|[-> E]]]]]; auto; vm_compute in E; discriminate E. }
  split.
  { exists utf8_table. split; [reflexivity|]. split.
    - split; vm_compute; repeat (apply NoDup_cons; [cbn [In]; intuition discriminate|]); apply NoDup_nil.
    - intros st a I J _. cbn [utf8_fst rf_states In] in I. destruct I as [<-|[<-|[]]]; cbn [fst In] in J;
        repeat (destruct J as [<-|J]; [cbn; tauto|]); destruct J. }
  split.
  { exists utf8_table. split; [reflexivity|]. split; [intros H; apply Cp in H; lia|]. exists [98]. split.
    - split; [apply NoDup_cons; [intros []|apply NoDup_nil]|]. intros l. split.
      + intros [<-|[]]. split; [exists "<sp>"%string; split; [cbn; tauto|split; [lia|left; reflexivity]]|].
        exists 1, "b"%string. split; [split; [cbn; tauto|split; [lia|cbn; intuition discriminate]]|]. reflexivity.
      + intros [(s & H) _]. left. symmetry. eapply Kp. exact H.
    - intros a [<-|[]]. split; [intros H; apply Cp in H; lia|]. intros s H. apply Kp in H. lia. }
  intros fs Ef. unfold relabel_main, relabel_and_save. cbn [String.eqb]. rewrite Ef.
  replace (relabel_with_codepoints sort_arcs utf8_single ["<sp>"%string] utf8_fst) with (Ok utf8_relabelled) by (vm_compute; reflexivity).
  unfold plain_write. cbn [fst snd]. split; reflexivity.
Qed.

(** A kept label in the way that moves onto another kept label: the program exits with 0 and the output accepts what
    the input does not. *)
Definition clash_table : symtab := [(1, "<k2>"); (2, "b"); (98, "<k1>")]%string.
Definition clash_fst : rfst Z := mk_rfst 0 [([mk_rarc 1 1 5 0%nat; mk_rarc 98 98 6 0%nat], Some 0)] (Some clash_table) None.
Theorem C72_clash_refuted : exists f', proper clash_fst /\
  (forall fs, fs "in"%string = Some clash_fst ->
     fst (relabel_main sort_arcs plain_write "in" "out" ["<k1>"; "<k2>"]%string fs) = Ok 0 /\
     snd (relabel_main sort_arcs plain_write "in" "out" ["<k1>"; "<k2>"]%string fs) "out"%string = Some f') /\
  spells f' 0 [Some "<k1>"%string] [5] 0 /\ ~ spells clash_fst 0 [Some "<k1>"%string] [5] 0 /\ ~ same_language clash_fst f'.
Proof.
  set (f' := mk_rfst 0 [([mk_rarc 1 1 5 0%nat; mk_rarc 1 1 6 0%nat], Some 0)] (Some [(1, "<k2>"); (98, "b"); (1, "<k1>")]%string) (Some [(1, "<k2>"); (98, "b"); (1, "<k1>")]%string) : rfst Z).
  assert (S1 : spells f' 0 [Some "<k1>"%string] [5] 0).
  { refine (sp_arc f' 0 _ (mk_rarc 1 1 5 0%nat) (Some "<k1>"%string) [] [] 0 eq_refl _ _ (sp_nil f' 0)); [left; reflexivity|].
    split; [discriminate|]. eexists. split; [reflexivity|]. right. right. left. reflexivity. }
  assert (S2 : ~ spells clash_fst 0 [Some "<k1>"%string] [5] 0).
  { intros H. inversion H as [|q st a s ss ws q' Hq Ia La Hn]; subst. cbn in Hq. injection Hq as <-. cbn [fst In] in Ia.
    destruct Ia as [E1|[E1|[]]]; [|rewrite <- E1 in *; cbn in *; discriminate]. subst a. destruct La as (_ & syms & Es & Is). injection Es as <-.
    unfold clash_table in Is. cbn [In ra_il] in Is. destruct Is as [Is|[Is|[Is|[]]]]; discriminate Is. }
  exists f'. split.
  { exists clash_table. split; [reflexivity|]. split.
    - split; vm_compute; repeat (apply NoDup_cons; [cbn [In]; intuition discriminate|]); apply NoDup_nil.
    - intros st a I J _. cbn [clash_fst rf_states In] in I. destruct I as [<-|[]]; cbn [fst In] in J; repeat (destruct J as [<-|J]; [cbn; tauto|]); destruct J. }
  split.
  { intros fs Ef. unfold relabel_main, relabel_and_save. cbn [String.eqb]. rewrite Ef.
    replace (relabel_with_codepoints sort_arcs utf8_single ["<k1>"; "<k2>"]%string clash_fst) with (Ok f') by (vm_compute; reflexivity).
    unfold plain_write. cbn [fst snd]. split; reflexivity. }
  split; [exact S1|]. split; [exact S2|]. intros (_ & _ & L). apply S2. apply L. exact S1.
Qed.
Print Assumptions C72_clash_refuted.
