(** The readers of TextModel.v read what TextSpec.v says is written. *)
From Coq Require Import Ascii String DecimalString Decimal DecimalZ.
From Verif Require Import Base TextModel TextSpec.
Close Scope string_scope.
Open Scope list_scope.
Local Open Scope Z_scope.

(** ** Lines *)
Lemma newline_eq : newline = ascii_of_nat 10. Proof. reflexivity. Qed.
Lemma space_eq : space = " "%char. Proof. reflexivity. Qed.

Lemma getlines_skip l : ~ In newline l -> forall cur rest,
  getlines_from cur (l ++ rest) = getlines_from (rev l ++ cur) rest.
Proof.
  induction l as [|c l IH]; intros N cur rest; [reflexivity|]. cbn [app getlines_from].
  destruct (Ascii.eqb_spec c newline) as [->|]; [exfalso; apply N; left; reflexivity|].
  rewrite IH by (intros H; apply N; right; auto). cbn [rev]. rewrite <- app_assoc. reflexivity.
Qed.

Lemma lined_getlines content ls : lined content ls -> getlines content = ls.
Proof.
  unfold getlines. induction 1 as [|l Hn Hi|l rest ls Hi H IH]; [reflexivity| |].
  - rewrite <- (app_nil_r l) at 1. rewrite getlines_skip by exact Hi. rewrite app_nil_r. cbn [getlines_from].
    destruct (rev l) eqn:E; [apply (f_equal (@rev _)) in E; rewrite rev_involutive in E; contradiction|]. rewrite <- E, rev_involutive. reflexivity.
  - rewrite getlines_skip by exact Hi. cbn [getlines_from]. rewrite <- newline_eq, Ascii.eqb_refl, app_nil_r, rev_involutive. f_equal. exact IH.
Qed.

Lemma getlines_lined_from content : forall cur, ~ In newline cur -> lined (rev cur ++ content) (getlines_from cur content).
Proof.
  induction content as [|c t IH]; intros cur N; cbn [getlines_from].
  - rewrite app_nil_r. destruct cur as [|a cur]; [constructor|]. apply lined_last.
    + cbn [rev]. intros E. apply (f_equal (@List.length _)) in E. rewrite app_length in E. cbn in E. lia.
    + rewrite <- in_rev. exact N.
  - destruct (Ascii.eqb_spec c newline) as [->|Ne].
    + apply lined_cons; [rewrite <- in_rev; exact N|]. apply (IH []). intros [].
    + replace (rev cur ++ c :: t) with (rev (c :: cur) ++ t) by (cbn [rev]; rewrite <- app_assoc; reflexivity).
      apply IH. intros [H|H]; auto.
Qed.
Lemma getlines_lined content : lined content (getlines content).
Proof. apply (getlines_lined_from content []). intros []. Qed.

(** ** Fields *)
Lemma split_blanks n : forall rest, split_from [] (repeat " "%char n ++ rest) = split_from [] rest.
Proof. induction n as [|n IH]; intros rest; [reflexivity|]. cbn [repeat app split_from]. rewrite <- space_eq, Ascii.eqb_refl. apply IH. Qed.
Lemma split_skip l : ~ In space l -> forall cur rest,
  split_from cur (l ++ rest) = split_from (rev l ++ cur) rest.
Proof.
  induction l as [|c l IH]; intros N cur rest; [reflexivity|]. cbn [app split_from].
  destruct (Ascii.eqb_spec c space) as [->|]; [exfalso; apply N; left; reflexivity|].
  rewrite IH by (intros H; apply N; right; auto). cbn [rev]. rewrite <- app_assoc. reflexivity.
Qed.
Lemma rev_nonempty (l : bytes) : l <> [] -> exists c t, rev l = c :: t.
Proof. intros N. destruct (rev l) eqn:E; [|eauto]. apply (f_equal (@rev _)) in E. rewrite rev_involutive in E. contradiction. Qed.

Lemma spaced_split line fs : spaced line fs -> split_space line = fs.
Proof.
  unfold split_space. induction 1 as [n|n f Hn Hi|n f rest fs Hn Hi H IH].
  - rewrite <- (app_nil_r (repeat _ n)), split_blanks. reflexivity.
  - rewrite split_blanks. rewrite <- (app_nil_r f) at 1. rewrite split_skip by exact Hi. rewrite app_nil_r. cbn [split_from].
    destruct (rev_nonempty f Hn) as (c & t & E). rewrite E, <- E, rev_involutive. reflexivity.
  - rewrite split_blanks, split_skip by exact Hi. cbn [split_from]. rewrite <- space_eq, Ascii.eqb_refl, app_nil_r.
    destruct (rev_nonempty f Hn) as (c & t & E). rewrite E, <- E, rev_involutive. f_equal. exact IH.
Qed.

Lemma spaced_blank line fs : spaced line fs -> spaced (" "%char :: line) fs.
Proof.
  destruct 1 as [n|n f Hn Hi|n f rest fs Hn Hi H].
  - apply (spaced_end (S n)).
  - apply (spaced_last (S n)); auto.
  - apply (spaced_cons (S n)); auto.
Qed.
Lemma split_spaced_from line : forall cur, ~ In space cur -> spaced (rev cur ++ line) (split_from cur line).
Proof.
  induction line as [|c t IH]; intros cur N; cbn [split_from].
  - rewrite app_nil_r. destruct cur as [|a cur]; [apply (spaced_end 0)|]. apply (spaced_last 0).
    + cbn [rev]. intros E. apply (f_equal (@List.length _)) in E. rewrite app_length in E. cbn in E. lia.
    + rewrite <- in_rev. exact N.
  - destruct (Ascii.eqb_spec c space) as [->|Ne].
    + destruct cur as [|a cur].
      * cbn [rev app]. apply spaced_blank. apply (IH []). intros [].
      * apply (spaced_cons 0).
        { cbn [rev]. intros E. apply (f_equal (@List.length _)) in E. rewrite app_length in E. cbn in E. lia. }
        { rewrite <- in_rev. exact N. }
        apply (IH []). intros [].
    + replace (rev cur ++ c :: t) with (rev (c :: cur) ++ t) by (cbn [rev]; rewrite <- app_assoc; reflexivity).
      apply IH. intros [H|H]; auto.
Qed.
Lemma split_spaced line : spaced line (split_space line).
Proof. apply (split_spaced_from line []). intros []. Qed.

(** ** Numbers *)
Lemma digits_stop rest acc : no_digit_first rest -> digits acc rest = acc.
Proof.
  intros N. destruct rest as [|c t]; [reflexivity|]. cbn [digits]. unfold digit.
  specialize (N c t eq_refl). unfold nat_of_ascii in N.
  destruct (N.leb_spec 48 (N_of_ascii c)); [|reflexivity]. destruct (N.leb_spec (N_of_ascii c) 57); [|reflexivity]. lia.
Qed.

Notation ustr d := (bstr (NilEmpty.string_of_uint d)).
Lemma bstr_cons c s : bstr (String c s) = c :: bstr s. Proof. reflexivity. Qed.

Lemma digits_pos d : forall a rest, no_digit_first rest ->
  digits (Some (Zpos a)) (ustr d ++ rest) = Some (Zpos (Pos.of_uint_acc d a)).
Proof.
  induction d as [|d IH|d IH|d IH|d IH|d IH|d IH|d IH|d IH|d IH|d IH]; intros a rest N;
    [apply digits_stop; exact N|..];
    cbn [NilEmpty.string_of_uint]; rewrite bstr_cons; cbn [app digits Pos.of_uint_acc];
    match goal with |- context [digit ?c] => let x := eval vm_compute in (digit c) in change (digit c) with x end; cbv iota;
    (match goal with |- _ = Some (Zpos (Pos.of_uint_acc _ ?b)) =>
       match goal with |- digits (Some ?z) _ = _ => replace z with (Zpos b) by lia end end); apply IH; exact N.
Qed.
Lemma digits_zero d : forall rest, no_digit_first rest ->
  digits (Some 0) (ustr d ++ rest) = Some (Z.of_N (Pos.of_uint d)).
Proof.
  induction d as [|d IH|d IH|d IH|d IH|d IH|d IH|d IH|d IH|d IH|d IH]; intros rest N;
    [apply digits_stop; exact N|..];
    cbn [NilEmpty.string_of_uint]; rewrite bstr_cons; cbn [app digits Pos.of_uint];
    match goal with |- context [digit ?c] => let x := eval vm_compute in (digit c) in change (digit c) with x end; cbv iota;
    [apply IH; exact N|..]; cbn [Z.of_N];
    match goal with |- digits (Some ?z) _ = _ => let y := eval vm_compute in z in change z with y end; apply digits_pos; exact N.
Qed.

(** The notation of a non-negative number. *)
Lemma digits_decimal d rest : no_digit_first rest ->
  digits None (bstr (NilZero.string_of_uint d) ++ rest) = Some (Z.of_N (Pos.of_uint d)).
Proof.
  intros N. destruct d as [|d|d|d|d|d|d|d|d|d|d].
  1:{ cbn [NilZero.string_of_uint]. rewrite bstr_cons. cbn [app digits bstr list_ascii_of_string].
      match goal with |- context [digit ?c] => let x := eval vm_compute in (digit c) in change (digit c) with x end. cbv iota. apply digits_stop; exact N. }
  all: cbn [NilZero.string_of_uint NilEmpty.string_of_uint]; rewrite bstr_cons; cbn [app digits Pos.of_uint];
    match goal with |- context [digit ?c] => let x := eval vm_compute in (digit c) in change (digit c) with x end; cbv iota;
    first [apply digits_zero; exact N|cbn [Z.of_N]; apply digits_pos; exact N].
Qed.

Lemma nil_zero_first d : exists c t, bstr (NilZero.string_of_uint d) = c :: t /\ is_space c = false /\ Ascii.eqb c "-" = false /\ Ascii.eqb c "+" = false.
Proof. destruct d; cbn [NilZero.string_of_uint NilEmpty.string_of_uint]; eexists _, _; (split; [reflexivity|]); repeat split; reflexivity. Qed.

Lemma parse_decimal lo hi z rest : lo <= z <= hi -> no_digit_first rest -> parse_int lo hi (decimal z ++ rest) = Ok z.
Proof.
  intros R N. unfold decimal. pose proof (of_to z) as E. destruct (Z.to_int z) as [d|d]; cbn [NilZero.string_of_int Z.of_int] in *.
  - destruct (nil_zero_first d) as (c & t & E1 & E2 & E3 & E4). unfold parse_int.
    assert (S : skip_spaces (bstr (NilZero.string_of_uint d) ++ rest) = bstr (NilZero.string_of_uint d) ++ rest).
    { rewrite E1. cbn [app skip_spaces]. rewrite E2. reflexivity. }
    rewrite S. clear S. rewrite E1 at 1. cbn [app]. rewrite E3, E4. rewrite digits_decimal by exact N.
    unfold Z.of_uint in E. rewrite E. destruct (Z.leb_spec lo z), (Z.leb_spec z hi); [reflexivity|lia..].
  - unfold parse_int. rewrite bstr_cons. cbn [app skip_spaces].
    change (is_space "-"%char) with false. cbv iota. rewrite Ascii.eqb_refl.
    rewrite digits_decimal by exact N. cbn [option_map]. unfold Z.of_uint in E. rewrite E.
    destruct (Z.leb_spec lo z), (Z.leb_spec z hi); [reflexivity|lia..].
Qed.
Lemma is_space_white c : white c -> is_space c = true.
Proof.
  unfold white, is_space, nat_of_ascii. intro H. apply orb_true_iff. destruct H as [H|H]; [left; apply andb_true_iff; split|right].
  - apply N.leb_le. lia.
  - apply N.leb_le. lia.
  - apply N.eqb_eq. lia.
Qed.
Lemma parse_white lo hi ws f : Forall white ws -> parse_int lo hi (ws ++ f) = parse_int lo hi f.
Proof.
  intro H. unfold parse_int. assert (E : skip_spaces (ws ++ f) = skip_spaces f); [|rewrite E; reflexivity].
  induction H as [|c ws H _ IH]; [reflexivity|]. cbn [app skip_spaces]. rewrite (is_space_white c H). exact IH.
Qed.
Lemma parse_plus lo hi z rest : lo <= z <= hi -> 0 <= z -> no_digit_first rest ->
  parse_int lo hi ("+"%char :: decimal z ++ rest) = Ok z.
Proof.
  intros R P N. unfold parse_int. cbn [skip_spaces]. change (is_space "+"%char) with false. cbv iota.
  change (Ascii.eqb "+" "-") with false. rewrite Ascii.eqb_refl. cbv iota.
  unfold decimal. pose proof (of_to z) as E. destruct (Z.to_int z) as [d|d] eqn:D; cbn [NilZero.string_of_int Z.of_int] in *.
  - rewrite digits_decimal by exact N. unfold Z.of_uint in E. rewrite E.
    destruct (Z.leb_spec lo z), (Z.leb_spec z hi); [reflexivity|lia..].
  - exfalso. destruct z; discriminate D || lia.
Qed.
Lemma parse_says lo hi f z : says f z -> lo <= z <= hi -> parse_int lo hi f = Ok z.
Proof.
  intros (ws & sign & rest & -> & W & S & N) R. rewrite parse_white by exact W.
  destruct S as [->|[-> P]]; [apply parse_decimal | apply parse_plus]; auto.
Qed.
Lemma stoi_says f z : says f z -> int32_min <= z <= int32_max -> stoi f = Ok z.
Proof. apply parse_says. Qed.
Lemma stol_says f z : says f z -> int64_min <= z <= int64_max -> stol f = Ok z.
Proof. apply parse_says. Qed.
(** Out of range: the exception that nothing catches. *)
Lemma parse_out lo hi z rest : ~ (lo <= z <= hi) -> no_digit_first rest -> parse_int lo hi (decimal z ++ rest) = Crash.
Proof.
  intros R N. unfold decimal. pose proof (of_to z) as E. destruct (Z.to_int z) as [d|d]; cbn [NilZero.string_of_int Z.of_int] in *.
  - destruct (nil_zero_first d) as (c & t & E1 & E2 & E3 & E4). unfold parse_int.
    assert (S : skip_spaces (bstr (NilZero.string_of_uint d) ++ rest) = bstr (NilZero.string_of_uint d) ++ rest).
    { rewrite E1. cbn [app skip_spaces]. rewrite E2. reflexivity. }
    rewrite S. clear S. rewrite E1 at 1. cbn [app]. rewrite E3, E4. rewrite digits_decimal by exact N.
    unfold Z.of_uint in E. rewrite E. destruct (Z.leb_spec lo z), (Z.leb_spec z hi); [lia|reflexivity..].
  - unfold parse_int. rewrite bstr_cons. cbn [app skip_spaces].
    change (is_space "-"%char) with false. cbv iota. rewrite Ascii.eqb_refl.
    rewrite digits_decimal by exact N. cbn [option_map]. unfold Z.of_uint in E. rewrite E.
    destruct (Z.leb_spec lo z), (Z.leb_spec z hi); [lia|reflexivity..].
Qed.

(** ** The writers *)
Definition digit_char (c : ascii) : Prop := c = "-"%char \/ (48 <= nat_of_ascii c <= 57)%nat.
Lemma ustr_digits d : Forall digit_char (ustr d).
Proof. induction d; cbn [NilEmpty.string_of_uint]; rewrite ?bstr_cons; constructor; auto; right; vm_compute; lia. Qed.
Lemma decimal_digits z : Forall digit_char (decimal z).
Proof.
  assert (U : forall d, Forall digit_char (bstr (NilZero.string_of_uint d))).
  { intros d. destruct d; try apply ustr_digits. cbn. constructor; [right; vm_compute; lia|constructor]. }
  unfold decimal. destruct (Z.to_int z); cbn [NilZero.string_of_int]; [apply U|]. rewrite bstr_cons. constructor; [left; reflexivity|apply U].
Qed.
Lemma decimal_not c z : ~ digit_char c -> ~ In c (decimal z).
Proof. intros N I. pose proof (decimal_digits z) as D. rewrite Forall_forall in D. auto. Qed.
Lemma decimal_nonempty z : decimal z <> [].
Proof.
  unfold decimal. destruct (Z.to_int z) as [d|d]; cbn [NilZero.string_of_int]; [|rewrite bstr_cons; discriminate].
  destruct (nil_zero_first d) as (c & t & -> & _). discriminate.
Qed.
Lemma no_blank z : ~ In " "%char (decimal z).
Proof. apply decimal_not. intros [H|H]; [discriminate H|]. vm_compute in H. lia. Qed.
Lemma no_newline z : ~ In (ascii_of_nat 10) (decimal z).
Proof. apply decimal_not. intros [H|H]; [discriminate H|]. vm_compute in H. lia. Qed.
Lemma says_decimal z : says (decimal z) z.
Proof.
  exists [], [], []. rewrite app_nil_r. split; [reflexivity|]. split; [constructor|]. split; [left; reflexivity|].
  intros c t H. discriminate H.
Qed.

Lemma write_row_spaced row : spaced (write_row row) (map decimal row).
Proof.
  induction row as [|z t IH]; [apply (spaced_end 0)|].
  unfold write_row in *. cbn [map concat]. rewrite <- app_assoc. apply (spaced_cons 0); auto using decimal_nonempty, no_blank.
Qed.
Lemma write_row_newline row : ~ In (ascii_of_nat 10) (write_row row).
Proof.
  unfold write_row. rewrite in_concat. intros (x & H1 & H2). apply in_map_iff in H1. destruct H1 as (z & <- & _).
  apply in_app_or in H2. destruct H2 as [H2|[H2|[]]]; [exact (no_newline z H2)|discriminate H2].
Qed.
Lemma write_table_file rows : table_file (write_table rows) rows.
Proof.
  exists (map write_row rows). split.
  - induction rows as [|r t IH]; [constructor|]. unfold write_table in *. cbn [map concat]. rewrite <- app_assoc. apply lined_cons; auto using write_row_newline.
  - induction rows as [|r t IH]; constructor; auto. exists (map decimal r). split; [apply write_row_spaced|].
    clear. induction r; constructor; auto using says_decimal.
Qed.
Lemma write_vocabulary_file v : vocabulary_file (write_vocabulary v) v.
Proof.
  destruct (write_table_file (map (fun x => [x]) v)) as (ls & L & H). exists ls. split; [exact L|]. clear L.
  revert ls H. induction v as [|x t IH]; intros ls H; inversion H; subst; constructor; auto.
  match goal with K : exists fs, _ |- _ => destruct K as (fs & S & A) end.
  inversion A as [|f z fs' zs Hs Hr]; subst. inversion Hr; subst. eauto.
Qed.

(** Examples. *)
Example text_test_1 : map split_space (getlines (bstr "12 3  4
 5
6")) = [[bstr "12"; bstr "3"; bstr "4"]; [bstr "5"]; [bstr "6"]].
Proof. reflexivity. Qed.
Example text_test_2 : (stoi (bstr "-12x"), stoi (bstr "x"), stoi (bstr "3000000000"), stol (bstr "3000000000"))
  = (Ok (-12)%Z, Crash, Crash, Ok 3000000000%Z).
Proof. reflexivity. Qed.
