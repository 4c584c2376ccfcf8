(** Proofs about Utf8Model.v. *)
From Coq Require Import String Ascii ZifyClasses.
From Verif Require Import Base Utf8Model.
Local Open Scope Z_scope.
Close Scope string_scope.
Local Notation length := List.length.

Lemma code_range a : 0 <= code a < 256.
Proof. unfold code. pose proof (N_ascii_bounded a). lia. Qed.
Lemma code_chr z : 0 <= z < 256 -> code (chr z) = z.
Proof. intro H. unfold code, chr. rewrite N_ascii_embedding by lia. lia. Qed.
Lemma is_scalar_spec c : is_scalar c = true <-> scalar c.
Proof. unfold is_scalar, scalar. rewrite orb_true_iff, !andb_true_iff, !Z.leb_le, !Z.ltb_lt. tauto. Qed.

Lemma d64 c : 0 <= c -> c = 64 * (c / 64) + c mod 64 /\ 0 <= c mod 64 < 64 /\ 0 <= c / 64.
Proof.
  intro H. pose proof (Z.div_mod c 64 ltac:(lia)). pose proof (Z.mod_pos_bound c 64 ltac:(lia)).
  pose proof (Z.div_pos c 64 H ltac:(lia)). lia.
Qed.
Lemma d4096 c : c / 4096 = c / 64 / 64.
Proof. rewrite Z.div_div by lia. reflexivity. Qed.
Lemma d262144 c : c / 262144 = c / 64 / 64 / 64.
Proof. rewrite !Z.div_div by lia. reflexivity. Qed.

Lemma cont_chr x : 0 <= x < 64 -> cont (chr (128 + x)) = true /\ code (chr (128 + x)) = 128 + x.
Proof.
  intro H. rewrite code_chr by lia. split; [|reflexivity]. unfold cont. rewrite code_chr by lia.
  rewrite andb_true_iff, Z.leb_le, Z.ltb_lt. lia.
Qed.

Lemma runes_two a b t : code a <? 128 = false -> forall v, two a b = Some v ->
  runes (String a (String b t)) = (v, String a (String b EmptyString)) :: runes t.
Proof. intros A v E. cbn [runes]. rewrite A, E. reflexivity. Qed.
Lemma runes_three a b c t : code a <? 128 = false -> two a b = None -> forall v, three a b c = Some v ->
  runes (String a (String b (String c t))) = (v, String a (String b (String c EmptyString))) :: runes t.
Proof. intros A E2 v E. cbn [runes]. rewrite A, E2, E. reflexivity. Qed.
Lemma runes_four a b c d t : code a <? 128 = false -> two a b = None -> three a b c = None -> forall v, four a b c d = Some v ->
  runes (String a (String b (String c (String d t)))) = (v, String a (String b (String c (String d EmptyString)))) :: runes t.
Proof. intros A E2 E3 v E. cbn [runes]. rewrite A, E2, E3, E. reflexivity. Qed.

Lemma two_some a b v : 192 <= code a < 224 -> 128 <= code b < 192 -> v = (code a - 192) * 64 + (code b - 128) -> 128 <= v -> two a b = Some v.
Proof.
  intros A B -> V. unfold two, cont.
  rewrite (proj2 (Z.leb_le _ _)), (proj2 (Z.ltb_lt (code a) _)), (proj2 (Z.leb_le 128 (code b))), (proj2 (Z.ltb_lt (code b) _)), (proj2 (Z.leb_le _ _)) by lia.
  reflexivity.
Qed.
Lemma two_none a b : 224 <= code a -> two a b = None.
Proof. intro A. unfold two. rewrite (proj2 (Z.ltb_ge (code a) 224)) by lia. rewrite andb_false_r. reflexivity. Qed.
Lemma three_none a b c : 240 <= code a -> three a b c = None.
Proof. intro A. unfold three. rewrite (proj2 (Z.ltb_ge (code a) 240)) by lia. rewrite andb_false_r. reflexivity. Qed.
Lemma three_some a b c v : 224 <= code a < 240 -> 128 <= code b < 192 -> 128 <= code c < 192 ->
  v = (code a - 224) * 4096 + (code b - 128) * 64 + (code c - 128) -> 2048 <= v -> scalar v -> three a b c = Some v.
Proof.
  intros A B C E V S. unfold three, cont. rewrite <- E. apply is_scalar_spec in S. rewrite S.
  rewrite (proj2 (Z.leb_le _ (code a))), (proj2 (Z.ltb_lt (code a) _)), (proj2 (Z.leb_le 128 (code b))), (proj2 (Z.ltb_lt (code b) _)),
    (proj2 (Z.leb_le 128 (code c))), (proj2 (Z.ltb_lt (code c) _)), (proj2 (Z.leb_le _ v)) by lia.
  reflexivity.
Qed.
Lemma four_some a b c d v : 240 <= code a < 248 -> 128 <= code b < 192 -> 128 <= code c < 192 -> 128 <= code d < 192 ->
  v = (code a - 240) * 262144 + (code b - 128) * 4096 + (code c - 128) * 64 + (code d - 128) -> 65536 <= v -> scalar v -> four a b c d = Some v.
Proof.
  intros A B C D E V S. unfold four, cont. rewrite <- E. apply is_scalar_spec in S. rewrite S.
  rewrite (proj2 (Z.leb_le _ (code a))), (proj2 (Z.ltb_lt (code a) _)), (proj2 (Z.leb_le 128 (code b))), (proj2 (Z.ltb_lt (code b) _)),
    (proj2 (Z.leb_le 128 (code c))), (proj2 (Z.ltb_lt (code c) _)), (proj2 (Z.leb_le 128 (code d))), (proj2 (Z.ltb_lt (code d) _)), (proj2 (Z.leb_le _ v)) by lia.
  reflexivity.
Qed.

(** Reading back one character. *)
Lemma runes_enc c s : scalar c -> runes (append (enc c) s) = (c, enc c) :: runes s.
Proof.
  intro S. assert (H : 0 <= c < 1114112) by (unfold scalar in S; lia). unfold enc.
  destruct (Z.ltb_spec c 128) as [L|L].
  - cbn [append runes]. rewrite code_chr by lia. rewrite (proj2 (Z.ltb_lt _ _) L). reflexivity.
  - destruct (d64 c) as (E1 & R1 & P1); [lia|]. rewrite d4096, d262144.
    set (x := c / 64) in *. set (r := c mod 64) in *. destruct (d64 x) as (E2 & R2 & P2); [lia|].
    set (y := x / 64) in *. set (r2 := x mod 64) in *. destruct (d64 y) as (E3 & R3 & P3); [lia|].
    set (z := y / 64) in *. set (r3 := y mod 64) in *. clearbody r3 z r2 y r x.
    destruct (cont_chr r R1) as [C1 V1], (cont_chr r2 R2) as [C2 V2], (cont_chr r3 R3) as [C3 V3].
    destruct (Z.ltb_spec c 2048) as [L2|L2]; [|destruct (Z.ltb_spec c 65536) as [L3|L3]]; cbn [append].
    + rewrite (runes_two _ _ _) with (v := c); [reflexivity| |].
      * rewrite code_chr by lia. apply Z.ltb_ge. lia.
      * apply two_some; rewrite ?code_chr by lia; lia.
    + rewrite (runes_three _ _ _ _) with (v := c); [reflexivity| | |].
      * rewrite code_chr by lia. apply Z.ltb_ge. lia.
      * apply two_none. rewrite code_chr by lia. lia.
      * apply three_some; rewrite ?code_chr by lia; auto; lia.
    + rewrite (runes_four _ _ _ _ _) with (v := c); [reflexivity| | | |].
      * rewrite code_chr by lia. apply Z.ltb_ge. lia.
      * apply two_none. rewrite code_chr by lia. lia.
      * apply three_none. rewrite code_chr by lia. lia.
      * apply four_some; rewrite ?code_chr by lia; auto; lia.
Qed.

Lemma enc_length c : (1 <= String.length (enc c) <= 4)%nat.
Proof. unfold enc. destruct (c <? 128), (c <? 2048), (c <? 65536); cbn; lia. Qed.

Lemma runes_encode l : Forall scalar l -> runes (utf8_encode l) = map (fun c => (c, enc c)) l.
Proof.
  induction 1 as [|c l S _ IH]; [reflexivity|]. cbn [utf8_encode map]. rewrite runes_enc by auto. rewrite IH. reflexivity.
Qed.

(** Every text falls into characters: induction over [runes]. *)
Lemma runes_ind (P : string -> list (Z * string) -> Prop) :
  P EmptyString [] ->
  (forall c p s l, (1 <= String.length p)%nat -> scalar c -> (p = enc c \/ c = bad_char) -> P s l -> P (append p s) ((c, p) :: l)) ->
  forall s, P s (runes s).
Proof.
  intros P0 P1 s.
  assert (B : forall a t, P t (runes t) -> P (String a t) ((bad_char, String a EmptyString) :: runes t)).
  { intros a t H. apply (P1 bad_char (String a EmptyString) t); auto. unfold scalar, bad_char. lia. }
  assert (G : forall n s, (String.length s <= n)%nat -> P s (runes s)); [|eapply G; reflexivity].
  clear s. induction n as [|n IH]; intros s L; [destruct s; [exact P0|cbn in L; lia]|].
  destruct s as [|a t]; [exact P0|]. cbn [String.length] in L.
  assert (It : P t (runes t)) by (apply IH; lia). pose proof (code_range a) as Ra.
  assert (CC : forall a, chr (code a) = a) by (intro x; unfold chr, code; rewrite N2Z.id; apply ascii_N_embedding).
  cbn [runes]. destruct (Z.ltb_spec (code a) 128) as [L1|L1].
  { apply (P1 (code a) (String a EmptyString) t); auto; [unfold scalar; lia|]. left. unfold enc.
    rewrite (proj2 (Z.ltb_lt _ _) L1), CC. reflexivity. }
  destruct t as [|b t1]; [exact (B a EmptyString It)|]. cbn [String.length] in L. pose proof (code_range b) as Rb.
  destruct (two a b) as [v|] eqn:E2.
  { apply (P1 v (String a (String b EmptyString)) t1); [cbn; lia| | |apply IH; lia]; unfold two, cont in E2;
      destruct ((192 <=? code a) && (code a <? 224) && ((128 <=? code b) && (code b <? 192)) && (128 <=? (code a - 192) * 64 + (code b - 128)))%bool eqn:K;
      try discriminate; injection E2 as <-; rewrite !andb_true_iff, !Z.leb_le, !Z.ltb_lt in K; [unfold scalar; lia|].
    left. unfold enc. set (v := (code a - 192) * 64 + (code b - 128)) in *.
    assert (D : v / 64 = code a - 192 /\ v mod 64 = code b - 128).
    { split; symmetry; [apply (Z.div_unique v 64 _ (code b - 128))|apply (Z.mod_unique v 64 (code a - 192))]; lia. }
    destruct D as [D1 D2]. destruct (Z.ltb_spec v 128); [lia|]. destruct (Z.ltb_spec v 2048); [|lia]. rewrite D1, D2.
    replace (192 + (code a - 192)) with (code a) by lia. replace (128 + (code b - 128)) with (code b) by lia. rewrite !CC. reflexivity. }
  destruct t1 as [|c t2]; [exact (B a _ It)|]. cbn [String.length] in L. pose proof (code_range c) as Rc.
  destruct (three a b c) as [v|] eqn:E3.
  { apply (P1 v (String a (String b (String c EmptyString))) t2); [cbn; lia| | |apply IH; lia]; unfold three, cont in E3;
      match type of E3 with (if ?k then _ else _) = _ => destruct k eqn:K; [|discriminate] end; injection E3 as <-;
      rewrite !andb_true_iff, !Z.leb_le, !Z.ltb_lt, is_scalar_spec in K; [tauto|].
    left. unfold enc. set (v := (code a - 224) * 4096 + (code b - 128) * 64 + (code c - 128)) in *.
    assert (D : v / 64 = (code a - 224) * 64 + (code b - 128) /\ v mod 64 = code c - 128).
    { split; symmetry; [apply (Z.div_unique v 64 _ (code c - 128))|apply (Z.mod_unique v 64 ((code a - 224) * 64 + (code b - 128)))]; lia. }
    destruct D as [D1 D2]. rewrite d4096, D1.
    assert (D : ((code a - 224) * 64 + (code b - 128)) / 64 = code a - 224 /\ ((code a - 224) * 64 + (code b - 128)) mod 64 = code b - 128).
    { split; symmetry; [apply (Z.div_unique _ 64 _ (code b - 128))|apply (Z.mod_unique _ 64 (code a - 224))]; lia. }
    destruct D as [D3 D4]. rewrite D2, D3, D4.
    destruct (Z.ltb_spec v 128); [lia|]. destruct (Z.ltb_spec v 2048); [lia|]. destruct (Z.ltb_spec v 65536); [|unfold scalar in *; lia].
    replace (224 + (code a - 224)) with (code a) by lia. replace (128 + (code b - 128)) with (code b) by lia.
    replace (128 + (code c - 128)) with (code c) by lia. rewrite !CC. reflexivity. }
  destruct t2 as [|d t3]; [exact (B a _ It)|]. cbn [String.length] in L. pose proof (code_range d) as Rd.
  destruct (four a b c d) as [v|] eqn:E4; [|exact (B a _ It)].
  apply (P1 v (String a (String b (String c (String d EmptyString)))) t3); [cbn; lia| | |apply IH; lia]; unfold four, cont in E4;
    match type of E4 with (if ?k then _ else _) = _ => destruct k eqn:K; [|discriminate] end; injection E4 as <-;
    rewrite !andb_true_iff, !Z.leb_le, !Z.ltb_lt, is_scalar_spec in K; [tauto|].
  left. unfold enc. set (v := (code a - 240) * 262144 + (code b - 128) * 4096 + (code c - 128) * 64 + (code d - 128)) in *.
  set (w := (code a - 240) * 4096 + (code b - 128) * 64 + (code c - 128)).
  set (u := (code a - 240) * 64 + (code b - 128)).
  assert (D : v / 64 = w /\ v mod 64 = code d - 128).
  { split; symmetry; [apply (Z.div_unique v 64 _ (code d - 128))|apply (Z.mod_unique v 64 w)]; unfold v, w; lia. }
  assert (D' : w / 64 = u /\ w mod 64 = code c - 128).
  { split; symmetry; [apply (Z.div_unique w 64 _ (code c - 128))|apply (Z.mod_unique w 64 u)]; unfold u, w; lia. }
  assert (D'' : u / 64 = code a - 240 /\ u mod 64 = code b - 128).
  { split; symmetry; [apply (Z.div_unique u 64 _ (code b - 128))|apply (Z.mod_unique u 64 (code a - 240))]; unfold u; lia. }
  destruct D as [D1 D2], D' as [D3 D4], D'' as [D5 D6]. rewrite d262144, d4096, D1, D3, D5, D2, D4, D6.
  destruct (Z.ltb_spec v 128); [lia|]. destruct (Z.ltb_spec v 2048); [lia|]. destruct (Z.ltb_spec v 65536); [lia|].
  replace (240 + (code a - 240)) with (code a) by lia. replace (128 + (code b - 128)) with (code b) by lia.
  replace (128 + (code c - 128)) with (code c) by lia. replace (128 + (code d - 128)) with (code d) by lia. rewrite !CC. reflexivity.
Qed.

Lemma append_length a b : String.length (append a b) = (String.length a + String.length b)%nat.
Proof. induction a; cbn; auto. Qed.
