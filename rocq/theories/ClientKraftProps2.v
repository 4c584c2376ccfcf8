(** C80: the bound on the alphabet is sharp. *)
From Coq Require Import Reals Lra String Ascii.
From Verif Require Import Base Field FieldR LmModel LmProofs ServerModel TextModel ClientModel
  ClientSpec ClientProofs ClientBits ClientProps2 ClientKraft ClientKraftProps.
Close Scope string_scope.
Local Notation length := List.length.
Local Open Scope R_scope.

(** The bound on the alphabet is sharp: the uniform share is 1/143859, the number of Unicode
    characters, and the end of the line is one symbol more.  Over all characters and the end of the
    line the values add up to more than one (by 7 * 10^-14). *)
Fixpoint letters (n : nat) : string := match n with O => ""%string | S m => String "a"%char (letters m) end.
Theorem C80_one_symbol_more_refuted : exists A r os,
  NoDup A /\ Z.of_nat (length A) = 143860%Z /\ In ""%string A /\ distribution r /\ well_formed r /\
  Forall2 (fun s o => scored (s, r) o) A os /\ 1 < sum (map (fun o => Rpower 2 (- code_length o)) os).
Proof.
  set (n := Z.to_nat 143860).
  set (r := mk_scores [(1 : car R_field)] [""%string] (1 : car R_field)).
  set (A := map letters (seq 0 n)).
  assert (Lt : forall k, String.length (letters k) = k) by (induction k; cbn; congruence).
  assert (D : distribution r) by (split; [intros p [<-|[]]; lra | cbn; lra]).
  assert (NA : NoDup A).
  { unfold A. pose proof (seq_NoDup n 0) as S. induction S as [|x l N S IH]; [constructor|]. cbn [map]. constructor; [|exact IH].
    intro I. apply in_map_iff in I. destruct I as (y & E & I). apply (f_equal String.length) in E. rewrite !Lt in E. congruence. }
  assert (LA : Z.of_nat (length A) = 143860%Z).
  { unfold A. rewrite map_length, seq_length. unfold n. lia. }
  assert (IA : In ""%string A).
  { apply in_map_iff. exists 0%nat. split; [reflexivity|]. apply in_seq. unfold n. lia. }
  exists A, r, (map (fun s => largest (entries_of r) s) A).
  split; [exact NA|]. split; [exact LA|]. split; [exact IA|]. split; [exact D|]. split; [split; [reflexivity | discriminate]|].
  assert (Sc : forall s, scored (s, r) (largest (entries_of r) s)).
  { intro s. unfold scored, offers. cbn [fst snd]. exact (largest_spec (entries_of r) s). }
  split. { clear - Sc. induction A as [|s A IH]; constructor; auto. }
  rewrite map_map.
  assert (V : forall s, Rpower 2 (- code_length (largest (entries_of r) s)) = value (largest (entries_of r) s)).
  { intro s. pose proof (weight_bits [(s, r)] [largest (entries_of r) s]) as W. cbn [weight fold_right map] in W.
    rewrite sum_cons in W. change (sum []) with 0 in W. rewrite Rplus_0_r, Rmult_1_r in W. symmetry. apply W.
    - constructor; [exact D | constructor].
    - constructor; [apply Sc | constructor]. }
  rewrite (map_ext _ _ V).
  pose proof eps_range as Ep.
  assert (G : forall B, sum (map (fun s => value (largest (entries_of r) s)) B) >=
    INR (length B) * (kMixEpsilon / 143859) + (if in_dec string_dec ""%string B then 1 - kMixEpsilon else 0)).
  { assert (E0 : forall s, value (largest (entries_of r) s) = kMixEpsilon / 143859 + (if String.eqb s "" then 1 - kMixEpsilon else 0)).
    { intro s. unfold value, entries_of. cbn [combine msg_probs msg_symbols largest r].
      destruct (String.eqb s ""); ring. }
    induction B as [|s B IH].
    - cbn. lra.
    - cbn [map length]. rewrite sum_cons, S_INR, E0. destruct (in_dec string_dec ""%string (s :: B)) as [I|I].
      + destruct (String.eqb_spec s "") as [->|N].
        * destruct (in_dec string_dec ""%string B); lra.
        * destruct I as [I|I]; [congruence|]. destruct (in_dec string_dec ""%string B) as [_|J]; [lra | contradiction].
      + destruct (String.eqb_spec s "") as [->|N]; [exfalso; apply I; left; reflexivity|].
        destruct (in_dec string_dec ""%string B) as [J|J]; [exfalso; apply I; right; exact J | lra]. }
  specialize (G A). destruct (in_dec string_dec ""%string A) as [_|J]; [|contradiction].
  rewrite INR_IZR_INZ, LA in G. unfold Rdiv in G. lra.
Qed.
Print Assumptions C80_one_symbol_more_refuted.
