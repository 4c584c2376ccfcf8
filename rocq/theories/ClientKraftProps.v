(** C80: the code lengths the client reports are those of a code.  Specification ([distribution]) in
    ClientKraft.v, [text_scored], [scored], [code_length] in ClientBits.v. *)
From Coq Require Import Reals Lra String.
From Verif Require Import Base Field FieldR LmModel LmProofs ServerModel TextModel ClientModel
  ClientSpec ClientProofs ClientBits ClientProps2 ClientKraft.
Close Scope string_scope.
Local Notation length := List.length.
Local Open Scope R_scope.

(** Different texts of [k] lines, over an alphabet of up to 143859 symbols (the end of line among
    them), each scored from the same world: their total code lengths satisfy Kraft's inequality,
    although the server learns from each text while it is scored. *)
Theorem C80_kraft : forall (W : Type) unicode chars (srv : server R_field W) w A k
    (texts : list (list string)) (bits : list R),
  NoDup A -> (Z.of_nat (length A) <= 143859)%Z ->
  NoDup texts ->
  (forall ls, In ls texts -> length ls = k /\
     forall l, In l ls -> ~ In ""%string (chars l) /\ forall s, In s (chars l ++ [""%string])%list -> In s A) ->
  (forall ls ls', In ls texts -> In ls' texts -> map chars ls = map chars ls' -> ls = ls') ->
  Forall2 (fun ls b => exists tr w' os, text_scored unicode chars srv w ls tr w' /\
     Forall (fun e => distribution (snd e)) tr /\ Forall2 scored tr os /\ b = sum (map code_length os)) texts bits ->
  sum (map (fun b => Rpower 2 (- b)) bits) <= 1.
Proof.
  intros W unicode chars srv w A k texts bits NA LA ND Ht Inj F.
  assert (E : exists T : list (list string * R), map fst T = map (symbols chars) texts /\
    map snd T = map (fun b => Rpower 2 (- b)) bits /\
    forall e, In e T -> run (goes unicode srv) (predicts srv) A (Start w) (fst e) (snd e)).
  { clear ND Inj. induction F as [|ls b texts bits (tr & w' & os & T & D & Sc & ->) F IH].
    - exists []. split; [reflexivity|]. split; [reflexivity|]. intros e [].
    - destruct IH as (U & U1 & U2 & U3). { intros ls' I. apply Ht. right. exact I. }
      exists ((symbols chars ls, Rpower 2 (- sum (map code_length os))) :: U). cbn [map fst snd]. rewrite U1, U2.
      split; [reflexivity|]. split; [reflexivity|]. intros e [<-|I]; [|apply U3; exact I]. cbn [fst snd].
      rewrite <- (weight_bits tr os D Sc). apply text_runs with tr w'; try assumption.
      intros l Il. apply (Ht ls (or_introl eq_refl)). exact Il. }
  destruct E as (T & T1 & T2 & T3). rewrite <- T2.
  assert (InT : forall t, In t (map fst T) -> exists ls, In ls texts /\ t = symbols chars ls).
  { intros t I. rewrite T1 in I. apply in_map_iff in I. destruct I as (ls & <- & I). exists ls. auto. }
  apply (kraft (goes unicode srv) (goes_det unicode srv) (predicts srv) A NA (list_max (map (fun e => length (fst e)) T)) (Start w) T).
  - intros e Ie. split; [|split].
    + pose proof (proj1 (list_max_le (map (fun e => length (fst e)) T) _) (le_n _)) as M. rewrite Forall_forall in M.
      apply M. apply in_map_iff. exists e. auto.
    + apply T3. exact Ie.
    + destruct (InT (fst e)) as (ls & I & ->); [apply in_map; exact Ie|]. intros s Is. unfold symbols in Is.
      apply in_flat_map in Is. destruct Is as (l & Il & Is). destruct (Ht ls I) as [_ H]. apply (H l Il). exact Is.
  - rewrite T1. assert (J : forall a b, In a texts -> In b texts -> symbols chars a = symbols chars b -> a = b).
    { intros a b Ia Ib Eq. apply Inj; try assumption. destruct (Ht a Ia) as [La Ha], (Ht b Ib) as [Lb Hb].
      destruct (symbols_prefix chars b a [] ltac:(congruence)) as [_ X].
      - intros l [I|I]; [apply Hb | apply Ha]; exact I.
      - rewrite app_nil_r. exact Eq.
      - symmetry. exact X. }
    clear - ND J. induction ND as [|a l N ND IH]; [constructor|]. cbn [map]. constructor.
    + intro I. apply in_map_iff in I. destruct I as (b & E & Ib). apply N.
      rewrite <- (J b a); [exact Ib | right; exact Ib | left; reflexivity | exact E].
    + apply IH. intros x y Ix Iy. apply J; right; assumption.
  - intros t t' u It It' E. destruct (InT t It) as (a & Ia & ->), (InT t' It') as (b & Ib & ->).
    destruct (Ht a Ia) as [La Ha], (Ht b Ib) as [Lb Hb].
    apply (symbols_prefix chars a b u ltac:(congruence)) in E; [apply E|].
    intros l [I|I]; [apply Ha | apply Hb]; exact I.
Qed.

(** In terms of what the client prints, [n] characters with [x] bits per character, for files of
    [k] lines each and a server all whose replies are distributions: the sum of 2^-(n x). *)
Theorem C80_bits_per_character : forall (W : Type) unicode chars sort (srv : server R_field W) w A k
    (files : list bytes) (results : list (Z * R)),
  sort_spec sort ->
  (forall w c st r w', rpc_scores srv w c st = (Some r, w') -> distribution r) ->
  (forall w c st n r w', rpc_update srv w c st n = (Some r, w') -> distribution r) ->
  NoDup A -> (Z.of_nat (length A) <= 143859)%Z ->
  NoDup (map text_lines files) ->
  (forall f, In f files -> length (text_lines f) = k /\
     forall l, In l (text_lines f) -> ~ In ""%string (chars l) /\ forall s, In s (chars l ++ [""%string])%list -> In s A) ->
  (forall f f', In f files -> In f' files -> map chars (text_lines f) = map chars (text_lines f') -> text_lines f = text_lines f') ->
  Forall2 (fun f nx => exists oov w', calc_bits_per_character sort unicode chars (Some srv) w (Some f) =
     (Ok (fst nx, oov, Some (snd nx)), w')) files results ->
  sum (map (fun nx => Rpower 2 (- (IZR (fst nx) * snd nx))) results) <= 1.
Proof.
  intros W unicode chars sort srv w A k files results Hs D1 D2 NA LA ND Ht Inj F.
  assert (G : Forall2 (fun ls b => exists tr w' os, text_scored unicode chars srv w ls tr w' /\
     Forall (fun e => distribution (snd e)) tr /\ Forall2 scored tr os /\ b = sum (map code_length os))
     (map text_lines files) (map (fun nx => IZR (fst nx) * snd nx) results)).
  { clear - F D1 D2 Hs. induction F as [|f [n x] files results (no & w' & E) F IH]; [constructor|].
    cbn [map fst snd] in *. constructor; [|exact IH].
    destruct (bits_lines_spec sort Hs unicode chars srv (text_lines f) w (mk_totals 0 0 0)) as [(tr & os & w2 & T & Sc & B)|(_ & w2 & B)].
    2:{ exfalso. unfold calc_bits_per_character, calc_bits in E. cbn [option_map] in E. rewrite B in E. discriminate. }
    destruct (C47_mean sort Hs unicode chars srv w f tr w2 T) as (os' & Sc' & E').
    rewrite E' in E. injection E as E1 E2 E3 _. exists tr, w2, os'. split; [exact T|]. split.
    - clear - T D1 D2.
      assert (Ln : forall w st r ss tr w', line_scored unicode srv w st r ss tr w' -> distribution r ->
        Forall (fun e => distribution (snd e)) tr).
      { induction 1 as [|w0 st r s ss st' r' w1 tr0 w'' M L IH]; intro Dr; [constructor|].
        constructor; [exact Dr|]. apply IH. destruct M as (a & M & _). exact (D2 _ _ _ _ _ _ M). }
      induction T as [|w0 l ls r w1 tr1 w3 tr' w4 E Wf Np L T IH]; [constructor|].
      apply Forall_app. split; [|exact IH]. apply (Ln _ _ _ _ _ _ L). exact (D1 _ _ _ _ _ E).
    - split; [exact Sc'|]. destruct tr as [|e tr]; [discriminate|]. injection E3 as <-. rewrite <- E1.
      assert (Lt : length (e :: tr) = length os') by (eapply Forall2_length; exact Sc').
      rewrite <- INR_IZR_INZ. assert (INR (length (e :: tr)) <> 0) by (apply not_0_INR; discriminate).
      change (INR (length (e :: tr)) * (sum (map code_length os') / INR (length (e :: tr))) = sum (map code_length os')).
      field. assumption. }
  assert (X : sum (map (fun b => Rpower 2 (- b)) (map (fun nx => IZR (fst nx) * snd nx) results)) <= 1).
  { apply (C80_kraft W unicode chars srv w A k (map text_lines files)); try assumption.
    - intros ls I. apply in_map_iff in I. destruct I as (f & <- & I). apply Ht. exact I.
    - intros ls ls' I I'. apply in_map_iff in I. apply in_map_iff in I'.
      destruct I as (f & <- & I), I' as (f' & <- & I'). apply Inj; assumption. }
  rewrite map_map in X. exact X.
Qed.

Print Assumptions C80_kraft.
Print Assumptions C80_bits_per_character.

(** The hypotheses are met: two files of one line each, an empty line and the line "a", at a server
    that always offers "a" and the end of the line with probability one half each. *)
Example C80_hypotheses_met : exists bits,
  NoDup ["a"; ""]%string /\ NoDup [[""]; ["a"]]%string /\
  (forall ls, In ls [[""]; ["a"]]%string -> length ls = 1%nat /\
     forall l, In l ls -> ~ In ""%string (ex_chars l) /\ forall s, In s (ex_chars l ++ [""%string])%list -> In s ["a"; ""]%string) /\
  Forall2 (fun ls b => exists tr w' os, text_scored (fun _ => [97%Z]) ex_chars ex_srv3 0%nat ls tr w' /\
     Forall (fun e => distribution (snd e)) tr /\ Forall2 scored tr os /\ b = sum (map code_length os)) [[""]; ["a"]]%string bits /\
  sum (map (fun b => Rpower 2 (- b)) bits) <= 1 /\ length bits = 2%nat.
Proof.
  assert (D : distribution ex_reply).
  { split.
    - intros p [<-|[<-|[]]]; lra.
    - cbn. lra. }
  assert (Sc : forall s, In s ["a"; ""]%string -> scored (s, ex_reply) (Some (1 / 2))).
  { intros s Is. split.
    - destruct Is as [<-|[<-|[]]]; [left|right; left]; reflexivity.
    - intros p' [E|[E|[]]]; injection E as <- _; lra. }
  assert (M : forall w st s, moves ex_srv3 (fun _ => [97%Z]) w st s 1%Z ex_reply (S (S w))).
  { intros w st s. exists (S w). repeat split; discriminate. }
  assert (T : forall l tr w', line_scored (fun _ => [97%Z]) ex_srv3 1%nat 0%Z ex_reply (ex_chars l ++ [""%string])%list tr w' ->
    text_scored (fun _ => [97%Z]) ex_chars ex_srv3 0%nat [l] tr w').
  { intros l tr w' L. rewrite <- (app_nil_r tr). apply (ts_cons _ _ _ _ _ _ ex_reply 1%nat _ w'); [reflexivity | split; [reflexivity | discriminate] | cbn; lra | exact L | constructor]. }
  set (T1 := [(""%string, ex_reply)]). set (T2 := [("a"%string, ex_reply); (""%string, ex_reply)]).
  assert (F : Forall2 (fun ls b => exists tr w' os, text_scored (fun _ => [97%Z]) ex_chars ex_srv3 0%nat ls tr w' /\
     Forall (fun e => distribution (snd e)) tr /\ Forall2 scored tr os /\ b = sum (map code_length os)) [[""]; ["a"]]%string
     [sum (map code_length [Some (1 / 2)]); sum (map code_length [Some (1 / 2); Some (1 / 2)])]).
  { constructor; [|constructor; [|constructor]].
    - exists T1, 3%nat, [Some (1 / 2)]. split.
      { apply T. cbn [ex_chars list_ascii_of_string map app]. eapply ls_cons; [apply M | constructor]. }
      split; [constructor; [exact D | constructor]|]. split; [|reflexivity].
      constructor; [apply Sc; right; left; reflexivity | constructor].
    - exists T2, 5%nat, [Some (1 / 2); Some (1 / 2)]. split.
      { apply T. cbn [ex_chars list_ascii_of_string map app]. eapply ls_cons; [apply M |]. eapply ls_cons; [apply M | constructor]. }
      split; [constructor; [exact D | constructor; [exact D | constructor]]|]. split; [|reflexivity].
      constructor; [apply Sc; left; reflexivity|]. constructor; [apply Sc; right; left; reflexivity | constructor]. }
  assert (N1 : NoDup ["a"; ""]%string) by (repeat constructor; cbn; intuition discriminate).
  assert (N2 : NoDup [[""]; ["a"]]%string) by (repeat constructor; cbn; intuition discriminate).
  assert (H : forall ls, In ls [[""]; ["a"]]%string -> length ls = 1%nat /\
     forall l, In l ls -> ~ In ""%string (ex_chars l) /\ forall s, In s (ex_chars l ++ [""%string])%list -> In s ["a"; ""]%string).
  { intros ls [<-|[<-|[]]]; (split; [reflexivity|]); intros l [<-|[]]; cbn; intuition discriminate. }
  eexists. split; [exact N1|]. split; [exact N2|]. split; [exact H|]. split; [exact F|]. split; [|reflexivity].
  apply (C80_kraft nat (fun _ => [97%Z]) ex_chars ex_srv3 0%nat ["a"; ""]%string 1%nat [[""]; ["a"]]%string); try assumption.
  - cbn. lia.
  - intros a b [<-|[<-|[]]] [<-|[<-|[]]] E; cbn in E; congruence.
Qed.
