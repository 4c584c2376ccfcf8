(** C80 for servers: the code lengths a client gets from a server on properly made models. *)
From Coq Require Import Reals Lra String Ascii.
From Verif Require Import Base Field FieldR LmModel LmProofs TextModel HubModel FactoryModel.
From Verif Require Import NgramProps2 PpmReadModel BigramModel HubSpec HubProofs HubProps HubMix HubLive HubLiveInst HubLive2 HubDist HubDistInst HubNorm HubAccept HubAcceptInst.
From Verif Require Import ServerModel ServerEvolve ServerQuery ServerProps ServerProps2 ServerSim ServerUpdate FactoryProps FactoryProps2 FactoryProps3 FactoryProps4 FactoryProps5 FactoryProps6 HubVocab FactoryVocabProps.
From Verif Require Import ClientModel ClientSpec ClientProofs ClientBits ClientProps ClientServe ClientServeBits ConnectModel FactoryProps7 ClientKraft ClientKraftProps.
Local Open Scope Z_scope.
Close Scope string_scope.
Local Notation length := List.length.

(** Different files of [k] lines each, all scored after the same history [l] of requests, whatever
    the models learn from them: the sum of 2^-bits of the files is at most one. *)
Theorem C80_server : forall (ext : externals R_field) d c b h0 unicode encode m chars sort A k,
  externals_ok ext -> mh_models c <> [] -> make_model_hub ext d c = Ok h0 ->
  Forall2 (well_made ext d b) (mh_models c) (h_lms h0) -> steady c -> h_max h0 <= 2 ^ 31 ->
  (forall s, (length (unicode s) <= String.length s)%nat) -> (forall s x, In x (unicode s) -> 0 <= x) ->
  (forall m0 k, In m0 (consulted c (h_lms h0)) -> In k (vocabulary m0) -> (String.length (encode k) <= m)%nat) ->
  sort_spec sort ->
  forall l rs h (files : list bytes) (results : list (Z * R)), handle_all any_ops h0 l = Ok (rs, h) ->
  (forall f, In f files ->
     let n := sent unicode (flat_map chars (text_lines f)) in
     reqs_cost l + Z.of_nat n <= b /\ Z.of_nat (1 + traffic l + 4 * n) < h_max h0) ->
  NoDup A -> Z.of_nat (length A) <= 143859 ->
  NoDup (map text_lines files) ->
  (forall f, In f files -> length (text_lines f) = k /\
     forall l, In l (text_lines f) -> ~ In ""%string (chars l) /\ forall s, In s (chars l ++ [""%string])%list -> In s A) ->
  (forall f f', In f files -> In f' files -> map chars (text_lines f) = map chars (text_lines f') -> text_lines f = text_lines f') ->
  Forall2 (fun f nx => exists oov h', calc_bits_per_character sort unicode chars (Some (connect any_ops unicode encode)) h (Some f) =
     (Ok (fst nx, oov, Some (snd nx)), h')) files results ->
  (sum (map (fun nx => Rpower 2 (- (IZR (fst nx) * snd nx))) results) <= 1)%R.
Proof.
  intros ext d c b h0 unicode encode m chars sort A k X N E W St Mx U Up Sh Hs l rs h files results El Hroom NA LA ND Ht Inj F.
  pose proof (hub_serves ext d c b h0 X N E W St Mx unicode encode m U Up Sh) as Sv.
  assert (G : Forall2 (fun ls b => exists tr w' os, text_scored unicode chars (connect any_ops unicode encode) h ls tr w' /\
     Forall (fun e => distribution (snd e)) tr /\ Forall2 scored tr os /\ b = sum (map code_length os))
     (map text_lines files) (map (fun nx => (IZR (fst nx) * snd nx)%R) results)).
  { clear NA LA ND Ht Inj. induction F as [|f [n x] files results (no & w' & Ec) F IH]; [constructor|].
    cbn [map fst snd] in *. constructor; [|apply IH; intros f' I; apply Hroom; right; exact I].
    destruct (Hroom f (or_introl eq_refl)) as [R1 R2]. set (nn := sent unicode (flat_map chars (text_lines f))) in *.
    assert (Rm : room b h0 nn h 0).
    { exists l, rs. split; [auto|]. split; [auto|]. split; [auto|]. split; [unfold int32; lia|]. split; [lia|left; lia]. }
    destruct (bits_succeed _ _ chars _ _ Sv sort Hs U h 0 f nn Rm (le_n _)) as (tr & os & h' & Ts & Fa & Sc & Ec2 & _).
    exists tr, h', os. split; [exact Ts|]. split.
    - eapply Forall_impl; [|exact Fa]. intros e Fe. split.
      + intros p Ip. apply fle_R. exact (fr_nonneg Fe p Ip).
      + apply Req_le. exact (fr_one Fe).
    - split; [exact Sc|]. rewrite Ec2 in Ec. injection Ec as E1 _ E3 _. destruct tr as [|e tr]; [discriminate|].
      injection E3 as <-. rewrite <- E1. rewrite <- INR_IZR_INZ.
      assert (NZ : INR (length (e :: tr)) <> 0%R) by (apply not_0_INR; discriminate).
      change (INR (length (e :: tr)) * (sum (map code_length os) / INR (length (e :: tr))) = sum (map code_length os))%R.
      field. exact NZ. }
  assert (Y : (sum (map (fun b => Rpower 2 (- b)) (map (fun nx => (IZR (fst nx) * snd nx)%R) results)) <= 1)%R).
  { apply (C80_kraft _ unicode chars (connect any_ops unicode encode) h A k (map text_lines files)); try assumption.
    - intros ls I. apply in_map_iff in I. destruct I as (f & <- & I). apply Ht. exact I.
    - intros ls ls' I I'. apply in_map_iff in I. apply in_map_iff in I'.
      destruct I as (f & <- & I), I' as (f' & <- & I'). apply Inj; assumption. }
  rewrite map_map in Y. exact Y.
Qed.
Print Assumptions C80_server.
