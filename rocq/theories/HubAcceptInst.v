(** The four kinds of component never refuse a state they have handed out. *)
From Verif Require Import Base Field LmModel HubModel HubLive HubLiveInst HubDist HubDistInst HubAccept.
From Verif Require Import BigramModel BigramProofs BigramComp PpmModel PpmSpec PpmReadModel PpmStruct PpmRef PpmRefine NgramModel WordModel FactoryModel.
Local Open Scope Z_scope.

Section AcceptInst.
  Context {F : ofield}.

  Lemma ppm_takes (m : ppm F) s w n r m' : ppm_inv m -> PpmRefine.valid m s -> ppm_update m s w n = Ok (r, m') -> r = true.
  Proof.
    intros [(u & K & C & H) _] V E. pose proof (tracks_len _ _ _ _ H) as HL.
    assert (Hh : exists h, getZ K s = Some h) by (apply getZ_ex; rewrite HL; exact V).
    destruct Hh as [h Hh]. destruct (tracks_step m u K C (CUpdate s w n) h H Hh) as (m2 & E2 & _).
    cbn [ppm_call ref_answer] in E2. rewrite E in E2. cbn [bind] in E2. injection E2 as -> _. reflexivity.
  Qed.

  Lemma any_accept : comps_accept (any_ops (F := F)) any_inv any_valid.
  Proof.
    constructor.
    - intros b m s r m' H V E. destruct (cd_extract _ _ _ _ any_dist b m s r m' H V E) as (sc & -> & _). eauto.
    - intros b m s w n r m' H V Hb E. destruct m as [m|m|m|m]; cbn [any_inv any_valid any_ops c_update] in *; apply via_ok in E; destruct E as [m0 [E _]].
      + destruct H as (v & C & R & _). destruct (bg_update (F := F) m v C s w n R) as [[m2 [E2 _]]|E2]; rewrite E2 in E; [|discriminate].
        injection E as <- _. reflexivity.
      + cbn [ngram_ops c_update] in E. injection E as <- _. reflexivity.
      + exact (ppm_takes _ _ _ _ _ _ H V E).
      + cbn [word_ops c_update] in E. injection E as <- _. reflexivity.
  Qed.
End AcceptInst.
