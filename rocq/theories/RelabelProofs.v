(** Proofs about RelabelModel.v. *)
From Coq Require Import String.
From Verif Require Import Base RelabelModel.
Local Open Scope Z_scope.

Lemma inZ_In z l : inZ z l = true <-> In z l.
Proof.
  unfold inZ. rewrite existsb_exists. split.
  - intros (x & H & E). apply Z.eqb_eq in E. subst. exact H.
  - intro H. exists z. split; [exact H|apply Z.eqb_refl].
Qed.
Lemma in_strings_In s l : in_strings s l = true <-> In s l.
Proof.
  unfold in_strings. rewrite existsb_exists. split.
  - intros (x & H & E). apply String.eqb_eq in E. subst. exact H.
  - intro H. exists s. split; [exact H|apply String.eqb_refl].
Qed.
Lemma nodupZ_NoDup l : nodupZ l = true <-> NoDup l.
Proof.
  induction l as [|x l IH]; cbn; [split; [constructor|reflexivity]|].
  rewrite andb_true_iff, negb_true_iff, IH. split.
  - intros [A B]. constructor; [|exact B]. intro H. apply inZ_In in H. congruence.
  - intro H. inversion H as [|? ? A B]; subst. split; [|exact B].
    destruct (inZ x l) eqn:E; [|reflexivity]. apply inZ_In in E. contradiction.
Qed.
Lemma allowed_nonzero a : In a allowed_withheld -> a <> 0.
Proof. cbn. intuition lia. Qed.
Lemma allowed_NoDup : NoDup allowed_withheld.
Proof. apply nodupZ_NoDup. reflexivity. Qed.
Lemma allowed_length : length allowed_withheld = 27%nat.
Proof. reflexivity. Qed.

Section M.
  Variable decode : string -> option Z.
  Variable keep : list string.

  (** *** The parts of a table *)
  Definition normal (syms : symtab) : symtab :=
    filter (fun e => negb (fst e =? 0) && negb (in_strings (snd e) keep)) syms.
  Definition kept (syms : symtab) : symtab :=
    filter (fun e => negb (fst e =? 0) && in_strings (snd e) keep) syms.

  Lemma scan_spec syms :
    (exists m, scan_symbols decode keep syms = Ok (m, map fst (kept syms)) /\
       Forall2 (fun e p => fst e = fst p /\ decode (snd e) = Some (snd p)) (normal syms) m) \/
    (scan_symbols decode keep syms = Err /\
       exists e, In e (normal syms) /\ decode (snd e) = None).
  Proof.
    induction syms as [|[l s] syms IH].
    - left. exists []. split; [reflexivity|constructor].
    - unfold normal, kept in *. cbn [filter fst snd scan_symbols]. unfold kEpsilonLabel.
      destruct (Z.eqb_spec l 0) as [->|Hl]; cbn [negb andb]; [exact IH|].
      destruct (in_strings s keep); cbn [negb].
      + destruct IH as [(m & E & F)|(E & e & H)].
        * left. exists m. rewrite E. split; [reflexivity|exact F].
        * right. rewrite E. split; [reflexivity|]. exists e. exact H.
      + destruct (decode s) as [c|] eqn:D.
        * destruct IH as [(m & E & F)|(E & e & H & H')].
          -- left. exists ((l, c) :: m). rewrite E. split; [reflexivity|].
             constructor; [|exact F]. cbn. auto.
          -- right. rewrite E. split; [reflexivity|]. exists e. split; [right; exact H|exact H'].
        * right. split; [reflexivity|]. exists (l, s). split; [left; reflexivity|exact D].
  Qed.

  Lemma relabel_kept_spec nl : forall ks free,
    let c := filter (fun k => inZ k nl) ks in
    ((length c <= length free)%nat /\
       relabel_kept nl ks free = Ok (combine c (firstn (length c) free))) \/
    ((length free < length c)%nat /\ relabel_kept nl ks free = Err).
  Proof.
    induction ks as [|k ks IH]; intros free; cbn [filter relabel_kept].
    - left. split; [cbn; lia|reflexivity].
    - destruct (inZ k nl); [|apply IH].
      destruct free as [|a free]; [right; split; [cbn; lia|reflexivity]|].
      cbn zeta in *. destruct (IH free) as [[L E]|[L E]]; rewrite E.
      + left. split; [cbn [length]; lia|]. reflexivity.
      + right. split; [cbn [length]; lia|reflexivity].
  Qed.

  Lemma new_label_notin m z : ~ In z (map fst m) -> new_label m z = z.
  Proof.
    induction m as [|[a b] m IH]; cbn; [reflexivity|].
    intro H. destruct (Z.eqb_spec z a) as [->|N]; [exfalso; apply H; auto|].
    apply IH. intro; apply H; auto.
  Qed.
  Lemma new_label_in m z b : NoDup (map fst m) -> In (z, b) m -> new_label m z = b.
  Proof.
    induction m as [|[a b'] m IH]; cbn; [contradiction|].
    intros N [E|H]; inversion N as [|? ? N1 N2]; subst.
    - injection E as -> ->. rewrite Z.eqb_refl. reflexivity.
    - destruct (Z.eqb_spec z a) as [->|Na]; [|apply IH; assumption].
      exfalso. apply N1. apply in_map_iff. exists (a, b). auto.
  Qed.

  Lemma filter_NoDup {A B} (f : A -> B) (P : A -> bool) (l : list A) :
    NoDup (map f l) -> NoDup (map f (filter P l)).
  Proof.
    induction l as [|x l IH]; cbn; [intros; constructor|].
    intro N. inversion N as [|? ? N1 N2]; subst. destruct (P x); [|apply IH; exact N2].
    cbn. constructor; [|apply IH; exact N2]. intro H. apply N1.
    apply in_map_iff in H. destruct H as (y & E & H). apply in_map_iff. exists y.
    apply filter_In in H. tauto.
  Qed.


  Definition collisions (codes : list Z) (syms : symtab) : list Z :=
    filter (fun k => inZ k codes) (map fst (kept syms)).

  Lemma mapping_cases syms :
    (exists mc, Forall2 (fun e p => fst e = fst p /\ decode (snd e) = Some (snd p))
                  (normal syms) mc /\
       ((length (collisions (map snd mc) syms) <= 27)%nat /\
        codepoint_mapping decode keep syms =
          Ok (mc ++ combine (collisions (map snd mc) syms)
                (firstn (length (collisions (map snd mc) syms)) allowed_withheld))%list \/
        (27 < length (collisions (map snd mc) syms))%nat /\
        codepoint_mapping decode keep syms = Err)) \/
    ((exists e, In e (normal syms) /\ decode (snd e) = None) /\
     codepoint_mapping decode keep syms = Err).
  Proof.
    unfold codepoint_mapping.
    destruct (scan_spec syms) as [(m & E & F)|(E & H)]; rewrite E; cbn [bind].
    - left. exists m. split; [exact F|].
      destruct (relabel_kept_spec (map snd m) (map fst (kept syms)) allowed_withheld)
        as [[L E2]|[L E2]]; rewrite E2; rewrite allowed_length in L; cbn [bind].
      + left. auto.
      + right. auto.
    - right. split; [exact H|reflexivity].
  Qed.
End M.
