(** Examples and refutations for the PPM model (C20-C29). *)
From Coq Require Import String.
From Verif Require Import Base Field LmModel TextModel HubModel PpmModel PpmSpec PpmReadModel PpmStruct PpmTrainSpec PpmRef PpmRefine PpmCounter PpmProps PpmProps2.
Close Scope string_scope.
Open Scope list_scope.
Local Open Scope Z_scope.

Definition qread := ppm_read (F := Qc_field) reference_counter.
(** ppm_as_fst_model_test.cc: order 3, alpha 0.5, beta 0.75. *)
Definition test_options (static : bool) : ppm_options Qc_field := PpmOptions 3 (q 1 2) (q 3 4) static 0.
Definition test_text : model_file Qc_field := TextModel (Some [[97; 97; 98; 97; 97; 98]; [97; 98; 97; 98]]).
Definition run_all (o : outcome (ppm Qc_field)) (ks : list call) : outcome (list (answer Qc_field)) :=
  let* m := o in let* (l, _) := ppm_run m ks in Ok l.


(** The hypotheses of the theorems can be met: for any vocabulary with a character, and, with the
    counter of PpmCounter.v, for any text with a character. *)
Example readable_vocabulary : forall (F : ofield) counter (o : ppm_options F) lines,
  concat lines <> [] -> readable counter o NoModel (Some lines).
Proof. intros F counter o lines H. split; [intros [= ->]; apply H; reflexivity|exact H]. Qed.
Example readable_text : forall (F : ofield) (o : ppm_options F) lines,
  concat lines <> [] -> 2 <= init_order o -> readable reference_counter o (TextModel (Some lines)) None.
Proof.
  intros F o lines H Ho. split; [discriminate|]. split; [apply reference_counter_meets_contract|]. auto.
Qed.
Example test_readable : forall static, readable reference_counter (test_options static) test_text None.
Proof. intros static. apply readable_text; [discriminate|]. vm_compute. discriminate. Qed.

(** The trigram model of ppm_as_fst_model_test.cc, trained from "aabaab" and "abab". Its histories: *)
Example test_contexts : contexts 3 [[1; 1; 2; 1; 1; 2]; [1; 2; 1; 2]] =
  [[1; 1]; [0]; [0; 1]; [2; 1]; [1]; [1; 2]; [2]; []].
Proof. reflexivity. Qed.
(** Scores at the start, and after "b" (C20, C21, C28). *)
Example C20_C21_C28_example :
  run_all (qread (test_options true) test_text None) [CExtract 1; CNext 1 98; CScore 6 97; CNext 6 97; CNext 1 300; CScore 1 300] =
  Ok [AExtract (Some (LmScores (q 5 2) [([], q 1 8); ([97], q 3 4); ([98], q 1 8)]));
      ANext 6; AScore (q 1 2); ANext 3; ANext 7; AScore (q 0 1)].
Proof. vmr. Qed.
(** "bab" and the end of string, in a static model and in one that learns (C21, C23, C24). *)
Example C21_C24_example :
  (let* m := qread (test_options true) test_text None in let* (r, _) := get_probs m [2; 1; 2; 0] in Ok r) =
  Ok (Some [q 1 8; q 1 2; q 1 2; q 37 90]).
Proof. vmr. Qed.
Example C21_C23_example :
  (let* m := qread (test_options false) test_text None in let* (r, _) := get_probs m [2; 1; 2; 0] in Ok r) =
  Ok (Some [q 1 8; q 41 90; q 173 330; q 415 1134]).
Proof. vmr. Qed.
(** An update of "b" and one of the end of string after the start (C23). *)
Example C23_example :
  run_all (qread (test_options false) test_text None) [CUpdate 1 [98] 1; CUpdate 1 [0] 1; CExtract 1] =
  Ok [AUpdate true; AUpdate true;
      AExtract (Some (LmScores (q 9 2) [([], q 43 180); ([97], q 47 90); ([98], q 43 180)]))].
Proof. vmr. Qed.
(** The same calls do not change a static model, nor with a count of 0 (C24). *)
Example C24_example :
  run_all (qread (test_options true) test_text None) [CUpdate 1 [98] 1; CUpdate 1 [0] 1; CExtract 1] =
  Ok [AUpdate true; AUpdate true;
      AExtract (Some (LmScores (q 5 2) [([], q 1 8); ([97], q 3 4); ([98], q 1 8)]))] /\
  run_all (qread (test_options false) test_text None) [CUpdate 1 [98] 0; CUpdate 1 [0] (-3); CExtract 1] =
  Ok [AUpdate true; AUpdate true;
      AExtract (Some (LmScores (q 5 2) [([], q 1 8); ([97], q 3 4); ([98], q 1 8)]))].
Proof. split; vmr. Qed.
(** A cache for four states: queries of all eight states evict each other; the number of cached
    states and the answer (C25, C26). *)
Example C25_C26_example :
  (let* m := ppm_read (F := Qc_field) reference_counter (with_cache (test_options false) 4) test_text None in
   let* (l, m) := ppm_run m [CExtract 0; CExtract 2; CExtract 3; CExtract 5; CUpdate 1 [98] 1; CExtract 6; CExtract 2;
                             CUpdate 1 [0] 1; CExtract 1] in
   Ok (p_max_cache m, length (p_caches m), map (@pc_state _) (p_caches m), last l (AUpdate false))) =
  Ok (4, 4%nat, [2; 4; 7; 1],
      AExtract (Some (LmScores (q 9 2) [([], q 43 180); ([97], q 47 90); ([98], q 43 180)]))).
Proof. vmr. Qed.
(** New states appear up to the order of the model: two symbols of context at order 3 (C27). *)
Example C27_example :
  (let* m := qread (PpmOptions 3 (q 1 2) (q 3 4) false 0) NoModel (Some (Some [[97]; []; [98]])) in
   let* (l, m') := ppm_run m [CUpdate 0 [97; 98; 97; 98] 2] in
   Ok (p_max_order m, length (p_fst m), length (p_fst m'), l)) = Ok (3, 2%nat, 7%nat, [AUpdate true]).
Proof. vmr. Qed.
(** Options out of range (C29). *)
Example C29_example :
  (let* m := qread (PpmOptions (-1) (q 1 1) (q 0 1) false (-7)) NoModel (Some (Some [[97]])) in
   Ok (p_max_order m, p_alpha m, p_beta m, p_max_cache m)) = Ok (4, q 1 2, q 3 4, 2000).
Proof. vmr. Qed.
(** The vocabulary-only model of the test at order 2: after "a" and "b" were told one by one. *)
Example C20_vocabulary_example :
  run_all (qread (PpmOptions 2 (q 1 2) (q 3 4) false 0) NoModel (Some (Some [[97]; [98]])))
    [CExtract 0; CUpdate 0 [97; 98] 1; CExtract 0; CExtract 1] =
  Ok [AExtract (Some (LmScores (q 7 2) [([], q 1 3); ([97], q 1 3); ([98], q 1 3)]));
      AUpdate true;
      AExtract (Some (LmScores (q 3 2) [([], q 1 6); ([97], q 1 2); ([98], q 1 3)]));
      AExtract (Some (LmScores (q 11 2) [([], q 1 5); ([97], q 2 5); ([98], q 2 5)]))].
Proof. vmr. Qed.

(** * What fails outside [readable] *)

(** A vocabulary file of blank lines is accepted, but the first query reads an arc that does not
    exist. *)
Theorem C20_blank_vocabulary_refuted :
  (let* m := qread (test_options false) NoModel (Some (Some [[]])) in Ok (p_syms m)) = Ok [] /\
  run_all (qread (test_options false) NoModel (Some (Some [[]]))) [CExtract 0] = UB.
Proof. split; vmr. Qed.
Print Assumptions C20_blank_vocabulary_refuted.
(** An empty training file: Read itself indexes with the start state -1 of an empty automaton. *)
Theorem C20_empty_text_refuted : qread (test_options false) (TextModel (Some [])) None = UB.
Proof. vmr. Qed.
Print Assumptions C20_empty_text_refuted.
(** A state number the model does not have is not checked: undefined behaviour. *)
Theorem C27_unknown_state_refuted :
  run_all (qread (test_options false) test_text None) [CExtract 8] = UB /\
  run_all (qread (test_options false) test_text None) [CScore (-1) 97] = UB /\
  run_all (qread (test_options false) test_text None) [CUpdate 8 [97] 1] = UB.
Proof. repeat split; vmr. Qed.
Print Assumptions C27_unknown_state_refuted.
(** A cache size of 2^32 + 5 is read as 5, and one of 2^32 as 0 and replaced: sizes are converted to
    int unchecked; a size not above the order is replaced by 2000 even if it was given. *)
Theorem C26_cache_size_refuted :
  (let* m := ppm_read (F := Qc_field) reference_counter (with_cache (test_options false) (4294967296 + 5)) test_text None in
   Ok (p_max_cache m)) = Ok 5 /\
  (let* m := ppm_read (F := Qc_field) reference_counter (with_cache (test_options false) 4294967296) test_text None in
   Ok (p_max_cache m)) = Ok 4 /\
  (let* m := ppm_read (F := Qc_field) reference_counter (with_cache (test_options false) 3) test_text None in
   Ok (p_max_cache m)) = Ok 2000.
Proof. repeat split; vmr. Qed.
Print Assumptions C26_cache_size_refuted.
