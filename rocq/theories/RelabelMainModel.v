(** Model of mozolm/utils/ngram_fst_relabel_main.cc: the relabelling program.

    Flag parsing is external: the values of the three flags are arguments.  A file system is what StdVectorFst::Read
    makes of each path ([None]: it returns a null pointer).  StdVectorFst::Write is an argument too: it reports success
    and leaves a file system (see [write_spec] in RelabelMainProps.v for what is assumed of it). *)
From Coq Require Import String.
From Verif Require Import Base RelabelModel Utf8Model.
Local Open Scope Z_scope.
Close Scope string_scope.

Section Main.
  Context {Wt : Type}.
  Definition files : Type := string -> option (rfst Wt).
  Variable arcsort : list (rarc Wt) -> list (rarc Wt).
  Variable write : files -> string -> rfst Wt -> files * bool.

  (** ngram_fst_relabel_main.cc:59-81 RelabelAndSave. *)
  Definition relabel_and_save (keep : list string) (fs : files) (input output : string) : outcome unit * files :=
    match fs input with                                                            (* 64-68 *)
    | None => (Err, fs)
    | Some f =>
        match relabel_with_codepoints arcsort utf8_single keep f with              (* 71-73 *)
        | Ok f' =>
            let (fs', ok) := write fs output f' in                                 (* 77-80 *)
            ((if ok then Ok tt else Err), fs')
        | Err => (Err, fs) | Crash => (Crash, fs) | UB => (UB, fs)
        end
    end.

  (** ngram_fst_relabel_main.cc:86-104 main: the exit code and the files afterwards. *)
  Definition relabel_main (input_fst_file output_fst_file : string) (keep_symbols : list string) (fs : files)
    : outcome Z * files :=
    if String.eqb input_fst_file EmptyString then (Ok 1, fs)                       (* 89-92 *)
    else if String.eqb output_fst_file EmptyString then (Ok 1, fs)                 (* 94-97 *)
    else
      let (status, fs') := relabel_and_save keep_symbols fs input_fst_file output_fst_file in
      match status with                                                            (* 98-103 *)
      | Ok _ => (Ok 0, fs')
      | Err => (Ok 1, fs')
      | Crash => (Crash, fs')
      | UB => (UB, fs')
      end.
End Main.
