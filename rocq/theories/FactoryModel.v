(** Model of mozolm/models/model_factory.cc, and of the class ServerHelper and RunServer in
    mozolm/grpc/server_helper.{h,cc}.

    Files are given by what the readers used by the models make of them: bytes (std::ifstream),
    lines of code points (nisaba::file::ReadLines), an automaton (StdVectorFst::Read), a symbol
    table (SymbolTable::Read), and, for a PPM model, an automaton with single-character symbols. *)
From Coq Require Import String.
From Verif Require Import Base Field LmModel TextModel BigramModel HubModel BigramComp PpmModel
  PpmReadModel NgramModel WordModel.
Local Open Scope Z_scope.
Close Scope string_scope.

Section Factory.
  Context {F : ofield}.

  (** A file on disk, as seen by each reader ([None]: that reader refuses it). *)
  Record file : Type := File {
    f_bytes : bytes;
    f_lines : list (list Z);
    f_fst : option (fst_file F);
    f_symbols : option (list (Z * str));
    f_ppm : option (list (pstate F) * Z * list Z)
  }.
  (** The file system: [None] for a file that does not exist or cannot be read. *)
  Definition disk : Type := string -> option file.

  (** What the external libraries are asked: sfst::IsCanonical/IsNormalized (the check of
      NGramFstModel), sfst::Backoff::MaxOrder, and sfst::NGramCounter. *)
  Record externals : Type := Externals {
    e_accept : list (pstate F) -> Z -> bool;
    e_max_order : fst_file F -> Z;
    e_counter : Z -> list (list Z) -> outcome (list (pstate F) * Z)
  }.

  (** model_storage.proto ModelStorage. *)
  Record model_storage : Type := ModelStorage {
    ms_model_file : string;
    ms_vocabulary_file : string;
    ms_ppm_options : ppm_options F;
    ms_model_is_fst : bool;            (* ppm_options.model_is_fst *)
    ms_word_cache : Z                  (* ngram_word_fst_options.max_cache_size *)
  }.
  (** model_config.proto ModelConfig; [mc_type] is the enum number (an open enum in proto3) and
      [mc_weight] is exp(-weight). *)
  Record model_config : Type := ModelConfig {
    mc_type : Z;
    mc_storage : model_storage;
    mc_weight : car F
  }.
  Definition SIMPLE_CHAR_BIGRAM : Z := 0.
  Definition CHAR_NGRAM_FST : Z := 1.
  Definition PPM_AS_FST : Z := 2.
  Definition WORD_NGRAM_FST : Z := 3.

  (** model_config.proto ModelHubConfig. *)
  Record model_hub_config : Type := ModelHubConfig {
    mh_models : list model_config;
    mh_mixture : mixture_type;
    mh_max_states : Z;
    mh_bayes : Z
  }.

  (** An object of one of the subclasses of LanguageModel. *)
  Inductive any_model : Type :=
  | Bg (m : bigram)
  | Ng (m : ngram F)
  | Pp (m : ppm F)
  | Wd (m : word F).

  Definition via {A M N : Type} (wrap : M -> N) (x : outcome (A * M)) : outcome (A * N) :=
    let* (a, m) := x in Ok (a, wrap m).
  (** Virtual calls: language_model.h:42-80. *)
  Definition any_ops : comp_ops F any_model := {|
    c_start := fun m => match m with
      | Bg m => c_start (bigram_ops (F := F)) m | Ng m => c_start ngram_ops m
      | Pp m => c_start ppm_ops m | Wd m => c_start word_ops m end;
    c_next := fun m s c => match m with
      | Bg m => via Bg (c_next (bigram_ops (F := F)) m s c) | Ng m => via Ng (c_next ngram_ops m s c)
      | Pp m => via Pp (c_next ppm_ops m s c) | Wd m => via Wd (c_next word_ops m s c) end;
    c_score := fun m s c => match m with
      | Bg m => via Bg (c_score bigram_ops m s c) | Ng m => via Ng (c_score ngram_ops m s c)
      | Pp m => via Pp (c_score ppm_ops m s c) | Wd m => via Wd (c_score word_ops m s c) end;
    c_extract := fun m s => match m with
      | Bg m => via Bg (c_extract bigram_ops m s) | Ng m => via Ng (c_extract ngram_ops m s)
      | Pp m => via Pp (c_extract ppm_ops m s) | Wd m => via Wd (c_extract word_ops m s) end;
    c_update := fun m s w n => match m with
      | Bg m => via Bg (c_update (bigram_ops (F := F)) m s w n) | Ng m => via Ng (c_update ngram_ops m s w n)
      | Pp m => via Pp (c_update ppm_ops m s w n) | Wd m => via Wd (c_update word_ops m s w n) end
  |}.

  Variable ext : externals.
  Variable d : disk.

  (** A path that is empty, or names a file a reader sees as [read] says. *)
  Definition path {A : Type} (read : file -> A) (p : string) : option (option A) :=
    if String.eqb p "" then None else Some (option_map read (d p)).
  Definition path' {A : Type} (read : file -> option A) (p : string) : option (option A) :=
    if String.eqb p "" then None
    else Some (match d p with Some f => read f | None => None end).

  (** The arguments of the four Read methods: simple_bigram_char_model.cc:96-108,
      ngram_fst_model.cc:47-69, ppm_as_fst_model.cc:455-507, ngram_word_fst_model.cc:234-240. *)
  Definition read_bigram (s : model_storage) : outcome any_model :=
    let* m := bigram_read (path f_bytes (ms_vocabulary_file s)) (path f_bytes (ms_model_file s)) in
    Ok (Bg m).
  Definition fst_storage (s : model_storage) : storage F :=
    Storage (path' f_fst (ms_model_file s)) (path' f_symbols (ms_vocabulary_file s)).
  Definition read_ngram (s : model_storage) : outcome any_model :=
    let* m := ng_read (e_accept ext) (fst_storage s) in Ok (Ng m).
  Definition read_ppm (s : model_storage) : outcome any_model :=
    let model :=
      if String.eqb (ms_model_file s) "" then NoModel
      else if ms_model_is_fst s
           then FstModel (match d (ms_model_file s) with Some f => f_ppm f | None => None end)
           else PpmReadModel.TextModel (option_map f_lines (d (ms_model_file s))) in
    let* m := ppm_read (e_counter ext) (ms_ppm_options s) model (path f_lines (ms_vocabulary_file s)) in
    Ok (Pp m).
  Definition read_word (s : model_storage) : outcome any_model :=
    let order := match path' f_fst (ms_model_file s) with
                 | Some (Some f) => e_max_order ext f
                 | _ => 0
                 end in
    let* m := w_read (e_accept ext) order (ms_word_cache s) (fst_storage s) in Ok (Wd m).

  (** model_factory.cc:32-57 MakeModel (from the type and the storage). *)
  Definition make_model (type : Z) (s : model_storage) : outcome any_model :=
    if type =? SIMPLE_CHAR_BIGRAM then read_bigram s
    else if type =? CHAR_NGRAM_FST then read_ngram s
    else if type =? PPM_AS_FST then read_ppm s
    else if type =? WORD_NGRAM_FST then read_word s
    else Err.                                                                  (* 47-50 *)
  (** model_factory.cc:59-62 MakeModel (from the configuration). *)
  Definition make_model_config (c : model_config) : outcome any_model :=
    make_model (mc_type c) (mc_storage c).

  (** ModelConfig() and its ModelStorage(): every field at its default.  alpha and beta are 0. *)
  Definition default_storage : model_storage :=
    ModelStorage "" "" (PpmOptions 0 f0 f0 false 0) false 0.
  Definition default_model_config : model_config := ModelConfig 0 default_storage f1.

  (** model_factory.cc:73-77: the loop. *)
  Fixpoint make_models (l : list model_config) : outcome (list any_model) :=
    match l with
    | [] => Ok []
    | c :: t =>
        let* m := make_model_config c in
        let* ms := make_models t in
        Ok (m :: ms)
    end.

  (** language_model_hub.cc:77-126 reads these fields. *)
  Definition hub_config_of (c : model_hub_config) : @hub_config F :=
    HubConfig (mh_mixture c) (map mc_weight (mh_models c)) (mh_bayes c) (mh_max_states c).

  (** model_factory.cc:64-82 MakeModelHub. *)
  Definition make_model_hub (c : model_hub_config) : outcome (hub F any_model) :=
    let* ms :=
      match mh_models c with
      | [] => let* m := make_model_config default_model_config in Ok [m]       (* 67-71 *)
      | l => make_models l                                                     (* 72-78 *)
      end in
    initialize_models any_ops ms (hub_config_of c).                            (* 79-81 *)
End Factory.
Arguments file F : clear implicits.
Arguments disk F : clear implicits.
Arguments externals F : clear implicits.
Arguments model_storage F : clear implicits.
Arguments model_config F : clear implicits.
Arguments model_hub_config F : clear implicits.
Arguments any_model F : clear implicits.

(** ** ServerHelper *)

Section Helper.
  Context {F : ofield}.
  Variable ext : externals F.

  (** What a client program may do with a ServerHelper from one thread, and what the world
      contributes: the files at that time and whether gRPC can start a server at the address. *)
  Inductive helper_call : Type :=
  | CallInit (d : disk F) (c : model_hub_config F) (starts : bool)
  | CallRun
  | CallShutdown.

  (** server_helper.h:52-57, the data members.  [Active started h running]: [server_] is set; it
      holds the hub; [started]: BuildAndStart succeeded; [running]: [server_thread_] is set and
      not joined. *)
  Inductive helper : Type :=
  | Idle
  | Active (started : bool) (h : hub F (any_model F)) (running : bool).

  (** server_helper.cc:83-98 Init.  [server_] is set before BuildAndStart is called, so it stays
      set when that fails.  The result is (status is OK, the helper). *)
  Definition helper_init (s : helper) (d : disk F) (c : model_hub_config F) (starts : bool)
    : outcome (bool * helper) :=
    match s with
    | Active _ _ _ => Ok (false, s)                                            (* 84 *)
    | Idle =>
        match make_model_hub ext d c with                                      (* 87-88 *)
        | Err => Ok (false, Idle)
        | Ok h => Ok (starts, Active starts h false)                           (* 95-97 *)
        | Crash => Crash
        | UB => UB
        end
    end.
  (** server_helper.cc:100-110 Run(false).  A server that did not start has a completion queue
      that belongs to no running server: requesting a call on it is undefined.  Line 103
      destroys the std::thread of an earlier Run; destroying one that was not joined calls
      std::terminate. *)
  Definition helper_run (s : helper) : outcome (bool * helper) :=
    match s with
    | Idle => Ok (false, s)                                                    (* 101 *)
    | Active _ _ true => Crash
    | Active false _ false => UB
    | Active true h false => Ok (true, Active true h true)
    end.
  (** server_helper.cc:112-121 Shutdown, also run by the destructor (server_helper.h:33). *)
  Definition helper_shutdown (s : helper) : outcome (bool * helper) := Ok (true, Idle).

  Definition helper_step (s : helper) (c : helper_call) : outcome (bool * helper) :=
    match c with
    | CallInit d cfg starts => helper_init s d cfg starts
    | CallRun => helper_run s
    | CallShutdown => helper_shutdown s
    end.
  Fixpoint helper_calls (s : helper) (l : list helper_call) : outcome (list bool * helper) :=
    match l with
    | [] => Ok ([], s)
    | c :: t =>
        let* (b, s1) := helper_step s c in
        let* (bs, s2) := helper_calls s1 t in
        Ok (b :: bs, s2)
    end.
End Helper.
