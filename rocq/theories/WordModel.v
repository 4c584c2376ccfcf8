(** Model of mozolm/models/ngram_word_fst_model.{h,cc}: the word n-gram model.

    Conventions of NgramModel.v.  A string is a list of code points; StrSplitByChar gives its
    code points, DecodeSingleUnicodeChar reads a one-character string, and std::sort on strings is
    insertion sort in code point order (equal strings are indistinguishable).  Weights are
    probabilities; sfst::NegLogSum with Kahan compensation is addition.  Counters are unbounded. *)
From Verif Require Import Base Field LmModel HubModel PpmModel NgramModel.
Local Open Scope Z_scope.

Section Word.
  Context {F : ofield}.
  Implicit Types x y : car F.

  (** ngram_word_fst_model.cc:50-55 SafeNegLogDiff: [cost1 >= cost2] gives Zero. *)
  Definition safe_diff (p1 p2 : car F) : car F := if fle p1 p2 then f0 else fsub p1 p2.

  (** ngram_word_fst_model.cc:58-65 GetNextChar. *)
  Definition next_char (w : str) (idx : Z) : Z :=
    if (idx <? 0) || (Z.of_nat (length w) <=? idx) then 32
    else match nth_error w (Z.to_nat idx) with Some c => c | None => 32 end.

  (** ngram_word_fst_model.h:94-120 NGramImplicitStates, data members; one entry of
      [im_states] is (model_state, prefix_length, symbol_begin_index, symbol_end_index);
      total_model_states_ is im_explicit + length im_states. *)
  Record implicit : Type := Implicit {
    im_explicit : Z;
    im_max_prefix : Z;
    im_begin : Z;
    im_end : Z;
    im_states : list (Z * Z * Z * Z);
    im_map : list (list ((Z * Z) * Z))
  }.

  (** ngram_word_fst_model.cc:570-586 constructor. *)
  Definition new_implicit (num_states : Z) (tab : list (Z * str)) (b e : Z) : implicit :=
    Implicit num_states (fold_left (fun mx e => Z.max mx (Z.of_nat (length (snd e)))) tab 0) b e [] [].

  (** ngram_word_fst_model.cc:588-607 GetPrefixIdx; [None] is an error. *)
  Definition get_prefix_idx (im : implicit) (plen : Z) : option (nat * implicit) :=
    if plen <=? 0 then None
    else if im_max_prefix im <? plen then None
    else
      let idx := Z.to_nat (plen - 1) in
      if (length (im_map im) <? idx)%nat then None
      else if (idx =? length (im_map im))%nat then
        Some (idx, Implicit (im_explicit im) (im_max_prefix im) (im_begin im) (im_end im)
                            (im_states im) (im_map im ++ [[]]))
      else Some (idx, im).

  Definition pair_eqb (a b : Z * Z) : bool := (fst a =? fst b) && (snd a =? snd b).
  Definition map_find (l : list ((Z * Z) * Z)) (k : Z * Z) : option Z :=
    match find (fun e => pair_eqb (fst e) k) l with Some (_, v) => Some v | None => None end.

  (** ngram_word_fst_model.cc:609-629 FindExistingState: -1 if not found. *)
  Definition find_existing (im : implicit) (ms plen b : Z) : Z * implicit :=
    if plen =? 0 then
      (if (ms <? 0) || (im_explicit im <=? ms) then -1 else ms, im)
    else match get_prefix_idx im plen with
         | Some (i, im') =>
             match map_find (nth i (im_map im') []) (ms, b) with
             | Some s => (s, im')
             | None => (-1, im')
             end
         | None => (-1, im)
         end.

  (** ngram_word_fst_model.cc:631-646 AddNewState. *)
  Definition add_new_state (im : implicit) (ms plen b e : Z) : option (Z * implicit) :=
    match get_prefix_idx im plen with
    | None => None
    | Some (i, im') =>
        let new_state := im_explicit im' + Z.of_nat (length (im_states im')) in
        let l := nth i (im_map im') [] in
        (* flat_hash_map::insert keeps an existing entry *)
        let l' := match map_find l (ms, b) with Some _ => l | None => l ++ [((ms, b), new_state)] end in
        Some (new_state,
              Implicit (im_explicit im') (im_max_prefix im') (im_begin im') (im_end im')
                       (im_states im' ++ [(ms, plen, b, e)]) (upd (im_map im') i l'))
    end.

  (** ngram_word_fst_model.cc:648-666 GetState. *)
  Definition get_state (im : implicit) (ms plen b e : Z) : option (Z * implicit) :=
    if plen =? 0 then
      (if (ms <? 0) || (im_explicit im <=? ms) then None else Some (ms, im))
    else
      let (existing, im') := find_existing im ms plen b in
      if 0 <=? existing then Some (existing, im') else add_new_state im' ms plen b e.

  (** ngram_word_fst_model.cc:668-712: GetImplicitIdx and the four accessors. *)
  Definition implicit_entry (im : implicit) (s : Z) : option (Z * Z * Z * Z) :=
    if s <? im_explicit im then Some (s, 0, im_begin im, im_end im)
    else if im_explicit im + Z.of_nat (length (im_states im)) <=? s then None
    else nth_error (im_states im) (Z.to_nat (s - im_explicit im)).
  Definition im_model_state (im : implicit) (s : Z) : option Z :=
    option_map (fun '(ms, _, _, _) => ms) (implicit_entry im s).
  Definition im_prefix_length (im : implicit) (s : Z) : option Z :=
    option_map (fun '(_, pl, _, _) => pl) (implicit_entry im s).
  Definition im_symbol_begin (im : implicit) (s : Z) : option Z :=
    option_map (fun '(_, _, b, _) => b) (implicit_entry im s).
  Definition im_symbol_end (im : implicit) (s : Z) : option Z :=
    option_map (fun '(_, _, _, e) => e) (implicit_entry im s).

  (** ngram_word_fst_model.h:131-170 NGramStateCache. *)
  Record wcache : Type := WCache { wc_state : Z; wc_accessed : Z; wc_weights : list (car F) }.

  (** ngram_word_fst_model.h:240-268 NGramWordFstModel, data members (first_char_begin_index_ is
      always 1; lexicographic_position_ is [wm_pos]). *)
  Record word : Type := Word {
    wm_ng : ngram F;
    wm_order : list Z;
    wm_pos : list Z;
    wm_prev : list Z;
    wm_first_chars : list str;
    wm_first_ends : list Z;
    wm_oov_state : Z;
    wm_max_cache : Z;
    wm_accessed : Z;
    wm_cindex : list Z;
    wm_caches : list wcache;
    wm_im : implicit
  }.
  Definition set_wcache (m : word) accessed cindex caches : word :=
    Word (wm_ng m) (wm_order m) (wm_pos m) (wm_prev m) (wm_first_chars m) (wm_first_ends m)
         (wm_oov_state m) (wm_max_cache m) accessed cindex caches (wm_im m).
  Definition set_im (m : word) im : word :=
    Word (wm_ng m) (wm_order m) (wm_pos m) (wm_prev m) (wm_first_chars m) (wm_first_ends m)
         (wm_oov_state m) (wm_max_cache m) (wm_accessed m) (wm_cindex m) (wm_caches m) im.
  Definition w_fst (m : word) := ng_fst (wm_ng m).
  Definition w_num (m : word) : Z := Z.of_nat (length (w_fst m)).

  (** ** EstablishLexicographicOrdering, ngram_word_fst_model.cc:70-139 *)

  (** std::sort of the symbols (line 77). *)
  Fixpoint insert_str (w : str) (l : list str) : list str :=
    match l with
    | [] => [w]
    | v :: t => if str_leb w v then w :: l else v :: insert_str w t
    end.
  Definition sort_str (l : list str) : list str := fold_right insert_str [] l.

  (** The variables of the loop of lines 90-117. *)
  Record lex : Type := Lex {
    lx_idx : Z;
    lx_order : list Z;
    lx_pos : list Z;
    lx_prev : list Z;
    lx_chars : list str;
    lx_ends : list Z;
    lx_last : list (list Z)
  }.

  (** lines 95-99: number of equal leading characters (as one-character strings: [last_string]
      starts as one empty string). *)
  Fixpoint prefix_match (a b : list (list Z)) : Z :=
    match a, b with
    | x :: a', y :: b' => if str_eqb x y then 1 + prefix_match a' b' else 0
    | _, _ => 0
    end.
  Definition split_chars (w : str) : list (list Z) := map (fun c => [c]) w.

  (** lines 91-116 for one symbol. *)
  Definition lex_step (tab : list (Z * str)) (oov : Z) (lx : lex) (w : str) : outcome lex :=
    let sym := find_label tab w in
    if (sym =? 0) || (sym =? oov) then Ok lx
    else
      let this := split_chars w in
      let pm := prefix_match (lx_last lx) this in
      let ends := if (pm =? 0) && (1 <? lx_idx lx) then lx_ends lx ++ [lx_idx lx - 1] else lx_ends lx in
      let chars := if pm =? 0 then lx_chars lx ++ [match this with [] => [] | c :: _ => c end]
                   else lx_chars lx in
      let* prev := vsetZ (lx_prev lx) (lx_idx lx) pm in
      let* order := vsetZ (lx_order lx) (lx_idx lx) sym in
      let* pos := vsetZ (lx_pos lx) sym (lx_idx lx) in
      Ok (Lex (lx_idx lx + 1) order pos prev chars ends this).

  Fixpoint lex_loop (tab : list (Z * str)) (oov : Z) (lx : lex) (ws : list str) : outcome lex :=
    match ws with
    | [] => Ok lx
    | w :: t => let* lx' := lex_step tab oov lx w in lex_loop tab oov lx' t
    end.

  (** lines 70-139.  [max_cache] is left to Read. *)
  Definition establish (ng : ngram F) : outcome word :=
    let tab := ng_syms ng in
    let oov := ng_oov ng in
    let n := length tab in
    let symbols := sort_str (map (fun i => find_symbol tab (Z.of_nat i)) (seq 0 n)) in
    let zeros := repeat 0 n in
    (* lines 83-85 write element 0 *)
    let* _ := vget zeros 0 in
    let* lx := lex_loop tab oov (Lex 1 zeros zeros zeros [] [] [[]]) symbols in
    let ends := lx_ends lx ++ [lx_idx lx - 1] in
    let* (idx, order, prev) :=
      if 0 <=? oov then
        let* o1 := vsetZ (lx_order lx) (lx_idx lx) oov in
        let* p1 := vsetZ (lx_prev lx) (lx_idx lx) 0 in
        let* o2 := vsetZ o1 oov (lx_idx lx) in                        (* line 121 *)
        Ok (lx_idx lx + 1, o2, p1)
      else Ok (lx_idx lx, lx_order lx, lx_prev lx) in
    if negb (idx =? Z.of_nat n) then Err
    else
      let im := new_implicit (Z.of_nat (length (ng_fst ng))) tab 1 (last ends 0) in
      match get_state im (-1) 1 (-1) (-1) with
      | None => Err
      | Some (oov_state, im') =>
          Ok (Word ng order (lx_pos lx) prev (lx_chars lx) ends oov_state 0 0 [] [] im')
      end.

  (** ** The cache of cumulative weights *)

  (** ngram_word_fst_model.cc:194-204 FindOldestLastAccessedCache. *)
  Fixpoint w_oldest_from (i best : nat) (oldest : Z) (l : list wcache) : nat :=
    match l with
    | [] => best
    | c :: t => if wc_accessed c <? oldest then w_oldest_from (S i) i (wc_accessed c) t
                else w_oldest_from (S i) best oldest t
    end.
  Definition w_find_oldest (l : list wcache) : outcome nat :=
    match l with [] => UB | c :: t => Ok (w_oldest_from 1 0 (wc_accessed c) t) end.

  (** ngram_word_fst_model.cc:206-224 GetNewCacheIndex; [false] is the returned error. *)
  Definition new_cache_index (m : word) (s : Z) (w : list (car F)) : outcome (bool * word) :=
    if Z.of_nat (length (wm_caches m)) <? wm_max_cache m then
      let* ci := vsetZ (wm_cindex m) s (Z.of_nat (length (wm_caches m))) in
      Ok (true, set_wcache m (wm_accessed m + 1) ci (wm_caches m ++ [WCache s (wm_accessed m) w]))
    else
      let* i := w_find_oldest (wm_caches m) in
      let* c := vget (wm_caches m) i in
      let* oi := vgetZ (wm_cindex m) (wc_state c) in
      if negb (oi =? Z.of_nat i) then Ok (false, m)
      else
        let* ci1 := vsetZ (wm_cindex m) (wc_state c) (-1) in
        let* cs := vset (wm_caches m) i (WCache s (wm_accessed m) w) in
        let* ci2 := vsetZ ci1 s (Z.of_nat i) in
        Ok (true, set_wcache m (wm_accessed m + 1) ci2 cs).

  (** state_cache_[cache_index_[s]]. *)
  Definition cache_of (m : word) (s : Z) : outcome wcache :=
    let* i := vgetZ (wm_cindex m) s in vgetZ (wm_caches m) i.
  Definition touch (m : word) (s : Z) : outcome word :=
    let* i := vgetZ (wm_cindex m) s in
    let* c := vgetZ (wm_caches m) i in
    let* cs := vsetZ (wm_caches m) i (WCache (wc_state c) (wm_accessed m) (wc_weights c)) in
    Ok (set_wcache m (wm_accessed m + 1) (wm_cindex m) cs).

  (** ngram_word_fst_model.cc:149-155: the weights of the arcs, by position. *)
  Fixpoint arc_weights (pos : list Z) (arcs : list (@arc F)) (w : list (car F)) (here : list bool)
    : outcome (list (car F) * list bool) :=
    match arcs with
    | [] => Ok (w, here)
    | a :: t =>
        if 0 <? a_label a then
          let* p := vgetZ pos (a_label a) in
          let* w' := vsetZ w p (a_count a) in
          let* here' := vsetZ here p true in
          arc_weights pos t w' here'
        else arc_weights pos t w here
    end.

  (** lines 180-190: from position [i] on, with the cumulative weight [cum] of position i-1; the
      back-off weights of positions i-1 and i are [bprev] and the head of [bw]. *)
  Fixpoint accumulate (g : car F) (cum bprev : car F) (w : list (car F)) (here : list bool)
      (bw : list (car F)) : list (car F) :=
    match w, here with
    | x :: w', h :: here' =>
        let b := match bw with [] => f0 | b :: _ => b end in
        let own := if h : bool then x else fmul g (safe_diff b bprev) in
        let c := fadd own cum in
        c :: accumulate g c b w' here' (tl bw)
    | _, _ => []
    end.

  (** ngram_word_fst_model.cc:141-192 FillWeightVector (with EnsureCacheIndex of lines 226-232
      inlined for the back-off state).  When back-off weights exist they have the full length. *)
  Fixpoint fill_weights (fuel : nat) (m : word) (s : Z) : outcome (list (car F) * word) :=
    let* i := vgetZ (wm_cindex m) s in
    if 0 <=? i then let* c := vgetZ (wm_caches m) i in Ok (wc_weights c, m)
    else
      match fuel with
      | O => UB
      | S fuel' =>
          let* st := vgetZ (w_fst m) s in
          let n := length (wm_order m) in
          let* (w, here) := arc_weights (wm_pos m) (ps_arcs st) (repeat f0 n) (repeat false n) in
          let* (b, g) := ng_backoff (w_fst m) s in
          let* (bw, m1) :=
            (if b =? -1 then Ok ([], m)
             else
               let* bi := vgetZ (wm_cindex m) b in
               let* (ok, m1) :=
                 (if 0 <=? bi then Ok (true, m)
                  else let* (wb, m') := fill_weights fuel' m b in new_cache_index m' b wb) in
               if ok : bool then
                 let* c := cache_of m1 b in
                 let* m2 := touch m1 b in
                 Ok (wc_weights c, m2)
               else Ok ([], m1)) in
          let here := match bw with [] => repeat true n | _ => here end in
          let* w0 := vget w 0 in
          let w0' := if negb (feqb (ps_final st) f0) then ps_final st
                     else match bw with [] => w0 | b0 :: _ => fmul b0 g end in
          Ok (w0' :: accumulate g w0' (match bw with [] => f0 | b0 :: _ => b0 end)
                                (tl w) (tl here) (tl bw), m1)
      end.

  (** ngram_word_fst_model.cc:226-232 EnsureCacheIndex. *)
  Definition ensure (m : word) (s : Z) : outcome (bool * word) :=
    let* i := vgetZ (wm_cindex m) s in
    if 0 <=? i then Ok (true, m)
    else let* (w, m') := fill_weights (S (length (w_fst m))) m s in new_cache_index m' s w.

  (** ngram_word_fst_model.cc:234-247 Read; [cache_option] is the configured size and [hi_order] the
      order reported by sfst::Backoff. *)
  Definition w_read (accept : list (@pstate F) -> Z -> bool) (hi_order cache_option : Z) (sg : storage F)
    : outcome word :=
    let* ng := ng_read accept sg in
    let* m := establish ng in
    let mc := if hi_order <? cache_option then cache_option else 2000 in
    let m := Word (wm_ng m) (wm_order m) (wm_pos m) (wm_prev m) (wm_first_chars m) (wm_first_ends m)
                  (wm_oov_state m) mc 0 (repeat (-1) (length (ng_fst ng))) [] (wm_im m) in
    let* (ok, m') := ensure m (ng_start ng) in
    if ok : bool then Ok m' else Err.

  (** ** NextState *)

  (** The string at a position of the order. *)
  Definition word_at (m : word) (i : Z) : outcome str :=
    let* l := vgetZ (wm_order m) i in Ok (find_symbol (ng_syms (wm_ng m)) l).

  (** The inner loops that move past elements with the same character in the same position:
      the first index from [i] on that is beyond [final] or shares at most [plen] characters. *)
  Fixpoint skip_same (fuel : nat) (m : word) (plen final i : Z) : outcome Z :=
    if final <? i then Ok i
    else match fuel with
         | O => UB
         | S fuel' =>
             let* p := vgetZ (wm_prev m) i in
             if plen <? p then skip_same fuel' m plen final (i + 1) else Ok i
         end.

  (** ngram_word_fst_model.cc:260-274: the search for the character. *)
  Fixpoint find_begin (fuel : nat) (m : word) (plen final c begin_char i : Z) : outcome Z :=
    if (final <? i) || (c =? begin_char) then Ok i
    else match fuel with
         | O => UB
         | S fuel' =>
             let* w := word_at m i in
             let bc := next_char w plen in
             if bc =? c then find_begin fuel' m plen final c bc i
             else
               let* j := skip_same (length (wm_order m)) m plen final (i + 1) in
               find_begin fuel' m plen final c bc j
         end.

  (** ngram_word_fst_model.cc:249-287 GetBeginEndIndices.  The loop of lines 281-285 stops at
      [skip_same] from the next index, minus one. *)
  Definition begin_end (m : word) (s plen c : Z) : outcome (Z * Z) :=
    match im_symbol_begin (wm_im m) s, im_symbol_end (wm_im m) s with
    | Some b, Some final =>
        let* i := find_begin (S (length (wm_order m))) m plen final c (-1) b in
        if final <? i then Ok (-1, -1)
        else
          let* j := skip_same (length (wm_order m)) m plen final (i + 1) in
          Ok (i, j - 1)
    | _, _ => Ok (-1, -1)
    end.

  (** ngram_word_fst_model.cc:289-306 NextCompleteState. *)
  Definition next_complete (m : word) (s ms plen : Z) : outcome Z :=
    match im_symbol_begin (wm_im m) s with
    | Some b =>
        let* sym := vgetZ (wm_order m) b in
        let w := find_symbol (ng_syms (wm_ng m)) sym in
        if Z.of_nat (length w) =? plen then next_model_state (wm_ng m) ms sym
        else Ok (ng_unigram (wm_ng m))
    | None => Ok (ng_unigram (wm_ng m))
    end.

  (** lines 313-320: the range of a first letter. *)
  Fixpoint first_range (chars : list str) (ends : list Z) (begin : Z) (c : Z) : outcome (Z * Z) :=
    match chars with
    | [] => Ok (begin, -1)
    | ch :: chars' =>
        match ends with
        | [] => UB
        | e :: ends' => if str_eqb ch [c] then Ok (begin, e) else first_range chars' ends' (e + 1) c
        end
    end.

  (** ngram_word_fst_model.cc:308-330 NextFirstLetterState. *)
  Definition next_first_letter (m : word) (s c : Z) : outcome (Z * word) :=
    let* (b, e) := first_range (wm_first_chars m) (wm_first_ends m) 1 c in
    if 0 <=? e then
      match get_state (wm_im m) s 1 b e with
      | Some (t, im') => Ok (t, set_im m im')
      | None => Ok (ng_unigram (wm_ng m), m)
      end
    else Ok (ng_unigram (wm_ng m), m).

  (** ngram_word_fst_model.cc:332-362 NextState. *)
  Definition w_next_state (m : word) (s c : Z) : outcome (Z * word) :=
    if s <? w_num m then next_first_letter m s c
    else if (s =? wm_oov_state m) && (c =? 32) then Ok (ng_unigram (wm_ng m), m)
    else
      match im_model_state (wm_im m) s, im_prefix_length (wm_im m) s with
      | Some ms, Some plen =>
          if 0 <=? ms then
            if c =? 32 then let* t := next_complete m s ms plen in Ok (t, m)
            else
              let* (b, e) := begin_end m s plen c in
              if (0 <=? b) && (0 <=? e) then
                match get_state (wm_im m) ms (plen + 1) b e with
                | Some (t, im') => Ok (t, set_im m im')
                | None => Ok (wm_oov_state m, m)
                end
              else Ok (wm_oov_state m, m)
          else Ok (wm_oov_state m, m)
      | _, _ => Ok (wm_oov_state m, m)
      end.

  (** ** ExtractLMScores *)

  (** ngram_word_fst_model.cc:364-386 GetNextCharEnds for implicit states, after the first
      character: one group per turn. *)
  Fixpoint char_ends (fuel : nat) (m : word) (plen e i : Z) : outcome (list Z * list str) :=
    if e <? i then Ok ([e], [])
    else match fuel with
         | O => UB
         | S fuel' =>
             let* j := skip_same (length (wm_order m)) m plen e i in
             if e <? j then Ok ([e], [])
             else
               let* w := word_at m j in
               let* (ends, chars) := char_ends fuel' m plen e (j + 1) in
               Ok (j - 1 :: ends, [next_char w plen] :: chars)
         end.

  (** ngram_word_fst_model.cc:364-408 GetNextCharEnds. *)
  Definition next_char_ends (m : word) (s : Z) : outcome (list Z * list str) :=
    if s <? w_num m then Ok (wm_first_ends m, wm_first_chars m)
    else
      match implicit_entry (wm_im m) s with
      | Some (_, plen, b, e) =>
          if b <? 0 then Ok ([], [])
          else
            let* w := word_at m b in
            let* (ends, chars) := char_ends (S (length (wm_order m))) m plen e (b + 1) in
            Ok (ends, [next_char w plen] :: chars)
      | None => Ok ([], [])
      end.

  (** ngram_word_fst_model.cc:563-568 cummulative_neg_log_prob. *)
  Definition cum (w : list (car F)) (i : Z) : car F :=
    if i <? 0 then f0 else match nth_error w (Z.to_nat i) with Some p => p | None => f0 end.

  (** ngram_word_fst_model.cc:410-422 GetRangeCost. *)
  Definition range_prob (m : word) (ms b e : Z) : outcome (car F * word) :=
    if (ms <? 0) || (w_num m <? ms) || (b <? 1) || (e <? b) || (Z.of_nat (length (wm_order m)) <=? e)
    then Ok (f0, m)
    else
      let* (ok, m') := ensure m ms in
      if ok : bool then
        let* c := cache_of m' ms in
        Ok (safe_diff (cum (wc_weights c) e) (cum (wc_weights c) (b - 1)), m')
      else Ok (f0, m').

  (** ngram_word_fst_model.cc:424-430 GetFinalCost. *)
  Definition final_prob (m : word) (ms : Z) : outcome (car F * word) :=
    if (ms <? 0) || (w_num m <? ms) then Ok (f0, m)
    else
      let* (ok, m') := ensure m ms in
      if ok : bool then let* c := cache_of m' ms in Ok (cum (wc_weights c) 0, m')
      else Ok (f0, m').

  (** ngram_word_fst_model.cc:432-453 GetBackedoffFinalCost. *)
  Fixpoint backedoff_loop (fuel : nat) (m : word) (s : Z) (cost : car F) : outcome (car F) :=
    if s =? -1 then Ok cost
    else match fuel with
         | O => UB
         | S fuel' =>
             let* st := vgetZ (w_fst m) s in
             if negb (feqb (ps_final st) f0) then Ok (fmul cost (ps_final st))
             else
               let* (b, g) := ng_backoff (w_fst m) s in
               backedoff_loop fuel' m b (if b =? -1 then f0 else fmul cost g)
         end.
  Definition backedoff_final (m : word) (s : Z) : outcome (car F) :=
    if (s <? 0) || (w_num m <? s) then Ok f0
    else backedoff_loop (S (length (w_fst m))) m s f1.

  (** ngram_word_fst_model.cc:549-554: the remaining ranges. *)
  Fixpoint range_probs (m : word) (ms b : Z) (ends : list Z) : outcome (list (car F) * word) :=
    match ends with
    | [] => Ok ([], m)
    | e :: t =>
        let* (p, m1) := range_prob m ms b e in
        let* (ps, m2) := range_probs m1 ms (e + 1) t in
        Ok (p :: ps, m2)
    end.

  (** ngram_word_fst_model.cc:476-561 ExtractLMScores; [None] is [false].  The response of the
      early return of line 483 has nothing set. *)
  Definition w_extract (m : word) (s : Z) : outcome (option (lm_scores (num F)) * word) :=
    let s := check_state (wm_ng m) s in
    let* (ends, chars) := next_char_ends m s in
    match ends with
    | [] => Ok (Some (LmScores (Val f0) []), m)
    | end0 :: ends' =>
        match im_symbol_begin (wm_im m) s with
        | None => Ok (None, m)
        | Some b =>
            if b <? 1 then Ok (None, m)
            else
              match im_model_state (wm_im m) s with
              | None => Ok (None, m)
              | Some ms =>
                  let* (ok, m1) := ensure m ms in
                  if negb ok then Ok (None, m1)
                  else
                    let* m2 := touch m1 ms in
                    let* c0 := vget chars 0 in
                    let* (probs, syms, m5) :=
                      (if str_eqb c0 [32] then
                         let* sym := vgetZ (wm_order m) b in
                         let* nx := next_model_state (wm_ng m) ms sym in
                         let* pf := backedoff_final m2 nx in
                         if negb (feqb pf f0) then
                           let* (wb, m3) := range_prob m2 ms b end0 in
                           let* (ps, m4) := range_probs m3 ms (end0 + 1) ends' in
                           Ok (fmul wb (safe_diff f1 pf) :: fmul wb pf :: ps,
                               c0 :: [] :: tl chars, m4)
                         else
                           let* (ps, m4) := range_probs m2 ms b ends in
                           Ok (ps, chars, m4)
                       else
                         let* (fp, m3) := final_prob m2 ms in
                         let* (ps, m4) := range_probs m3 ms b ends in
                         if (ms =? s) && negb (feqb fp f0) then Ok (fp :: ps, [] :: chars, m4)
                         else Ok (ps, chars, m4)) in
                    let* normed := softmax_renormalize probs in
                    Ok (Some (LmScores (Val f1) (combine syms normed)), m5)
              end
        end
    end.

  (** ngram_word_fst_model.cc:455-474 SymLMScore. *)
  Definition sym_code (w : str) : Z := match w with [] => 0 | [c] => c | _ => -1 end.
  Definition w_score (m : word) (s c : Z) : outcome (num F * word) :=
    let* (r, m') := w_extract m s in
    Ok (match r with
        | Some sc => match find (fun e => sym_code (fst e) =? c) (sc_entries sc) with
                     | Some (_, p) => p
                     | None => Val f0
                     end
        | None => Val f0
        end, m').

  (** The virtual interface. The start state is that of the automaton (line 243). *)
  Definition word_ops : comp_ops F word := {|
    c_start := fun m => ng_start (wm_ng m);
    c_next := w_next_state;
    c_score := fun m s c => let* (r, m') := w_score m s c in
                            match r with Val p => Ok (p, m') | NaN => UB end;
    c_extract := fun m s => let* (r, m') := w_extract m s in
                            match r with
                            | Some sc => let* p := plain_scores sc in Ok (Some p, m')
                            | None => Ok (None, m')
                            end;
    c_update := fun m _ _ _ => Ok (true, m)
  |}.
End Word.
Arguments word F : clear implicits.
