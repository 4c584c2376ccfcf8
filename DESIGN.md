# Formal model of google-research/mozolm in Rocq (Coq 8.16.1)

The theorems are about a hand-written Gallina model of the C++ in /repo.  Nothing
here runs the C++: the tie is the reading of the source, and every definition of the
model cites the file and lines it models.  Where the repo's unit tests state expected
numbers, the model is run (`vm_compute`) on the same inputs and compared with them.

## Modelling conventions

* **Outcomes.** C++ undefined behaviour (out-of-bounds access, signed overflow) is the
  distinct outcome `UB`; an error status is `Err`; an uncaught exception or failed
  CHECK is `Crash`.  "Safe" theorems say the outcome is never `UB`.
* **Numbers.** The code computes with `double` negative log probabilities.  The model
  keeps the *probability* `p = exp(-cost)`: `+inf` cost is `p = 0`, `NegLogSum` is `+`,
  `NegLogDiff` is `-`, adding costs is `*`, subtracting is `/`; `NaN` (e.g. `inf - inf`)
  is an explicit outcome.  Arithmetic is exact: rounding and Kahan compensation are not
  modelled here; floating point has its own models (C68, C73, C74, C75).  The arithmetic is generic over an ordered field (`Field.v`), with two
  instances: `Qc` (computable, used to run the model) and `R` (with the lemmas tying
  `NegLogSum` etc. to the real `exp`/`ln`).
* **Strings.** UTF-8 decoding (nisaba) is external: a context is its list of code points.
  Symbols in responses are code points or lists of code points.
* **External libraries** (OpenFst containers/matchers, sfst, nisaba, absl, gRPC) are modelled by
  their documented behaviour, written down next to the definition which relies on it.
* **Components of the hub** are an abstract state machine record, later instantiated with the
  bigram, PPM and n-gram models.

## Plan per property

Model files are `rocq/theories/<name>.v`; the theorems are in the `*Props*.v` file named in the last column.

| id | property | status | model | how proved | theorems in |
|---|---|---|---|---|---|
| C01 | Context walk is the left fold of single-symbol steps, with recovery to the start state | proved | LmModel | ContextState as a loop over code points with an arbitrary NextState; induction on the context | LmProps |
| C02 | Top-k hypotheses are exactly the k most probable entries | proved | LmModel | std::sort as any permutation sorted by > (the theorem quantifies over every such result), plus an executable sort | LmProps |
| C03 | Softmax renormalisation yields a probability distribution | proved | LmModel | sums over lists in the probability domain | LmProps |
| C04 | Bigram scores are a probability distribution after any history | proved | BigramModel | loader + update state machine; invariant "normalizer = row sum"; induction over histories | BigramProps |
| C05 | Bigram learns exactly what it was told | proved | BigramModel | refinement to an independent counting specification (occurrences in a list of observed pairs) | BigramProps |
| C06 | Bigram single-symbol score agrees with the full distribution | proved | BigramModel | from the representation invariant | BigramProps |
| C07 | Bigram states are vocabulary positions | proved | BigramModel | inverse-table lemma on strictly increasing vocabularies | BigramProps |
| C08 | Bigram loader accepts only well-formed models and never corrupts memory | partial | BigramModel, TextModel | byte-level parser with UB outcome; positive theorem for accepted files, refutations for the rest | BigramProps |
| C09 | Bigram counters do not overflow | partial | BigramModel | int64 arithmetic with an overflow outcome; theorem under a bound on observations, refutation without | BigramProps |
| C10 | The hub never holds more states than configured | proved | HubModel | hub as a state machine over abstract components; invariant over operation lists | HubProps |
| C11 | Before wrap-around, a hub state is a context | proved | HubModel | trie abstraction: state index <-> context; invariant over operation lists before wrap-around | HubProps, HubProps4 |
| C12 | After wrap-around, a hub state still stands for its context | partial | HubModel | frame invariant over recycling; two refutations by computed histories with a tiny pool | HubProps, HubProps3 |
| C13 | Hub mixture is the weighted sum of its components' distributions | proved | HubModel | mixture as finite-map accumulation over an exact field | HubProps |
| C14 | Static mixture weights are a distribution fixed at start-up | proved | HubModel | algebra of the initialisation + frame over all operations | HubProps2 |
| C15 | Bayesian interpolation follows Bayes' rule over a bounded history | proved | HubModel | sliding-window invariant on hub states; product formula | HubProps2 |
| C16 | Bayesian weights are always defined | partial | HubModel | refuted with an out-of-vocabulary symbol; proved when some model gives the window positive mass | HubProps2 |
| C17 | No request can make the hub touch memory out of bounds | partial | HubModel | UB outcome; refuted with Bayesian history; proved for valid states / without Bayesian history | HubProps3 |
| C18 | Hub learning reaches every mixed component in the right state | proved | HubModel | trace of what the components are told vs. the path of the state | HubProps3 |
| C19 | Model factory builds exactly the configured models | proved | FactoryModel | traversal of the configuration with errors; inductive relation "loads" as the specification | FactoryProps |
| C20 | PPM scores are a probability distribution after any history | proved | PpmModel, PpmReadModel | sum-to-one by induction on the back-off chain; invariant over updates | PpmProps, PpmProps3 |
| C21 | PPM scores follow the documented blending formula | proved | PpmModel | recursive specification on contexts (PpmSpec) vs. the computation through the cache | PpmProps |
| C22 | PPM total weights stay consistent with the counts | proved | PpmModel | invariant over update histories | PpmProps |
| C23 | PPM counting uses update exclusion | proved | PpmModel | refinement of UpdateModel to a (context, symbol) -> count table (PpmRef) | PpmProps |
| C24 | A static PPM model never changes | proved | PpmModel | static models: refinement + induction over histories | PpmProps2 |
| C25 | PPM score cache is transparent | proved | PpmModel | cache invariant: live entries equal recomputation | PpmProps2 |
| C26 | PPM cache is bounded | proved | PpmModel | size invariant of the cache | PpmProps2, PpmProps3 |
| C27 | PPM updates on live states always succeed and contexts never exceed the maximum order | proved | PpmModel | well-formed trie automaton invariant; every call answers | PpmProps2, PpmProps3 |
| C28 | PPM NextState goes to the longest known suffix | proved | PpmModel | states stand for contexts; longest-suffix lemma | PpmProps2 |
| C29 | PPM parameters are always in range | proved | PpmModel, PpmReadModel | case analysis of out-of-vocabulary symbols | PpmProps2 |
| C30 | Character n-gram score is the standard back-off product | proved | NgramModel | fuelled matcher loop vs. the inductive relation symbol_prob; termination by the ranking of back-off arcs | NgramProps, NgramProps2 |
| C31 | Character n-gram scores are a complete distribution | proved | NgramModel | field algebra + Permutation of the vocabulary | NgramProps |
| C32 | Unknown characters fall back to <unk> or are impossible | partial | NgramModel | matcher semantics incl. kNoLabel; refuted without <unk> | NgramProps, NgramProps2 |
| C33 | Character n-gram NextState follows the first matching suffix | proved | NgramModel | back-off chain relation symbol_dest | NgramProps |
| C34 | Word model prefix ranges are exact | proved | WordModel | sorted-string range lemmas (binary searches) | WordProps |
| C35 | Word model implicit states are shared and unique | proved | WordModel | invariant of the implicit-state table | WordProps, WordProps2 |
| C36 | Word model character probabilities are sums of word probabilities | partial | WordModel | cumulative sums vs. the sum over words with the prefix | WordProps, WordProps2 |
| C37 | Word model orders its vocabulary lexicographically | partial | WordModel | permutation + sortedness; refuted with <unk> not last | WordProps, WordProps2 |
| C38 | Word model weight cache is bounded and transparent | proved | WordModel | cache invariant: entries equal recomputation | WordProps |
| C39 | State identifiers sent by clients are the ones used | partial | ServerModel | int64->int32 narrowing; refuted; proved in the int32 range | ServerProps2 |
| C40 | Queries are read-only | partial | ServerModel, HubModel, FactoryModel | frame over request sequences (observational equality of the hub); for made hubs a bisimulation up to the component states handed out (HubSim, HubCalm: PPM caches and implicit word states do change under queries) | FactoryProps3, ServerProps2 |
| C41 | Every RPC gets exactly one reply and its context is freed exactly once | proved | ServerModel | transition system of call objects and threads; invariants over all schedules | ServerProps |
| C42 | Graceful shutdown | partial | ServerModel | invariants over all schedules; refuted by computed schedules | ServerProps |
| C43 | Secure credentials are used when asked for | partial | ConfigModel | decision tables; refuted for TLS without a TLS section | ConfigProps, ConfigProps2 |
| C44 | Sampling a character follows the reported distribution | proved | ClientModel | cumulative search over an exact field | ClientProps |
| C45 | Random generation terminates within its bound | proved | ClientModel | loop invariant on the generated string | ClientProps |
| C46 | k-best request is safe and returns the k best | partial | ClientModel | UB outcome; refuted for k>n; proved for k<=n | ClientProps |
| C47 | Bits per character is the average code length | partial | ClientModel, FieldR | code lengths as logs over R of the product of the probabilities | ClientProps2 |
| C48 | Client defaults respect the configuration | partial | ConfigModel | decision tables; refuted | ConfigProps |
| C49 | Code-point relabelling keeps distinct symbols distinct | partial | RelabelModel | label map as an association list; injectivity refuted in general, proved when the handed-out labels are free | RelabelProps |
| C50 | Training from text counts what the text contains | proved | PpmReadModel, PpmTrainSpec | training shown to produce the counts of PpmTrainSpec, which are then spelled out per history | PpmProps4 |
| C51 | WriteFst and Read round-trip | proved | PpmReadModel | sorting arcs keeps the automaton invariant and the cache invariant; the file is readable and the re-read model tracks the same histories and counts | PpmProps4 |
| C52 | A context walk begins in the start state of the model | partial | NgramModel, WordModel | computed refutation for the character model; proved for the word model | NgramProps2, WordProps2 |
| C53 | An unknown word stays unknown until the next space | partial | WordModel | typing relation (WordSpec) vs. NextState | WordProps, WordProps2 |
| C54 | States handed out by NextState of a word model can be used | partial | WordModel | session relation: states handed out since the model was read | WordProps2 |
| C55 | Unknown states are rejected | partial | ServerModel | case analysis of requests about unknown states; refutations | ServerProps2 |
| C56 | Invalid updates are rejected | partial | ServerModel | refuted | ServerProps2 |
| C57 | The reply to an update is the scores after it | proved | ServerModel | refinement of update requests to the path of the state | FactoryProps3, ServerProps2 |
| C58 | Requests are handled one at a time | proved | ServerModel | linearization: the log of handled requests, in order, explains all replies under every schedule | ServerProps |
| C59 | The server object can be started, run, stopped and started again | partial | FactoryModel | ServerHelper as a state machine over call lists; refutations for a second Run | FactoryProps |
| C60 | Scores computed with logarithms are the probabilities they stand for | proved | LogModel | homomorphism lemmas between -ln arithmetic (with infinities) and the probability domain, over R | LogProps |
| C61 | A server on properly made models replies to every request | proved | FactoryModel, HubModel, ServerModel and the four models | "comps_answer" interface proved for each kind of model, lifted to hubs, request lists and schedules | FactoryProps2 |
| C62 | What a server that is only asked replies is the mixture of what its models, as loaded, say about the whole context | proved | HubModel, ServerModel, FactoryModel and the four models | the hub state for a context is shown to equal, up to caches of the models, the state a fresh hub reaches by walking the context; then C10/C13 applied to that fresh hub | FactoryProps4 |
| C63 | Score replies are probability distributions | proved | HubModel, ServerModel, FactoryModel and the four models | each model is shown to answer with a distribution in every state reachable by queries and learning (HubDistInst.v); the mixture of distributions with positive weights is one, and the Bayesian histories stay non-negative (HubDist.v) | FactoryProps5 |
| C64 | Scoring a string follows the chain rule | proved | PpmModel.get_probs, get_syms_vector | refinement of the reference machine of PpmRef.v, extended by ref_string (PpmString.v); the chain rule by induction on n | PpmProps5 |
| C65 | Requests about states the server gave out are not refused | partial | handlers of ServerModel.v on hubs of make_model_hub, states given out defined from requests and replies | components never refuse a valid state (HubAcceptInst.v); trie invariant of HubTrie.v shows that VerifyOrCorrectModelStates finds the links; induction over the conversation | FactoryProps6 |
| C66 | A client of a server on properly made models succeeds | partial | client of ClientModel.v joined to the request handlers of ServerModel.v on a hub of make_model_hub (ConnectModel.v): UTF-8 splitting and encoding are parameters | an invariant `room` (all answered so far, state given out, room left) that every call keeps (hub_serves), from C63 (distributions), C65 (not refused), C67 (symbols) and HubNorm.v; then induction over the loops of the client (ClientServe.v, ClientServeBits.v) | FactoryProps7, FactoryProps8 |
| C67 | Which symbols the replies list is fixed when the server starts | proved | `vocabulary` of a made model of each kind; replies of the request handlers on hubs of make_model_hub | queries and updates preserve the symbol tables (VocabKeep.v, HubVocab.v: reach_vocabulary); each model lists its vocabulary (model_entries); mixing takes the union of the keys (extract_keys); all_scores of HubDist.v for histories | FactoryVocabProps |
| C68 | The probabilities a client reads are correctly rounded | proved | the whole class in binary64 with round to nearest even (Flocq BinarySingleNaN), function by function (BigramFloatModel.v) | simulation of the exact model of BigramModel.v with normalizers related by `near` (exact up to 2^53, at most 2^117 beyond because larger sums absorb any int64), then Flocq's error bounds for the quotient | BigramFloatProps |
| C69 | A written table of counts is loaded exactly | proved | BigramModel.bigram_read on bytes; the text primitives of TextModel.v | the readers of TextModel.v are shown to invert the relations of TextSpec.v (TextProofs.v; in both directions for lines and fields), by induction over the decimal digits for numbers; then induction over lines and fields | BigramFileProps |
| C70 | The two programs do what the command line says | partial | both main functions, RunServer, RunClient and the network between them (ProgramModel.v) over the models of configuration, factory, server and client | composition: case analysis of the programs, C43/C48 lemmas for the endpoints, C66 for the commands on a connected server | ProgramProps, ProgramUtf8Props |
| C71 | Text in UTF-8, end to end | partial | UTF-8 (Utf8Model.v) in place of the parameters for text of the client, relabelling and server models; reading a text in code points (Utf8Spec.v) | arithmetic on the bytes; induction over texts; simulation between the client's strings and code points on top of C63, C66, C67 | Utf8Props, Utf8Props2 |
| C72 | The relabelling program keeps what a model accepts | partial | both functions of the main program over the relabelling model, with UTF-8 decoding and a file system | induction over paths in both directions with the injectivity of the new labels (C49); uniqueness of a sorted list of distinct labels for the second run | RelabelMainProps |
| C73 | Sampling in double arithmetic | partial | SampleFloatModel: the loop of GetRandomPosition on IEEE doubles (Flocq), round to nearest even | the loop stops at the first running total not below the threshold (induction over the list); running totals are monotone since rounding is; error of one addition from Flocq (FLT_plus_error_N_round_ex), summed by induction; agreement with the exact sampling of C44 by comparing the two sequences of totals | SampleFloatProps |
| C74 | PPM counts in single precision | partial | SingleCountModel: one counter, a weight rounded to 24 bits (Flocq) after every NegLogSum; NegLogSum is any function within 2^-40 of the exact one | invariant -15 <= weight <= 0 (rounding cannot pass -15: neighbours are 2^-20 apart, an observation moves it by exp(-15) < 2^-21); error per observation at most 2^-20, and adding one to two numbers brings their logarithms closer, so errors add up | SingleCountProps |
| C75 | Probabilities computed through logarithms in floating point are the exact ones up to rounding | proved | RoundModel: the code of LogModel with every operation on finite doubles an arbitrary function of a record `machine`; infinities and NaN as IEEE has them; RoundSpec: what an accurate machine is, and what it means that a cost stands for a probability up to a factor exp d | forward error analysis by induction over the answers and their entries: the table of sums stands for the exact table with an error growing by two roundings per entry, NegLogSum does not amplify errors; C75_hub through C13; Flocq gives the error of rounding to nearest | RoundProps |
| C76 | Rounding in the word n-gram model | proved | WordRoundModel: SafeNegLogDiff, the accumulation loop of FillWeightVector over a back-off path, GetRangeCost, the costs of the next characters with SoftmaxRenormalize and exp, the split at a word boundary, with every operation on finite doubles an arbitrary function; WordRoundSpec: the probabilities the model defines, what an accurate machine is | forward error analysis by induction over the words and over the back-off path: consecutive entries of a vector differ by the probability of the word up to one error, so ranges do not see the errors of other words; C76_same_as_model ties the exact instance to WordModel.accumulate; Flocq for doubles and the lost word | WordRoundProps, WordRoundProps2 |
| C77 | Rounding in PPM models | proved | PpmRoundModel: UpdateIndexProb, InitCacheProbs, UpdateCacheStatesAndProbs and SoftmaxRenormalize along a back-off path, with every operation on finite doubles an arbitrary function; PpmRoundSpec: the probabilities that the counts define, what accurate means; PpmRoundSpec2: the back-off path of a history in the reference description of PPM | forward error analysis by induction over the path: costs stand for probabilities up to a factor, sums and the softmax keep the factor, the difference c - beta multiplies it; C77_reference shows the exact probabilities to be P(x | h) of PpmSpec, C77_answers uses C21 and C20; Flocq for doubles | PpmRoundProps, PpmRoundProps2 |
| C78 | Rounding in the character n-gram model | proved | NgramRoundModel: the matcher, GetBackoff, LabelCostInState, FinalCostInState, SymLMScore and ExtractLMScores on automata whose weights are costs, with the float addition and every operation on finite doubles arbitrary functions; NgramRoundSpec: when such an automaton stands for one of NgramModel | simulation: the traversal takes the same path as that of the exact model, and by induction over the back-offs the cost so far stands for the product so far; then the renormalisation as in C75; Flocq for floats and doubles; C78_exact instantiates exact arithmetic | NgramRoundProps |
| C79 | Rounding from the models to the reply | proved | EndRoundSpec: when a computed answer is near the exact one; the mixing code is RoundModel | C75 for the computed answers (generalised to probabilities that exceed one a little) followed by stability of the exact mixture: weighted sums keep a relative error and quotients double it | EndRoundProps, EndRoundProps2, RoundProps |
| C80 | The reported code lengths are those of a code | proved | the client model of C47 with its specification text_scored, scored, code_length | the process that predicts the next symbol is fair at every step (the mixed values of at most 143859 symbols add up to at most one); Kraft by induction on the longest text, grouping the texts by first symbol; texts of equally many lines are prefix-free because every line ends in the empty symbol | ClientKraftProps, ClientKraftProps2, FactoryKraftProps |

## What is modelled

| source | model | remarks |
|---|---|---|
| models/language_model.cc, language_model.h | LmModel.v | ContextState, GetTopHypotheses, SoftmaxRenormalize, the interface of the components (`comp_ops` in HubModel.v) |
| models/simple_bigram_char_model.cc | BigramModel.v, TextModel.v | all of it, byte level (getline, StrSplit, stoi/stol, string_to_int) |
| models/language_model_hub.cc | HubModel.v | all of it, over an abstract record of components |
| models/ppm_as_fst_model.cc | PpmModel.v, PpmReadModel.v | Read, all queries, learning, the cache and its garbage collection; `WriteFst` |
| models/ngram_fst_model.cc, ngram_char_fst_model.cc | NgramModel.v | all of it |
| models/ngram_word_fst_model.cc | WordModel.v | all of it |
| models/model_factory.cc | FactoryModel.v | all of it; a file is what each reader makes of it |
| grpc/server_async_impl.cc | ServerModel.v | request handlers; the life cycle of calls as a transition system: ProcessRequests, DrainQueue, Shutdown, completion queue, call objects |
| grpc/server_helper.cc, server_async_main.cc | FactoryModel.v (ServerHelper, RunServer), ConfigModel.v (credentials, defaults, flags), ProgramModel.v (main) | |
| grpc/client_async_impl.cc, client_helper.cc, client_async_main.cc | ClientModel.v, ConfigModel.v, ProgramModel.v (RunClient, main), ConnectModel.v (the wire) | one request at a time against an arbitrary server |
| utils/ngram_fst_relabel.cc, ngram_fst_relabel_main.cc | RelabelModel.v, RelabelMainModel.v | all of it; a file is what StdVectorFst::Read makes of it |
| nisaba::utf8 (external) as used | Utf8Model.v | RFC 3629; a byte that starts no character is one bad character |
| the arithmetic of sfst (NegLogSum, NegLogDiff, ...) as used | LogModel.v, FieldR.v; with rounding RoundModel.v, WordRoundModel.v, PpmRoundModel.v, NgramRoundModel.v | over the reals with infinite costs |

Simplifications (each is repeated in the comment at the definition):

* arithmetic on probabilities is exact in the models of the components (C60 ties the probability domain of the
  model to the negative logarithms of the code over exact reals); rounding is modelled separately: bigram
  normalisers (BigramFloatModel.v, C68), sampling (SampleFloatModel.v, C73), one PPM counter (SingleCountModel.v, C74)
  the mixture code (RoundModel.v, C75) and the word model's weight vectors (WordRoundModel.v, C76), the blending of PPM models (PpmRoundModel.v, C77), the character n-gram model (NgramRoundModel.v, C78) and all of them together (C79); the Kahan
  compensation is not modelled as such (C76 lets every NegLogSum be a different function);
* UTF-8: in the models of the language models and the server contexts and symbols are lists of code points; the
  bytes are modelled on the client and in the relabelling program (C71, C72);
* OpenFst containers are lists of states with lists of arcs; the sorted matcher is a search for a label,
  with kNoLabel matching the epsilon loop as documented; `fst::ArcSort` is a sort by label;
* sfst::IsCanonical/IsNormalized are an arbitrary boolean `accept`, of which the theorems assume
  `checks_model` (NgramProps.v); an executable check satisfying it is given (`check_fst`);
* sfst::NGramCounter is an arbitrary function meeting `counter_contract` (PpmRef.v); an executable one is
  given (`reference_counter`);
* gRPC: the completion queue delivers each registered tag once, a finished call is reported once, a shut down
  queue drains; events are otherwise scheduled arbitrarily; a step of a thread is one statement that touches
  shared state; mutexes are what they are in absl; memory is sequentially consistent;
* protocol buffers are records; unknown fields and presence of scalar fields do not occur;
* the file system does not change during a Read.

Not modelled: `LOG` output, timing of timeouts (a request times out or not, arbitrarily), the command-line flag
library beyond the values of the flags, the SSL library, `grpc/auth_test_utils.cc` (test code), the Java
examples (a client in another language), the stubs.

## Findings: claims that are false of the code

Every `_refuted` theorem is a concrete, computed counterexample to the claim of that property; the positive
theorems beside it say under which conditions the claim holds.

* bigram: a counts file with more rows than the vocabulary writes out of bounds; an empty or non-numeric
  vocabulary aborts (C08); counters overflow (C09).
* hub: recycling a state by its own continuation changes what it means (C12); with Bayesian mixing a learning
  call with an invalid state or a negative symbol reads out of bounds (C17); all-zero windows give NaN
  weights (C16); histories go stale after learning (C40).
* character n-grams: without `<unk>` an unknown symbol follows the back-off arc (C32); contexts start at
  state 0, not at the start state of the automaton (C52).
* word n-grams: `<unk>` not last breaks the ordering (C37); a zero-mass prefix gives NaN (C36); NextState from
  state -1 makes a state whose scores are undefined behaviour (C54); an unknown first letter is dropped (C53).
* server: int64 states are truncated (C39); invalid updates are accepted although service.proto says they
  are errors (C56); unknown states are accepted or crash (C55); Shutdown right after the start can crash, and
  the wait for pending requests does not wait (C42); a second Run terminates the program (C59).
* configuration: TLS without a TLS section is insecure (C43); the client program drops the configured
  timeout (C48).
* client: k larger than the number of symbols reads out of bounds (C46); an empty file gives 0/0 bits (C47); with bigram
  models each end of line counts as an unknown symbol (C71).
* relabelling: a kept label that has to move can land on another kept label, and the output accepts something else,
  reported as success (C49, C72).
* rounding: beyond a total of 2^53 a bigram normaliser loses counts (C68); a symbol of probability 0 can be drawn when it
  is the last one (C73); PPM counts stop growing at exp(15), 3.27 million (C74); a word whose
  probability is below the resolution of the cumulated sum gets probability 0 and its prefix NaN (C76).

## Trusted base

* Coq 8.16.1's kernel (and `vm_compute`, used in computed examples), its standard library, and
  the checker `vcheck`.
* The axioms below, all of the standard library: the theorems of C47, C60, C68, C73, C74 and C75 use the real numbers and so
  `ClassicalDedekindReals.sig_not_dec`, `ClassicalDedekindReals.sig_forall_dec`,
  `FunctionalExtensionality.functional_extensionality_dep` and (through `ln`/`exp`) `Classical_Prop.classic`.
  All other theorems are closed.  There are no axioms, parameters or admitted goals of our own, no functors and no
  module types.
* The reading of the C++ by the author: the model is hand-written.
* The contracts of external code listed under simplifications; those that are hypotheses of theorems are
  visible in the statements (`checks_model`, `counter_contract`, `externals_ok`).

### Print Assumptions, theorem by theorem

*Closed under the global context* (246 theorems): C01_context_empty, C01_context_one, C01_context_compose, C01_context_state_nonneg, C02_top_k, C02_top_all, C02_errors_exactly, C02_k_equal_n_refuted, C02_sort_exists, C03_softmax_distribution, C03_softmax_empty_refuted, C04_scores_are_a_distribution, C04_invalid_state_is_start, C05_scores_are_relative_frequencies, C06_symbol_score_agrees, C07_states_are_positions, C08_accepted_models_are_well_formed, C08_load_is_memory_safe_partial, C08_too_many_rows_refuted, C08_empty_vocab_refuted, C08_non_numeric_vocab_refuted, C09_no_overflow, C09_overflow_refuted, C10_state_pool_is_bounded, C10_returned_states_are_live, C10_empty_context_refuted, C11_states_are_contexts, C11_next_extends_the_context, C11_component_states, C11_symbol_of_any_state, C12_symbol_survives_recycling, C12_components_survive_recycling_partial, C12_self_loop_refuted, C12_update_after_recycling_refuted, C13_mixture, C13_context_mixture, C13_key_order, C14_static_weights, C14_no_mixing, C15_bayes_rule, C16_weights_defined_partial, C16_defined_weights_refuted, C17_memory_safe_partial, C17_initialize_total, C17_invalid_state_refuted, C17_negative_symbol_refuted, C18_update_reaches_components, C18_invalid_state_teaches_nobody, C18_states_survive_learning, C19_files, C19_models, C19_default, C19_errors, C19_outcome, C19_settings, C20_scores_are_a_distribution, C20_blank_vocabulary_refuted, C20_empty_text_refuted, C21_refines_reference, C21_scores_follow_the_formula, C22_totals_are_consistent, C23_update_exclusion, seen_spec, C24_static_model_never_changes, C25_cache_is_transparent, C26_cache_is_bounded, C26_cache_size_refuted, C27_calls_succeed, C27_order_is_bounded, C27_unknown_state_refuted, C28_next_state_is_longest_suffix, C29_parameters_in_range, C29_cache_size, C30_score_is_backoff_product, C30_score_is_determined, C30_state_minus_one_refuted, C31_scores_are_a_distribution, C32_unknown_is_unk, C32_without_unk, C32_unknown_without_unk_refuted, C33_next_state, C33_next_state_is_determined, C33_walks_stay_in_the_model, C33_static, C33_component_is_repeatable, C34_prefix_ranges, C35_states_are_places, C35_next_state, C35_typing_is_determined, C35_context_walk, C36_predictions, C36_total_is_determined, C36_symbol_score, C36_unknown_word, C36_zero_mass_refuted, C37_lexicographic, C37_unk_not_last_refuted, C38_cache_bounded, C38_cache_transparent, C39_state_used_partial, C39_states_confused_refuted, C40_made_same_reply_partial, C40_made_queries_keep_scores_partial, C40_made_repeated_query_partial, C40_queries_keep_scores_partial, C40_repeated_query_partial, C40_recycling_refuted, C40_stale_history_refuted, C41_each_call_once, C41_one_waiting, C41_pending_counts_calls, C41_responsive, C41_idle_means_answered, C41_work_bounded, C42_returned_means_answered, C42_graceful_partial, C42_end_partial, C42_early_shutdown_refuted, C42_wait_for_pending_refuted, C43_server_tls, C43_server_insecure_iff, C43_client_tls, C43_client_insecure_iff, C43_server_flags, C43_server_flags_config, C43_client_flags, C43_server_tls_without_section_refuted, C43_client_tls_without_section_refuted, C43_server_flags_authority, C43_client_flags_complete, C43_client_flags_config, C43_both_ends_agree, C43_configured_target_dropped_refuted, C43_server_key_flag_ignored_refuted, C44_interval, C44_intervals_cover, C44_corners, C44_in_bounds, C44_no_impossible_choice, C44_selects, C44_unnormalized_refuted, C45_terminates, C45_generates, C45_rank, C45_opening_fails, C45_length_refuted, C45_uninitialized_refuted, C46_k_best, C46_errors, C46_too_many_refuted, C48_library_defaults, C48_client_address, C48_client_timeout, C48_server_settings, C48_defaults_idempotent, C48_config_timeout_refuted, C49_codepoints, C49_errors, C49_distinct_partial, C49_collision_refuted, C49_transducer, C49_transducer_errors, C49_transducer_refuted, C50_training_counts, taught_ok, C51_file_is_readable, C51_write_then_read, C52_word_model, C52_context_starts_at_start_refuted, C53_unknown_until_space, C53_astray_partial, C53_unknown_first_letter_refuted, C54_states_usable_partial, C54_state_minus_one_refuted, C55_scores_of_unknown_state_partial, C55_update_of_unknown_state_partial, C55_unknown_state_accepted_refuted, C55_update_accepted_refuted, C55_update_out_of_bounds_refuted, C56_invalid_update_accepted_refuted, C57_made_update_reply, C57_update_reply, C58_one_at_a_time, C58_exclusive, C58_hub_server, C59_init, C59_run, C59_shutdown, C59_no_crash_partial, C59_run_twice_refuted, C59_run_after_failed_start_refuted, C59_retry_refused_refuted, C61_calls_answered, C61_requests_answered, C61_server_answers, C61_default, C62_first_model, C62_static_mixture, C62_bayes_mixture, C63_first_model, C63_static_mixture, C63_bayes_mixture, C63_server, C64_string_scores, C64_defined, C64_chain_rule, C64_symbols, C64_scoring_learns, C65_scores_given, C65_next_state_given, C65_update_accepted_partial, C65_conversation_partial, C65_refused_but_learned_refuted, C66_k_best, C66_rand_gen_partial, C66_rand_gen_shared_partial, C66_unknown_word_refuted, C66_small_pool_refuted, C67_symbols, C67_exactly, C67_same_symbols, C69_written_counts_load, C69_round_trip, C69_disorder_refused, C69_wrong_shape_refused, C70_server, C70_exit_code, C70_bad_request, C70_unreachable, C70_connect, C70_k_best, C70_k_best_too_many_refuted, C70_rand_gen_partial, C70_utf8_k_best, C70_utf8_rand_gen_partial, C71_round_trip, C71_injective, C71_split, C71_single, C71_lines, C71_rand_gen_partial, C72_exit, C72_language, C72_idempotent, C72_program, C72_clash_refuted.

*ClassicalDedekindReals.sig_not_dec, ClassicalDedekindReals.sig_forall_dec, FunctionalExtensionality.functional_extensionality_dep, Classical_Prop.classic* (87 theorems): C47_mean, C47_errors, C47_finite, C60_sum, C60_order, C60_difference, C60_safe_difference, C60_log, C60_softmax, C60_weights, C60_bayesian_weights, C60_mix, C60_extract, C60_ppm, C66_bits_partial, C66_bits_shared_partial, C68_correctly_rounded, C68_close_and_ordered, C68_always_finite, C68_symbol_score_agrees, C68_same_outcomes, C68_probability_above_one_refuted, C70_bits_partial, C70_bits_unreachable, C70_utf8_bits_partial, C71_bits_partial, C71_bigram_line_end_refuted, C73_interval, C73_share, C73_total, C73_corners, C73_agrees, C73_positive, C73_zero_probability_drawn_refuted, C74_log_error, C74_count, C74_bounded, C74_stuck, C74_saturates_refuted, C75_softmax, C75_weights, C75_bayesian_weights, C75_history, C75_mixture, C75_normalization, C75_hub, C75_doubles, C75_in_numbers, C76_range, C76_end_of_string, C76_exact, C76_same_as_model, C76_same_as_model_without_back_off, C76_next_characters, C76_boundary, C76_doubles, C76_in_numbers, C76_answer, C76_answer_in_numbers, C76_lost_refuted, C76_not_a_number_refuted, C77_path, C77_probabilities, C77_exact_distribution, C77_answers, C77_counters, C77_doubles, C77_in_numbers, C78_scores, C78_answers, C78_exact, C78_floats, C78_in_numbers, C79_mixture, C79_hub, C79_bayesian_weights, C79_character_model, C79_from_costs, C79_in_numbers, C75_mixture_wide, C79_bigram_model, C79_word_model, C79_word_model_answer, C80_kraft, C80_bits_per_character, C80_server, C80_one_symbol_more_refuted.

*ClassicalDedekindReals.sig_forall_dec, FunctionalExtensionality.functional_extensionality_dep* (5 theorems): C47_symbols, C47_empty_text_refuted, C77_same_as_model, C77_reference, C78_orders.

*ClassicalDedekindReals.sig_not_dec, ClassicalDedekindReals.sig_forall_dec, FunctionalExtensionality.functional_extensionality_dep* (3 theorems): C60_product, C60_quotient, C75_sum.

