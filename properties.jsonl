{"id": "C01", "title": "Context walk is the left fold of single-symbol steps, with recovery to the start state", "statement": "LanguageModel::ContextState(context, s) ends in the state obtained by feeding the UTF-8 code points of the context one at a time through NextState, starting in s (or in the start state if s is negative), and restarting from the start state whenever a step fails; the result is never negative, and walking x followed by y equals walking y from where x ended.", "quantifier": "all contexts, all initial states, all models (any NextState function)", "why_tests_cant": "the fold law and non-negativity must hold for every string and every model, not for the handful of strings in the tests", "anchors": ["mozolm/models/language_model.cc:ContextState"]}
{"id": "C02", "title": "Top-k hypotheses are exactly the k most probable entries", "statement": "GetTopHypotheses(scores, k) with 0<k<n returns k distinct entries of the distribution in non-increasing probability order, such that no entry left out is more probable than one returned; with k=0 it returns all n entries sorted; mismatched lengths, an empty distribution and k>=n are errors. (The header promises 'at most' k hypotheses, so k=n ought to work: it does not.)", "quantifier": "all score messages (any length, any probabilities) and all k", "why_tests_cant": "sortedness, permutation and the boundary k=n range over every list length and every tie pattern", "anchors": ["mozolm/models/language_model.cc:GetTopHypotheses", "mozolm/models/language_model.h:GetTopHypotheses"]}
{"id": "C03", "title": "Softmax renormalisation yields a probability distribution", "statement": "SoftmaxRenormalize divides every element by the common total, so the outputs are positive (zero stays zero), sum to one and keep all pairwise ratios, for every non-empty vector of costs with at least one finite cost; on the empty vector it reads out of bounds.", "quantifier": "all non-empty vectors of negative log probabilities", "why_tests_cant": "the sum-to-one law is over all lengths and all values", "anchors": ["mozolm/models/language_model.cc:SoftmaxRenormalize"]}
{"id": "C04", "title": "Bigram scores are a probability distribution after any history", "statement": "For every successfully loaded bigram model and every sequence of update calls, the probabilities ExtractLMScores returns for any state are all positive, sum to exactly one, and are listed once for every vocabulary symbol in vocabulary order; out-of-range states behave as the start state.", "quantifier": "all vocabularies, count matrices, update histories and states", "why_tests_cant": "requires the running normalizer to equal the row sum after every possible history", "anchors": ["mozolm/models/simple_bigram_char_model.cc:ExtractLMScores", "mozolm/models/simple_bigram_char_model.cc:UpdateLMCounts", "mozolm/models/simple_bigram_char_model.cc:Read"]}
{"id": "C05", "title": "Bigram learns exactly what it was told", "statement": "After any sequence of UpdateLMCounts calls, the count of symbol b after symbol a equals its initial count plus the sum of the (positive) counts passed in calls in which b directly followed a (the first symbol following the state's symbol; unknown symbols are skipped and reset the context to the start); nothing else changes, and the reported probability is that count over the row total.", "quantifier": "all initial models and all update histories", "why_tests_cant": "refinement over unbounded histories against an independent bigram-counting spec", "anchors": ["mozolm/models/simple_bigram_char_model.cc:UpdateLMCounts"]}
{"id": "C06", "title": "Bigram single-symbol score agrees with the full distribution", "statement": "SymLMScore(s, c) is the negative log of the probability that ExtractLMScores(s) lists for c if c is in the vocabulary, and infinity exactly when it is not, for every state including invalid ones.", "quantifier": "all models, states and code points", "why_tests_cant": "agreement must hold for every state/symbol pair after every history", "anchors": ["mozolm/models/simple_bigram_char_model.cc:SymLMScore", "mozolm/models/simple_bigram_char_model.cc:ExtractLMScores"]}
{"id": "C07", "title": "Bigram states are vocabulary positions", "statement": "NextState(s, c) does not depend on s, is the position of c in the (strictly increasing) vocabulary or -1 if absent; StateSym(NextState(s,c)) = c whenever it is not -1.", "quantifier": "all vocabularies, states and symbols", "why_tests_cant": "ranges over all vocabularies and code points", "anchors": ["mozolm/models/simple_bigram_char_model.cc:NextState", "mozolm/models/simple_bigram_char_model.cc:StateSym", "mozolm/models/simple_bigram_char_model.cc:SymState"]}
{"id": "C08", "title": "Bigram loader accepts only well-formed models and never corrupts memory", "statement": "Read either fails or yields a model whose vocabulary is non-empty, non-negative and strictly increasing and whose square count matrix has all entries at least one; no input file makes it read or write out of bounds.", "quantifier": "all vocabulary and count files", "why_tests_cant": "all malformed inputs, including too many rows and empty vocabularies, are in scope", "anchors": ["mozolm/models/simple_bigram_char_model.cc:ReadVocabSymbols", "mozolm/models/simple_bigram_char_model.cc:ReadCountMatrix", "mozolm/models/simple_bigram_char_model.cc:Read"]}
{"id": "C09", "title": "Bigram counters do not overflow", "statement": "Learning never overflows the 64-bit counters: as long as the total of all initial counts and learned counts stays below 2^63 no operation overflows; without that bound a single client can overflow them.", "quantifier": "all histories of updates with 32-bit counts", "why_tests_cant": "needs a bound over unboundedly many updates", "anchors": ["mozolm/models/simple_bigram_char_model.cc:UpdateLMCounts"]}
{"id": "C10", "title": "The hub never holds more states than configured", "statement": "Whatever sequence of hub calls is made, the number of hub states stays between 1 and the configured maximum (10000 when the configured maximum is below 10), and every state a query returns for a non-negative symbol is a live state index.", "quantifier": "all configurations and call histories", "why_tests_cant": "unbounded histories beyond the wrap-around point", "anchors": ["mozolm/models/language_model_hub.cc:AssignNewHubState", "mozolm/models/language_model_hub.h:max_hub_states_"]}
{"id": "C11", "title": "Before wrap-around, a hub state is a context", "statement": "While fewer than the maximum number of states have been created, two context walks from the start state return the same hub state if and only if they spell the same symbol sequence; asking again returns the same state; the state's symbol is the last symbol fed; and each component model's state stored in it is exactly the state that model reaches on that context.", "quantifier": "all call histories that create fewer than max states", "why_tests_cant": "injectivity over all pairs of contexts and histories", "anchors": ["mozolm/models/language_model_hub.cc:NextState", "mozolm/models/language_model_hub.cc:ContextState", "mozolm/models/language_model_hub.cc:AssignNewHubState"]}
{"id": "C12", "title": "After wrap-around, a hub state still stands for its context", "statement": "NextState(s, c) returns a state whose symbol is c even after states have been recycled.", "quantifier": "all call histories including those that exhaust the state pool", "why_tests_cant": "the failure needs the pool to be exhausted and a stale link to be followed", "anchors": ["mozolm/models/language_model_hub.cc:AssignNewHubState", "mozolm/models/language_model_hub.h:ResetPrevState"]}
{"id": "C13", "title": "Hub mixture is the weighted sum of its components' distributions", "statement": "For an interpolating hub, ExtractLMScores returns, for exactly the symbols some component lists, in lexicographic order and without repetition, the weighted sum of the component probabilities divided by the total; the result sums to one.", "quantifier": "all components' score lists and all weights", "why_tests_cant": "all union patterns of symbol sets and all weights", "anchors": ["mozolm/models/language_model_hub.cc:ExtractLMScores", "mozolm/models/language_model_hub.cc:MixResults", "mozolm/models/language_model_hub.cc:ExtractMixture"]}
{"id": "C14", "title": "Static mixture weights are a distribution fixed at start-up", "statement": "With interpolation over two or more models the mixture weights are positive, sum to one, are in the ratio of exp(-weight) of the configured weights, and no later call changes them; without interpolation the hub answers exactly as its first model alone.", "quantifier": "all configurations and histories", "why_tests_cant": "all configurations and all later histories", "anchors": ["mozolm/models/language_model_hub.cc:InitializeModels", "mozolm/models/language_model_hub.cc:GetBayesianMixtureWeights"]}
{"id": "C15", "title": "Bayesian interpolation follows Bayes' rule over a bounded history", "statement": "With a Bayesian history of length j, the weight of model k in a state is its prior weight times the product of the probabilities that model gave to the last min(j, n) symbols of the context, normalised over models; in particular weights sum to one.", "quantifier": "all contexts, models and history lengths", "why_tests_cant": "window contents must be right for every context length and every history", "anchors": ["mozolm/models/language_model_hub.cc:UpdateBayesianHistory", "mozolm/models/language_model_hub.cc:GetBayesianMixtureWeights", "mozolm/models/language_model_hub.h:HubState"]}
{"id": "C16", "title": "Bayesian weights are always defined", "statement": "No sequence of symbols leads to undefined (NaN) mixture weights or scores.", "quantifier": "all contexts, including symbols unknown to every model", "why_tests_cant": "needs an out-of-vocabulary symbol inside the window", "anchors": ["mozolm/models/language_model_hub.cc:GetBayesianMixtureWeights", "mozolm/models/language_model_hub.cc:UpdateBayesianHistory"]}
{"id": "C17", "title": "No request can make the hub touch memory out of bounds", "statement": "For every call with any (possibly stale or negative) state and any symbols, hub operations stay in bounds.", "quantifier": "all calls with arbitrary integer arguments", "why_tests_cant": "adversarial arguments over all configurations", "anchors": ["mozolm/models/language_model_hub.cc:UpdateLMCounts", "mozolm/models/language_model_hub.cc:NextState", "mozolm/models/language_model_hub.cc:ExtractLMScores"]}
{"id": "C18", "title": "Hub learning reaches every mixed component in the right state", "statement": "UpdateLMCounts(s, syms, n) passes the same symbols and count to every mixed component, with that component's own state stored for s, exactly once; the update fails if any component refuses; hub states returned earlier remain valid and stand for the same contexts.", "quantifier": "all hubs, states, symbol lists and counts", "why_tests_cant": "all histories of interleaved queries and updates", "anchors": ["mozolm/models/language_model_hub.cc:UpdateLMCounts", "mozolm/models/language_model_hub.cc:VerifyOrCorrectModelStates"]}
{"id": "C19", "title": "Model factory builds exactly the configured models", "statement": "Creating a hub from storage with n configurations yields n component models in order (one default bigram if n=0) or an error if any of them fails to load.", "quantifier": "all configurations", "why_tests_cant": "all configuration lists", "anchors": ["mozolm/models/model_factory.cc:MakeModelHub", "mozolm/models/model_factory.cc:MakeModel"]}
{"id": "C20", "title": "PPM scores are a probability distribution after any history", "statement": "For every PPM model read from a vocabulary, a training text or a saved automaton with at least one symbol, and every sequence of calls, the probabilities reported in every state the model has are all positive and sum to one over the whole vocabulary (including end of string), each symbol being listed once.", "quantifier": "all training texts, orders, parameters, update histories and states", "why_tests_cant": "induction over back-off order and over update histories", "anchors": ["mozolm/models/ppm_as_fst_model.cc:ExtractLMScores", "mozolm/models/ppm_as_fst_model.cc:UpdateCacheAtState", "mozolm/models/ppm_as_fst_model.cc:GetNegLogProbs"]}
{"id": "C21", "title": "PPM scores follow the documented blending formula", "statement": "The probability of symbol s after context h is (max(C(hs)-beta,0 when unseen) form): P(s|h) = ([C(hs)>0](C(hs)-beta) + (U(h) beta + alpha) P(s|h')) / (S(h)+alpha), down to a Laplace-smoothed unigram model, as stated in the header.", "quantifier": "all models, states and symbols", "why_tests_cant": "recursive formula over all depths", "anchors": ["mozolm/models/ppm_as_fst_model.h:header comment", "mozolm/models/ppm_as_fst_model.cc:UpdateCacheStatesAndProbs", "mozolm/models/ppm_as_fst_model.cc:UpdateCacheAtNonEmptyState"]}
{"id": "C22", "title": "PPM total weights stay consistent with the counts", "statement": "In every reachable model, the total stored at a state (on its back-off arc, or final weight of the unigram state) equals the sum of the counts of all symbols at that state.", "quantifier": "all histories", "why_tests_cant": "an invariant over every update path (found, not found, new state)", "anchors": ["mozolm/models/ppm_as_fst_model.cc:UpdateHighestFoundState", "mozolm/models/ppm_as_fst_model.cc:UpdateNotFoundState", "mozolm/models/ppm_as_fst_model.cc:UpdateIndexProb"]}
{"id": "C23", "title": "PPM counting uses update exclusion", "statement": "One update with symbol s in context h adds exactly one to the count of s in the longest suffix of h in which s was already seen, creates count-one entries in every longer suffix of h up to the maximum order, and changes no other count.", "quantifier": "all models, states and symbols", "why_tests_cant": "frame condition over all states and symbols", "anchors": ["mozolm/models/ppm_as_fst_model.cc:UpdateModel", "mozolm/models/ppm_as_fst_model.cc:UpdateHighestFoundState", "mozolm/models/ppm_as_fst_model.cc:UpdateNotFoundState"]}
{"id": "C24", "title": "A static PPM model never changes", "statement": "If the model is configured static, or the count is not positive, no update call changes any later answer, and it reports success.", "quantifier": "all histories", "why_tests_cant": "all histories of calls", "anchors": ["mozolm/models/ppm_as_fst_model.cc:UpdateLMCounts"]}
{"id": "C25", "title": "PPM score cache is transparent", "statement": "Scores returned through the bounded cache are exactly those obtained by recomputing from the counts, after any interleaving of queries and updates and any evictions.", "quantifier": "all interleavings of queries and updates and all cache sizes", "why_tests_cant": "needs eviction/invalidations in every order", "anchors": ["mozolm/models/ppm_as_fst_model.cc:EnsureCacheAtState", "mozolm/models/ppm_as_fst_model.cc:LowerOrderCacheUpdated", "mozolm/models/ppm_as_fst_model.cc:GetNewCacheIndex"]}
{"id": "C26", "title": "PPM cache is bounded", "statement": "The number of cached states never exceeds the effective maximum (the configured one if it is larger than the order and fits an int, 2000 otherwise, raised above the order of the model if needed), and each cached state occupies exactly one slot.", "quantifier": "all histories", "why_tests_cant": "all histories", "anchors": ["mozolm/models/ppm_as_fst_model.cc:GetNewCacheIndex", "mozolm/models/ppm_as_fst_model.cc:UpdateCacheAtState"]}
{"id": "C27", "title": "PPM updates on live states always succeed and contexts never exceed the maximum order", "statement": "For every model built by Read and every history, every call on a state the model has succeeds and keeps all states valid (in particular an update with any symbols, known or not), never exhausts its back-off loop, and no state represents a context longer than max order - 1. Invalid state numbers are not checked.", "quantifier": "all histories", "why_tests_cant": "termination and order bounds over unbounded growth", "anchors": ["mozolm/models/ppm_as_fst_model.cc:UpdateModel", "mozolm/models/ppm_as_fst_model.cc:AddNewState", "mozolm/models/ppm_as_fst_model.cc:CalculateStateOrders"]}
{"id": "C28", "title": "PPM NextState goes to the longest known suffix", "statement": "NextState(s, c) is the state of the longest suffix of (context of s)c which the model has a state for, and the unigram state for unknown symbols.", "quantifier": "all models, states and symbols", "why_tests_cant": "longest-suffix law over all contexts", "anchors": ["mozolm/models/ppm_as_fst_model.cc:NextState", "mozolm/models/ppm_as_fst_model.cc:GetDestinationState"]}
{"id": "C29", "title": "PPM parameters are always in range", "statement": "Whatever options are given, the effective parameters satisfy 0<alpha<1, 0<beta<1, order>0, cache>=order: out-of-range or missing values are replaced by 0.5, 0.75 and 4; the order is raised to what the loaded model needs.", "quantifier": "all option values", "why_tests_cant": "all values of each option", "anchors": ["mozolm/models/ppm_as_fst_model.cc:InitParameters"]}
{"id": "C30", "title": "Character n-gram score is the standard back-off product", "statement": "SymLMScore(s, c) is the cost of the arc labelled c at the first state on the back-off chain of s that has one, plus the costs of the back-off arcs passed on the way (end of string: the first state with a final cost); the chain always terminates.", "quantifier": "all back-off-acyclic n-gram automata, states and symbols", "why_tests_cant": "recursion over chains of any depth", "anchors": ["mozolm/models/ngram_char_fst_model.cc:LabelCostInState", "mozolm/models/ngram_char_fst_model.cc:SymLMScore", "mozolm/models/ngram_fst_model.cc:GetBackoff"]}
{"id": "C31", "title": "Character n-gram scores are a complete distribution", "statement": "ExtractLMScores lists every symbol of the symbol table and end-of-string once, with probabilities proportional to their back-off scores and summing to one.", "quantifier": "all n-gram automata and states", "why_tests_cant": "all automata", "anchors": ["mozolm/models/ngram_char_fst_model.cc:ExtractLMScores"]}
{"id": "C32", "title": "Unknown characters fall back to <unk> or are impossible", "statement": "A symbol not in the model's symbol table is treated as <unk>; if there is no <unk> the model moves to its unigram state and the symbol's cost is infinite.", "quantifier": "all automata and unknown symbols", "why_tests_cant": "interaction with the epsilon matching convention of the matcher", "anchors": ["mozolm/models/ngram_char_fst_model.cc:SymLabel", "mozolm/models/ngram_fst_model.cc:NextModelState", "mozolm/models/ngram_char_fst_model.cc:LabelCostInState"]}
{"id": "C33", "title": "Character n-gram NextState follows the first matching suffix", "statement": "NextState(s, c) is the destination of the arc labelled c at the first state on the back-off chain that has one, and the unigram state if none has; n-gram models are static, so updates never change an answer.", "quantifier": "all automata, states, symbols and histories", "why_tests_cant": "all chains", "anchors": ["mozolm/models/ngram_fst_model.cc:NextModelState", "mozolm/models/ngram_fst_model.cc:UpdateLMCounts"]}
{"id": "C34", "title": "Word model prefix ranges are exact", "statement": "After a prefix of characters has been typed inside a word, the range of words stored in the state is exactly the set of vocabulary words beginning with that prefix.", "quantifier": "all vocabularies and prefixes", "why_tests_cant": "all vocabularies (sorted string ranges) and all prefixes", "anchors": ["mozolm/models/ngram_word_fst_model.cc:GetBeginEndIndices", "mozolm/models/ngram_word_fst_model.cc:NextFirstLetterState", "mozolm/models/ngram_word_fst_model.cc:NextState"]}
{"id": "C35", "title": "Word model implicit states are shared and unique", "statement": "The same (n-gram state, prefix) always yields the same state index, different pairs yield different indices, and existing indices never change meaning.", "quantifier": "all call histories", "why_tests_cant": "injectivity over all histories", "anchors": ["mozolm/models/ngram_word_fst_model.cc:NGramImplicitStates"]}
{"id": "C36", "title": "Word model character probabilities are sums of word probabilities", "statement": "Inside a word with prefix p, the reported probability of character c is the total probability of words beginning with pc divided by that of all words beginning with p (space/end for complete words), so scores sum to one.", "quantifier": "all models, states and prefixes", "why_tests_cant": "all vocabularies and ranges", "anchors": ["mozolm/models/ngram_word_fst_model.cc:ExtractLMScores", "mozolm/models/ngram_word_fst_model.cc:GetRangeCost", "mozolm/models/ngram_word_fst_model.cc:GetNextCharEnds"]}
{"id": "C37", "title": "Word model orders its vocabulary lexicographically", "statement": "Reading a model sorts the words so that words sharing a prefix are contiguous, each word has exactly one position, and position and order are mutually inverse.", "quantifier": "all symbol tables, including those with an unknown-word token", "why_tests_cant": "permutation over all symbol tables", "anchors": ["mozolm/models/ngram_word_fst_model.cc:EstablishLexicographicOrdering"]}
{"id": "C38", "title": "Word model weight cache is bounded and transparent", "statement": "At most the configured number of cumulative weight vectors is cached (2000 if the configured number is not above the order of the model) and answers do not depend on what is cached, on the cache size or on the history of calls.", "quantifier": "all histories and cache sizes", "why_tests_cant": "all eviction orders", "anchors": ["mozolm/models/ngram_word_fst_model.cc:EnsureCacheIndex"]}
{"id": "C39", "title": "State identifiers sent by clients are the ones used", "statement": "The state sent in a request is the state queried: two requests with different states are never confused.", "quantifier": "all 64-bit request states", "why_tests_cant": "values outside 32 bits never occur in tests", "anchors": ["mozolm/grpc/server_async_impl.cc:ManageUpdateLMScores", "mozolm/grpc/server_async_impl.cc:HandleRequest", "mozolm/grpc/service.proto"]}
{"id": "C40", "title": "Queries are read-only", "statement": "GetNextState and GetLMScores requests, in any number and order, change no answer: the scores for a state and context are the same before and after them, the same query asked again (with only queries in between) gets the same scores or the same state, and updates teach the server the same whether or not it was queried before.", "quantifier": "all interleavings of requests", "why_tests_cant": "all request sequences", "anchors": ["mozolm/grpc/server_async_impl.cc:HandleRequest", "mozolm/models/language_model_hub.cc:ExtractLMScores"]}
{"id": "C41", "title": "Every RPC gets exactly one reply and its context is freed exactly once", "statement": "For every schedule of completion-queue events, each accepted request is handled once, finished once and released once; while the server runs exactly one call object per method is waiting for new requests; the pending counter equals the number of outstanding operations.", "quantifier": "all completion-queue schedules", "why_tests_cant": "all interleavings of events", "anchors": ["mozolm/grpc/server_async_impl.cc:ProcessGetNextState", "mozolm/grpc/server_async_impl.cc:IncrementRpcPending", "mozolm/grpc/server_async_impl.cc:DecrementRpcPending"]}
{"id": "C42", "title": "Graceful shutdown", "statement": "After Shutdown is called, every call that had been received is answered, no call is dropped, all threads return after finitely many steps and every call object is released; Shutdown does not return before that.", "quantifier": "all schedules", "why_tests_cant": "race between notification and outstanding RPCs", "anchors": ["mozolm/grpc/server_async_impl.cc:Shutdown", "mozolm/grpc/server_async_impl.cc:BuildAndStart"]}
{"id": "C43", "title": "Secure credentials are used when asked for", "statement": "If the configuration requests TLS, neither server nor client ever falls back to insecure credentials; client verification requires and verifies certificates.", "quantifier": "all configurations", "why_tests_cant": "all configuration combinations", "anchors": ["mozolm/grpc/server_helper.cc:BuildServerCredentials", "mozolm/grpc/client_helper.cc:BuildChannelCredentials"]}
{"id": "C44", "title": "Sampling a character follows the reported distribution", "statement": "For a uniform draw u in [0,1), the chosen entry i is the one whose cumulative probability interval contains u; it is always in bounds, so each entry is chosen with probability equal to its share.", "quantifier": "all distributions and all draws", "why_tests_cant": "real-valued draws and all distribution shapes", "anchors": ["mozolm/grpc/client_helper.cc:GetRandomPosition"]}
{"id": "C45", "title": "Random generation terminates within its bound", "statement": "RandGen makes at most 128 draws beyond the given context and stops at the first end-of-string symbol.", "quantifier": "all servers/draws", "why_tests_cant": "servers that never emit end-of-string", "anchors": ["mozolm/grpc/client_helper.cc:RandGen"]}
{"id": "C46", "title": "k-best request is safe and returns the k best", "statement": "Asking for the k most likely next symbols returns min(k, n) symbols with the highest probabilities in order, for any k.", "quantifier": "all k and distributions", "why_tests_cant": "k larger than the vocabulary", "anchors": ["mozolm/grpc/client_helper.cc:OneKbestSample"]}
{"id": "C47", "title": "Bits per character is the average code length", "statement": "CalcBitsPerCharacter reports the mean over characters of -log2 of the (floor-mixed) probability the server gave each character, and is finite for every text.", "quantifier": "all texts and servers", "why_tests_cant": "all texts, including empty ones", "anchors": ["mozolm/grpc/client_helper.cc:CalcBitsPerCharacter", "mozolm/grpc/client_helper.cc:CalculateBits"]}
{"id": "C48", "title": "Client defaults respect the configuration", "statement": "A positive timeout in the client configuration file is used unless overridden on the command line; missing address/timeouts get the documented defaults.", "quantifier": "all configurations and flag values", "why_tests_cant": "all combinations", "anchors": ["mozolm/grpc/client_async_main.cc:InitConfigContents", "mozolm/grpc/client_helper.cc:InitConfigDefaults"]}
{"id": "C49", "title": "Code-point relabelling keeps distinct symbols distinct", "statement": "Relabelling an n-gram model's symbols with Unicode code points never maps two different symbols to the same label, maps single-character symbols to their code point, and keeps special symbols intact or fails with an error.", "quantifier": "all symbol tables", "why_tests_cant": "collision patterns over all tables", "anchors": ["mozolm/utils/ngram_fst_relabel.cc:GetCodepointMapping", "mozolm/utils/ngram_fst_relabel.cc:RelabelWithCodepoints"]}
{"id": "C50", "title": "Training from text counts what the text contains", "statement": "A PPM model read from a training text has one state for each string of fewer than max_order symbols (counting the beginning of a line) after which something occurs in the text, and no other. At the longest length, and for strings that reach back to the beginning of a line, the stored count of a symbol is the number of its occurrences after that string; at shorter lengths it is the number of different symbols before the string with which it was seen (update exclusion); the empty history counts every character of the vocabulary and the end of the line once more. Labels are given to characters in order of first occurrence.", "quantifier": "every training text with at least one character, every order of at least 2, every counter that meets the contract of the n-gram counter", "why_tests_cant": "A unit test trains on one or two short texts; the claim is about every text, order and history.", "anchors": ["mozolm/models/ppm_as_fst_model.cc: TrainFromText, CalculateUpdateExclusions, AddPriorCounts, GetSymsVector"]}
{"id": "C51", "title": "WriteFst and Read round-trip", "statement": "Writing a PPM model to a file at any point of its life and reading that file with the same options gives a model that answers every later sequence of calls (NextState, SymLMScore, ExtractLMScores, UpdateLMCounts) exactly as the written model would have: same state numbers, same scores, also after further learning. Writing does not change any later answer of the model that is written, although it reorders its arcs while cached values exist.", "quantifier": "every readable input, every history of calls before writing, every later history of calls", "why_tests_cant": "The state written depends on the whole history of updates and cache contents; a test can write a handful of states and compare a handful of answers.", "anchors": ["mozolm/models/ppm_as_fst_model.cc: WriteFst, Read, CalculateStateOrders", "mozolm/models/language_model.h: WriteFst"]}
{"id": "C52", "title": "A context walk begins in the start state of the model", "statement": "ContextState of a context with no initial state begins at the beginning-of-string state of the loaded model.", "quantifier": "all models and contexts", "why_tests_cant": "start states differ from 0 only in some model files", "anchors": ["mozolm/models/language_model.h:LanguageModel", "mozolm/models/language_model.cc:ContextState", "mozolm/models/ngram_fst_model.cc:Read", "mozolm/models/ngram_word_fst_model.cc:Read", "mozolm/models/ppm_as_fst_model.cc:Read"]}
{"id": "C53", "title": "An unknown word stays unknown until the next space", "statement": "Once the letters typed of a word begin no word of the vocabulary, the word model predicts nothing until a space is typed, and then predicts from the unigram state.", "quantifier": "all models, all letters typed and all histories of calls", "why_tests_cant": "all vocabularies and all misspellings", "anchors": ["mozolm/models/ngram_word_fst_model.cc:NextState", "mozolm/models/ngram_word_fst_model.cc:NextFirstLetterState"]}
{"id": "C54", "title": "States handed out by NextState of a word model can be used", "statement": "Every non-negative state that NextState of a word model returns can be passed to NextState, SymLMScore and ExtractLMScores without undefined behaviour, also if NextState was asked about the state -1, which it accepts.", "quantifier": "all models, states and histories of calls", "why_tests_cant": "all histories of implicit states", "anchors": ["mozolm/models/ngram_word_fst_model.cc:NextState", "mozolm/models/ngram_word_fst_model.cc:ExtractLMScores", "mozolm/models/ngram_fst_model.cc:CheckCurrentState"]}
{"id": "C55", "title": "Unknown states are rejected", "statement": "A request whose state the server never handed out is answered with INVALID_ARGUMENT, teaches the models nothing and is memory safe.", "quantifier": "all requests, all 64-bit states, all histories", "why_tests_cant": "all state values against all pool sizes", "anchors": ["mozolm/grpc/service.proto", "mozolm/grpc/server_async_impl.cc:HandleRequest", "mozolm/grpc/server_async_impl.cc:ManageUpdateLMScores", "mozolm/models/language_model_hub.cc:UpdateLMCounts"]}
{"id": "C56", "title": "Invalid updates are rejected", "statement": "UpdateLMScores with a count that is not positive, or with a symbol that is not a Unicode character, is answered with an error (as service.proto documents).", "quantifier": "all update requests", "why_tests_cant": "all counts and symbol values", "anchors": ["mozolm/grpc/service.proto", "mozolm/grpc/server_async_impl.cc:ManageUpdateLMScores"]}
{"id": "C57", "title": "The reply to an update is the scores after it", "statement": "A successful UpdateLMScores replies with the scores of the context reached by its symbols, learned from: exactly what GetLMScores for the same state and the same symbols replies next.", "quantifier": "all histories of requests, all updates", "why_tests_cant": "all histories", "anchors": ["mozolm/grpc/server_async_impl.cc:ManageUpdateLMScores"]}
{"id": "C58", "title": "Requests are handled one at a time", "statement": "However many threads serve the completion queue, requests are handled one at a time: no two handlers are ever inside the models together, and the replies and the models are those of handling the requests one after the other in some order.", "quantifier": "all schedules, any number of threads", "why_tests_cant": "races occur only under particular schedules", "anchors": ["mozolm/grpc/server_async_impl.cc:HandleRequest", "mozolm/grpc/server_async_impl.h:model_hub_lock_"]}
{"id": "C59", "title": "The server object can be started, run, stopped and started again", "statement": "On one server helper object, Init succeeds exactly when no server exists since the last Shutdown, the models load and the address can be bound; an Init whose models do not load leaves no trace; Run without a server is an error; Shutdown (also by destruction) returns to the initial condition; no sequence of these calls ends the program.", "quantifier": "all sequences of Init, Run and Shutdown calls, all configurations and failures", "why_tests_cant": "failures in every position of every call sequence", "anchors": ["mozolm/grpc/server_helper.cc:ServerHelper", "mozolm/grpc/server_helper.cc:RunServer"]}
{"id": "C60", "title": "Scores computed with logarithms are the probabilities they stand for", "statement": "Renormalisation, mixture weights (fixed and Bayesian), mixtures of score lists, differences of cumulative weights and PPM symbol probabilities, which are computed on negative logarithms with infinities, give exactly the probabilities obtained by adding, multiplying, subtracting and dividing the probabilities themselves (up to rounding); a zero total gives NaN and nothing else does.", "quantifier": "all cost vectors, including infinite costs", "why_tests_cant": "infinitely many cost vectors, and the infinities are corner cases of every operation", "anchors": ["mozolm/models/language_model.cc:SoftmaxRenormalize", "mozolm/models/language_model_hub.cc:MixResults", "mozolm/models/language_model_hub.cc:ExtractMixture", "mozolm/models/ngram_word_fst_model.cc:SafeNegLogDiff", "mozolm/models/ppm_as_fst_model.cc:UpdateIndexProb"]}
{"id": "C61", "title": "A server on properly made models replies to every request", "statement": "If a server is created from a configuration whose files load into properly made models of any of the four kinds (symbol tables that cover the automaton, words that are possible, a readable PPM text or vocabulary, count room left in the bigram counters), then every GetNextState, GetLMScores and UpdateLMScores request, with any states and symbols, in any order and under any schedule of the server threads, gets a reply: nothing fails internally, aborts or reads out of bounds. (With Bayesian mixing, learning requests must be about existing states and non-negative symbols; without that the code can crash, C17.)", "quantifier": "all configurations, all files meeting the stated conditions, all request sequences with arbitrary integers, all thread schedules", "why_tests_cant": "end-to-end liveness over unbounded histories of queries and learning on all combinations of models", "anchors": ["mozolm/models/model_factory.cc:MakeModelHub", "mozolm/models/language_model_hub.cc:ExtractLMScores", "mozolm/models/language_model_hub.cc:UpdateLMCounts", "mozolm/grpc/server_async_impl.cc:HandleRequest", "mozolm/models/ppm_as_fst_model.cc:UpdateLMCounts", "mozolm/models/ngram_word_fst_model.cc:NextState"]}
{"id": "C62", "title": "What a server that is only asked replies is the mixture of what its models, as loaded, say about the whole context", "statement": "If clients only ask (GetNextState, GetLMScores) a server made from properly made files, and the number of symbols asked so far is below the limit on cached states, then the scores replied for a state and context string depend only on the full context u that the state stands for (the symbols on the chain of GetNextState replies that led to it), not on who else asked what: without mixing they are exactly what the first model answers for that context when it is used alone from its start state; with static interpolation they are the mixture, with the configured normalised weights, of what each model alone answers; with a Bayesian history the weights are the configured ones times the probabilities each model alone gives to the last symbols of the context. The reply is an error only if one of the models alone refuses the context.", "quantifier": "all configurations, all files meeting the stated conditions, all sequences of queries with arbitrary states and symbols, all states handed out, all contexts with non-negative symbols", "why_tests_cant": "the reply must be independent of an unbounded history of other queries, of cached hub states and of the caches inside the models", "anchors": ["mozolm/models/language_model_hub.cc:ExtractLMScores", "mozolm/models/language_model_hub.cc:NextState", "mozolm/models/language_model_hub.cc:ContextState", "mozolm/models/language_model_hub.cc:GetBayesianMixtureWeights", "mozolm/grpc/server_async_impl.cc:HandleRequest", "mozolm/models/model_factory.cc:MakeModelHub"]}
{"id": "C63", "title": "Score replies are probability distributions", "statement": "For every server hub built from a configuration, whatever requests were handled before (queries and learning, in any order and under any schedule of the server's threads), every scores reply names no symbol twice, and its scores are non-negative and add up to one. The exceptions: a reply may be an empty list, without a Bayesian history, only when all the models consulted are word models; and with a Bayesian history a reply may consist of scores none of which is a number.", "quantifier": "all configurations with positive weights, all files meeting the stated conditions, all sequences of requests whose learnt counts fit the counters, all schedules, every scores reply", "why_tests_cant": "the sum has to be one after every history of learning, caching, back-off and mixing, for every vocabulary; tests can only look at a few replies", "anchors": ["mozolm/models/language_model_hub.cc:ExtractLMScores", "mozolm/models/language_model_hub.cc:GetBayesianMixtureWeights", "mozolm/models/ppm_as_fst_model.cc:ExtractLMScores", "mozolm/models/simple_bigram_char_model.cc:ExtractLMScores", "mozolm/models/ngram_char_fst_model.cc:ExtractLMScores", "mozolm/models/ngram_word_fst_model.cc:ExtractLMScores", "mozolm/grpc/server_async_impl.cc:HandleRequest"]}
{"id": "C64", "title": "Scoring a string follows the chain rule", "statement": "GetNegLogProbs of a PPM model, asked about any string of labels, gives each label its documented probability after the labels before it; unless the model is static it learns each label before the next one is scored, exactly as one UpdateLMCounts of the string at the start state would teach it; a static model is unchanged. For every n, the probabilities of all strings of n labels add up to one, also while learning. A number that is not a label is an error. GetSymsVector gives the positions of the characters in the vocabulary and is an error for any other character.", "quantifier": "all readable inputs and options, all histories of calls, all strings of labels, all lengths n, all later calls", "why_tests_cant": "the sum ranges over all strings of every length, in a model that changes while it is asked", "anchors": ["mozolm/models/ppm_as_fst_model.cc:GetNegLogProbs", "mozolm/models/ppm_as_fst_model.cc:GetSymsVector", "mozolm/models/ppm_as_fst_model.cc:UpdateModel", "mozolm/models/ppm_as_fst_model.cc:GetDestinationState"]}
{"id": "C65", "title": "Requests about states the server gave out are not refused", "statement": "On a server whose models were properly made, a client that uses only the start state and states returned to it, and sends only characters, is never answered with an error: GetLMScores returns scores, GetNextState a state that can be asked about, UpdateLMScores the scores after learning. Scores and next states are given even after hub states have been recycled.", "quantifier": "all configurations, disks and models of the four kinds that pass the makers, all request histories (updates included), all given-out states, all contexts and counts within the counters' room", "why_tests_cant": "tests try a handful of request sequences; the claim is about every history of requests on every mixture of models", "anchors": ["mozolm/grpc/server_async_impl.cc: HandleRequest, ManageUpdateLMScores", "mozolm/models/language_model_hub.cc: ExtractLMScores, UpdateLMCounts, VerifyOrCorrectModelStates"]}
{"id": "C66", "title": "A client of a server on properly made models succeeds", "statement": "When the server runs on properly made models with a fixed mixture (one model that is not a word model, or positive fixed weights and at least one such model), the client's commands succeed: k-best returns the k most probable symbols the server offers after the context, random generation returns the context followed by symbols each drawn from what the server offered, and the bits-per-character command returns a positive number of at most log2(143859/eps) bits, whatever other requests the server has answered before and whatever other clients ask and teach in between.", "quantifier": "all such configurations and disks, all histories of earlier requests (learning included), all contexts, numbers drawn and texts that fit the state pool and the counters", "why_tests_cant": "tests run the client against one server and a few short texts; the claim is about every text, every sequence of random numbers and every earlier history", "anchors": ["mozolm/grpc/client_helper.cc: RandGen, OneKbestSample, CalcBitsPerCharacter", "mozolm/grpc/client_async_impl.cc", "mozolm/grpc/server_async_impl.cc: HandleRequest", "mozolm/models/language_model_hub.cc"]}
{"id": "C67", "title": "Which symbols the replies list is fixed when the server starts", "statement": "Whatever clients ask and teach, the symbols listed in a scores reply are among those the consulted models had when the server started (the first model without mixing, all of them with interpolation), and all symbols of every consulted model that is not a word model are listed; without word models any two scores replies, in the same or in different histories, list the same symbols. Teaching an unknown character never adds it.", "quantifier": "all configurations and disks whose models are properly made, all request histories", "why_tests_cant": "tests look at single replies; that no history of updates, queries and recycled states ever adds or loses a symbol is a statement about all histories", "anchors": ["mozolm/models/language_model_hub.cc: ExtractLMScores, MixResults", "mozolm/models/ppm_as_fst_model.cc: UpdateLMCounts, ExtractLMScores", "mozolm/models/simple_bigram_char_model.cc", "mozolm/models/ngram_char_fst_model.cc", "mozolm/models/ngram_word_fst_model.cc"]}
{"id": "C68", "title": "The probabilities a client reads are correctly rounded", "statement": "The bigram model computes with IEEE doubles. As long as the counts of a state total at most 2^53, the normalization is the exact total and every probability of a reply is the double nearest to count/total: in (0,1], within relative error 2^-53, all of them summing to one up to 2^-53, and p < p' as doubles exactly when the counts are so ordered, equal counts giving the same double; the score of a single symbol uses the same double. Without any bound on the counts no reply contains a zero, an infinity or a NaN, and loading and learning succeed or fail exactly as with exact arithmetic.", "quantifier": "all vocabulary and count files, all histories of updates, all states and symbols", "why_tests_cant": "rounding errors depend on every intermediate sum; a test sees a few sums, none near 2^53", "anchors": ["mozolm/models/simple_bigram_char_model.cc: ReadCountMatrix, Read, ExtractLMScores, SymLMScore, UpdateLMCounts", "mozolm/models/simple_bigram_char_model.h"]}
{"id": "C69", "title": "A written table of counts is loaded exactly", "statement": "For every vocabulary in increasing order (0 to INT_MAX-1) and every square table of 64-bit counts, written in decimal, one number or one row per line with blanks around the numbers, Read succeeds and the model holds exactly that vocabulary and those counts (counts below one as one), and its first answer for the i-th symbol is the i-th row divided by its sum. Trailing characters such as a carriage return behind a number and a missing last newline do not matter. A vocabulary that is not increasing or has negative symbols is refused, and so is a table with too few rows or a row of the wrong length.", "quantifier": "all vocabularies and tables, all ways of writing them", "why_tests_cant": "all numbers of up to 19 digits, all layouts of a file", "anchors": ["mozolm/models/simple_bigram_char_model.cc: ReadVocabSymbols, ReadCountMatrix, Read"]}
{"id": "C70", "title": "The two programs do what the command line says", "statement": "The server program serves exactly when its configuration can be read, all its models load and it can listen, at the address and with the credentials configured; otherwise it exits with 1. The client program exits with 0 and prints exactly one text, or exits with 1 and prints nothing. With a server on properly made models that it can connect to, asked and taught anything before: --k_best prints the k most probable continuations of the context, most probable first, with their probabilities; random generation prints the context followed by symbols drawn from what the server offered; bits per character prints a positive bounded number. With no server, another address or credentials on one end only, or a request type not set, it exits with 1 and no server learns anything. With no flags at all both ends meet at the default address.", "quantifier": "all flags, files, configuration texts, models, earlier requests, contexts, draws and corpora", "why_tests_cant": "the result depends on the whole chain from flags through configuration, loading, the wire and the models", "anchors": ["mozolm/grpc/server_async_main.cc: main, InitConfigFromFlags", "mozolm/grpc/client_async_main.cc: main, InitConfigFromFlags", "mozolm/grpc/server_helper.cc: RunServer, ServerHelper", "mozolm/grpc/client_helper.cc: RunClient, OneKbestSample, RandGen, CalcBitsPerCharacter"]}
{"id": "C71", "title": "Text in UTF-8, end to end", "statement": "Every sequence of Unicode characters is read back from its UTF-8 bytes, different texts have different bytes, and the newline byte occurs only as the newline character. A client and a server that exchange text in UTF-8 (characters of one to four bytes) therefore agree on the characters: for any lines of characters, bits per character is the mean code length of what the server said of exactly those characters and ends of lines, each learned once and followed, each answer being a distribution over the symbols of the models; random generation after any context of characters prints the context followed by symbols of the models, as well-formed UTF-8. The number of unknown symbols reported counts characters the models do not know.", "quantifier": "all texts of Unicode characters, all byte strings for splitting, all made models in a fixed mixture with any earlier requests, all draws", "why_tests_cant": "the set of texts is infinite and the result depends on the whole chain from bytes through requests to the models", "anchors": ["mozolm/grpc/client_helper.cc: CalcBitsPerCharacter, RandGen", "mozolm/grpc/client_async_impl.cc: UpdateLMScores, GetLMScores, GetNextState", "mozolm/models/language_model_hub.cc: ContextState", "mozolm/models/simple_bigram_char_model.cc: ExtractLMScores"]}
{"id": "C72", "title": "The relabelling program keeps what a model accepts", "statement": "ngram_fst_relabel exits with 0 exactly if both files are named, the input can be read and relabelled, and the output can be written, and with 1 otherwise; it touches only the output file, and only if the relabelling succeeded. The output accepts exactly the same sequences of symbols as the input, with the same weights along the same states; its labels are the code points of its symbols but for the kept ones, its symbol tables agree, and it is still a sorted deterministic acceptor. Run on its own output it writes the same again.", "quantifier": "all transducers, symbol tables, lists of kept symbols, file systems and outcomes of writing", "why_tests_cant": "equality of accepted languages ranges over all paths of all transducers", "anchors": ["mozolm/utils/ngram_fst_relabel_main.cc: RelabelAndSave, main", "mozolm/utils/ngram_fst_relabel.cc: RelabelWithCodepoints, GetCodepointMapping, CheckProperties"]}
{"id": "C73", "title": "Sampling in double arithmetic", "statement": "Random generation draws a threshold and picks the symbol in whose interval of the running totals, computed in doubles, it falls. For every answer of the server (finite probabilities between 0 and 1) each symbol owns an interval that is as long as its probability up to the rounding of one addition; the running total differs from the exact one by at most one relative rounding error per symbol; the position is always within the list; unless the threshold falls within that error of a boundary the symbol picked is the one exact arithmetic picks; and a symbol of probability 0 is never picked.", "quantifier": "every list of up to 2^31-1 symbols with finite double probabilities in [0,1] and every finite double threshold", "why_tests_cant": "Rounding depends on every value in the list and every one of the 2^62 thresholds; a unit test fixes a generator seed and a list, and rounding errors of one part in 2^53 do not show in frequencies.", "anchors": ["mozolm/grpc/client_helper.cc: GetRandomPosition", "mozolm/grpc/client_helper.cc: GetUniformThreshold", "mozolm/grpc/client_helper.cc: ClientHelper::RandGen"]}
{"id": "C74", "title": "PPM counts in single precision", "statement": "A PPM model keeps the count of a symbol as the negative logarithm, in a 32-bit float. For any correct NegLogSum and any number of observations n the logarithm of the count is right up to n/2^20; up to 10000 observations the count is right within one per cent; and the count of a symbol that is learned keeps growing with the number of observations, for all numbers of observations a learning call can ask for (int32).", "quantifier": "every starting weight up to a count of exp 15, every number of observations, every NegLogSum with error up to 2^-40", "why_tests_cant": "The error accumulates over thousands to millions of observations; a unit test makes a handful.", "anchors": ["mozolm/models/ppm_as_fst_model.cc: PpmAsFstModel::UpdateHighestFoundState", "mozolm/models/ppm_as_fst_model.cc: IncrementBackoffArcReturnBackoffState", "mozolm/models/ppm_as_fst_model.cc: PpmAsFstModel::UpdateLMCounts"]}
{"id": "C75", "title": "Probabilities computed through logarithms in floating point are the exact ones up to rounding", "statement": "The code mixes probabilities as negative logarithms in double precision. Whatever the rounding errors of +, *, NegLogSum, log and exp are within the accuracy of the machine (and for doubles with correctly rounded functions in particular), and in whatever order the hash table of symbols is summed, the renormalised weights, the sums over the recent symbols, the Bayesian weights, the normalization field and the mixed probabilities of a hub with two or more models are those of the exact computation: the same symbols in the same order, and every number has a relative error bounded by the error of the weights and about three roundings per probability mixed: below 10^-9 for up to 1000 probabilities that are 0 or at least exp(-140). If the exact probabilities sum to one the computed ones do so up to the same error; probability 0 stays exactly 0.", "quantifier": "every machine accurate to u on costs up to B, every order of iteration, every number of models, all answers (zeros included) and weights in range, every hub state", "why_tests_cant": "Unit tests compare with a tolerance on a few symbols; errors accumulate with the number of models and symbols.", "anchors": ["mozolm/models/language_model_hub.cc: MixResults", "mozolm/models/language_model_hub.cc: ExtractMixture", "mozolm/models/language_model_hub.cc: LanguageModelHub::InitializeModels", "mozolm/models/language_model_hub.cc: LanguageModelHub::GetBayesianMixtureWeights", "mozolm/models/language_model_hub.cc: LanguageModelHub::ExtractLMScores", "mozolm/models/language_model.cc: SoftmaxRenormalize"]}
{"id": "C76", "title": "Rounding in the word n-gram model", "statement": "The word model keeps, for every state, the cumulated negative log probabilities of all words in lexicographic order and gets the probability of the words with a given prefix as a difference of two of them, in doubles. Within the accuracy of the machine the probability of a range of words is the true total of their (backed-off) probabilities up to an absolute error of a few roundings per word of the range, whatever the size of the vocabulary and the place of the range (below (j + 1) / 10^11 for j words, models up to trigrams, a million words); the end-of-string probability likewise; and inside a word the answer gives every next character its share with a small relative error if all of them are well above that error. The same holds of whole answers at the end of a word, where its probability is split between space and end of string by the probability that the text ends there (keeping the total), and at its start, where the end of string is offered too. No relative accuracy holds for improbable words: a word with an arc of its own can get range probability exactly 0, and the answer after its prefix is then not a number.", "quantifier": "every machine accurate to u relative (or E absolute) on logarithms of numbers up to 2G, a different NegLogSum at every step (covers the Kahan compensation), every vocabulary size, every back-off path of any length with weights up to G, every range", "why_tests_cant": "Unit tests use tiny vocabularies with probabilities of ordinary size, where cancellation cannot be seen.", "anchors": ["mozolm/models/ngram_word_fst_model.cc: SafeNegLogDiff", "mozolm/models/ngram_word_fst_model.cc: NGramWordFstModel::FillWeightVector", "mozolm/models/ngram_word_fst_model.cc: NGramWordFstModel::GetRangeCost", "mozolm/models/ngram_word_fst_model.cc: NGramWordFstModel::ExtractLMScores", "mozolm/models/language_model.cc: SoftmaxRenormalize"]}
{"id": "C77", "title": "Rounding in PPM models", "statement": "A PPM model computes the probabilities after a history by blending the counts at a state with the renormalised probabilities of the state it backs off to, in negative logs. Within the accuracy of the machine and of the stored counts, at every state of every PPM model that has been read and used in any way, the computation succeeds and every probability it gives is the one that exact arithmetic gives for the counts, up to a relative error that grows with the order of the model (it doubles per order; the subtraction of the discount beta amplifies the error of the counts by 2/(1-beta)) and with the number of symbols only through the renormalisation; the answers sum to one up to the same factor. With doubles, counts up to a million that are right to 2^-16, 100000 symbols and orders up to 3 every probability is right to one per cent.", "quantifier": "every machine accurate to u on numbers up to B (NegLogDiff relative to its larger argument), every error d of the stored counts, every back-off path of any length, every number of symbols, alpha, beta; every PPM model read from files and every sequence of calls", "why_tests_cant": "Unit tests compare a few scores of tiny models with a loose tolerance; how errors accumulate over orders and vocabulary sizes cannot be sampled.", "anchors": ["mozolm/models/ppm_as_fst_model.cc: UpdateIndexProb", "mozolm/models/ppm_as_fst_model.cc: PpmAsFstModel::InitCacheProbs", "mozolm/models/ppm_as_fst_model.cc: PpmAsFstModel::UpdateCacheStatesAndProbs", "mozolm/models/ppm_as_fst_model.cc: PpmAsFstModel::UpdateCacheAtNonEmptyState", "mozolm/models/language_model.cc: SoftmaxRenormalize"]}
{"id": "C78", "title": "Rounding in the character n-gram model", "statement": "The character n-gram model adds the weights of an arc and of the back-off arcs before it in single precision and renormalises in doubles. Within the accuracy of the machine, whenever the model in exact arithmetic gives a score or an answer, so does the code: the cost of a symbol stands for its back-off product up to one rounding and one error of the stored weights per state visited (it is infinite exactly if the product is 0); the answer lists the same symbols in the same order with probabilities right up to twice that and one rounding per symbol, and they sum to one up to the same factor. With floats and doubles, models up to order 5 with up to 100000 symbols and weights within exp(40) of 1 give every probability right up to 4 in ten thousand.", "quantifier": "every float addition with error u and every machine accurate to um on numbers of ordinary size, every automaton whose back-off arcs do not come back (any order), every error d of the stored weights, every state, symbol and table of symbols", "why_tests_cant": "Unit tests compare a few scores with a loose tolerance on one small model; the growth of errors with the order and the number of symbols cannot be sampled.", "anchors": ["mozolm/models/ngram_char_fst_model.cc: NGramCharFstModel::LabelCostInState", "mozolm/models/ngram_char_fst_model.cc: NGramCharFstModel::FinalCostInState", "mozolm/models/ngram_char_fst_model.cc: NGramCharFstModel::ExtractLMScores", "mozolm/models/language_model.cc: SoftmaxRenormalize"]}
{"id": "C79", "title": "Rounding from the models to the reply", "statement": "When every model of a hub answers with probabilities that are right up to some relative error (C76-C78), and the weights of the mixture carry an error too, the reply a client gets is the exact mixture, with the exact weights, of what the models would say in exact arithmetic: the same symbols in the same order, every probability right up to twice the sum of the two errors and about three roundings per probability mixed. With a Bayesian history the exact weights are the prior ones times the probabilities of the recent symbols, renormalised, and the computed ones are right up to twice the errors of both. Models right to one per cent give replies right to 2.1 per cent.", "quantifier": "every hub with two or more models and every state, all models' answers and errors of them (also when a computed probability exceeds one), every machine of accuracy u on numbers of ordinary size, every order in which the hash table is summed, all weights and histories of ordinary size", "why_tests_cant": "Unit tests compare single mixtures with a loose tolerance; whether errors of the components amplify in the renormalisation of the mixture cannot be settled by examples.", "anchors": ["mozolm/models/language_model_hub.cc: LanguageModelHub::ExtractLMScores", "mozolm/models/language_model_hub.cc: LanguageModelHub::GetBayesianMixtureWeights", "mozolm/models/language_model_hub.cc: MixResults", "mozolm/models/ngram_char_fst_model.cc: NGramCharFstModel::ExtractLMScores", "mozolm/models/ppm_as_fst_model.cc: PpmAsFstModel::ExtractLMScores"]}
{"id": "C80", "title": "The reported code lengths are those of a code", "statement": "The number of characters times the bits per character that CalcBitsPerCharacter reports for a text is the length of a code for texts, even though the server learns while it reads: for any set of different texts of the same number of lines, all scored from the same server state, the sum of 2 to the minus the total bits is at most one. So no server can make all texts look well compressed, and reported values of different models on the same alphabet can be compared.", "quantifier": "every server whose replies are distributions, in particular every server on properly made models after any history of requests; every finite set of texts with equally many lines over at most 143859 symbols, the end of line among them", "why_tests_cant": "It is a statement about the sum over all texts of a length at once, each with its own history of learning; tests look at single texts.", "anchors": ["mozolm/grpc/client_helper.cc: ClientHelper::CalcBitsPerCharacter", "mozolm/grpc/client_helper.cc: CalculateBits", "mozolm/grpc/client_helper.cc: UniformMixValue", "mozolm/models/language_model_hub.cc: LanguageModelHub::ExtractLMScores"]}
