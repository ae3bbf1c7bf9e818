{"id": "C01", "title": "Equality of facts is extensional", "statement": "Two chunks whose slots hold only constant values compare equal (==) exactly when they give equal values to the same slots; slots that are unset, None or 'None', the chunk-type name and the order in which slots were written do not matter.", "quantifier": "all pairs of constant-valued chunks, with any number of slots and any nesting of chunks as slot values", "why_tests_cant": "chunks nest without bound and the slot sets of two chunk types differ arbitrarily; tests compare a few literal chunks", "anchors": ["pyactr/chunks.py:Chunk.__eq__", "pyactr/chunks.py:Chunk.__hash__", "pyactr/chunks.py:Chunk.removeempty"]}
{"id": "C02", "title": "Chunk equality is an equivalence and a congruence for nesting", "statement": "== on chunks is reflexive, symmetric and transitive, and replacing a slot value by an equal chunk gives an equal chunk; hence chunks are safe dictionary keys.", "quantifier": "all chunks (also with variables and negations) and all nestings", "why_tests_cant": "equivalence laws range over triples of arbitrary chunks", "anchors": ["pyactr/chunks.py:Chunk.__eq__", "pyactr/chunks.py:Chunk.__hash__"]}
{"id": "C03", "title": "Constant pattern matching means: required values present, forbidden values absent", "statement": "For a pattern without variables, pattern <= chunk holds exactly when the pattern equals the chunk or every slot value the pattern requires is the chunk's value of that slot and no forbidden (~) value is; slots the pattern leaves unset impose nothing; chunk types are not compared.", "quantifier": "all variable-free patterns and all chunks", "why_tests_cant": "unbounded number of slots, values and forbidden values", "anchors": ["pyactr/chunks.py:Chunk.__le__", "pyactr/chunks.py:Chunk.match"]}
{"id": "C04", "title": "<= is a partial order on facts", "statement": "On chunks whose slots are either unset or hold a non-empty constant (not None, not '' and not a chunk without slots), <= says that everything the first chunk holds is held by the second; it is reflexive, transitive, and antisymmetric up to ==.", "quantifier": "all triples of such chunks", "why_tests_cant": "order laws range over arbitrary triples of chunks", "anchors": ["pyactr/chunks.py:Chunk.__le__", "pyactr/chunks.py:Chunk.match"]}
{"id": "C05", "title": "Equal chunks are interchangeable as patterns", "statement": "If a == b then a and b match the same chunks with <=.", "quantifier": "all pairs of equal chunks and all target chunks", "why_tests_cant": "universally quantified over three chunks; only special slot contents break it", "anchors": ["pyactr/chunks.py:Chunk.__eq__", "pyactr/chunks.py:Chunk.match"]}
{"id": "C06", "title": "A successful match returns bindings that really satisfy the pattern", "statement": "When a pattern matches a buffer chunk, every slot with variable =x holds the value bound to x afterwards, a variable used in several slots has one value, a slot with ~=x does not hold the value bound to x, constants agree and forbidden values are absent.", "quantifier": "all patterns, chunks and prior bindings", "why_tests_cant": "variables, slots and prior bindings are unbounded and interact through a mutable binding table", "anchors": ["pyactr/chunks.py:Chunk.match", "pyactr/chunks.py:Chunk.__le__", "pyactr/productions.py:ProductionRules.test"]}
{"id": "C07", "title": "Matching fails only when no binding exists", "statement": "If some extension of the prior bindings satisfies the pattern on the chunk, the match succeeds, whatever the order of slots.", "quantifier": "all patterns, chunks, prior bindings, and all candidate binding extensions", "why_tests_cant": "quantifies over every possible assignment of values to variables", "anchors": ["pyactr/chunks.py:Chunk.match"]}
{"id": "C08", "title": "Matching never rebinds a variable", "statement": "A match, successful or not, keeps every value already bound to a variable and every value already excluded for it.", "quantifier": "all patterns, chunks and prior bindings", "why_tests_cant": "must hold at every early exit of the loop over slots", "anchors": ["pyactr/chunks.py:Chunk.match"]}
{"id": "C09", "title": "Testing a rule has no side effects unless it fires", "statement": "Testing the left-hand side of a rule changes no buffer, and bindings become visible to the right-hand side only when the whole left-hand side succeeded at firing time.", "quantifier": "all rules, buffers and bindings", "why_tests_cant": "must hold for every prefix of conditions at which the test may fail", "anchors": ["pyactr/productions.py:ProductionRules.LHStest", "pyactr/productions.py:ProductionRules.test", "pyactr/productions.py:ProductionRules.query"]}
{"id": "C10", "title": "A buffer never holds more than one chunk", "statement": "After any sequence of buffer operations (add, create, modify, clear, discard, copy, retrieve-and-add), including ones that raise, every buffer holds at most one chunk.", "quantifier": "all finite histories of operations on all buffer kinds", "why_tests_cant": "quantifies over histories, including histories with failing operations", "anchors": ["pyactr/buffers.py:Buffer", "pyactr/goals.py:Goal", "pyactr/declarative.py:DecMemBuffer", "pyactr/vision.py:Visual", "pyactr/vision.py:VisualLocation"]}
{"id": "C11", "title": "Modify changes exactly the mentioned slots", "statement": "After a successful modification the buffer holds one chunk of the modifying chunk's type in which every mentioned slot has the specified (variable-resolved) value and every other slot keeps its value.", "quantifier": "all buffer chunks, modification chunks and bindings", "why_tests_cant": "frame property over all slots", "anchors": ["pyactr/buffers.py:Buffer.modify", "pyactr/utilities.py:check_bound_vars"]}
{"id": "C12", "title": "A failed modification leaves the buffer as it was", "statement": "If a modification raises an error (unbound variable, negation, two values in one slot), the buffer still holds the chunk it held before.", "quantifier": "all buffer chunks, modification chunks and bindings", "why_tests_cant": "crash-point property: the error can occur at any slot", "anchors": ["pyactr/buffers.py:Buffer.modify"]}
{"id": "C13", "title": "Clearing conserves the chunk", "statement": "Clearing a buffer empties it and records the chunk in the declarative memory it is harvested to with the clearing time; all other chunks and times in memory are unchanged.", "quantifier": "all buffer kinds with a clear operation, all memories and times", "why_tests_cant": "frame property over unbounded memories", "anchors": ["pyactr/goals.py:Goal.clear", "pyactr/declarative.py:DecMemBuffer.clear", "pyactr/vision.py:Visual.clear", "pyactr/vision.py:VisualLocation.clear", "pyactr/declarative.py:DecMem.add"]}
{"id": "C14", "title": "Putting a retrieved chunk in the retrieval buffer saves the old one", "statement": "Adding a chunk to the retrieval or visual buffers first stores the previous chunk in declarative memory, and the buffer then holds exactly the new chunk.", "quantifier": "all contents, memories and times", "why_tests_cant": "conservation over unbounded memories and histories", "anchors": ["pyactr/declarative.py:DecMemBuffer.add", "pyactr/vision.py:Visual.add", "pyactr/vision.py:VisualLocation.add"]}
{"id": "C15", "title": "Adding to a goal buffer saves the old goal", "statement": "As its documentation says, Goal.add clears the current chunk into declarative memory before adding the new one.", "quantifier": "all goal contents and memories", "why_tests_cant": "universally quantified conservation claim", "anchors": ["pyactr/goals.py:Goal.add"]}
{"id": "C16", "title": "Declarative memory accumulates presentations", "statement": "Adding a chunk appends the (rounded) time to that chunk's list of presentation times, keeps every other entry, keeps insertion order, and never creates two entries for equal chunks; after any history of adds the number of presentations of a chunk is the number of adds of chunks equal to it.", "quantifier": "all histories of add operations", "why_tests_cant": "quantifies over histories", "anchors": ["pyactr/declarative.py:DecMem.add", "pyactr/declarative.py:DecMem.__setitem__"]}
{"id": "C17", "title": "Declarative memory never forgets", "statement": "No buffer operation, retrieval or rule action removes a chunk or a presentation time from declarative memory.", "quantifier": "all histories of buffer operations", "why_tests_cant": "quantifies over histories", "anchors": ["pyactr/declarative.py:DecMem", "pyactr/declarative.py:DecMemBuffer", "pyactr/goals.py:Goal"]}
{"id": "C18", "title": "Cached fan counts stay correct", "statement": "The cached number of occurrences used for associative strength always equals one plus the number of slots in declarative memory holding the value, whatever mixture of additions and strength calculations has happened.", "quantifier": "all histories of adds, re-adds and strength queries, restricted and unrestricted", "why_tests_cant": "cache coherence over histories", "anchors": ["pyactr/utilities.py:calculate_strength_association", "pyactr/declarative.py:DecMem.__setitem__"]}
{"id": "C19", "title": "Symbolic retrieval is sound and complete", "statement": "Without subsymbolic processing, retrieval returns a chunk that is in declarative memory, matches the request with variables resolved, and was not first stored at the very moment of the request; it fails exactly when no such chunk exists.", "quantifier": "all memories, requests, bindings and times", "why_tests_cant": "quantifies over all contents of memory", "anchors": ["pyactr/declarative.py:DecMemBuffer.retrieve"]}
{"id": "C20", "title": "Symbolic retrieval does not change memory and is deterministic", "statement": "Retrieval leaves declarative memory unchanged, and with equal memory and request the result is the matching entry that was created last.", "quantifier": "all memories and requests", "why_tests_cant": "quantifies over all contents of memory", "anchors": ["pyactr/declarative.py:DecMemBuffer.retrieve"]}
{"id": "C21", "title": "Finsts bound the recency memory", "statement": "A buffer with n finsts remembers at most n recent retrievals after any history, and a request for a not recently retrieved chunk never returns one of the last n results; a request for a recently retrieved chunk only returns one of those.", "quantifier": "all histories of retrievals and all n", "why_tests_cant": "quantifies over histories", "anchors": ["pyactr/declarative.py:DecMemBuffer.retrieve", "pyactr/vision.py:VisualLocation.add"]}
{"id": "C22", "title": "Subsymbolic retrieval returns the most active chunk above threshold", "statement": "The retrieved chunk has the highest total activation among matching chunks and that activation reaches the threshold; retrieval fails exactly when no matching chunk reaches the threshold.", "quantifier": "all memories, activation values, noise samples and thresholds", "why_tests_cant": "quantifies over all memories and all noise outcomes", "anchors": ["pyactr/declarative.py:DecMemBuffer.retrieve", "pyactr/utilities.py:retrieval_success"]}
{"id": "C23", "title": "Retrieval latency is positive and decreases with activation", "statement": "Latency is F*exp(-A*f): positive, strictly decreasing in activation, and a failed retrieval takes the latency of the threshold, which is at least as long as any successful retrieval.", "quantifier": "all activations and positive parameters", "why_tests_cant": "real-valued, continuum of inputs", "anchors": ["pyactr/utilities.py:retrieval_latency", "pyactr/declarative.py:DecMemBuffer.retrieve"]}
{"id": "C24", "title": "Base-level activation grows with practice and decays with time", "statement": "An additional past presentation strictly increases base-level activation, later presentations count more than earlier ones, and without new presentations activation strictly decreases as time passes.", "quantifier": "all lists of past presentation times, all positive decay values", "why_tests_cant": "real-valued, unbounded lists", "anchors": ["pyactr/utilities.py:baselevel_learning"]}
{"id": "C25", "title": "Spreading activation distributes exactly the buffer weight", "statement": "The source weight of a buffer is divided equally among its source slots and sums to the buffer weight; chunks without shared sources receive nothing.", "quantifier": "all buffer chunks, weights and memories", "why_tests_cant": "unbounded number of slots and buffers", "anchors": ["pyactr/utilities.py:weigh_buffer", "pyactr/utilities.py:find_chunks", "pyactr/utilities.py:spreading_activation", "pyactr/utilities.py:calculate_strength_association"]}
{"id": "C26", "title": "Partial matching penalises exactly the mismatches", "statement": "The match score of a constant pattern is zero exactly for no mismatching slot when all penalties are negative, never positive, and is the sum of the similarities of the mismatching slots.", "quantifier": "all patterns, chunks, similarity tables with non-positive entries", "why_tests_cant": "unbounded sums", "anchors": ["pyactr/chunks.py:Chunk.match", "pyactr/utilities.py:get_similarity", "pyactr/model.py:ACTRModel.set_similarities"]}
{"id": "C27", "title": "Similarities are symmetric and non-positive", "statement": "After any sequence of accepted set_similarities calls the similarity of two chunks is the same in both directions and equals the last value set for that pair; positive values are rejected and change nothing.", "quantifier": "all call histories", "why_tests_cant": "quantifies over histories", "anchors": ["pyactr/model.py:ACTRModel.set_similarities", "pyactr/utilities.py:get_similarity"]}
{"id": "C28", "title": "Conflict resolution fires a matching rule of highest utility", "statement": "Without utility noise, the selected rule's conditions hold and no other rule whose conditions hold has higher utility; no rule is selected exactly when none matches.", "quantifier": "all rule sets, utilities and buffer contents, also after utility learning", "why_tests_cant": "quantifies over all rule sets and learning histories", "anchors": ["pyactr/productions.py:ProductionRules.procedural_process", "pyactr/productions.py:ProductionRules.__init__"]}
{"id": "C29", "title": "With utility noise the best noisy utility wins", "statement": "With utility noise the selected rule matches and has the highest utility-plus-noise among matching rules.", "quantifier": "all rule sets, utilities, noise samples", "why_tests_cant": "quantifies over all noise outcomes", "anchors": ["pyactr/productions.py:ProductionRules.procedural_process"]}
{"id": "C30", "title": "Right-hand-side actions run once each, in the documented order", "statement": "Every right-hand-side action of a fired rule is started exactly once, in the order: execute and extra tests, modify, overwrite, modify request, retrieve/set, clear; actions of the same kind keep their textual order; unknown signs raise an error before anything is changed.", "quantifier": "all right-hand sides", "why_tests_cant": "permutations of unbounded action lists", "anchors": ["pyactr/productions.py:ProductionRules.update"]}
{"id": "C31", "title": "Strict harvesting clears exactly the tested and unused buffers", "statement": "With strict harvesting, a fired rule clears exactly the buffers tested on its left-hand side and not mentioned on its right-hand side.", "quantifier": "all rules and variable names", "why_tests_cant": "quantifies over variable names and buffers; breaks only on a name coincidence", "anchors": ["pyactr/productions.py:ProductionRules.update"]}
{"id": "C32", "title": "Utility learning moves utility towards the delayed reward", "statement": "On reward, each rule used since the last reward moves by alpha times the difference between the delayed reward and its utility, once per use in order of firing; unused rules keep their utility; with alpha in [0,1] utility never overshoots (before rounding).", "quantifier": "all firing histories, rewards and learning rates", "why_tests_cant": "unbounded histories, real-valued", "anchors": ["pyactr/utilities.py:modify_utilities"]}
{"id": "C33", "title": "Right-hand-side values are fully resolved or an ACTRError is raised", "statement": "Resolving a right-hand-side slot either yields a value without variables or raises ACTRError (unbound variable, negation where illegal, two different values); it never crashes in another way.", "quantifier": "all slot descriptions and all bindings", "why_tests_cant": "quantifies over all bindings, including bindings to empty slots", "anchors": ["pyactr/utilities.py:check_bound_vars"]}
{"id": "C34", "title": "Rounding of times is monotone, idempotent and within half a tick", "statement": "Rounding of times to tenths of a millisecond never reverses the order of two times, is the identity on already rounded times, changes a time by at most 0.05 ms, and sends a time exactly half-way between two ticks to the even one.", "quantifier": "all times", "why_tests_cant": "continuum of inputs", "anchors": ["pyactr/utilities.py:roundtime"]}
{"id": "C35", "title": "Chunk types have sorted, duplicate-free slots including all inherited ones", "statement": "A chunk type created with include has exactly the given and inherited slots; creating a chunk with additional slots extends its type to exactly the union and leaves existing chunks unchanged; the special types cannot be extended.", "quantifier": "all slot lists, parents and histories of type definitions", "why_tests_cant": "quantifies over histories of definitions", "anchors": ["pyactr/chunks.py:chunktype", "pyactr/chunks.py:Chunk.__init__"]}
{"id": "C36", "title": "The slot name isa is rejected and chunk-type defaults are honoured", "statement": "chunktype rejects the slot name 'isa'/'ISA', and chunks of a type with defaults get those defaults for slots that are not given.", "quantifier": "all slot lists and defaults", "why_tests_cant": "claims about every slot list", "anchors": ["pyactr/chunks.py:chunktype", "pyactr/chunks.py:Chunk.__init__"]}
{"id": "C37", "title": "Slot strings are split into value, variable and negations faithfully", "statement": "Writing a slot description with =, ~=, ! and ~! marks and reading it back yields the same value, variable and negated parts; descriptions with two values or two variables are rejected.", "quantifier": "all slot descriptions over names without special characters", "why_tests_cant": "unbounded strings", "anchors": ["pyactr/utilities.py:stringsplitting"]}
{"id": "C38", "title": "Environment screens appear at cumulative times with matching triggers", "statement": "The environment process shows the stimuli in order, each with the trigger of the same index, at the cumulative sum of the display times; argument lists of incompatible length are rejected.", "quantifier": "all stimulus, trigger and time lists", "why_tests_cant": "unbounded lists", "anchors": ["pyactr/environment.py:Environment.environment_process"]}
{"id": "C39", "title": "Key presses are valid and properly timed", "statement": "Only known keys are pressed; each key press produces its phases in non-decreasing time order with the documented durations, preparation time is never negative, and execution of one press never overlaps the previous one.", "quantifier": "all key sequences and request times", "why_tests_cant": "quantifies over histories of key presses", "anchors": ["pyactr/motor.py:Motor.create", "pyactr/productions.py:ProductionRules.motorset", "pyactr/productions.py:ProductionRules.motorcontinue"]}
{"id": "C40", "title": "Preparing a key on the other hand saves 50 ms, on the same hand 100 ms", "statement": "Preparation of a different key is shortened by 100 ms if it is on the same hand and of the same movement class as the previous key, by 50 ms if only on the other hand.", "quantifier": "all pairs of keys", "why_tests_cant": "finite but never exercised by tests: all key pairs", "anchors": ["pyactr/productions.py:ProductionRules.motorset"]}
{"id": "C41", "title": "Visual search returns an object that satisfies the request", "statement": "A found location belongs to an object on the screen whose text, absolute and relative position constraints hold; with lowest/highest/closest requests no admissible object is lower/higher/closer; search fails exactly if no admissible object exists.", "quantifier": "all screens and search requests", "why_tests_cant": "unbounded numbers of stimuli", "anchors": ["pyactr/vision.py:VisualLocation.find"]}
{"id": "C42", "title": "Visual search reports the stimulus it found", "statement": "The stimulus remembered as attended by a visual search is the one whose location was returned.", "quantifier": "all screens and search requests", "why_tests_cant": "only some orders of stimuli break it", "anchors": ["pyactr/vision.py:VisualLocation.find"]}
{"id": "C43", "title": "Simulated time never runs backwards", "statement": "In every run, the events of the simulation trace have non-decreasing times and each event happens at its announced time.", "quantifier": "all models, environments and schedules", "why_tests_cant": "quantifies over all schedules and histories", "anchors": ["pyactr/simulation.py:Simulation.__localprocess__", "pyactr/simulation.py:Simulation.run", "pyactr/simulation.py:Simulation.step"]}
{"id": "C44", "title": "At most one rule is in progress", "statement": "The procedural process is serial: between selection and firing (or stopping) of a rule no other rule is selected, and every firing is preceded by a selection of the same rule exactly rule_firing earlier.", "quantifier": "all models and schedules", "why_tests_cant": "quantifies over all schedules", "anchors": ["pyactr/productions.py:ProductionRules.procedural_process", "pyactr/simulation.py:Simulation.__procprocessGenerator__"]}
{"id": "C45", "title": "A rule fires only if its conditions still hold", "statement": "When the firing delay has passed, the rule fires only if its left-hand side holds in the current buffers, otherwise it is stopped and no buffer changes.", "quantifier": "all interleavings of buffer changes with the firing delay", "why_tests_cant": "quantifies over all interleavings during the delay", "anchors": ["pyactr/productions.py:ProductionRules.procedural_process"]}
{"id": "C46", "title": "Interrupted requests have no late effect", "statement": "Once a request on a buffer is interrupted by a newer request, it never changes the buffer afterwards.", "quantifier": "all schedules", "why_tests_cant": "quantifies over interleavings", "anchors": ["pyactr/simulation.py:Simulation.__extraprocessGenerator__", "pyactr/simulation.py:Simulation.__localprocess__"]}
{"id": "C47", "title": "Model parameters are validated and defaulted", "statement": "Creating a model with an unknown parameter raises ACTRError; otherwise each given parameter has its given value and every other parameter its documented default.", "quantifier": "all keyword argument sets", "why_tests_cant": "all subsets of parameters and arbitrary unknown names", "anchors": ["pyactr/model.py:ACTRModel.__init__"]}
{"id": "C48", "title": "Each set_decmem call adds a declarative memory", "statement": "Calling set_decmem when a memory already exists adds a further declarative memory instead of replacing the existing one.", "quantifier": "all call histories", "why_tests_cant": "quantifies over histories", "anchors": ["pyactr/model.py:ACTRModel.set_decmem"]}
{"id": "C49", "title": "Variables of compiled rules never clash", "statement": "When two rules are compiled, the variables of the second rule are renamed apart from those of the first or an ACTRError reports the clash.", "quantifier": "all rules and variable names", "why_tests_cant": "quantifies over variable names", "anchors": ["pyactr/productions.py:Productions.__rename__", "pyactr/utilities.py:make_chunkparts_without_varconflicts"]}
{"id": "C50", "title": "A compiled rule behaves like its parents in sequence", "statement": "If the compiled rule matches, then the first rule matches, the second matches after the first, and firing the compiled rule gives the same buffer contents as firing both in sequence.", "quantifier": "all pairs of compilable rules and all buffer contents", "why_tests_cant": "program-transformation correctness over all rules", "anchors": ["pyactr/productions.py:Productions.compile_rules", "pyactr/productions.py:Productions.__collapse__", "pyactr/utilities.py:match"]}
{"id": "C51", "title": "Compilation never overwrites a different rule", "statement": "Compiling never replaces an existing rule by a different one: a compiled rule gets a fresh name unless an identical rule already has that name, in which case only its utility may change.", "quantifier": "all rule sets and compilation histories", "why_tests_cant": "quantifies over histories", "anchors": ["pyactr/productions.py:Productions.compile_rules"]}
{"id": "C52", "title": "Chunk strings are read back as written", "statement": "Rendering slot-value pairs as a chunk string and reading it with chunkstring yields the chunk with these slots and values, for every layout of white space.", "quantifier": "all lists of slot-value pairs over the grammar's alphabet", "why_tests_cant": "unbounded strings", "anchors": ["pyactr/chunks.py:chunkstring", "pyactr/chunks.py:createchunkdict", "pyactr/utilities.py:getchunk"]}
{"id": "C53", "title": "Copying a memory gives an independent memory", "statement": "Operations on a copy of a declarative memory do not affect the original and vice versa.", "quantifier": "all histories of operations on both memories", "why_tests_cant": "quantifies over histories", "anchors": ["pyactr/declarative.py:DecMem.copy"]}
{"id": "C54", "title": "A memory can be initialised with any collection of chunks", "statement": "DecMem(chunks) stores every chunk of the given collection at time 0, with one entry for equal chunks.", "quantifier": "all lists of chunks", "why_tests_cant": "Whether the constructor works depends on the number of slots of the first chunk in the collection; tests use a few collections only.", "anchors": ["pyactr/declarative.py:18-27", "pyactr/declarative.py:48-66"]}
{"id": "C55", "title": "A comparison with a variable uses the value of the variable", "statement": "A visual search whose slot is written with a comparison sign and a variable (screen_x >=x) is resolved to a comparison with the value that the variable is bound to.", "quantifier": "all bindings, variables and values", "why_tests_cant": "The outcome depends on the bound value and on the order in which the fields of the slot are combined; tests only use comparisons with literal numbers.", "anchors": ["pyactr/utilities.py:262-311", "pyactr/chunks.py:379-385"]}
{"id": "C56", "title": "An action has taken effect when it is announced", "statement": "When a rule fires, every CLEARED, MODIFIED, CREATED A CHUNK or WROTE A CHUNK event in the trace is produced in the very step in which the buffer named in the event is changed as the action says, with the bindings of the rule; no action is left out, and all requests are queued with these bindings.", "quantifier": "all right-hand sides, states and interleavings with other processes", "why_tests_cant": "The number and order of actions, and what other processes do between them, are unbounded; tests inspect the final buffer contents of single examples.", "anchors": ["pyactr/productions.py:564-598", "pyactr/productions.py:643-760"]}
{"id": "C57", "title": "A retrieval delivers its result after exactly its latency", "statement": "A retrieval request started at t asks the memory once, and ends at t plus the latency of the answer; then the retrieved chunk is in the buffer when RETRIEVED is announced, or, if nothing was found, the module is in error and the buffers are unchanged.", "quantifier": "all memories, requests, latencies and interleavings with other processes", "why_tests_cant": "Latencies are continuous and the processes running during the retrieval are arbitrary.", "anchors": ["pyactr/productions.py:795-850", "pyactr/declarative.py:183-259"]}
{"id": "C58", "title": "An environment can be shown without triggers", "statement": "If no triggers are given (the default of environment_process), the screens are shown one after another and no key ends them.", "quantifier": "all stimuli, times and starting times", "why_tests_cant": "The default value is combined with checks of lengths and types that depend on all arguments; the example models always give triggers.", "anchors": ["pyactr/environment.py:57-128"]}
{"id": "C59", "title": "A screen is shown for the time given for it", "statement": "A screen that is not ended by a trigger stays for exactly the time given for it, also when the screen before it was ended early by a trigger.", "quantifier": "all lists of screens, times and moments of key presses", "why_tests_cant": "The duration depends on when a key is pressed during the preceding screens, which is continuous.", "anchors": ["pyactr/environment.py:98-128", "pyactr/simulation.py:112-140"]}
{"id": "C60", "title": "start_time is the time of the first stimulus", "statement": "With start_time t the first stimulus is shown at time t of the simulation.", "quantifier": "all starting times", "why_tests_cant": "Tests use the default start time; the sign of the shift only matters for others.", "anchors": ["pyactr/environment.py:57-128"]}
{"id": "C61", "title": "Pressing keys does not break the simulation", "statement": "A key press that belongs to the triggers of an environment ends the screen or has no effect; whatever the moment of the press, the simulation goes on without an exception.", "quantifier": "all environments, rules and moments of key presses", "why_tests_cant": "Failures need a press at a particular moment, or after the environment has ended, so they depend on the timing of a whole run.", "anchors": ["pyactr/simulation.py:112-175", "pyactr/environment.py:98-128"]}
{"id": "C62", "title": "A rule may make several changes to one buffer", "statement": "A rule whose right-hand side contains several actions on one buffer (for instance *g and +g) is carried out, one action after another, without an exception.", "quantifier": "all rules and states", "why_tests_cant": "The combination of actions with the interruption of processes is only exercised by particular rules; tests have one action per buffer.", "anchors": ["pyactr/productions.py:564-642", "pyactr/simulation.py:142-215"]}
{"id": "C63", "title": "A retrieval in progress is only replaced by a newer request", "statement": "A retrieval that has been requested is completed unless a later request to the same buffer replaces it.", "quantifier": "all models, parameters and interleavings", "why_tests_cant": "It depends on which other processes run during the latency of the retrieval and on the parameters.", "anchors": ["pyactr/productions.py:564-642", "pyactr/productions.py:795-850", "pyactr/simulation.py:142-215"]}
{"id": "C64", "title": "The only filled memory is used by buffers without a memory", "statement": "If a model has one declarative memory, all buffers use it; if it has several but only one of them contains chunks, the buffers for which no memory was specified use that one.", "quantifier": "all models, buffers and memories", "why_tests_cant": "It depends on the number of memories and on which are empty; examples have one memory.", "anchors": ["pyactr/model.py:299-308"]}
{"id": "C65", "title": "Running a simulation does not change the model's parameters", "statement": "After (and during) a simulation every parameter of the model has the value it was given, and buffers and memories are known under the same names; so the same model, run again from the same contents of buffers and memories, behaves as before.", "quantifier": "all models, environments and lengths of simulation", "why_tests_cant": "any of unboundedly many steps of a simulation could write to the shared dictionary of parameters", "anchors": ["pyactr/productions.py:ProductionRules.motorset", "pyactr/model.py:ACTRModel.simulation", "pyactr/simulation.py:Simulation"]}
{"id": "C66", "title": "Changing a parameter of one model leaves other models alone", "statement": "The parameters of a model are its own: changing them never affects the parameters of a model created before or later.", "quantifier": "all models and parameters", "why_tests_cant": "Sharing of objects only shows when several models live in one program.", "anchors": ["pyactr/model.py:47-109"]}
{"id": "C68", "title": "A simulation uses the similarities of its model", "statement": "When chunks are compared with partial matching during a simulation, the similarities are those set in the model the simulation belongs to.", "quantifier": "all interleavings of creating models, setting similarities and preparing simulations", "why_tests_cant": "The similarities are kept in a class attribute; the effect only shows when several models are used at once.", "anchors": ["pyactr/model.py:273-282", "pyactr/model.py:325", "pyactr/chunks.py:200-320"]}
{"id": "C69", "title": "Visual search can compare positions with the value of a variable", "statement": "A search request may demand that a coordinate is below or above the value of a variable (screen_x <=x, screen_y >=y); an object whose coordinate compares that way with the bound value is found.", "quantifier": "all screens, requests and values of variables", "why_tests_cant": "Values, variables and screens are unbounded; the request only fails when it is made during a simulation.", "anchors": ["pyactr/vision.py:VisualLocation.find", "pyactr/utilities.py:check_bound_vars", "pyactr/chunks.py:createchunkdict"]}
{"id": "C70", "title": "Attending to a found location encodes the object that was found", "statement": "If a search found the location of an object and attention is moved to that location, the chunk put into the visual buffer describes that object: its text and its location.", "quantifier": "all screens with any number of objects at any positions", "why_tests_cant": "It depends on the positions of all objects on the screen, which are arbitrary numbers.", "anchors": ["pyactr/vision.py:Visual.shift", "pyactr/vision.py:VisualLocation.find"]}
{"id": "C71", "title": "Automatic search finds the closest unattended object", "statement": "The automatic search at the start of a screen returns the location of an object that was not attended to recently such that no other unattended object is closer to the focus; it returns nothing exactly if all objects were attended to.", "quantifier": "all screens, foci and sets of attended objects", "why_tests_cant": "unbounded numbers of objects and positions", "anchors": ["pyactr/vision.py:VisualLocation.automatic_search"]}
{"id": "C72", "title": "A presentation at the present moment is ignored", "statement": "A chunk that was put into memory at the very moment of a retrieval is treated as if that presentation had not happened yet: its activation comes from earlier presentations only, and the retrieval does not fail because of it.", "quantifier": "all lists of presentation times, with and without optimized learning", "why_tests_cant": "Tests cover single simultaneous presentations; the number of them and the other times are arbitrary.", "anchors": ["pyactr/utilities.py:baselevel_learning", "pyactr/declarative.py:DecMemBuffer.retrieve"]}
{"id": "C73", "title": "A presentation in the future is reported", "statement": "If a chunk that takes part in a retrieval has a presentation time after the present, the retrieval raises ACTRError saying that a trace did not appear in a past moment.", "quantifier": "all lists of presentation times", "why_tests_cant": "unbounded lists of real numbers; the check is unreachable", "anchors": ["pyactr/declarative.py:DecMemBuffer.retrieve", "pyactr/utilities.py:baselevel_learning"]}
{"id": "C74", "title": "An activation given by the modeller is used as it is", "statement": "When base-level learning is off, the base activation of a chunk whose activation was set with add_activation is that activation.", "quantifier": "all activations", "why_tests_cant": "continuum of values", "anchors": ["pyactr/declarative.py:DecMem.add_activation", "pyactr/utilities.py:baselevel_learning"]}
{"id": "C75", "title": "Strength of association follows the documented fan", "statement": "The strength of association between a source and a chunk in memory that contains it is S - ln(fan), where fan is one plus the number of chunks in memory with the source in one of their slots.", "quantifier": "all memories and histories, sources and chunks", "why_tests_cant": "unbounded memories; cached counters depend on the history", "anchors": ["pyactr/utilities.py:calculate_strength_association", "docs/actrparameters.tex"]}
{"id": "C76", "title": "Compilation never breaks a simulation", "statement": "Compiling two rules that fired one after the other never ends the simulation with an exception.", "quantifier": "all pairs of rules and all values recorded while they fired", "why_tests_cant": "quantifies over rules and over what happened while they fired", "anchors": ["pyactr/productions.py:Productions.compile_rules"]}
{"id": "C77", "title": "Unsafe pairs of rules are never compiled", "statement": "If the first rule makes a request to a buffer, the pair is not compiled when the second rule makes a request to the same buffer (unless it is a retrieval buffer), tests what a perceptual buffer found, asks a perceptual or motor buffer for anything but being busy, or asks whether the retrieval failed.", "quantifier": "all pairs of rules", "why_tests_cant": "quantifies over rules", "anchors": ["pyactr/productions.py:Productions.__check_valid_compilation__"]}
{"id": "C79", "title": "A retrieval is compiled away", "statement": "If the first rule retrieved a chunk that the second rule tests, the compiled rule neither requests the chunk nor tests the retrieval buffer (unless the first rule tested it already).", "quantifier": "all pairs of rules and all retrieved chunks", "why_tests_cant": "quantifies over rules and memories", "anchors": ["pyactr/productions.py:Productions.__collapse__", "pyactr/utilities.py:match"]}
{"id": "C80", "title": "A compiled rule has the conditions and actions of its parents", "statement": "The compiled rule has all actions of the second rule, all actions of the first rule on other buffers, and no others; it has the conditions of both rules and no others, but for a retrieval that has been replaced by its result.", "quantifier": "all pairs of rules", "why_tests_cant": "quantifies over rules", "anchors": ["pyactr/productions.py:Productions.__collapse__"]}
{"id": "C81", "title": "Every rule takes part once in the selection", "statement": "At every moment of a simulation the list of rules among which one is selected has every rule exactly once and nothing else.", "quantifier": "all simulations", "why_tests_cant": "quantifies over simulations of any length and what they compile", "anchors": ["pyactr/productions.py:ProductionRules.compile_rules", "pyactr/productions.py:ProductionRules.procedural_process"]}
{"id": "C82", "title": "A compiled rule can replace its parents", "statement": "Where the first and the second rule fire one after the other, the compiled rule fires, and leaves the same in the buffers.", "quantifier": "all pairs of compilable rules without retrieval and all buffer contents", "why_tests_cant": "program-transformation correctness over all rules", "anchors": ["pyactr/productions.py:Productions.compile_rules", "pyactr/productions.py:Productions.__collapse__"]}
{"id": "C83", "title": "Rule strings are read as written", "statement": "productionstring, given tests, '==>' and actions in any layout of white space, stores a rule whose left-hand and right-hand sides have, for every sign and buffer, the chunk, query, command or clearing written there; any other text raises ACTRError.", "quantifier": "all lists of tests and actions over the grammar's alphabet, all layouts", "why_tests_cant": "unbounded strings", "anchors": ["pyactr/model.py:ACTRModel.productionstring", "pyactr/utilities.py:getrule", "pyactr/chunks.py:createchunkdict"]}
{"id": "C84", "title": "A buffer changes only through rules that mention it", "statement": "During a simulation a goal, retrieval or manual buffer, and what queries say about its module, stays exactly as it was as long as no rule mentions the buffer; a process that a rule starts for one buffer never changes another buffer.", "quantifier": "all rules, all simulations of any length, all moments", "why_tests_cant": "frame property over unbounded executions", "anchors": ["pyactr/productions.py:ProductionRules.update", "pyactr/productions.py:ProductionRules.procedural_process", "pyactr/simulation.py:Simulation.__extraprocessGenerator__", "pyactr/simulation.py:Simulation.__localprocess__"]}
{"id": "C85", "title": "Running in pieces", "statement": "Calling run(a) and then run(b) with a < b leaves the simulation in the same state, with the same trace, memory, utilities and clock, as calling run(b); an exception during the run comes at the same place; calling run again when nothing is left to do changes only the clock.", "quantifier": "all simulations, all earlier calls of run and step, all times a < b", "why_tests_cant": "two-run property over unbounded executions", "anchors": ["pyactr/simulation.py:Simulation.run", "pyactr/productions.py:ProductionRules.compile_rules"]}
{"id": "C86", "title": "run(u) stops exactly at u", "statement": "run(u) carries out everything that is scheduled before u and nothing that is scheduled for u or later; every event it adds to the trace has a time from the old present up to u, exclusively; afterwards show_time() is u. If u is not after the present, ValueError is raised and nothing changes.", "quantifier": "all simulations, all earlier calls of run and step, all times u", "why_tests_cant": "unbounded executions; boundary cases at every event", "anchors": ["pyactr/simulation.py:Simulation.run", "pyactr/simulation.py:Simulation.show_time"]}
{"id": "C87", "title": "Stepping shows the trace", "statement": "Successive calls of step() show the events of the trace in order, none left out except immediate repetitions, each call exactly one event that is different from the last; steps(n) is n of them; at the end step() returns.", "quantifier": "all simulations, all numbers of steps", "why_tests_cant": "unbounded executions; depends on how many events one simpy step can bring about", "anchors": ["pyactr/simulation.py:Simulation.step", "pyactr/simulation.py:Simulation.steps", "pyactr/simulation.py:Simulation.__printevent__"]}
{"id": "C88", "title": "run() and step() raise only exceptions of rules and modules", "statement": "Whatever calls of run() and step() came before, an exception that leaves run() or step() comes from a rule or a module (ACTRError, TypeError, KeyError and so on). It is never an exception of the scheduling itself: no process is interrupted while nobody handles the interruption, and no process that has ended or that is the current one is interrupted (RuntimeError of simpy).", "quantifier": "all models, all rules, all earlier calls of run and step, all executions", "why_tests_cant": "depends on the order in which processes of buffers and rules are woken up, over unbounded executions", "anchors": ["pyactr/simulation.py:112-296", "pyactr/productions.py:564-642"]}
{"id": "C89", "title": "A failure of a process always ends the run with an exception", "statement": "If the code of any process of a simulation - the rules, a buffer, a request that is being carried out - raises an exception, the run does not come to a normal end afterwards: when it ends, it ends with an exception. No failure is swallowed by a process that waits for the failing one, or by an interruption of it.", "quantifier": "all models without environment, all executions, all failures of any process at any time", "why_tests_cant": "a failure can be lost only for particular interleavings of waiting, interrupting and failing processes; unbounded executions", "anchors": ["pyactr/simulation.py:112-296"]}
{"id": "C90", "title": "A simulation stops by itself only when no rule matches", "statement": "If a simulation comes to its end by itself - nothing is left in the queue and no exception was raised - then no rule of the model matches the buffers and the states of the modules. The same holds whenever calls of run() and step() have left nothing in the queue. So no change of a buffer or of a module is missed by the process of the rules: a rule whose conditions come to hold is noticed, whatever is going on in the modules at that moment.", "quantifier": "all models, all rules, all executions, all sequences of calls of run and step", "why_tests_cant": "a wake-up can be lost only for particular interleavings of the processes of rules, buffers and modules; unbounded executions", "anchors": ["pyactr/simulation.py:112-296", "pyactr/productions.py:487-562"]}
{"id": "C91", "title": "A shift of attention announces its phases in order and sees its object once", "statement": "A request to the visual buffer that moves attention announces the start of the preparation at the time of the request, the end of the preparation after the preparation time, and the end of the shift after the execution time, counted from the end of the preparation or, if an earlier movement is still going on, from its end. The object is encoded exactly once: after its encoding time if that ends before the eyes arrive, and otherwise after the arrival, with the remaining share of the encoding time from the new position. All these events come in the order of their times.", "quantifier": "all requests, all encoding, preparation and execution times, all states, whatever the rest of the program does in between", "why_tests_cant": "three orders of phases, all times; interleaving with other processes", "anchors": ["pyactr/productions.py:709-719", "pyactr/productions.py:834-891"]}
{"id": "C92", "title": "Looking at an object never delays seeing it", "statement": "If no earlier eye movement is still going on, a shift of attention encodes its object no later than the encoding time that it started with says: the movement of the eyes can only shorten the encoding. With EMMA without noise this needs nothing else, as encoding takes least time when the eyes rest on the object.", "quantifier": "all requests, all times, all positions and screens, all parameters that are not negative", "why_tests_cant": "real-valued times; unbounded family of positions and parameters", "anchors": ["pyactr/productions.py:834-891", "pyactr/utilities.py:649-666"]}
{"id": "C93", "title": "Visual angles behave like angles", "statement": "The visual angle between two positions does not depend on their order, lies between 0 and 90 degrees, is 0 only for equal positions, grows with the distance in pixels and shrinks when the viewer moves away.", "quantifier": "all positions, all screens of positive width and viewing distance", "why_tests_cant": "real-valued inputs", "anchors": ["pyactr/utilities.py:582-605"]}
{"id": "C94", "title": "Encoding takes longer for objects farther from the focus", "statement": "Without noise, the encoding time of an object is never negative and grows with its visual angle from the focus, strictly if the parameters and vis_delay are positive.", "quantifier": "all angles, all parameters that are not negative", "why_tests_cant": "real-valued inputs", "anchors": ["pyactr/utilities.py:649-666"]}
{"id": "C95", "title": "Eye movements take between 70 and 250 ms", "statement": "Without noise the execution of an eye movement takes at least 70 and less than 250 ms and longer for greater distances; the eyes have arrived between 205 and 385 ms after the request (85 ms with EMMA switched off). With noise no time is negative.", "quantifier": "all positions, all screens, all samples of the gamma distribution", "why_tests_cant": "real-valued inputs; random numbers", "anchors": ["pyactr/utilities.py:668-686", "pyactr/vision.py:348-359"]}
{"id": "C96", "title": "Automatic buffering attends to the centre of sight", "statement": "Automatic buffering takes only objects within 2 degrees of the focus that are not in the buffer already, and it does not leave the buffer as it is when an object within 1 degree is not in the buffer.", "quantifier": "all screens, all lists of objects, all positions of the focus", "why_tests_cant": "real-valued inputs; unbounded lists", "anchors": ["pyactr/productions.py:809-832", "pyactr/vision.py:291-305"]}
{"id": "C97", "title": "The visual angle is the angle that a viewer sees", "statement": "The visual angle computed between the focus and a position is the angle under which a viewer at the viewing distance sees them on the simulated screen.", "quantifier": "all positions, all screens", "why_tests_cant": "real-valued inputs; two scales", "anchors": ["pyactr/utilities.py:582-605"]}
{"id": "C98", "title": "Encoding times follow the documented formula", "statement": "The encoding time of an object is K * vis_delay * e^(k*distance) with the distance in degrees of visual angle, as documented.", "quantifier": "all angles, all parameters", "why_tests_cant": "real-valued inputs", "anchors": ["pyactr/utilities.py:649-666", "pyactr/vision.py:348-352"]}
{"id": "C99", "title": "run() always comes back", "statement": "Every call of run() ends, by returning or by an exception, whatever the rules are, however long the simulation has run before and although rules may fire for ever; so does every single event that a simulation works off. The environment is one of environment.py, or there is none; firing a rule takes at least 0.1 ms.", "quantifier": "all models and rules, all oracles (retrieval, vision, compilation, Python code), all environments of environment.py, all sessions of run() and step(), all times", "why_tests_cant": "a test that does not end shows nothing, and endings of some runs say nothing about others", "anchors": ["pyactr/simulation.py:87-263", "pyactr/productions.py:585-640"]}
{"id": "C67", "title": "Modules become free again", "statement": "When a simulation has nothing left to do, the state of every module is free or error: no query '?buffer> state busy' is true any more, whatever requests were made, interrupted and overwritten before.", "quantifier": "all models without environment, all rules, all oracles, all runs of the simulation and all sequences of run() and step() that end with an empty queue", "why_tests_cant": "states are set busy and free in a dozen methods that are suspended, interrupted and thrown away in any order; a module that stays busy needs a particular interleaving", "anchors": ["pyactr/productions.py:580-806", "pyactr/simulation.py:87-263"]}
{"id": "C100", "title": "step() always comes back", "statement": "Every call of step() and of steps(n) ends: it shows an event (n events) that differs from the one shown before, or the simulation is over, or an exception is raised; although step() silently goes on as long as the simulation reports nothing new, and also if rules take no time to fire. The environment is one of environment.py, or there is none.", "quantifier": "all models and rules, all oracles (retrieval, vision, compilation, Python code), all environments of environment.py, all sessions of run() and step()", "why_tests_cant": "a step that does not come back can only be excluded for the states that were tried; the loop of step() has no bound", "anchors": ["pyactr/simulation.py:87-224", "pyactr/simulation.py:276-296"]}
{"id": "C101", "title": "Nothing that waits for its time is overslept", "statement": "When a rule, a request to a buffer or a screen of the environment waits for a point of time, the clock never passes this time without the process going on; what it waits for appears in the trace with exactly this time unless the process is interrupted; and a simulation that ends without an exception leaves no process waiting.", "quantifier": "all models, environments, parameters and interleavings", "why_tests_cant": "A lost wake-up depends on the order in which events, interruptions and callbacks of all processes are worked off.", "anchors": ["pyactr/simulation.py:99-149", "pyactr/simulation.py:185-208"]}
{"id": "C102", "title": "Removing a chunk from memory leaves no trace", "statement": "`del dm[chunk]` removes exactly the entry equal to the chunk (KeyError if there is none) and leaves all other entries as they are; afterwards the fan counts used for spreading activation are again one plus the number of slots still in memory.", "quantifier": "all histories of adds, re-adds, strength queries, copies, removals and clear(), restricted and unrestricted", "why_tests_cant": "The cached counts depend on the order of removals and strength queries in the whole history.", "anchors": ["pyactr/declarative.py:32-33", "pyactr/declarative.py:48-56", "pyactr/utilities.py:501-537"]}
{"id": "C103", "title": "The text of a chunk identifies it", "statement": "Two chunks that are printed alike are the same chunk: same type, same slots, same values, variables and negations, also within chunks that are values. The printed content of a slot, given to Chunk again, is read as the same content.", "quantifier": "all chunks, with any nesting", "why_tests_cant": "Unbounded strings and nesting.", "anchors": ["pyactr/chunks.py:219-232", "pyactr/utilities.py:39-64", "pyactr/utilities.py:125-143"]}
{"id": "C78", "title": "A compiled rule inherits the utility of its first parent", "statement": "Every time a compiled rule is created again, its utility moves towards the utility of its first parent, never past it, and after some number of creations it is equal to it; no other rule's utility changes.", "quantifier": "all models, rules, learning rates in [0,1] and numbers of creations", "why_tests_cant": "Convergence over an unbounded number of creations, with rounding in every step.", "anchors": ["pyactr/productions.py:428-448"]}
{"id": "C104", "title": "A module is busy while it works", "statement": "From the moment a module starts to work on an action of a rule until the action is complete, the query state busy about its buffer is true whenever time passes; for the visual module so is the query processor busy during a shift of attention.", "quantifier": "all buffers, actions, chunks, bindings, delays, latencies, oracles, and all changes of the rest of the state by other processes", "why_tests_cant": "Latencies, delays, movement times and what other processes do in between are arbitrary; tests see single schedules.", "anchors": ["pyactr/productions.py:600-964", "pyactr/simulation.py:151-208"]}
{"id": "C105", "title": "A copied buffer is independent of the original", "statement": "buffer.copy() gives a buffer of the same class with the same chunk, along with a copy of its memory (as documented), and from then on calls on the copy and calls on the original do not influence each other.", "quantifier": "all histories of calls before and after copying, on any number of buffers and memories", "why_tests_cant": "Sharing shows only in some later histories of calls; tests look at the copy right after it was made.", "anchors": ["pyactr/declarative.py:168-175", "pyactr/goals.py:65-72"]}
{"id": "C106", "title": "The utility and the reward of a rule are those in its signature", "statement": "set_productions(f1, ..., fn) gives every rule the utility and the reward that the function has as defaults of the parameters called utility and reward, and 0 and None if it has no such parameters; a parameter of that name without default is reported, and then the model keeps its rules.", "quantifier": "all lists of functions and all signatures", "why_tests_cant": "The defaults are found by counting positions from the end of a signature with any number of other parameters; tests use signatures with at most these two parameters.", "anchors": ["pyactr/productions.py:73-90", "pyactr/model.py:206-211"]}
{"id": "C107", "title": "A window does not change what run() does", "statement": "run(max_time) of a simulation whose environment is shown in a window (gui=True, the default) does what it does without a window: it runs up to max_time, shows the events of the trace in order, raises the exceptions of the model, and returns.", "quantifier": "all models, environments, earlier calls of run() and step(), times, and moments at which the window is closed", "why_tests_cant": "A window needs a display and a user; the claim is about every model and every moment at which the user closes the window.", "anchors": ["pyactr/simulation.py:254-263", "pyactr/simulation.py:298-363"]}
{"id": "C108", "title": "What is on the screen comes from the environment", "statement": "During a simulation the stimuli and triggers of the environment change only through the environment's own process: rules and modules never change them, and with environment_process only screens that were given to it are ever shown.", "quantifier": "all models, rules, environments, and moments of all simulations", "why_tests_cant": "The claim is about every rule and every request to every module, in any order, interleaved with the environment; tests look at the screen of a few models.", "anchors": ["pyactr/environment.py:82-144", "pyactr/simulation.py:177-252", "pyactr/productions.py:482-888"]}
{"id": "C109", "title": "The window shows what is on the screen", "statement": "When the environment is shown in a window, the window shows, once it has caught up with the simulation, exactly the texts that are on the screen, each at its position.", "quantifier": "all models, environments given by environment_process, and moments of a run", "why_tests_cant": "A window needs a display, and the claim is about every sequence of screens, however it interleaves with key presses.", "anchors": ["pyactr/simulation.py:342-360", "pyactr/simulation.py:366-411"]}
{"id": "C110", "title": "The slots of a chunk are read by their names", "statement": "For every chunk and every slot of it, chunk.slot, chunk._asdict()[slot], iterating over the chunk and chunk[position] all give the value of the slot; what is no slot raises AttributeError, and a position outside raises IndexError.", "quantifier": "all chunks, slot names and positions", "why_tests_cant": "Slot names are chosen by the modeller, and a name may be one that Python finds elsewhere; tests read a few slots with harmless names.", "anchors": ["pyactr/chunks.py:157-163", "pyactr/chunks.py:171-178", "pyactr/chunks.py:212-217"]}
{"id": "C111", "title": "A buffer is used under the name that was given to it", "statement": "After any sequence of calls of set_goal, set_retrieval, visualBuffer and simulation(), a name stands in the simulation for the buffer that the last call with that name returned, and model.goal and model.retrieval give the buffer that was set last and that rules use.", "quantifier": "all models, names and sequences of calls, with and without an environment", "why_tests_cant": "Names, their coincidences and the order of calls are unbounded; tests set one or two buffers with different names and prepare one simulation.", "anchors": ["pyactr/model.py:117-125", "pyactr/model.py:152-204", "pyactr/model.py:284-327"]}
{"id": "C112", "title": "Running a simulation leaves the rules of the model as they are", "statement": "Whatever calls of run() and step() are made, and even if the last one raises an exception, the rules of the model, their utilities and their order are afterwards as they were, so that the next simulation of the model starts from the same rules.", "quantifier": "all models, rules, environments and sequences of run() and step()", "why_tests_cant": "Simulations of unbounded length may change rules at any step; tests look at the rules of a few short runs, if at all.", "anchors": ["pyactr/productions.py:455-562", "pyactr/model.py:320-327", "pyactr/simulation.py:254-287"]}
{"id": "C113", "title": "Preparing a simulation keeps what is in buffers and memories", "statement": "simulation() leaves every chunk in the declarative memories and in the buffers of the model where it is, also the recently retrieved chunks and the settings of buffers, whether it returns a simulation or raises an exception; a goal that was set before is the goal of the simulation.", "quantifier": "all models, contents of buffers and memories, with and without an environment, any number of earlier simulations", "why_tests_cant": "The contents and numbers of buffers and memories and the branches of preparing (one memory, several, none) are unbounded combinations; tests prepare one simulation of a model with one goal.", "anchors": ["pyactr/model.py:284-327"]}
{"id": "C114", "title": "A rule stays in the model until its name is given to another rule", "statement": "After any sequence of calls of set_productions and productionstring, some of which may raise exceptions, the rule of a name is the one that the last successful call gave this name, with its utility and reward; other rules stay, calls that fail change nothing, and rules are in the order in which their names were used first.", "quantifier": "all sequences of calls with any functions, names and strings", "why_tests_cant": "Sequences of calls with repeated names, failures and both ways of defining rules are unbounded; tests use one way to define rules with different names.", "anchors": ["pyactr/model.py:206-271", "pyactr/productions.py:62-119"]}
{"id": "C115", "title": "How a simulation is driven makes no difference", "statement": "Whatever calls of run() and step() are made: of the traces of two simulations of the same model one continues the other, and when run(u) returns, the trace, the buffers, the memories and the states of the modules are the same whatever calls came before it; without production compilation the rules and their utilities are the same, too.", "quantifier": "all models, environments and pairs of sequences of run() and step(), also if a last call raises an exception", "why_tests_cant": "It compares two unbounded executions with arbitrary interleavings of run() and step().", "anchors": ["pyactr/simulation.py:254-296"]}
{"id": "C116", "title": "Assigning, copying and deleting rules", "statement": "productions[n] = productions[m] gives n the rule of m with the same utility and reward; del productions[n] removes only this rule and keeps the order of the others; a statement that fails (no such rule, or a mapping without exactly the keys rule, utility and reward) changes nothing; after any sequence of such statements every rule was there at the beginning or was assigned, and names that are no target keep their rule.", "quantifier": "all sets of rules and all sequences of assignments, copies and deletions, including failing ones", "why_tests_cant": "Sequences and rule sets are unbounded; tests look at single assignments.", "anchors": ["pyactr/productions.py:18-61", "pyactr/productions.py:62-119"]}
