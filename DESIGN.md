# Formal model of pyactr in Rocq/Coq 8.16.1

The model is written by reading /repo; the code is never run.  All definitions live in
`rocq/theories/` (logical name `Verif`); each one cites the file and lines it models.

## Representation

* Python exceptions are values: `res A := Ok a | Err e` (`Base.v`).
* Python dicts are insertion-ordered association lists; Python sets are insertion-ordered
  duplicate-free lists (iteration order of real sets is arbitrary; see trusted base).
* A slot value is `VNone` (Python None), `VEmpty` (Chunk.EmptyValue), `VStr` or `VChunk`.
  Python's `==` on these is modelled exactly (it is not transitive: None == EmptyValue == 'None' but
  None != 'None').
* Chunk hashing is modelled by the tuple that is hashed (`sig`); two chunks are equal when these
  tuples are equal.  Hash collisions of Python's `hash` are not modelled.
* Times of events and of declarative memory are integers (ticks of 0.1 ms).  Floating-point
  formulas (activation, latency, distances) are over R, or oracles (values supplied from outside).
* Generators become first-order state machines with a `resume` function.

## Plan per property

| id | modelled | proof |
|---|---|---|
| C01 | Chunks.v: value/slotval/chunk, signature `sig` (= the tuple hashed by Chunk.__hash__) | spec: lookup function with empty slots erased, extensional equality on it; proof by well-founded induction on nesting, using sorted slot lists; also mk_chunk always yields sorted chunks |
| C02 | same | signature equality is decidable Leibniz equality; congruence lemma for nested chunks |
| C03 | Chunks.v: `match_chunk`, `chunk_le` | spec in terms of slot lookup only; induction on pattern slots |
| C04 | same | from C03 spec; refutation witness for explicit 'None' slots |
| C05 | same | refuted by witness with explicit 'None'; guarded theorem proved |
| C06 | same, with boundvars | spec `satisfies` over an assignment; induction over slots with accumulated invariant; refutation for multi-character names |
| C07 | same | induction: bindings produced are the least ones |
| C08 | same | induction, monotonicity of the binding maps |
| C09 | Productions.v: lhs_test | state components returned unchanged; selection passes no bindings |
| C10 | Buffers.v: all buffer operations as state transformers returning state and result also on errors | invariant over operation lists |
| C11 | Buffers.v: modify, check_bound_vars | frame theorem by slot lookup |
| C12 | same | refuted by witness; guarded theorem for modifications that cannot fail |
| C13 | Buffers.v, DecMem.v | lookup-based frame theorem |
| C14 | same | same |
| C15 | same | refuted by witness |
| C16 | DecMem.v | refinement of the insertion-ordered dict to a multiset of (chunk,time) |
| C17 | same | monotonicity invariant over operation lists |
| C18 | DecMem.v: fan counters | coherence invariant over operation lists; __delitem__ is the subject of C102 |
| C19 | DecMem.v: retrieve (symbolic branch) | spec by membership; induction over entries |
| C20 | same | same |
| C21 | same with finst | invariant over histories |
| C22 | DecMem.v: retrieve (subsymbolic branch), activations as oracle values | argmax spec |
| C23 | Subsymbolic.v over R | real analysis with stdlib Reals |
| C24 | Subsymbolic.v over R | monotonicity of sum/ln/Rpower |
| C25 | Subsymbolic.v | sums over lists |
| C26 | Chunks.v: partial matching score over Z/Q | induction |
| C27 | Model.v: similarity table | invariant over call lists |
| C28 | Productions.v: rule selection | sorted-list argument; refutation with learning |
| C29 | same | argmax spec |
| C30 | Productions.v: update | permutation + sortedness of the executed action list |
| C31 | Productions.v: update | set equality under no name clash; refutation |
| C32 | Productions.v: utility learning over Q | fold over firing history |
| C33 | Chunks.v: check_bound_vars | case analysis; refutation for variables bound to empty slots |
| C34 | Base.v: round half even | Q/Z arithmetic |
| C35 | Chunks.v: type registry | invariant over definition histories |
| C36 | same | refuted by witnesses |
| C37 | Strings.v: stringsplitting | round trip over strings |
| C38 | Environment.v | induction over lists |
| C39 | Props_Motor.v | requests, continuations, simulations; non-overlap refuted |
| C40 | Props_Motor.v | refuted by a simulation; partial for the same hand and movement |
| C41 | Vision.v: find | fold invariant, Pareto-optimality; effect on the buffer (VisionEffect.v); refutations |
| C42 | Vision.v | refuted by witness + guarded theorem |
| C43 | Sim.v: simulation loop | invariant over steps |
| C44 | Sim.v, Productions.v | trace invariant |
| C45 | Productions.v: procedural process as a resumable state machine | for every state at resumption |
| C46 | Sim.v | invariant over steps |
| C47 | Model.v | dict update lemmas |
| C48 | Model.v | refuted by witness |
| C49 | Compile.v | refuted by witness |
| C50, C82 | Compile.v | refuted by simulations; guarded theorems on a restricted class of rules (CompileTerms.v, CompileFire.v, CompileSound.v) |
| C51 | Compile.v | case analysis over compile_rules naming; meaning of == (CompileSame.v); lifted to simulations |
| C76 | Compile.v | refuted by simulations; case analysis |
| C77, C79, C80 | Compile.v | induction over the sides of rules; queries in CompileQuery.v |
| C78 | Compile.v: place | step lemma from place_cases; induction over the number of creations, AgainFacts.v |
| C81 | Compile.v | refuted by a simulation; invariant of simulations |
| C52, C83 | Strings.v: readers for chunk and rule strings | readers exact for an independent description of layouts (StringSpec.v); refuted by witnesses; guarded theorems |
| C53 | DecMem.v with a heap of memories | frame theorem |
| C56 | Productions.v | structural predicate on generators (UpdateFacts.v) |
| C57 | Productions.v | stepping through the generator (EffectFacts.v) |
| C58, C60 | Environment.v | refuted for the default value and for start_time > 0; guarded theorems |
| C59 | Environment.v, Sim.v | refuted by a simulation; differences of announced times |
| C61 | Sim.v | refuted by simulations; the press itself: invariant `MainC` in KeyRuns.v (the process of the environment is in the queue at the present moment, or waits for a condition that watches the event of the keys; if that event has happened, the key was pressed at the present moment or the environment is over), for all environments |
| C63 | Sim.v | refuted by a simulation; proved for requests of all kinds when nothing else concerns the buffer (KeepSpec.v: `requested`, `interrupted`), also with environments: invariants `Waits` (who waits for a time is in the queue) and `Keep` (nobody interrupts the process) in KeepRuns.v |
| C62, C88 | Sim.v, Run.v, SafeSpec.v | refuted by simulations; guarded theorems by an invariant about who waits for what and which interruptions are pending (RequestFacts.v, QueueFacts.v, SafeFacts.v, SafeSteps.v, SafeMain.v, FailFacts.v, SafeRuns.v) |
| C89 | Sim.v, SafeSpec.v | the invariant of C62 together with one about failures that have not been dealt with (BrokenFacts.v) |
| C90 | Sim.v, Run.v, SafeSpec.v | the invariants of C62 and C89 together with one that says, for every stage of the process of the rules, which entry of the queue wakes it up, and which processes still have an event to come (QuietGens.v, QuietFacts.v, QuietSteps.v, QuietRuns.v, QuietLead.v, QuietMain.v, QuietPop.v, QuietEnd.v); sessions are reduced to the states that a simulation reaches (ShadowFacts.v) |
| C64 | Model.v | refuted in general; frame theorems for one memory and for filled memories |
| C65; C10, C17, C21 for whole simulations | Sim.v, ReachSpec.v | invariant of sim_step, for every predicate that the generators keep (LiftFacts.v); C65 refuted by witness |
| C84 | Sim.v, FrameSpec.v | invariant of sim_step that also governs which processes wait (LiftFacts.v); refuted by a simulation |
| C85 | Run.v, RunSpec.v | the loop of run splits at every time; refuted by a simulation |
| C86 | Run.v, RunSpec.v | induction over the loop with the invariant of Sim (heap never in the past) |
| C87 | Run.v, RunSpec.v | invariant: processes that wait for a time wait for different events, so one simpy step adds at most one event; refuted by simulations |
| C66, C68 | Model.v: parameters and similarity tables as shared objects | refuted by witness; frame theorem, invariant over histories |
| C69, C70 | Vision.v: find, shift | refuted by case analysis and witnesses; guarded theorem for C70 |
| C71 | Vision.v: automatic_search | fold invariant |
| C91, C92 | Productions.v | stepping through the generators of a shift (ShiftFacts.v) |
| C93 to C98 | Emma.v over R | analysis with stdlib Reals (atan, tan, exp); C97 and C98 refuted |
| C99 | Sim.v, Run.v, Environment.v | a measure in three parts: time that is left until the end of the run, counted in thirds of a firing; processes of the rules that wait to be started; a sum over processes, events, queue and pending work that bounds what can still happen before a rule fires again (CostFacts.v: what generators of modules can start; BillFacts.v: what a step of a process spends; EndFacts.v: every step makes the measure smaller; EndInit.v: sessions) |
| C100 | Sim.v, Run.v | the measure of C99 with other counts for the stages of a rule (EndFacts.v, `mode`): it gets smaller with every step that reports no conflict resolution, and with every step that reports no selection of a rule.  A loop of step() that shows nothing passes over events equal to the last one shown, hence is of one of the two kinds; one entry of the queue reports at most one event (EndInit.v) |
| C101 | Sim.v | invariants `Waits` (the event that a process waits for is in the queue, with the process among its callbacks, or the process is about to go on) and `intime`, KeepRuns.v |
| C102 | Forget.v, DecMem.v | invariant `table` (each Counter lies between the exact count and the exact count plus the slots lost), ForgetFacts.v |
| C103 | Repr.v | unique decoding of texts, induction on nesting, ReprFacts.v; refutations in ReprWitness.v |
| C104 | Productions.v, Sim.v | an inductive predicate on generators (`okb`: the module is known to be busy, or no time passes), BusyFacts.v; refutations in BusyWitness.v |
| C105 | Buffers.v, DecMem.v, CopySpec.v | a frame lemma for histories: calls that only name buffers in a set and memories in a set, where these buffers use only these memories, change nothing outside of the sets (CopyFacts.v). |
| C106 | Signatures.v, SignatureSpec.v | the place of a parameter counted from the end is the place of its default, because defaults belong to the last parameters (SignatureFacts.v). |
| C107 | Gui.v, Run.v, RunSpec.v | the rounds of the thread that carries out the simulation make up the loop of run, and a run that fails splits into rounds (GuiFacts.v); refuted by simulations (GuiWitness.v) |
| C108, C109 | Window.v, Environment.v, Sim.v, WindowSpec.v | every generator of rules and modules leaves the screen alone, so a property of the screen is governed by the environment only (WindowFacts.v, over LiftFacts.v); C109: what was sent last is what is on the screen, induction over the rounds; refuted by simulations (WindowWitness.v) |
| C110 | Attributes.v, Chunks.v | adding and removing the underscore cancel out, so fields and slots correspond (AttributeFacts.v); refuted by a chunk |
| C111 | Naming.v, Model.v, NamingSpec.v | an invariant over histories of calls relates the dictionaries of a model to the last calls (NamingFacts.v); refuted by three models |
| C112 (and C81 for sessions) | Sim.v, Run.v, Compile.v, RulesSpec.v | relations kept by learning and compiling are kept by every sequence of run() and step() (RulesFacts.v); refuted by a model that is run twice (RulesWitness.v) |
| C10, C17, C21, C39, C65, C84, C108 for sessions; C10, C17 for the life of a model | Sim.v, Run.v | what is kept by all steps of a simulation and by compiling is kept by every sequence of run() and step() (SessionLift.v) |
| C113 (and C21 for the life of a model) | Model.v, RulesSpec.v | preparing changes nothing of a buffer but its memory (LifeFacts.v) |
| C114 | Defining.v, Signatures.v, Strings.v, DefiningSpec.v | induction over the calls; one call either gives the name, drops it or spares it (DefiningFacts.v) |
| C115 | Sim.v, Run.v, RulesSpec.v | a session is a state of the simulation up to the clock; steps are deterministic, so two such states lie on one line, and run(u) stops at the same one (DriveFacts.v) |
| C116 | Assigning.v, Defining.v | case analysis per statement, induction over the statements (AssigningFacts.v) |
| C112 for the life of a model | Sim.v, Run.v, CareerSpec.v | induction over simulations that hand on the rules (CareerFacts.v) |
| C43, C44, C101 for sessions | Sim.v, Run.v | a session shows a state of the simulation up to the clock and compiled rules (ShadowFacts.v, SleepFacts.v) |
| C67 | Sim.v, Productions.v, FreeSpec.v | for every generator, whether all its ends (by itself, by an interruption, by handing over its continuation) leave the module free or in error (FreeGens.v); an invariant that names, for every busy module, who will set it free: a request in the list, a process, a finished process whose continuation is about to start, or the rule itself; interrupted processes have an heir in the queue behind the interruption (FreeQueue.v, FreeSteps.v, FreeRuns.v, FreeWork.v). At the end nobody is left (with C90), so no module is busy (FreeEnd.v). Rules that name their commands never send the idle command, also after compilation (CommandFacts.v). |
| C72, C73, C74, C75 | Subsymbolic.v | refuted by case analysis; guarded theorems for C72 and C75 |

## Trusted base

* Coq's kernel (8.16.1) and its standard library.
* `Print Assumptions` stands under every property theorem (in the `Props_*.v` files).  All of them
  answer "Closed under the global context", with one exception: the theorems of `Props_Subsymbolic.v` and those of `Props_Eyes.v` on EMMA are
  about real numbers and depend on the axioms of the standard library's Reals:
  `ClassicalDedekindReals.sig_not_dec`, `ClassicalDedekindReals.sig_forall_dec`,
  `FunctionalExtensionality.functional_extensionality_dep`, `Classical_Prop.classic`.
  Some standard library modules that are loaded declare axioms (for example `Coq.ssr.ssrunder`, and
  `Coq.Reals.Rdefinitions`, whose sealed definitions coqchk lists as axioms);
  no theorem depends on axioms other than those listed.
* The reading of /repo recorded in the comments of the model files.

### Code that is modelled

| file in /repo/pyactr | model |
|---|---|
| chunks.py: Chunk (creation, equality, hashing, matching, partial matching, unused slots), chunktype | Chunks.v |
| utilities.py: splitting, stringsplitting, check_bound_vars | Chunks.v |
| utilities.py: varval_repr (39-64); chunks.py: __repr__ (80-81, 219-232) | Repr.v |
| utilities.py: baselevel_learning, weigh_buffer, spreading_activation, retrieval_latency (423-578); declarative.py: subsymbolic branch of retrieve | Subsymbolic.v |
| utilities.py: signs of rules, utility learning, setting time | Productions.v |
| declarative.py: DecMem, DecMemBuffer | DecMem.v, Forget.v (removals), DecMemHeap.v (memories as objects that can be shared), Buffers.v |
| buffers.py, goals.py: all methods | Buffers.v |
| vision.py: buffer operations of VisualLocation and Visual | Buffers.v |
| vision.py: find, automatic_search, shift | Vision.v |
| utilities.py: distances on the screen, times of EMMA (582-698); vision.py: 291-305, 348-359; productions.py: 815-824 | Emma.v |
| motor.py | Productions.v |
| productions.py: ProductionRules (450-1025) | Productions.v |
| productions.py: Productions.compile_rules and its helpers (121-448); utilities.py: 175-245, 313-398 | Compile.v |
| environment.py: Environment (all but the GUI) | Environment.v |
| model.py: parameters, similarities, memories, buffers, preparation of a simulation (47-327, without productionstring) | Model.v |
| utilities.py: getchunk, getrule; chunks.py: createchunkdict, makechunk, chunkstring (368-494); model.py: productionstring (213-271) | Strings.v, with the parts of pyparsing that they use |
| chunks.py: reading slots (157-163, 171-178, 212-217); names that begin with an underscore are not followed | Attributes.v |
| model.py: goals, retrievals and visual buffers and their names (79-98, 117-125, 152-204, 284-327); a simulation() that raises ends the history | Naming.v |
| model.py: set_productions, productionstring called several times (206-271); productions.py: Production, Productions (23-30, 62-119) | Defining.v; the bodies of functions are not looked at |
| productions.py: Production, Productions used as mappings (18-61, 92-119) | Assigning.v; deleting a key of a single rule (45-46), the text of a rule (48-58, 108-113) and the identity of objects are not modelled |
| simulation.py: Simulation (24-252), with the parts of simpy that it uses | Sim.v |
| simulation.py: run, show_time, step, steps (254-296), without GUI | Run.v |
| simulation.py: run with a window (254-263, 298-363) | Gui.v |
| simulation.py: what is drawn in the window (355-357, 366-408), without the circle for the focus | Window.v |

### What the model assumes or leaves out

* Hash collisions: chunks with equal hashes are taken to hash equal tuples.
* Python sets are lists without duplicates in order of insertion.  No theorem depends on the order.
* Floating-point numbers are rational numbers; rounding is round-half-even on them.  In Subsymbolic.v they are
  real numbers, so overflow, underflow and rounding errors of exp and log are left out; the same holds of Emma.v, where
  moreover samples of the gamma distribution are positive numbers and screens of size 0 (ZeroDivisionError) are left out.
* Subsymbolic.v: the decay is no integer when a presentation lies in the future (numpy warns only then);
  ZeroDivisionError for decay 1 is not told apart from ValueError; noise is an arbitrary sequence of numbers;
  the names in buffer_spreading_activation are names of buffers.  In simulations activations and latencies stay oracles.
* Random numbers, activations and latencies, the screen, Python code called by `!` actions and
  production compilation are oracles: theorems hold for all their values (records `oracle`,
  `rparams`, argument `act`).
* Rules are generator functions that yield the same two dictionaries at every call.  For rules made from
  strings this is so unless a value is the name of a chunk that is made or replaced in between
  (C83_names_refuted).
* Strings.v: characters are ASCII; what pyparsing does is taken from its source (the header of Strings.v says what);
  when makechunk raises, the changes it made before to counters and types are not returned.
* Chunks are values: assigning to attributes of a chunk after its creation is not modelled.
* A generator is a tree of steps (`gen`).  Runs (`runs`) let the rest of the program change the
  state, as far as `rely` allows, whenever the generator is suspended.  That the processes started
  by actions respect `rely` is theorem C09_requests_keep_bindings.
* simpy (not part of /repo): Sim.v models its event queue, events, timeouts, AnyOf, processes and
  interrupts from the documented behaviour of version 4.  The theorems about whole simulations (`Props_Sim.v`) rest on
  this part of the model.
* C84 assumes (`minds_own`) that Python code called by rules, visual search and encoding for one buffer change no other
  buffer, and (`shows_only`) that the environment changes nothing but the screen (C84_environment: so does env_process).
* C65 and the lifted C10, C17, C21, C39 assume that what is left open in simulations (Python code called by rules,
  visual search and encoding) changes buffers and memories only by calls of buffer methods and by making chunks
  (`respects`), and that the environment does not change the model (`aloof`, proved of environment.py).
* Environments: times are numbers, keys are ASCII text, and the lists of stimuli are not changed by the
  user while the environment runs.
* Vision: `externally_visible` names no control key of a stimulus but 'text'; `int()` reads decimal numerals
  without blanks and underscores, `float()` only integers; distances are compared squared; positions are
  pairs.  In simulations searching and encoding and the times of EMMA stay oracles; C41_location_buffer_partial is about those oracles that behave as `visual_find`
  (`sees`).
* Compilation: an exception in the closures of a compiled rule is raised when the rule is made, not when it is
  first evaluated; chunk types are not given other slots while rules are compiled.  In simulations compilation
  is an oracle; `compiles_with` says that it is `compile_rules`.
* Run.v: simpy's run(until) is modelled from its documentation; the urgent event that simpy itself puts into the queue at
  `until` is not numbered.  step() compares events in the model, which leave out chunks (two events at one time that
  differ only in their chunk are told apart by the code).  A simulation ended by an exception is not run again.
* Gui.v: the two threads do not overlap: when the user closes the window, the thread of the simulation ends its round before
  run() goes on.  Real time is left out, and exceptions in the code that draws are left out of Gui.v (see Window.v).  That an exception in
  a thread does not reach the main thread, and that SystemExit leaves tkinter's mainloop, is taken from Python's documentation.
* Window.v: the window is the one that has caught up with the queue.  The options that tkinter knows are a parameter; that it raises
  TclError for others is taken from its documentation.  Screens are compared without the names of their objects.
* Texts of events leave out chunks; printing, warnings and the circle for the focus are not modelled.
