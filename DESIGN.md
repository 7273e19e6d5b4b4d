# Formal model of drons/nbody in Rocq (Coq 8.16.1)

## 1. How the model is organised

Everything lives in `rocq/theories`, logical name `Verif`.

* `Num.v` – arithmetic. The code computes in `nbcoord_t` (`double` by default).
  The model is generic in a record `NumOps T` (add, sub, mul, div, neg, abs, sqrt,
  comparisons, constants). Three instances are used:
  * `R` (real numbers of the standard library) for the algebraic properties;
  * `SpecFloat` binary64 (pure Gallina IEEE-754 of the standard library) for
    floating-point witnesses;
  * `Z` for cheap, computable examples.
  A theorem stated for *every* `NumOps` holds bit for bit for IEEE doubles.
* `Model*.v` – definitions only, one per C++ component; every definition cites the
  file and lines in /repo it models and says where it simplifies.
* `Spec*.v` – the independent specifications (textbook sums, rooted trees, list of frames, ...).
* `Lem*.v` – proofs.
* `Prop*.v` – the property theorems, with
  `Print Assumptions` beneath and a concrete non-trivial `Example` beside it.

Memory: arrays are lists; every indexed access goes through an operation that returns an
error when the index is outside, so undefined behaviour (out-of-bounds access, use of an
unset neighbour list, division by a zero `size_t`) is a distinct outcome of the model
(`None`), never a default value. A loop whose termination is not structural runs on explicit
fuel and returns a distinct error when it is exhausted.

Concurrency (OpenMP): an iteration is a list of atomic memory actions; a parallel loop is any
interleaving of the iterations.

External code: Qt number printing/parsing, `std::nth_element`, the file system and the random
generator enter as universally quantified parameters (section variables that become explicit
premises of the theorems), with the assumed contract spelled out in the statement.

## 2. Properties: what is modelled and how each is proved

The statements are in `properties.jsonl`, the theorems in `MANIFEST.json`. A status of *partial* means that some
theorem carries the suffix `_partial` or `_refuted`; the manifest's note says what is missing or false.

| id | property | status | file | model and proof |
|----|----------|--------|------|-----------------|
| C01 | Pair force obeys Newton's third law and is central and softened | proved | `PropForce.v` | `force` over `NumOps`, at R; `field`/`ring` after case split on the softening test; positivity of `sqrt`; binary64: rounding commutes with the sign (`round_aux_opp`), multiplying by -G = -1 is exact (`minus_one`), the product of the masses commutes |
| C02 | Direct-sum engines exert no net force | proved | `PropForce.v`, `PropSolver.v` | `fcompute` of the direct engines as index loops over flat arrays; refine to the per-body sum, then antisymmetry of the pair term in the double sum |
| C03 | Direct-sum engines exert no net torque | proved | `PropForce.v` | `fcompute` of the direct engines as index loops over flat arrays; refine to the per-body sum, then antisymmetry of the pair term in the double sum |
| C04 | Every CPU engine computes the Newtonian right-hand side | proved | `PropForce.v` | same; loop invariants over indices, any arithmetic for the layout part |
| C05 | Parallel loops of the openmp engine are schedule independent | proved | `PropForce.v` | interleaving semantics of parallel loops; commutation of independent actions, induction on the interleaving |
| C06 | Block engine equals the simple engine on whole blocks | proved | `PropForce.v` | block engine loop with checked accesses; refinement to the pair sum; out-of-bounds witness for a count not divisible by 64 |
| C07 | Block engine is memory safe for every body count | partial | `PropForce.v` | block engine loop with checked accesses; refinement to the pair sum; out-of-bounds witness for a count not divisible by 64 |
| C08 | Ahmad-Cohen full recompute equals the direct sum, and an immediate sparse recompute reproduces it | proved | `PropForce.v` | AH engine with neighbour lists as state; partition of the sum by a boolean; reachable-state invariant; witness for resume |
| C09 | Ahmad-Cohen engine always has neighbour data before a sparse recompute | partial | `PropForce.v` | AH engine with neighbour lists as state; partition of the sum by a boolean; reachable-state invariant; witness for resume |
| C10 | Loading bodies into an engine and reading them back is lossless | proved | `PropBuffers.v` | init / get_data index maps; list extensionality, any arithmetic |
| C11 | Buffer primitives meet their documented element-wise contracts | proved | `PropBuffers.v` | buffer operations as index loops; element-wise characterisation, any arithmetic; witness for all-zero weights |
| C12 | fmaddn computes b + sum of weighted buffers | partial | `PropBuffers.v` | buffer operations as index loops; element-wise characterisation, any arithmetic; witness for all-zero weights |
| C13 | fmaxabs returns the largest absolute value | proved | `PropBuffers.v` | max loop, reduction over arbitrary partitions; induction; order properties at R |
| C14 | Clamping wraps positions into the periodic box | proved | `PropBuffers.v` | clamp; case analysis at R |
| C15 | Work-buffer allocation is all or nothing and leak free | proved | `PropBuffers.v` | allocation oracle (list of outcomes) and a heap of live buffers; induction over the request count |
| C16 | Compensated summation is exact when arithmetic is exact | proved | `PropBuffers.v` | Kahan step and range sum at R; invariant `sum - corr = exact sum` |
| C17 | Space-partition trees summarise their bodies correctly | proved | `PropTree.v` | abstract tree produced by the builders; `nth_element` = any function returning a permutation; structural induction; geometry of boxes at R |
| C18 | Barnes-Hut traversal counts every other body exactly once and never the body itself | proved | `PropTree.v` | abstract tree produced by the builders; `nth_element` = any function returning a permutation; structural induction; geometry of boxes at R |
| C19 | Tree layouts are interchangeable bit for bit | proved | `PropTree.v` | heap as checked array, stack machine, stackless walk; simulation against the structural preorder walk |
| C20 | Heap layout never writes outside its arrays | partial | `PropTree.v` | checked heap build; in-bounds iff power of two; witnesses |
| C21 | Stackless traversal terminates and follows preorder | proved | `PropTree.v` | heap as checked array, stack machine, stackless walk; simulation against the structural preorder walk |
| C22 | All build variants of the heap index step agree | proved | `PropTree.v` | `next_down` loop and bit-trick over Z/N with 32-bit truncation; bit lemmas; witness above 2^32 |
| C23 | The fixed traversal stack never overflows | proved | `PropTree.v` | heap as checked array, stack machine, stackless walk; simulation against the structural preorder walk |
| C24 | Barnes-Hut degenerates to the direct sum | proved | `PropTree.v` | abstract tree produced by the builders; `nth_element` = any function returning a permutation; structural induction; geometry of boxes at R |
| C25 | Refreshing a heap equals rebuilding it with the same leaf assignment | proved | `PropTree.v` | heap as checked array, stack machine, stackless walk; simulation against the structural preorder walk |
| C26 | Nested-tree traversal updates every body exactly once | partial | `PropTree.v` | visitor traversals; heap left over from an earlier run; structural induction; witness |
| C27 | Each step advances simulation time by exactly the step length | partial | `PropSolver.v` | solvers as state transformers over an abstract engine (state, clock, step counter, derivative function); symbolic execution of each `advise`; linear-functional invariance |
| C28 | Every solver conserves total momentum | proved | `PropSolver.v` | solvers as state transformers over an abstract engine (state, clock, step counter, derivative function); symbolic execution of each `advise`; linear-functional invariance |
| C29 | Every solver moves the centre of mass uniformly | proved | `PropSolver.v` | solvers as state transformers over an abstract engine (state, clock, step counter, derivative function); symbolic execution of each `advise`; linear-functional invariance |
| C30 | Adaptive subdivision covers the whole step | proved | `PropRk.v` | solvers as state transformers over an abstract engine (state, clock, step counter, derivative function); symbolic execution of each `advise`; linear-functional invariance |
| C31 | Adaptive steps respect the error threshold | proved | `PropRk.v` | solvers as state transformers over an abstract engine (state, clock, step counter, derivative function); symbolic execution of each `advise`; linear-functional invariance |
| C32 | Runge-Kutta tableaux satisfy the order conditions | proved | `PropOrder.v` | tableaux as exact rationals / quadratic surds; rooted trees as an inductive type; complete enumeration of rooted trees up to the order, lifted to all trees |
| C33 | Solvers have the order the README advertises | partial | `PropOrder.v` | tableaux as exact rationals / quadratic surds; rooted trees as an inductive type; complete enumeration of rooted trees up to the order, lifted to all trees |
| C34 | Adams solver uses the right history | proved | `PropRk.v` | solvers as state transformers over an abstract engine (state, clock, step counter, derivative function); symbolic execution of each `advise`; linear-functional invariance |
| C35 | Adams-Bashforth coefficients have the advertised order | proved | `PropRk.v` | coefficient rows over Q/R; linearity + monomials |
| C36 | Neville extrapolation eliminates even-power errors | proved | `PropExtrap.v` | extrapolators and `init_steps`; Neville identity by induction on the level |
| C37 | Berrut extrapolation is an affine combination | proved | `PropExtrap.v` | extrapolators and `init_steps`; Neville identity by induction on the level |
| C38 | Bulirsch-Stoer substep sequence | proved | `PropExtrap.v` | extrapolators and `init_steps`; Neville identity by induction on the level |
| C39 | A run reaches its end time | proved | `PropRun.v` | run loop as fuelled transition system over R; measure `ceil((T-t)/dt)`; float witness of non-termination |
| C40 | Output frames appear at the requested cadence | proved | `PropRun.v` | run loop as fuelled transition system over R; measure `ceil((T-t)/dt)`; float witness of non-termination |
| C41 | Stream round trip | proved | `PropStream.v` | files as byte lists, index lines as text, writer/reader as state machines, crash = prefix of the byte-level effects; invariant relating disk content to the frame history |
| C42 | Frames are never split between parts | proved | `PropStream.v` | files as byte lists, index lines as text, writer/reader as state machines, crash = prefix of the byte-level effects; invariant relating disk content to the frame history |
| C43 | A crash never makes an indexed frame unreadable | partial | `PropStream.v` | files as byte lists, index lines as text, writer/reader as state machines, crash = prefix of the byte-level effects; invariant relating disk content to the frame history |
| C44 | Resuming a stream continues it | proved | `PropStream.v` | files as byte lists, index lines as text, writer/reader as state machines, crash = prefix of the byte-level effects; invariant relating disk content to the frame history |
| C45 | Random access in a loaded stream | partial | `PropStream.v` | files as byte lists, index lines as text, writer/reader as state machines, crash = prefix of the byte-level effects; invariant relating disk content to the frame history |
| C46 | A stream writer object can be reused | partial | `PropStream.v` | files as byte lists, index lines as text, writer/reader as state machines, crash = prefix of the byte-level effects; invariant relating disk content to the frame history |
| C47 | A stream reader object can be reused | partial | `PropStream.v` | files as byte lists, index lines as text, writer/reader as state machines, crash = prefix of the byte-level effects; invariant relating disk content to the frame history |
| C48 | Text save/load round trip | proved | `PropData.v` | text tables, load/save, table operations; round-trip / induction over operations |
| C49 | A failed load is reported and bounded | proved | `PropData.v` | text tables, load/save, table operations; round-trip / induction over operations |
| C50 | Generated universes have whole blocks | proved | `PropData.v` | `round_up` with 64-bit wrap; arithmetic |
| C51 | Body table stays rectangular | proved | `PropData.v` | text tables, load/save, table operations; round-trip / induction over operations |
| C52 | State comparison is sound | proved | `PropData.v` | text tables, load/save, table operations; round-trip / induction over operations |
| C53 | Physics report measures what it says | proved | `PropBuffers.v` | proxies and summation at R; double-sum manipulation |
| C54 | Command-line arguments: last well-formed assignment wins | proved | `PropArgs.v` | parser over strings; induction over the argument list |
| C55 | Solver factory always answers | partial | `PropArgs.v` | factory as recursive function on fuel; non-termination for every fuel; termination otherwise |
| C56 | Multi-device synchronisation gives every device the whole vector | partial | `PropGpu.v` | exchange rounds over a family of device memories; invariant on aligned groups of devices |
| C57 | The rk4 solver is the classical tableau | proved | `PropRk.v` | solvers as state transformers over an abstract engine (state, clock, step counter, derivative function); symbolic execution of each `advise`; linear-functional invariance |
| C58 | Accepted clusters satisfy the accuracy criterion | proved | `PropTree.v` | abstract tree produced by the builders; `nth_element` = any function returning a permutation; structural induction; geometry of boxes at R |
| C59 | A reused Barnes-Hut heap engine behaves like a new one | partial | `PropTree.v` | visitor traversals; heap left over from an earlier run; structural induction; witness |
| C60 | The hand-written one-step solvers compute their textbook formula | proved | `PropRk.v` | solver steps at R with a pure right-hand side; symbolic execution to the textbook formula |
| C61 | A frame whose write returned is safe | partial | `PropStream.v` | stream writer with failing flushes; invariant on log prefixes |
| C62 | Different streams do not share files | partial | `PropStream.v` | file names as texts; lemma on decimal suffixes |
| C63 | Generated galaxies are what they are meant to be | proved | `PropData2.v` | generator with arbitrary random numbers; loop invariants at R |
| C64 | Box size of a loaded initial state | partial | `PropData2.v` | load_initial on any text; maximum scan, binary64 witnesses; names of units compared letter by letter up to case |
| C65 | Unit systems agree | partial | `PropData2.v` | unit factors at R; algebra of the force law |
| C66 | Zeno files are read exactly | partial | `PropData2.v` | zeno loader on any text; recursive-descent specification, exact acceptance condition |
| C67 | The engine factory builds the engine asked for | proved | `PropArgs.v` | engine factory on any argument list; case analysis against a separate table of types and defaults |
| C68 | GPU force evaluation equals Newton's law on every device under every schedule | partial | `PropGpuForce.v` | kernels in rounds between barriers, every interleaving; footprint disjointness, tile invariant, sum equals Newton's law at R |
| C69 | Implicit Runge-Kutta solvers | proved | `PropImplicit.v` | implicit stages; Gauss-Seidel sweeps, Banach contraction at R |
| C70 | A solver on several GPUs computes what it computes on the CPU | partial | `PropGpuOps.v` | client programs over device memories; simulation relation `assembled` preserved by every request |
| C71 | The Barnes-Hut engines on several GPUs compute what the Barnes-Hut engine computes on the CPU | partial | `PropGpuBH.v` | threads as programs, rounds, every interleaving; device copy of the tree represents the heap (C19) and the walks equal the recursive force at R; invariant over evaluations |
| C72 | A Bulirsch-Stoer step returns the extrapolation of the first level that settled | proved | `PropBS.v` | symbolic execution of the level loop; Neville's triangle proved equal to Lagrange's formula at 0; Stetter substeps from C60 |
| C73 | Which runs stay inside their arrays | partial | `PropSafe.v` | postcondition calculus over every solver's code (LemSafe) with a two-phase engine contract; crash lemmas for the first evaluation; reflection for the tables |
| C74 | The thread schedule never shows in a force evaluation | proved | `PropOmp.v` | footprints of each iteration (disjoint writes, reads outside them); the result of index order transfers to every schedule; tree invariants of C73 for the engine's life |
| C75 | The player shows and records the frames of the stream | partial | `PropPlayer.v` | invariant of reader and player over gestures and recordings on top of the stream theorems (C45) |
| C76 | Every body gets a colour from its speed | partial | `PropView.v` | the interpolation function evaluated at R on each interval; draw is defined iff every lookup is |
| C77 | View box and window layout | proved | `PropView.v` | fold lemmas for the box at R; integer layout by case analysis over Q splits |
| C78 | Recording to PNG files leaves every image in its file | partial | `PropCompressor.v` | QString::arg as a tokenizer; thread pool as an oracle for isFinished; permutation of writes |
| C79 | A resumed simulation continues as if it had never stopped | partial | `PropResume.v` | relational (two-execution) calculus over the solver steps; simulation of the resumed loop by the rest of the uninterrupted one; witnesses by computation |
| C80 | The simulation program does what its command line says, and resumes | partial | `PropMain.v` | composition of the verified parts through a relational argument over the writer, and the relational resume theorem; witnesses by computation |
| C81 | Feagin's methods have exactly the order the README gives | proved | `PropFeagin.v`, `PropFeagin14.v` | every rooted tree enumerated as a multiset of subtrees, its condition decided in ball arithmetic on native 63-bit integers proved sound over the reals; the enumeration proved complete |
| C82 | Every solver converges to the exact motion as the step shrinks | proved | `PropConv.v`, `PropConvArgs.v`, `PropMotion.v` | every accepted substep is a step of a consistent, Lipschitz one-step map (stages within O(h) of the slope of the solution); buffers carried between steps (adams history, correction, implicit guesses, Stetter's second vector) are within O(h) too; discrete Gronwall over the history; Lipschitz constant of the softened field computed explicitly; the motion itself by Picard iteration with the primitives of the standard library, uniqueness from the convergence of euler |
| C83 | The report measures quantities the motion conserves | partial | `PropInv.v`, `PropMotion.v` | derivative of each reported quantity along the motion is zero (third law, torque, power identity with a C1 softened potential glued at the minimum distance); Lipschitz bounds of the totals on bounded sets carry it to the runs of C82; harmonic swing inside the minimum distance as witness; C83_run combines it with the existence of the motion |
| C84 | How accurate the Barnes-Hut engines are | proved | `PropBHError.v` | a cluster accepted at the ratio r lies within 1/r of its distance to the body; replacing its bodies by the mass centre changes each softened attraction by first order in 1/r (Lipschitz bound of the softened law), by second order when the softening is inactive because the first moments cancel; the clusters of a walk partition the other bodies (C18), so the errors add up to the sizes of the attractions; carried to the other engines by the equalities of C19, C26 and C71 |
| C85 | Simulations with the Barnes-Hut engines converge to the exact motion | proved | `PropConvBH.v` | the convergence proof of C82 carried out for a family of right-hand sides within eps of a Lipschitz one (the perturbed side itself need not be continuous), with a constant uniform in the family; an engine with private state is simulated by the function it computes; the Barnes-Hut engines compute such a function because they build the tree anew, and C84 bounds its distance |
| C86 | A simulation does not depend on how it is described | proved | `PropSym.v` | a one-sided simulation between two runs for any relation between state vectors that the buffer operations respect (one lemma per solver, the same solver text on both sides); instantiated with the graph of a linear map, which all buffer operations respect by linearity; Newton's right-hand side commutes with relabelling (sums are re-indexed) and orthogonal maps (distances are kept); axis maps also keep the largest component, which is what the adaptive solvers look at |
| C87 | The blocks of a GPU force computation may run in any order and at the same time | proved | `PropGrid.v` | blocks as lists of rounds with private memory, a step relation that picks any thread of any block or lets a block pass its barrier; an invariant that keeps, for every block, a memory in which it would be alone (agreeing on its footprint), so each block's own theorem for every schedule carries over; footprints of the blocks are disjoint on the shared arrays by index arithmetic |
| C88 | A simulation does not depend on the origin of space or on its uniform motion | proved | `PropGalileo.v` | the simulation argument of C86 with another relation, "the two vectors differ by the same amounts for every body", which is closed under linear combinations (so every buffer operation respects it) and under the force; it says that the final states differ by some displacement and some velocity, and the conservation of impulse and the uniform motion of the mass centre (C28, C29), applied to both runs, say which |
| C89 | The player shows the errors that are numbers | partial | `PropOverlay.v` | invariants of the report state over every history of reports; binary64 facts about division by zero by case analysis; witnesses evaluated in the kernel |
| C90 | A step costs a known number of force evaluations | proved | `PropCost.v` | the counter is made part of the engine's private state and every solver is followed step by step; the recursion of the embedded methods is bounded by induction on its depth, the levels of Bulirsch-Stoer by induction on the levels left, and the age of a solver (what it has set up already) is an invariant of the sequence of steps; the last theorem is the simulation argument that a solver sees an engine only through its answers |
| C91 | A stream is loaded exactly when its index is well formed | proved | `PropIndex.v` | the specification is a relation between lines and frames that never splits a string: a line is the concatenation of four fields free of tabs; the splitting function is inverted once, the loop over the lines is an induction, and the relation is shown functional so that the equivalence determines the result; the totals are those of the last frame |
| C92 | The GPU engines use the devices the user names | partial | `PropDevices.v` | the texts are specified as words joined by separators; splitting is inverted once, the loops are inductions over the words and entries, and the bit trick for powers of two is an induction over the binary digits |
| C93 | Every body is visible in every picture of the player | partial | `PropCamera.v` | vectors over R: Cauchy's inequality and Lagrange's identity show that a camera that looks at the centre of a ball sees each point with depth and offsets bounded by the radius; the positions of the eyes enter only through their distance; the bodies are within a quarter of the diagonal of the widened box (C77); the edges of the box are a finite table over an arbitrary box |
| C94 | The factory makes the GPU engine the user asks for, with usable parameters | partial | `PropGpuArgs.v` | the relation of C67 between arguments and objects, extended by the GPU engines; devices by C92; by cases over the branches of the factory, in both directions |
| C95 | What new memory happens to contain never reaches the results | partial | `PropUninit.v` | two runs side by side on different memories; the relation says which buffers are equal between two steps (correction sums, derivatives of an Adams solver that were written, stages of an implicit method) and forgets the others |
| C96 | In floating point a mirrored simulation is the mirror image, bit by bit, and a flat system stays flat | proved | `PropMirror.v` | IEEE addition, subtraction, multiplication and division by a common factor map opposite numbers to opposite numbers, squares and absolute values of opposite numbers are equal; the relation is carried through every buffer operation, force loop and solver; the memory is exchanged by C95 |
| C97 | A reader delivers whole frames, also while the stream is being recorded | partial | `PropRead.v` | an invariant of the reader (open file and position are those of the current frame), kept by successful seeks and by reads that move on; slices of files by list arithmetic; witnesses by computation |
| C98 | A simulation does not depend on the time at which it starts | proved | `PropTime.v` | the relational theorem behind C86 and C96 with equality on states and any relation between times that adding a step keeps; equality of solver states recovered from the relation |
| C99 | The playback controls offer what can be done and go on from the frame that is shown | partial | `PropControl.v` | an invariant of all happenings relating the enabled buttons to the state of the animation; induction on the ticks; the frames shown are counted with a pigeonhole argument |
| C100 | A body without mass is a test body | partial | `PropMassless.v` | the relational theorem behind C86 and C96 with equality on the kept bodies and the full length of all buffers; zero-or-NaN is closed under what the pair force does with its first mass |
| C101 | A recorded video contains the pictures that were shown | partial | `PropVideo.v` | index arithmetic on concatenated lines of equal length; for the converse a black picture with bright padding |
| C102 | Errors that are not numbers are noticed | partial | `PropLost.v` | comparisons with NaN are false, so the maximum is that of the numbers alone, if it starts with one; a loop invariant for the benchmark; witnesses computed in binary64 |

None of the properties is declared inexpressible.

## 3. Trusted base

* Coq's kernel (8.16.1) and its `vm_compute` machine.
* The reading of the C++ text: the code is not executed here; each definition cites its source and
  says where it simplifies. Section 4 lists what is left out.
* The meaning given to things outside the code: Qt's text functions (`ModelText.v`), the file system
  (a function from names to byte lists, `ModelStream.v`), OpenMP loops and GPU kernels as interleavings of
  atomic reads and writes (`ModelParallel.v`, `ModelGpu*.v`), allocation (`ModelSolverBase.v`).
* Standard library axioms, as `Print Assumptions` lists them. No axiom is added by this development, no
  kernel check is switched off, and nothing is admitted. Axioms used:
  `ClassicalDedekindReals.sig_forall_dec`, `ClassicalDedekindReals.sig_not_dec`,
  `FunctionalExtensionality.functional_extensionality_dep` (all three come with the standard library's reals)
  and `Classical_Prop.classic` (from `Rcomplete` and lemmas on limits and trigonometry). C81, and C82_factory and C82_command_line through it, also use the
  kernel's native 63-bit integers (`PrimInt63`) and the standard library's axioms about them (`Uint63.add_spec`,
  `mul_spec`, `mulc_spec`, `lsl_spec`, `lsr_spec`, `ltb_spec`, `leb_spec`, `sub_spec`, `eqb_correct`, `of_to_Z`, ...).

What `Print Assumptions` prints for each theorem of the manifest:

* **No axioms** (`Closed under the global context`): `C01_third_law_binary64`, `C04_layout`, `C05_copy`, `C05_fill`, `C05_fmadd_inplace`, `C05_fmadd`, `C05_fcompute`, `C05_clamp`, `C05_fmaddn_corr`, `C07_block_safe_iff`, `C07_block_memory_safety_refuted`, `C09_neighbour_data_iff`, `C09_neighbour_data_refuted`, `C10_init_get_data`, `C11_copy`, `C11_fill`, `C11_read_write`, `C11_fmadd_inplace`, `C11_fmadd`, `C13_reduction_binary64`, `C15_create_buffers`, `C19_heap_equals_tree`, `C19_stackless_equals_tree`, `C19_stackless_gcc_equals_tree`, `C20_heap_bounds_iff`, `C20_heap_cells`, `C20_heap_bounds_refuted`, `C21_stackless_preorder`, `C21_stackless_gcc_preorder`, `C21_heap_preorder`, `C22_next_node`, `C22_variants_agree`, `C22_variants_undefined`, `C22_guard_needed`, `C23_tree_stack`, `C23_heap_stack`, `C23_stack_limit`, `C25_tree_rebuild`, `C25_heap_rebuild`, `C26_heap_nested`, `C26_tree_nested_any`, `C26_tree_nested_refuted`, `C27_time`, `C27_history`, `C27_bulirsch_stoer_steps`, `C27_bulirsch_stoer_steps_refuted`, `C31_threshold`, `C34_starter`, `C37_newest_unused`, `C38_sequence`, `C38_bulirsch_stoer`, `C38_good_counts`, `C39_binary64_endless`, `C40_outputs`, `C41_round_trip`, `C41_zero_box_not_loadable`, `C42_parts`, `C43_crash`, `C43_crash_resumed`, `C43_torn_line_refuted`, `C43_bogus_frame_refuted`, `C43_overwrite_refuted`, `C44_resume`, `C44_resumable`, `C44_resume_no_frame`, `C45_random_access`, `C45_seek_then_read`, `C45_refuted`, `C46_reuse_never_loads`, `C46_refuted`, `C47_unused_reader`, `C47_used_reader`, `C47_refuted`, `C48_round_trip`, `C48_exact`, `C49_load`, `C49_reports`, `C49_unopened`, `C49_lines`, `C50_round_up`, `C50_whole_blocks`, `C50_ends`, `C50_zero_wraps`, `C51_rectangular`, `C51_safe`, `C51_clock`, `C52_binary64`, `C52_nan_equals`, `C53_reference_fixed`, `C53_first_report`, `C53_last_values`, `C53_unasked`, `C54_last_wins`, `C54_default`, `C54_malformed`, `C54_total`, `C55_answers`, `C55_ends`, `C55_answers_refuted`, `C55_parameters`, `C56_accepted`, `C56_y`, `C56_f`, `C56_sum_covers`, `C56_host_y`, `C56_host_f`, `C56_refuted`, `C56_sum_float_refuted`, `C59_same_count`, `C59_smaller_count_refuted`, `C61_durable`, `C61_data_flush_refuted`, `C61_index_flush_refuted`, `C61_failed_part`, `C61_failed_header`, `C61_not_open`, `C62_names`, `C62_refuted`, `C64_inside_refuted`, `C64_nan_refuted`, `C64_defined_refuted`, `C64_types`, `C66_zeno`, `C66_numbers_refuted`, `C66_failed_refuted`, `C67_engine`, `C68_deterministic`, `C68_refuted`, `C68_uneven_refuted`, `C68_opencl_refuses`, `C70_clients`, `C70_tail_refuted`, `C70_max_refuted`, `C71_size_refuted`, `C71_rounding_refuted`, `C73_solver_safe`, `C73_command_line_refuted`, `C73_crash_cases_refuted`, `C74_every_call`, `C74_block`, `C74_ah_full`, `C74_ah_sparse`, `C74_bh_bodies`, `C74_heap_leaves`, `C75_shows_selected`, `C75_last_gesture`, `C75_first_frame_not_shown`, `C75_recording_complete`, `C75_start_refuted`, `C75_recording_refuted`, `C77_tiling`, `C77_double_click`, `C77_double_click_back`, `C78_names`, `C78_queue`, `C78_files`, `C78_refuted`, `C79_resume`, `C79_engines`, `C79_simple`, `C79_memory_refuted`, `C80_all_or_nothing`, `C80_refuses`, `C80_records`, `C80_parts`, `C80_resume`, `C80_clamp_refuted`, `C80_masses_refuted`, `C87_cuda`, `C87_opencl`, `C89_together`, `C89_without_P`, `C89_without_E`, `C89_shown_refuted`, `C89_finite_refuted`, `C90_cost`, `C90_exact`, `C90_multistep`, `C90_same_run`, `C91_load`, `C91_totals`, `C91_bad_line`, `C92_cuda`, `C92_opencl`, `C92_cuda_count_refuted`, `C92_opencl_again_refuted`, `C92_opencl_grows`, `C92_numbers`, `C94_engine`, `C94_plain`, `C94_block_size_refuted`, `C95_memory`, `C95_underflow_refuted`, `C96_mirror`, `C96_planar`, `C97_live`, `C97_when`, `C97_retry_refuted`, `C97_again_refuted`, `C97_masses_refuted`, `C97_closed_refuted`, `C98_any_time`, `C99_buttons`, `C99_jumps`, `C99_plays`, `C99_pause`, `C99_all_frames`, `C99_continue_refuted`, `C100_nan`, `C100_nan_openmp`, `C100_others_refuted`, `C101_inside`, `C101_pictures`, `C101_frames`, `C101_refuted`, `C102_max`, `C102_max_refuted`, `C102_step_refuted`, `C102_compare_refuted`.

* **`ClassicalDedekindReals.sig_forall_dec`**: `C69_solves`.

* **`Classical_Prop.classic`**: `C73_runs_iff`, `C73_size`.

* **`ClassicalDedekindReals.sig_forall_dec`, `FunctionalExtensionality.functional_extensionality_dep`**: `C82_no_defect`.

* **`ClassicalDedekindReals.sig_forall_dec`, `ClassicalDedekindReals.sig_not_dec`, `FunctionalExtensionality.functional_extensionality_dep`**: `C01_third_law`, `C01_central_softened`, `C02_simple_no_net_force`, `C02_block_no_net_force`, `C02_ah_no_net_force`, `C02_ah_run_no_net_force`, `C03_simple_no_net_torque`, `C03_block_no_net_torque`, `C03_ah_no_net_torque`, `C04_newtonian_rhs`, `C06_block_equals_simple`, `C08_full_and_immediate_sparse`, `C11_fmaddn_inplace`, `C11_fmaddn_corr`, `C12_fmaddn_with_base`, `C12_fmaddn_without_base`, `C12_fmaddn_zero_weights_refuted`, `C13_fmaxabs`, `C13_reduction`, `C14_clamp`, `C16_summation_scalar`, `C16_summation_vector`, `C16_summation_range`, `C17_tree_summaries`, `C17_heap_summaries`, `C18_exactly_once`, `C18_ratio_zero_self_attraction`, `C24_direct_sum`, `C24_heap_direct_sum`, `C26_tree_nested_run`, `C28_momentum_simple`, `C28_momentum_block`, `C28_momentum_ah`, `C29_centre_simple`, `C29_centre_block`, `C29_centre_ah`, `C29_tables_consistent`, `C30_cover`, `C30_replay`, `C30_tables`, `C32_rk4_order_4`, `C32_rkf_order_8`, `C32_rkck_order_4`, `C32_rkdp_order_4`, `C32_rkdverk_order_5`, `C32_row_sums`, `C33_rkf_order_7`, `C33_rkdverk_order_5`, `C33_first_rows`, `C33_second_rows`, `C33_orders_refuted`, `C34_history`, `C35_rows`, `C36_exact_for_polynomials`, `C36_error_estimate`, `C37_affine`, `C37_error_estimate`, `C39_run_ends`, `C39_run_ends_simple`, `C40_every`, `C40_spacing`, `C52_real`, `C52_laws`, `C53_totals`, `C56_sum`, `C56_host_sum`, `C57_rk4_textbook`, `C57_rk4_equals_tableau`, `C58_accuracy_criterion`, `C60_fixed_solvers`, `C63_galaxy`, `C63_universe`, `C64_box`, `C64_defined`, `C65_units`, `C65_softened_refuted`, `C68_cuda`, `C68_opencl`, `C69_fixed`, `C69_accepted`, `C69_unique_solution`, `C69_convergence`, `C69_tables`, `C70_clients_exact`, `C70_midpoint`, `C71_equals_cpu`, `C71_direct_sum`, `C72_result`, `C76_color`, `C76_frame`, `C76_refuted`, `C77_box`, `C77_box_fixed`, `C79_tables`, `C82_defect_stays`, `C83_reports`, `C83_energy_refuted`, `C84_first_order`, `C84_second_order`, `C84_nested`, `C84_heap`, `C84_gpu`, `C84_net_force`, `C84_limit`, `C86_symmetry`, `C86_relabel`, `C88_galileo`, `C88_block`, `C89_per_cent`, `C93_visible`, `C93_empty`, `C93_ports`, `C93_eyes`, `C93_box`, `C93_axes`, `C93_refuted`, `C93_scale`, `C95_factory`, `C95_command_line`, `C98_clock`, `C100_test_bodies`, `C100_field`, `C102_compare`.

* **`ClassicalDedekindReals.sig_forall_dec`, `ClassicalDedekindReals.sig_not_dec`, `Classical_Prop.classic`, `FunctionalExtensionality.functional_extensionality_dep`**: `C35_polynomials`, `C35_solver`, `C82_convergence`, `C82_newton`, `C82_limit`, `C82_motion`, `C82_settles`, `C82_agree`, `C83_motion`, `C83_apart`, `C83_drift`, `C83_run`, `C85_approximate`, `C85_tree`, `C85_heap`, `C85_limit`.

* **`ClassicalDedekindReals.sig_forall_dec`, `ClassicalDedekindReals.sig_not_dec`, `FunctionalExtensionality.functional_extensionality_dep`, `PrimInt63.add`, `PrimInt63.eqb`, `PrimInt63.int`, `PrimInt63.land`, `PrimInt63.leb`, `PrimInt63.lor`, `PrimInt63.lsl`, `PrimInt63.lsr`, `PrimInt63.ltb`, `PrimInt63.mul`, `PrimInt63.mulc`, `PrimInt63.sub`, `Uint63.add_spec`, `Uint63.eqb_correct`, `Uint63.eqb_refl`, `Uint63.leb_spec`, `Uint63.lor_spec`, `Uint63.lsl_spec`, `Uint63.lsr_spec`, `Uint63.ltb_spec`, `Uint63.mul_spec`, `Uint63.mulc_spec`, `Uint63.of_to_Z`, `Uint63.sub_spec`**: `C81_rkfeagin10`, `C81_rkfeagin12`, `C81_no_further`, `C81_rkfeagin14`, `C81_no_further14`, `C82_factory`.

* **`ClassicalDedekindReals.sig_forall_dec`, `ClassicalDedekindReals.sig_not_dec`, `Classical_Prop.classic`, `FunctionalExtensionality.functional_extensionality_dep`, `PrimInt63.add`, `PrimInt63.eqb`, `PrimInt63.int`, `PrimInt63.land`, `PrimInt63.leb`, `PrimInt63.lor`, `PrimInt63.lsl`, `PrimInt63.lsr`, `PrimInt63.ltb`, `PrimInt63.mul`, `PrimInt63.mulc`, `PrimInt63.sub`, `Uint63.add_spec`, `Uint63.eqb_correct`, `Uint63.eqb_refl`, `Uint63.leb_spec`, `Uint63.lor_spec`, `Uint63.lsl_spec`, `Uint63.lsr_spec`, `Uint63.ltb_spec`, `Uint63.mul_spec`, `Uint63.mulc_spec`, `Uint63.of_to_Z`, `Uint63.sub_spec`**: `C82_command_line`.

## 4. What is modelled and what is not

### Modelled

| source | model | left out |
|--------|-------|----------|
| `nbody/vertex.h` | `ModelVertex.v` | `vertex2`, `vertex4` and the Qt conversions (used by the player only) |
| `nbody/summation.h`, `summation_proxy.h` | `ModelSum.v` | – |
| `nbody/nbody_data.{h,cpp}` | `ModelForce.v`, `ModelStat.v`, `ModelData.v`, `ModelCount.v` | timers, printing |
| `nbody/nbody_data_stream.cpp`, `nbody_data_stream_reader.cpp` | `ModelStream.v`, `ModelText.v` | permissions and locking of files |
| `nbody/nbody_engine.{h,cpp}`, `nbody_engine_simple.cpp` | `ModelEngine.v`, `ModelSolverBase.v` | `dynamic_cast` checks, `print_info` |
| `nbody/nbody_engine_openmp.cpp` | `ModelParallel.v` | weak memory (excluded by race freedom) |
| `nbody/nbody_engine_block.cpp` | `ModelBlock.v`, `ModelOmpForce.v` (the parallel loop) | weak memory (excluded by race freedom) |
| `nbody/nbody_engine_ah.cpp` | `ModelAH.v`, `ModelOmpForce.v` (the parallel loops) | as above |
| `nbody/nbody_engine_simple_bh.cpp` | `ModelBH.v`, `ModelOmpForce.v` (the parallel loops), `ModelBHSolver.v` (the engines as right-hand sides of a solver, with the tree they keep between the evaluations) | as above; one traversal of the tree is one action (it only reads) |
| `nbody/nbody_space_tree.{h,cpp}` | `ModelTree.v` | the split is an arbitrary permutation (`std::nth_element`) |
| `nbody/nbody_space_heap*.{h,cpp}` | `ModelHeap.v` | – |
| `nbody/nbody_engine_cuda.cpp`, `nbody_engine_cuda_impl.cu` (dense kernels and buffer operations), `nbody_engine_opencl.cpp`, `nbody_engine_opencl.cl` (same) | `ModelGpu.v`, `ModelGpuForce.v`, `ModelGpuGrid.v`, `ModelGpuOps.v`, `ModelDevices.v` (the selection of devices) | NCCL branches, compilation, error codes, relaxed floating point, overflow of 32-bit indices, the clock (in the composed claims the blocks of one dense force grid run one after another; C87 proves that this loses nothing) |
| `nbody/nbody_engine_cuda_bh.cpp`, `nbody_engine_cuda_bh_tex.cpp`, `nbody_engine_opencl_bh.cpp`, the tree kernels of `nbody_engine_cuda_impl.cu` and `nbody_engine_opencl.cl` | `ModelGpuBH.v` | as above; index arithmetic in `nat` except `next_down`; device arrays exist from the start with unknown contents; `min`/`max` as in C++ |
| `nbody/nbody_solver.cpp` | `ModelRun.v` | printing |
| `nbody/nbody_solver_{euler,midpoint,midpoint_stetter,rk4,trapeze,adams,rk_butcher,bulirsch_stoer,stormer}.cpp` | `ModelSolver.v` | printing |
| `nbody/nbody_butcher_table.*`, `nbody_solver_{rkf,rkck,rkdp,rkdverk,rkgl,rklc}.cpp` | `ModelButcher.v` | – |
| `nbody/nbody_solver_rkfeagin{10,12,14}.cpp` | `ModelFeagin.v` | literals as exact decimals |
| `nbody/nbody_extrapolator.*` | `ModelExtrap.v` | wrap-around of `size_t` powers |
| `nbody/nbody_arg_parser.cpp`, `nbody_solvers.cpp`, `nbody_engines.cpp` | `ModelArgs.v`, `ModelGpuArgs.v` (builds with CUDA or OpenCL) | the switches `verbose` and `oclprof`; the program of `ModelMain.v` uses the CPU engines |
| the virtual calls of `nbody_engines.cpp` objects | `ModelObject.v` | every CPU engine object with its private state; OpenMP loops in index order (C74: any order gives the same) |
| `test/main/main.cpp` (the simulation program) | `ModelMain.v` | messages, `check_list`, failing allocation |
| `player/wgt_nbody_player.cpp`, timeline of `wgt_nbody_player_control.cpp` | `ModelPlayer.v` | everything but reading, selecting and recording; one recording at a time |
| `player/wgt_nbody_view.cpp`: colours, view box, viewports, double click, error lines, cameras, box | `ModelView.v`, `ModelOverlay.v`, `ModelCamera.v` | OpenGL and GLU themselves (`SpecCamera.v` states what gluLookAt and gluPerspective show), single precision of the arguments, blending |
| `player/wgt_nbody_player_control.cpp`: playback buttons, animation, timeline | `ModelControl.v` | the other widgets of the bar; Qt's animation is restated, its interpolation exact |
| `player/nbody_frame_compressor_opencv.cpp` | `ModelVideo.v` | the encoder of OpenCV; QImage's and cv::Mat's memory layouts are restated |
| `player/nbody_frame_compressor_image.cpp` | `ModelCompressor.v` | non-ASCII names; the file system is a directory predicate and a map from names to images |

Arithmetic: `nbcoord_t` is `double` (`nbtype.h`); theorems about `R` do not speak about rounding, theorems
about every `NumOps` hold bit for bit. `size_t` is `nat` unless a definition says otherwise (`round_up`,
`next_down` and the parser model the wrap-around).

### Not modelled

* `player/`: everything but what the rows above name (OpenGL, layout, labels and menus, the encoder of OpenCV), and `test/` but for `test/main/main.cpp` and `compare_data` of `test/bench/bench.h` (`ModelBench.v`).
* `nbtype_quad.h` (the `__float128` build), `nbtype_info.h`, `nbody_export.h`.
* Performance, memory consumption, signals, exceptions from allocation.
