{"id": "C01", "title": "Pair force obeys Newton's third law and is central and softened", "statement": "nbody_data::force(v1,v2,m1,m2) is exactly the negative of force(v2,v1,m2,m1), lies along the line joining the bodies, attracts for positive masses, equals G m1 m2/r^2 in magnitude whenever r^2 >= MinDistance, and never divides by zero: for coincident bodies it is the zero vector. (Real-number semantics.) In the program's own double arithmetic the two forces of a pair are still exactly opposite, for all positions (also overflowing or not a number) and masses, with zeros compared without their sign.", "quantifier": "all positions and all masses", "why_tests_cant": "Tests sample a few pairs; the law (and the absence of a division by zero) must hold for every pair of points including coincident and arbitrarily close ones.", "anchors": ["nbody/nbody_data.cpp: nbody_data::force", "nbody/vertex.h: vertex3", "nbody/nbtype.h: MinDistance"]}
{"id": "C02", "title": "Direct-sum engines exert no net force", "statement": "For every state vector, the derivative returned by fcompute of the simple and openmp engines, of the block engine (body count a multiple of 64) and of the ah engine on a full recompute satisfies sum_i mass_i * acceleration_i = 0, provided no mass is zero where the engine divides by it. (Real-number semantics.)", "quantifier": "all body counts, masses, positions and velocities", "why_tests_cant": "Conservation of momentum is a statement about all states; a test can only look at a few configurations and cannot distinguish a small leak from rounding noise.", "anchors": ["nbody/nbody_engine_simple.cpp: fcompute", "nbody/nbody_engine_openmp.cpp: fcompute", "nbody/nbody_engine_block.cpp: fcompute", "nbody/nbody_engine_ah.cpp: fcompute_full"]}
{"id": "C03", "title": "Direct-sum engines exert no net torque", "statement": "For every state vector the derivative returned by the direct-sum engines satisfies sum_i mass_i * (position_i x acceleration_i) = 0. (Real-number semantics.)", "quantifier": "all body counts, masses, positions and velocities", "why_tests_cant": "Same as C02: universally quantified over states.", "anchors": ["nbody/nbody_engine_simple.cpp: fcompute", "nbody/nbody_engine_block.cpp: fcompute"]}
{"id": "C04", "title": "Every CPU engine computes the Newtonian right-hand side", "statement": "fcompute of the simple engine writes, for each body i, d(position_i)/dt = velocity_i (bit for bit) and d(velocity_i)/dt = - sum over j != i of m_j (r_i - r_j) / max(|r_i - r_j|^2, MinDistance)^(3/2); it writes nothing outside the 6*count result cells and reads nothing outside the state and mass arrays.", "quantifier": "all body counts (including 0 and 1), all states, all previous contents of the result buffer", "why_tests_cant": "Index arithmetic on the structure-of-arrays layout must be right for every count; tests use two or three sizes.", "anchors": ["nbody/nbody_engine_simple.cpp: fcompute, init, problem_size"]}
{"id": "C05", "title": "Parallel loops of the openmp engine are schedule independent", "statement": "For every buffer operation and for fcompute, the openmp engine leaves in memory exactly (bit for bit) what the simple engine leaves, for every assignment of loop iterations to threads and every interleaving of their memory accesses.", "quantifier": "all thread counts, all schedules and interleavings, all inputs, any arithmetic", "why_tests_cant": "A test run exercises one schedule; a race may appear only under others.", "anchors": ["nbody/nbody_engine_openmp.cpp: fcompute, clamp, copy_buffer, fill_buffer, fmadd_inplace, fmadd, fmaddn_corr, fmaxabs"]}
{"id": "C06", "title": "Block engine equals the simple engine on whole blocks", "statement": "When the body count is a multiple of 64, fcompute of the block engine stays inside its arrays and returns the same derivative as the simple engine (real-number semantics, non-zero masses).", "quantifier": "all body counts that are multiples of 64, all states and masses", "why_tests_cant": "Block-boundary arithmetic must be right for every number of blocks.", "anchors": ["nbody/nbody_engine_block.cpp: fcompute"]}
{"id": "C07", "title": "Block engine is memory safe for every body count", "statement": "fcompute of the block engine never accesses memory outside the state, mass and result arrays, whatever the body count. (False: it holds exactly for multiples of 64.)", "quantifier": "all body counts", "why_tests_cant": "Out-of-bounds reads are silent; tests only use multiples of 64.", "anchors": ["nbody/nbody_engine_block.cpp: fcompute", "nbody/nbody_data.cpp: load"]}
{"id": "C08", "title": "Ahmad-Cohen full recompute equals the direct sum, and an immediate sparse recompute reproduces it", "statement": "For every neighbour radius and force threshold the ah engine's full recompute equals the simple engine's derivative, and a sparse recompute at the same positions right after a full one returns the same derivative. (Real-number semantics.)", "quantifier": "all states, masses, max_dist, min_force", "why_tests_cant": "The split into near and far sets depends on the state; tests cover one split.", "anchors": ["nbody/nbody_engine_ah.cpp: fcompute_full, fcompute_sparse"]}
{"id": "C09", "title": "Ahmad-Cohen engine always has neighbour data before a sparse recompute", "statement": "Starting from any engine initialised with any data, every sequence of force computations and step advances uses only neighbour lists that an earlier full recompute filled in. (False: it holds exactly when the first computation happens at a step that is a multiple of the full-recompute rate; a simulation resumed at another step reads past the end of empty arrays.)", "quantifier": "all histories of fcompute calls and step counters, all rates > 0", "why_tests_cant": "Tests always start at step 0.", "anchors": ["nbody/nbody_engine_ah.cpp: fcompute, fcompute_sparse", "test/main/main.cpp: resume"]}
{"id": "C10", "title": "Loading bodies into an engine and reading them back is lossless", "statement": "After init(data), get_data returns exactly the positions and velocities of data, for every count, and problem_size is 6*count; masses are unchanged.", "quantifier": "all data sets", "why_tests_cant": "Layout round trip must hold for all counts and values (NaNs included, bit for bit).", "anchors": ["nbody/nbody_engine_simple.cpp: init, get_data, problem_size", "nbody/nbody_engine_cuda.cpp: init, get_data"]}
{"id": "C11", "title": "Buffer primitives meet their documented element-wise contracts", "statement": "copy, fill, fmadd, fmadd_inplace, fmaddn_inplace, fmaddn_corr, read and write act element by element as documented (a=b, a=v, a=b+c*d, a+=b*c, a[i]+=sum_k b[k][i]*c[k]) on every cell of the state vector and change nothing else.", "quantifier": "all buffer contents, sizes and coefficients, any arithmetic", "why_tests_cant": "Element-wise contracts for every size and coefficient list.", "anchors": ["nbody/nbody_engine.h: doc comments", "nbody/nbody_engine.cpp: fmaddn_inplace, fmaddn, fmaddn_corr", "nbody/nbody_engine_simple.cpp"]}
{"id": "C12", "title": "fmaddn computes b + sum of weighted buffers", "statement": "fmaddn(a,b,c,d) leaves a[i] = b[i] + sum_k c[k][i]*d[k] (b taken as 0 when absent). (False when b is given and every weight is zero: then a keeps its old contents.)", "quantifier": "all buffers, all weight vectors including all-zero and empty ones", "why_tests_cant": "The all-zero weight vector is a corner case no test exercises.", "anchors": ["nbody/nbody_engine.h: fmaddn", "nbody/nbody_engine.cpp: fmaddn"]}
{"id": "C13", "title": "fmaxabs returns the largest absolute value", "statement": "For a non-empty buffer, fmaxabs returns a value that is the absolute value of some element and is >= the absolute value of each element; the parallel reduction returns the same for every division of the range among threads.", "quantifier": "all non-empty buffers, all divisions of the loop among threads", "why_tests_cant": "Universal over contents and schedules.", "anchors": ["nbody/nbody_engine_simple.cpp: fmaxabs", "nbody/nbody_engine_openmp.cpp: fmaxabs"]}
{"id": "C14", "title": "Clamping wraps positions into the periodic box", "statement": "clamp(y,b) changes each coordinate of each position only by an integer multiple of 2b, brings every coordinate within [-3b,3b] into [-b,b], leaves coordinates already in [-b,b] and all velocities untouched, and is idempotent on wrapped states. (Real-number semantics.)", "quantifier": "all states, all b >= 0", "why_tests_cant": "Universal over coordinates; the double test (first > b, then < -b) must not double-wrap.", "anchors": ["nbody/nbody_engine_simple.cpp: clamp", "nbody/nbody_engine_openmp.cpp: clamp", "nbody/nbody_engine_cuda_impl.cu: kclamp_coord"]}
{"id": "C15", "title": "Work-buffer allocation is all or nothing and leak free", "statement": "create_buffers either returns the requested number of live buffers or, at whichever allocation fails, returns none and has freed everything it had allocated.", "quantifier": "all request sizes, every point at which allocation can fail", "why_tests_cant": "Needs every failure point.", "anchors": ["nbody/nbody_engine.cpp: create_buffers, free_buffers"]}
{"id": "C16", "title": "Compensated summation is exact when arithmetic is exact", "statement": "summation over a range equals the mathematical sum of that range (0 for an empty range), each element counted exactly once, and the compensation term is the exact difference between the running result and the true sum. (Real-number semantics.)", "quantifier": "all sequences, all sub-ranges", "why_tests_cant": "Universal over sequences and ranges.", "anchors": ["nbody/summation.h: summation_k, summation", "nbody/nbody_engine_simple.cpp: fmaddn_corr"]}
{"id": "C17", "title": "Space-partition trees summarise their bodies correctly", "statement": "After building (tree or heap layout), every node's mass is the sum of its bodies' masses, its centre is their centre of mass, its box encloses them, and every one of its bodies lies within the node radius of its centre; the root covers every body exactly once. (Real-number semantics, positive masses.)", "quantifier": "all body sets, all split orders allowed by std::nth_element", "why_tests_cant": "nth_element leaves the order of each half unspecified: all permutations must work.", "anchors": ["nbody/nbody_space_tree.cpp: build, update", "nbody/nbody_space_heap.cpp: build_p, update"]}
{"id": "C18", "title": "Barnes-Hut traversal counts every other body exactly once and never the body itself", "statement": "With distance-to-radius ratio >= 1, the clusters whose forces are added up for a body are disjoint, contain every body at a different position exactly once, and contain neither the body itself nor a body at the same position (whose force is zero), for every tree and layout. (Real-number semantics, positive masses. With ratio 0, the default of the engine classes, a body attracts itself.)", "quantifier": "all body sets, all trees the builder can produce, all ratios >= 1", "why_tests_cant": "Coverage is a statement about every tree.", "anchors": ["nbody/nbody_space_tree.cpp: traverse", "nbody/nbody_space_heap.cpp: traverse", "nbody/nbody_space_heap_stackless.cpp"]}
{"id": "C19", "title": "Tree layouts are interchangeable bit for bit", "statement": "For a power-of-two body count, the tree, heap and stackless-heap layouts accept the same clusters in the same order and hence return bit-identical forces, for any arithmetic.", "quantifier": "all body sets of power-of-two size, any arithmetic (so in particular IEEE doubles), all ratios", "why_tests_cant": "Tests compare with a tolerance on a few sets.", "anchors": ["nbody/nbody_space_tree.cpp", "nbody/nbody_space_heap.cpp", "nbody/nbody_space_heap_stackless.cpp"]}
{"id": "C20", "title": "Heap layout never writes outside its arrays", "statement": "Building the heap layout for n >= 1 bodies touches only indices inside its 2n-element arrays and places every body in exactly one of the cells n..2n-1. (False: it holds exactly when n is a power of two.)", "quantifier": "all body counts", "why_tests_cant": "Out-of-bounds writes are silent; tests use powers of two.", "anchors": ["nbody/nbody_space_heap.cpp: build, build_p", "nbody/nbody_data.cpp: make_universe"]}
{"id": "C21", "title": "Stackless traversal terminates and follows preorder", "statement": "From any accept/reject decisions the stackless walk ends after finitely many steps back at the root and visits exactly the nodes a recursive preorder walk would visit, in the same order.", "quantifier": "all heap sizes that are twice a power of two, all accept predicates", "why_tests_cant": "A wrong skip rule loops forever or skips subtrees only for some shapes.", "anchors": ["nbody/nbody_space_heap_stackless.cpp: traverse", "nbody/nbody_space_heap_func_priv.h: next_up, skip_idx"]}
{"id": "C22", "title": "All build variants of the heap index step agree", "statement": "For every node index >= 1 whose low 32 bits are not all ones, the bit-trick (gcc, CUDA) and loop variants of the 'next node' index function compute the same index; an index written in binary as 2m followed by ones has next node 2m+1, which is the root for m = 0. For an index whose low 32 bits are all ones the bit-trick variants are undefined.", "quantifier": "all node indices", "why_tests_cant": "Indices beyond 2^32 are out of reach of tests.", "anchors": ["nbody/nbody_space_heap_func_priv.h: next_down"]}
{"id": "C23", "title": "The fixed traversal stack never overflows", "statement": "During any traversal of a tree with n bodies the explicit stack holds at most depth+1 entries, so the fixed 64-entry stack suffices for every n that fits in memory (n <= 2^63), and no smaller bound on the depth is enough: 2^64 bodies overflow it.", "quantifier": "all body counts up to 2^63, all accept predicates", "why_tests_cant": "Worst case depends on all accept patterns.", "anchors": ["nbody/nbody_space_tree.cpp: traverse", "nbody/nbody_space_heap.cpp: traverse"]}
{"id": "C24", "title": "Barnes-Hut degenerates to the direct sum", "statement": "If the ratio is at least 1 and at least 2*dmax/dmin, where dmax bounds the distances of the bodies and dmin bounds the non-zero ones from below, the Barnes-Hut engines return exactly the Newtonian right-hand side. (Real-number semantics, positive masses; bodies may coincide.)", "quantifier": "all body sets and all sufficiently large ratios", "why_tests_cant": "Universal over states.", "anchors": ["nbody/nbody_engine_simple_bh.cpp: space_subdivided_fcompute"]}
{"id": "C25", "title": "Refreshing a heap equals rebuilding it with the same leaf assignment", "statement": "After bodies moved, rebuild leaves in every node (indices 1..2n-1) exactly the data a full build with the same assignment of bodies to leaves would compute, for any arithmetic.", "quantifier": "all moves, all power-of-two counts, any arithmetic", "why_tests_cant": "Level-by-level bottom-up order must be right for all sizes.", "anchors": ["nbody/nbody_space_heap.cpp: rebuild, update", "nbody/nbody_space_tree.cpp: rebuild"]}
{"id": "C26", "title": "Nested-tree traversal updates every body exactly once", "statement": "The nested-tree traverse type calls the force routine exactly once for every body. (False for the tree layout when an internal node has zero critical radius, e.g. ratio 0 or coincident siblings: it then treats the node as a leaf and uses an invalid body index.)", "quantifier": "all trees, ratios and layouts", "why_tests_cant": "Needs degenerate trees.", "anchors": ["nbody/nbody_space_tree.h: visitor traverse", "nbody/nbody_space_heap.h: visitor traverse"]}
{"id": "C27", "title": "Each step advances simulation time by exactly the step length", "statement": "One advise(dt) of every solver in the factory leaves engine time = previous time + dt (a single addition for the fixed-step solvers) and increases the step counter by one. (False for the step counter of Bulirsch-Stoer: it grows by one plus the number of all substeps.)", "quantifier": "all solvers, states, dt and solver parameters", "why_tests_cant": "Adaptive control flow depends on the data.", "anchors": ["nbody/nbody_solver_*.cpp: advise", "nbody/nbody_engine_simple.cpp: advise_time"]}
{"id": "C28", "title": "Every solver conserves total momentum", "statement": "With a direct-sum engine, any number of advise calls of any explicit, implicit, multistep, adaptive or extrapolating solver leaves sum_i m_i v_i unchanged, whatever step sizes, thresholds, refinement counts and recursion limits are used. (Real-number semantics.)", "quantifier": "all solvers, parameters, states, step sequences", "why_tests_cant": "Conservation over unbounded runs and all control-flow paths.", "anchors": ["nbody/nbody_solver_euler.cpp", "nbody/nbody_solver_midpoint.cpp", "nbody/nbody_solver_midpoint_stetter.cpp", "nbody/nbody_solver_rk4.cpp", "nbody/nbody_solver_trapeze.cpp", "nbody/nbody_solver_adams.cpp", "nbody/nbody_solver_rk_butcher.cpp", "nbody/nbody_solver_bulirsch_stoer.cpp"]}
{"id": "C29", "title": "Every solver moves the centre of mass uniformly", "statement": "With a direct-sum engine, one advise(dt) of any one-step solver moves sum_i m_i r_i by exactly dt * sum_i m_i v_i. (Real-number semantics; solvers whose weights sum to one.)", "quantifier": "all one-step solvers, states and dt", "why_tests_cant": "Universal over states and control-flow paths.", "anchors": ["nbody/nbody_solver_*.cpp: advise"]}
{"id": "C30", "title": "Adaptive subdivision covers the whole step", "statement": "For an embedded Runge-Kutta solver the accepted substeps of one advise(dt) are contiguous, start at the current time, sum to exactly dt, never recurse deeper than max_recursion, and there are at most substep_subdivisions^max_recursion of them. (Real-number semantics; substep_subdivisions >= 1.)", "quantifier": "all error outcomes (every pattern of accepted and rejected substeps), all parameters", "why_tests_cant": "Every accept/reject pattern must be covered.", "anchors": ["nbody/nbody_solver_rk_butcher.cpp: advise, sub_step"]}
{"id": "C31", "title": "Adaptive steps respect the error threshold", "statement": "Every substep an embedded Runge-Kutta solver accepts either has estimated error <= error_threshold, or is at the recursion limit, or is not longer than min_step.", "quantifier": "all states and parameters", "why_tests_cant": "Universal over error outcomes.", "anchors": ["nbody/nbody_solver_rk_butcher.cpp: sub_step"]}
{"id": "C32", "title": "Runge-Kutta tableaux satisfy the order conditions", "statement": "The weights each tableau solver actually steps with satisfy all rooted-tree order conditions up to the stated order: rk4 4, rkf 7, rkck 4, rkdp 4, rkdverk 5, and the row sums of every tableau equal its nodes. (Exact-arithmetic reading of the coefficients.)", "quantifier": "all rooted trees of order up to the stated one", "why_tests_cant": "A single wrong coefficient only lowers the observed order slightly; tests compare final errors with tolerances.", "anchors": ["nbody/nbody_butcher_table.cpp", "nbody/nbody_solver_rkf.cpp", "nbody/nbody_solver_rkck.cpp", "nbody/nbody_solver_rkdp.cpp", "nbody/nbody_solver_rkdverk.cpp"]}
{"id": "C33", "title": "Solvers have the order the README advertises", "statement": "The weights used for stepping reach the advertised order: rkck 5, rkdp 5, rkgl 6, rklc 4, rkdverk 5, rkf 7. (False for rkck, rkdp, rkgl and rklc: the code steps with the second, lower-order row.)", "quantifier": "all rooted trees up to the advertised order", "why_tests_cant": "Order is a statement about a limit.", "anchors": ["README.md", "nbody/nbody_solver_rk_butcher.cpp: sub_step", "nbody/nbody_solver_rkgl.cpp", "nbody/nbody_solver_rklc.cpp", "nbody/nbody_solver_rkck.cpp", "nbody/nbody_solver_rkdp.cpp"]}
{"id": "C34", "title": "Adams solver uses the right history", "statement": "After the starter phase an Adams-Bashforth solver of rank r computes y + dt * sum_k a_k f_{n-k} with f_{n-k} the derivative evaluated k steps ago, for every number of steps, in spite of the ring buffer; before that it takes starter steps.", "quantifier": "all ranks 1..5, all step counts", "why_tests_cant": "Ring-buffer indexing must be right at every phase of every long run.", "anchors": ["nbody/nbody_solver_adams.cpp: advise, sub_advise, reset"]}
{"id": "C35", "title": "Adams-Bashforth coefficients have the advertised order", "statement": "For each rank r in 1..5 the coefficient row integrates every polynomial of degree < r exactly over one step.", "quantifier": "all polynomials of degree < r, all step sizes and times", "why_tests_cant": "Universal over polynomials.", "anchors": ["nbody/nbody_solver_adams.cpp: coefficient tables"]}
{"id": "C36", "title": "Neville extrapolation eliminates even-power errors", "statement": "Feeding k+1 approximations that are a polynomial of degree <= k in h^2, with distinct substep counts, the extrapolated result is exactly the value at h = 0, for each component. (Real-number semantics.)", "quantifier": "all polynomials, all strictly increasing substep sequences, all levels", "why_tests_cant": "Universal over polynomials and levels; the two-table swap must be right at each level.", "anchors": ["nbody/nbody_extrapolator.cpp: nbody_extrapolator_neville"]}
{"id": "C37", "title": "Berrut extrapolation is an affine combination", "statement": "The Berrut extrapolator's weights sum to one, so identical inputs are reproduced and linear invariants shared by all inputs are preserved. (Real-number semantics.)", "quantifier": "all substep sequences with non-vanishing weight sum, all levels", "why_tests_cant": "Universal over levels.", "anchors": ["nbody/nbody_extrapolator.cpp: nbody_extrapolator_berrut"]}
{"id": "C38", "title": "Bulirsch-Stoer substep sequence", "statement": "The substep counts used by the Bulirsch-Stoer solver are strictly increasing, even and positive for every level, so extrapolation never divides by zero.", "quantifier": "all max_level values", "why_tests_cant": "Universal over table size.", "anchors": ["nbody/nbody_solver_bulirsch_stoer.cpp: init_steps"]}
{"id": "C39", "title": "A run reaches its end time", "statement": "run(max_time) of a fixed-step solver with dt > 0 terminates, takes exactly ceil((max_time - t0)/dt) steps and ends with max_time <= time < max_time + dt. (Real-number semantics; in floating point it may loop forever once dt is absorbed.)", "quantifier": "all start times, end times and step sizes", "why_tests_cant": "Termination for all inputs.", "anchors": ["nbody/nbody_solver.cpp: run"]}
{"id": "C40", "title": "Output frames appear at the requested cadence", "statement": "During run, a frame is written initially only when nothing was dumped before, then whenever dump_dt has elapsed since the previous dump (within a tenth of a step), never twice for one step, and a failed write stops the run with an error.", "quantifier": "all run lengths, dump and check intervals, all write outcomes", "why_tests_cant": "Universal over run lengths.", "anchors": ["nbody/nbody_solver.cpp: run"]}
{"id": "C41", "title": "Stream round trip", "statement": "Whatever sequence of frames is written to a stream, with any part size, loading it yields the same number of frames, the same step numbers, times (as printed) and, frame by frame, bit-identical positions and velocities, masses and colours.", "quantifier": "all frame sequences, body counts >= 1, box sizes >= 1, part sizes", "why_tests_cant": "Universal over histories; part rotation happens only for long ones.", "anchors": ["nbody/nbody_data_stream.cpp: write, open", "nbody/nbody_data_stream_reader.cpp: load, read, seek"]}
{"id": "C42", "title": "Frames are never split between parts", "statement": "Every frame lies entirely inside one part file; a part is closed only when it reached the maximum part size, so each part holds at most max_part_size plus one frame; with no maximum, there is one part.", "quantifier": "all frame sequences and part sizes", "why_tests_cant": "Universal over histories.", "anchors": ["nbody/nbody_data_stream.cpp: write"]}
{"id": "C43", "title": "A crash never makes an indexed frame unreadable", "statement": "If the process stops at any point while writing, every frame whose index line is complete on disk is entirely on disk and is read back bit-identically.", "quantifier": "all crash points (any prefix of the byte-level writes, torn writes included), all histories", "why_tests_cant": "Crash points cannot be enumerated by tests.", "anchors": ["nbody/nbody_data_stream.cpp: write"]}
{"id": "C44", "title": "Resuming a stream continues it", "statement": "Appending to an existing stream leaves all old frames readable and adds the new frames after them, exactly as if the writer had never been closed (up to a different part layout).", "quantifier": "all histories and split points, trailing garbage from an interrupted write included", "why_tests_cant": "Universal over split points.", "anchors": ["nbody/nbody_data_stream.cpp: open (append)", "nbody/nbody_data_stream_reader.cpp: get_last_file_n", "test/main/main.cpp"]}
{"id": "C45", "title": "Random access in a loaded stream", "statement": "seek(n) followed by read returns frame n for every frame number and every previous sequence of seeks and reads; sequential reads return consecutive frames. (False: after the last frame was read, seeking to it again fails to re-read it.)", "quantifier": "all interleavings of seek and read", "why_tests_cant": "Universal over operation histories.", "anchors": ["nbody/nbody_data_stream_reader.cpp: seek, read"]}
{"id": "C46", "title": "A stream writer object can be reused", "statement": "Opening a second stream with the same writer object produces a loadable stream. (False: the header is written only for the first.)", "quantifier": "all histories of open/write/close", "why_tests_cant": "Tests use a fresh object each time.", "anchors": ["nbody/nbody_data_stream.cpp: open, write, close"]}
{"id": "C47", "title": "A stream reader object can be reused", "statement": "Loading another stream with the same reader yields that stream's masses, colours and sizes. (False: masses and colours are not re-read.)", "quantifier": "all histories of load/read/close", "why_tests_cant": "Tests use a fresh object each time.", "anchors": ["nbody/nbody_data_stream_reader.cpp: load, close, read"]}
{"id": "C48", "title": "Text save/load round trip", "statement": "Saving a body table and loading it back reproduces count, positions, velocities, masses and radii up to the rounding of the number printer, for every body set, when loaded with mass factor 1.", "quantifier": "all body sets", "why_tests_cant": "Universal over tables.", "anchors": ["nbody/nbody_data.cpp: save, load"]}
{"id": "C49", "title": "A failed load is reported and bounded", "statement": "load returns false exactly when the file cannot be opened or some non-comment line has fewer than seven columns or an unparsable number; if the file cannot be opened the data is untouched, otherwise the data holds exactly the bodies of the lines before the first bad one.", "quantifier": "all texts", "why_tests_cant": "Universal over file contents.", "anchors": ["nbody/nbody_data.cpp: load"]}
{"id": "C50", "title": "Generated universes have whole blocks", "statement": "round_up(n, f) is the least multiple of f that is >= n for n >= 1; make_universe(n) creates exactly 2*round_up(n,64) bodies, so the block engine accepts it. (For n = 0 the count wraps around.)", "quantifier": "all star counts", "why_tests_cant": "Universal over counts, wrap-around included.", "anchors": ["nbody/nbody_data.cpp: round_up, add_galaxy, make_universe"]}
{"id": "C51", "title": "Body table stays rectangular", "statement": "After any sequence of add_body, resize and clear, positions, velocities, masses, radii and colours have the same length, equal to get_count.", "quantifier": "all operation histories", "why_tests_cant": "Universal over histories.", "anchors": ["nbody/nbody_data.cpp: resize, add_body, clear"]}
{"id": "C52", "title": "State comparison is sound", "statement": "is_equal(eps) is reflexive and symmetric, monotone in eps, and false when counts differ; for non-NaN data it holds exactly when every compared coordinate differs by at most eps. (NaN compares equal to everything.)", "quantifier": "all data sets and tolerances", "why_tests_cant": "Universal over data.", "anchors": ["nbody/nbody_data.cpp: is_equal"]}
{"id": "C53", "title": "Physics report measures what it says", "statement": "The reported total impulse, mass centre, angular momentum, kinetic and potential energy equal the textbook sums (each unordered pair counted once in the potential energy). (Real-number semantics.)", "quantifier": "all body sets", "why_tests_cant": "Universal over body sets.", "anchors": ["nbody/summation_proxy.h", "nbody/nbody_data.cpp: get_* , print_statistics"]}
{"id": "C54", "title": "Command-line arguments: last well-formed assignment wins", "statement": "For every argument list, looking up a key returns the value of the last argument of the exact form --key=value with that key, and the default if there is none; malformed arguments have no effect.", "quantifier": "all argument lists", "why_tests_cant": "Universal over lists.", "anchors": ["nbody/nbody_arg_parser.cpp"]}
{"id": "C55", "title": "Solver factory always answers", "statement": "Creating a solver from any argument list terminates and returns a solver of the requested type or nothing for an unknown type. (False: solver=adams with starter_solver=adams recurses without end.)", "quantifier": "all argument lists", "why_tests_cant": "Universal over argument lists.", "anchors": ["nbody/nbody_solvers.cpp: nbody_create_solver"]}
{"id": "C56", "title": "Multi-device synchronisation gives every device the whole vector", "statement": "After the pairwise exchange every device holds every device's slice of the state vector, and after the summing exchange every device holds the sum of all devices' vectors, when the number of devices is a power of two. (The CUDA engine also accepts other numbers, for which it is false.)", "quantifier": "all device counts, all contents", "why_tests_cant": "Needs machines with many devices.", "anchors": ["nbody/nbody_engine_cuda.cpp: synchronize_y, synchronize_f, synchronize_sum", "nbody/nbody_engine_opencl.cpp: synchronize_y, synchronize_f, synchronize_sum"]}
{"id": "C57", "title": "The rk4 solver is the classical tableau", "statement": "One advise of the hand-written rk4 solver computes y + dt/6 (k1 + 2 k2 + 2 k3 + k4) with the classical stages and equals one non-adaptive step of the tableau solver with the rk4 tableau. (Real-number semantics.)", "quantifier": "all right-hand sides and states", "why_tests_cant": "Universal over right-hand sides.", "anchors": ["nbody/nbody_solver_rk4.cpp: advise", "nbody/nbody_solver_rk_butcher.cpp: sub_step", "nbody/nbody_butcher_table.cpp"]}
{"id": "C58", "title": "Accepted clusters satisfy the accuracy criterion", "statement": "Every cluster the Barnes-Hut traversal uses in aggregated form for a body is farther from it than ratio times the cluster radius, and all bodies of the cluster lie within that radius of the aggregated mass. (Real-number semantics, positive masses.)", "quantifier": "all body sets, trees, ratios", "why_tests_cant": "Universal over trees.", "anchors": ["nbody/nbody_space_tree.cpp: traverse, update", "nbody/nbody_space_heap.cpp: traverse, update"]}
{"id": "C59", "title": "A reused Barnes-Hut heap engine behaves like a new one", "statement": "An evaluation that rebuilds the heap from scratch depends only on the current bodies, not on what the engine computed before. (False: after a run with more bodies the cells that become leaves keep their old radii, so close forces are dropped; true for the same power-of-two count.)", "quantifier": "all earlier uses of the engine", "why_tests_cant": "Tests create a new engine for every run.", "anchors": ["nbody/nbody_space_heap.cpp: build, build_p", "nbody/nbody_engine_simple_bh.cpp: space_subdivided_fcompute"]}
{"id": "C60", "title": "The hand-written one-step solvers compute their textbook formula", "statement": "After any history of step lengths the state of euler, midpoint, midpoint-st (Stetter), rk4 and trapeze is the composition of the textbook steps at the accumulated times; the trapezoidal rule evaluates both derivatives at the start time of the step. (Real-number semantics.)", "quantifier": "all right-hand sides, states and histories", "why_tests_cant": "Universal over right-hand sides and run lengths; reuse of buffers between steps only shows in long runs.", "anchors": ["nbody/nbody_solver_euler.cpp: advise", "nbody/nbody_solver_midpoint.cpp: advise", "nbody/nbody_solver_midpoint_stetter.cpp: advise", "nbody/nbody_solver_rk4.cpp: advise", "nbody/nbody_solver_trapeze.cpp: advise"]}
{"id": "C61", "title": "A frame whose write returned is safe", "statement": "Once write has returned 0, and without closing anything, the stream replays up to and including that frame. (True if the disk takes what it is given; false otherwise, because the results of the flushes are ignored: write returns 0 although the data, or the index and with it every later frame, never reached the disk.)", "quantifier": "all frame sequences and part sizes; all disk failures", "why_tests_cant": "Needs disk failures and observation by another process.", "anchors": ["nbody/nbody_data_stream.cpp: write"]}
{"id": "C62", "title": "Different streams do not share files", "statement": "Two streams with different base names have no file in common. (False: part 10 of stream run is part 0 of stream run1; it is true unless one name is the other followed by digits.)", "quantifier": "all pairs of base names, all part numbers", "why_tests_cant": "Universal over names.", "anchors": ["nbody/nbody_data_stream.cpp: make_idx_name, make_dat_name, make_col_name, make_mass_name"]}
{"id": "C63", "title": "Generated galaxies are what they are meant to be", "statement": "Whenever add_galaxy ends it has added a hole with 999/1000 of the total mass at the centre and round_up(n,64)-1 stars of equal mass that share the rest, so the added mass is the total mass; every star lies in the flattened ball, moves at right angles to its offset from the centre, and has the speed of a circular orbit around the mass inside its distance. make_universe gives two such galaxies of mass 1000 around the ends of the middle line of the box, drifting in opposite directions with 9u^2 = 1000/sx. (Real-number semantics.)", "quantifier": "all generators, sizes, masses, star counts", "why_tests_cant": "Universal over random sequences and parameters; a test sees one seed.", "anchors": ["nbody/nbody_data.cpp: add_galaxy, make_universe"]}
{"id": "C64", "title": "Box size of a loaded initial state", "statement": "After load_initial succeeds, box_size is the largest coordinate (but at least 1) rounded down, so every coordinate is below box_size + 1 and box_size is 1 or at most some coordinate; all bodies lie inside [-box, box]; the result is defined for every loadable file. (The last two fail: negative coordinates are ignored, a NaN hides earlier coordinates, a coordinate >= 2^64 makes the conversion undefined.)", "quantifier": "all files, all formats", "why_tests_cant": "Universal over file contents.", "anchors": ["nbody/nbody_data.cpp: load_initial"]}
{"id": "C65", "title": "Unit systems agree", "statement": "For bodies further apart than the softening length in both unit systems, the acceleration computed from ADK data (au, day, kg) is the acceleration computed from the same bodies in SI data, converted by day^2/au; for softened pairs it is not. (Real-number semantics.)", "quantifier": "all positions and masses", "why_tests_cant": "Universal over positions.", "anchors": ["nbody/nbody_data.cpp: load, get_mass_factor", "nbody/nbtype.h: physical constants"]}
{"id": "C66", "title": "Zeno files are read exactly", "statement": "load_zeno_ascii never touches memory outside the tables; it returns true exactly when the text consists of a count, dimension 3, a non-empty line, count mass lines, count position lines of three columns and count velocity lines of three columns; then the table is exactly these numbers. Numbers that cannot be read are reported, and a failed load leaves no bodies. (The last two fail.)", "quantifier": "all texts", "why_tests_cant": "Universal over file contents.", "anchors": ["nbody/nbody_data.cpp: load_zeno_ascii"]}
{"id": "C67", "title": "The engine factory builds the engine asked for", "statement": "For every argument list, creating an engine returns an engine of the requested type (simple, openmp, block, ah, simple_bh with each tree layout and traversal) with the requested parameters or their documented defaults, and returns nothing exactly when no supported engine is described.", "quantifier": "every list of command line arguments", "why_tests_cant": "there are infinitely many argument lists; a test fixes a few", "anchors": ["nbody/nbody_engines.cpp:4-193", "nbody/nbody_engine_simple_bh.cpp:111-127", "nbody/nbody_arg_parser.cpp:5-28"]}
{"id": "C68", "title": "GPU force evaluation equals Newton's law on every device under every schedule", "statement": "For the dense CUDA and OpenCL engines on a power-of-two number D of devices, with a number of bodies that is a multiple of D times the block size: fcompute, started from buffers in which each device holds only its own part of the state vector, has no data race and no out-of-bounds access in any interleaving of threads, ends, leaves the full state vector on every device and the full right-hand side (velocities and softened Newtonian accelerations) on every device. In any arithmetic the result is one vector independent of schedule, number of devices and kind of device. Body counts that are not such multiples are not handled by CUDA (out-of-bounds tile reads or bodies left uncomputed) and are refused by the OpenCL run time.", "quantifier": "every number of devices 2^d, block size, number of bodies, state, masses, prior contents of f and of shared memory, and every interleaving", "why_tests_cant": "Races show up only under some interleavings on some hardware, and a test compares one launch on the devices of one machine.", "anchors": ["nbody/nbody_engine_cuda_impl.cu:10-130", "nbody/nbody_engine_cuda.cpp:202-247", "nbody/nbody_engine_opencl.cl:1-96", "nbody/nbody_engine_opencl.cpp:653-712"]}
{"id": "C69", "title": "Implicit Runge-Kutta solvers", "statement": "For every right-hand side that is a function and every history of non-zero steps, an implicit tableau solver (Gauss-Legendre, Lobatto IIIC) without subdivision reaches exactly the states of: Euler guesses of the stages in the first step and the stages of the step before later on, refine_steps_count Gauss-Seidel sweeps over the stage equations, the row b2. With subdivision the accepted substeps tile the time and each is such a step, its recorded error being the largest difference of the two rows. A sweep leaves stages unchanged exactly when they solve the stage equations; for a right-hand side with Lipschitz constant L, row sums at most A and |h| L A < 1 the equations have exactly one solution, and the first step differs from the step of the method by at most |h| sum|b2| (|h| L A)^r times the error of the guesses. (Real-number semantics.)", "quantifier": "every right-hand side, implicit table whose rows are not zero, parameters, initial state and history of non-zero steps", "why_tests_cant": "A test compares one run against a tolerance; a wrong guess or a sweep in the wrong order still converges there.", "anchors": ["nbody/nbody_solver_rk_butcher.cpp:97-128", "nbody/nbody_solver_rk_butcher.cpp:160-290", "nbody/nbody_solver_rkgl.cpp", "nbody/nbody_solver_rklc.cpp"]}
{"id": "C70", "title": "A solver on several GPUs computes what it computes on the CPU", "statement": "A client of the dense CUDA or OpenCL engine on D = 2^d devices (any sequence of fill, copy, fmadd, compensated sums, clamp, fcompute, fmaxabs and read_buffer requests, later ones depending on the numbers read) starting from device memories in which every device holds only its own part of each buffer ends, under every interleaving, without a race, a refused launch or an access out of bounds, with device memories whose own parts are exactly the buffers of the CPU engine serving the same client; so read_buffer returns the CPU's numbers. In any arithmetic relative to the block-wise force sum for clients without fmaxabs; in exact arithmetic relative to the reference engine for all clients; in particular for the midpoint solver over any step sequence. Needs the number of bodies to be a multiple of D*block and D*64, and for OpenCL fmaxabs an even number of blocks: otherwise CUDA leaves the tail of every buffer unchanged and OpenCL refuses the launch.", "quantifier": "every client program, kind of engine, number of devices 2^d, block size, number of bodies, buffer contents and every interleaving", "why_tests_cant": "A test compares one solver on the devices of one machine under the interleavings that happen; stale copies on other devices show up only for some device counts.", "anchors": ["nbody/nbody_engine_cuda.cpp:201-524", "nbody/nbody_engine_cuda_impl.cu:716-817", "nbody/nbody_engine_opencl.cpp:654-741", "nbody/nbody_engine_opencl.cpp:1210-1493", "nbody/nbody_engine_opencl.cl:510-593"]}
{"id": "C71", "title": "The Barnes-Hut engines on several GPUs compute what the Barnes-Hut engine computes on the CPU", "statement": "A sequence of right-hand-side evaluations by any of the Barnes-Hut engines for CUDA (stack walk, texture walk with or without stack) or OpenCL (one or several contexts, cycle over bodies or over the leaves, stack or stackless walk) on D = 2^d devices, starting from a new engine with undefined device arrays, ends under every interleaving without a race, a refused launch or an access out of bounds, for every choice std::nth_element makes; after each evaluation every device holds in f exactly the numbers (in exact arithmetic) of the CPU engine with the tree of pointers and in y the state vector, whatever the other parts of y and f held before, whether the tree was built on the host or refreshed on the devices. With a large enough ratio this is Newton's law. Needs the number of bodies to be a power of two between 64 and 2^30 and a multiple of D*block: with 192 bodies no first evaluation ends within bounds. In binary64 the numbers differ in the last places, because the kernels sum accelerations and the CPU sums forces.", "quantifier": "every Barnes-Hut engine, number of devices 2^d, block size, number of bodies 2^k, masses, ratio, rebuild rate, sequence of state vectors, splits, previous contents of the device arrays and every interleaving", "why_tests_cant": "Tests compare one engine with the CPU on few inputs and devices with a tolerance; a stale copy of the tree or a part of f left over from another device shows only for some device counts and call sequences.", "anchors": ["nbody/nbody_engine_cuda_impl.cu:130-714", "nbody/nbody_engine_cuda_bh.cpp:50-206", "nbody/nbody_engine_cuda_bh_tex.cpp:45-218", "nbody/nbody_engine_opencl.cl:96-508", "nbody/nbody_engine_opencl.cpp:866-1193", "nbody/nbody_engine_opencl_bh.cpp"]}
{"id": "C72", "title": "A Bulirsch-Stoer step returns the extrapolation of the first level that settled", "statement": "With a right-hand side F(t,y), every step of length dt of every history of a new Bulirsch-Stoer solver ends at t+dt, and the new state is determined by max_level L and the threshold: L=0 leaves the state unchanged (only the clock moves); L=1 and L=2 return the mean of Stetter's two vectors after 2 or 4 substeps, not extrapolated; for L>=3 the result is, in every coordinate, the value at 0 of the polynomial in the squared substep through the results of the levels 0..l (2, 4, 6, 8, 12, 16, ... substeps, each from the state and the time at the beginning of the step), where l is the first level from 2 on for which leaving the coarsest level out changes every coordinate by less than the threshold, or L-1 if there is none.", "quantifier": "every right-hand side, problem size > 0, number of levels, threshold, sequence of step lengths, content of new buffers, and state left by earlier steps", "why_tests_cant": "Tests check convergence on a few trajectories with a tolerance; a level started at a wrong time, a table row left over from the previous step or an acceptance test off by one level still converges.", "anchors": ["nbody/nbody_solver_bulirsch_stoer.cpp:40-122", "nbody/nbody_extrapolator.cpp", "nbody/nbody_solver_midpoint_stetter.cpp:20-76"]}
{"id": "C73", "title": "Which runs stay inside their arrays", "statement": "In every arithmetic (so also with overflow, NaN and any rounding) a run of any number of steps by the solver and the CPU engine made from a command line, with n bodies and any first step number, any bodies, time and step lengths, any content of new buffers and any choice of std::nth_element, is free of out-of-bounds accesses and divisions of indices by zero if and only if: the Adams rank is 1..5; and, unless the solver computes no forces (Bulirsch-Stoer with max_level 0), n is a multiple of 64 for the block engine, a power of two for the heap engines, the full recompute rate is positive and divides the first step number for the Ahmad-Cohen engine. Any legal solver on any engine whose right-hand side is defined is safe. The state keeps its size. The code checks none of these conditions: the run crashes in its first step (also when a stream is resumed at step 7 with the Ahmad-Cohen engine). Not covered: the nested traversal of the pointer tree (C26).", "quantifier": "every arithmetic, command line, number of bodies below 2^31, bodies, masses, first step, sequence of step lengths, new buffer contents, nth_element choices", "why_tests_cant": "Tests run chosen body counts and ranks; an index out of range for another combination is never executed, and reading one element too far rarely shows.", "anchors": ["nbody/nbody_solvers.cpp", "nbody/nbody_engines.cpp:4-193", "nbody/nbody_solver_adams.cpp:30-84", "nbody/nbody_engine_block.cpp:14-126", "nbody/nbody_engine_ah.cpp:16-41", "nbody/nbody_space_heap.cpp", "nbody/nbody_solver_rk_butcher.cpp:60-290", "nbody/nbody_solver_bulirsch_stoer.cpp:60-122"]}
{"id": "C74", "title": "The thread schedule never shows in a force evaluation", "statement": "In the life of every CPU engine a command line can make (openmp, block, Ahmad-Cohen, Barnes-Hut with pointer tree, heap or stackless heap, in either traversal order; C26 excepted), from the first call of fcompute on, in every arithmetic and for any states, the OpenMP loop of every call is finite, free of data races and of accesses out of bounds under every interleaving of its iterations, and leaves exactly the derivative, and for the Ahmad-Cohen engine exactly the neighbour lists and far forces, that the iterations in index order leave. Each loop has this property on any arrays on which the serial order is defined; for the leaf loop of the heap this needs every body to sit in one leaf (without it two iterations do race), which build and rebuild guarantee.", "quantifier": "every arithmetic, engine, number of bodies below 2^31, masses, states, sequence of calls at any step numbers, nth_element choices, schedule of the threads", "why_tests_cant": "A test runs one schedule per execution; a race shows only under an unlucky interleaving, and a schedule-dependent last bit is hidden by the tolerance.", "anchors": ["nbody/nbody_engine_block.cpp:51-124", "nbody/nbody_engine_ah.cpp:79-160", "nbody/nbody_engine_simple_bh.cpp:72-92", "nbody/nbody_space_heap.h:30-47", "nbody/nbody_engine_openmp.cpp:33-82"]}
{"id": "C75", "title": "The player shows and records the frames of the stream", "statement": "After opening a recorded stream, and any sequence of gestures on the timeline (including bounded values and drags) and recordings (including failures to draw, cancellation and gestures in the pauses), the player shows exactly the frame selected last, with the masses and colours of the stream, and every recording consists of the frames 0, 1, 2, ... in order, each drawn from its own data; a recording that is not cancelled contains all frames. (False at the start: until a frame other than the first is selected the player shows a blank. A recording misses its last frame when that frame is selected just before it is recorded; a second recording of a one-frame stream is empty. Both cases are characterised.)", "quantifier": "every stream written by nbody_data_stream, sequence of gestures and recordings, drawing failures, cancellations and events between frames", "why_tests_cant": "A test clicks through one session; the loss of a frame depends on what the user does between two frames.", "anchors": ["player/wgt_nbody_player.cpp:18-177", "player/wgt_nbody_player_control.cpp:70-116", "nbody/nbody_data_stream_reader.cpp"]}
{"id": "C76", "title": "Every body gets a colour from its speed", "statement": "The colour of a body with speed s and velocity box diagonal d is the point at s/d on the polyline through the four table colours, and drawing a frame never reads outside the table. (False: the value is defined exactly for s/d <= 3/4 and s/d >= 1, where nodes sit at 0, 1/4, 1/2 and 3/4 instead of 0, 1/3, 2/3, 1; every frame with a speed strictly between 3/4 of the diagonal and the diagonal, and in binary64 every frame whose bodies are all at rest, reads outside the table.)", "quantifier": "every speed, every frame with a box of velocities that is not a point", "why_tests_cant": "The entry behind the table usually holds something harmless, so a screenshot looks plausible.", "anchors": ["player/wgt_nbody_view.cpp:127-158", "player/wgt_nbody_view.cpp:186-196"]}
{"id": "C77", "title": "View box and window layout", "statement": "The first frame drawn with two bodies at different places fixes the view: its box is the smallest box around the bodies widened by half its size on every side, so all bodies of the frame are inside, and no later frame changes it. The four viewports cover every pixel of the window exactly once for every split of the window; a double click off the middle lines of the window split in the middle gives the whole window to the viewport under the mouse, and the next double click restores the split.", "quantifier": "every sequence of frames with coordinates up to 10^30, window size, split, pixel and click position", "why_tests_cant": "Universal over window sizes (rounding of odd sizes), pixels and frames.", "anchors": ["player/wgt_nbody_view.cpp:238-275", "player/wgt_nbody_view.cpp:316-356"]}
{"id": "C78", "title": "Recording to PNG files leaves every image in its file", "statement": "Recording numbered images to a directory leaves, once the compressor is destroyed, every image in the file with its number (at least eight digits, so that up to 10^8 images are listed in order) and no other file changed, whatever the order in which the thread pool executes the jobs; after every push at most idealThreadCount jobs are pending, the destructor returns only when all jobs are finished, and it does return if they all finish. (False for directories whose name contains a marker such as %1 or %0: the markers are replaced too, all writes fail, and nobody notices.)", "quantifier": "every directory name, set of images, thread pool behaviour, order of execution, number of cores", "why_tests_cant": "Depends on the thread schedule and on the name of the directory.", "anchors": ["player/nbody_frame_compressor_image.cpp"]}
{"id": "C79", "title": "A resumed simulation continues as if it had never stopped", "statement": "A run is stopped at max_time and a new process continues from the last frame it wrote, with the same step, dump and check intervals. The two runs together write the frames the uninterrupted run writes, in order and without repetition, and end in the same state. (True of solvers and engines without memory: euler, midpoint, rk4, trapeze, bs and every explicit tableau without correction on the simple, openmp and block engines, in any arithmetic; only a frame with a time not after 0 is written twice. False of midpoint-st, adams, the implicit tableaus and every solver with correction: what they keep between two steps is not in the stream.)", "quantifier": "every run that stops, arithmetic, initial state, end times, contents of uninitialised buffers and private state of the new process", "why_tests_cant": "The deviation after a resume is as small as the local error, and a test compares a few runs only.", "anchors": ["test/main/main.cpp:45-77", "nbody/nbody_solver.cpp:55-105", "nbody/nbody_data_stream_reader.cpp:300-340"]}
{"id": "C80", "title": "The simulation program does what its command line says, and resumes", "statement": "The program main ends with 0, or with -1 and the disk untouched (when no disk operation fails); without a known engine and solver it is always the latter. If it ends with 0 and does not resume, it has loaded or generated the state asked for, simulated it with the engine, solver, step and end time asked for, and the output stream can be loaded and replays exactly the frames of that simulation. Running it to time a and then again with --resume to time b leaves a stream that replays the frames of running to b at once. (The last part is true of engines and solvers without memory and without clamping, given that the numbers of the last frame come back from the files. It is false with --clamp=1: the box size is not read back, and the resumed simulation leaves the box; and a stream that has lost its mass file is resumed with bodies of mass 0.)", "quantifier": "every argument list, disk, arithmetic, byte representation, uninitialised memory, random source", "why_tests_cant": "The program has no test; its behaviour is the composition of parser, factories, run loop and stream over all command lines, and a resume that goes wrong ends with 0 and a plausible stream.", "anchors": ["test/main/main.cpp:11-122", "nbody/nbody_solver.cpp:42-117", "nbody/nbody_data_stream.cpp", "nbody/nbody_data_stream_reader.cpp", "nbody/nbody_data.cpp"]}
{"id": "C81", "title": "Feagin's methods have exactly the order the README gives", "statement": "In exact arithmetic the row that rkfeagin10, rkfeagin12 and rkfeagin14 step with satisfies the order condition of every rooted tree with up to 10, 12 and 14 vertices, and the other row that of every tree with up to 8, 10 and 12 vertices, up to an absolute error of 10^-12, 10^-12 and 10^-9 (the coefficients are decimals with 60 digits, so the conditions cannot hold exactly); the rows of the tableaux add up to the nodes. The order is not higher: some tree with 11, 13 and 15 vertices is missed by more than 10^-5, 10^-7 and 10^-5.", "quantifier": "every rooted tree with up to 14 vertices, every reading of the coefficients in the reals", "why_tests_cant": "A mistyped digit among 1000 coefficients changes a trajectory by less than the tolerance of a test; it lowers the order silently.", "anchors": ["nbody/nbody_solver_rkfeagin10.cpp", "nbody/nbody_solver_rkfeagin12.cpp", "nbody/nbody_solver_rkfeagin14.cpp", "README.md:25-27"]}
{"id": "C82", "title": "Every solver converges to the exact motion as the step shrinks", "statement": "For a Lipschitz right-hand side with an exact solution on an interval, a fresh solver of any type (euler, midpoint, midpoint-st, rk4, trapeze, bs, adams of rank 1 to 5 with any starter, every explicit or implicit tableau, adaptive or not, with or without correction, nested to any depth) completes every history of positive steps of at most h without failing, and ends within C (d + h + delta) of the solution. d is the initial error, delta is by how much the weights of the tableau miss the sum one, and neither C nor the largest allowed h depends on the steps. Newton's equations with the softening of the code are such a right-hand side (for every number of bodies, non-zero masses and positive minimum distance) and the engine simple evaluates it. Every solver that the command line can name with working parameters has delta at most 10^-9, all but Feagin's and their clients delta 0. The term delta cannot be dropped: on y' = 1 the error is delta times the elapsed time, whatever the steps. Newton's equations with that softening have exactly one solution through every state, for any length of time; so from every starting state the runs of all solvers with delta 0 settle on one motion, and any two of them that have covered the same time with small enough steps are arbitrarily close.", "quantifier": "every Lipschitz right-hand side, exact solution, starting state, solver and parameters, history of step lengths, initial deviation, content of uninitialised buffers", "why_tests_cant": "A limit over all step lengths; a test can compare a few runs with a reference of unknown accuracy. Convergence fails silently through a stale buffer (adams history, stored correction, implicit guess) or a coefficient that is slightly off.", "anchors": ["nbody/nbody_solver_rk_butcher.cpp:60-260", "nbody/nbody_solver_adams.cpp:30-100", "nbody/nbody_solver_bulirsch_stoer.cpp:60-170", "nbody/nbody_solver_trapeze.cpp:26-70", "nbody/nbody_solver_midpoint_stetter.cpp:23-60", "nbody/nbody_engine_simple.cpp", "nbody/nbody_solvers.cpp:17-110"]}
{"id": "C83", "title": "The report measures quantities the motion conserves", "statement": "Along every exact solution of the equations of motion that the engine simple evaluates, the reported impulse and angular momentum are constant, the reported mass centre moves uniformly with the velocity impulse/mass, and the reported energy is constant. (False of the energy: a pair closer than the minimum distance attracts each other but counts no potential. The reported energy plus an explicit term for the pairs inside the minimum distance is constant for every motion, so the reported energy is the same at any two times at which no pair is that close.) For runs: with every fresh solver and every history of steps of at most h, the reported impulse is kept exactly, the angular momentum and the corrected energy drift by at most C (h + delta), and get_energy_err by the corresponding percentage when the bodies start and end apart.", "quantifier": "every number of bodies, masses, minimum distance, exact motion, time, solver and parameters, history of step lengths", "why_tests_cant": "The drift of a test run is a sum of solver error and report error, which a test cannot tell apart; close encounters are rare.", "anchors": ["nbody/nbody_data.cpp:35-55", "nbody/nbody_data.cpp:57-145", "nbody/nbody_data.cpp:366-381", "nbody/summation_proxy.h", "nbody/nbody_engine_simple.cpp"]}
{"id": "C84", "title": "How accurate the Barnes-Hut engines are", "statement": "Every acceleration the Barnes-Hut engines write differs from the direct softened Newton sum, component by component, by at most (4/r + 5/r^2 + 2/r^3) times the sum of the sizes of the single attractions, where r >= 1 is the opening ratio; when all pairs are farther apart than 1 + 1/r softening lengths the factor is of second order in 1/r. The velocities are copied exactly. This holds at every evaluation, also at those that only refresh a tree built earlier; for the tree engine with both loops (the nested one when no two bodies coincide), the heap engine, both builds of the stackless engine and the GPU engines. Hence the error vanishes uniformly as r grows, and the total force is zero up to the same relative error.", "quantifier": "every number of bodies, positive masses, positions (including coinciding ones), softening, ratio >= 1, rebuild rate, split function, sequence of evaluations", "why_tests_cant": "A test compares the engines on one configuration with one tolerance; it cannot bound the error over all configurations, nor say how it scales with the ratio.", "anchors": ["nbody/nbody_space_tree.cpp", "nbody/nbody_space_tree.h", "nbody/nbody_space_heap.cpp", "nbody/nbody_engine_simple_bh.cpp", "nbody/nbody_engine_cuda_bh.cpp"]}
{"id": "C85", "title": "Simulations with the Barnes-Hut engines converge to the exact motion", "statement": "A fresh solver of any type driven by an engine whose answers are within eps of a Lipschitz right-hand side, and that may keep anything between the evaluations, ends within C (d + h + delta + eps) of the exact solution; C depends neither on the engine nor on the steps (d, h, delta as in C82). The Barnes-Hut engines with the default rebuild rate are such engines with eps of order 1/ratio: the tree engine for any number of bodies up to 2^63, the heap engine and both builds of the stackless engine for 2^k bodies, either shape of the loops. No step fails, one C serves all ratios >= 1, all orders in which nth_element may leave the bodies and all contents of uninitialised buffers; so the error tends to zero as the steps shrink and the ratio grows.", "quantifier": "every softening, number of bodies, positive masses, exact motion, solver and parameters, ratio >= 1, rebuild rate 0 or 1, split function, history of step lengths, initial deviation", "why_tests_cant": "A limit in two parameters over all configurations; the engine is discontinuous in the positions (a node is opened or not), so a convergence test with a fixed ratio levels off and proves nothing.", "anchors": ["nbody/nbody_engine_simple_bh.cpp:15-93", "nbody/nbody_space_tree.cpp", "nbody/nbody_space_heap.h", "nbody/nbody_engines.cpp:140-175", "nbody/nbody_solver_rk_butcher.cpp:60-260"]}
{"id": "C86", "title": "A simulation does not depend on how it is described", "statement": "With the engine simple, over the reals: numbering the bodies in another order, turning or mirroring the axes and moving the origin of time transform the whole simulation accordingly. If a run of any solver over any history of step lengths completes, the run from the transformed state completes and ends in the transformed state, with the same numbers of steps and of evaluations. Every orthogonal map of the axes is covered for the solvers that do not measure the largest component of a vector; for those that do (embedded tableaux, Bulirsch-Stoer from the third level) the maps that take axes to axes are: permutations and reversals of the three axes.", "quantifier": "every softening, number of bodies, non-zero masses, permutation of the bodies, orthogonal matrix, time shift, solver and parameters, history of step lengths, content of the uninitialised buffers (transformed alike)", "why_tests_cant": "The statement compares pairs of runs over a continuum of matrices and all permutations; a test can compare a few pairs, only up to rounding, and an index slip that respects the tested permutation stays hidden.", "anchors": ["nbody/nbody_engine_simple.cpp:116-185", "nbody/nbody_solver_rk_butcher.cpp", "nbody/nbody_solver_bulirsch_stoer.cpp", "nbody/nbody_solver_adams.cpp", "nbody/nbody_solver_midpoint_stetter.cpp"]}
{"id": "C87", "title": "The blocks of a GPU force computation may run in any order and at the same time", "statement": "On one CUDA or OpenCL device the thread blocks (work groups) of the dense force kernels share the state vector, the right-hand side and the masses. However the device schedules them - one after another in any order, or at the same time with the accesses of their threads interleaved in any way, and whatever the shared memory and the registers of each block hold at the start - every run comes to an end, no two threads of the same or of different blocks make conflicting accesses, no access is out of bounds, and the memory left is the same, bit for bit: the one that the blocks leave when they run one after another.", "quantifier": "every arithmetic (floating point included), block size, number of blocks, number of devices and device for which the launch is legal, contents of the buffers, schedule of the blocks and of their threads, initial content of every block's shared memory and registers", "why_tests_cant": "The number of interleavings is astronomical and the hardware shows a test only the few its scheduler happens to choose; a conflict between blocks shows on other hardware or another grid size.", "anchors": ["nbody/nbody_engine_cuda_impl.cu:10-129", "nbody/nbody_engine_cuda.cpp:209-246", "nbody/nbody_engine_opencl.cl:8-95", "nbody/nbody_engine_opencl.cpp:666-700"]}
{"id": "C88", "title": "A simulation does not depend on the origin of space or on its uniform motion", "statement": "With the engines simple and block, over the reals: if every body is displaced by X and every velocity by V, a run of any solver without a step control, over any history of steps of total length T, completes and ends with every body displaced by X + T V and every velocity by V, exactly and in spite of the truncation errors of the two runs; the numbers of steps and buffers are the same and the time keeps its shift.", "quantifier": "every softening, number of bodies, masses with a total that is not zero, displacement, velocity, time shift, solver that meets its documented parameters and does not choose its step, history of step lengths, content of the uninitialised buffers", "why_tests_cant": "The statement compares pairs of runs over a continuum of frames; a test sees it only up to rounding, and a frame-dependent term proportional to the truncation error looks like truncation error.", "anchors": ["nbody/nbody_engine_simple.cpp:116-185", "nbody/nbody_engine_block.cpp", "nbody/nbody_solver_rk4.cpp", "nbody/nbody_solver_rk_butcher.cpp", "nbody/nbody_solver_bulirsch_stoer.cpp", "nbody/nbody_solver_adams.cpp"]}
{"id": "C89", "title": "The player shows the errors that are numbers", "statement": "The errors of the report are the changes of impulse, angular momentum and energy since the first report in per cent of the first values. The player writes each of them over the picture exactly when it is a finite number. (False: all three conditions of the code test the impulse error. The errors appear together or not at all. Without P in the check list nothing is ever shown, whatever the frames. Without E in it - the default - every picture with errors has a dE that is not a number. With everything checked, two bodies with opposite impulses have exact errors of angular momentum and energy that are not shown.)", "quantifier": "every state of the report; every sequence of reports of any frames in binary64", "why_tests_cant": "A display has no test; whether the impulse error is a number depends on the scene, and is rounding noise for the scenes that are generated at rest.", "anchors": ["player/wgt_nbody_view.cpp:342-353", "nbody/nbody_data.cpp:57-145", "nbody/nbody_data.cpp:366-381", "player/main.cpp:17"]}
{"id": "C90", "title": "A step costs a known number of force evaluations", "statement": "The counter CC of the report advances by a number that the solver and the number of steps confine, in any arithmetic and for any engine, state and step lengths. Each step costs: euler 1, midpoint 2, midpoint-st 2 and one more at the start, rk4 4, trapeze 2 + refine; an explicit Runge-Kutta method the number s of its stages, an implicit one refine times s and once 1 + s at the start; an embedded method with subdivisions d and recursion r at most 1 + d + ... + d^r times that; bulirsch-stoer between the cost of its first three levels (27) and the cost of all its levels; adams 1, and the cost of its starter in the first rank + 1 steps. Without a step control the number is exact, and from step rank + 1 on a multistep method costs one evaluation a step whatever its order. Counting does not change a run.", "quantifier": "every arithmetic, engine, state, solver with any parameters and starter, history of step lengths, content of the uninitialised buffers", "why_tests_cant": "A test counts evaluations for a few solvers and steps; the recursion of the embedded methods and the stopping level of Bulirsch-Stoer depend on the data, so a larger count on other data is not seen.", "anchors": ["nbody/nbody_engine.cpp:119-127", "nbody/nbody_data.cpp:59-114", "nbody/nbody_solver_rk_butcher.cpp", "nbody/nbody_solver_bulirsch_stoer.cpp", "nbody/nbody_solver_adams.cpp", "nbody/nbody_solver_trapeze.cpp", "nbody/nbody_solver_midpoint_stetter.cpp"]}
{"id": "C91", "title": "A stream is loaded exactly when its index is well formed", "statement": "Whatever the files contain, load succeeds exactly when the index file is there, every line of it is a comment (starting with #) or has four tab-separated fields that read as step, time, part and position, the last valid header lines give this program's coordinate size and a number of bodies and a box size other than zero (or, without such lines, the object had them before), there is at least one frame, the data file of the first frame is there and its position is not negative. The reader then lists exactly the frames written, in order, wherever comments stand. At the first line that is neither, loading fails, and the frames of the lines before it stay listed.", "quantifier": "every content of every file, base name, previous state of the reader object, number format of the times", "why_tests_cant": "Tests load what the writer wrote; files that are truncated, edited or foreign are a space of byte strings, and both directions of the equivalence need all of it.", "anchors": ["nbody/nbody_data_stream_reader.cpp:45-72", "nbody/nbody_data_stream_reader.cpp:118-186", "nbody/nbody_data_stream_reader.cpp:222-259"]}
{"id": "C92", "title": "The GPU engines use the devices the user names", "statement": "CUDA: select_devices succeeds exactly when the words between the commas, empty ones apart, are at least one and all read as numbers of existing devices, and then the engine uses these devices in the order of the text, repeats included, whatever it used before; a failed call changes nothing. OpenCL: the selection of a new engine succeeds exactly when the text consists of entries platform:device,device,... between semicolons that name existing devices, all of which work, and the number of devices is a power of two; the engine then uses these devices in this order, with one context for each entry, and takes the direct way of copying between devices exactly when there is one entry. The accepted numbers of devices are those for which the engines are correct, and a selection replaces the previous one. (The last sentence is false: CUDA accepts three devices, for which C56 fails; a second OpenCL selection adds to the first, and a failed one leaves the devices it got to.)", "quantifier": "every text, number of devices and platforms, set of working devices, previous selection", "why_tests_cant": "Needs hardware with several devices; the accepted texts are an infinite language, and the wrong cases are texts nobody tests with.", "anchors": ["nbody/nbody_engine_cuda.cpp:576-616", "nbody/nbody_engine_opencl.cpp:329-332", "nbody/nbody_engine_opencl.cpp:385-502"]}
{"id": "C93", "title": "Every body is visible in every picture of the player", "statement": "When a frame sets up the view, each of the four cameras looks at the centre of the box, from its own side, and with a stereo base the two eyes lie level on both sides of the camera, at the given part of its distance. Every body of the frame is then inside the field of view and between the clipping planes of every picture, as gluPerspective and gluLookAt define them; and the box is drawn as its twelve edges, each once, in the colours of its corners. (The visibility is false in general: the clipping planes are fixed at 1 and 1000 and do not follow the size of the scene, so that a frame whose widened box has a diagonal below 4/7 or above 4000/3 is shown empty at 100%. It holds when the diagonal D and the scale s satisfy 1 <= D(s-1/4) and D(3s/2+1/4) <= 1000 and the camera is not closer than the viewport is wide enough for.)", "quantifier": "every frame, window size, split point, stereo base 0..100, scale, viewport", "why_tests_cant": "Needs an OpenGL context and a human eye; a picture that is empty for small or large scenes is not seen with test data of ordinary size.", "anchors": ["player/wgt_nbody_view.cpp:47-110", "player/wgt_nbody_view.cpp:160-232", "player/wgt_nbody_view.cpp:253-285", "player/wgt_nbody_view.cpp:312-333", "player/wgt_nbody_player_control.cpp:150-153"]}
{"id": "C94", "title": "The factory makes the GPU engine the user asks for, with usable parameters", "statement": "In a build with CUDA or OpenCL, nbody_create_engine answers with an engine exactly if the arguments name an engine of this build and the other arguments allow it: existing and working devices, a heap layout, a known traversal. The object then has the devices, block size, ratio, rebuild rate, layout and traversal that the arguments say, or the defaults (device 0 or 0:0, 64, 10, 0, heap, cycle); CPU engines are those of C67, and a build without GPU support is C67. The block size of the engine is positive. (The last sentence is false: block_size is not checked, and a text that is no number means 0, by which the number of bodies is then divided.)", "quantifier": "every argument vector, build, machine, arithmetic and number syntax", "why_tests_cant": "Needs several builds and machines with different devices; combinations of arguments are unbounded.", "anchors": ["nbody/nbody_engines.cpp:4-193", "nbody/nbody_engine_simple_bh.cpp:111-127"]}
{"id": "C95", "title": "What new memory happens to contain never reaches the results", "statement": "The solvers work on buffers that come from malloc and hold rubbish. Whatever they hold, a sequence of steps with nonzero lengths ends in the same state vector, at the same time and step counter: every solver sets every buffer before it uses it, including the correction sums, the derivatives an Adams-Bashforth solver keeps, the first approach of an implicit method and the recursion stack. (For an explicit tableau without correction this needs one nonvanishing weight in each row. Over the reals all solvers of the factory have it for all nonzero steps; in binary64 it is false: a step so short that the weights of a row underflow leaves the buffer of that stage unwritten, and it is used.)", "quantifier": "every arithmetic, every engine whose derivative depends on step, time and state only, every fresh legal solver (adaptive ones, multistep ones and ones with correction included), every pair of memories, every sequence of steps", "why_tests_cant": "A test sees one allocator; fresh pages are zero, so that the use of an unwritten buffer goes unnoticed.", "anchors": ["nbody/nbody_engine_simple.cpp:201-209", "nbody/nbody_engine_simple.cpp:421-432", "nbody/nbody_solver_rk_butcher.cpp:97-248", "nbody/nbody_solver_adams.cpp:30-95", "nbody/nbody_engine.cpp:75-113"]}
{"id": "C96", "title": "In floating point a mirrored simulation is the mirror image, bit by bit, and a flat system stays flat", "statement": "Turn the sign of all positions and velocities along any of the three axes. In IEEE double precision, rounding, overflow and all, every sequence of steps then ends in the mirror image of the original end: components along turned axes have the same bits but the opposite sign (zeros of either sign count as opposite), all the others the same bits, at the same time; adaptive methods take the same substeps. Hence a system whose positions and velocities along an axis are zero keeps them zero (or not-a-number after an overflow): no rounding error leads out of a coordinate plane.", "quantifier": "every fresh legal solver (embedded, implicit, multistep, extrapolating, with and without compensated summation), every sequence of step lengths for which each row of an explicit tableau keeps a weight, all numbers of bodies (multiples of 64 for the block engine), masses, states (infinities and NaN included), memories, and the simple, OpenMP and block engine", "why_tests_cant": "A test compares a few runs; that no rounding breaks the symmetry is a statement on all double values.", "anchors": ["nbody/nbody_data.cpp:35-44", "nbody/nbody_engine_simple.cpp:116-173", "nbody/nbody_engine_simple.cpp:237-419", "nbody/nbody_engine_block.cpp:14-126", "nbody/nbody_solver_rk_butcher.cpp:97-248"]}
{"id": "C97", "title": "A reader delivers whole frames, also while the stream is being recorded", "statement": "While a reader is used, other programs may append to the files (or cut them). Whatever the files hold at each call, a read that reports success delivers the step and time the index gives for the current frame and the bytes that are then at the place the index gives; a read succeeds exactly when the data file holds the whole frame; a read that fails leaves step, time, masses and colours alone.", "quantifier": "all streams, indexes, sequences of file contents between the calls, destinations and reader states reached by loading or by seeking to another frame than the current one", "why_tests_cant": "Needs files that change between two calls of the reader, which the tests never arrange.", "anchors": ["nbody/nbody_data_stream_reader.cpp:118-186", "nbody/nbody_data_stream_reader.cpp:222-259", "nbody/nbody_data_stream_reader.cpp:290-349"]}
{"id": "C98", "title": "A simulation does not depend on the time at which it starts", "statement": "Starting the same simulation at another time (for example resuming from a stream, where the time is printed with few digits, or at a time so large that adding a step does not change it) gives the same positions and velocities, bit by bit, the same number of steps, and leaves solver and engine in the same state, whatever the solver (adaptive ones included); in exact arithmetic the two clocks keep their distance.", "quantifier": "every CPU engine with whatever memory, every solver in whatever state, all sequences of step lengths, numbers of bodies, masses, states, start times and number types (binary64 included); parallel tree builds whose choices do not depend on the time", "why_tests_cant": "Tests start at time 0; that no step control looks at the clock is a statement on all start times.", "anchors": ["nbody/nbody_engine_simple.cpp:57-114", "nbody/nbody_solver_rk_butcher.cpp:97-248", "nbody/nbody_solver_bulirsch_stoer.cpp:85-129", "nbody/nbody_solver_adams.cpp:30-101"]}
{"id": "C99", "title": "The playback controls offer what can be done and go on from the frame that is shown", "statement": "Whatever the user presses and however time passes, Start is enabled exactly when nothing plays, Pause exactly when something plays, Stop exactly when something plays or is paused, and the timeline is on a frame of the stream. Stop and Forward leave nothing playing on the first and last frame. Playing shows at every tick the frame that belongs to the time passed and ends on the last frame after exactly five seconds; every frame has its time. Start goes on from the frame the timeline is on.", "quantifier": "all streams, all sequences of pressed buttons, timer ticks of any length and moves of the timeline", "why_tests_cant": "The player has no test of its controls; the states reachable by any sequence of events cannot be enumerated.", "anchors": ["player/wgt_nbody_player_control.cpp:14-110", "player/wgt_nbody_player_control.cpp:154-208"]}
{"id": "C100", "title": "A body without mass is a test body", "statement": "A body of mass zero moves in the field of the others, as every other body does, and does not disturb them: where the massless bodies are and how fast they are makes no difference to the motion of the bodies that have mass, nor to that of any one massless body.", "quantifier": "all numbers of bodies and choices of masses, states, solvers without a step control, sequences of steps and memory contents", "why_tests_cant": "All test universes have positive masses; independence of the massless bodies is a statement on pairs of runs.", "anchors": ["nbody/nbody_engine_block.cpp:51-125", "nbody/nbody_engine_simple.cpp:132-173", "nbody/nbody_data.cpp:35-44"]}
{"id": "C101", "title": "A recorded video contains the pictures that were shown", "statement": "Every picture handed to the video recorder reaches the video writer, in order, and each pixel of the matrix given to the writer has the colour of that pixel of the picture; no byte outside the picture is read.", "quantifier": "all window sizes, pictures, contents of the padding bytes, numbers of frames and outcomes of opening the file", "why_tests_cant": "The recorder has no test and needs OpenGL and OpenCV; for which window sizes pictures arrive undistorted is a statement on all sizes.", "anchors": ["player/nbody_frame_compressor_opencv.cpp:28-48", "player/wgt_nbody_player.cpp:131-166"]}
{"id": "C102", "title": "Errors that are not numbers are noticed", "statement": "The measures of deviation see components that are not numbers: the largest component that the step controls compare with the error threshold is not a number if any component is not, a Runge-Kutta step whose error estimate is not a number is divided like one whose error is too large, and the comparison of two states in the benchmark reports the mean and the largest distance, zero only for equal states.", "quantifier": "all buffers, states and steps, in binary64", "why_tests_cant": "The tests never produce a value that is not a number; that comparisons with it go the right way everywhere is a statement on all inputs.", "anchors": ["nbody/nbody_engine_simple.cpp:396-419", "nbody/nbody_solver_rk_butcher.cpp:205-245", "test/bench/bench.h:10-24"]}
