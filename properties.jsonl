{"id": "C01", "title": "Synchronous chunking tiles the batch", "statement": "For a synchronous scheduler, the row ranges on which DispatchedModel evaluates the wrapped Model during one call are, in order, adjacent, non-empty, at most batch_size() long and cover exactly the rows 0..B-1 of the batch; the loop always terminates.", "quantifier": "every batch size B >= 1 and every scheduler batch_size() from 1 to 2^63 - 1 (beyond that the cast to int64 changes the value; see the refuting theorem)", "why_tests_cant": "Off-by-one and truncation errors in the last chunk, and the size_t -> int64 cast, only show for particular (B, n) pairs out of an unbounded set.", "anchors": ["neml2/csrc/dispatchers/DispatchedModel.cpp: chunk_extent, forward (the `for s += chunk` loop)", "neml2/csrc/dispatchers/WorkScheduler.h: SyncScheduler::batch_size"]}
{"id": "C02", "title": "Slicing and concatenation are inverse along the batch axis", "statement": "Cutting a value map into row ranges that tile the batch and concatenating the pieces in order gives back every fully batched tensor unchanged; broadcast entries (leading size 1 or rank 0) reach every chunk whole. Selecting rows and scattering them back restores the original and touches no other row.", "quantifier": "every value map, every tensor rank and shape, every tiling of the batch, every index list", "why_tests_cant": "Shapes, tilings and index lists are unbounded; a test fixes a handful.", "anchors": ["neml2/csrc/dispatchers/batch_chunk.h: slice_batch, cat_batch, index_select_batch, scatter_batch_"]}
{"id": "C03", "title": "Dispatched forward equals direct forward (synchronous)", "statement": "DispatchedModel::forward returns, for inputs obeying the documented batch contract, exactly the map Model::forward returns on the undivided batch, whenever the Model treats batch rows independently.", "quantifier": "every row-independent Model, every contract-conforming input map, every parameter store, every chunk size, every input/compute device pairing", "why_tests_cant": "The equality quantifies over the model's function and over all shapes and chunk sizes.", "anchors": ["neml2/csrc/dispatchers/DispatchedModel.cpp: forward, chunk_param_overrides", "neml2/csrc/dispatchers/batch_chunk.h: infer_batch_size, slice_batch, cat_batch"]}
{"id": "C04", "title": "Dispatched jvp equals direct jvp", "statement": "DispatchedModel::jvp returns the same outputs and output tangents as Model::jvp on the whole batch, for row-independent Models and contract-conforming inputs and tangents.", "quantifier": "every row-independent Model, input map, tangent map, chunk size", "why_tests_cant": "As C03; tangents are a second map sliced independently of the inputs, so mismatched slicing shows only on some shapes.", "anchors": ["neml2/csrc/dispatchers/DispatchedModel.cpp: jvp"]}
{"id": "C05", "title": "Dispatched jacobian equals direct jacobian, including batch-independent blocks", "statement": "DispatchedModel::jacobian returns the same outputs and the same {out:{in:block}} map as Model::jacobian on the whole batch: batched blocks are reassembled row by row and batch-independent blocks come back once, not stacked.", "quantifier": "every row-independent Model, input map, chunk size, and every mix of batched and batch-independent blocks", "why_tests_cant": "Which blocks are batch-independent is a per-model, per-pair property; the classification rule must be right for all base ranks.", "anchors": ["neml2/csrc/dispatchers/DispatchedModel.cpp: jacobian", "neml2/csrc/dispatchers/batch_chunk.h: cat_batch_nested"]}
{"id": "C06", "title": "Batched parameters follow their rows through dispatch", "statement": "When a promoted parameter is stored with a leading axis of the call's batch size, each chunk is evaluated with exactly that chunk's rows of the parameter; parameters without such an axis are used whole by every chunk. forward and param_jacobian then equal the undivided evaluation.", "quantifier": "every parameter store, base shape, batch size and chunk size", "why_tests_cant": "The batched/unbatched decision is structural on shapes; a coincidental shape match is outside what sampled tests explore.", "anchors": ["neml2/csrc/dispatchers/DispatchedModel.cpp: chunk_param_overrides, param_jacobian"]}
{"id": "C07", "title": "Dispatched param_vjp stitches gradients correctly", "statement": "DispatchedModel::param_vjp returns, for each parameter, the gradient Model::param_vjp gives on the whole batch: concatenated over chunks for a parameter stored per batch element, summed over chunks for a global one.", "quantifier": "every parameter store, cotangent map, batch size and chunk size", "why_tests_cant": "The dispatcher and the Model decide 'batched' by two different rules; they must agree for every stored shape.", "anchors": ["neml2/csrc/dispatchers/DispatchedModel.cpp: param_vjp (adjoint stitch)", "neml2/csrc/aoti/ops.cpp: param_vjp (collapse)"]}
{"id": "C08", "title": "No silently different answer outside the batch contract", "statement": "If an input map violates the dispatcher's batch contract, a dispatched call either raises or still returns what the undivided Model call returns.", "quantifier": "every input map, conforming or not, and every chunk size", "why_tests_cant": "The failing shapes are a thin set (a lower-rank input whose leading extent happens to equal the batch size, and a chunk of length one).", "anchors": ["neml2/csrc/dispatchers/batch_chunk.h: slice_batch", "neml2/csrc/aoti/ops.cpp: _prepare_inputs"]}
{"id": "C09", "title": "Asynchronous dispatch result is schedule-independent", "statement": "If no chunk fails, the asynchronous path returns the chunk results in batch order, one per dispatched row range, the ranges tiling the batch; hence forward equals the undivided Model call whatever the interleaving of the dispatch thread and the device workers and whatever devices the chunks landed on.", "quantifier": "every device pool configuration, every batch size, every interleaving of the threads, every row-independent Model", "why_tests_cant": "Thread interleavings are astronomically many and cannot be enumerated by running.", "anchors": ["neml2/csrc/dispatchers/DispatchedModel.cpp: run_async, worker_main, enqueue", "neml2/csrc/dispatchers/AsyncScheduler.cpp"]}
{"id": "C10", "title": "Per-device capacity is never exceeded", "statement": "At every moment of an asynchronous dispatch the number of rows outstanding on a device is at most the device's configured capacity.", "quantifier": "every accepted configuration, every batch size, every interleaving, every sequence of calls", "why_tests_cant": "The invariant must hold in every intermediate state of every schedule.", "anchors": ["neml2/csrc/dispatchers/StaticHybridScheduler.cpp: schedule_work_impl, dispatched_work_impl, completed_work_impl", "neml2/csrc/dispatchers/DispatchedModel.cpp: run_async"]}
{"id": "C11", "title": "Load accounting is exact and the pool is left clean", "statement": "At every moment the scheduler's load on a device equals the rows of the chunks handed to that device and not yet reported complete; when an asynchronous call ends, successfully or by exception, every load is zero, every queue is empty and no worker is still using the caller's frame.", "quantifier": "every interleaving, every pattern of chunk failures and enqueue failures, every sequence of calls", "why_tests_cant": "A leaked unit of load only shows as a later hang; a worker outliving the frame is a use-after-free that a test may never trigger.", "anchors": ["neml2/csrc/dispatchers/DispatchedModel.cpp: run_async", "neml2/csrc/dispatchers/AsyncScheduler.cpp: completed_work, wait_for_completion"]}
{"id": "C12", "title": "Asynchronous dispatch cannot deadlock", "statement": "From every reachable state of an asynchronous call some thread can move until the call has returned; in particular no wake-up is lost between a state change and the condition-variable wait that depends on it.", "quantifier": "every accepted configuration, every interleaving, every failure pattern", "why_tests_cant": "Deadlocks and lost wake-ups live in specific interleavings.", "anchors": ["neml2/csrc/dispatchers/AsyncScheduler.cpp: schedule_work, wait_for_completion", "neml2/csrc/dispatchers/DispatchedModel.cpp: worker_main, enqueue, run_async"]}
{"id": "C13", "title": "Asynchronous dispatch terminates", "statement": "Every execution of an asynchronous call without spurious wake-ups finishes within a number of steps bounded by the batch size and the number of devices.", "quantifier": "every accepted configuration with batch sizes below 2^63, every interleaving, every failure pattern", "why_tests_cant": "Termination is a statement about all infinite schedules.", "anchors": ["neml2/csrc/dispatchers/DispatchedModel.cpp: run_async"]}
{"id": "C14", "title": "Concurrent failures are reported completely, in batch order", "statement": "If chunks fail, the exception leaving the call carries exactly the failures of the chunks that were run, ordered by batch position with a dispatch-thread failure first; a single failure is rethrown unchanged and several give an AggregateError that is recoverable iff every part is.", "quantifier": "every interleaving, every assignment of success/failure to chunks", "why_tests_cant": "Which failures coincide depends on the schedule.", "anchors": ["neml2/csrc/dispatchers/DispatchedModel.cpp: run_async (gather)", "neml2/csrc/aoti/Exception.cpp: AggregateError"]}
{"id": "C15", "title": "Work stops promptly after a failure", "statement": "After a chunk failure has been recorded at most one further chunk is dispatched by the call.", "quantifier": "every interleaving and every batch size", "why_tests_cant": "The window between the re-check and the enqueue is only hit by some schedules.", "anchors": ["neml2/csrc/dispatchers/DispatchedModel.cpp: run_async (failed checks)"]}
{"id": "C16", "title": "Worker pool runs every task exactly once, in order, and shuts down", "statement": "Every task enqueued for a device is run exactly once, in enqueue order, by that device's worker; after shutdown is requested the workers drain their queues and all exit.", "quantifier": "every sequence of enqueues, every point at which shutdown is requested, every interleaving", "why_tests_cant": "Loss or duplication of a task depends on races between stop and enqueue.", "anchors": ["neml2/csrc/dispatchers/DispatchedModel.cpp: worker_main, enqueue, stop_pool"]}
{"id": "C17", "title": "Hybrid scheduling is greedy by priority", "statement": "schedule_work chooses a device with room for a full chunk whose priority is not lower than that of any other device with room, the earliest such device in configuration order on ties; it blocks exactly when no device has room.", "quantifier": "every device table (loads, capacities, batch sizes, priorities incl. NaN and infinities)", "why_tests_cant": "The choice must be right for every table, including floating-point corner cases of the comparison.", "anchors": ["neml2/csrc/dispatchers/StaticHybridScheduler.cpp: schedule_work_impl"]}
{"id": "C18", "title": "Accepted hybrid configurations satisfy the documented constraints", "statement": "A StaticHybridScheduler is constructed exactly when its lists have matching or broadcast lengths, devices are distinct with at most one CPU, batch sizes are positive and capacities are at least the batch sizes; a chunk can then always be placed on an idle pool.", "quantifier": "every configuration", "why_tests_cant": "Configuration space is unbounded; acceptance must be an iff.", "anchors": ["neml2/csrc/dispatchers/StaticHybridScheduler.cpp: StaticHybridScheduler ctor, broadcast"]}
{"id": "C19", "title": "A scheduler shared by several dispatchers still respects capacity", "statement": "When several callers drive one asynchronous scheduler at the same time, the load on each device still never exceeds its capacity.", "quantifier": "every number of concurrent callers and every interleaving", "why_tests_cant": "The violation needs two callers inside the window between schedule_work and dispatched_work.", "anchors": ["neml2/csrc/dispatchers/AsyncScheduler.cpp: schedule_work, dispatched_work"]}
{"id": "C20", "title": "MPI device assignment covers the devices evenly", "statement": "With at least one rank per device on a node, the round-robin assignment gives every listed device at least one rank and the numbers of ranks on two devices differ by at most one; with fewer ranks construction raises. A device list is accepted exactly when its entries are pairwise distinct physical devices under the documented rules.", "quantifier": "every number of ranks, devices, and every device list; per node when host names have distinct MPI colours", "why_tests_cant": "Counts and lists are unbounded.", "anchors": ["neml2/csrc/dispatchers/MPISimpleScheduler.cpp: mpi_device_index, parse_mpi_devices"]}
{"id": "C21", "title": "Parameter updates reach every device copy", "statement": "After any history of set_parameter calls, mutable named_parameters() accesses and dispatched evaluations, every dispatched evaluation uses on every device the parameter values currently visible in the master map.", "quantifier": "every history of operations and every number of device copies, where a write through the mutable map happens at the access that hands the map out", "why_tests_cant": "Staleness is a property of operation histories.", "anchors": ["neml2/csrc/dispatchers/DispatchedModel.cpp: sync_params, params_mut, set_parameter"]}
{"id": "C22", "title": "Per-call parameter overrides are scoped", "statement": "An override map passed to one evaluation affects that evaluation only: inside it a listed parameter resolves to the override and any other to the stored value; afterwards, whether the evaluation returned or threw, resolution is what it was before, also when evaluations nest.", "quantifier": "every nesting and sequence of evaluations by one thread at a time per Model, with and without exceptions, every override map", "why_tests_cant": "Restoration must hold on every exit path of every nesting.", "anchors": ["neml2/csrc/aoti/internal.h: ParamOverrideGuard", "neml2/csrc/aoti/Model.cpp: _resolve_param"]}
{"id": "C23", "title": "Boundary renames are transparent", "statement": "An artifact with boundary renames behaves as the unrenamed one with every name translated: calling with renamed inputs gives the renamed outputs of the original call, and no entry is lost or merged when the rename is injective and does not collide with an unrenamed name.", "quantifier": "every rename table and value map", "why_tests_cant": "Collisions and partial renames are combinatorial.", "anchors": ["neml2/csrc/aoti/Model.cpp: rekey, rekey_nested, Model::forward/jvp/jacobian/param_vjp"]}
{"id": "C24", "title": "Input preparation broadcasts to one common batch or raises", "statement": "Before evaluation every declared input is brought to one common dynamic batch shape, the broadcast of all inputs' batch shapes, keeping each input's values row for row; a missing input, a wrong base shape or an incompatible batch raises; undeclared extra inputs are ignored.", "quantifier": "every input map whose tensors have at least their declared rank (sub-batch and base axes present), every batch shape and declared base shape", "why_tests_cant": "Broadcasting rules over arbitrary ranks cannot be sampled exhaustively.", "anchors": ["neml2/csrc/aoti/ops.cpp: _validate_input_shape, _dynamic_batch_shape_of, _prepare_inputs"]}
{"id": "C25", "title": "Model evaluation is row-independent when its graphs are", "statement": "If every compiled segment graph acts row by row along the batch, then so does Model::forward: evaluating a sub-range of rows gives those rows of the full evaluation.", "quantifier": "every chain of forward segments, every batch and sub-range, every input and parameter map aligned on the leading batch axis (full batch rank with leading size 1 or B, or lower rank and not sliced)", "why_tests_cant": "This is the hypothesis C03 and C09 rest on, for every model structure.", "anchors": ["neml2/csrc/aoti/ops.cpp: forward", "neml2/csrc/aoti/solve.cpp: _run_forward_segment"]}
{"id": "C26", "title": "Composed Jacobian is the chain rule", "statement": "Model::jacobian returns for each requested (output, input) pair the block obtained by composing the segments' own Jacobian blocks along the evaluation order (implicit segments through the implicit function theorem), with zero for pairs not connected by any path.", "quantifier": "every segment graph, every block values and column layout", "why_tests_cant": "All paths through all graphs must be summed exactly once.", "anchors": ["neml2/csrc/aoti/ops.cpp: _jacobian_dstate, jacobian", "neml2/csrc/aoti/jacobian.cpp: _init_dstate, _run_forward_segment_jacobian, _run_implicit_segment_jacobian"]}
{"id": "C27", "title": "Derivative column layout is a partition", "statement": "The columns reserved for the requested inputs (and for the requested parameters) are disjoint, contiguous and fill the carrier exactly, each input appearing once, so reading back a pair's band returns what was accumulated for that input only.", "quantifier": "every list of requested derivative pairs and variable sizes, with repetitions", "why_tests_cant": "Offsets are prefix sums over arbitrary lists with duplicates.", "anchors": ["neml2/csrc/aoti/Model.cpp: Impl ctor (_req_input_*, _req_param_*, _input_offsets)"]}
{"id": "C28", "title": "jvp is the Jacobian applied to the tangent", "statement": "Model::jvp returns J v where J is the Jacobian jacobian() returns at the same point; inputs without a supplied tangent contribute zero, and the result is linear in the tangents.", "quantifier": "every model, tangent map (including partial ones) and batch", "why_tests_cant": "Linearity and agreement are equalities over all tangents.", "anchors": ["neml2/csrc/aoti/ops.cpp: jvp"]}
{"id": "C29", "title": "param_vjp is the transposed parameter Jacobian applied to the cotangent", "statement": "Model::param_jacobian composes the segments' own parameter blocks by the chain rule, and Model::param_vjp returns exactly for each requested parameter w^T dy/dp summed over outputs, reduced over the batch for a global parameter and kept per element for a batched one (the adjoint of the parameter Jacobian); a missing cotangent raises.", "quantifier": "every model with parameter derivatives, cotangent map, stored parameter shape", "why_tests_cant": "Equality over all cotangents and parameter shapes.", "anchors": ["neml2/csrc/aoti/ops.cpp: param_vjp, param_jacobian"]}
{"id": "C30", "title": "A returned Newton solve is converged", "statement": "If Newton::solve returns, the residual at the returned iterate meets atol or rtol for every batch row, with no NaN row accepted; in every other case it raises a recoverable ConvergenceError and publishes nothing.", "quantifier": "every nonlinear system (any residual and step functions), start point, tolerance and iteration setting", "why_tests_cant": "Systems and float corner cases (NaN, infinity, zero initial residual) are unbounded.", "anchors": ["neml2/csrc/aoti/newton.cpp: check_converged, check_stop, Newton::solve"]}
{"id": "C31", "title": "Newton's iteration count is bounded by the configured maximum", "statement": "Newton::solve performs at most miters-1 Newton updates and at most 1+(ls_max_iters-1) residual evaluations per update, then raises; the reported iteration count is the number of updates performed.", "quantifier": "every system and configuration", "why_tests_cant": "Loop bounds must hold for every non-converging system.", "anchors": ["neml2/csrc/aoti/newton.cpp: Newton::solve, newton_iterate"]}
{"id": "C32", "title": "Line search steps are admissible and per-row", "statement": "Each row's accepted step is du scaled by 1/cutback^k with k below ls_max_iters; it stops at the first k meeting the decrease criterion (or the absolute tolerance) and one row's choice does not depend on other rows.", "quantifier": "every batch, residual function and line-search configuration", "why_tests_cant": "Row coupling only shows for particular combinations of rows.", "anchors": ["neml2/csrc/aoti/newton.cpp: newton_iterate, alpha_for_group"]}
{"id": "C33", "title": "Masked solve: the mask is truthful and converged rows are frozen", "statement": "Newton::solve_masked does not raise unless the system does; a row is marked converged exactly when its residual at the returned iterate meets the tolerance test; once an update leaves a row converged its iterate never changes again (up to the sign of zero).", "quantifier": "every system, start point, configuration with finite step lengths, and batch", "why_tests_cant": "Invariants over all iterations and all rows.", "anchors": ["neml2/csrc/aoti/newton.cpp: Newton::solve_masked"]}
{"id": "C34", "title": "Masked solve treats rows independently", "statement": "For a row-decoupled system, the iterate and mask a row gets from solve_masked in a batch equal those it gets when solved alone.", "quantifier": "every batch composition, system and configuration", "why_tests_cant": "A counterexample needs a particular pairing of rows.", "anchors": ["neml2/csrc/aoti/newton.cpp: Newton::solve_masked"]}
{"id": "C35", "title": "Substepping covers the increment exactly once", "statement": "For each batch row the intervals on which substeps are accepted tile [0,1] from left to right, each a dyadic interval no shorter than 2^-max_level, whatever the pattern of convergence failures; the number of solves is bounded.", "quantifier": "every failure pattern and every maximum level", "why_tests_cant": "Failure patterns form an unbounded tree.", "anchors": ["neml2/csrc/aoti/substep.cpp: _run_implicit_segment_substepped_masked (solve_to)"]}
{"id": "C36", "title": "Masked substepping equals row-by-row substepping", "statement": "Advancing a batch with the masked substepping driver gives every row the state it would reach if substepped alone, when the underlying masked solve treats rows independently.", "quantifier": "every batch, every per-row pattern of failures, every maximum level", "why_tests_cant": "Rows at different refinement levels interleave in combinatorially many ways.", "anchors": ["neml2/csrc/aoti/substep.cpp: solve_to, index_select/scatter usage"]}
{"id": "C37", "title": "Exhausted substepping raises recoverably", "statement": "If some row still fails at the finest level, the call raises a recoverable ConvergenceError rather than returning a partially advanced state, and it returns normally only when every row was advanced to the end.", "quantifier": "every failure pattern and batch", "why_tests_cant": "The set of failing rows is arbitrary.", "anchors": ["neml2/csrc/aoti/substep.cpp: solve_to (level >= max)"]}
{"id": "C38", "title": "Substep interpolation hits the endpoints and chains state", "statement": "On sub-interval [a,b] a current-force input equals old + b (new-old), an old-force input equals old + a (new-old), an old-state input equals the state accepted at a, a static input is unchanged; consecutive substeps therefore agree at their shared endpoint and the last one ends at the prescribed value.", "quantifier": "every interval, every role assignment, every value", "why_tests_cant": "Equality over all intervals.", "anchors": ["neml2/csrc/aoti/substep.cpp: _apply_substep_span"]}
{"id": "C39", "title": "Substepped tangent is the chained tangent", "statement": "The derivative accumulated across substeps equals the chain-rule product over the accepted sub-intervals.", "quantifier": "every sequence of accepted sub-intervals and block values", "why_tests_cant": "Arbitrary sequence length.", "anchors": ["neml2/csrc/aoti/substep.cpp: _run_implicit_segment_substepped_masked_jacobian"]}
{"id": "C40", "title": "The caller's initial guess is honoured", "statement": "When an unknown's value is supplied with the inputs, an implicit solve starts from it, with or without substepping.", "quantifier": "every input map and substepping level", "why_tests_cant": "Depends on configuration combinations.", "anchors": ["neml2/csrc/aoti/solve.cpp: _run_implicit_segment (warm start)", "neml2/csrc/aoti/substep.cpp"]}
{"id": "C41", "title": "Packing variables into groups and back is lossless", "statement": "Packing variables into the solver's per-group storage and unpacking returns every variable's original tensor; distinct variables occupy disjoint slots.", "quantifier": "every grouping, variable size, sub-batch and base shape", "why_tests_cant": "Shapes and groupings are unbounded.", "anchors": ["neml2/csrc/aoti/solve.cpp: _pack_groups, _unpack_groups"]}
{"id": "C42", "title": "Krylov flattening is lossless", "statement": "Flattening a list of dense group tensors to one (rows x unknowns) matrix and unflattening returns the original tensors.", "quantifier": "every list of group shapes and batch shape", "why_tests_cant": "As C41.", "anchors": ["neml2/csrc/aoti/krylov_flatten.h: flatten_dense, unflatten_dense"]}
{"id": "C43", "title": "Krylov solves respect the iteration budget", "statement": "A Krylov solve uses at most max_its operator applications and always terminates.", "quantifier": "every operator, right-hand side and configuration", "why_tests_cant": "Budget must hold for every non-converging system.", "anchors": ["neml2/csrc/aoti/krylov.h: gmres, bicgstab"]}
{"id": "C44", "title": "Krylov rows are independent", "statement": "The solution a row gets in a batched Krylov solve does not depend on the other rows; a row that has converged is not changed any more.", "quantifier": "every batch, row-decoupled operator and preconditioner", "why_tests_cant": "Needs particular row combinations.", "anchors": ["neml2/csrc/aoti/krylov.h: gmres, bicgstab"]}
{"id": "C45", "title": "An unconverged linear sensitivity solve is reported", "statement": "A derivative computed through the iterative solver is returned only if the linear solve met its tolerance.", "quantifier": "every operator and right-hand side", "why_tests_cant": "Needs a non-converging operator.", "anchors": ["neml2/csrc/aoti/krylov.h: krylov_solve_dense"]}
{"id": "C46", "title": "Preconditioner cache policy", "statement": "Across a Newton solve the preconditioner is rebuilt at every step (none), only at the first (chord), or at the first and after any solve that took more than the configured number of linear iterations (max_its).", "quantifier": "every sequence of linear iteration counts", "why_tests_cant": "Sequences are unbounded.", "anchors": ["neml2/csrc/aoti/nonlinear_system_krylov.h: needs_precond_rebuild, step"]}
{"id": "C47", "title": "Every exception at the public surface is classified", "statement": "Whatever is thrown inside a public operation, what leaves is a neml2 exception; library exceptions pass unchanged, anything else becomes a non-recoverable FatalError; an aggregate is recoverable iff it is non-empty and all parts are.", "quantifier": "every exception and every nesting of aggregates", "why_tests_cant": "Nesting is unbounded.", "anchors": ["neml2/csrc/aoti/assertions.h: _guarded", "neml2/csrc/aoti/Exception.cpp: AggregateError, eptr_recoverable"]}
{"id": "C48", "title": "Log level resolution order", "statement": "The effective level of a channel is the environment's entry for that channel, else the environment's 'all' entry, else the programmatic entry for the channel, else the programmatic default, else warning; a programmatic change never overrides the environment, and reset_defaults restores the environment/warning view.", "quantifier": "every sequence of level settings and every environment string", "why_tests_cant": "Histories and strings are unbounded.", "anchors": ["neml2/csrc/aoti/log.cpp: effective_locked, set_default_level, reset_defaults, apply_env_locked"]}
{"id": "C49", "title": "A malformed log environment is reported consistently", "statement": "If NEML2_LOGS contains an invalid entry, every use of the log store reports it, or none does and no part of the string takes effect.", "quantifier": "every environment string and every sequence of log operations", "why_tests_cant": "Depends on the order of first use.", "anchors": ["neml2/csrc/aoti/log.cpp: apply_env_locked"]}
{"id": "C50", "title": "The predictor feedback loop runs exactly the configured number of rounds", "statement": "A predictor with feedback is evaluated exactly `iterations` times, each round receiving the previous round's designated output (zeros in the first), and its last outputs are the initial guess; without feedback it is evaluated once.", "quantifier": "every iteration count and every predictor function", "why_tests_cant": "Counts are unbounded.", "anchors": ["neml2/csrc/aoti/solve.cpp: _run_predictor"]}
{"id": "C51", "title": "Capture flag parsing", "statement": "Solve-failure capture is enabled exactly when the environment variable is set to a value other than the documented negatives.", "quantifier": "every environment string", "why_tests_cant": "Strings are unbounded.", "anchors": ["neml2/csrc/aoti/solve.cpp: capture_solve_failure_enabled"]}
{"id": "C52", "title": "Chunk size does not change an implicit model's answer beyond the tolerance", "statement": "For models with an implicit segment, the rows returned for different chunk sizes each meet the convergence tolerance; equality bit for bit across chunk sizes would require row-independent termination.", "quantifier": "every nonlinear system, batch and chunk size", "why_tests_cant": "A difference needs rows with different convergence speed in one chunk.", "anchors": ["neml2/csrc/aoti/newton.cpp: Newton::solve (all-reduce)", "neml2/csrc/dispatchers/DispatchedModel.cpp: forward"]}
{"id": "C53", "title": "Capturing a solve failure only adds information", "statement": "With solve-failure capture enabled, successful solves and errors of other classes are exactly as without it; a failure to converge stays the same recoverable error with the same message, and the attached mask marks the rows that did not converge (at least one).", "quantifier": "every segment, state, solver configuration and nonlinear system", "why_tests_cant": "Capture re-runs a different algorithm (masked solve) after the failure; the outcome depends on the iteration history of each row.", "anchors": ["neml2/csrc/aoti/solve.cpp: _run_implicit_segment", "neml2/csrc/aoti/newton.cpp: Newton::solve_masked"]}
{"id": "C54", "title": "A row reported converged meets the linear tolerance", "statement": "A row that a Krylov solve reports as converged has a residual b - A x within the configured absolute or relative tolerance.", "quantifier": "every linear operator, preconditioner, right-hand side and configuration", "why_tests_cant": "The solvers test a recursively updated or estimated residual; whether it is the true one depends on the whole iteration history and on breakdowns.", "anchors": ["neml2/csrc/aoti/krylov.h: gmres, bicgstab"]}
{"id": "C55", "title": "Asking for derivatives does not change the values", "statement": "The outputs returned next to the derivatives by jacobian() and jvp() are the outputs forward() returns for the same inputs and parameters, whatever mixture of forward, implicit and substepped segments the model has.", "quantifier": "every model, every input map, every parameter map, every requested pair list, every tangent map", "why_tests_cant": "The value path and the derivative path are separate loops over separate compiled graphs; only all segment mixtures together show they compute the same thing.", "anchors": ["neml2/csrc/aoti/ops.cpp: forward, jacobian, jvp", "neml2/csrc/aoti/jacobian.cpp: _run_forward_segment_jacobian, _run_implicit_segment_jacobian", "neml2/csrc/aoti/substep.cpp"]}
{"id": "C56", "title": "param_jacobian() returns the values forward() returns", "statement": "The outputs returned by param_jacobian() are the outputs forward() returns for the same inputs and parameters.", "quantifier": "every model, input map and parameter map", "why_tests_cant": "param_jacobian() has its own broadcast of parameters and its own segment loop; a difference needs substepping or sub-batch axes.", "anchors": ["neml2/csrc/aoti/ops.cpp: param_jacobian", "neml2/csrc/aoti/jacobian.cpp: _param_jacobian_dstate"]}
{"id": "C57", "title": "What an implicit segment returns solves its equations", "statement": "Whenever forward() (or jvp() or jacobian()) returns, then for each implicit segment without substepping the compiled residual graph, evaluated at the unknowns the segment wrote together with the givens and parameters of that state, has in every batch row a norm within the configured tolerance (absolute, or relative to the residual at the initial guess) - whatever the Jacobian, linear-solve, Krylov and predictor graphs returned. In masking mode this holds for the rows marked converged.", "quantifier": "every model with implicit segments, every group layout (dense and block), batch shape, solver configuration, reduction order and compiled graph", "why_tests_cant": "It ties Newton's internal test to the tensors a user receives, through packing, unpacking, group order and predictor seeding; a slip anywhere is visible only on particular layouts.", "anchors": ["neml2/csrc/aoti/solve.cpp: _make_implicit_system, _run_implicit_segment, _run_implicit_segment_masked", "neml2/csrc/aoti/nonlinear_system_aoti.cpp", "neml2/csrc/aoti/newton.cpp: Newton::solve"]}
{"id": "C58", "title": "A substepped segment returns only states reached through solved substeps", "statement": "If forward() over a model with a substepped implicit segment returns, then for every row of the batch the unit step was cut, by halving at most the configured number of times, into consecutive pieces, and in each piece the segment's residual graph at the piece's unknowns (forces interpolated to the ends of the piece, old states those the previous piece ended in, other givens the caller's) is within the solver's tolerances; the unknowns in the result are those of the last piece, over the caller's batch, and nothing else of the state changes. No row comes back from a piece its solve had not marked as converged.", "quantifier": "all segments, graphs, predictors that keep the rows, batches, levels of substepping, models", "why_tests_cant": "which rows fail and how often they are cut depends on the data; a row carried over from a failed piece looks like any other number", "anchors": ["neml2/csrc/aoti/substep.cpp", "neml2/csrc/aoti/solve.cpp:415-467", "neml2/csrc/aoti/newton.cpp:436-537", "neml2/csrc/aoti/ops.cpp:153-197"]}
{"id": "C59", "title": "A Newton step by a Krylov solve solves the linearised system of every row", "statement": "When the Newton step of a matrix-free system returns an increment, its right-hand side is the residual at the point the step was given, the increment has the unknowns' groups, and in every row of the batch it is what one Krylov solve returned for that row of the residual as right-hand side, with the Jacobian action at that point restricted to the row as operator and the preconditioner set up at the moment; the number of iterations the step records is that of this solve. In exact arithmetic, an increment whose solve stopped before its budget leaves a linear residual within the tolerances in every row: for BiCGStab the plain residual, for GMRES the preconditioned one, up to the dtype's epsilon times the steps the increment is the sum of, where no direction's norm was floored and preconditioner and operator together are not below epsilon.", "quantifier": "all group layouts without block groups, widths, batches, operators acting row by row, preconditioners, configurations", "why_tests_cant": "the groups are concatenated, reshaped and split again around every product; a wrong width or offset mixes unknowns and only slows Newton down", "anchors": ["neml2/csrc/aoti/nonlinear_system_krylov.h:75-169", "neml2/csrc/aoti/krylov_flatten.h:77-128", "neml2/csrc/aoti/krylov.h:120-410"]}
{"id": "C60", "title": "The loader reads back what the exporter wrote", "statement": "For every artifact the exporter can write, the constructor succeeds on the metadata and the model it makes holds the artifact's contents: the rename tables, the inputs and outputs with the offsets that the sizes add up to, the requested derivatives, every parameter under its boundary name with its values in its own or else the requested scalar type, the solver settings and every segment with its packages, variables, groups, pairs and offsets, sensitivity descriptions and predictor. In any metadata that loads, a setting that is present arrives in its own field and one that is absent has its default.", "quantifier": "all artifacts (numbers of segments, variables, parameters, optional packages, names), settings present or absent, scalar types, devices", "why_tests_cant": "the two sides are written in two languages with some sixty key strings between them; a swapped or misspelt optional key silently leaves a default in place", "anchors": ["neml2/csrc/aoti/Model.cpp:278-876", "neml2/csrc/aoti/internal.h:184-450", "neml2/cli/aoti_export.py:3575-3626"]}
{"id": "C61", "title": "Malformed metadata is refused", "statement": "A constructor call that succeeds met metadata of the supported version and type for an existing device and scalar type directory; every segment is of the kind its description names, all its packages could be opened, an implicit segment has unknowns, a predictor's feedback variable is taken a positive number of times from an output to an input of the predictor, requested derivatives are with respect to existing inputs and parameters, and every parameter's values fill its shape. Otherwise the constructor raises.", "quantifier": "all JSON values", "why_tests_cant": "the inputs that matter are those nobody wrote; each check guards one of many keys", "anchors": ["neml2/csrc/aoti/Model.cpp:278-876"]}
{"id": "C62", "title": "Failures keep their meaning across the Python boundary", "statement": "However often an exception crosses between C++ and Python on its way to the caller, a failed solve arrives recoverable and nothing else does; its message stays part of the message shown unless Python code replaces it; an operation of the compiled model throws only neml2 exceptions, and so does one of the eager model unless a non-std exception is thrown without Python in between; and a captured failure (mask and unknowns) is still attached.", "quantifier": "all stacks of facade, bound, called, replacing and eager frames; all exceptions but aggregates, which no bound function throws", "why_tests_cant": "a test crosses the boundary once or twice; each crossing has its own translator", "anchors": ["neml2/csrc/aoti/_aoti.cpp:65-123", "neml2/csrc/eager/Model.cpp:44-104", "neml2/csrc/aoti/assertions.h:73-93"]}
{"id": "C63", "title": "In exact arithmetic GMRES flags are right", "statement": "In exact arithmetic, for a linear operator A and a linear preconditioner M whose product does not shrink a vector by more than the dtype's epsilon, and as long as no basis vector's norm had to be floored: a row that GMRES reports as converged is returned with a preconditioned residual M (b - A x) that meets the absolute or relative tolerance up to epsilon times the steps taken (the effect of the regularised triangular solve); a row that it reports as not converged after a solve with a positive budget has a preconditioned residual that meets neither. Without a preconditioner this is the residual b - A x itself. If moreover the restart width is at least the number n of unknowns, a tolerance is positive and the budget is not zero, every row is flagged within n iterations; with shorter cycles a solve may stagnate for ever.", "quantifier": "every dimension, batch, row, restart width, number of cycles, tolerances, operators", "why_tests_cant": "the solver never forms the residual within a cycle; it trusts the last entry of a vector updated by plane rotations, which is right only if orthogonality and the rotated least squares problem are kept through every column and every restart", "anchors": ["neml2/csrc/aoti/krylov.h:173-309"]}
{"id": "C64", "title": "The embedded interpreter is started once and Python runs only under the GIL", "statement": "However threads that construct and use eager models interleave: at most one interpreter is started, none where the host has one already; the GIL is taken only when free and given up only by its holder; no Python runs without it or before there is an interpreter. If the set-up of the streams succeeds, every run ends, with no thread left waiting, mutex and GIL free, and every thread's Python having run exactly once.", "quantifier": "all interleavings of any number of threads and operations, Python code giving up the GIL at any point, C++ and Python hosts", "why_tests_cant": "a race for the first construction or a lock order problem shows under one schedule in very many", "anchors": ["neml2/csrc/eager/interpreter.cpp:37-78", "neml2/csrc/eager/Model.cpp:69-116"]}
{"id": "C65", "title": "The custom op is registered once, whoever comes first", "statement": "However constructions of aoti models and imports of the Python package in one process interleave, the schema of neml2::opaque_pow is registered at most once; when all have come to an end the op has a schema and a kernel; constructions alone, imports alone, and constructions after a finished import all succeed; so does an import after a construction.", "quantifier": "all interleavings of any number of constructions and imports, failing registrations", "why_tests_cant": "the outcome depends on which of two libraries registers first in the process; each test process uses one order", "anchors": ["neml2/csrc/aoti/custom_ops.cpp:77-110", "neml2/types/functions.py:135-166"]}
{"id": "C66", "title": "The steps of an implicit segment come from its own linearisation", "statement": "The unknowns a solved implicit segment leaves in the state are the end of a sequence of fewer than miters Newton updates from its initial guess. Each update moves every row by an allowed step length along the increment of the segment at the point it starts from: the solve graph applied to the Jacobian graph's output there, or, for a matrix-free segment, the result of a Krylov solve whose right-hand side is the residual graph there, whose operator is the Jacobian-action graph there with the same givens and parameters, and whose preconditioner was set up at the point the cache policy prescribes from the iteration counts of the earlier solves. No update starts from a point within tolerance. In masking mode exactly the rows that met the masked tolerances after an earlier update stay where they are.", "quantifier": "all segments, states, graphs (answering on one device in the shapes of the metadata), configurations, cache policies, batch shapes", "why_tests_cant": "a converged result looks the same whichever increments led to it; tests compare results, and swapped arguments or a stale preconditioner can still converge on a test problem", "anchors": ["neml2/csrc/aoti/nonlinear_system_aoti.cpp:38-105", "neml2/csrc/aoti/nonlinear_system_krylov_aoti.cpp:30-118", "neml2/csrc/aoti/nonlinear_system_krylov.h:75-169", "neml2/csrc/aoti/newton.cpp:169-274", "neml2/csrc/aoti/newton.cpp:302-537", "neml2/csrc/aoti/solve.cpp:211-251"]}
{"id": "C67", "title": "Logging from any threads is atomic, loses nothing and cannot deadlock", "statement": "However the steps of any number of threads that log, change levels or install sinks are interleaved, the answers are those of the calls made one after the other in some order, each thread getting the answers of its own calls; each line due is given, once, by the thread that emitted it and in its order, to the sink that was installed at that moment; a sink runs without the mutex, so it may log or install sinks itself and may throw to the caller of emit; a Python sink runs with the GIL; no schedule deadlocks, and if the sinks themselves do not emit and the programs end, every schedule ends.", "quantifier": "all programs of C++ and Python threads, all sinks, all NEML2_LOGS specifications, all schedules; the environment variable does not change meanwhile", "why_tests_cant": "thread sanitizers see one schedule; the interplay of the log mutex with the GIL shows only under rare interleavings", "anchors": ["neml2/csrc/aoti/log.cpp:62-90", "neml2/csrc/aoti/log.cpp:95-153", "neml2/csrc/aoti/log.cpp:176-226", "neml2/csrc/aoti/log.cpp:240-287", "neml2/csrc/aoti/_aoti.cpp:672-707"]}
{"id": "C68", "title": "Watching a solve does not change it, and what is written about it is true", "statement": "With console output at any level and collect_log on or off, a Newton solve (plain or masked) of a non-empty batch gives the same result, bit for bit, by the same calls of the system in the same order; a sink that throws ends the solve at that line and nothing before it is changed. The collected lines of a solution, and the debug lines whatever the outcome, are its history: start, every line search trial, every iteration, each with the largest residual norm at its own point, lines 0 to k for k iterations; both are the same lines. At info there is one opening line and, unless the system threw, one summary that is true of the outcome (iteration count, and the tolerance met by all rows) and one closing line.", "quantifier": "all systems, configurations, start batches, levels, sinks; any max/min reduction", "why_tests_cant": "the logging branches are excluded from coverage (LCOV_EXCL) and run only at verbosities the tests do not use", "anchors": ["neml2/csrc/aoti/newton.cpp:161-274", "neml2/csrc/aoti/newton.cpp:281-293", "neml2/csrc/aoti/newton.cpp:302-434", "neml2/csrc/aoti/newton.cpp:436-537"]}
{"id": "C69", "title": "A compiled artifact computes what it says, end to end", "statement": "An artifact written by the exporter loads, and forward(), jvp() and jacobian() of the loaded model, called with the names of the boundary, return under the names of the boundary the values the artifact describes: the inputs broadcast to their common batch, every segment in order; a forward segment the outputs of its package at its inputs and at its parameters, broadcast to the batch with their base axes kept; an implicit segment unknowns at which the residual of its own package meets the tolerances written in the artifact (with substepping: in every substep), reached from the predictor's guess by Newton steps of its own packages; every parameter the override of the call or the stored value in its scalar type. Everything else of the state is left alone. Without implicit segments forward() returns a result whenever every package has one. param_jacobian() returns such values too unless a segment substeps or the first input has sub-batch axes, and it and param_vjp() differentiate a model that has the segments, packages, pairs, solves, outputs and base shapes of the artifact.", "quantifier": "all artifacts the exporter can write, inputs, overrides, package functions and scalar types", "why_tests_cant": "each test loads a few artifacts and compares numbers; that a size, tolerance, role, package or name of metadata.json reaches the right place of the run is visible only when it matters for the numbers of that test", "anchors": ["neml2/csrc/aoti/Model.cpp:348-870", "neml2/csrc/aoti/Model.cpp:879-1004", "neml2/csrc/aoti/ops.cpp:60-332", "neml2/csrc/aoti/solve.cpp:30-330", "neml2/csrc/aoti/internal.h:195-460"]}
{"id": "C70", "title": "A compiled bundle loads from wherever it lies", "statement": "A stub reached by any path (relative, absolute, through . and ..), naming an artifact by a path relative to the stub's own directory or absolute, loads: one model per device of the scheduler (cpu without one), the first being the primary, each with the description of metadata.json in double precision and with the packages of its own kind of device; each computes what the artifact says. Moved as a whole to another directory or machine the bundle gives the same models. Nothing else loads: a missing stub, block, artifact_path, metadata.json or device folder, another block type, an empty path or an unusable scheduler is refused with a FatalError. Devices are cpu or cuda.", "quantifier": "all file systems, working directories, stubs, paths, artifacts the exporter can write, schedulers over cpu and cuda devices", "why_tests_cant": "tests load from the directory where they compiled, on one machine with one device; path resolution depends on the layout of the user's disk", "anchors": ["neml2/csrc/dispatchers/factory.cpp:37-92", "neml2/csrc/dispatchers/DispatchedModel.cpp:47-93", "neml2/csrc/dispatchers/DispatchedModel.cpp:380-386", "neml2/csrc/aoti/Model.cpp:261-346"]}
{"id": "C71", "title": "Solving in Python is solving the compiled model", "statement": "A Newton solve of a model in Python, with an assembled Jacobian or matrix-free with or without a preconditioner, gives the unknowns, iterations, errors and log lines that the solve of the compiled implicit segment of the same model gives, plain and masked; the Krylov solves of its derivatives return what krylov_solve_dense returns. Numeric settings arrive in C++ as the numbers they are in Python or are refused with a TypeError before anything is called, and so are Krylov methods and cache strategies that do not exist.", "quantifier": "all modules and graphs computing the same functions (the parameters held or passed), groups, unknowns, settings, sinks and levels", "why_tests_cant": "tests compare the two routes on a few models by tolerance, where a different order of arguments, cache policy or stopping rule can hide", "anchors": ["neml2/csrc/aoti/nonlinear_system_eager.cpp:40-199", "neml2/csrc/aoti/_aoti.cpp:353-609", "neml2/solvers/newton.py:149-359", "neml2/solvers/_krylov.py:98-123", "neml2/es/implicit.py:312-358"]}
{"id": "C72", "title": "A loaded model serves what its artifact says", "statement": "After load_model() and any changes to the parameters, forward() on a batch that returns has cut it into ranges of rows that tile it, each within the batch size of the scheduler (of the device that took it, in a pool), and its result holds in the place of each range what the artifact's graph of segments says, on the device used, of these rows of the inputs with the parameters as they are now, those given per batch element cut likewise; names in and out are those of the boundary. This holds for synchronous and asynchronous schedulers and every schedule of the pool. Overrides of a call replace the parameters of the same name and no other. A call without inputs raises a FatalError and changes nothing.", "quantifier": "all bundles, schedulers, devices, histories of parameter changes, batches, inputs, and schedules of the pool", "why_tests_cant": "it ties loading, path lookup, parameter sync, chunking, the pool and the evaluation together; a test fixes one bundle, one batch size and one schedule, and on one device a stale or uncut parameter gives the same numbers", "anchors": ["neml2/csrc/dispatchers/DispatchedModel.cpp:45-124", "neml2/csrc/dispatchers/DispatchedModel.cpp:400-470", "neml2/csrc/aoti/Model.cpp:522-527", "neml2/csrc/aoti/Model.cpp:958-1072"]}
{"id": "C73", "title": "The substepping drivers tell the truth about a call, and watching them changes nothing", "statement": "A call of a substepping driver (value or with derivatives) that returns has, with the Substep log channel at Debug, one line after each solve giving its interval, the number of halvings that led to it, and how many rows were solved, converged and failed; at Info its last line gives the number of rows, how many of them failed the full step, the deepest level reached and the number of solves. With a sink that never throws, the solves and the result are those without logging, and with failure capture too. A call that fails names the level and the number of rows still failing in its last solve; with failure capture it also carries the unknowns and the mask of the full step of the whole batch, in the shape of the batch, each row being what that row's own full step gives.", "quantifier": "all segments, batches of any shape, levels, thresholds, sinks, and with or without capture", "why_tests_cant": "the counters and the captured step are set deep in a recursion whose path depends on which rows fail where; a test that fails at level 0 or with one row cannot tell the full step from the failing substep, or the batch from the active rows", "anchors": ["neml2/csrc/aoti/substep.cpp:146-300", "neml2/csrc/aoti/substep.cpp:302-515"]}
{"id": "C74", "title": "A loaded model serves the derivatives its artifact says", "statement": "As C72 for jvp(), jacobian(), param_jacobian() and param_vjp(): a call that returns has cut the batch into ranges of rows that tile it, each within the batch size of the scheduler or of the device that took it. Values, Jacobian-vector products and blocks hold in the place of each range what the model described by the artifact (C26, C28, C29) computes for these rows of inputs, tangents and cotangents, at the parameters as they are now, those given per batch element cut likewise, under the names of the boundary; the values are what the artifact's graph says. A block with the base axes only is that of the first range. The gradient by a parameter given per batch element has the rows of the ranges in place, any other is the sum of the gradients of the ranges. This holds for synchronous and asynchronous schedulers and every schedule of the pool, and overrides of a call replace the parameters of the same name and no other. A call without inputs raises a FatalError and changes nothing.", "quantifier": "all bundles, schedulers, devices, histories of parameter changes, batches, inputs, tangents, cotangents, and schedules of the pool", "why_tests_cant": "a Jacobian block or gradient may be stitched, taken once or summed depending on its rank and on whether a parameter is given per batch element; a test on one chunk, one device, or with equal rows cannot tell these apart, nor a stale parameter in the derivative only", "anchors": ["neml2/csrc/dispatchers/DispatchedModel.cpp:126-351", "neml2/csrc/dispatchers/DispatchedModel.cpp:400-470", "neml2/csrc/aoti/Model.cpp:972-1041", "neml2/csrc/aoti/Model.cpp:408-424"]}
{"id": "C75", "title": "The log of a linear solve tells the truth, and watching it changes nothing", "statement": "With a hook installed a Krylov solve makes the same operator and preconditioner calls and returns the same answer as without, unless the sink raises; then it ends there with the sink's exception. Its lines are about iterations 1, 2, 3, ... and there are as many as iterations reported; a line below a tolerance is the last one and all rows have converged. In exact arithmetic line i of BiCGStab gives the largest residual norm (and largest ratio to |b|) of the answer to the same solve with a budget of i iterations; line i of the first GMRES cycle that of the preconditioned residual, but for eps times the answer. A Newton step with the linear channel on at Debug writes these lines, at Warning a summary that counts the rows that did not converge, at Info that all did; none of this changes the step.", "quantifier": "all methods, batches, operators, preconditioners, tolerances, budgets, arithmetics, levels and sinks", "why_tests_cant": "the log code is excluded from coverage (LCOV_EXCL) and its numbers come from recurrences, not from b - A x; a test that reads a few lines cannot tell a residual one iteration late, of one row only, or of a frozen row", "anchors": ["neml2/csrc/aoti/krylov.h:173-309", "neml2/csrc/aoti/krylov.h:317-397", "neml2/csrc/aoti/nonlinear_system_krylov.h:125-166"]}
{"id": "C76", "title": "An eager model answers as the compiled model of the same equations", "statement": "Inputs neml2::eager::Model takes reach the model in Python broadcast to their common batch, as the very tensors a compiled model prepares for its segments; it takes every input the compiled model takes on its device, and others end each call in a FatalError. forward() returns what the model in Python returns, under the output names; its solver failures stay recoverable and no other error becomes so. jacobian() returns for every output and input the block of sensitivities over the batch of the call, parameters of larger batch included; jvp(), where no parameter has a larger batch than the inputs, the given tangents carried forward, inputs without one counting as zero. Where graphs and model in Python have the same values and linearisation, values, tangents and declared blocks equal those of the compiled model. A parameter set is the parameter read and used from then on; the others stay.", "quantifier": "all models in Python with a chain rule linear in its seeds, inputs, batches, tangents, parameter values, and compiled models of the same inputs and outputs (several segments for the blocks)", "why_tests_cant": "tests compare eager and compiled on a few models with equal batches and all tangents given; a transposed block, a seed at the wrong batch or a sum over the wrong axis needs unequal shapes to show", "anchors": ["neml2/csrc/eager/Model.cpp:69-102", "neml2/csrc/eager/Model.cpp:193-259", "neml2/eager/_model.py:193-405", "neml2/types/_boundary.py:57-322", "neml2/cli/aoti_export.py:177-237"]}
{"id": "C77", "title": "Each package loaded on Windows is extracted into a directory of its own", "statement": "However many threads load and destroy packages, however other processes make directories in between: the directories of the live loaders exist, are pairwise different and none lies inside another, so no load fails on a file that another loader has locked; each lies in the temp directory that the host has set, and holds the package asked for. Whenever no load is under way TMP and TEMP are exactly as the host set them, set or unset, also after failed loads. Destroying a loader removes its own directory only. No thread waits for one that cannot go on, and the search for a free name ends after at most one try per existing directory where directories can be made.", "quantifier": "all interleavings of any number of threads loading and destroying, all environments and file systems, other processes making and removing directories no loader uses, the host setting the variables while nobody loads", "why_tests_cant": "the collision needs two identical packages and an unlucky interleaving on one platform; a lost restore shows only when a host reads the variable later", "anchors": ["neml2/csrc/aoti/Model.cpp:55-162"]}
{"id": "C78", "title": "The parameter derivatives of an eager model are those of its equations, and asking for them leaves the parameters alone", "statement": "param_jacobian() of an eager model whose outputs each depend on some parameter, and whose parameters have no sub-batch axes, returns the outputs of forward() and for every output and parameter a block (batch, output base, parameter base) that holds at every batch entry the derivative with respect to that entry's copy of the parameter, zeros where there is none. param_vjp() returns for every parameter, at its stored shape, the gradient of the sum of the inner products of outputs and cotangents; for a parameter shared by the batch it equals the contraction of the blocks with the cotangents. After either call, returned or raised, every parameter is what it was before. param_vjp() of a model with parameters does not return unless every output has a cotangent on its device.", "quantifier": "all models (functions with reverse-mode derivatives), all inputs and batches, all parameter batches that broadcast, all cotangents, all ways for the model to fail", "why_tests_cant": "a gradient summed over the batch, a seed out of order or a copy left installed shows only for particular shapes and after particular exceptions", "anchors": ["neml2/csrc/eager/Model.cpp:261-289", "neml2/eager/_model.py:407-474", "neml2/models/param_ad.py:92-360"]}
{"id": "C79", "title": "A dispatcher and its threads live and end together", "statement": "A constructed DispatchedModel has one Model for each device of its scheduler and, with an asynchronous scheduler, one thread for each; however the first threads run while later ones are being made, its pool does only what the pool of C16 may do. Until a thread has returned its queue and its Model exist, and the map of queues is not changed while a thread may read it. The construction ends within a bounded number of steps; when one of them throws, that exception is raised and neither threads nor Models remain, unless a thread could not be made after another had been: then the process ends in std::terminate. After destruction every thread has returned and every task given has been run.", "quantifier": "all lists of devices, with repetitions, in any order of their names, all points of failure, and all interleavings of the threads with the construction, the calls and the destruction", "why_tests_cant": "races between a thread just started and the construction of the next, and threads that cannot be made, do not happen in a test; nor does a test see a thread that outlives its Model by a few instructions", "anchors": ["neml2/csrc/dispatchers/DispatchedModel.cpp:47-93", "neml2/csrc/dispatchers/DispatchedModel.cpp:612-663", "neml2/csrc/dispatchers/DispatchedModel.cpp:665-681"]}
{"id": "C80", "title": "A captured failure is the failure it says", "statement": "With failure capture, the only errors of forward() that carry a context (for models without substepping) are those of a solve that failed. The context is that of the first segment to fail, at the state the segments before it produced: the mask and the unknowns that the same segment gives in masking mode there, every unknown of the segment and nothing else; the mask has one entry per batch row and where it is set the residual at the attached unknowns meets the masked tolerances. A failed solve of a segment that answers in masking mode always carries one. Without capture nothing is attached and the outcome is the same. Dispatched synchronously, the error and context that arrive are those the model threw on the whole batch, or on the rows of the first chunk, in batch order, that failed; on a pool every failed chunk keeps its own context, in batch order, whatever the schedule, and a lone one is thrown as it is.", "quantifier": "for all models with forward and implicit segments, parameters, inputs, batch and chunk sizes, devices, pools, schedules and failures", "why_tests_cant": "Tests capture one failure of one model; which solve, which rows and which state a context belongs to depends on every segment, chunk and schedule before it.", "anchors": ["neml2/csrc/aoti/Exception.h:92-117", "neml2/csrc/aoti/solve.cpp:388-408", "neml2/csrc/aoti/ops.cpp:153-197", "neml2/csrc/dispatchers/DispatchedModel.cpp:97-124", "neml2/csrc/dispatchers/DispatchedModel.cpp:592-610"]}
{"id": "C81", "title": "In-place parameter writes reach exactly the tensors that share the storage", "statement": "A freshly loaded model keeps every parameter of every device in a storage of its own. A tensor obtained from named_parameters() is the parameter: an in-place operation on its storage, through whatever tensor, is what the next evaluation on the primary device uses, and it changes no other parameter; the library itself never writes to a tensor of the program or of the map. set_parameter() shares a contiguous tensor with the caller and copies any other one. On several devices all copies hold the master's values at an evaluation provided the program went through the mutable named_parameters() after its last in-place write; without in-place writes storages may be forgotten and parameters treated as values.", "quantifier": "for all artifacts, device lists, tensors and views of the program, and all histories of allocations, in-place operations, set_parameter, slot assignments, mutable accesses and evaluations", "why_tests_cant": "Whether two tensors share memory shows only when one is written later, in an order of operations that a test has to guess; the loss of a write on the second device needs two devices and a tensor kept across a call.", "anchors": ["neml2/csrc/aoti/Model.cpp:472-520", "neml2/csrc/aoti/Model.cpp:1061-1072", "neml2/csrc/aoti/Model.h:229-238", "neml2/csrc/dispatchers/DispatchedModel.cpp:362-435", "neml2/csrc/dispatchers/DispatchedModel.h:78-80"]}
{"id": "C82", "title": "Solver settings set at run time are those of every later solve on every device", "statement": "After any number of set_solver_config() calls on a loaded model, every operation on every device behaves as if the artifact had been compiled with the settings of the last call: same results, same exceptions, same parameters; the kind of the linear solver and its Krylov settings stay as compiled. Through the Python binding of a Model the arguments arrive each in its own field, are those newton_solve() would solve with, and counts that are no std::size_t raise without changing the model.", "quantifier": "all artifacts the exporter can write, file systems holding them, schedulers and device lists, histories of settings, parameter states, inputs and tangents or cotangents", "why_tests_cant": "A test compares a few outputs before and after one call on one device; that no device, operation or chunk keeps an earlier setting, and that setting is indistinguishable from compiling, is a statement over all histories and inputs.", "anchors": ["neml2/csrc/aoti/Model.cpp: Model::set_solver_config, Impl ctor (solver_config)", "neml2/csrc/dispatchers/DispatchedModel.cpp: set_solver_config", "neml2/csrc/aoti/_aoti.cpp: set_solver_config"]}
{"id": "C83", "title": "What a Python caller of a compiled model gets", "statement": "forward() of the Python class returns or raises exactly as the C++ one does. The dict it returns has the keys output_names, each once, in that order (declaration order, not the sorted order of the map it is made from), under the names of the boundary; each value is what the artifact says of that output. A key of input_names (the names of the boundary, as declared) that is not given raises. The leaf that is opened is the one asked for, cpu and float64 by default, and any other scalar type than the two raises.", "quantifier": "for every artifact, every input map, overrides and outcome of the C++ forward; every device and dtype string", "why_tests_cant": "A test sees one model, often with one output or with outputs declared in alphabetical order and no alias, where a sorted, unaliased or partly filled dict looks right.", "anchors": ["neml2/csrc/aoti/_aoti.cpp:148-180", "neml2/csrc/aoti/_aoti.cpp:208-231", "neml2/csrc/aoti/Model.cpp:380-427", "neml2/csrc/aoti/internal.h:133-140"]}
