# Formal model of the NEML2 C++ runtime (AOTI model + dispatchers)

Rocq/Coq 8.16.1 development in `rocq/theories`. It models the C++ runtime under
`/repo/neml2/csrc` (`aoti/` and `dispatchers/`) as executable Gallina functions
and transition systems and proves the properties of `properties.jsonl`.
`MANIFEST.json` maps each property to its theorems and says what is missing.

## 1. Trusted base

* The Coq 8.16.1 kernel, including its `vm_compute` reduction. No kernel check is
  switched off; no plugin, functor, module type or `Declare Module` is used.
* `Print Assumptions` stands under every property theorem. For every one but
  `C63_gmres`, `C63_unpreconditioned`, `C63_row_stops`, `C63_stops`, `C63_short_cycle`,
  `C59_gmres`, `C59_stops`, `C45_gmres_partial`, `C45_stops_partial` and `C75_gmres` it prints
  `Closed under the global context`: no axiom, neither ours nor a library's. Those ten speak of the standard library's
  real numbers and list its axioms `ClassicalDedekindReals.sig_forall_dec`,
  `ClassicalDedekindReals.sig_not_dec` and
  `FunctionalExtensionality.functional_extensionality_dep`.
  (A checker that lists the axioms of all *loaded* libraries also shows the seven
  entries `Coq.ssr.ssrunder.Under_rel.*`: fields of a sealed module of the standard
  library, loaded through `Lia`. No theorem here depends on them.)
* The reading of the C++: that each definition says what the cited lines do. Every
  definition carries the file and lines it models. Section 4 lists where it is
  simpler than the code.
* The specification of IEEE binary64 in the standard library
  (`Coq.Floats.SpecFloat`, executable, axiom-free), where a theorem speaks of floats.
* The documented behaviour of the torch operations used, as written in `Tensor.v`,
  `Broadcast.v`, `Pack.v`, `Mat.v`.

## 2. Conventions

* `X.v`: definitions only (the model). `SpecX.v`: the vocabulary in which properties
  are stated, written without the model's helpers. `XProofs.v`: lemmas.
  `Example_X.v`: concrete data. `Prop_X.v`: the property theorems, `Print Assumptions`
  under each, and `Example`s that meet the hypotheses of each on concrete data.
* A C++ exception is a value of `exn`; a throwing function returns `Err e`.
  Undefined behaviour is `Err (OtherExn 0)`, which no theorem treats as an ordinary
  error; `std::terminate` is a separate outcome of the transition systems.
* Compiled graphs, torch reductions and linear-algebra kernels whose order of operations is
  not fixed are function arguments, universally quantified.
* `_refuted`: a proved counterexample; the code violates the property. Beside it
  stands the strongest positive theorem found.
* `_partial`: a proved part of the property; the comment above it and MANIFEST.json
  say what is missing.

## 3. Per property: what is modelled, how it is proved

| Property | Model files | How it is proved |
|---|---|---|
| C01 | `Dispatch` (`chunk_extent`, `sync_loop`) with the size_t -> int64 cast explicit | strong induction on the rows left; refuted for batch_size >= 2^63 |
| C02 | `Tensor`, `BatchChunk`: flat row-major tensors, slice / cat / select / scatter | list lemmas, induction over the tiling |
| C03-C06 | `Dispatch`: the five synchronous operations over an arbitrary Model function, devices carried by tensors | C01 + C02; row independence of the Model is the hypothesis (discharged in C25) |
| C07 | `Dispatch` (`stitch_one`), `Float` | as above with an associative addition; refuted for size-1 leading axes and for float addition |
| C08 | `Broadcast`, `Misalign` | raise-or-undivided for differing leading sizes; refuted for a batched input of lower rank |
| C09-C15 | `Async`: labelled transition system of the dispatch thread and one worker per device, condition variables with explicit sleepers, arbitrary evaluation outcomes | inductive invariants over reachable states, progress, lexicographic measure |
| C16 | `Pool`: the worker pool with stop flag | invariants over traces, measure |
| C17-C19 | `Sched`, `Shared`: StaticHybridScheduler in Z with mod 2^64, priorities as IEEE doubles | list induction, invariants; refuted by computation |
| C20 | `Mpi` | counting argument by induction on ranks |
| C21, C22 | `Params`: histories of parameter writes and evaluations; override pointer with guards | invariants over histories; refuted by two histories |
| C23 | `Rename`, `Except` | association-map lemmas; refuted for clashes |
| C24, C25 | `Broadcast`, `FwdRows` | induction on shapes and on segments |
| C26, C27, C28 | `Mat`, `Jac`, `JacModel` | induction over segments and columns against an independent chain-rule specification; ring laws for the exact forms |
| C29 | `ParamJac` | as C26, plus the adjoint identity in any commutative ring |
| C30-C34, C52 | `Newton`, `Float` | loop induction, simulation between a batch and its rows, binary64 facts; refuted by computation |
| C35-C38, C40 | `Substep` | induction on the remaining level against a row-level recursion; tree tiling |
| C39 | `SubstepJac` | simulation with the value path; induction over accepted intervals |
| C41 | `Pack` | list lemmas on last-axis cat/narrow |
| C42, C45, C46 | `KrylovSystem` | list lemmas; induction over the steps of a solve |
| C43, C44, C54 | `Krylov` | loop induction with exact call logs; simulation per row; invariant `r = b - A x` |
| C47 | `Except` | induction on nested aggregates |
| C48, C49, C51 | `Log` | induction over histories and strings |
| C55, C56 | `FwdModel` (forward() over all segment kinds), `JacModel`, `ParamJac` | simulation between the value loop and the derivative loops, segment by segment |
| C57 | `SystemAoti` (the system behind a segment, group tensors as rows), `Newton`, `Implicit`, `FwdModel` | round trip groups/rows, Newton's exit test (C30), pack/unpack inverse (C41), frame lemmas over segments |
| C58 | `Substep` over the masked solve of `SystemAoti`, `FwdModel` | relational induction over the halving driver (no assumption on the solve but that it answers for its rows), discharged for the Newton solve by shape invariants of guess, predictor and unpacking, then C57 |
| C59 | `KrylovSystem` (`kstep`), `Krylov` | flatten/unflatten round trip (C42) around every product, row facts of the solves (C43, C44, C54); for GMRES over `R`, C63 in every row, all rows being flagged before the budget is used up |
| C60 | `Load`; the exporter's side as a writer in `SpecLoad` | per record, reading what was written gives it back; tables and parameters by lookup |
| C61 | `Load` | inversion of every step of the constructor over arbitrary JSON; witnesses for what is accepted |
| C62 | `Bridge` | mutual induction over well-formed stacks of frames; one computed witness for the dropped context |
| C63 | `Krylov` (`gmres`) over `R` | the Arnoldi invariant (orthogonal basis, `B V = V H`, rotated least squares problem) by induction over columns; `‖r - B dx‖² = last² + eps² ‖dx‖²` for the regularised correction; induction over cycles with the call log. That it stops: a row not flagged has a unit direction more after every column, and by Bessel's inequality there are no more than `n` orthonormal vectors; stagnation of the swap with cycles of one by induction over the cycles |
| C64 | `Interp`: interleaving transition system | invariant (mutex holder is in the critical section, GIL holder is where it may be) by induction over runs; decreasing measure for termination; conservation law for the Python run |
| C65 | `OpReg`: interleaving transition system | invariant (owner of the schema, state of the once flags) by induction over runs; the failing order proved for all runs |
| C66 | `SystemAoti`, `Newton`, `KrylovSystem`, `Implicit` | induction over the two Newton loops with an invariant (the path so far, what the preconditioner cache knows); the flat operators of one Krylov step stand for the graphs on groups; Krylov solves keep the shape of the right-hand side |
| C67 | `LogThreads`: interleaving transition system, one step per access to the store, the mutex or the GIL | each critical section refines one call of `Log.lstep`; invariant (holder of the mutex is in a critical section, holder of the GIL runs Python, what is due is what was given plus at most one line) by induction over runs; decreasing measure for termination |
| C68 | `NewtonLog`: the solver of `Newton` in a state monad of calls, emitted and collected lines | step by step agreement with `Newton`; relation between the calls and the lines (`SpecNewtonLog`) by induction over trials and iterations |
| C69 | `Runtime`, `RuntimeParam`: from the loaded artifact of `Load` to the segments of `JacModel`, `FwdModel`, `SystemAoti` and the facade of `Rename`; `SpecRuntime`: what the artifact says, without the loader or the run | composition of the loader (C60), the boundary (C23), input preparation (C24), solved segments (C57, C58, C66) and value agreement (C55); completeness by induction over the segments; for parameters C69 composes C60, C23 and C29 (`SpecRuntimeParam` says which graph, pairs and base shapes each segment must have) |
| C70 | `Bundle`: POSIX path operations, look-up of a path in a file system, `load_model`, the constructors of `Model` and `DispatchedModel`; `SpecBundle`: where the files of a bundle lie, without path strings | algebra of paths and of walking them; the loader is monotone in what can be opened; composition with C60 and C69 |
| C71 | `Eager`: casts at the boundary, the systems made of callbacks, the bindings, their Python callers; the solves are those of `NewtonLog` and `Krylov`; `SpecEager`: when a segment and a set of modules are the same model | the solves see a system only through its values (induction over iterations, line search, Krylov cycles); Krylov solves do not look at the cache settings; with C68 the result is that of `SystemAoti` |
| C72 | `Serve`: the DispatchedModel of `Bundle` with the parameter state of `Params`, forward() by the loop of `Dispatch` or the pool of `Async`, each chunk a call of `Runtime`; `SpecServe`: what the artifact says of a range of rows, results in place | C70 loads the artifact, C21 and C22 say what the parameters are, C01/C09 cut and gather, C69 says what each call returns; the histories keep names and device, so the loaded Model with those parameters is again one that the artifact describes |
| C73 | `SubstepLog`: the recursion of `Substep` and `SubstepJac` with the counters, the lines, the captured step and the raised error; `SpecSubstepLog`: a bisection as a tree of solves, solves followed by their line, the context of a failure | events by induction over the recursion for any sink; erasure of the lines onto the recursion of C35 and C39; the context by the invariant that it is set at level 0 only |
| C74 | `ServeJac`: the operations of `Serve` for jvp(), jacobian(), param_jacobian() and param_vjp(), with the ranks of the base shapes by name at the boundary; `SpecServeJac`: what the described model says of a range of rows, blocks in place, gradients together | as C72; congruence of the operations in the parameters (`ServeExtProofs`); every part returns the same names because the names follow from the artifact alone (`ServeNamesProofs`), which is what the stitching of `Dispatch` needs (`ServeStitchProofs`) |
| C75 | `KrylovLog`: the loops of `Krylov` and the step of `KrylovSystem` with their lines and a sink that may raise; `SpecKrylovLog`: what a line says, the same solve with a smaller budget | the logged loop simulates the silent one up to the line the sink raises on; induction over the iterations for the lines; the residual invariants of C54 (BiCGStab) and C63 (GMRES) at a smaller budget |
| C76 | `EagerModel`: the facade of `eager/Model.cpp` over the Python methods, the boundary of `types/_boundary.py`, the seeds and the stacked blocks of `eager/_model.py`, parameters by `param_ad.py`; `SpecEagerModel`: what a call accepts and hands on, a seed as a direction, a model that carries seeds, the block of sensitivities, the compiled twin | the boundary by induction over the inputs; the stack of unit seeds is proved to enumerate the directions, and the sum over the per-input leaves to be the one nonzero of them; the comparison with the compiled model by C26 and C69's value theorems |
| C77 | `ExtractTemp`: threads in `make_loader`, one step per access to mutex, environment, counter or file system, with the rest of the world making and removing directories; `SpecExtractTemp`: executions in which the world is polite, the environment the host asked for, directories apart | an invariant over all polite executions: the holder of the mutex knows the host's environment, a fresh directory is apart from all live ones because parents of directories exist; the search by the pigeonhole principle; the endless search by an invariant of all executions |
| C78 | `EagerParam`: `param_ad.py` pass by pass (copies of the parameters over the call's batch, the swap with its restore, one basis cotangent per output component, stacking, the loss of param_vjp), the adapter methods and the facade; `SpecEagerParam`: derivatives by entry, what autograd must give for a cotangent, copies, own copy, cotangents, the slope of the loss | lists of gradients by induction over outputs and parameters, single-entry sums in a ring; the swap by commuting replacements; the adjoint by joining both results |
| C79 | `PoolLife`: construction of a dispatcher step by step (Models, queue map, torch, threads), any step failing, the started threads running meanwhile, then the pool of C16, then the destruction; reading the queue map during a change, a missing queue and a missing Model are outcomes; `SpecPoolLife`: the pool's part of a trace | invariant over traces that contains a refinement: a thread not made yet is one that has not moved, so every life projects to a trace of `Pool`; a measure for the construction |
| C80 | `FailContext`: the failed solve, its repetition in masking mode and the exception with mask and unknowns, through the segments of forward(), the chunk loop of the dispatcher and the gathering of failures of a pool; `SpecFailContext`: what a context shows, the first bad range | projection onto the models without contexts (`Implicit`, `FwdModel`, `Dispatch`); induction over segments and over chunks; C57 for the truth of the mask, C14 for the pool |
| C81 | `Storage`: the dispatcher of `Params` over a heap of storages, a tensor being a storage and the positions it views; `SpecStorage`: what a history writes to one storage, the values a state shows, histories that announce their writes | the heap only grows except by the program's writes; slots and storages followed by induction over the history; refinement to `Params` step by step; the copies by the invariant of C21 with one bit for a pending write; an evaluation after any announced history gets what it gets after some history of values, so C72 applies to shared storages; refuted by two histories |
| C82 | `Settings`: `set_solver_config` of a Model, a DispatchedModel and the binding over what `Load` and `Bundle` build; `SpecSettings`: the artifact the exporter would have written with other Newton settings | two metadata files that differ in the solver's block load to models that differ in its settings (every other read is of a key they share); the devices of two dispatchers followed through the loop that opens them; the operations depend on a Model only through its device and what was loaded; C72 then says what forward() returns |
| C83 | `PyModel`: the constructor's defaults and `forward` of the pybind11 class over `ServeJac.model_forward` of what `Load` builds | re-packing succeeds and keeps the order, each name where it first comes, when all are there (induction over the names, `repack_from`); the names are those of the artifact (`output_names_say`), different if declared so because renaming is free of clashes, and there by what `C69_forward` says; an input that is not given contradicts it |
| C50, C53 | `Implicit` | induction on rounds; case analysis |

## 4. Modelled code and simplifications

All paths under `/repo/neml2/csrc`.

| Code | Model | Simplifications |
|---|---|---|
| `dispatchers/batch_chunk.h` | `BatchChunk` | maps are key-ordered association lists |
| `dispatchers/DispatchedModel.cpp` 97-351, 390-484 (synchronous path, chunk helpers) | `Dispatch` | tensors are values (no aliasing of storage) |
| `dispatchers/DispatchedModel.cpp` 486-649, `AsyncScheduler.cpp` | `Async`, `AsyncOp` | one step = one critical section, one notify or one evaluation; sequentially consistent memory; an allocation failure while reserving a slot leaves both vectors unchanged; failure to create a thread is in `PoolLife` |
| `dispatchers/DispatchedModel.cpp` 612-663 | `Pool` | tasks opaque |
| `dispatchers/DispatchedModel.cpp` 353-357, 740-744, `aoti/Model.cpp` 1086-1090, `aoti/_aoti.cpp` 319-341 | `Settings` | `collect_log` left out (the binding resets it to its default); a call while an evaluation runs is not modelled |
| `aoti/_aoti.cpp` 148-180, 208-231, `aoti/Model.cpp` 380-427, `aoti/internal.h` 133-140 | `PyModel` | the conversion of Python objects by pybind11 left out; the parser of device strings is a parameter |
| `dispatchers/DispatchedModel.cpp` 47-93, 612-663, 665-681 (life of the threads) | `PoolLife` | tasks opaque; devices stand for their names, whose order is an argument; sequentially consistent memory; the call that initialises torch does nothing else; moved-from dispatchers left out |
| `dispatchers/StaticHybridScheduler.cpp`, `SimpleScheduler.cpp`, `MPISimpleScheduler.cpp` | `Sched`, `Shared`, `Mpi` | MPI calls are their documented results |
| `aoti/Exception.cpp`, `assertions.h` | `Except` | the payload of a captured failure is not carried |
| `aoti/_aoti.cpp` 65-123, `eager/Model.cpp` 44-104 | `Bridge` | a Python exception is its class, message and whether it is a ConvergenceError; the class lookup succeeds |
| `eager/interpreter.cpp` 37-78, `eager/Model.cpp` 69-116 | `Interp` | one step = one access to mutex or GIL or one piece of Python; sequentially consistent; a hosting interpreter runs before the first constructor; nobody finalizes it |
| `aoti/custom_ops.cpp` 77-110, `types/functions.py` 135-166 | `OpReg` | one step = one access to dispatcher or once flag; the import lock is a once flag; Python's kernel registration does not fail |
| `aoti/Model.cpp` 232-258, 354-376, 385-404, 452-470, 476-555, 879-899, 958-1072 | `Rename`, `Jac`, `ParamJac`, `Params` | |
| `aoti/Model.cpp` 165-200, 278-876 | `Load` | JSON is taken as parsed; a package is its file name and can be opened or not; scalar types are names with a cast; `collect_log` left out; the sum of the input sizes does not overflow |
| `cli/aoti_export.py` 100-170, 240-311, 891-927, 1600-1627, 1838-1849, 2284-2353, 2395-2555, 2999-3009, 3265-3319, 3545-3626 | writer in `SpecLoad` | only the keys of metadata.json and their values; part of the specification of C60, not verified itself |
| `aoti/internal.h` 195-460, 795-815, `solve.cpp` 227-250 | `Runtime` | a package is the function of its file name; a null package loader is undefined behaviour when called; negative sizes are read as zero (excluded by `consistent`); parameter-derivative packages are in `RuntimeParam` |
| `dispatchers/factory.cpp` 37-92, `DispatchedModel.cpp` 47-93, 380-386, `aoti/Model.cpp` 261-346 | `Bundle` | a file system is a function from locations to directories and files, constant while loading, without symbolic links or permissions; the parsers of JSON and HIT, the look-up of a block and the opening of a package are arbitrary functions of the contents; `std::filesystem` with POSIX semantics |
| `dispatchers/DispatchedModel.cpp` 45-124, 408-463, `aoti/Model.cpp` 522-527, 958-970 put together | `Serve` | the parameter maps of the Models are those of `Params`, so the scalar type kept beside a loaded value is forgotten; what a package computes is a function of the device, the file and its inputs; the other operations are `ServeJac` |
| `dispatchers/DispatchedModel.cpp` 126-351, `aoti/Model.cpp` 408-424, 972-1041 put together | `ServeJac` | as `Serve`; the asynchronous operations are the evaluation of a chunk and what becomes of the results, the pool runs in between |
| `aoti/log.cpp`, `solve.cpp` 48-63 | `Log` | global state passed along; C locale |
| `aoti/log.cpp` 62-90, 210-287 under threads, `aoti/_aoti.cpp` 672-707 | `LogThreads` | sequentially consistent memory; `NEML2_LOGS` constant meanwhile; a sink is arbitrary code over the calls of `log.h`; a Python thread gives the GIL up only where its code says `Yield`; threads do not wait for each other otherwise, so a Python caller that keeps the GIL while it waits for a logging worker is outside (no binding in the repository does that: the dispatchers are not bound) |
| `aoti/ops.cpp` 42-592 | `Broadcast`, `FwdModel`, `JacModel`, `ParamJac` | dtype not tracked |
| `aoti/solve.cpp` 65-467 | `Broadcast`, `Pack`, `Implicit`, `SystemAoti` | dtype conversions left out; the nonlinear solve is an argument of `Implicit`, supplied by `SystemAoti` |
| `aoti/Exception.h` 92-144, `solve.cpp` 388-408, `DispatchedModel.cpp` 97-124, 592-610 (the context of a failure) | `FailContext` | the context travels beside `exn`; a mask is the list of its entries; forward() only, the other operations share the chunk loop; the facade passes a ConvergenceError as it is (C62) |
| `Model.cpp` 472-520, 1061-1072, `DispatchedModel.cpp` 47-70, 362-435 (which tensors share storage) | `Storage` | strides are lists of positions and contiguity is consecutiveness of these; `.to(dev)` always copies to another device; `_models` in scheduler order; element types not tracked; a Python `named_parameters()` hands out the same tensors |
| `aoti/nonlinear_system_aoti.cpp`, `nonlinear_system_krylov_aoti.cpp` | `SystemAoti` | group tensors of another shape than batch + layout raise (torch might broadcast); the preconditioner cache is recomputed from the points of the earlier steps of the solve |
| `aoti/nonlinear_system_eager.cpp`, `aoti/_aoti.cpp` 353-609, `solvers/newton.py` 149-359, `solvers/_krylov.py` 98-123, `es/implicit.py` 312-358 | `Eager` | a module is a function of raw tensors; a Python object is a tensor, a sequence, None or anything else; autograd, copies and the GIL left out; group widths are those of the layout |
| `aoti/newton.cpp` | `Newton`, `NewtonLog` | rows as lists; all groups share the batch shape; wrong shapes raise (torch might broadcast); logging is in `NewtonLog` (C68), a line being its numbers; the reduction over one row is arbitrary; what a system remembers between steps is a function of the earlier points of the solve |
| `aoti/substep.cpp` | `Substep`, `SubstepJac`; `SubstepLog` with logging, counters and captured failure context | a line of text is the numbers in it; arithmetic on different shapes raises |
| `aoti/jacobian.cpp` | `Jac`, `JacModel`, `ParamJac` | inner products and sums arbitrary; `contiguous()` is the identity; `var_size` is the product of sub-batch and base shapes |
| `aoti/krylov.h`, `krylov_flatten.h`, `nonlinear_system_krylov.h` | `Krylov`, `KrylovSystem` | arithmetic a parameter; per-row reductions and triangular solve arbitrary; the logging hook is in `KrylovLog` (C75), a line being the numbers in it |
| `eager/Model.cpp` 118-301, `eager/_model.py` 118-405, `types/_boundary.py`, `models/param_ad.py` 92-124, `models/model.py` 1348-1387, `cli/aoti_export.py` 177-237 | `EagerModel` | the model in Python is a function of its wrapped inputs and seeds; dtype check and cast left out; a parameter has at least its base and sub-batch axes; leaves are added from the left; param_jacobian() and param_vjp() are in `EagerParam`; interpreter and GIL are in `Interp` |
| `aoti/Model.cpp` 55-162 as compiled on Windows | `ExtractTemp` | paths are lists of components, a file system its directories; `_putenv_s` does not fail; torch's loader is what the comment there says of it; sequentially consistent |
| `eager/Model.cpp` 261-289, `eager/_model.py` 407-474, `models/param_ad.py` 92-360 | `EagerParam` | the model run with tracked leaves is a function to values and, per output, to gradients; a parameter ends in the base shape of its type; a cotangent that does not broadcast to the shape of its output is not modelled; one dtype |

Not modelled: the compiled AOTI graphs and the Python exporter that makes them, the pybind
layer but for its exceptions and solver entry points, the autograd engine behind `eager/Model.cpp`,
the parsers of JSON and HIT, CUDA streams, arithmetic in other scalar types, autograd, the
C++ memory model below mutex-protected sections.

## 5. Findings

Places where the code violates the stated property. Each has a proved counterexample
(theorem in brackets) unless marked *observation*.

Dispatch
* A synchronous `batch_size()` of 2^63 or more becomes a negative chunk [`C01_huge_batch_size_refuted`].
* `param_vjp` through the dispatcher: a parameter stored with a leading axis of size 1 gets a gradient of
  another shape; float sums are regrouped [`C07_size_one_parameter_refuted`, `C07_binary64_regrouping_refuted`].
* A batched input of lower rank than the others silently changes the answer [`C08_lower_rank_refuted`].
* `load + batch_size` wraps around for huge sizes [`C17_wraparound_refuted`]; `{"cuda","cuda:0"}` are
  accepted as two devices [`C18_device_alias_refuted`].
* A scheduler shared by k callers exceeds its capacity by up to (k-1) batches [`C19_capacity_refuted`].
* Two hosts whose names hash to one MPI colour are treated as one node [`C20_colliding_hosts_refuted`].
* A reference kept from `named_parameters()` writes without marking the copies stale; erased keys
  [`C21_retained_reference_refuted`, `C21_erased_parameter_refuted`].
* Two threads using one Model see each other's overrides [`C22_concurrent_refuted`].
* *Observation*: `wait_for_completion` waits for every caller's work; `completed_work`'s assertion runs in a
  noexcept function; a custom scheduler returning n = 0 loops for ever; an empty batch raises in `narrow`.

Boundary names, inputs, logging
* Colliding renames merge entries; an original name shadows a renamed one
  [`C23_clash_refuted`, `C23_original_name_shadows_refuted`].
* An input lacking its sub-batch axis is broadcast to a wrong target [`C24_missing_sub_axis_refuted`].
* A malformed `NEML2_LOGS` raises once; later calls silently use the entries before the bad one [`C49_consistent_refuted`].
* *Observation*: the parameter batch of forward() is the first input's, not the broadcast the documentation
  describes; `set_parameter` checks neither shape nor device; `_pack_groups` compares element counts, not shapes.

Nonlinear solve
* A non-finite initial residual makes the relative test vacuous; `atol = 0` refuses an exact start
  [`C30_infinite_start_refuted`, `C30_exact_start_refuted`].
* At most `miters - 1` updates are made (C31); the message and the log line of a failure say `miters`.
* An empty batch is solved when nobody watches and raises with `collect_log` or the debug level [`C68_empty_batch_refuted`].
* *Observation*: the lines collected by a solve that fails are lost with it; the masked solve writes neither start line
  nor summary.
* In the masked solve a row solved at the start is not frozen and can be lost; rows are not independent
  [`C33_solved_start_lost_refuted`, `C34_solved_start_refuted`, `C34_not_finite_refuted`].
* Results depend bit-wise on the chunk size [`C52_bitwise_refuted`].
* Substepping ignores the caller's guess and predictor inputs that are not givens [`C40_substepped_refuted`].
* The mask attached to a captured failure can be all true [`C53_some_row_marked_refuted`].
* Interpolated forces miss the prescribed end values in binary64 [`C38_float_end_refuted`, `C38_float_start_refuted`].

Derivatives
* A repeated derivative pair is counted twice by `jvp` and `param_vjp`
  [`C28_repeated_pair_refuted`, `C29_repeated_pair_refuted`].
* `param_vjp` accepts a permuted cotangent; a size-1 stored batch axis is not reduced; `param_jacobian` ignores
  substepping [`C29_cotangent_shape_refuted`, `C29_stored_shape_refuted`, `C29_substepping_refuted`].
* On a single forward segment `jacobian` returns the segment's outputs instead of the declared ones
  [`C55_single_outputs_refuted`]; `param_jacobian` returns other values than `forward` when a segment substeps, and
  raises for promoted parameters with a sub-batched first input [`C56_substepping_refuted`, `C56_sub_batch_refuted`].
* *Observation*: `_add_forward_param_direct` is evaluated on the state after the segment; the off-path zero
  fill uses the first input's full leading shape; tangents are not moved to the carrier's device.

Linear solve
* GMRES runs whole cycles past `max_its`; BiCGStab applies the operator twice per iteration; `restart = 0`
  is undefined; an empty batch raises [`C43_budget_refuted`, `C43_zero_restart`, `C43_empty`].
* Converged GMRES rows go on changing [`C44_gmres_refuted`].
* `krylov_solve_dense` drops the convergence flags [`C45_refuted`].
* GMRES compares a preconditioned residual with the plain right-hand side, and reports a singular
  breakdown as converged [`C54_gmres_preconditioned_refuted`, `C54_gmres_singular_refuted`].

Loading
* A missing required key is read through a const reference, which is undefined [`C61_missing_refuted`]; an unknown
  `solver_kind` runs as a direct solver, `miters: -1` becomes 2^64 - 1, integers wrap [`C61_accepts_refuted`].
* *Observation*: sensitivity kinds are not checked either; the exporter never writes `predictor_param_inputs`, which
  the loader and `_run_predictor` support.
* A device that is neither cpu nor cuda (say mps) loads the packages of the cpu, though `factory.h` says that a missing
  subfolder is an error [`C70_device_refuted`].
* `DispatchedModel(Model, scheduler)` compares only the kinds of the devices: a model on cuda:0 is accepted for a scheduler
  of cuda:1 and runs on cuda:0 [`C70_adopt_refuted`].
* *Observation*: `load_model` has no dtype argument, so an artifact compiled for float32 only cannot be loaded through it;
  errors of the HIT accessors leave it unconverted.

Windows
* The loop that looks for a free directory name does not look at the error code: in a temp directory where nothing can be made
  (read-only, full) it runs for ever with the mutex held, so no other thread can load either
  [`C77_refused_directory_refuted`, for all continuations].
* During a load every thread of the process sees the private directory as TMP and TEMP; files put there are deleted with the
  loader [`C77_visible_refuted`]. A value that the host sets during a load is overwritten by the restore, and if it comes between
  `_putenv_s` and the extraction two loaders share a directory and the second load fails [`C77_host_sets_refuted`].
* A load that fails leaves its directory behind [`C77_failed_load_refuted`].

Python boundary
* The eager model's guard rebuilds a ConvergenceError from its message and drops the captured failure
  [`C62_context_refuted`].
* If setting up stdout or stderr raises after `initialize_interpreter`, the constructor leaves with the GIL held and
  `g_started_by_us` unset; every other thread finds a running interpreter and waits for the GIL for ever
  [`C64_failed_setup_refuted`].
* An aoti model constructed before the Python package is imported registers `opaque_pow`, and every later import
  raises "registered multiple times"; so an eager model cannot follow an aoti model in one process
  [`C65_cpp_first_refuted`]. Same for an import between the look-up and the registration [`C65_race_refuted`].
* If registering the kernel fails after the schema, the next construction finds the schema and succeeds without a kernel
  [`C65_kernel_refuted`].
* The binding takes any name for the line search; all but "STRONG_WOLFE" mean backtracking [`C71_ls_type_refuted`]. The
  constructor of `NewtonWithLineSearch` checks the name.
* The linear solves of the derivatives return in Python as in C++ when the budget is used up, converged or not
  [`C71_unconverged_refuted`].
* A GMRES line of the linear log gives the norm of the preconditioned residual and its ratio to the norm of the right-hand side, which
  is not preconditioned [`C75_true_residual_refuted`]. *Observation*: the hook is documented as called once per matvec;
  BiCGStab makes two per line, and a GMRES restart one without a line.
* *Observation*: `krylov_solve_eager` ignores an apply callback without a setup callback; the other way round the first step
  raises a TypeError. A negative `miters` is refused here but read as 2^64 - n by the loader (`C61_accepts_refuted`).
* `eager::Model::jvp()` seeds over the batch of the inputs only: with a parameter of larger batch, for which forward() and
  jacobian() return that larger batch, it raises or returns a tangent of another shape than the output
  [`C76_jvp_batched_parameter_refuted`]. *Observation*: jvp() of a model without inputs raises an IndexError; blocks of
  outputs without a derivative are zeros over the batch of the first output.
* `eager::Model::param_jacobian()` of a model with an output that depends on no parameter raises ("element 0 of tensors does not
  require grad"), where the documentation promises an explicit zero block [`C78_constant_output_refuted`].
* A parameter with sub-batch axes (interpolation knots) makes it raise too, since the copies are expanded to (batch, base)
  [`C78_knots_refuted`, for every model]; if the batch has as many entries as there are knots, it returns blocks that are added
  up over the whole batch [`C78_knots_mixed_refuted`].
* If std::thread cannot make a thread after the first of a pool (thread limit reached), the constructor of
  DispatchedModel does not raise: unwinding destroys joinable threads, which ends the process in std::terminate
  [`C79_thread_refuted`, `C79_later_thread_refuted`].
* A captured failure of a dispatched call is about one chunk, and nothing in it says which: its mask has the rows of the chunk,
  and batches that fail at different rows end in the same exception [`C80_where_refuted`]. Its tensors stay on the device of the
  chunk though results are moved back to that of the inputs [`C80_device_refuted`]; when two chunks of a pool fail, the contexts are only
  reachable by rethrowing the elements of `AggregateError::errors()` [`C80_several_refuted`].
- **A write through a kept tensor reaches one device only (C81).** `DispatchedModel.h` 78-80 says that mutating the master map in place
  is broadcast before the next dispatch. The broadcast is triggered by the mutable accessor, not by the write: a tensor kept across an
  evaluation and then written gives one evaluation with two values of one parameter [`C81_kept_tensor_refuted`].
  `set_parameter` stores `value.contiguous()`, so a contiguous argument stays shared with the caller: reusing the buffer changes the
  parameter on the master's device and leaves the other devices at the old value [`C81_owned_refuted`].
* The Python `forward` re-packs its outputs so that the keys come in the order of `output_names`, for callers that unpack them;
  `jvp` and `jacobian` do not, and their outputs come sorted by name [`C83_order_refuted`].
* *Observation*: the eager ImplicitUpdate replaces the message of the failed solve by its own; a recoverable
  AggregateError would become a plain RuntimeError if it were ever bound.

## 6. Wrong programs

`seeded/LOG.jsonl`: one line per edit of the model in a scratch copy, with the theorems that then fail. Edits
are realistic slips (boundary, swapped argument, dropped update). A theorem counts as failed when it depends on a lemma that
no longer proves.
