# Formal model of meqtrees-timba in Rocq (Coq 8.16.1)

## What this is

`rocq/theories` holds an executable Gallina model of selected parts of the C++
code in `/repo`, independent specifications, and machine-checked proofs that
relate the two.  The code was read, not run: the tie between model and code is
the citation (`file:lines`) carried by every model definition.

## Layout

One group of files per area `M`:

* `M_Model.v`  – definitions transcribed function by function, with citations.
  No proofs.
* `M_Spec.v`   – (where useful) the independent specification: what a user would
  say, written without the model's helpers.
* `M_Proofs.v` – lemmas.
* `M_Thms.v`   – the property theorems (each closed by `exact`), followed by
  `Print Assumptions` and by `Example`s showing the hypotheses are satisfiable
  on non-trivial data.

## Conventions of the model

* C++ objects mutated in place become values returned by functions.
* An exception becomes an error outcome that also carries the state left behind
  where the code can leave a partially changed state.
* Undefined behaviour (reading past the end of a container, dereferencing an
  uninitialised iterator, ...) is a distinct outcome `UB`.
* `int`/`size_t` are `Z`/`nat` without wrap-around unless a property is about it.
* `double`: Domain and Cells are modelled both with IEEE binary64 (`Flt_Model.v`, on Coq's
  `SpecFloat`) and with exact rationals; Polc, ComposedPolc, Condeq, MatrixMultiply and the Solver's equations
  with exact (canonical, `Qc`) rationals only, so rounding, NaN and infinities are not covered
  there.  This is said again at the affected properties.
* Threads are modelled as interleavings of atomic steps; a step is a critical
  section of the code (the part executed while holding the relevant mutex).

## Status naming

* Theorem `foo`            – the property at full strength.
* Theorem `foo_partial`    – a part; the comment says what is missing.
* Theorem `foo_refuted`    – the property is false of the faithful model; a
  concrete witness is evaluated.  The English reading is a defect of the code.

## Trusted base

* The kernel of Coq 8.16.1 (`coqc`; `vm_compute` is used for evaluating examples and
  witnesses, so its virtual machine is trusted too).
* Axioms: none.  Every theorem file ends with `Print Assumptions` of its theorems, and each of
  them answers `Closed under the global context`.  (`coqchk` also lists seven axioms of
  `Coq.ssr.ssrunder`: that file of the standard library is loaded through `Lia`; no
  theorem here depends on it.)
* No `Axiom`, `Parameter`, `Admitted`, functor, module type, plugin or disabled check is used.
  `Variable`/`Hypothesis`/`Context` occur only inside sections and are discharged as
  hypotheses of the theorems.
* The reading of the C++ code.  The model is written by hand; nothing checks it against the code
  but the citations.  The code was not compiled or run.

What is modelled (file of the code: files of the model):

| code | model | what |
|---|---|---|
| DMI AtomicID.h, HIID.{h,cc} | Hiid, Pack | matching, subset, order, slicing, pack/unpack; string conversions are in Nam |
| DMI CountedRef*.{h,cc} | Ref | attach, detach, copy, lock, privatize, copy-on-write; mutexes not modelled |
| DMI BlockSet, BOIO, Packer.h, DynamicTypeManager, OCTOPUSSY Message | Bset, Boio, Pack, Upk, Ser | byte and block level codecs |
| DMI List, Record, NumArray | Dlist, Rec, Narr | sequence, map and indexing operations; not hooks and container type conversion |
| TimBase Timestamp | Time | arithmetic |
| OCTOPUSSY MsgAddress, Subscriptions, WPInterface, Dispatcher, GatewayWP | Subs, Wpq, Disp | matching, queueing, delivery, polling, forwarding test; not sockets, signals, timers |
| MEQ RequestId, SymdepMap | Rqid | masks and updates |
| MEQ Domain, Cells, Axis.h constants | Flt, Dom, Cell | envelopes, grids, segments, resampling, comparison, records; not the axis name map |
| MEQ Vells, VellSet | Vel, Vset | element-wise and reducing operators, in-place operators, flags, shapes, fails; not clones from records |
| MEQ Function | Fun | getResult in full; evaluate() of the node class is a parameter |
| MEQ TensorFunction, TensorFunctionPert | Tfn | computeTensorResult, flags, cells; evaluateTensors and getResultDims of the node class are parameters |
| MEQ Rider, Request (rider), Node (commands, execute); MeqNodes Solver::fillRider | Rid | records in a heap; processCommand, children, getResult, cache and abort flag are an arbitrary environment |
| MEQ Node, NodeNursery, MTPool, Forest, MeqServer | Ncache, Poll, Pool, Mtree, Forest | caching, polling, thread pool, registry; not publishing, state records, breakpoints |
| MEQ Funklet, Polc, ComposedPolc; MeqNodes Parm | Polc, Tpc | evaluation, spids, updates, tiles; not tables and other funklet types |
| MeqNodes MatrixMultiply | Mmul | products of scalars, vectors and matrices, flags, fails |
| MeqNodes Transpose, Selector, Paster, Composer; Result dims | Tns | tensors of VellSets moved about: transposes, slices, compositions, return codes |
| MEQ/src FastParmTable.cc; Parm::save, getFunkletFromDB | Ptab | parameter tables: keys, values, list of domains, histories; what parameters load and save |
| MeqNodes MergeFlags, ZeroFlagger, ReplaceFlaggedValues; Function's masks | Flg | which flags end up where, values replaced |
| MEQ VellsSlicer, VellsSlicerWithFlags; MeqNodes ReductionFunction and nodes built on it | Red | slices, reductions along axes, their flags, the axes of the state |
| DMI Registry, AtomicID (text), HIID (text form), OCTOPython record keys | Nam | reading, printing, literals, registrations |
| MeqNodes Condeq, Solver | Ceq, Slv, Swk, Leq | residuals, derivatives, unknowns, equations, worker threads; casacore's LSQFit is not modelled |
| MeqServer Spigot, Sink; VisCube ifrNumber | Vis | tiles read into results and written from results, flags, the queue of a spigot |
| MeqServer VisDataMux | Mux | streams of tiles: snippets, requests, polling of sinks, output, errors |
| MeqNodes ReqSeq, ReqMux | Rsq | order and ids of the requests to children, results and codes, errors |
| MEQ Node::checkChildCells | Chk | the cells of a result from the cells and shapes of the children's results |
| MEQ Axis (names of axes) | Axm | defineAxis, setAxisMap (all forms), addAxis, axis, axisId, getAxisIds, resetDefaultMap; without the axis records |
| MeqNodes MatrixInvert22 | Inv | the four elements (or the scalar) of the inverse in value and in perturbed values, flags, fails and refusals; complex numbers are exact pairs of rationals and 1/0 is 0, so nothing is claimed where the matrix is singular; Cells of the Result are left out |
| MEQ Node::discoverSpids; Parm, ReqSeq, ReqMux and Solver::discoverSpids | Dsc | spid maps over trees of nodes; records are values (copy-on-write is in Ref), the fail of a child is a fail of the node, polynomial funklets only, what initFunklet returns is an input |
| MeqNodes ModRes | Mrs | State fields, the three ways to make new cells (equal cells, upsampling, downsampling with the rest in the last cell), the factor that is cut down, the new request id; exact rationals; segments, and a record that does not parse, left out |
| MeqNodes HistoryCollect, Node::setState | Hst | Items of any type, the list with its limit, commands, state records with fields of the wrong type, the recovery after a refused record; labels, last_error and the other fields of the node left out |
| MeqNodes WSum, WMean | Wsm | Weights from state records, children disabled for weight zero, evaluation, normalisation in place; single exact values; what Function and the polling do with the results of disabled children only as far as whether they are there |
| AppAgent MTQueueChannel, the parts of EventChannel and EventFlag it uses | Mtq | two threads, queues, errors, closing, waiting |

Not modelled at all: PyParser, PyNodes, MeqServer's Python side, VisCube's tables and tile formats, VisAgent, the rest of AppAgent,
MeqNodes other than those named above and at the properties, LSQFit, QDBM,
memory allocation, and compiler- or platform-dependent behaviour other than what is
called `UB` in the models.

## Plan per property

* **C01 HIID wildcard matching is language intersection** – Model matches over lists of atoms. Spec: denotation of a pattern as a predicate on concrete ids. Prove iff by induction on both patterns.
* **C02 HIID subsetOf is language inclusion** – Same denotation; subsetOf true iff inclusion. Completeness direction constructs separating concrete ids (needs a concrete atom different from a given one).
* **C03 HIID ordering is a strict total order compatible with equality** – Model == (size+memcmp) and < ; prove trichotomy, transitivity, irreflexivity against lexicographic order.
* **C04 HIID pack/unpack round trip** – Bytes as lists of Z in [0,256); little-endian 32-bit two's complement atoms; prove round trip and size accounting.
* **C05 HIID slicing at slashes and at the ends** – Model splitAtSlash/pop_front/push_front with the byte-level memmove; spec by list append/join; push_front refuted + partial for short ids.
* **C06 Counted references: exact counts, no dangling references, no leaks** – Heap model of CountedRefs: refs and targets as finite maps, intrusive chain as owner list; invariant count = number of refs attached; induction over op sequences.
* **C07 Copy-on-write isolation** – Contents added to targets; write op = getTargetWr then store; prove frame property for all other unshared refs.
* **C08 Locked references cannot be detached, and lock is undone by unlock** – Error outcomes of ops on locked refs in the same model.
* **C09 BlockSet is a FIFO of blocks and the cursor reads every byte once** – BlockSet as list of byte blocks with cursor; prove concatenation law for any chunk sequence; flushToCursor refuted.
* **C10 Object file round trip** – BOIO file as byte list; writer/reader state machines; round trip by induction on the objects.
* **C11 Object file after a crash: truncation is detected and yields a prefix** – Reader on any prefix of the file; prefix theorem over all cut points.
* **C12 Nested object serialisation round trip** – Nested object datatype, encoder/decoder to block lists mirroring toBlock/fromBlock and DynamicTypeManager; round trip with arbitrary suffix.
* **C13 Deserialisation fails cleanly on missing blocks** – Same decoder; error on any proper prefix of blocks.
* **C14 List behaves as a sequence with negative indexing** – List ops vs. sequence spec; get negative refuted.
* **C15 Record behaves as a finite map with protected fields** – Record ops vs. finite map with protection bits.
* **C16 Record merge** – merge vs. map union.
* **C17 Removing a record field returns the object that was stored** – removeField with reference transfer modelled; refuted.
* **C18 NumArray indexing is a bijection onto the data block** – Row-major offsets; bijection between index tuples and 0..size-1 by induction on rank.
* **C19 NumArray slices address the elements the range syntax names** – Slice parsing per axis; refuted for length; partial under exact division and bounds.
* **C20 Sequence/array/map packers round trip** – Byte-level packers; round trip for SeqPacker; MapPacker/ArrayPacker refuted.
* **C21 Timestamp arithmetic** – Integer arithmetic on (sec,usec).
* **C22 Request-id masked comparison and difference mask** – Request ids as lists of integers, masks as Z bit tests; prove iff with positionwise spec.
* **C23 Request-id update operations touch exactly the masked positions** – Same; frame properties per position.
* **C24 Symbolic dependency masks stay consistent** – State machine, invariant.
* **C25 Domain envelope and containment** – Rational intervals per axis.
* **C26 Cells segments partition the grid into uniform runs** – Greedy segmentation over Q.
* **C27 Cells comparison is reflexive and symmetric** – Decision logic of compare; refuted on empty cells; partial on non-empty.
* **C28 Cells resampling preserves coverage** – Resampling over Q.
* **C29 Cached evaluation equals fresh evaluation** – Node graph with caches as state machine; cached evaluator vs. uncached evaluator, invariant: every cache entry is what a fresh evaluation of any request equal under its mask would give.
* **C30 Child poll order is a permutation** – List permutation proof.
* **C31 Synchronous child poll: result independent of schedule** – Interleaving model of result reception; final state independent of arrival order.
* **C32 A synchronous child poll always finishes** – Interleaving model with wait/broadcast; deadlock witness under abandon; progress theorem for the other policies.
* **C33 Thread pool: bounded number of busy threads per depth** – Pool state machine; max_busy bound refuted, max_busy+1 bound proved.
* **C34 Forest registry consistency** – Forest state machine; invariant.
* **C35 Forest index checks** – Index check; UB witness.
* **C36 Subscriptions behave as a set of patterns** – Subscription list vs. predicate on messages, uses C01/C02 semantics.
* **C37 Subscriptions pack size accounting and round trip** – Byte-level pack/unpack; pksize invariant.
* **C38 Message queue is a stable priority queue** – Queue as list; sortedness, stability, permutation.
* **C39 Dispatcher delivers a message to exactly the addressed work processes** – send as function of WP table; counted delivery.
* **C40 Dispatcher polling is starvation free** – Polling with ages; bound by potential argument.
* **C41 Message serialisation round trip** – Byte/block-level codec for messages.
* **C42 VellSet shape is the join of its components** – Shape merge as join.
* **C43 Fails accumulate in a VellSet** – State machine; refuted.
* **C44 Gateways do not forward messages in circles** – Decision function of willForward over all messages and gateway states.
* **C45 Multithreaded evaluation executes every node exactly once** – Threads, stacks of work orders, queue and polls as an interleaving system on the pool of C33; invariant: executed + queued + pending nodes are a permutation of the tree.
* **C46 Multithreaded evaluation always completes** – Same system; a cost that every step lowers gives termination; a cover invariant (every queued order has a thread that will look at it) gives progress for trees no wider than max_busy+1; deadlock witness for wider ones.
* **C47 verifyShape recomputes the shape of a VellSet** – Same model as C42; induction over the stored arrays; refuted when arrays vary less than before.
* **C48 A failed VellSet holds nothing but its fails** – Same model with the weights pointer as null/valid/dangling.
* **C49 Domain equality compares axes and ranges** – invariant over all ways of building a domain: a defined axis never has the all-zero range. Binary64 via SpecFloat.
* **C50 Every domain can be copied and sent** – clone rebuilds from record fields; refuted with a binary64 witness.
* **C51 A received domain record is checked before use** – array indices out of range are UB in the model.
- Cells (C26-C28, C52-C56): `Cell_Model.v` parametrised by the arithmetic. Segments by induction over the loop; resampling over exact rationals through the cell boundaries; copies and supersets by an invariant of all histories of `setCells`.
* **C57 A repeated request is answered from the cache** – same model as C29; one step of `execute` on the state left by the previous one.
* **C58 Unpacking damaged bytes never reads outside the block** – `Upk_Model.v`: SeqPacker::unpack with pointers, declared sizes and size_t arithmetic; shown to accept the same blocks as the model of C20.
* **C59–C63 Vells arithmetic** – `Vel_Model.v`: computeStrides, DimCounter, strided iterators with pointer positions, the shared loop. Key invariant: strides of the axes that wrapped sum to 1 minus the elements spanned (last one degenerate) or 1; so the loop visits the broadcast positions in row-major order. Reductions over `Qc`, spreading sums over a larger shape in any commutative monoid. Element types, copy-on-write and int overflow of offsets are not modelled.
* **C64–C68 Function nodes** – `Fun_Model.v`: Function::getResult with findSpids (the in-place merge over one work array), evaluateFlags, main and perturbed values, fails, missing data, dimensions and return code. Values, perturbations, fails, evaluate() and the two shape checks are parameters; flags are the Vells of `Vel_Model`. `Fun_Spec.tells` says what a VellSet means: the values of a function of the parameters at the current point and at each single perturbation. `Fun_Proofs`: the merge. `Fun_Pert`: the perturbation loops against `tells`. `Fun_Flags`: flags spread over a common shape. `Fun_Node`, `Fun_Thms`: planes, results, trees. Not modelled: mutexes, state record, resampling of children (that is in Cells), the request's cells.
* **C69–C75 polynomial funklets** – `Polc_Model.v`: Polc::do_evaluate in its four shapes of code with clipping to the domain, perturbed values and the local array of powers; Funklet::evaluate, makeSolvable with masks, clearSolvable, getCoeffIndex, update, transformCoeff/changeSolveDomain, setCoeffShape, Parm::initSolvable. Exact rationals (`Qc`) instead of doubles. `Polc_Spec`: the polynomial as a double sum, relative coordinates, a coefficient changed by an amount. `Polc_Alg`: Horner evaluation and the binomial theorem for the double sum. `Polc_Proofs`: evaluation on a grid; `Polc_Solve`: spids, updates, rescaling, reshaping; `Polc_Thms`. Not modelled: constraints and force_positive, funklets evaluated on grids given by children, the mirror of members in record fields, PolcLog's axis function other than as an arbitrary function per axis.
* **C76–C80 tilings and unknowns of the Solver** – `Slv_Model.v`: Tiling::init/advance, the comparison of tile sizes in the map of tilings (with the search of a red-black tree simplified to a linear one that finds the first equivalent key), the three stages of populateSpidMap, fillEquations' walk over the cells with the unknown each derivative goes to, and fillRider's order of updates. `Slv_Spec`: cells, tiles and row-major numbers without pointers. `Slv_Proofs` (walk), `Slv_Map` (comparison), `Slv_Stage` (spids, common multiples), `Slv_Super` (tiles in tiles), `Slv_Alloc` (unknowns and slices), `Slv_Thms`. Not modelled: values of equations, flags and weights, the numerical solution (casacore), convergence.
* **C81 releasing caches** – same model as C29; induction over the hints.
* **C82–C85 worker threads of the Solver** – `Swk_Model.v`: main thread and workers as an interleaving system over two locks with condition variables (activateSubsolverWorkers, processSolversLoop, workerLoop, start/stopWorkerThreads), with spurious wake-ups. `Swk_Proofs`: invariant by phases of the main thread, and the tally of subsolvers handed out, in hand and ended; `Swk_Thms`: theorems, a measure for termination. Sequentially consistent memory is assumed; `wt_active_` as separate flags.
* **C86–C90 conditional equations** – `Ceq_Model.v`: Condeq.cc calcDerivative and getResult over exact complex rationals, with the Vells operators of `Vel_Model` and the VellSets of `Fun_Model`. `Ceq_Spec.v`: fields over the grid, rates of change. `Ceq_Proofs`: Vells operators on fields, remainder(); `Ceq_Loop`: the loop over spids; `Ceq_Thms`: planes, results, theorems. Caches, state records and the polling before getResult are not part of it.
- `Leq_*`: the equations of the Solver (MeqNodes/src/Solver.cc:543-783, 1043-1056): which cells are used, unknowns and coefficients of each equation. LSQFit (casacore) is not modelled; values are exact complex rationals. C91-C94.
* **C95–C99 tiled parameters** – `Tpc_Model.v`: Parm::GetTiledDomains, checkTiledFunklet, initTiledFunklet; ComposedPolc: sorting by domain, envelope and axes with shape, do_evaluate with its search for cells and filling of flat arrays, makeSolvable, do_update. Exact rationals. `Tpc_Spec`: the tiles of `Slv_Spec`. `Tpc_Proofs` (cells along an axis), `Tpc_Tiles` (domains), `Tpc_Order` (sorting, envelope), `Tpc_Values` (filling tile after tile), `Tpc_Thms`. Not modelled: constraints, force_positive, splines, changeSolveDomain of the list.
* **C100–C102 matrix products** – `Mmul_Model.v`: MatrixMultiply.cc scalarMultiply, the loop over elements and terms, flags, fails, dimensions, return code, over exact complex rationals with the shortcuts of the Vells operators. `Mmul_Spec`: tensors as functions of parameters and cell, their product. `Mmul_Proofs` (arithmetic, VellSets made of factors), `Mmul_Step` (two tensors, one element), `Mmul_Thms`. Flags attached to Vells themselves are left out.
* **C103–C107 tensors of VellSets** – `Tns_Model.v`: Result's dimensions (constructors, setDims, what a copy reads back from the record), VellSet access with DMI::Vec's append at the end; Transpose, Selector, Paster, Composer::getResult. VellSets are those of `Fun_Model`. `Tns_Spec`: tensors by index in row-major order. `Tns_Proofs` (puts in loops, shapes, transposing), `Tns_Slice` (the incremental offsets of a slice), `Tns_Thms`. Cells, locks, messages of fails and shape verification are left out.
* **C108–C113 parameter tables** – `Ptab_Model.v`: FastParmTable: entries of domains, their file as 8-byte chunks, keys and values of the QDBM depot byte for byte, getFunklet(s), putCoeff, deleteFunklet, deleteAllFunklets; Parm::save and getFunkletFromDB. Ends of domains are rationals or infinity; a funklet is its class, coefficients, perturbation, weight, domain, id and an opaque rest; its conversion to blocks is a parameter (C20, C57 are about it). QDBM is a map. `Ptab_Spec`: histories and what they leave, domains that meet in a point. `Ptab_Proofs` (domains, file, depot, values), `Ptab_Table` (invariant over histories), `Ptab_Thms`, `Ptab_Ex_Thms` (counterexamples and examples). Not modelled: CasaParmTable, errors of the file system, iteration over keys, force_shape.
* **C114–C118 flags** – `Flg_Model.v` models `MergeFlags::getResult`, `ZeroFlagger::getResult`, `ReplaceFlaggedValues::evaluateFlags/evaluate`, the flag masks of `Function::setStateImpl` and `VellSet::setDataFlags` with `adjustShape`. `Flg_Spec.v` says which element of a result faces which element of a child and what the comparisons mean. Flags are the Vells of `Vel_Model.v`; ReplaceFlaggedValues is put into the loop over spids of `Fun_Model.v`. Not modelled: cells, weights, the state record beyond `flag_mask`, copy-on-write of arrays, and the parsing of `oper`. The theorems ask that all flags can be spread over one shape (`flags_fit`), which Function nodes check of their children. Findings: the mask of the first child is ignored by MergeFlags when there are several; ZeroFlagger loses earlier flags as soon as its comparison holds anywhere; ReplaceFlaggedValues ignores the flags of a child that is identically zero, and fails when the flags vary along an axis that the value does not.
* **C119–C124 slices and reductions** – `Red_Model.v` models `ConstVellsSlicer0` (VellsSlicer.cc), `ConstVellsSlicerWithFlags0` (VellsSlicerWithFlags.cc), `ReductionFunction::apply`, `evaluateFlags`, the axes of its state, and the nodes Sum, Product, Mean, Min, Max, NElements, Rms/StdDev as far as they choose what to reduce; the reductions of one array are those of `Vel_Model.v`. A pointer is an offset in elements; a slice is seen either through its strides (blitz arrays) or as contiguous memory (Vells arithmetic). `Red_Spec.v`: slices by index vectors. `Red_Proofs` (positions as sums over axes, pointers moved), `Red_Slices` (bounds, trailing axes), `Red_Init` (what the slicers are set to, where slices start, that they partition), `Red_Flags` (flags). Theorems in `Red_Thms`, `Red_Flags_Thms`. Not modelled: the writable slicers apart from what they share, conversion of axis names, perturbed values (the same function applied to each).
* **C125–C129 names** – `Nam_Model` (registry of atomic names, reading and printing identifiers, literals, Python record keys), `Nam_Spec` (fields and separators, decimal numerals, packed literals, registration histories, items with a text form), `Nam_Proofs`, `Nam_Parse`, `Nam_Print`, `Nam_Reg`, `Nam_Lit`, `Nam_Thms`. Not modelled: locales other than C; values of `atoi` outside `int` (undefined); the registry mutex.
* **C130–C136 spigots, sinks and baselines** – tiles are functions of correlation, frequency and row; arithmetic is a record of two conversions, so that nothing depends on rounding except `spigot_sink_round_trip`, which assumes that single precision survives widening and narrowing. The order in which VisDataMux calls the nodes is not part of these theorems. Not modelled: creation of missing output columns, tile formats, node state records, debug output.
* **C137–C140 data streams** – `Mux_Model` logs what VisDataMux does; handlers, children and the order in which sinks answer are an environment that sees the log so far, so that the theorems hold whatever they answer. `Mux_Spec` describes runs by an inductive relation over snippets. Not modelled: aborting, Python callbacks, input channel errors, domain ids.
* **C141–C146 the queue channel** – `Mtq_Model` is a machine of two threads with program counters, a lock, a condition variable with spurious wake-ups, the queues and the flags of MTQueueChannel; a step is a piece of code between two points where the other thread matters. The remote channel answers anything. `Mtq_Spec` says everything in terms of the trace of calls, returns and calls of the remote channel. `Mtq_Proofs` has the invariants of the machine (who has the lock, what a sleeper waits for), `Mtq_Traces` relates queues to traces, `Mtq_Block` says what two waiting threads can be waiting for, `Mtq_Live` has the calls that never return, what is left of a closed channel and a measure that bounds runs in which nothing comes from outside. One client thread; a second init(), solicitEvent and isEventBound are left out; memory is sequentially consistent (the code reads `state()` and `aborted_` without the lock, which C++ calls a data race).
* **C147–C151 tensor nodes** – `Tfn_Model` models TensorFunction.cc and TensorFunctionPert.cc over the VellSets of `Fun_Model`; evaluateTensors and getResultDims of the node class are parameters. The spid loops of Function and TensorFunction are the same code, so the lemmas on `child_loop` of `Fun_Pert` are used again. `Tfn_Spec` says what tensor of functions is meant (`element`), `Tfn_Proofs` and `Tfn_Perts` treat TensorFunction, `Tfn_Table` the table of pointers of TensorFunctionPert. Not modelled: mutexes, the optimisation of getChildValue that tells the class that nothing changed, reuse of cached vectors between calls other than the size of the table.
* **C152–C155 riders and execute** – `Rid_*`: Rider.cc, the rider part of Request.cc, processCommands and processRequestRider, Solver::fillRider and the control flow of Node::execute. Records live in a heap, so that sharing between requests is modelled; a record's fields are listed in the order in which they are iterated. What execute() calls (children, getResult, discoverSpids, cacheResult, the abort flag, processCommand) is an arbitrary environment that may throw at every step; commands are assumed not to set the result reference. Left out: breakpoints, the states shown to users, statistics, locks.
* **C156–C157 ReqSeq and ReqMux** – `Rsq_Model` models pollChildren, getResult and discoverSpids of both nodes and puts them into Node::execute of `Rid_Model`; ReqMux polls with `Poll_Model`. What children answer may depend on their number and the id they see, and is otherwise arbitrary. `Rsq_Spec` describes codes bit by bit and ids part by part. setStateImpl is not modelled; that result_index is below the number of children is a hypothesis where it matters.
* **C158 cells of results** – `Chk_Model` models checkChildCells with cells reduced to a grid and a domain per axis and the identity of the object. `Chk_Thms` reduces one child to a verdict per axis and has an invariant over the children seen so far: shapes are the maximum, every axis is owned by the first child that varies along it. The arithmetic is arbitrary. Not modelled: segments, domain ids, locks.
* **C159–C160 names of axes** – `Axm_*`: the global map between names and numbers of axes as a state changed by calls; the records describing axes are left out.
* **C161–C162 inverse of a 2x2 matrix** – MatrixInvert22 gives the inverse in value and perturbed values, the product with MatrixMultiply is the unit matrix; fails, masks and refusals.
* **C163–C164 discovery of unknowns** – trees of Parm, ordinary, selecting and Solver nodes; spid maps as ordered maps; which spids are reported, as what, and what the Solver makes of them.
* **C165–C166 resampling** – what cells and what request id the child of a ModRes node is asked for, that the cells tile the same stretch of each axis, and how earlier requests change the downsample factor.
* **C167–C168 histories** – what a HistoryCollect node keeps over any sequence of results, commands and state records, and what a refused record does to it.
* **C169–C170 weights** – what WSum and WMean give for any weights and sequence of requests, and that a weight of zero among several makes every request fail.
