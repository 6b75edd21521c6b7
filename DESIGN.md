# Formal model of AHO-MS2003 in Coq 8.16.1

## What is modelled

The library solves: minimise `sum F_i(mu_i) + sum B_k(omega_k)` over integers with
`l_i <= mu_i <= u_i`, `l_k <= omega_k <= u_k`, `mu_{i_k} - mu_{j_k} <= omega_k`, all F, B convex.

| code | model file |
|---|---|
| C++ outcomes, vectors, 32-bit `int`, 64-bit `size_t` | `Base.v` |
| `Data` (double / exact) | `Data.v` |
| `src/UniqueQueue.*` | `UniqueQueue.v` |
| `3rd/lct/LCT.*` | `LCT.v` |
| `src/ProblemDefine.*` | `ProblemDefine.v` |
| `src/Flow.*` | `Flow.v` |
| `src/ProblemSolver.*` | `ProblemSolver.v` |
| `src/include/WrappedDouble.hpp` | `WrappedDouble.v`, `prettyPrint` in `Text.v`, `operator<<` and constructors in `TextStream.v` |
| oracles in `test/` (`bf_solve`, `SimpleSolver`'s searches) | `Oracles.v` |
| `test/CostScaling.*`, `test/SimpleSolver.*` | `CostScaling.v` |
| `3rd/generator`: testlib's `random_t::next`, `wnext`, `setSeed`, `shuffle`; gen.h's `UnrootTree`, `Graph` | `Generator.v` |
| gen.h's `RootTree`, `BipartiteGraph`, `DAG`, `CycleGraph`, `WheelGraph`, `GridGraph`, `PseudoTree`, `PseudoInTree`, `PseudoOutTree`, `Cactus`; testlib's `any` | `GenMore.v` |
| gen.h's `UnrootChain`, `UnrootFlower`, `RootChain`, `RootFlower`; testlib's `next()` and `wnext` with `pow` | `GenFar.v` |
| `test/generator.cpp` (`TinyGen`) | `Generator.v`; the characters of `info` in `Text.v` |
| `test/test.cpp`: generators, verifiers, random tests | `TestSuite.v` |
| `test/test.cpp`: fixed tests | `FixedTests.v` |
| `test/Graph.cpp` (`Graph::prettyPrint`) | `Printing.v` |

Not modelled: the rest of testlib; the function `std::pow` (an argument of the definitions in `GenFar.v`, with the accuracy `pow_good`), `3rd/testa` (empty in the
repository; its two macros are read as described in `TestSuite.v`),
wall-clock time and memory exhaustion. Running out of call stack is not an outcome of the model; the depth of the one recursive
function (`push_down_from_root`) is its fuel, see C59, and the nesting of cost functions is bounded in C98.

### Modelling decisions

* **Outcomes.** Every function returns `res A = Ok a | Err e`. `e` distinguishes signed overflow,
  out-of-bounds access, null dereference, failed `assert`, `front`/`pop` of an empty queue, call of an empty
  `std::function` and fuel exhaustion. So undefined behaviour and non-termination are visible outcomes and
  "`= Ok v`" in a theorem says none of them happens. Asserts are modelled as if `NDEBUG` were not set.
* **Loops** use one explicit fuel number; running out is `Err OutOfFuel`. Theorems say
  "there is a fuel from which on the result is `Ok ...`"; by C54 the outcome is the same for every sufficient fuel.
* **int** is `Z` with every operation checked against [-2^31, 2^31-1]. `size_t` labels and sizes are `nat`, except
  the constructor's `n`, which is a `Z` with the wrap of `n+1` modulo 2^64 written out.
* **Data.** The model is polymorphic in a record of operations (`DataOps`). Two instances:
  *exact* - integers counting multiples of a unit `1/one` (for `one = 2^1074` this contains every finite double
  exactly; every operation the code performs is closed and exact on it, the final division by two is proved exact);
  *binary64* - the standard library's `SpecFloat`, with IEEE rounding. Correctness theorems are about the exact
  instance, for every `one > 0`; C40 and C42 carry them over to doubles for costs on a grid. Rounding effects are shown
  separately by witnesses run in the binary64 instance.
* **Cost functions** are `Z -> res D`. Theorems only assume `fn x = Ok (F x)` for `l <= x <= u`; outside it the
  callback may do anything, including fail. Hence an `Ok` result shows that no outside call is made (C07). A callback is a
  function of its argument alone: that it returns the same value each time is assumed, except in C97, where it may use a state.
* **LCT nodes** live in a heap `list node`, pointers are `option nat` indices. All pointer manipulation
  (`rot`, `splay`, `access`, lazy `add`, cached `min`) is modelled field by field.

## How each property is proved

* C22, C23: zipper-based representation predicate relating the heap to a set of auxiliary splay trees, and these to an
  abstract forest (parent map, value map); each operation is shown to refine its abstract counterpart; lifted to
  every operation sequence by induction.
* C24: refinement to a duplicate-free list, induction over operation sequences.
* C13, C14, C15, C30: induction on the loop's interval; convexity gives monotonicity of the predicate.
* C18-C21: invariant of the main loop with a ghost "actual flow" (tree edges hold their flow lazily), a ghost rank
  (acyclicity of admissible edges), and the start-of-phase circulation. Potential bound by a cut/pigeonhole argument:
  an empty band of potentials yields a node set with positive excess but nonnegative outflow. Termination by a
  lexicographic measure (remaining potential increase; arcs left to scan / link state).
* C17: weak duality by summation; strong duality by rounding the final potentials with a shift avoiding the n+1
  critical residues modulo 2(n+1).
* C16, C28: direct summation arguments. C01, C02 combine C28, C16, C17. C03, C04, C07: the same theorem (result is `Ok`).
* C08-C12, C29: corollaries of C01/C02 through the independent specification.
* C05: the potential bound summed over all phases gives the documented number when every range contains 0;
  the general statement is refuted by a concrete run.
* C06: direct; the single exception n = SIZE_MAX with empty Mus is refuted by a witness.
* C25, C27: witnesses by `vm_compute`.
* C26: linear arithmetic over the exact instance, witness for non-transitivity.
* C38: the functions of `LCT` and `Flow` are copied with a test `okd` on every computed number (`LCTChecked`,
  `FlowChecked`); a checked run that succeeds is a run of the model; the invariants bound every number, so with the test
  `|z| <= 80(m+1)M` the checked run succeeds. Bounds: in the tree `val`, `val - add` and `min` of a node are at most
  `C`; non-root values lie in [0,2M]; the value of a root drops by at most the excess it receives, at most m*M in a phase.
* C39: the same with `ProblemSolver` (`SolverChecked`); each merged function at an interior point is bounded through
  its neighbours by convexity.
* C40-C42: a checked run on exact numbers is followed step by step by the plain run on another number type as long as
  the numbers correspond (`Sim`, `SolverSim`). Doubles correspond to `z*2^-k` for `|z| < 2^53`, where every operation is
  exact (`FloatExact`); C39 keeps the run below that bound. For `WrappedDouble` the sums `a+eps`, `a-eps` do round:
  addition and subtraction are shown to return a nearest double (`FloatRound`), and eighths of a unit 2^-k are
  representable below 2^50 units, so rounding cannot pass a neighbouring multiple. If a compiler contracts
  `fn(w)-x*w` into a fused operation the result is the same, since both forms are exact.

* C44: one refinement keeps every residual arc above `-eps/2` in reduced cost; active nodes reach a node with deficit
  along residual arcs, which bounds the potential growth when the start is eps-optimal; ranks of admissible arcs bound
  the pushes. After the last refinement `eps*N < 1` and integer costs make the circulation optimal (rounded potentials).
* C45: each convex cost is a sum of hinge functions, one per arc that SimpleSolver creates, so circulations of
  least cost are dual to the problem with the ranges replaced by slopes 1e9; a spread below 1e9 makes that exact.
* C46: C01, C02, C12 and C45 meet the same specification, which has one answer.
* C47: the step is affine with odd increment and multiplier 1 mod 4; doubling the number of steps gives the full period,
  one table of 48 affine maps checked by computation. Termination of rejection loops: the state 0 comes up and is accepted.
* C48: loop invariant on the drawn edges. Termination: some pair not yet taken exists, a table gives a state from which
  it is drawn, the full period leads there (from odd or even position: the table's states yield u, v, u).
* C51-C53: as C40, but without a checked copy: `Hom.v` collects what is needed of a relation between numbers of two types
  (operations respect it below a bound `B`), and the runs of `CostScaling`, `SimpleSolver` and `bf_solve` are related
  under invariants that keep every number below `B` (`ScaleRel`, `ScaleRunRel`, `SimpleRel`, `OracleRel`). The random
  tests on doubles then follow from C40, C52 and the equality of double solutions of one exact problem.
* C54: induction on each fuelled loop: `later m1 m2` says that `m1` ran out of fuel or equals `m2`.
* C55: raising all potentials by a constant changes nothing but overflow (`FlowShift`); a computed prefix of the run
  reaches a state that recurs after ten rounds with all potentials 4 higher, so the loop cannot end; by C54 the computed
  prefix, made with 100 iterations per loop, is the prefix of every run. Conversely a step that succeeds also succeeds
  with raised potentials or overflows (`FlowRise`), so 2^29 cycles must overflow (`FloatOverflow`).
* C56: computation with 1000 iterations, C54 for more; the answers are compared with exhaustive search in exact numbers.
* C57: summation along the walk; conversely relaxation of upper bounds along omega limits either stops at a solution or
  passes a lower bound, which closes a negative walk. C58: the same point is feasible in both problems.
* C59: the heap after each call is written out (a left spine); the lookups walk it and change nothing. From its lowest node
  the recursion passes every node.
* C60: the invariant of the phases (`FlowStates`), with the error of each phase at most twice its step. The measure of
  the iterations (`FlowPhase.mu`) lets each rise of a potential pay only for the edges and children of its own node,
  hence a bound of the order of nm + n^2 per round. The steps
  inside the iterations are paid for by advances of current edges, edges leaving the forest and rises of potentials. C63: an iteration
  raises one potential by one step; the optimality at the end of the first round forces a potential of about 4L.
* C76: `LCTTime`, `FlowTime` and `SolverTime` are copies of the functions that count one turn whenever the body of a loop (or a recursive call of the
  tree) is entered; `erase` of a copy is proved equal to the model function, so the copies are not trusted. Reading and setting fields,
  evaluating a user function and `std::vector` access are not counted; filling or copying a vector counts its elements, an access to
  `std::map` as many turns as the map has elements. The bound for the tree is worst case; for the amortised one see C92.
* C77: every number ends before a character that is not part of a number, so the text is read off as in C61; printf is modelled as the exact
  value rounded to the given decimals, ties to even, so 25|w| hundredths are exact. C78: rounding is monotone and does not cross a double;
  a sum overflows only half a unit above the largest double, which eps does not reach; the exceptions are computed. C79: the rounding to six decimals is off by at most half of 1e-6.
* C80: a relation between the two runs, step by step: the first has thrown, or both have the same outcome with states that differ only in the
  cost functions.
* C81: the relation "equal and at most B in absolute value" between the run on the type and the run on Z, kept by the bound `run_bound` on all
  intermediate values.
* C82: a fractional point is the mean of q integral ones, obtained by rounding with the offsets 0, ..., q - 1; their costs sum up to its cost.
* C83: the mean of the two optimal solutions is a solution with denominator 2 of the problem in the middle; then C82.
* C84: exchanging omegas between two solutions; the least value of a variable is found by calls with narrowed limits.
* C85 to C87: n * p with p near 1 is rounded to the nearest double and cut to an integer; 2^53 * 2700^100001 < 2701^100001 shows that every
  nonzero draw gives n - 1. next() is 0 only in the state whose successor is 0; three steps are made per node, and the state 0 does not
  come back within 8200 steps, so there is at most one exception.
* C88: reading (`TextSpec.v`) the text gives the digits back. The six-digit numbers between 10^X and 10^(X+1) are the multiples of
  10^(X-5); those outside are further away than the nearer end.
* C90: with x optimal for the one problem and y for the other, max(x, y-1) and min(x+1, y) cost no more together, one in each problem;
  so one of them is optimal for the second problem and closer to x.
* C91: `FloatExact.v` once more with the precision as a parameter. An int of more than `prec` bits is rounded, but then it is only
  ever multiplied by 0, or the product would be out of bounds.
* C92: the potential is the sum of floor(log2 of the number of nodes below) along the father pointers, virtual ones included. A double
  rotation pays for itself by the growth of the rank of the node. set_fa does not access the new father, so it would raise the ranks of
  all nodes above it; instead the linked node keeps weight 0 until the next call has made it a root.
* C93: `FlowLog` copies the functions of Flow.cpp and records each call of a method of `nodes`; forgetting the record gives the original
  (`*_unlog`). The recorded calls are then replayed as a program for the tree, so that C92 applies. The loop of `refine` that cuts all
  nodes after a round calls `cut` only on nodes that have a father.
* C94: `EvalLog` copies the constructor, `solve` and Flow with cost functions that record their calls; `C94_same_run` says that forgetting
  the record gives the original, also for runs that fail. Both arguments of a `+`, `-` or `max` are recorded left to right; C++ leaves the
  order open, which changes neither the number nor the arguments of the calls. `calc` reads the two end values once in `ProblemSolver` and twice, as the code does, here.
* C95, C96: `GenObj` adds the classes of gen.h as objects: constructors, overridden setters and which GenGraph a call reaches (virtual
  dispatch; a GenGraph with a default argument hides GenGraph() but does not override it). A call that does not compile is excluded by `has`.
* C97: `MemRun` copies the solver with cost functions that may use a state; the places where C++ leaves the order of two operands open
  are numbered and a function `ord` decides for each. One simulation for all types of costs: if the original returns, the copy returns
  the same. Range restrictions come from C07.
* C98: `Closure` copies the functions that build function objects and keeps a term for each object; the function of the term is the one of
  the model (`*_plain`, equalities without functional extensionality). The rest of the flow code leaves the edges alone (`FlowFrame`).
* C99: the states are not restricted to those a seed can give; only the lower 48 bits of a state matter (`shuffle_mod`), so there are at most
  2^48 results of `shuffle` on one vector.
* C100: `tiny_gen_split` writes TinyGen as the draw of m followed by a function of m that does not see the state.
* C101: `Client` is a program that uses the API; it is not in the repository. `find_value` bisects with the `partition_point` of
  ProblemDefine.cpp, whose iteration budget bounds the number of calls.
* C102: uses the theorem behind C17, which never asked U to be the width.
* C103: real numbers are an instance of C104. `real_ops` replaces the double arithmetic; C37, C40, C55, C64 and C91 are about rounding.
* C104: the run is compared with runs on integers: `EvHom` shows that a map between Data types that respects the operations, and
  eventually every single comparison, carries a run over. Finitely many comparisons between sums of elements of the group come out the same
  for suitable integers (Fourier-Motzkin elimination, `GroupSigns`). The final halving is left out of the comparison: with integers the sum
  is twice the sum over every other edge (`GroupPre`), so the same equation holds in the group.
* C105: `TreeFlow` repeats the functions of `Flow` and solve() with the calls of the link-cut tree handed to a parameter; `TreeFollow` shows by
  the recorded calls (C93) that it goes the same way whenever the answers are the same. `implements_forest` is the contract, stated with the plain forest of C22.
* C106: the variant with all resets is in `Reset`. Programs in which a node gets a value before it is linked and is asked for it only right after being
  cut (`careful`) have the same answers whatever values were left over.
* C107: `AnyOrder` repeats the loop of refine() with the queue rearranged before each turn; nothing in the invariants of C19 depends on the order of the queue.
  A container whose front can change while choice() pushes nodes (a stack, say) is covered only if front is asked once per turn: the code asks twice.
* C108: `MonotoneSpec` says what it means that variables are drawn upwards; the proof extends that of C84 to two problems.
* C109: the run is computed up to the link that closes the cycle; from there a pass of the loop in splay() leaves the heap as it is.
  In C++ a loop without I/O that does not end is moreover undefined behaviour; the model only says that it does not end.
* C110: the first four turns are computed with the cost at 1 left open, the other turns by induction on the potential.
* C111: `NDebug` repeats the functions that assert, and those that call them, without the assertions. A failing assertion in cut() becomes a null dereference there,
  one in set_fa() overwrites the father.
* C112: `Rounding` repeats the functions of Flow that depend on q() with the rounding as an argument. As in C109 the endless run is followed up to
  the link that makes two nodes each other's father.
* C113, C114: `GatherProof` repeats the correctness proof of solve() for any way of gathering the limits that keeps the satisfying assignments and their costs.
  Both are instances of it.
* C115: the solutions of the three problems are the same and the costs add up; then C01 and C02.
* C116: the sum of the two capacities is kept by every push and by the saturation; with doubles 0.9 + 1.1 + 1/3 style sums round.
* C117: pushing nothing along the arc puts the node back on the stack.
* C118: a convex cost is largest at an end of its range; intersecting ranges and adding costs lowers sums of maxima and spreads.
* C119: C60 and C93 with the first round bounded like the others, since no limit is further from 0 than U.
* C61: decimal numbers end before the separator, so the text is read off piece by piece. C62, C64, C65: computation, and C54 for other budgets.
* C66, C67: the last state is optimal within 1 unit of 1/(2(n+1)); rounding with a free offset gives complementary slackness
  with the final flow, for every limit; sum over the limits. C28 and C16 carry it over to the problem.
* C68: the proof of C01-C04 with the bounds of the network as parameters (`run_solver_gen`); the overflow by computation and C54.
* C69-C75: `web l E`: the edges E join the nodes l into a simple connected graph; kept while nodes are attached, cycles closed and
  graphs glued together. Drawing an edge of the DAG is drawing an edge of a graph on positions, so C48's argument applies.
* C49, C50: C48 and the two solvers' theorems; the constants of the five generators are checked by computation.

## Files

| files | content |
|---|---|
| `LCTTree`, `LCTHeap`, `LCTSplay`, `LCTSpec`, `LCTForest`, `LCTOps`, `LCTRun` | link-cut tree proofs |
| `UQSpec`, `UQProof` | queue proofs |
| `Spec` | specification of the problem, input types only |
| `Sums`, `NetMath`, `Convex`, `SpecLemmas`, `BaseLemmas` | mathematics |
| `PDProof` | the functions of ProblemDefine |
| `FlowNet`, `FlowSpec`, `FlowNew` | networks, hypotheses on them, the constructor |
| `LCTChecked`, `FlowChecked` | copies of the tree and flow functions with run-time checks added (tree contracts, size of every number) and the proof that a checked run is the plain run |
| `LCTBound` | sizes of the numbers inside the tree |
| `FlowFrame` | which fields the flow functions leave unchanged |
| `FlowInv`, `FlowPhase`, `FlowRun`, `FlowOpt`, `FlowStates`, `FlowProps` | invariants, phases, optimality |
| `SolverNet`, `SolverProof`, `SolverProps`, `SolverSafe` | `ProblemSolver` |
| `Oracles`, `OracleProof` | reference solvers of the tests |
| `FloatSpec`, `FloatExact` | when a double is an exact number; operations that do not round |
| `WrappedDouble`, `MiscProof`, `ExampleData` | class WrappedDouble, witnesses, sample data |
| `Sim`, `SolverChecked`, `SolverSim`, `SolverSize` | runs on two number types, sizes of all numbers of `solve()` |
| `FloatRun`, `FloatRound`, `FloatWrapped`, `FloatExample` | runs on doubles, rounding to nearest, runs on WrappedDouble, sample data |
| `CostScaling`, `ScaleSpec` | the second solver of the tests and its specification |
| `ScaleNet`, `ScaleRefine`, `ScaleRun`, `ScaleProof`, `SimpleProof`, `ScaleExample` | its proofs, sample data |
| `Generator`, `TestSuite`, `GenSpec` | random inputs and tests, what they should produce |
| `GenRng`, `GenUniform`, `GenGraphProof`, `GenProof`, `GenTable`, `GenExact`, `TestProof`, `GenExample` | their proofs, witness tables, sample data |
| `Hom`, `ScaleRel`, `ScaleRunRel`, `SimpleRel`, `OracleRel`, `FloatOracles`, `TestFloat` | the reference solvers and the random tests on doubles |
| `FuelMono`, `FlowShift`, `FlowRise`, `FloatEndless`, `FloatOverflow` | more fuel, raised potentials, a run that never returns a value |
| `FixedTests`, `Decide`, `FixedProof`, `TestExample` | the fixed tests; deciding the hypotheses for concrete problems; sample data |
| `CertSpec`, `SolverCert`, `LCTLinear` | cycles of contradicting limits, nearby problems; a chain with linear lookups |
| `WorkSpec`, `FlowTotal`, `WorkSolve`, `FlowSteps`, `StepsTotal`, `FlowFar`, `NonConvex`, `FloatNull`, `Printing`, `PrintProof` | counting the work of the flow solver; costs that are not convex, ordinary and infinite double costs; printing |
| `PrimalSpec`, `FlowPrimal`, `PrimalSolve`, `PrimalExample` | the solution read off the final state |
| `Capacity` | int capacity needed by solve() |
| `GenMore`, `GenMoreSpec` | the other generators of gen.h, what they should produce |
| `GenWeb`, `GenShapes`, `GenTrees`, `GenCactus`, `GenParts`, `GenBipartite`, `GenGrid`, `GenMoreThm` | their proofs |
| `LCTTime`, `LCTCount`, `FlowTime`, `FlowCount`, `TimeSpec`, `TimeTotal`, `SolverTime`, `SolverCount` | counting all turns of loops |
| `Text`, `TextProof`, `TextTies`, `WrappedSpec`, `FloatAny`, `WrappedLaws` | texts with doubles; WrappedDouble on all doubles |
| `ThrowSpec`, `Throw`, `ThrowProof` | cost functions that throw |
| `MachSpec`, `MachProof` | machine integers as Data |
| `FracSpec`, `FracProof`, `LatticeProof`, `FracExamples` | fractional solutions, problems halfway, the set of optimal solutions |
| `GenFar`, `GenFarSpec`, `GenFarFloat`, `GenFarProof`, `GenFarShapes`, `GenFarThm`, `GenUnit` | chains and flowers, drawn with `std::pow` |
| `TextSpec`, `TextStream`, `TextStreamProof`, `StreamCases` | `operator<<` and constructors of WrappedDouble |
| `ProxSpec`, `ProxProof`, `ProxExamples` | distance of optimal solutions of neighbouring problems |
| `BinSpec`, `BinFormat`, `BinRun`, `BinExample` | any binary floating-point type as `Data` |
| `LCTSizes`, `LCTAmort`, `LCTAmortOps`, `LCTAmortRun` | amortised cost of splaying |
| `FlowLog`, `FlowReplay`, `CallSpec`, `CallTotal` | calls of the link-cut tree made by `min_cost` |
| `EvalSpec`, `EvalLog`, `EvalErase`, `EvalSim`, `EvalFlow`, `EvalTotal` | calls of the cost functions |
| `GenObj`, `GenObjSpec`, `GenObjProof`, `GenObjTree` | objects of the classes of gen.h |
| `MemRun`, `MemSpec`, `MemSim`, `MemExample` | cost functions with a state |
| `Closure`, `ClosureProof`, `ClosureDeep` | nesting of function objects |
| `GenShuffle` | orders that shuffle never makes |
| `GenSeed` | what the seed determines |
| `Client`, `ClientProof` | finding a solution with solve() |
| `FlowParam` | other values for M and U |
| `GroupPre` | runs up to the halving of the sum, which is even |
| `EvHom` | runs with different Data types |
| `RealSpec`, `RealProof`, `RealExample` | real costs |
| `GroupSpec`, `GroupSigns`, `GroupExpr`, `GroupProof`, `GroupInst`, `GroupExample` | Data types that are ordered groups |
| `TreeFlow`, `TreeFollow`, `TreeProof` | the flow solver on any implementation of forests |
| `Reset`, `ResetProof` | resets between rounds |
| `AnyOrder`, `AnyOrderProof` | the flow solver with any order of the active nodes |
| `MonotoneSpec`, `MonotoneProof` | comparing the optimal solutions of two problems |
| `NonConvexEndless`, `NonConvexDouble` | a problem with costs that are not convex on which solve() does not return |
| `InfEndless` | a cost that is infinite at the lower end of its range |
| `NDebug`, `NDebugProof` | the release build |
| `Rounding`, `RoundingProof` | the solver with another rounding of the potentials |
| `Gather`, `GatherProof`, `GatherExample` | other ways of gathering the limits |
| `MixSpec`, `MixProof` | sums of costs |
| `CostCheck`, `CostCheckProof` | MinCost with the commented-out assertion |
| `LowerProof` | calc() with and without merging |
| `ClosedProof` | the total work in closed form |
| `PropStructures`, `PropSolver`, `PropFlow`, `PropMisc`, `PropFloat`, `PropScaling`, `PropGen`, `PropTests`, `PropMore`, `PropWork`, `PropPrimal`, `PropCapacity`, `PropGenMore`, `PropTime`, `PropText`, `PropThrow`, `PropData`, `PropFrac`, `PropGenFar`, `PropStream`, `PropProx`, `PropBin`, `PropAmort`, `PropCalls`, `PropEval`, `PropGenObj`, `PropMem`, `PropClosure`, `PropShuffle`, `PropSeed`, `PropClient`, `PropParam`, `PropReal`, `PropGroup`, `PropTree`, `PropReset`, `PropOrder`, `PropMonotone`, `PropNonConvex`, `PropInfinite`, `PropRelease`, `PropRounding`, `PropGather`, `PropMix`, `PropCostCheck`, `PropLower`, `PropClosed` | the property theorems, nothing else |

## Findings

* C05: the capacity promised in `ProblemDefine.hpp` is too small for ranges far from 0.
* C06: `n = 2^64-1` with empty `Mus` passes the size check and is read out of bounds.
* C09: two parallel omega limits are not the same as one with summed costs unless the costs are nondecreasing.
* C17: `Flow` used directly with `U = 0` and contradicting single-valued limits returns a wrong value
  (the solver never builds such a network).
* C25: a second `min_cost()` returns something else.
* C26: `WrappedDouble` over doubles: neither `<`, `==` nor `>` for 2 and 2 + 1e-4, but both `<=` and `>=`.
* C27: with costs of 2^54 an infeasible problem is answered with a value.
* C37: with doubles, rounding creates excess and potentials rise until an int overflows.
* C41, C42: with `WrappedDouble` a cost of slope 2^-14 (below the tolerance 1e-4) on 0..1024 is answered with -1/32;
  the optimum is -1/16. Costs on a grid of 2^-13 or coarser are safe.

* C44: MinCost scales from the largest cost, not the largest absolute cost; with costs of -1000 only it reports failure.
* C45: SimpleSolver answers an infeasible problem with a value when spreads exceed its constant 1e9.
* C48: `GenGraph` never ends for directed graphs with self loops, no multi-edges and more than n^2 edges asked for: the
  maximum counts every loop twice.
* C52: SimpleSolver on doubles returns -0.4 where the minimum is 0, for costs 0.3*x1, -0.2*x2 and 0.3*|x1-x2|.
* C55: in the default configuration (`Data = double`) `solve()` never returns a value for costs -0.7*x1 and 0.1*x2 on 0..1 and
  0..2: rounding leaves an excess of 2^-52 that no node can absorb; it circulates while the potentials grow,
  until (below 6e9 iterations) one of them overflows int.
* C59: `find_root` and `get_min_wtrbnr` walk down without splaying the node they reach, so they are not amortised
  logarithmic as in the paper cited for them. The recursion of `push_down_from_root` can be as deep as there are nodes.
* C62: costs that are not convex are not noticed; the returned value can be no cost at all or below the optimum.
* C63: ranges far from 0 make `solve()` slow: one variable in {L, L+1} takes at least 2L - 1 iterations, since epsilon is
  chosen from the widths of the ranges only. Moving the origin (translation, C29) would avoid it.
* C64: with `Data = double` two variables with constant costs 0.5 and 0.1 are reported infeasible: `min_cost()` adds every
  cost twice and halves the sum, `calc` adds them once; the first sum rounds up and the test `min_cost > valid_cost_max`
  has no tolerance. (`WrappedDouble` has one.)
* C65: costs 1, 0, +infinity are answered with NaN.
* C49: graphs made by TinyGen need not be connected although at least n-1 edges are drawn.
* C70, C73, C74: `WheelGraph`, `BipartiteGraph` and `Cactus` with their default arguments have undefined behaviour.
* C72: `DAG` without repeated edges overflows an int from 46342 nodes on; `BipartiteGraph` with 200000 nodes does so, too.
* C74: `Cactus` with m <= n-1 leaves one node out (p[0] is used only in the first cycle), although it promises a connected graph.
* C75: `GridGraph` replaces the wanted number of edges by that of the chosen shape; `CountSide` takes two edges off for every
  missing cell, also in the first column; directions are counted twice, so that directed grids may never end.

## Trusted base

* Coq 8.16.1 kernel (including `vm_compute` for the witnesses).
* `Print Assumptions` stands under each property theorem. For every one of them except those of C103 and C104 it prints
  "Closed under the global context": no axiom is used, not even one of the standard library. For `C104_ordered_group` and
  `C104_lexicographic` it lists one axiom of the standard library, `FunctionalExtensionality.functional_extensionality_dep`; for
  `C103_real_costs` also `ClassicalDedekindReals.sig_forall_dec`, on which the real numbers of the standard library rest.
* Loading the standard library's `ssreflect` files (through `Lia`/`List` tactics) brings the parameters of the module type
  `Under_rel` into scope of `coqchk`-like listings; no theorem depends on them.
* The faithfulness of the model to the C++ text: each definition cites file and lines.

## Seeded bugs

`seeded/LOG.jsonl` has one line per wrong program tried in a copy outside this directory. `first_failing` names the lemmas
at which the build stopped. `theorems_failed` names the theorems of the claimed property whose file no longer compiles
because of such a lemma; it is recorded per file, so a listed theorem need not use the failing lemma itself. An empty list
with a property as claim means the wrong program was not noticed.

For about 67 lines every lemma in `first_failing` is one that keeps a copy in step with the model (names ending in `_sim`,
`_chk_sim`, `_erase`, `_erz`, `_unlog`, `_evolve` and the like). The build stops there, so such a line shows that the edit
is noticed, but not that the property itself rules it out: the edit may only make the copy and the model disagree. Some of
these edits were tried again in model and copy together; those lines say "(model and checked copy)".
For the 20 of them in `Flow.v` and `LCT.v` the edited model alone was run on random problems and compared with the
unedited one (`direct_run`). 12 edits change results, so C01 is false for them. The other 8 lines change none: a saturated
edge kept, potentials raised by epsilon (two lines), the last phase omitted (two lines), current edges not reset between
rounds, popping at nonpositive imbalance and `set_fa()` without assertion. For these the log does not show that answers
become wrong; what fails are the proofs about inner states, which are stronger than the answers need.
