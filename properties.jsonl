{"id": "C01", "title": "solve() returns the exact optimum", "statement": "If ProblemSolver(n,Mus,Omegas).solve() returns a value v on a well-formed problem (convex costs, in-range labels, l<=u, magnitudes small enough for int), then v is exactly the minimum of sum_i F_i(mu_i) + sum_k B_k(omega_k) over all integer mu, omega with l_i<=mu_i<=u_i, l_k<=omega_k<=u_k and mu_{i_k}-mu_{j_k}<=omega_k: some feasible point costs v and none costs less.", "quantifier": "every n, every list of mu limits and omega limits, every convex cost function (exact arithmetic on Data)", "why_tests_cant": "The input space (graph shape x bounds x convex functions) is infinite; a test compares against an oracle on sampled small graphs only.", "anchors": ["src/ProblemSolver.cpp:ProblemSolver,solve", "src/Flow.cpp:min_cost"]}
{"id": "C02", "title": "nullopt exactly when infeasible", "statement": "On a well-formed problem solve() returns nullopt if and only if no integer (mu,omega) satisfies all the bounds and difference constraints.", "quantifier": "every well-formed problem", "why_tests_cant": "Both directions are universally quantified: absence of any feasible point, over all problems.", "anchors": ["src/ProblemSolver.cpp:solve,merge_limits,calc"]}
{"id": "C03", "title": "solve() always terminates", "statement": "For every well-formed problem within the integer range the scaling loop, the refine loop, tree sends, splay loops and binary searches all finish; solve() returns.", "quantifier": "every well-formed problem", "why_tests_cant": "Non-termination cannot be observed by a finite test; the bound depends on a potential argument over all executions.", "anchors": ["src/Flow.cpp:min_cost,refine,send,choice_operator", "3rd/lct/LCT.cpp"]}
{"id": "C04", "title": "solve() never triggers undefined behaviour or an assertion", "statement": "On a well-formed problem within the integer range no signed int overflow, out-of-bounds vector access, null or wild pointer dereference, front()/pop() on an empty queue, call of an empty std::function or failing assert happens during construction or solve().", "quantifier": "every well-formed problem and every step of its execution", "why_tests_cant": "UB depends on reachable internal states of all inputs; sanitizers only see executed inputs.", "anchors": ["src/Flow.cpp", "3rd/lct/LCT.cpp", "src/UniqueQueue.cpp", "src/ProblemSolver.cpp", "src/ProblemDefine.cpp"]}
{"id": "C05", "title": "The documented int capacity is enough", "statement": "The header promises that an int able to hold 6*(n+1)*bit_ceil((n+1)*U) suffices, U being the largest u-l over the network's limits: then no int operation of the flow solver overflows. This holds when every range l..u contains 0; it is false for ranges far from 0; a bound that also counts the largest |l|, |u| always suffices.", "quantifier": "every network whose numbers satisfy the documented bound", "why_tests_cant": "It bounds node potentials over every execution of the algorithm; extremal executions are not known to testers.", "anchors": ["src/include/ProblemDefine.hpp:11", "src/Flow.cpp:Flow,q,update_scaling"]}
{"id": "C06", "title": "Malformed input is rejected with nullopt, without UB", "statement": "If Mus.size() != n+1, or a mu limit has l>u, or an omega limit has a label outside 1..n, i=j, or l>u, then construction does not misbehave and solve() returns nullopt, provided n < 2^64-1 and the given numbers are at most INT_MAX/3 in absolute value. At n = 2^64-1 the sum n+1 wraps to 0 and an empty Mus is accepted and then read out of bounds.", "quantifier": "every malformed argument triple", "why_tests_cant": "There are infinitely many malformed inputs, including extreme size_t values.", "anchors": ["src/ProblemSolver.cpp:ProblemSolver,solve"]}
{"id": "C07", "title": "Cost functions are only evaluated inside their declared range", "statement": "Every call that construction and solve() make to a user cost function passes an argument between the l and u declared with that function.", "quantifier": "every well-formed problem, every callback invocation", "why_tests_cant": "A callback may be undefined outside [l,u]; only an argument over all executions shows no such call is made.", "anchors": ["src/ProblemSolver.cpp", "src/Flow.cpp:q,min_cost", "src/ProblemDefine.cpp:partition_point,pre_processing,min"]}
{"id": "C08", "title": "The order of the omega limits does not matter", "statement": "Permuting Omegas never changes the result of solve().", "quantifier": "every well-formed problem and every permutation", "why_tests_cant": "Quantifies over all permutations of all inputs while edge ids, adjacency order and the tree schedule all change.", "anchors": ["src/ProblemSolver.cpp:merge_limits", "src/Flow.cpp"]}
{"id": "C09", "title": "Parallel and antiparallel limits combine correctly", "statement": "Several omega limits on the same unordered pair {i,j}, in either direction, constrain and cost exactly as if each were kept separately (solve() is exact on lists with repeated pairs); replacing two limits on the same ordered pair having the same bounds and nondecreasing costs by one with the summed cost does not change the result. For costs that are not monotone the replacement can change the result.", "quantifier": "every well-formed problem with repeated pairs", "why_tests_cant": "All multiplicities and both orientations must be covered together with all cost functions.", "anchors": ["src/ProblemSolver.cpp:merge_limits", "src/ProblemDefine.cpp:merge,reverse"]}
{"id": "C10", "title": "Adding a constant to a cost shifts the answer by that constant", "statement": "If the cost function of one mu limit or one omega limit is increased by a constant c on its range, solve() returns the old value plus c (and nullopt stays nullopt).", "quantifier": "every well-formed problem and constant", "why_tests_cant": "The penalty constants, flows and schedule change with c; equality must hold for all of them.", "anchors": ["src/ProblemSolver.cpp:calc,solve", "src/Flow.cpp:min_cost"]}
{"id": "C11", "title": "Relaxing a problem never raises the answer", "statement": "Dropping an omega limit with nonnegative cost, or pointwise lowering costs, never makes a solvable problem unsolvable and never increases the returned value.", "quantifier": "every pair of well-formed problems so related", "why_tests_cant": "A relational property over pairs of inputs.", "anchors": ["src/ProblemSolver.cpp:solve"]}
{"id": "C12", "title": "Agreement with the exhaustive reference solver", "statement": "For every well-formed problem solve() returns the same optional value as the exhaustive search used in the test-suite.", "quantifier": "every well-formed problem", "why_tests_cant": "This is the property that the repository's tests sample; the theorem covers all inputs.", "anchors": ["test/test.cpp:bf_solve,fast_solve", "src/ProblemSolver.cpp:solve"]}
{"id": "C13", "title": "Minimum of a convex limit", "statement": "The minimum used for a limit is exactly the least value of its convex cost over l..u, and the binary search needs no value outside l..u.", "quantifier": "every convex function and every interval", "why_tests_cant": "Infinite families of functions and intervals; plateaus are corner cases.", "anchors": ["src/ProblemDefine.cpp:partition_point,min"]}
{"id": "C14", "title": "Omega cost preprocessing is the best omega for a given difference", "statement": "After construction the cost used for a difference d<=u is min{B(w) : max(l,d)<=w<=u}, a convex nondecreasing function of d.", "quantifier": "every convex B, l<=u, d<=u", "why_tests_cant": "Quantifies over all convex functions and differences.", "anchors": ["src/ProblemDefine.cpp:pre_processing", "src/ProblemSolver.cpp:ProblemSolver"]}
{"id": "C15", "title": "reverse and merge preserve meaning", "statement": "Reversing a limit twice gives the same limit; a reversed limit charges difference -d what the original charged d; merging intersects the ranges, sums costs and reports an error exactly when the intersection is empty.", "quantifier": "all limits, all differences", "why_tests_cant": "Universal algebraic laws over function-valued data.", "anchors": ["src/ProblemDefine.cpp:reverse,merge"]}
{"id": "C16", "title": "The feasibility threshold separates", "statement": "Every feasible assignment costs at most the computed threshold, and any assignment violating some limit costs more than the threshold once violations are charged M per unit, so comparing the flow value with the threshold decides feasibility.", "quantifier": "every network and every assignment", "why_tests_cant": "Ranges over all assignments of all networks.", "anchors": ["src/ProblemSolver.cpp:calc,solve"]}
{"id": "C17", "title": "The flow value is the minimum penalised cost", "statement": "Flow(n,M,U,limits).min_cost() returns the minimum over all integer node values of the sum of the limits' costs, each extended linearly with slope M outside its range; in particular it exceeds the threshold when no feasible solution exists. Networks in which every range is a single value (U=0) are excluded unless these values can hold together.", "quantifier": "every network produced from a well-formed problem", "why_tests_cant": "Duality between all circulations and all integer potentials.", "anchors": ["src/Flow.cpp:min_cost"]}
{"id": "C18", "title": "Flows stay antisymmetric and end balanced", "statement": "At the end of every scaling phase the flow on an edge is minus the flow on its reverse, every node's recorded imbalance is zero and equals the true net inflow, i.e. the flow is a circulation with all values in [-M,M].", "quantifier": "every phase of every run", "why_tests_cant": "An invariant over all reachable states, including lazily stored tree flows.", "anchors": ["src/Flow.cpp:refine,add_flow_of_edge,cut,push_all_admissible_edge"]}
{"id": "C19", "title": "Each phase halves the optimality error", "statement": "After the phase run with parameter epsilon the flow and potentials are epsilon/2-optimal: for every directed edge the flow is at least the left slope of its cost at the potential difference minus epsilon/2; potentials never decrease.", "quantifier": "every phase of every run", "why_tests_cant": "Must hold for all inputs and all phases.", "anchors": ["src/Flow.cpp:refine,update_scaling,q"]}
{"id": "C20", "title": "The tree operations are always used within their contract", "statement": "Whenever the solver links a node it is a tree root and the new parent is in another tree, whenever it cuts a node the node has a parent, it asks for the path minimum only on non-roots, and nodes with positive imbalance are roots at every iteration of the main loop.", "quantifier": "every step of every run", "why_tests_cant": "A global invariant (acyclicity of admissible edges) over all reachable states.", "anchors": ["src/Flow.cpp:link,cut,send,choice_operator", "3rd/lct/LCT.cpp:set_fa,cut,get_min_wtrbnr"]}
{"id": "C21", "title": "Potentials and work per phase are bounded", "statement": "During a phase started from a kappa-optimal circulation no node's potential rises by more than n*(kappa+epsilon/2); hence the number of potential updates and of main-loop iterations of the phase has an explicit bound.", "quantifier": "every phase of every run", "why_tests_cant": "A worst-case bound over all inputs.", "anchors": ["src/Flow.cpp:refine,update_scaling"]}
{"id": "C22", "title": "The link-cut tree implements a rooted forest", "statement": "Any sequence of find_root, set_fa, cut, get_val, get_min_wtrbnr, set_val, add_val_way_to_root that respects the documented preconditions returns exactly what a naive forest with one value per node returns, without null dereference, assertion failure or divergence.", "quantifier": "every number of nodes and every operation sequence", "why_tests_cant": "Splay restructurings with lazy additions reach unboundedly many shapes.", "anchors": ["3rd/lct/LCT.cpp", "3rd/lct/LCT.hpp"]}
{"id": "C23", "title": "Path minimum excludes the root and prefers the topmost", "statement": "get_min_wtrbnr returns the least value among the non-root nodes on the way from the node to its root together with the node attaining it that is closest to the root.", "quantifier": "every forest shape and valuation, every internal splay shape", "why_tests_cant": "Ties and shapes are unbounded; the solver relies on the exact node returned.", "anchors": ["3rd/lct/LCT.cpp:get_min_wtrbnr,push_up"]}
{"id": "C24", "title": "UniqueQueue is a FIFO without duplicates", "statement": "For every sequence of push, front, pop, empty, clear with labels below the constructor's n and no front/pop on an empty queue, the queue behaves like a FIFO list in which pushing a present element is a no-op; an element can be pushed again after being popped.", "quantifier": "every operation sequence", "why_tests_cant": "History property over all sequences.", "anchors": ["src/UniqueQueue.cpp"]}
{"id": "C25", "title": "min_cost() is single use", "statement": "The documented restriction that a Flow instance may be used once is necessary: calling min_cost() a second time can return a different value.", "quantifier": "existence of a network", "why_tests_cant": "Documents a contract; the witness is traced through the implementation.", "anchors": ["src/Flow.hpp:17", "src/Flow.cpp:min_cost"]}
{"id": "C26", "title": "WrappedDouble comparisons are mutually consistent", "statement": "In exact arithmetic exactly one of a<b, a==b, a>b holds, <= is the negation of >, >= the negation of <, == is reflexive and symmetric; but == is not transitive.", "quantifier": "all values", "why_tests_cant": "Relational laws over all pairs and triples of values.", "anchors": ["src/include/WrappedDouble.hpp"]}
{"id": "C27", "title": "Infeasibility is not always reported with huge double costs", "statement": "With Data=double there is an infeasible well-formed problem with costs that are exact doubles (up to 2^54) for which solve() returns a value instead of nullopt: the threshold is lost to rounding.", "quantifier": "existence of a problem", "why_tests_cant": "Rounding effects depend on magnitudes tests do not use.", "anchors": ["src/ProblemSolver.cpp:calc,solve", "src/include/ProblemDefine.hpp:15"]}
{"id": "C28", "title": "The network preserves the problem", "statement": "For all node values mu (with mu_0=0) within the mu bounds, the best total cost over omega of the original problem equals the sum over the merged network limits of their cost at the node differences, and one is feasible iff the other is; if merging reports an error the problem is infeasible.", "quantifier": "every well-formed problem and every mu", "why_tests_cant": "Ranges over all assignments, all multi-graphs.", "anchors": ["src/ProblemSolver.cpp:ProblemSolver,merge_limits"]}
{"id": "C29", "title": "Translation invariance", "statement": "Shifting all mu ranges and the arguments of all F by one constant (omega limits unchanged) does not change the result.", "quantifier": "every well-formed problem and every shift that keeps the integers in range", "why_tests_cant": "Potentials, flows and iteration counts all change with the shift.", "anchors": ["src/ProblemSolver.cpp:solve", "src/Flow.cpp"]}
{"id": "C30", "title": "The reference solver's ternary search finds the minimum", "statement": "The ternary search used by SimpleSolver returns the exact minimum of a convex function on l..u and terminates.", "quantifier": "every convex function and interval", "why_tests_cant": "Infinite families, plateaus.", "anchors": ["test/SimpleSolver.cpp:Solve"]}
{"id": "C31", "title": "Mus[0] is ignored", "statement": "Replacing entry 0 of Mus by any limit (even one with l>u or an uncallable function) changes neither the result nor the absence of errors.", "quantifier": "every well-formed problem and every replacement", "why_tests_cant": "Ranges over all replacements of an entry tests leave at its default.", "anchors": ["src/ProblemSolver.cpp:ProblemSolver,merge_limits"]}
{"id": "C32", "title": "Scaling all costs scales the answer", "statement": "Multiplying every cost function by the same constant k>=0 multiplies the returned value by k and keeps nullopt.", "quantifier": "every well-formed problem and every k>=0", "why_tests_cant": "Relational over all problems; M, flows and schedule change with k while the unit added to M does not.", "anchors": ["src/ProblemSolver.cpp:calc,solve", "src/Flow.cpp:min_cost"]}
{"id": "C33", "title": "Mirror symmetry", "statement": "Replacing every mu range [l,u] and cost F(x) by [-u,-l] and F(-x) and swapping i and j of every omega limit does not change the result.", "quantifier": "every well-formed problem", "why_tests_cant": "Edge orientation, reversal and rounding directions in the code are not symmetric, so each input must be covered.", "anchors": ["src/ProblemSolver.cpp:merge_limits", "src/ProblemDefine.cpp:reverse", "src/Flow.cpp:q"]}
{"id": "C34", "title": "Node numbering does not matter", "statement": "Renaming the nodes 1..n by any permutation (in Mus and in the omega limits) does not change the result.", "quantifier": "every well-formed problem and every permutation of its nodes", "why_tests_cant": "All permutations of all inputs.", "anchors": ["src/ProblemSolver.cpp:merge_limits", "src/Flow.cpp"]}
{"id": "C35", "title": "Redundant limits do not matter", "statement": "Adding an omega limit with zero cost whose upper bound is at least u_i - l_j, so that the mu ranges imply it, does not change the result.", "quantifier": "every well-formed problem and every such limit", "why_tests_cant": "The extra edge changes the network, M, U and the schedule.", "anchors": ["src/ProblemSolver.cpp:solve", "src/Flow.cpp"]}
{"id": "C36", "title": "Independent parts add up", "statement": "Solving two problems placed side by side on disjoint node sets returns the sum of their values, and nullopt when one of them is infeasible.", "quantifier": "every pair of well-formed problems", "why_tests_cant": "Both runs are interleaved in one queue and one forest; all pairs of inputs are concerned.", "anchors": ["src/ProblemSolver.cpp:solve", "src/Flow.cpp:refine"]}
{"id": "C37", "title": "Rounding can make the solver overflow its ints", "statement": "With Data=double there is a well-formed two-node problem with linear costs whose values are all exact doubles, within the int bounds that suffice for exact arithmetic, on which rounding in the solver creates excess out of nothing and the potentials rise until a signed int overflows.", "quantifier": "existence of a problem", "why_tests_cant": "Needs costs whose sums are not representable; tests use small integers.", "anchors": ["src/Flow.cpp:add_flow,refine", "src/include/ProblemDefine.hpp:15"]}
{"id": "C38", "title": "The numbers of a run stay small", "statement": "Every number of type Data that the phases of min_cost() compute or store - edge flows, imbalances, residual capacities, and the values, pending additions and minima inside the link-cut tree - has absolute value at most 80*(m+1)*M, for m limits and slopes within [-M,M].", "quantifier": "every step of every phase of every run", "why_tests_cant": "The tree stores sums of differences over long operation sequences; a test cannot show that they never grow.", "anchors": ["src/Flow.cpp:push_all_admissible_edge,send,link,cut,q", "3rd/lct/LCT.cpp:update_add,push_up,access,set_val"]}
{"id": "C39", "title": "All numbers of a run are bounded", "statement": "For a well-formed problem with n nodes, k omega limits, ranges within [-K,K] and costs whose largest absolute values add up to at most A, every number of type Data that the constructor, solve() and the flow solver compute has absolute value at most 4*(n+k+1)*(K+20)*(unit+2*A), unit being the number written as 1.", "quantifier": "every well-formed problem whose ranges fit int", "why_tests_cant": "The bound concerns every intermediate sum inside the merge, the flow phases, the link-cut tree and the final answer.", "anchors": ["src/ProblemSolver.cpp:ProblemSolver::solve", "src/Flow.cpp", "3rd/lct/LCT.cpp"]}
{"id": "C40", "title": "Exact answers with doubles", "statement": "With Data=double and costs that are multiples of 2^-k (0<=k<=52), solve() returns exactly the optimum, or nullopt exactly for infeasible problems, whenever the bound of C39 in units of 2^-k is below 2^53.", "quantifier": "every such problem; every callback returning these values", "why_tests_cant": "A test sees single problems; that no rounding ever happens on the way needs every intermediate number of every problem.", "anchors": ["src/include/ProblemDefine.hpp:15", "src/Flow.cpp", "src/ProblemSolver.cpp"]}
{"id": "C41", "title": "A tolerance below the cost grid is harmless", "statement": "With exact numbers compared as WrappedDouble compares them, with tolerance eps, costs that are multiples of g>eps and 1 a multiple of g, solve() returns exactly the optimum or nullopt exactly for infeasible problems. With eps=g it can return a value hundreds of tolerances above the optimum.", "quantifier": "every such problem and tolerance; existence of a problem for the second part", "why_tests_cant": "Tests use one tolerance and costs far above it.", "anchors": ["src/include/WrappedDouble.hpp:27-38", "src/Flow.cpp", "src/ProblemSolver.cpp"]}
{"id": "C42", "title": "Exact answers with WrappedDouble", "statement": "With Data=WrappedDouble over IEEE doubles (tolerance the double 1e-4) and costs that are multiples of 2^-k, k<=13, solve() returns exactly the optimum or nullopt exactly for infeasible problems, whenever the bound of C39 in units of 2^-k is below 2^50. For multiples of 2^-14 it can return a wrong value.", "quantifier": "every such problem; existence of a problem for k=14", "why_tests_cant": "The rounding of a+eps and a-eps depends on the magnitude of a; no finite set of magnitudes covers the range.", "anchors": ["src/include/WrappedDouble.hpp:27-46", "src/Flow.cpp", "src/ProblemSolver.cpp"]}
{"id": "C43", "title": "WrappedDouble compares grid values exactly", "statement": "For doubles that are multiples of 2^-13 with absolute value below 2^37, the operators <, <=, >, >= and == of WrappedDouble give the result of comparing the exact values.", "quantifier": "every pair of such values", "why_tests_cant": "2^51 values each.", "anchors": ["src/include/WrappedDouble.hpp:27-46"]}
{"id": "C44", "title": "MinCost returns the least cost of a circulation", "statement": "CostScaling::MinCost, run on exact numbers with integer costs of size at most K, nonnegative capacities and no arc from a node to itself (C117 shows what such an arc can do), never misbehaves and ends; when it reports success its value is minus the least cost of a circulation; it reports success whenever the largest negative cost is matched by a positive cost; when it reports failure the value is 0.", "quantifier": "every number of nodes, every such arc list, every K that fits an int; halvings exact", "why_tests_cant": "Finite samples cover neither all networks nor the 3*N bound on potential growth that triggers the failure report.", "anchors": ["test/CostScaling.cpp:11-120"]}
{"id": "C45", "title": "SimpleSolver returns the optimum", "statement": "SimpleSolver::Solve returns the optimal value, and nan exactly for infeasible problems, on every well-formed problem with convex costs whose spreads (largest minus smallest value of each cost) add up to less than 1e9. With larger spreads it can return a value for an infeasible problem.", "quantifier": "every such problem in exact arithmetic; existence of a problem for the second part", "why_tests_cant": "The tests only use it as the judge of the library; its own correctness is checked only against the exhaustive search on five nodes.", "anchors": ["test/SimpleSolver.cpp:15-114", "test/CostScaling.cpp:11-120"]}
{"id": "C46", "title": "The comparisons made by the tests cannot fail", "statement": "solve(), the exhaustive search bf_solve and SimpleSolver return the same optional value on every admissible problem with spreads adding up to less than 1e9.", "quantifier": "every such problem in exact arithmetic", "why_tests_cant": "The comparison tests draw finitely many random graphs.", "anchors": ["test/test.cpp:12-56", "test/test.cpp:301-327", "test/SimpleSolver.cpp:15-114", "src/ProblemSolver.cpp"]}
{"id": "C47", "title": "random_t::next stays in range and ends", "statement": "next(n) with 1<=n<=INT_MAX returns a number in 0..n-1 and next(from,to) one in from..to, after at most 2^48+2 draws; the generator has full period 2^48; over all 2^48 states every value of next(n) is equally frequent. The next() for doubles returns a multiple of 2^-53 in [0,1) with the digits of the next two states, equally often in each of 2^26 intervals.", "quantifier": "every n, every range of ints, every state", "why_tests_cant": "2^48 states; the rejection loop could in principle run forever.", "anchors": ["3rd/generator/testlib.h:700-831"]}
{"id": "C48", "title": "GenGraph returns a graph as asked for", "statement": "Graph::GenGraph never misbehaves; when it returns, the graph has the requested number of edges (limited as documented), nodes in range, no loops or repeated edges unless allowed, and is connected if that was asked for. For undirected graphs without loops it returns whenever every pair of nodes can be drawn, which holds for the sizes the tests use. For directed graphs with loops and many edges it never returns.", "quantifier": "every setting of the parameters, every state of the random numbers; existence for the last part", "why_tests_cant": "Random output; the endless loop cannot be observed by a finite test.", "anchors": ["3rd/generator/gen.h:45-75", "3rd/generator/gen.h:196-352"]}
{"id": "C49", "title": "TinyGen produces admissible problems", "statement": "TinyGen returns a graph with n nodes, between n-1 and mlimit edges, ranges within the given limits, costs (a*x*x+b*x+c)/4 with coefficients in the given limits and a>=0, no self loops, no repeated edge unless allowed, and a text that shows exactly these data. Such a graph is a well-formed convex problem. It need not be connected.", "quantifier": "every argument that makes sense, every seed and state", "why_tests_cant": "Seeds and parameters are unbounded; a malformed graph would silently change what the tests check.", "anchors": ["test/generator.cpp:9-104"]}
{"id": "C50", "title": "The random tests cannot fail", "statement": "Each of the 15 random tests of test.cpp passes in exact arithmetic, for every initial state of the random numbers.", "quantifier": "every initial state, every unit divisible by 2^14", "why_tests_cant": "The tests run from one state only; m depends on the state left by the previous graph.", "anchors": ["test/test.cpp:272-349", "test/generator.cpp:28-104"]}
{"id": "C51", "title": "MinCost is exact on doubles", "statement": "CostScaling::MinCost with Data=double: for capacities that are multiples of 2^-k (k<=52), with twice the total capacity times the largest cost below 2^53 units and 4*K^2*N*(12N+3) < 2^53, it ends and the flow cost it reports is exactly the least cost of a circulation; it reports failure only when negative costs exceed all positive ones. Without a bound on the capacities the value can be wrong.", "quantifier": "every network in these bounds", "why_tests_cant": "Rounding errors appear only for particular capacities; tests never use fractional capacities in a network directly.", "anchors": ["test/CostScaling.cpp:1-120", "test/CostScaling.hpp:1-31"]}
{"id": "C52", "title": "The reference solvers are exact on doubles", "statement": "Test::bf_solve and SimpleSolver with Data=double return exactly the optimum, or nullopt exactly for infeasible problems, for costs that are multiples of 2^-k and sizes below explicit bounds. For costs such as 0.3*x SimpleSolver can return less than the minimum (-0.4 instead of 0).", "quantifier": "every admissible problem in these bounds", "why_tests_cant": "The references are what the tests trust; an error in them hides or fakes errors of the library.", "anchors": ["test/test.cpp:13-50", "test/SimpleSolver.cpp:1-114", "test/CostScaling.cpp:1-120"]}
{"id": "C53", "title": "The random tests cannot fail on doubles", "statement": "Each of the 15 random tests of test.cpp passes with Data=double, IEEE rounding included, for every initial state of the random numbers.", "quantifier": "every initial state of the random numbers (2^48), every test", "why_tests_cant": "The tests run from one state only.", "anchors": ["test/test.cpp:272-349", "test/generator.cpp:28-104"]}
{"id": "C54", "title": "Answers do not depend on the iteration budget of the model", "statement": "If solve(), bf_solve, SimpleSolver or a random test gives any outcome (value, nullopt or misbehaviour) with some number of iterations allowed per loop, it gives the same outcome with every larger number. Hence the outcome of a run is well defined.", "quantifier": "every Data type and arithmetic, every input, well-formed or not", "why_tests_cant": "A statement about all running times.", "anchors": ["src/ProblemSolver.cpp:1-99", "src/Flow.cpp:1-162", "test/SimpleSolver.cpp:1-114", "test/test.cpp:13-56"]}
{"id": "C55", "title": "With double costs solve() need not return", "statement": "With Data=double, solve() does not return a value, whatever the number of iterations, for the problem x1 in 0..1 at cost -0.7*x1, x2 in 0..2 at cost 0.1*x2 without omega limits (optimum -0.7): an excess of 2^-52 left by rounding keeps circulating while potentials grow, until after fewer than 6e9 iterations a potential overflows int (undefined behaviour).", "quantifier": "all numbers of iterations", "why_tests_cant": "A test can only observe a timeout; that no amount of time suffices needs a proof. The tests use costs in quarters only.", "anchors": ["src/Flow.cpp:60-162", "src/ProblemSolver.cpp:60-99", "src/include/ProblemDefine.hpp:1-20"]}
{"id": "C56", "title": "The fixed tests pass and their answers are right", "statement": "Each of the 11 fixed tests of test.cpp passes with Data=double, and for the 10 with int costs the common answer is the optimum, or nullopt for an infeasible problem.", "quantifier": "all iteration budgets from 1000 on", "why_tests_cant": "A passing test compares two programs; it does not show that their common answer is the optimum.", "anchors": ["test/test.cpp:62-265"]}
{"id": "C57", "title": "nullopt exactly when limits around a cycle contradict each other", "statement": "For every admissible problem, ProblemSolver(n, Mus, Omegas).solve() returns nullopt if and only if there is a closed walk through the limits whose right-hand sides sum to a negative number. The limits are read as mu_i - mu_0 <= u_i, mu_0 - mu_i <= -l_i (mu_0 = 0) and mu_i - mu_j <= u of an omega limit.", "quantifier": "all n, Mus, Omegas admissible for a bound K; every sufficient iteration budget", "why_tests_cant": "The tests compare with another solver; none of them exhibits a certificate of infeasibility, and contradictory cycles can have any length.", "anchors": ["src/ProblemSolver.cpp:6-59"]}
{"id": "C58", "title": "Nearby problems have nearby answers", "statement": "If two admissible problems have the same ranges and labels, and each cost function differs from its counterpart by at most a given amount on its range, then solve() returns nullopt for both, or two values that differ by at most the sum of these amounts.", "quantifier": "all pairs of admissible problems, all amounts per limit, every sufficient iteration budget", "why_tests_cant": "It relates two runs on arbitrarily many pairs of inputs; the tests look at one input at a time.", "anchors": ["src/ProblemSolver.cpp:42-99"]}
{"id": "C59", "title": "Lookups in the link-cut tree are linear, in time and in recursion depth", "statement": "For every n there are 2n + 1 permitted link-cut tree calls after which find_root and get_min_wtrbnr on one node need n + 1 iterations of their loop, return the right result and leave the tree exactly as it was; so every further call costs as much, and neither is amortised logarithmic. After the same calls push_down_from_root of another node calls itself n + 1 times, so a lookup can need call-stack depth linear in the number of nodes.", "quantifier": "all n and all vectors of more than n nodes; any number of further calls", "why_tests_cant": "Tests check results, not iteration counts, and cannot show a lower bound for every n.", "anchors": ["3rd/lct/LCT.cpp:7-12", "3rd/lct/LCT.cpp:34-44", "3rd/lct/LCT.cpp:118-124", "3rd/lct/LCT.cpp:89-93"]}
{"id": "C60", "title": "Total work of min_cost() and solve()", "statement": "If the limits lie in [-K, K] and K <= U, then Flow(n, M, U, limits).min_cost() makes r rounds of the scaling loop with 2^r < 4(n+1)U, and in each round the loop of refine() makes at most 3n(8m+3(n+1)) + 6m + 2(n+1) + 1 iterations: of the order of nm + n^2 in each of the logarithmically many rounds. Without the condition K <= U only the first round is different: it makes at most floor(n(2K+U)/U) (8m+3(n+1)) + 6m + 2(n+1) + 1 iterations, linear in K/U. The same holds inside solve(), with m <= number of omega limits + n, limits in [-2K, 2K] if the input is in [-K, K], and U <= 3K. Counting also the steps inside the iterations, a step being an iteration of one of the loops of refine(), choice_operator(), send() or update_scaling(): a round whose refine() makes at most I iterations and raises no potential more than R times (R = 3n, in the first round floor(n(2K+U)/U)) takes at most 4I + 2m + n + 1 + 4mR steps.", "quantifier": "all n, M, K, U, limits that fit in int, all number units, every sufficient iteration budget", "why_tests_cant": "An iteration bound for all networks cannot be observed from runs; the tests do not count iterations.", "anchors": ["src/Flow.cpp:6-35", "src/Flow.cpp:58-126", "src/ProblemSolver.cpp:42-59"]}
{"id": "C61", "title": "prettyPrint appends a text that determines the graph's numbers", "statement": "Graph::prettyPrint leaves what is in out and appends a non-empty text that does not depend on out: info when it is set, otherwise a text from which n, m, the ranges of all nodes and the labels and ranges of all edges can be read off (equal texts have equal numbers).", "quantifier": "all graphs, all strings", "why_tests_cant": "The tests never inspect the printed text; injectivity relates all pairs of graphs.", "anchors": ["test/Graph.cpp:8-36"]}
{"id": "C62", "title": "Convexity is needed and not checked", "statement": "The claim that solve() is right for problems that meet every requirement except convexity is false: for one such problem solve() returns, without an error, a number that is not the cost of any choice of values and above the optimum, for another a number below the optimum.", "quantifier": "existence (refutation); the optimality of the exhibited optimum ranges over all values", "why_tests_cant": "The test generators produce convex costs only.", "anchors": ["src/include/ProblemDefine.hpp", "src/ProblemSolver.cpp:42-59"]}
{"id": "C63", "title": "Running time grows linearly with the distance of the ranges from 0", "statement": "For every L from 1 to 19 million, solve() for a single variable in {L, L+1} with zero cost and no omega limit needs at least 2L - 1 iterations of the loop of refine() in its first round: epsilon starts from the width U of the ranges, not from their distance from 0, and a node rises by epsilon/2 per iteration.", "quantifier": "all L from 1 to 19000000, all number units, every iteration budget below 2L - 1", "why_tests_cant": "The tests use ranges around 0 and do not count iterations; a lower bound for all L is no matter of a single run.", "anchors": ["src/Flow.cpp:10-13", "src/Flow.cpp:73-79", "src/ProblemSolver.cpp:89-99"]}
{"id": "C64", "title": "With double costs a feasible problem can be reported infeasible", "statement": "The claim that solve() with Data = double returns a value for every feasible problem is false even for ordinary costs: two variables in 0..3 with the constant costs 0.5 and 0.1 and no omega limit are answered with nullopt. The answer is summed in another order than valid_cost_max, rounds up, and then exceeds it.", "quantifier": "existence (refutation), for every sufficient iteration budget", "why_tests_cant": "The tests use costs on a grid on which doubles are exact (C53).", "anchors": ["src/ProblemSolver.cpp:50-57", "src/ProblemSolver.cpp:89-99", "src/Flow.cpp:36-46"]}
{"id": "C65", "title": "An infinite cost can turn the answer into NaN", "statement": "The claim that solve() may be given costs that are +infinity at forbidden values is false: one variable in 0..2 with costs 1, 0, +infinity is answered with NaN; the least cost is 0.", "quantifier": "existence (refutation), for every sufficient iteration budget", "why_tests_cant": "No test uses infinite costs.", "anchors": ["src/ProblemSolver.cpp:89-99", "src/Flow.cpp:36-46"]}
{"id": "C66", "title": "Optimal values can be read off the final potentials", "statement": "When Flow(n, M, U, limits).min_cost() ends, with U > 0, add any number theta to the potentials (scaling[]) for which no sum is divisible by 2(n+1), divide by 2(n+1) and round down: the resulting node values attain the returned minimum. Such a theta below 2(n+1) always exists. In a run of solve() that returns a value, these values minus that of node 0 belong to an optimal solution of the problem.", "quantifier": "all networks and problems that fit in int, all such theta, every sufficient iteration budget", "why_tests_cant": "Only the value is returned and compared; the potentials are private.", "anchors": ["src/Flow.cpp:30-46", "src/Flow.cpp:116-126", "src/Flow.hpp:72", "src/ProblemSolver.cpp:42-59"]}
{"id": "C67", "title": "The final flow is a certificate for the answer", "statement": "When Flow(n, M, U, limits).min_cost() ends, with U > 0, flows[] is a circulation within [-M, M]; the sum over the limits of the least cost(w) - flow * w is the returned number; no other circulation within [-M, M] gives a larger sum.", "quantifier": "all networks that fit in int, all circulations, every sufficient iteration budget", "why_tests_cant": "The flow is private, and the claim is about all circulations.", "anchors": ["src/Flow.cpp:30-46"]}
{"id": "C68", "title": "The int capacity solve() needs", "statement": "solve() is exact (optimum, or nullopt iff infeasible, no undefined behaviour) whenever all given bounds are within a third of the int range and the network fits: with its limits in [-K, K] and at most U wide, n(2(n+1)K + 4 bit_ceil((n+1)U)) and the other terms of flow_fits are at most INT_MAX. In particular the documented capacity 6(n+1)bit_ceil((n+1)U) is enough when every variable's range contains 0 and no omega limit has a negative upper bound. Without that condition it is not enough: a single variable between 700000000 and 767108864, with the documented capacity available, makes solve() overflow an int.", "quantifier": "all n, mus, omegas, costs convex on their ranges, all number units, every sufficient iteration budget; existence of the overflowing input", "why_tests_cant": "The tests use small numbers; an overflow bound is a statement about all inputs.", "anchors": ["src/include/ProblemDefine.hpp:11", "src/ProblemSolver.cpp:6-40", "src/ProblemSolver.cpp:42-59", "src/Flow.cpp:6-28", "src/Flow.cpp:116-126"]}
{"id": "C69", "title": "RootTree makes rooted trees", "statement": "For 1 <= n and 0 <= root < n, GenTree ends and returns n-1 edges forming a connected graph without loops or repeated edges; GetFather() has n entries, the root's is rootfather, every other node reaches the root through its fathers, and the edges are exactly the pairs (v, father[v]).", "quantifier": "all settings in the stated ranges, all states of the random numbers", "why_tests_cant": "The generator is used by no test; a random graph shows one outcome of very many.", "anchors": ["3rd/generator/gen.h:104-161"]}
{"id": "C70", "title": "CycleGraph and WheelGraph", "statement": "CycleGraph with n >= 3 nodes returns the n edges of a cycle through all nodes; WheelGraph with n >= 4 nodes returns the 2n-2 edges of a cycle through n-1 nodes and a hub joined to each of them. Both end. (For 2 and 3 nodes there are fewer edges than side says; WheelGraph(1), the default, uses an iterator past the end.)", "quantifier": "all settings in the stated ranges, all states of the random numbers", "why_tests_cant": "The generator is used by no test; a random graph shows one outcome of very many.", "anchors": ["3rd/generator/gen.h:601-623", "3rd/generator/gen.h:690-720"]}
{"id": "C71", "title": "Pseudo trees", "statement": "PseudoTree, PseudoInTree and PseudoOutTree with n >= 3 nodes end and return n edges of a connected simple graph with a cycle of min(size, n) nodes (of 3..n nodes if the size is chosen); in an in-tree exactly one edge leaves every node, in an out-tree exactly one enters every node, and the cycle is directed.", "quantifier": "all settings in the stated ranges, all states of the random numbers", "why_tests_cant": "The generator is used by no test; a random graph shows one outcome of very many.", "anchors": ["3rd/generator/gen.h:913-934", "3rd/generator/gen.h:971-993", "3rd/generator/gen.h:1030-1052"]}
{"id": "C72", "title": "DAG makes acyclic graphs", "statement": "DAG ends, if every pair of nodes can be drawn, and returns an acyclic graph with min(m, n(n-1)/2) edges (m if repeated edges are allowed; at least n-1 if connected), without repeated edges unless allowed, connected if wanted. With 46342 or more nodes and no repeated edges the int product n(n-1) overflows whatever m is.", "quantifier": "all settings in the stated ranges, all states of the random numbers", "why_tests_cant": "The generator is used by no test; a random graph shows one outcome of very many.", "anchors": ["3rd/generator/gen.h:505-535"]}
{"id": "C73", "title": "BipartiteGraph makes bipartite graphs", "statement": "If BipartiteGraph ends, every edge joins the two sides, one of which has the given size (between 1 and n/2 if it is chosen); the number of edges is the wanted one as far as it is possible (at least n-1 if connected), no edge is repeated unless allowed, and the graph is connected if wanted; no undefined behaviour, for n >= 2, floor(n/2)ceil(n/2) in int range, and left at most right+1 when connected. Outside these conditions: one node (the default) reads an uninitialised variable, 200000 nodes overflow an int, left = right+2 with connect leaves the vector.", "quantifier": "all settings in the stated ranges, all states of the random numbers", "why_tests_cant": "The generator is used by no test; a random graph shows one outcome of very many.", "anchors": ["3rd/generator/gen.h:395-463"]}
{"id": "C74", "title": "Cactus makes cactus graphs", "statement": "Cactus with n >= 3 nodes and m >= n edges ends and returns min(m, n-1+(n-1)/2) edges of a connected simple graph, built from a cycle by attaching cycles and single edges at one node each. With m <= n-1, for which the class promises n-1 edges, the result has n-2 edges and one node with no edge, for every state of the random numbers; Cactus(1), the default, uses an iterator past the end.", "quantifier": "all settings in the stated ranges, all states of the random numbers", "why_tests_cant": "The generator is used by no test; a random graph shows one outcome of very many.", "anchors": ["3rd/generator/gen.h:1109-1162"]}
{"id": "C75", "title": "GridGraph makes grids", "statement": "If GridGraph with n >= 2 nodes ends, the graph is connected, has no loops and no repeated edges unless allowed, and every edge joins neighbouring cells of a grid with the chosen number of rows; a shape is chosen that has as many edges as wanted if there is one, and the number of edges is then that of the shape. So the number of edges need not be the wanted one; CountSide miscounts shapes with empty last rows; n = 1 with m > 0 divides by 0; with direction the program may never end.", "quantifier": "all settings in the stated ranges, all states of the random numbers", "why_tests_cant": "The generator is used by no test; a random graph shows one outcome of very many.", "anchors": ["3rd/generator/gen.h:728-734", "3rd/generator/gen.h:770-840"]}
{"id": "C76", "title": "Loop turns of the link-cut tree and of min_cost()", "statement": "A permitted call of a link-cut tree with N nodes makes at most 8N+3 turns of all its loops, and min_cost() ends after a number of turns of all its loops, those of the tree and the final searches included, that is bounded by a polynomial in the number of variables and of limits, log U and K/U; the same inside solve(). Constructing a ProblemSolver and solving together makes a number of turns bounded by a polynomial in the number of variables, of omega limits and K.", "quantifier": "all permitted programs of calls; all networks meeting the conditions of C60", "why_tests_cant": "A test measures the time of single inputs and cannot bound that of all.", "anchors": ["3rd/lct/LCT.cpp:1-124", "src/Flow.cpp:6-162", "src/ProblemSolver.cpp:6-99"]}
{"id": "C77", "title": "The text of a generated graph fits its buffer and determines the graph", "statement": "With double costs, TinyGen's text for any permitted arguments is written without leaving the 90-character buffer of PrintFunction; a coefficient w/4 is shown exactly with its two decimals; and two generated graphs with the same text have the same n, m, nodes and edges, cost functions included.", "quantifier": "all arguments of TinyGen meeting tiny_args, all random states; all ints w", "why_tests_cant": "The longest numbers are drawn too rarely for a test to see whether the buffer suffices; that the text determines the graph relates all pairs of graphs.", "anchors": ["test/generator.cpp:21-26", "test/generator.cpp:68-102"]}
{"id": "C78", "title": "The comparisons of WrappedDouble on all doubles", "statement": "For finite doubles, >= and <= are the negations of < and >; a < b implies a + eps < b exactly, and holds when b exceeds a + eps by more than a relative 2^-53; the same for >; == is symmetric, holds whenever |a-b| <= eps and implies |a-b| <= eps up to a relative 2^-53; < is a strict order. An infinity is on its side of every other number and == only to itself. With NaN the four orders are false and == is true. Refuted: that a < b excludes a == b and implies b > a; that one of <, ==, > holds; that == is transitive.", "quantifier": "all doubles, including those whose difference overflows, infinities and NaN", "why_tests_cant": "There are 2^128 pairs of doubles; the exceptions need values at which a rounding falls on eps.", "anchors": ["src/include/WrappedDouble.hpp:27-38"]}
{"id": "C79", "title": "WrappedDouble::prettyPrint", "statement": "prettyPrint replaces the string by the number with six decimals, correctly rounded, with an even last digit if two texts are equally near; two finite numbers with the same text differ by at most 1e-6 and so compare ==. Refuted: that == numbers have the same text; that it appends as Graph::prettyPrint does.", "quantifier": "all pairs of finite doubles", "why_tests_cant": "No test calls it; the claim relates all pairs of doubles.", "anchors": ["src/include/WrappedDouble.hpp:42-43"]}
{"id": "C80", "title": "Cost functions that throw", "statement": "Whatever the data type, the limits and the points at which the cost functions throw: an exception met during ProblemSolver(n, Mus, Omegas).solve() reaches the caller, and otherwise the outcome is the one with any other results in place of the exceptions. If those make an admissible problem the run ends with the exception, with the optimum, or with nullopt for an infeasible problem.", "quantifier": "all data types, all problems, all sets of throwing points", "why_tests_cant": "No test has a throwing cost function; the claim relates each run to those with every other choice of values at the throwing points.", "anchors": ["src/ProblemSolver.cpp", "src/Flow.cpp"]}
{"id": "C81", "title": "Machine integers as Data", "statement": "With any integer type as Data whose operations are exact while the results lie in [-B, B], whatever they do outside, ProblemSolver(n, Mus, Omegas).solve() gives the same outcome as with unbounded integers if the stated bound on all intermediate costs is at most B. Two's complement arithmetic of any width is such a type. That the costs and the optimum fit is not enough: a feasible problem with costs up to 10^9 is answered nullopt with 32 bits.", "quantifier": "all types with exact operations on [-B, B], all admissible problems with costs in [-A, A]", "why_tests_cant": "The tests use double and costs far from any limit; the claim covers every behaviour on overflow and every problem below the bound.", "anchors": ["src/include/ProblemDefine.hpp:6-17", "src/Flow.cpp", "src/ProblemSolver.cpp"]}
{"id": "C82", "title": "Fractional solutions are no better", "statement": "For every q > 0: if the variables and the omegas may be multiples of 1/q, the costs being continued linearly between the integers, the problem is feasible iff solve() does not return nullopt, and the optimum is the value it returns.", "quantifier": "all admissible problems, all denominators q", "why_tests_cant": "The fractional points are infinitely many, and the tests look only at integral ones.", "anchors": ["src/ProblemSolver.cpp", "README.md"]}
{"id": "C83", "title": "The answer is convex in the bounds", "statement": "If the bounds of one problem lie halfway between those of two others (or are wider), with the same convex cost functions, and solve() answers va and vb for these, it answers a value v with 2 v <= va + vb for the one in the middle.", "quantifier": "all triples of admissible problems with the middle one halfway", "why_tests_cant": "It relates three calls with different bounds; no test compares calls.", "anchors": ["src/ProblemSolver.cpp"]}
{"id": "C84", "title": "The set of optimal solutions", "statement": "The values of the variables at which the answer of solve() is attained are closed under taking the larger and the smaller value of each variable; there are a least and a greatest one; and after narrowing the range of a variable solve() answers the same value iff an optimal solution lies in the narrower range.", "quantifier": "all admissible problems, all pairs of optimal solutions, all narrower ranges", "why_tests_cant": "solve() returns only the value; the tests never see a solution, let alone all of them.", "anchors": ["src/ProblemSolver.cpp"]}
{"id": "C85", "title": "Chains and flowers are trees", "statement": "UnrootChain, UnrootFlower, RootChain and RootFlower return n - 1 edges that form a tree on the nodes 0..n-1; with a root, GetFather describes the same tree, rooted at the wanted node (a wanted node above n - 1 is taken as n - 1). std::pow is only assumed to be within 2^-40 of the root, at most 1 and 0 for 0.", "quantifier": "all functions pow of that accuracy, all n up to INT_MAX, all roots, all states of the random numbers", "why_tests_cant": "The result depends on 2^48 states of the generator and on the library's pow.", "anchors": ["3rd/generator/gen.h:73-93", "3rd/generator/gen.h:164-192", "3rd/generator/testlib.h:915-941"]}
{"id": "C86", "title": "Chains are paths, flowers are almost stars", "statement": "With n <= 2701 nodes UnrootChain and RootChain return paths for every seed. UnrootFlower and RootFlower return a star, except that one leaf may be joined to another leaf. Refuted: that flowers are always stars; that the root of a RootChain is always an end of the path. Both fail when next() returns 0, which one state in 2^48 does.", "quantifier": "all n <= 2701, all roots, all states, all functions pow of the stated accuracy", "why_tests_cant": "The exception needs one of a few states among 2^48; random testing does not meet it.", "anchors": ["3rd/generator/gen.h:73-93", "3rd/generator/gen.h:164-192", "3rd/generator/testlib.h:863-867"]}
{"id": "C87", "title": "Chains and flowers do not depend on pow", "statement": "With n <= 2701 nodes the four classes return the same edges and fathers and leave the same state for any two implementations of std::pow with the stated accuracy.", "quantifier": "all pairs of functions pow, all n <= 2701, roots and states", "why_tests_cant": "A test runs with one C library.", "anchors": ["3rd/generator/testlib.h:932-941"]}
{"id": "C88", "title": "WrappedDouble's operator<<", "statement": "The text written for a finite number is a decimal number with at most six significant digits; no such number is nearer to the value, and one that is equally near has an odd last digit. It is within 0.0005 percent of the value, so numbers with the same text are that close. Integers with at most six digits are written as such. Refuted: that numbers that are not == have different texts (1000000 and 1000001); that == numbers have the same text.", "quantifier": "all finite doubles", "why_tests_cant": "The nearest of all six-digit numbers has to be known for each of 2^64 doubles.", "anchors": ["src/include/WrappedDouble.hpp:40-41"]}
{"id": "C89", "title": "Constructors of WrappedDouble", "statement": "The constructor from int is exact; ints keep their order and equality under the comparisons with tolerance, and their text up to six digits. The one from size_t is exact up to 2^53 and within a relative 2^-53 above. Refuted: that different sizes stay different.", "quantifier": "all ints, pairs of ints, and all 64-bit sizes", "why_tests_cant": "The exceptions of size_t start at 2^53; pairs of ints are too many to try.", "anchors": ["src/include/WrappedDouble.hpp:12-14", "src/include/WrappedDouble.hpp:27-38"]}
{"id": "C90", "title": "Optimal values move little when the problem moves little", "statement": "If the ranges and the targets of the costs of all variables, or those of one omega limit, move by at most one, then for every optimal solution of the first problem the second has an optimal solution whose values differ by at most one; after k such moves through feasible problems by at most k. Refuted: the same for two omega limits at once.", "quantifier": "all pairs of admissible feasible problems a step apart, all optimal solutions, all sequences of steps", "why_tests_cant": "The statement is about all optimal solutions of all pairs of problems, and solve() returns only the cost.", "anchors": ["src/include/ProblemSolver.hpp", "src/ProblemSolver.cpp:6-41"]}
{"id": "C91", "title": "Any binary floating-point type as Data", "statement": "With Data a binary floating-point type of prec bits whose range contains every int (float, long double, ...), solve() returns exactly the optimum, or nullopt exactly for infeasible problems, if the costs are multiples of 2^-k and the bound of C39, in units of 2^-k, is below 2^prec; ints that are no numbers of the type do no harm. With 53 bits the operations are those of double. Refuted: that for float it is enough that all costs and the optimum are floats.", "quantifier": "all precisions and exponent ranges, all admissible problems, all grids 2^-k", "why_tests_cant": "The tests run with double only, and sampling cannot cover the roundings of a format, let alone of all formats.", "anchors": ["src/include/ProblemDefine.hpp:6-15", "src/ProblemSolver.cpp:6-41", "src/Flow.cpp"]}
{"id": "C92", "title": "Splaying in the link-cut tree is logarithmic, amortised", "statement": "For a link-cut tree of N nodes, a permitted sequence of m calls in which set_fa on x, unless it is last, is directly followed by a call that accesses x (find_root, get_min_wtrbnr, add_val_way_to_root or cut on x, as Flow does) makes at most m * (91 * floor(log2 N) + 14) turns of the loops of access and splay and of the recursion of push_down_from_root. A single one of the calls can make more than N - 1 turns. (The walks of find_root and get_min_wtrbnr after the access are not counted; C59 says what they cost.)", "quantifier": "all N, all permitted sequences of calls", "why_tests_cant": "Tests do not count turns, and the bound is about the worst sequence of every length.", "anchors": ["3rd/lct/LCT.cpp:7-56", "3rd/lct/LCT.cpp:89-124", "src/Flow.cpp:85-114"]}
{"id": "C93", "title": "min_cost() uses the link-cut tree as permitted, and its splaying is logarithmic per call", "statement": "On a valid network with n + 1 nodes and m limits, the calls of methods of the link-cut tree that min_cost() makes form a permitted sequence (set_fa only on a node without father and never closing a cycle, cut only on a node with a father, and so on) in which every set_fa on x that is not last is directly followed by an access of x. Made alone, in order, on the nodes of the new solver, these calls give exactly the final nodes. With r scaling rounds (r = 0 or 2^r < 4(n+1)U) there are at most min_cost_calls n m K U r of them: 4 per step of the refine loop and of the loops inside it, and 2(n+1) per round. All together they make at most that number times 91*floor(log2(n+1)) + 14 turns of splaying. The same holds inside solve().", "quantifier": "all valid networks; all admissible solver inputs whose limits merge without contradiction", "why_tests_cant": "Tests see only the result of min_cost(), not the calls made on the private tree, and cannot check preconditions and costs of the calls for every network.", "anchors": ["src/Flow.cpp:26-37", "src/Flow.cpp:57-165", "3rd/lct/LCT.cpp:7-124", "src/ProblemSolver.cpp"]}
{"id": "C94", "title": "The cost functions are called only inside their ranges, and polynomially often", "statement": "On an admissible problem the constructor and solve() together call the user's cost functions only with arguments x in [l, u] of the limit they belong to, and never the function of entry 0 of the variables. The number of calls is at most solve_evals n |oms| m K U ph d, a polynomial in the number of variables n and of omega limits, the scale K of the bounds and the number ph of rounds (ph = 0 or 2^ph < 4(n+1)U), where m <= |oms| + n is the number of limits after merging, U <= 3K the widest of them and d the most omega limits between the same two variables. Recording the calls does not change the run, whatever the functions do.", "quantifier": "all admissible problems; the equality of runs for all inputs", "why_tests_cant": "Tests cover a few functions that are total; that a function is never called outside its range, and how often it is called, is a statement about every run.", "anchors": ["src/ProblemDefine.cpp:6-52", "src/ProblemSolver.cpp:6-99", "src/Flow.cpp:30-162"]}
{"id": "C95", "title": "Graph objects can be used again", "statement": "For an object of Graph or a derived class and any sequence of calls of setters and of GenGraph (on the object, on given nodes, or through a reference to a base class) that does not fail: its settings are those last asked for, except for those the class forces (as its comment says). GenGraph then does exactly what it does on a new object with these settings; earlier graphs have no influence. So a CycleGraph makes cycles and a DAG acyclic graphs whatever was called before. GenGraph() of a PseudoTree through Graph& is another function but also makes a connected graph with as many edges as nodes. Refuted: that BipartiteGraph through Graph& makes bipartite graphs; that PseudoInTree through Graph& or PseudoTree& makes in-trees; that a Cactus does not depend on earlier calls (its number of edges is clamped for good).", "quantifier": "all ten classes, all sequences of calls, all arguments, seeds and amounts of fuel", "why_tests_cant": "The tests use one class, once per object; the sequences of calls are unbounded.", "anchors": ["3rd/generator/gen.h:193-354", "3rd/generator/gen.h:359-1163"]}
{"id": "C96", "title": "RootTree objects can be used again", "statement": "For an object of RootTree, RootChain or RootFlower with sensible arguments (at least one node, root not negative, shift below 25 in absolute value or that of a chain or flower), every sequence of calls of setters and of GenTree succeeds; the numbers are those last asked for and the root is a node of the tree, not above the one asked for; GenTree gives a tree with this root and its fathers. GenTree does not depend on the fathers left by earlier calls, whatever the object. Refuted: that SetNode through Tree& keeps the root in the tree (GenTree then leaves the vector), that the root is valid again after SetNode(0) and SetNode(5), and that it is the one asked for after SetNode(3) and SetNode(5).", "quantifier": "all sequences of sensible calls, all seeds, all implementations of pow that are good enough (C85); independence of the past for all objects", "why_tests_cant": "RootTree is not used by the tests; sequences of calls are unbounded.", "anchors": ["3rd/generator/gen.h:5-39", "3rd/generator/gen.h:95-191"]}
{"id": "C97", "title": "Cost functions may have a memory", "statement": "Cost functions may share and change a state, such as a cache, a counter or a log. If, while the state is in good order, each call inside the range of its limit returns what an ordinary function returns and leaves the state in good order, then the constructor and solve() return what they return for the ordinary functions, whatever order of evaluation the compiler chooses for operands. For costs of any type (doubles included) and any input on which the solver returns, functions that answer like the ordinary ones give the same result. Refuted: that the functions may change their answers: one variable with range [0,1] whose function answers 0 except once gives nullopt, and answers from {0,5} can give -5.", "quantifier": "all admissible problems, all state types, all invariants, all evaluation orders; second part: all inputs and all Data types", "why_tests_cant": "All functions of the tests are pure; the ways to use a state cannot be enumerated.", "anchors": ["src/include/ProblemDefine.hpp", "src/ProblemDefine.cpp:6-52", "src/ProblemSolver.cpp:6-99", "src/Flow.cpp:26-162"]}
{"id": "C98", "title": "Calls of cost functions nest as deep as there are parallel limits, and no deeper", "statement": "pre_processing, reverse, merge and min_cost wrap std::functions in lambdas. If at most d omega limits are between the same two variables, calling a function of a merged limit has at most d + 2 function objects active at the same time, d + 3 in the network and d + 4 in the final sum. This holds for all inputs and all Data types. The bound for merged limits is attained for every d, so the stack a call needs grows with the number of parallel limits.", "quantifier": "all inputs, all Data types, all numbers of parallel limits", "why_tests_cant": "The functions built are private and stack use is not observable through the API; tests use few parallel limits.", "anchors": ["src/ProblemDefine.cpp:18-52", "src/ProblemSolver.cpp:27-38", "src/ProblemSolver.cpp:61-87", "src/Flow.cpp:16-23", "src/Flow.cpp:36-42"]}
{"id": "C99", "title": "shuffle cannot make every order of a long vector", "statement": "random_t has 48 bits of state. Of the n! orders of a vector of n different numbers, shuffle never makes at least n! - 2^48, whatever the state; for 17 or more entries there are orders it never makes, so some graphs are never generated with some node order.", "quantifier": "all vectors of different numbers with at least 2 (17) entries, all states of the generator", "why_tests_cant": "That no state of 2^48 gives an order cannot be tried out.", "anchors": ["3rd/generator/testlib.h:706-710", "3rd/generator/testlib.h:769-785", "3rd/generator/testlib.h:4699-4704"]}
{"id": "C100", "title": "The seed given to TinyGen does not determine the graph", "statement": "TinyGen draws the number of edges before it sets the seed. Calls with equal arguments give equal graphs, and leave equal states, if the numbers of edges agree; so a call can return at most mlimit - n + 2 different graphs. Refuted: that equal arguments give equal graphs. After setSeed the first number hardly depends on a small seed: next(2) is 1 for all seeds below 4096, next(16) is 11 for all seeds below 256.", "quantifier": "all arguments, all states, all Data types", "why_tests_cant": "The tests run in one order from one state, so they always see the same graph; how many graphs are possible over all 2^48 states cannot be tried out.", "anchors": ["test/generator.cpp:38-48", "3rd/generator/testlib.h:706-710", "3rd/generator/testlib.h:747-750", "3rd/generator/testlib.h:769-785"]}
{"id": "C101", "title": "solve() is enough to find a solution", "statement": "solve() returns only the optimal cost. A caller can find the values: solve once, then for each variable bisect for the least upper bound of its range that leaves the answer unchanged, at most ceil(log2(2K+1)) more calls per variable. The values found this way, each on its own, together are an optimal solution, the least one; and nullopt in the first call means there is none.", "quantifier": "all admissible problems", "why_tests_cant": "The tests never ask for a solution; that values found independently fit together needs the lattice of all optimal solutions.", "anchors": ["src/include/ProblemSolver.hpp:13-21", "src/ProblemSolver.cpp:42-59"]}
{"id": "C102", "title": "M and U need not be the computed ones", "statement": "Given any M not below the one of calc and any positive U, even one smaller than the width of a range, Flow::min_cost() exceeds the threshold iff the limits cannot be satisfied and is the optimum if they can. So U matters for speed only (unless it is 0). Refuted: that an M above all slopes of the cost functions is enough.", "quantifier": "all networks within the integer range, all larger M, all positive U that fit", "why_tests_cant": "Flow is always given the computed values.", "anchors": ["src/Flow.cpp:6-14", "src/Flow.cpp:128-140", "src/ProblemSolver.cpp:89-99"]}
{"id": "C103", "title": "solve() is right for real costs", "statement": "If Data were the real numbers with exact arithmetic, solve() would return the optimum of every admissible problem whose convex cost functions have arbitrary real values (also irrational, also incommensurable ones), and nullopt exactly if there is no solution, within the bound on the number of steps known for integers, which does not depend on the costs.", "quantifier": "all problems with convex real cost functions whose ranges fit into int", "why_tests_cant": "Real numbers have no machine representation; the tests use integers and doubles. That cost scaling by halving ends and is exact for irrational costs is not visible from any finite run.", "anchors": ["src/ProblemSolver.cpp:42-59", "src/Flow.cpp:128-140", "src/include/ProblemDefine.hpp:6-15"]}
{"id": "C104", "title": "Any ordered group may be Data", "statement": "The header allows Data to be changed. All that solve() needs of the type are the laws of a totally ordered abelian group (archimedean or not) and a division by two that undoes x + x, so that integers with truncating division qualify as well: for every such type it returns the optimum of every admissible problem and nullopt exactly if there is no solution, within the bound on the number of steps known for integers. So pairs compared lexicographically can be used to minimize a first cost and, among its optimal solutions, a second one; it is enough that each of the two is convex.", "quantifier": "all Data types that obey the laws, all problems with convex costs of that type whose ranges fit into int", "why_tests_cant": "The tests use double only; a claim about all possible Data types, most of them not even written, cannot be run.", "anchors": ["src/include/ProblemDefine.hpp:6-15", "src/ProblemSolver.cpp:42-59", "src/Flow.cpp:128-140"]}
{"id": "C105", "title": "The link-cut tree is only a faster forest", "statement": "Flow needs nothing of the link-cut tree but that its methods act as on a plain rooted forest: if the nodes are replaced by any other type whose methods, in every permitted sequence of calls, return what they return on a plain forest, then solve() returns the same and min_cost() ends with the same value and the same fields (nodes apart). The link-cut tree is such a type, and so is a vector of parents and values in which one walks up to the root.", "quantifier": "all implementations of forests, all admissible problems, all numbers of nodes and permitted sequences of calls", "why_tests_cant": "The statement is about all conceivable replacements of a component; a test can try one.", "anchors": ["src/Flow.cpp:73-126", "src/Flow.cpp:147-162", "3rd/lct/LCT.hpp:18-46", "src/ProblemSolver.cpp:42-59"]}
{"id": "C106", "title": "Nothing needs to be reset between rounds", "statement": "initialization() fills current_edge with 0; the resets of nodes, imbalances, uq and fa are commented out, with the remark that these variables do not change over an iteration. If all were carried out at the start of every round (with new nodes), min_cost() would return the same value and leave all fields but the nodes the same.", "quantifier": "all networks that solve() can pass to Flow (any number of nodes, edges, convex costs)", "why_tests_cant": "The values left in the nodes do differ; that they are never read before they are overwritten, in any round on any network, is a claim about all histories.", "anchors": ["src/Flow.cpp:48-56", "src/Flow.cpp:30-35", "src/Flow.cpp:147-162"]}
{"id": "C107", "title": "The order of the active nodes does not matter", "statement": "Flow takes the active nodes in the order of a queue. If the waiting nodes were put into any other order before each turn (last come first served, by potential, at random, or in any way that depends on the state), min_cost() would end within the same bound on its loops and return the same value, and so would solve(); the flow and the potentials it ends with may differ.", "quantifier": "all ways of rearranging the queue, all admissible problems, all networks that solve() can pass to Flow", "why_tests_cant": "There are factorially many orders in every turn, and the states reached do differ.", "anchors": ["src/Flow.cpp:73-83", "src/UniqueQueue.hpp:9-26", "src/UniqueQueue.cpp:1-23", "src/ProblemSolver.cpp:42-59"]}
{"id": "C108", "title": "Optimal values move in one direction", "statement": "If a problem is changed so that no end of the range of a variable gets lower and no step upwards gets dearer, then none of the values in the least optimal solution (the one C101 finds with solve()) gets smaller, even of the variables that were not changed. Given any optimal solutions of both problems, the smaller value of each variable makes an optimal solution of the first and the larger one of the second.", "quantifier": "all pairs of admissible problems with the same omega limits that are related in this way, all pairs of optimal solutions", "why_tests_cant": "It relates all optimal solutions of two problems; the tests compare one value per problem.", "anchors": ["src/ProblemSolver.cpp:42-59", "src/include/ProblemSolver.hpp:13-21"]}
{"id": "C109", "title": "Without convexity solve() need not return", "statement": "The solver does not check that the costs are convex. Everything else it asks for is not enough for solve() to return: there is a problem with two variables, ranges of at most four values, integer costs and an optimum on which it runs for ever, with exact numbers and with doubles. In the sixth turn of the first phase both directions of an edge are admissible, two nodes of the link-cut tree become each other's father, and splay() rotates a node that is its own father without end.", "quantifier": "one problem, all numbers of steps", "why_tests_cant": "A test that does not end shows only that it has not ended yet, and the tests draw convex costs.", "anchors": ["src/Flow.cpp:85-114", "src/Flow.cpp:128-163", "3rd/lct/LCT.cpp:89-116", "src/ProblemSolver.cpp:42-59"]}
{"id": "C110", "title": "An infinite cost at the lower end of a range", "statement": "Costs of +infinity cannot be used to forbid values. For one variable in 0..1 whose cost is +infinity at 0 and any finite double at 1, solve() does not answer: after four turns the flow and the imbalances are NaN, the node stays active for ever, and its potential is raised until the int overflows, about 10^9 turns later.", "quantifier": "all finite doubles as the cost at 1, all numbers of steps", "why_tests_cant": "The tests use finite costs only; a run would take 10^9 turns to show the overflow.", "anchors": ["src/Flow.cpp:58-92", "src/Flow.cpp:116-140", "src/ProblemSolver.cpp:89-99"]}
{"id": "C111", "title": "The release build does the same", "statement": "test.sh builds with CMAKE_BUILD_TYPE=Release, where assert() does nothing. For every input, well-formed or not, and every Data type the release build of the solver has the same outcome as the debug build unless an assertion fails in the latter; the assertions of merge() and of Flow's constructor do not fail for any arguments; on admissible problems the release build returns the optimum.", "quantifier": "all inputs and all Data types; all admissible problems", "why_tests_cant": "The tests run one of the two builds and only well-formed problems.", "anchors": ["test.sh:6-10", "src/Flow.cpp:10-14", "src/ProblemDefine.cpp:42-52", "3rd/lct/LCT.cpp:14-26", "src/ProblemSolver.cpp:42-87"]}
{"id": "C112", "title": "The rounding in q() matters", "statement": "A comment in q() says that the paper rounds down where the code takes the ceiling less 1. The two differ exactly on multiples of 2(n+1). Putting the floor in place of the code's rounding would be wrong: on some admissible problem with two variables, which the code solves, solve() would then never return.", "quantifier": "all numerators and positive denominators; all inputs and Data types for the equality of the code with its parametrised form; all numbers of steps", "why_tests_cant": "A test cannot show that a run never ends, and the alternative is not in the code.", "anchors": ["src/Flow.cpp:128-140", "src/Flow.cpp:147-154"]}
{"id": "C113", "title": "The map of merge_limits() may be unordered", "statement": "A comment says that the std::map in merge_limits() may be replaced by an unordered variant. The merged limits then reach the flow in another order. On every admissible problem solve() gives the same answer for every order. With doubles this is only true while the sums are exact: for some problem with integer costs below 2^53 the reverse order gives a larger answer.", "quantifier": "all admissible problems, all functions that permute the contents of the map", "why_tests_cant": "The tests use one map; the number of orders is factorial in the number of pairs.", "anchors": ["src/ProblemSolver.cpp:61-87", "src/ProblemSolver.cpp:42-59"]}
{"id": "C114", "title": "Merging is not needed for the answer", "statement": "merge_limits() merges limits on the same unordered pair of variables, as the paper asks. Without this step, and with all the limits in any order and either orientation, solve() gives the same answer on every admissible problem, also where merging itself detects a contradiction.", "quantifier": "all admissible problems, all orders of the limits", "why_tests_cant": "The unmerged solver is not part of the code, and equality on all problems cannot be tested.", "anchors": ["src/ProblemSolver.cpp:61-87", "src/ProblemDefine.cpp:42-52"]}
{"id": "C115", "title": "The answer is concave in the costs", "statement": "For two admissible problems that differ in their costs only and nonnegative integers a and b, solve() on the problem whose costs are a times the first plus b times the second answers at least a times the first answer plus b times the second (and nullopt exactly when both do). For positive a and b the two are equal exactly if the problems have an optimal solution in common.", "quantifier": "all pairs of admissible problems of the same shape, all nonnegative a and b", "why_tests_cant": "A relation between the answers on three problems; the tests look at single problems.", "anchors": ["src/ProblemSolver.cpp:42-59", "src/Flow.cpp:30-46"]}
{"id": "C116", "title": "The assertion left as a comment in CostScaling", "statement": "With the commented-out assertion of Push (the capacities of an arc and of its reverse add up to the capacity the arc was added with) put back, MinCost does exactly what it does without it when the numbers are exact, whatever the arcs. With doubles the assertion can fail in a run that otherwise succeeds.", "quantifier": "every number of nodes, every arc list, exact numbers; existence of arcs for doubles", "why_tests_cant": "The assertion is not compiled; running it on samples with doubles would fail now and then without telling whether the code is wrong.", "anchors": ["test/CostScaling.cpp:34-46", "test/CostScaling.cpp:82-104"]}
{"id": "C117", "title": "MinCost is not safe on arcs from a node to itself", "statement": "There are arcs with nonnegative capacities and ends in range on which MinCost fails its own assertion that the excess of a node on the stack is positive, because one arc leads from a node to itself; without that arc MinCost succeeds.", "quantifier": "existence of an arc list", "why_tests_cant": "SimpleSolver, the only caller in the tests, makes no such arcs.", "anchors": ["test/CostScaling.cpp:53-69", "test/CostScaling.cpp:34-46"]}
{"id": "C118", "title": "Merging the limits first lowers the numbers of calc()", "statement": "The comment in ProblemSolver.hpp says that calc() works on the merged limits because that may lower its values. For every admissible problem each of the three values (the largest valid cost, M and U) computed from the merged limits is at most the value computed from the limits as they are.", "quantifier": "every admissible problem that the constructor accepts and merge_limits() does not find contradictory", "why_tests_cant": "calc() is private and the tests never look at its values.", "anchors": ["src/include/ProblemSolver.hpp:26-32", "src/ProblemSolver.cpp:61-99"]}
{"id": "C119", "title": "Total work of min_cost() in closed form", "statement": "With N = n + 1 nodes and m limits, none further from 0 than U, the loop of refine() makes at most 24 N (m+N) (floor(log2(N U)) + 2) iterations in all rounds of min_cost() together, in at most floor(log2(N U)) + 2 rounds. min_cost() makes at most 432 N (m+N) (floor(log2(N U)) + 2) calls of methods of the link-cut tree, and these together at most 91 floor(log2 N) + 14 times as many turns of splaying.", "quantifier": "all networks meeting the conditions of C60, all number units, every sufficient iteration budget", "why_tests_cant": "A bound on the growth of the work concerns all networks; the tests do not count iterations, calls or rotations.", "anchors": ["src/Flow.cpp:26-37", "src/Flow.cpp:57-165", "3rd/lct/LCT.cpp:7-124"]}
