{"id": "C01", "title": "Merge book keeper always yields the partition generated by the merges", "statement": "After any history of Merge / ProhibitMerge / MergeAllowed calls on a CMergeBookKeeper built for n clusters (rejected calls included), GetResult() is a partition of {0..n-1}: every original index occurs in exactly one set exactly once, no set is empty, and two indices are in the same set iff they are connected by a chain of Merge calls that returned normally. IsMerged and GetMergedSet report that same partition.", "quantifier": "every n below 65536 and every finite sequence of calls with arbitrary arguments", "why_tests_cant": "The state space (all partitions x all call histories) is infinite; the index-shifting loop is wrong only for particular orders of merges.", "anchors": ["larreco/RecoAlg/CMTool/CMToolBase/CMergeBookKeeper.cxx: CMergeBookKeeper::Merge, GetMergedSet, IsMerged, PassResult, Reset"]}
{"id": "C02", "title": "Book keeper output sets have canonical order", "statement": "GetResult() lists the merged sets in increasing order of their smallest member, and every set lists its members in increasing order; GetMergedSet(i) is the set at position at(i).", "quantifier": "every call history", "why_tests_cant": "Order is a function of the complete merge history.", "anchors": ["larreco/RecoAlg/CMTool/CMToolBase/CMergeBookKeeper.cxx: Merge, PassResult"]}
{"id": "C03", "title": "Prohibitions survive merging exactly", "statement": "At every point of every history MergeAllowed(i,j) (i<>j, in range) is false iff i and j are in different sets and some accepted ProhibitMerge(a,b) has a in the set of one and b in the set of the other; Merge(i,j) on such a pair throws and changes nothing; hence no history ever puts two prohibited clusters in one set.", "quantifier": "every call history", "why_tests_cant": "Prohibit flags are physically moved in a triangular table on every merge; only some index configurations exercise each of the four shifting loops.", "anchors": ["larreco/RecoAlg/CMTool/CMToolBase/CMergeBookKeeper.cxx: ProhibitMerge, MergeAllowed, Merge (four prohibit-rule loops)"]}
{"id": "C04", "title": "Book keeper errors are exactly the documented ones and leave the object unchanged", "statement": "Merge / ProhibitMerge / MergeAllowed throw CMTException exactly for identical indices, an index out of range, (ProhibitMerge) already merged clusters, or (Merge) a prohibited pair; none of them ever throws std::out_of_range from the internal table, and after a throw every observer returns what it returned before.", "quantifier": "every reachable keeper state and all arguments", "why_tests_cant": "Needs every table access of every reachable state to be in range.", "anchors": ["larreco/RecoAlg/CMTool/CMToolBase/CMergeBookKeeper.cxx: Merge, ProhibitMerge, MergeAllowed"]}
{"id": "C05", "title": "Combine composes two merge results", "statement": "If keeper A has k output sets and keeper B was built for k clusters, has merged at least one pair, and A has no prohibitions, A.Combine(B) makes two original indices merged iff their A-sets are merged in B; if sizes differ or B merged nothing, it throws and A is unchanged.", "quantifier": "every pair of reachable keepers", "why_tests_cant": "Requires reasoning about the snapshot of A's result staying valid while A mutates.", "anchors": ["larreco/RecoAlg/CMTool/CMToolBase/CMergeBookKeeper.cxx: Combine"]}
{"id": "C06", "title": "Merge manager conserves hits and agrees with its book keeper", "statement": "After CMergeManager::Process, for every input, the multiset of hits of output cluster k equals the union of the hits of the input clusters listed in GetBookKeeper().GetResult()[k]; in particular no hit is lost, duplicated or invented, and the number of output clusters equals the number of result sets. (Conditions: a merge algorithm is set, at least one and fewer than 65536 input clusters, each with at least one hit; planes are compared as unsigned char.)", "quantifier": "every list of input clusters, every (stateful) merge / separate / priority algorithm, iterative or not", "why_tests_cant": "Ranges over arbitrary user algorithms and any number of iterations.", "anchors": ["larreco/RecoAlg/CMTool/CMToolBase/CMergeManager.cxx: IterationProcess, RunMerge, RunSeparate, EventEnd", "larreco/RecoAlg/CMTool/CMToolBase/CMManagerBase.cxx: Process"]}
{"id": "C07", "title": "Iterative merging always terminates", "statement": "CMManagerBase::Process with a CMergeManager terminates after at most n iterations for n input clusters, whatever the algorithms answer: the number of clusters strictly decreases on each iteration that continues. (Conditions: a merge algorithm is set, at least one and fewer than 65536 input clusters, each with at least one hit; planes are compared as unsigned char.)", "quantifier": "every input and every algorithm", "why_tests_cant": "Termination cannot be established by running.", "anchors": ["larreco/RecoAlg/CMTool/CMToolBase/CMManagerBase.cxx: Process", "larreco/RecoAlg/CMTool/CMToolBase/CMergeManager.cxx: IterationProcess"]}
{"id": "C08", "title": "The merge manager only merges same-plane clusters and honours the separation algorithm", "statement": "In each iteration two clusters are put in one output cluster only if they are linked by a chain of same-plane pairs that both have positive priority and for which the merge algorithm answered true, and no two clusters that the separation algorithm separated in that iteration end in the same output cluster. (Conditions: a merge algorithm is set, at least one and fewer than 65536 input clusters, each with at least one hit; planes are compared as unsigned char.)", "quantifier": "every input, every merge and separation algorithm", "why_tests_cant": "All algorithms and all interleavings of accepted merges.", "anchors": ["larreco/RecoAlg/CMTool/CMToolBase/CMergeManager.cxx: RunMerge, RunSeparate"]}
{"id": "C09", "title": "Priority ordering of clusters", "statement": "Clusters are examined in order of decreasing priority, ties broken by lower cluster index first; clusters with non-positive priority are never examined; the set of planes contains exactly the planes of the examined clusters.", "quantifier": "every list of clusters and priorities", "why_tests_cant": "Tie-breaking relies on multimap insertion order under reverse iteration, for every permutation.", "anchors": ["larreco/RecoAlg/CMTool/CMToolBase/CMManagerBase.cxx: ComputePriority"]}
{"id": "C10", "title": "Match book keeper returns the greedy disjoint selection", "statement": "CMatchBookKeeper::GetResult returns pairwise index-disjoint sets out of the registered ones, in non-increasing score order, and every registered set that is not returned shares an index with a returned set of at least its own score; for equal scores the later registered set wins. (Indexes below 2^32-1.)", "quantifier": "every history of Match calls", "why_tests_cant": "All histories, all index sets, all tie patterns.", "anchors": ["larreco/RecoAlg/CMTool/CMToolBase/CMatchBookKeeper.cxx: Match, PassResult"]}
{"id": "C11", "title": "Plane/cluster combinations are enumerated completely and once", "statement": "PlaneClusterCombinations(seed) with every entry positive lists exactly the choices of at least two planes with one cluster index below seed[plane] for each, planes increasing, each choice once, with more planes before fewer. (Up to 33 planes; with 34 or more the size hint divides by zero.)", "quantifier": "every seed vector", "why_tests_cant": "Unbounded number of planes and clusters.", "anchors": ["larreco/RecoAlg/CMTool/CMToolBase/CMatchManager.cxx: SimpleCombination, ClusterCombinations, PlaneClusterCombinations"]}
{"id": "C12", "title": "Matched cluster sets are cross-plane and disjoint", "statement": "After CMatchManager::Process every returned match contains at least two clusters, all on different planes, each with positive priority, every cluster is in at most one match, and any combination with positive score that is not returned conflicts with a returned one of no smaller score. (Starting from an empty book keeper, at most 33 planes, fewer than 2^32-1 clusters, examined clusters on declared planes.)", "quantifier": "every input and every score function", "why_tests_cant": "All inputs and algorithms.", "anchors": ["larreco/RecoAlg/CMTool/CMToolBase/CMatchManager.cxx: IterationProcess", "larreco/RecoAlg/CMTool/CMToolBase/CMatchBookKeeper.cxx"]}
{"id": "C13", "title": "Algorithm array evaluates the configured AND/OR chain", "statement": "CBAlgoArray::Bool returns the value of its algorithms combined left to right by the configured AND / OR (short-circuiting only when it cannot change the answer).", "quantifier": "every array of algorithms and every pair of clusters", "why_tests_cant": "Exponentially many configurations and answers; the early exits are wrong only for mixed chains.", "anchors": ["larreco/RecoAlg/CMTool/CMTAlgMerge/CBAlgoArray.cxx: Bool", "larreco/RecoAlg/CMTool/CMTAlgMerge/CBAlgoArray.h: AddAlgo"]}
{"id": "C14", "title": "Priority array evaluates its documented modes", "statement": "CPAlgoArray::Priority returns, per mode: the sum of the scores (kSimpleAddition), the first negative score or else the sum (kPositiveAddition), the product (kMultiplication) or the last score (kLastAlgo).", "quantifier": "every list of scores and each mode", "why_tests_cant": "All score lists.", "anchors": ["larreco/RecoAlg/CMTool/CMTAlgPriority/CPAlgoArray.cxx: Priority"]}
{"id": "C15", "title": "QuadExpr arithmetic is exact polynomial arithmetic", "statement": "For expressions built from constants, X, +, -, * the value of Eval(x) of the result is the value of the expression at x, for every x, and operator* aborts exactly when the product of the operands is not of degree at most two.", "quantifier": "every expression and every x", "why_tests_cant": "All expressions / reals.", "anchors": ["larreco/SpacePointSolver/QuadExpr.cxx", "larreco/SpacePointSolver/QuadExpr.h"]}
{"id": "C16", "title": "Space point solver keeps predictions consistent", "statement": "After construction and any number of Iterate calls in any order, each induction wire's predicted charge equals the total charge of the space charges on it and each neighbour potential equals the coupling-weighted charge of its neighbours. (Orphan updates with alpha below 2 and both induction wires present.)", "quantifier": "every network of wires and space charges and every schedule of updates", "why_tests_cant": "Incremental bookkeeping over unbounded histories.", "anchors": ["larreco/SpacePointSolver/Solver.cxx: SpaceCharge::AddCharge, CollectionWireHit::CollectionWireHit, Iterate"]}
{"id": "C17", "title": "Collection wire charge is conserved and never negative", "statement": "For each collection wire with at least one crossing, the predicted charges of its space charges always sum to the wire's charge and each is non-negative, after any number of iterations.", "quantifier": "every network, every regularisation alpha, every schedule", "why_tests_cant": "Invariant over unbounded histories.", "anchors": ["larreco/SpacePointSolver/Solver.cxx: SolvePair, Iterate(CollectionWireHit*)"]}
{"id": "C18", "title": "Pair metric is the exact change of the global metric; iteration never makes it worse", "statement": "The quadratic returned by Metric(sci, scj, alpha), evaluated at x minus evaluated at 0, equals the change of the global metric when charge x moves from scj to sci; SolvePair returns the minimiser of it on [-pred_i, pred_j]; hence Iterate never increases the global metric. (Global metric: over all space charges including orphans; alpha below 2 if there are orphans; neighbour lists symmetric; the two induction views share no wire.)", "quantifier": "every network, every alpha, every x", "why_tests_cant": "Universal over reals and graphs; the neighbour special case only matters when the two are coupled.", "anchors": ["larreco/SpacePointSolver/Solver.cxx: Metric, SolvePair, Iterate"]}
{"id": "C19", "title": "One solver iteration visits every collection wire exactly once", "statement": "Iterate(cwires, orphans, alpha) updates each collection wire exactly once per call.", "quantifier": "every number of collection wires", "why_tests_cant": "Fails only for special list lengths that no test reaches.", "anchors": ["larreco/SpacePointSolver/Solver.cxx: Iterate(cwires, orphanSCs, alpha)"]}
{"id": "C20", "title": "Doublet search is exact", "statement": "DoubletHelper with drift-sorted inputs and positive threshold returns exactly the pairs (a,b) with crossing wires and |x_a-x_b| below threshold plus every (a, bad channel) crossing, each once.", "quantifier": "all sorted hit lists, all intersection tables, all thresholds", "why_tests_cant": "The moving-window pruning has to be right for every arrangement of hits.", "anchors": ["larreco/SpacePointSolver/TripletFinder.cxx: DoubletHelper, FillHitMap"]}
{"id": "C21", "title": "Triplets are exactly the compatible combinations", "statement": "Without a limit Triplets() returns, per TPC, exactly the combinations of XU and XV doublets that share their X hit/channel, have at most one bad channel, are mutually close in drift and whose three pairwise intersections are mutually close, each once, with the average of the drift positions of its real hits; with limit m>0 it returns at most m (per TPC).", "quantifier": "all inputs", "why_tests_cant": "Sort-merge join over pointers, all multiplicities.", "anchors": ["larreco/SpacePointSolver/TripletFinder.cxx: Triplets, DoubletsXU, DoubletsXV, LessThanXHit, SameXHit"]}
{"id": "C22", "title": "Two-view space points sit at the mean drift position of their hits", "statement": "Every triplet from TripletsTwoView() has x equal to the average of the drift positions of its non-null hits.", "quantifier": "all inputs", "why_tests_cant": "Depends on presence of bad channels.", "anchors": ["larreco/SpacePointSolver/TripletFinder.cxx: TripletsTwoView, DoubletsXU"]}
{"id": "C23", "title": "DBSCAN labels are a correct DBSCAN clustering", "statement": "After DBScan3DAlg::dbscan every point has a final label; two core points (at least minpts others within epsilon) have the same cluster id iff they are density connected; every non-core point with a core point in range is in the cluster of one such core point; all other points are noise.", "quantifier": "every finite point set with any symmetric distance, any epsilon and minpts >= 1", "why_tests_cant": "All geometries; the seed-list loop mutates what it iterates over.", "anchors": ["larreco/RecoAlg/DBScan3DAlg.cxx: dbscan, expand, spread, get_epsilon_neighbours"]}
{"id": "C24", "title": "DBSCAN terminates and numbers clusters contiguously", "statement": "dbscan terminates on every input and the cluster ids used are 0..k-1 without gaps, cluster i containing the first unclaimed core point in index order.", "quantifier": "every input", "why_tests_cant": "Termination of a worklist that grows while scanned.", "anchors": ["larreco/RecoAlg/DBScan3DAlg.cxx: dbscan, spread"]}
{"id": "C25", "title": "PMA node/segment links stay mutually consistent", "statement": "After any sequence of AddNext, RemoveNext, Disconnect and destruction on a population of chain and branch objects, B is among A's next objects iff A is B's previous one; each object has at most one previous, appears once in its predecessor's next list, no destroyed object is referenced, and a branch's Next() list order is insertion order.", "quantifier": "every population and every operation sequence", "why_tests_cant": "Pointer graph invariants over all histories.", "anchors": ["larreco/RecoAlg/PMAlg/SortedObjects.cxx", "larreco/RecoAlg/PMAlg/SortedObjects.h"]}
{"id": "C26", "title": "Hit candidates from a waveform are ordered, in range and genuine peaks", "statement": "CandHitStandard::findHitCandidates terminates on every waveform and yields candidates in time order whose [startTick,stopTick] ranges lie in the waveform, overlap at most in an end tick, contain hitCenter, and whose hitHeight is the waveform value at hitCenter, above threshold, and maximal in the range.", "quantifier": "every waveform and every threshold", "why_tests_cant": "Recursive splitting for all waveforms.", "anchors": ["larreco/HitFinder/HitFinderTools/CandHitStandard_tool.cc: findHitCandidates"]}
{"id": "C27", "title": "No large pulse is missed", "statement": "Every waveform sample above threshold lies in some candidate's range or in a leftover stretch of at most 4 ticks.", "quantifier": "every waveform and every threshold", "why_tests_cant": "Completeness over all waveforms.", "anchors": ["larreco/HitFinder/HitFinderTools/CandHitStandard_tool.cc: findHitCandidates"]}
{"id": "C28", "title": "Candidate grouping is a faithful split", "statement": "MergeHitCandidates returns non-empty groups whose concatenation is the input, neighbouring candidates being in the same group iff the gap from the stop of one to the start of the next is at most one tick.", "quantifier": "every candidate list with start <= stop", "why_tests_cant": "All lists.", "anchors": ["larreco/HitFinder/HitFinderTools/CandHitStandard_tool.cc: MergeHitCandidates"]}
{"id": "C29", "title": "RFF fitter output vectors stay aligned, above threshold and inside the signal", "statement": "After RFFHitFitter::RunFitter the six output vectors have equal length, all amplitudes are at or above threshold, every mean lies in [0, size-1], and each mean is the average of a maximal group of tick estimates with gaps within the match threshold and at least the minimal multiplicity; the pruning loop terminates.", "quantifier": "every signal and every solver behaviour", "why_tests_cant": "Unbounded signals; erase-while-iterating loop.", "anchors": ["larreco/HitFinder/RFFHitFitter.cxx"]}
{"id": "C30", "title": "Gaussian elimination solves the linear system", "statement": "With non-zero pivots, GaussianElimination yields a vector satisfying every original equation (exact arithmetic).", "quantifier": "every matrix size and content", "why_tests_cant": "All matrices.", "anchors": ["larreco/HitFinder/GaussianEliminationAlg.cxx: GaussianElimination"]}
{"id": "C31", "title": "Back-tracker charge is conserved", "statement": "After Reset with non-negative track ids on channels of existing planes (whatever the object held before), for each plane the entries of MCQSum(plane) add up to all electrons deposited on channels of that plane, entry k being exactly those of the particles registered under index k and the last entry those of unregistered ones; MCQ over a tick range (start to end + 1, not inverted) adds exactly the deposits within it, and over a list of ranges the sum of those.", "quantifier": "every set of registered ids, all deposits, all ranges", "why_tests_cant": "All events.", "anchors": ["larreco/MCComp/MCBTAlg.cxx: Reset, Register, ProcessSimChannel, MCQ, MCQSum"]}
{"id": "C32", "title": "Track id registration", "statement": "Index(id) is the position of id among first registrations (or its group's position), distinct ids of single registration get distinct indices, unregistered ids give kINVALID_INDEX; grouped registration throws exactly when an id occurs twice.", "quantifier": "every registration history", "why_tests_cant": "All histories.", "anchors": ["larreco/MCComp/MCBTAlg.cxx: Register, Index"]}
{"id": "C33", "title": "Best cluster is the argmax of charge", "statement": "For clusters that have hits, BestClusters(m)[plane] is the first cluster on that plane with maximal positive charge from particle m, or -1 if none; ClusterCorrectness is then in [0,1] and equals 1 for the best cluster; particle indices out of range throw.", "quantifier": "all charge tables and clusters", "why_tests_cant": "All charge tables.", "anchors": ["larreco/MCComp/MCMatchAlg.cxx: BuildMap, BestClusters, ClusterCorrectness"]}
{"id": "C34", "title": "Efficiency and purity are fractions", "statement": "ClusterEP of a registered cluster with positive charge gives efficiency and purity in [0,1]; efficiencies of all clusters of a plane for one particle sum to 1 and purities of a cluster over all particles plus the unregistered remainder sum to 1.", "quantifier": "all inputs", "why_tests_cant": "All charge tables.", "anchors": ["larreco/MCComp/MCMatchAlg.cxx: ClusterEP, BestClusterEP"]}
{"id": "C35", "title": "kd-tree holds each hit once with correct splits", "statement": "BuildKdTree on a non-empty hit list makes a tree whose leaves are exactly the input hits, once each, in which at every split the left hits have coordinate <= the axis value <= the right hits; FindEntryBrute finds exactly the hits in the list; the recursion terminates.", "quantifier": "every hit list", "why_tests_cant": "All point sets incl. repeated coordinates.", "anchors": ["larreco/RecoAlg/Cluster3DAlgs/kdTree.cxx: BuildKdTree, FindEntryBrute"]}
{"id": "C36", "title": "kd-tree neighbour search misses nothing close", "statement": "FindNearestNeighbors returns only consistent hits of the tree other than the reference hit, none twice, and returns every consistent hit that is closer than RefLeafBestDist in all coordinates when started with a finite best distance of at least that.", "quantifier": "every tree and reference hit", "why_tests_cant": "Pruned search with a mutable radius.", "anchors": ["larreco/RecoAlg/Cluster3DAlgs/kdTree.cxx: FindNearestNeighbors, consistentPairs"]}
{"id": "C37", "title": "GFTrackCand keeps its per-hit records aligned", "statement": "After any sequence of constructor, addHit, append and reset, hit number i < getNHits() has the detector id, hit id, rho and plane with which it was added.", "quantifier": "every operation sequence", "why_tests_cant": "Histories mixing reset and addHit.", "anchors": ["larreco/Genfit/GFTrackCand.cxx", "larreco/Genfit/GFTrackCand.h"]}
{"id": "C38", "title": "Gaussian fit function cache returns a stable function of the right order", "statement": "GausFitCache::Get(n) always returns the same function object for the same n, different ones for different n, with 3n parameters arranged for n Gaussians, whatever calls came before.", "quantifier": "every sequence of Get calls", "why_tests_cant": "All histories.", "anchors": ["larreco/RecoAlg/GausFitCache.cxx: Get, CreateFunction"]}
{"id": "C39", "title": "Track creation book keeper keeps points, hits and degrees of freedom consistent", "statement": "After any sequence of addPoint calls, the finalized track has as many positions, momenta, flags and output hits as calls, in order; chi2 is the sum of non-negative chi2 arguments (unless overridden) and ndof their number minus the fitted parameters.", "quantifier": "every sequence of addPoint", "why_tests_cant": "All histories.", "anchors": ["larreco/RecoAlg/TrackCreationBookKeeper.h", "larreco/RecoAlg/TrackTrajectoryCreationBookKeeper.h"]}
{"id": "C40", "title": "Track candidate merging tracks the right candidate", "statement": "TrkCandidateColl::merge(i,j) leaves the collection with candidate j removed, candidate i holding both cluster lists, and the tree id of the merged candidate propagated to its tree.", "quantifier": "all collections and indices i<>j", "why_tests_cant": "Only orderings with j<i misbehave.", "anchors": ["larreco/RecoAlg/PMAlg/PmaTrkCandidate.cxx: merge"]}
{"id": "C41", "title": "An event shows only its own results", "statement": "After Process on an event, the output clusters and the book keeper depend only on that event's input clusters and the algorithms' hidden state, not on earlier events; in particular an event without clusters shows no output clusters.", "quantifier": "every pair of consecutive events on one CMergeManager", "why_tests_cant": "Ranges over all histories of a reused manager.", "anchors": ["larreco/RecoAlg/CMTool/CMToolBase/CMManagerBase.cxx: Process, SetClusters, Reset", "larreco/RecoAlg/CMTool/CMToolBase/CMergeManager.cxx: EventBegin, EventEnd, Reset"]}
{"id": "C42", "title": "Hit conservation holds for any number of clusters", "statement": "CMergeManager::Process conserves hits however many clusters the event has.", "quantifier": "every number of input clusters, including those above the range of unsigned short", "why_tests_cant": "The failing size (>= 65536 clusters) is not reached by ordinary tests.", "anchors": ["larreco/RecoAlg/CMTool/CMToolBase/CMergeBookKeeper.h: CMergeBookKeeper(unsigned short)", "larreco/RecoAlg/CMTool/CMToolBase/CMergeManager.cxx: IterationProcess"]}
{"id": "C43", "title": "A match manager event returns only matches of its own clusters", "statement": "After SetClusters and CMatchManager::Process on a reused manager, every returned match refers to clusters of the current event.", "quantifier": "every sequence of events on one CMatchManager", "why_tests_cant": "Ranges over all histories of a reused manager.", "anchors": ["larreco/RecoAlg/CMTool/CMToolBase/CMatchManager.cxx: EventBegin, Reset", "larreco/RecoAlg/CMTool/CMToolBase/CMManagerBase.cxx: SetClusters, Reset"]}
{"id": "C44", "title": "Match manager rejects clusters on undeclared planes", "statement": "If an examined cluster lies on a plane outside 0..nplanes-1 and another examined cluster lies on another plane, CMatchManager::Process throws instead of matching.", "quantifier": "every input, every algorithm", "why_tests_cant": "All inputs and plane numbers, including negative and wrapped ones.", "anchors": ["larreco/RecoAlg/CMTool/CMToolBase/CMatchManager.cxx: IterationProcess"]}
{"id": "C45", "title": "The metric that Minimize monitors does not increase", "statement": "Each call of Iterate leaves Metric(cwires, alpha), the quantity SpacePointSolver::Minimize prints and tests for convergence, no larger than before.", "quantifier": "every network, with or without orphan space charges", "why_tests_cant": "the orphan update minimises over wires the monitored metric does not contain; only some geometries show it", "anchors": ["larreco/SpacePointSolver/SpacePointSolver_module.cc: Minimize", "larreco/SpacePointSolver/Solver.cxx: Metric(cwires, alpha), Iterate"]}
{"id": "C46", "title": "Gaussian distance lookup stays in its table", "statement": "A GaussianEliminationAlg constructed with positive step answers GetDistance(d) for every d without reading outside its table: 0 beyond the maximum, otherwise the linear interpolation of the Gaussian sampled at multiples of the step; the result is even in d, in [0,1] and 1 at 0. The constructor ends for every non-negative step.", "quantifier": "every step, maximum and distance", "why_tests_cant": "unit tests sample a few distances for one or two table configurations", "anchors": ["larreco/HitFinder/GaussianEliminationAlg.cxx: FillDistanceLookupTable, GetDistance"]}
{"id": "C47", "title": "Charge fractions", "statement": "MCQFrac over a range gives for each registered particle its share of all registered charge in the range (these shares sum to 1) and in the last entry the share of unregistered charge in all charge of the range, whenever the divisor is not zero.", "quantifier": "every set of registered ids, all deposits and ranges", "why_tests_cant": "All events.", "anchors": ["larreco/MCComp/MCBTAlg.cxx: MCQFrac"]}
{"id": "C48", "title": "Shower correctness", "statement": "ShowerCorrectness of a non-empty list of cluster indices returns the last particle index with the largest product of the clusters' correctness, and that product (in [0,1]); a cluster on a plane where no cluster has charge of the particle counts as factor 1.", "quantifier": "all charge tables and cluster lists", "why_tests_cant": "All charge tables.", "anchors": ["larreco/MCComp/MCMatchAlg.cxx: ShowerCorrectness"]}
{"id": "C49", "title": "Cluster3D DBSCAN clusters are the density reachable hits", "statement": "DBScanAlg::Cluster3DHits ends on every hit list and appends to the output clusters such that no hit is in two; each new cluster grows from the first core hit (at least MinPairPts neighbours found by the kd-tree) not yet in a cluster and holds exactly the hits density-reachable from it that are in no earlier cluster; no core hit is left out; hits in no cluster are flagged noise, all are flagged visited and attached iff clustered; other hits are not touched; the pointer overload ignores old flags while the other finds nothing on hits already visited.", "quantifier": "every hit list, neighbourhood (also asymmetric) and MinPairPts", "why_tests_cant": "Work-queue algorithm over arbitrary neighbourhood graphs with mutable flags.", "anchors": ["larreco/RecoAlg/Cluster3DAlgs/DBScanAlg_tool.cc: Cluster3DHits, expandCluster"]}
{"id": "C50", "title": "Parent and daughter links of track candidates mirror the track forest", "statement": "After setParentDaughterConnections every remaining candidate has a track and a parent; candidate i is the parent of j and j is listed once among the daughters of i exactly when track j branches off track i; candidates starting a tree get a primary (numbered after the candidates) as parent, the same one exactly when they start at the same vertex, and each primary lists exactly its daughters once and carries the tree id of its first daughter.", "quantifier": "all collections holding a well-formed track forest, including candidates without a track", "why_tests_cant": "Depends on arbitrary forests and orders of candidates.", "anchors": ["larreco/RecoAlg/PMAlg/PmaTrkCandidate.cxx: setParentDaughterConnections"]}
{"id": "C51", "title": "The solver's network uses every hit triplet once", "statement": "SpacePointSolver turns the triplets it found into a network as follows: every collection hit that is in some triplet gets exactly one collection wire, made of the triplets of that hit that have both induction hits, or, if there is none, of all its triplets; a triplet without collection hit but with both induction hits is kept as an orphan exactly when one of its induction hits is in no complete triplet. Every space charge created ends up in exactly one place: on one wire, among the orphans, or deleted (those with no collection hit and at most one induction hit are neither used nor deleted: a leak).", "quantifier": "every list of triplets, of any length, with any combination of missing hits", "why_tests_cant": "the classification depends on all triplets at once (is there a complete one for this hit, is this induction hit explained elsewhere), so no finite set of inputs covers it", "anchors": ["larreco/SpacePointSolver/SpacePointSolver_module.cc: BuildSystem"]}
{"id": "C52", "title": "The neighbour search finds exactly the close pairs", "statement": "After AddNeighbours, the neighbours of every space charge are exactly the other space charges of the system at a distance of more than 0 and at most 5 cm, each listed once, with a coupling that depends only on the distance: no close pair is missed because the two points lie in different cells (also around zero, where cells are twice as wide), and being neighbours is symmetric with equal couplings.", "quantifier": "every number of space charges, every set of positions with coordinates below 10^10 cm, and every coupling function of the distance", "why_tests_cant": "positions are arbitrary reals and cells are obtained by truncation towards zero; missing pairs would only appear for particular positions relative to cell borders", "anchors": ["larreco/SpacePointSolver/SpacePointSolver_module.cc: AddNeighbours"]}
{"id": "C53", "title": "Space points account exactly for the charge of every collection hit", "statement": "From the triplets on, the SpacePointSolver module completes without undefined behaviour, and in all three collections it writes every space point has positive charge and the ids are distinct. Each final space point stands for one triplet: it has the triplet's position and is associated with exactly the triplet's hits; no two points stand for the same triplet; and the charges of the points associated with any collection hit that is in a triplet add up to exactly that hit's integral.", "quantifier": "every list of triplets whose collection hits have no negative integral, with any positions below 10^10 cm, any regularisation strength below 2, any iteration limits and any coupling function", "why_tests_cant": "the result of an iterative minimisation over a shared network; conservation must hold after any number of updates in any order", "anchors": ["larreco/SpacePointSolver/SpacePointSolver_module.cc: produce, BuildSystem, AddNeighbours, Minimize, FillSystemToSpacePointsAndAssns, AddSpacePoint", "larreco/SpacePointSolver/Solver.cxx: Iterate"]}
{"id": "C54", "title": "The straight-line fit returns the line of least chi-square", "statement": "For any data with positive errors in which two x values differ, LinFitAlg::LinFit returns the intercept and slope of the only line with the least weighted chi-square, ChiDOF is that chi-square divided by the number of points minus two (0 for two points), and the errors follow from it; with fewer than two points, missing x or errors, or all x equal, it only sets ChiDOF to 999.", "quantifier": "every number of points, every data values and positive errors", "why_tests_cant": "optimality is a statement about all lines, for all data; sizes are unbounded", "anchors": ["larreco/RecoAlg/LinFitAlg.cxx: LinFitAlg::LinFit"]}
{"id": "C55", "title": "Erosion and dilation are exact sliding minima and maxima", "statement": "For every waveform and structuring element, getErosionDilationAverageDifference returns vectors of the waveform's length whose element at each tick is the least (greatest) sample in that tick's window, with the average and the difference of the two; the waveform lies between erosion and dilation at every tick, and no sample outside the waveform is read.", "quantifier": "every waveform length and samples, every structuring element (also larger than the waveform)", "why_tests_cant": "the implementation keeps a running extremum between ticks and recomputes it only when it leaves the window; a stale extremum shows only for particular sample orders", "anchors": ["larreco/HitFinder/HitFinderTools/WaveformTools_tool.cc: getErosionDilationAverageDifference"]}
{"id": "C56", "title": "Opening and closing bound each other and the waveform", "statement": "getOpeningAndClosing on the vectors of C55 gives, at each tick, the greatest erosion and the least dilation in the tick's window; erosion <= opening <= closing <= dilation, and opening <= waveform <= closing.", "quantifier": "every waveform and structuring element", "why_tests_cant": "orders of values in overlapping windows are unbounded; the inequality must hold at every tick of every waveform", "anchors": ["larreco/HitFinder/HitFinderTools/WaveformTools_tool.cc: getOpeningAndClosing"]}
{"id": "C57", "title": "Smoothing and derivative replace exactly the ticks with a full window", "statement": "triangleSmooth, medianSmooth and firstDerivative write, at each tick with a complete window, the five-point weighted mean, a median of the window, or half the difference of its neighbours; all other ticks are copied (zero for the derivative); the output depends on the input only.", "quantifier": "every waveform, every lowest bin, every number of bins", "why_tests_cant": "sizes unbounded, boundary arithmetic on iterators", "anchors": ["larreco/HitFinder/HitFinderTools/WaveformTools_tool.cc: triangleSmooth, medianSmooth, firstDerivative"]}
{"id": "C58", "title": "Peak finding terminates with ordered pulses inside the waveform", "statement": "findPeaks ends for every waveform, without reading outside it, and returns pulses in order of time, disjoint but for common end ticks, each within the range searched, with a sample above threshold followed by one below minus the threshold and a peak tick half way between them.", "quantifier": "every waveform, threshold >= 0, range and first tick", "why_tests_cant": "recursion on both sides of the largest sample; depth and number of peaks are unbounded", "anchors": ["larreco/HitFinder/HitFinderTools/WaveformTools_tool.cc: findPeaks"]}
{"id": "C59", "title": "The truncated mean and rms are taken from the samples near a most probable value", "statement": "For every non-empty waveform getTruncatedMeanRMS finds a most frequent quarter-unit bin; mean is the average of the bins at most min(16, half the number of bins + 1) away that hold more than a fifth as many samples, nTrunc (at least 1, at most the number of samples) counts the samples in them, rmsFull is the rms of all samples about the mean, rmsTrunc that of the nTrunc samples nearest to the mean, and rmsTrunc <= rmsFull.", "quantifier": "every non-empty waveform", "why_tests_cant": "depends on the frequencies of values in arbitrarily long waveforms; the truncated inner product must stay inside the vector for every histogram", "anchors": ["larreco/HitFinder/HitFinderTools/WaveformTools_tool.cc: getTruncatedMeanRMS"]}
{"id": "C60", "title": "Derivative hit candidates are ordered pulses of the smoothed derivative", "statement": "CandHitDerivative::findHitCandidates ends on every region of interest without reading outside it; its candidates are in time order, sharing at most an end tick, and each is a pulse of the smoothed derivative: rising and not negative from start to maximum, not rising from maximum to minimum, rising and not positive from minimum to stop, with the configured (or merged-hit) minimum length and drop; the centre lies between maximum and minimum tick and the height is the waveform's sample there.", "quantifier": "every waveform, region start, minimum number of ticks and minimum drop", "why_tests_cant": "doubly recursive search whose thresholds change on the way; termination and bounds depend on the whole waveform", "anchors": ["larreco/HitFinder/HitFinderTools/CandHitDerivative_tool.cc: CandHitDerivative::findHitCandidates, findNearestMin, findNearestMax, findStartTick, findStopTick"]}
{"id": "C61", "title": "Merging derivative candidates splits the high ones by distance", "statement": "CandHitDerivative::MergeHitCandidates returns non-empty groups whose concatenation is the list of candidates above the minimum height in their order; inside a group each candidate starts at most NumInterveningTicks behind the stop of the one before, and the first of the next group starts later than that.", "quantifier": "every list of candidates, minimum height and number of ticks", "why_tests_cant": "lists are unbounded; the state (last stop tick) is only updated by kept candidates", "anchors": ["larreco/HitFinder/HitFinderTools/CandHitDerivative_tool.cc: CandHitDerivative::MergeHitCandidates"]}
{"id": "C62", "title": "Morphological hit candidates are ordered pulses that leave no gaps", "statement": "CandHitMorphological::findHitCandidates ends on every region of interest without reading outside it; each candidate is a pulse of the smoothed derivative (rising to the maximum, then not rising for at least two ticks down to the minimum, then rising), its centre lies between start and stop inside the region, its height is the sample at the centre; candidates are in time order and do not overlap; without the sigma limit no tick lies between successive candidates, so they form one group; with the limit start and stop are within that many sigmas of the centre; and there are candidates only if some sample reaches the dilation threshold and some candidate meets the configured minima. Only candidates of this region are returned.", "quantifier": "every waveform, structuring element, thresholds, sigma limit and region start", "why_tests_cant": "two nested recursive searches over three vectors; candidates are modified after they were stored", "anchors": ["larreco/HitFinder/HitFinderTools/CandHitMorphological_tool.cc: CandHitMorphological::findHitCandidates, getListOfHitCandidates, MergeHitCandidates"]}
{"id": "C63", "title": "The convex hull is the convex hull of the points", "statement": "Built on a list of points ordered by x and then y, getConvexHull() returns a closed list of input points (first = last) such that every input point is on or to the left of every edge, the boundary turns strictly to the left wherever two edges of it meet (unless all points are on one line), and the boundary goes out to the last point and back once.", "quantifier": "every non-empty ordered list of points, coincident and collinear points included", "why_tests_cant": "the claim is about all point sets; a test checks a few pictures", "anchors": ["larreco/RecoAlg/Cluster3DAlgs/ConvexHull/ConvexHull.cxx:ConvexHull::getConvexHull", "larreco/RecoAlg/Cluster3DAlgs/ConvexHull/ConvexHull.cxx:ConvexHull::isLeft"]}
{"id": "C64", "title": "The area of the hull is its area", "statement": "getConvexHullArea() is half the shoelace sum over the boundary; it is never negative, 0 when all points are on one line and positive otherwise.", "quantifier": "every non-empty ordered list of points", "why_tests_cant": "sign and value must hold for every polygon", "anchors": ["larreco/RecoAlg/Cluster3DAlgs/ConvexHull/ConvexHull.cxx:ConvexHull::Area"]}
{"id": "C65", "title": "findNearestEdge finds the nearest edge, negative distances mean inside", "statement": "findNearestEdge returns the hull edge at the least distance from the point, the distance being the distance to that segment, negative exactly when the point is inside.  REFUTED: the closing edge of the hull is never looked at.", "quantifier": "every hull and every point", "why_tests_cant": "which edge is nearest depends on every vertex and the point", "anchors": ["larreco/RecoAlg/Cluster3DAlgs/ConvexHull/ConvexHull.cxx:ConvexHull::findNearestEdge", "larreco/RecoAlg/Cluster3DAlgs/ConvexHull/ConvexHull.cxx:ConvexHull::findNearestDistance"]}
{"id": "C66", "title": "getExtremePoints returns the two vertices furthest apart", "statement": "getExtremePoints returns two vertices of the hull no other two vertices are further apart than.  REFUTED: a triangle is enough.  It always returns, with two different vertices unless all points coincide.", "quantifier": "every non-empty ordered list of points", "why_tests_cant": "maximality and termination range over all hulls", "anchors": ["larreco/RecoAlg/Cluster3DAlgs/ConvexHull/ConvexHull.cxx:ConvexHull::getExtremePoints"]}
{"id": "C67", "title": "Minimum-spanning-tree clustering partitions the hits into connected components", "statement": "Running Prim's algorithm on a list of 3D hits always ends; every hit is put in exactly one cluster, no cluster is empty, hits that find each other in the neighbour search share a cluster, and when the neighbour relation is mutual the clusters are exactly its connected components.", "quantifier": "every list of distinct hits, every neighbour relation within it, every edge weighting and every sort that sorts", "why_tests_cant": "Termination and completeness of the grouping depend on the whole neighbour graph; tests cover a handful of graphs.", "anchors": ["larreco/RecoAlg/Cluster3DAlgs/MinSpanTreeAlg_tool.cc:MinSpanTreeAlg::RunPrimsAlgorithm", "larreco/RecoAlg/Cluster3DAlgs/PathFinding/MSTPathFinder_tool.cc:MSTPathFinder::RunPrimsAlgorithm"]}
{"id": "C68", "title": "The edges stored with each cluster form a minimum spanning tree", "statement": "For every cluster the stored edges, each recorded at both of its hits, number one less than the hits, connect them all without a cycle, join only neighbours, and no other set of neighbour edges connecting the hits has a smaller total weight.", "quantifier": "every list of hits, every mutual neighbour relation, every symmetric weighting, and every competing set of edges", "why_tests_cant": "Minimality compares with all of exponentially many spanning sets.", "anchors": ["larreco/RecoAlg/Cluster3DAlgs/MinSpanTreeAlg_tool.cc:MinSpanTreeAlg::RunPrimsAlgorithm", "larreco/RecoAlg/Cluster3DAlgs/PathFinding/MSTPathFinder_tool.cc:MSTPathFinder::RunPrimsAlgorithm"]}
{"id": "C69", "title": "The best path between two isolated hits is the tree path", "statement": "For two different hits with one edge each in a cluster of more than two hits the path search ends and the stored best path runs from the first to the second over edges of the tree, visiting no hit twice; it is the only such path.", "quantifier": "every cluster produced by the algorithm and every pair of isolated hits", "why_tests_cant": "Needs all tree shapes; the recursion has no depth bound of its own.", "anchors": ["larreco/RecoAlg/Cluster3DAlgs/MinSpanTreeAlg_tool.cc:MinSpanTreeAlg::LeastCostPath", "larreco/RecoAlg/Cluster3DAlgs/MinSpanTreeAlg_tool.cc:MinSpanTreeAlg::FindBestPathInCluster", "larreco/RecoAlg/Cluster3DAlgs/PathFinding/MSTPathFinder_tool.cc:MSTPathFinder::LeastCostPath"]}
{"id": "C70", "title": "The hits of GausHitFinder do not depend on the thread schedule", "statement": "In every execution of the two nested parallel loops over wires and regions of interest, the collections saved contain exactly the hits the regions give on their own, each once and associated with its own wire; the hits of one region keep their order; produce ends, and ends normally exactly when every region does. With FilterHits the filtered hits are saved under the empty name, and all hits only if AllHitsInstanceName is set; without it all hits are saved under AllHitsInstanceName. (The order of the hits in the collection is not determined.)", "quantifier": "all numbers of wires and regions, all contents, all interleavings of the tasks", "why_tests_cant": "the number of interleavings is exponential, and a test sees one of them", "anchors": ["larreco/HitFinder/GausHitFinder_module.cc: GausHitFinder::produce"]}
{"id": "C71", "title": "A pulse that cannot be fitted is replaced by consecutive hits that cover it", "statement": "A pulse with too many candidates or too large a chi2 becomes consecutive non-empty intervals of LongPulseWidth ticks (or, if that is more than LongMaxHits, of 1/LongMaxHits of its length), one hit each, centred in its interval, with the failed chi2 or -1; together they cover the pulse from its first to its last tick.", "quantifier": "all pulse lengths, widths, maxima and samples", "why_tests_cant": "which lengths lose ticks is a matter of integer division over all lengths", "anchors": ["larreco/HitFinder/GausHitFinder_module.cc: GausHitFinder::produce (long pulse branch)"]}
{"id": "C72", "title": "Hits of one pulse are numbered and have disjoint charge windows", "statement": "The hits of a pulse are numbered 0, 1, ... and carry the number of hits of the pulse as multiplicity; the summed charge of each is that of a window inside the pulse around its peak (two sigma, cut where it meets a neighbour), and the windows of different hits do not overlap, so the hits together never have more charge than the pulse.", "quantifier": "all lists of peaks a fit can return, all samples", "why_tests_cant": "truncation, overlap and clamping depend on all positions and widths", "anchors": ["larreco/HitFinder/GausHitFinder_module.cc: GausHitFinder::produce (loop over peakParamsVec)"]}
{"id": "C73", "title": "Hit filtering keeps exactly the hits that pass the cuts", "statement": "With FilterHits, the hits of a pulse are all dropped if the highest is below the height or width cut of its plane; otherwise exactly those are kept, in time order, that have at least amplitude 8 or the given fraction of the highest, and that are above the minima of HitFilterAlg for the plane; every filtered hit is also one of the unfiltered hits.", "quantifier": "all lists of hits, all cuts", "why_tests_cant": "sort, cut at the first small hit and sort again is only equivalent to a per-hit condition for all amplitudes by proof", "anchors": ["larreco/HitFinder/GausHitFinder_module.cc: GausHitFinder::produce (filtering)", "larreco/HitFinder/HitFilterAlg.cxx: HitFilterAlg::IsGoodHit"]}
{"id": "C74", "title": "A careful history keeps hit ownership in step with the trajectories", "statement": "Starting from a slice with no trajectories, any sequence of StoreTraj, MakeTrajectoryObsolete, RestoreObsoleteTrajectory (only when the hits are free), SplitTraj and MergeAndStore calls, with arbitrary stepping marks in between, leaves every live trajectory owning exactly the hits it uses: InTraj names the trajectory, every positive InTraj names a live trajectory that uses the hit, IDs are position+1, and no hit is used by two live trajectories or twice by one.", "quantifier": "all slices, all trajectories, all finite histories of calls with any arguments, any vertex attachment and PDG decision", "why_tests_cant": "The claim ranges over all interleavings of the operations; a test exercises a few.", "anchors": ["larreco/RecoAlg/TCAlg/Utils.cxx: StoreTraj, MakeTrajectoryObsolete, RestoreObsoleteTrajectory, SplitTraj, MergeAndStore", "larreco/RecoAlg/TCAlg/DataStructs.h: TCHit::InTraj, Trajectory"]}
{"id": "C75", "title": "StoreTraj takes exactly the used hits, or nothing", "statement": "When StoreTraj returns true the slice gains one trajectory with the next ID and UID and the same points, exactly the used hits (all unowned before) become its property and no other hit changes. When it returns false for a trajectory whose hits were properly claimed no owned hit changes hands.", "quantifier": "all slices, all ordinary trajectories", "why_tests_cant": "The failure path depends on where in the point list the conflict is; only a proof covers every position.", "anchors": ["larreco/RecoAlg/TCAlg/Utils.cxx: StoreTraj, ReleaseHits, SetEndPoints"]}
{"id": "C76", "title": "SplitTraj partitions the trajectory", "statement": "A successful SplitTraj at point p leaves the points up to p in place and gives the later ones to one new trajectory: every hit used before is used by exactly one of the two and owned by it, end points are the first and last charged points, nobody else's hits move; a refused split changes nothing but possibly the muon tag.", "quantifier": "all healthy slices, trajectories, split points, vertices", "why_tests_cant": "Must hold for every split point and hit layout, including points without charge.", "anchors": ["larreco/RecoAlg/TCAlg/Utils.cxx: SplitTraj, SetEndPoints"]}
{"id": "C77", "title": "MergeAndStore replaces two trajectories by one", "statement": "A successful MergeAndStore makes both inputs obsolete and appends one trajectory whose points are one input up to its last charged point followed by a tail of the other; it owns exactly the hits it uses, the other hits of the inputs are free, nothing else changes. A refused merge moves no hit.", "quantifier": "all healthy slices, all pairs of trajectories in any order and step direction, any geometry", "why_tests_cant": "Ordering, reversal, overlap bumping and the duplicate check interact; no finite set of cases covers them.", "anchors": ["larreco/RecoAlg/TCAlg/Utils.cxx: MergeAndStore, ReverseTraj, TrajPointTrajDOCA, HasDuplicateHits", "larreco/RecoAlg/TCAlg/TCVertex.cxx: MakeVertexObsolete"]}
{"id": "C78", "title": "Obsoleting a trajectory frees exactly its hits and can be undone", "statement": "MakeTrajectoryObsolete on a live trajectory frees exactly the hits it uses and touches nothing else; RestoreObsoleteTrajectory directly afterwards gives back the identical slice.", "quantifier": "all healthy slices and live trajectories", "why_tests_cant": "An identity over all states.", "anchors": ["larreco/RecoAlg/TCAlg/Utils.cxx: MakeTrajectoryObsolete, RestoreObsoleteTrajectory"]}
{"id": "C79", "title": "The InTraj self-check", "statement": "InTrajOK returns true on every consistent slice (no false alarm) and, when it returns true, a live trajectory with at least two used and two owned hits owns all hits it uses.", "quantifier": "all slices", "why_tests_cant": "Soundness of a checker is a statement about all states it accepts.", "anchors": ["larreco/RecoAlg/TCAlg/Utils.cxx: InTrajOK"]}
{"id": "C80", "title": "Trajectory numbering survives any use", "statement": "Whatever calls are made, successful, refused or careless, a stored trajectory's ID is its position plus one, UIDs are distinct, and trajectories are never removed or renumbered.", "quantifier": "all finite histories of calls", "why_tests_cant": "Quantifies over all histories.", "anchors": ["larreco/RecoAlg/TCAlg/Utils.cxx: StoreTraj, SplitTraj, MergeAndStore"]}
{"id": "C81", "title": "Image clustering returns disjoint clusters of cells", "statement": "For every rectangular image FindClusters returns; it keeps the clusters it was given, returns the new number of clusters, and the clusters it adds are pairwise disjoint sets of cells of the image, none with fewer than MinSize cells and none empty.", "quantifier": "all images, hit maps, parameters and earlier clusters", "why_tests_cant": "Termination and disjointness must hold for every image; the out-of-range read depends on the smallest charge only.", "anchors": ["larreco/RecoAlg/BlurredClusteringAlg.cxx: FindClusters"]}
{"id": "C82", "title": "How each image cluster is built", "statement": "Each cluster starts at the highest remaining cell of charge at least MinSeed, is grown until no cell in the window above ChargeThreshold and compatible in time is left, then its holes are filled and its peninsulas removed: a cell off the border stays only if it has MinNeighbours direct neighbours in its cluster, and a hole surrounded by the cluster is filled.", "quantifier": "all images, hit maps and parameters", "why_tests_cant": "The result is a fixpoint of repeated passes; whether a pass is missing shows only on particular shapes.", "anchors": ["larreco/RecoAlg/BlurredClusteringAlg.cxx: FindClusters, NumNeighbours, PassesTimeCut"]}
{"id": "C83", "title": "With the extra steps off, image clusters are the connected regions", "statement": "With no time cut, no hole filling and MinNeighbours 0, the clusters found are exactly the connected regions of cells above ChargeThreshold (cells linked when inside the wire/tick window) that have a cell of charge at least MinSeed and at least MinSize cells, each once, highest seed first.", "quantifier": "all images and window sizes", "why_tests_cant": "Completeness and maximality of a flood fill over all shapes.", "anchors": ["larreco/RecoAlg/BlurredClusteringAlg.cxx: FindClusters"]}
{"id": "C84", "title": "The image shows the hits", "statement": "ConvertRecobHitsToVector puts every hit of the plane into the cell of its wire and integer peak time, at least 20 cells away from the array edge, with its charge.", "quantifier": "all lists of hits", "why_tests_cant": "Collisions of hits in one cell and the bounds must be considered for all lists.", "anchors": ["larreco/RecoAlg/BlurredClusteringAlg.cxx: ConvertRecobHitsToVector"]}
{"id": "C85", "title": "Clusters of a plane contain each hit at most once", "statement": "For the hits of one plane the chain image, blurring, clustering, back-conversion succeeds and returns clusters of hits of that plane in which no hit occurs twice and every cluster has at least MinSize hits; they are the real hits of the image clusters.", "quantifier": "all non-empty hit lists, blurring parameters fitting the margins, no dead wires", "why_tests_cant": "Exclusive assignment must hold for every hit list; absence of out-of-range accesses cannot be tested.", "anchors": ["larreco/RecoAlg/BlurredClusteringAlg.cxx: ConvertBinsToClusters, ConvertBinsToRecobHits, FindClusters, GaussianBlur, ConvertRecobHitsToVector", "larreco/ClusterFinder/BlurredClustering_module.cc: produce"]}
{"id": "C86", "title": "Blurring is a convolution with the kernel", "statement": "GaussianBlur returns an image of the same size in which each cell is the sum over all hits of the kernel weight for the (wire, tick) offset times the charge of the hit, without reading outside its arrays, whatever wires are dead.", "quantifier": "all images, kernels, blurring radii and dead-wire lists", "why_tests_cant": "Index arithmetic over all offsets and dead-wire patterns.", "anchors": ["larreco/RecoAlg/BlurredClusteringAlg.cxx: GaussianBlur, DeadWireCount"]}
{"id": "C87", "title": "Merging joins whole clusters into closed groups", "statement": "MergeClusters returns clusters that together hold every hit of its input clusters exactly once: each is a union of whole input clusters, begun with the largest one left and grown while some remaining cluster is within MaxMergeSeparation and passes the cuts; none is empty.", "quantifier": "all lists of clusters, all outcomes of the alignment cuts", "why_tests_cant": "Repeated passes over a changing set; termination and completeness for all lists.", "anchors": ["larreco/RecoAlg/MergeClusterAlg.cxx: MergeClusters, FindMinSeparation"]}
{"id": "C88", "title": "BlurredClustering writes disjoint clusters, plane by plane", "statement": "The module succeeds and writes clusters numbered 0, 1, 2, ... in plane order, each non-empty, with hits of one plane and TPC only, of the required size, no hit in two clusters; the clusters of a plane depend only on its own hits.", "quantifier": "all hit collections and set-ups without dead wires", "why_tests_cant": "Exclusive assignment and numbering for every event.", "anchors": ["larreco/ClusterFinder/BlurredClustering_module.cc: produce", "larreco/RecoAlg/MergeClusterAlg.cxx: MergeClusters", "larreco/RecoAlg/BlurredClusteringAlg.cxx"]}
{"id": "C89", "title": "Vertex associations stay consistent", "statement": "After any sequence of calls that create, attach, store, search, score, check or kill TrajCluster vertices, every live trajectory end refers to a live 2D vertex of its plane or to none, 2D and 3D vertices refer to each other mutually, and halo trajectories have no vertices. StoreVertex restores this in both outcomes. AttachTrajToVertex returns true exactly when the trajectory is attached.", "quantifier": "all histories of the public vertex operations, all geometrical verdicts", "why_tests_cant": "An invariant over unbounded histories of many operations.", "anchors": ["larreco/RecoAlg/TCAlg/TCVertex.cxx: StoreVertex, AttachTrajToVertex, AttachAnyTrajToVertex, Find2DVertices, Find3DVertices, MakeVertexObsolete, KillPoorVertices, ScoreVertices, ChkVtxAssociations", "larreco/RecoAlg/TCAlg/TCShower.cxx: KillVerticesInShower"]}
{"id": "C90", "title": "ChkVtxAssociations accepts exactly the consistent associations", "statement": "It passes on consistent associations without changing them; what passes is consistent; a failing call repairs the trajectory ends that refer to no vertex.", "quantifier": "all slices, consistent or not", "why_tests_cant": "A checker has to be right on all states.", "anchors": ["larreco/RecoAlg/TCAlg/TCVertex.cxx: ChkVtxAssociations"]}
{"id": "C91", "title": "Killing vertices removes exactly the right ones and every reference to them", "statement": "MakeVertexObsolete, KillPoorVertices and KillVerticesInShower make obsolete exactly the vertices they are defined to remove, clear all references to them and touch nothing else; a 3D vertex left with fewer than two 2D vertices goes as well, PFParticles never refer to an obsolete 3D vertex, and high-score flags stay right.", "quantifier": "all consistent slices, all vertices", "why_tests_cant": "Exact effect on every slice, including chains of removals.", "anchors": ["larreco/RecoAlg/TCAlg/TCVertex.cxx: MakeVertexObsolete (both), KillPoorVertices", "larreco/RecoAlg/TCAlg/TCShower.cxx: KillVerticesInShower"]}
{"id": "C92", "title": "Find3DVertices selects the best matches, three planes first", "statement": "The new 3D vertices are matches of 2D vertices, no 2D vertex is used twice, every rejected match loses against a selected one of at least the same quality with which it shares a 2D vertex, three-plane matches go before two-plane ones, associations are mutual and high-score flags right; it works in detectors with two planes and can be called again.", "quantifier": "all consistent slices, all match verdicts, all sorting orders", "why_tests_cant": "Optimality of a greedy selection over every candidate list.", "anchors": ["larreco/RecoAlg/TCAlg/TCVertex.cxx: Find3DVertices, SetVx3Score"]}
{"id": "C93", "title": "High-score flags follow the connected components", "statement": "After ScoreVertices a 2D vertex that has a trajectory is flagged exactly when a chain of trajectories leads to it from a 2D vertex of a 3D vertex with a score above the cut; a trajectory is flagged exactly when it has a flagged vertex; 3D scores are the average over the planes, at least 0.001.", "quantifier": "all consistent slices and 2D scores", "why_tests_cant": "Termination and exactness of a graph propagation for all graphs.", "anchors": ["larreco/RecoAlg/TCAlg/TCVertex.cxx: ScoreVertices, SetHighScoreBits, SetVx3Score"]}
{"id": "C94", "title": "Close 2D vertices are clustered correctly", "statement": "Reconcile2Vs puts every close pair of 2D vertices of a plane in a common cluster; clusters hold distinct, connected vertices and are disjoint; reconciling a cluster never reads outside the data.", "quantifier": "all consistent slices, all closeness verdicts", "why_tests_cant": "Transitive closure over arbitrary graphs.", "anchors": ["larreco/RecoAlg/TCAlg/TCVertex.cxx: Reconcile2Vs, Reconcile2VTs"]}
{"id": "C95", "title": "Searching and merging 2D vertices", "statement": "Find2DVertices never fails, creates only 2D vertices of the plane with the next identifiers, attaches both trajectory ends, and keeps associations consistent; a candidate whose fit fails leaves no trace; MergeWithVertex moves trajectories from the new to the existing vertex or changes nothing; every new vertex has trajectories and no trajectory has one vertex at both ends.", "quantifier": "all consistent slices, all geometrical verdicts", "why_tests_cant": "Nested loops over trajectories whose ends change on the way.", "anchors": ["larreco/RecoAlg/TCAlg/TCVertex.cxx: Find2DVertices, MergeWithVertex, StoreVertex, AttachAnyTrajToVertex"]}
{"id": "C96", "title": "ClusterCrawler keeps hits and clusters consistent", "statement": "After any sequence of storing, obsoleting, splitting, merging, overlap merging, extending, shortening and killing clusters and of merging free hits, every hit of a cluster in use carries its number and every positive number is that of a cluster in use containing the hit; clusters have two or more different hits of one plane; no hit is in two clusters.", "quantifier": "all hit collections, all histories of the cluster operations in which a direct TmpStore succeeds", "why_tests_cant": "An invariant over unbounded histories.", "anchors": ["larreco/RecoAlg/ClusterCrawlerAlg.cxx: TmpStore, MakeClusterObsolete, SplitCluster, DoMerge, MergeOverlap, ChkClusterDS, VtxClusterSplit, KillGarbageClusters, MergeHits"]}
{"id": "C97", "title": "Storing a cluster is exact, a refusal leaves no trace, obsolete/restore is an identity", "statement": "TmpStore answers true exactly for two or more different free hits of one plane going upstream and appends exactly one cluster with them; when it answers false nothing has changed; restoring a cluster just made obsolete gives the state before.", "quantifier": "all consistent states, all hit lists", "why_tests_cant": "Exact effect and atomicity on every state and list.", "anchors": ["larreco/RecoAlg/ClusterCrawlerAlg.cxx: TmpStore, MakeClusterObsolete, RestoreObsoleteCluster"]}
{"id": "C98", "title": "Splitting a cluster keeps its hits", "statement": "SplitCluster replaces a cluster by its two pieces with the vertex between them; when it answers true all hits are in the pieces, when it answers false the clusters are as before.", "quantifier": "all consistent states, clusters and positions", "why_tests_cant": "Every boundary position and cluster length, including failing paths.", "anchors": ["larreco/RecoAlg/ClusterCrawlerAlg.cxx: SplitCluster"]}
{"id": "C99", "title": "Merging clusters", "statement": "DoMerge and MergeOverlap replace two clusters by one that goes upstream and has the hits of both (one per wire) and the vertices at their outer ends; a failing merge changes nothing; extending and shortening a cluster replace it by one with exactly the right hits and vertices.", "quantifier": "all consistent states, all pairs of clusters in use, all fit verdicts", "why_tests_cant": "Exact content for arbitrary overlapping hit lists.", "anchors": ["larreco/RecoAlg/ClusterCrawlerAlg.cxx: DoMerge, MergeOverlap, ChkClusterDS, VtxClusterSplit"]}
{"id": "C100", "title": "CheckHitClusterAssociations reports nothing exactly on consistent states", "statement": "The check is silent if and only if inClus and the clusters in use agree.", "quantifier": "all states with numbered clusters", "why_tests_cant": "A checker has to be right on all states.", "anchors": ["larreco/RecoAlg/ClusterCrawlerAlg.cxx: CheckHitClusterAssociations"]}
{"id": "C101", "title": "Removing obsolete hits and writing the event", "statement": "RemoveObsoleteHits keeps exactly the hits not obsolete, in order, and the clusters in use still hold the same hits; produce writes all hits and all clusters in use, their hits exist, lie in their plane and no hit is written in two clusters; it writes nothing exactly when the book-keeping is wrong.", "quantifier": "all consistent states; all histories", "why_tests_cant": "In-place compaction with index rewriting for arbitrary patterns of obsolete hits.", "anchors": ["larreco/RecoAlg/ClusterCrawlerAlg.cxx: RemoveObsoleteHits", "larreco/ClusterFinder/ClusterCrawler_module.cc: ClusterCrawler::produce"]}
{"id": "C102", "title": "EM showers: the cluster-track maps are exact", "statement": "AssociateClustersAndTracks succeeds exactly when every cluster and hit has an association entry (else it throws out_of_range); the two maps are then inverse to each other and hold exactly the pairs of a cluster not ignored and a long enough track sharing a hit that belongs to that track only, without repetition or empty entries.", "quantifier": "all lists of clusters, all hit and track associations, track lengths and lists of ignored clusters", "why_tests_cant": "Exact relation over arbitrary associations.", "anchors": ["larreco/RecoAlg/EMShowerAlg.cxx: EMShowerAlg::AssociateClustersAndTracks"]}
{"id": "C103", "title": "EM showers: showers are the connected groups of clusters", "statement": "FindShowers puts the clusters of each track together in one shower; no cluster is in two showers; clusters connected through tracks are in the same shower and only those.", "quantifier": "all maps from tracks to clusters", "why_tests_cant": "Connected components over arbitrary graphs and track orders.", "anchors": ["larreco/RecoAlg/EMShowerAlg.cxx: EMShowerAlg::FindShowers"]}
{"id": "C104", "title": "EM showers: bad planes", "statement": "CheckShowerPlanes returns exactly the clusters of the plane (of three or more) whose mean cluster fraction is at least the quadrature sum of those of the other planes, in every shower.", "quantifier": "all showers, clusters, planes and hits", "why_tests_cant": "Exact decision for all hit distributions.", "anchors": ["larreco/RecoAlg/EMShowerAlg.cxx: EMShowerAlg::CheckShowerPlanes"]}
{"id": "C105", "title": "EM showers: hits are ordered along the shower", "statement": "FindOrderOfHits_ returns all hits, in increasing position along (or across) the fitted line, whenever the line is defined.", "quantifier": "all lists of hits with any positions and charges", "why_tests_cant": "Coincident positions are lost in a map; needs all inputs.", "anchors": ["larreco/RecoAlg/EMShowerAlg.cxx: EMShowerAlg::FindOrderOfHits_, EMShowerAlg::ShowerCenter_, EMShowerAlg::ShowerDirection_"]}
{"id": "C106", "title": "EM showers: isolated hits at the start go to the end", "statement": "CheckIsolatedHits_ moves the one or two first hits of the plane that alone starts in another TPC to the end, when the rest of the plane and the other planes agree on the other TPC, and otherwise changes nothing.", "quantifier": "all maps of hits by plane", "why_tests_cant": "Iterator arithmetic during erase for all lists.", "anchors": ["larreco/RecoAlg/EMShowerAlg.cxx: EMShowerAlg::CheckIsolatedHits_"]}
{"id": "C107", "title": "EM showers: OrderShowerHits keeps planes and hits and finds a consistent orientation", "statement": "The result has exactly the planes of the hits, each with its own hits and none twice; the starts of the planes agree whenever some choice of directions makes them agree.", "quantifier": "all hits, all verdicts of the geometry, all configurations", "why_tests_cant": "The search over permutations must be complete for all hit patterns.", "anchors": ["larreco/RecoAlg/EMShowerAlg.cxx: EMShowerAlg::OrderShowerHits, EMShowerAlg::GetPlanePermutations_, EMShowerAlg::RelativeWireWidth_, EMShowerAlg::CheckShowerHits_"]}
{"id": "C108", "title": "EM showers: the hits at the start of the shower", "statement": "FindShowerStart_ returns hits of the plane, at least one, in order and none twice, each alone on its wire (or clear in time), none alone in its TPC.", "quantifier": "all non-empty lists of hits of a plane", "why_tests_cant": "All wire patterns and list lengths.", "anchors": ["larreco/RecoAlg/EMShowerAlg.cxx: EMShowerAlg::FindShowerStart_"]}
{"id": "C109", "title": "EM showers: space points", "statement": "MakeSpacePoints makes each point from hits of different planes in one TPC that match; no hit is in two points; no matching pair is left with both hits unused.", "quantifier": "all maps of hits by plane, all verdicts of the geometry", "why_tests_cant": "Greedy matching over arbitrary relations.", "anchors": ["larreco/RecoAlg/EMShowerAlg.cxx: EMShowerAlg::MakeSpacePoints"]}
{"id": "C110", "title": "EMShower writes each shower with its clusters, hits, tracks and points", "statement": "produce writes the showers found (all or the complete ones), each with its own id, clusters, hits, tracks and space points, and each space point with its own hits; a shower number can be selected.", "quantifier": "all events without PFParticles, all configurations", "why_tests_cant": "Index arithmetic across showers for arbitrary events.", "anchors": ["larreco/ShowerFinder/EMShower_module.cc: EMShower::produce"]}
{"id": "C111", "title": "EM showers: the planes with most hits, clean showers", "statement": "isCleanShower is true exactly for fewer than 20 or more than 2000 hits or 13 different wires among hits 2 to 19; MakeShower uses the two planes with most hits and the best plane is the first with most hits.", "quantifier": "all lists of hits and hit counts", "why_tests_cant": "All counts including ties.", "anchors": ["larreco/RecoAlg/EMShowerAlg.cxx: EMShowerAlg::isCleanShower, EMShowerAlg::MakeShower"]}
{"id": "C112", "title": "Two-dimensional DBSCAN, method 0, is exact", "statement": "run_cluster with method 0 ends; core points (minPts others near) are in one cluster exactly when joined by core points each near the next; other points are in the cluster of a core point near them, the first in reach, and in none otherwise; clusters are numbered 0.. in the order of their first core points and list exactly their points.", "quantifier": "all lists of hits at wires >= 0, all positive pitches and ellipse sizes, all minPts, all lists of dead wires", "why_tests_cant": "Transitive reachability over every set of points and every order.", "anchors": ["larreco/RecoAlg/DBScanAlg.cxx: DBScanAlg::run_FN_naive_cluster, DBScanAlg::run_cluster, DBScanAlg::findNeighbors"]}
{"id": "C113", "title": "Neighbours: ellipse with dead wires bridged", "statement": "The neighbours of a hit are exactly the other hits in the ellipse around it after the dead wires between the two have been taken off the line joining them; being neighbours is symmetric.", "quantifier": "all hits, all sets of dead wires of the plane, all ellipse sizes", "why_tests_cant": "Exact relation over rationals and wire sets, for every plane.", "anchors": ["larreco/RecoAlg/DBScanAlg.cxx: DBScanAlg::getSimilarity, DBScanAlg::getSimilarity2, DBScanAlg::getWidthFactor, DBScanAlg::computeSimilarity, DBScanAlg::findNeighbors"]}
{"id": "C114", "title": "Two-dimensional DBSCAN with the R*-tree agrees with the plain one", "statement": "Methods 1 and 2 (region queries on an R*-tree) end without undefined behaviour, find every near hit, and give the same clusters as each other.", "quantifier": "all lists of hits, all R*-trees holding them, all thresholds", "why_tests_cant": "All tree shapes and all points.", "anchors": ["larreco/RecoAlg/DBScanAlg.cxx: AcceptFindNeighbors, DBScanAlg::RegionQuery, DBScanAlg::RegionQuery_vector, DBScanAlg::ExpandCluster, DBScanAlg::run_dbscan_cluster, DBScanAlg::run_FN_cluster"]}
{"id": "C115", "title": "DBcluster writes the clusters of each plane", "statement": "produce writes exactly the non-empty clusters found, plane by plane in the order of the planes, with ids 0, 1, ...; each holds the hits of its label in hit order; no hit is in two clusters; unlabelled hits are in none.", "quantifier": "all events, all results of the clustering", "why_tests_cant": "Index arithmetic over arbitrary hits and planes.", "anchors": ["larreco/ClusterFinder/DBcluster_module.cc: DBcluster::produce"]}
{"id": "C116", "title": "Space points: hit compatibility", "statement": "compatible accepts a collection of hits of different planes exactly when every two have different views, the same TPC and times within MaxDT, and, for three hits, the spatial separation that separation() returns is within MaxS; the answer does not depend on the order of the hits.", "quantifier": "all lists of hits of straight wires of different planes, all cuts", "why_tests_cant": "Exact relation over rational times and wire coordinates, every geometry and order.", "anchors": ["larreco/RecoAlg/SpacePointAlg.cxx: SpacePointAlg::compatible, SpacePointAlg::separation"]}
{"id": "C117", "title": "Space points: time offsets", "statement": "The per-plane time offsets are subtracted from hit times before comparing times in different planes and before converting time to distance, as the header documents.", "quantifier": "all offsets, all pairs of hits", "why_tests_cant": "All offsets and times.", "anchors": ["larreco/RecoAlg/SpacePointAlg.cxx: SpacePointAlg::correctedTime, SpacePointAlg::compatible, SpacePointAlg::fillSpacePoint", "larreco/RecoAlg/SpacePointAlg.h: TickOffset"]}
{"id": "C118", "title": "Space points: the fitted position", "statement": "fillSpacePoint appends one point whose x, y, z minimise the weighted squared distance to the hits (x by inverse variance, y-z to the wires by unit weights), with the variances and chisquare of that fit, and records exactly its hits; fillComplexSpacePoint does the same with weights 1/n^3 for the hits of a plane that has n of them.", "quantifier": "all collections of hits whose wires determine y and z", "why_tests_cant": "Optimality over the whole plane.", "anchors": ["larreco/RecoAlg/SpacePointAlg.cxx: SpacePointAlg::fillSpacePoint, SpacePointAlg::fillComplexSpacePoint"]}
{"id": "C119", "title": "Space points of a track", "statement": "fillSpacePoints groups the hits of a track in maximal runs of neighbouring compatible hits, each point made of one run, in order, each hit in exactly one run, with ids continuing the map and the hits retrievable.", "quantifier": "all tracks, all starting maps", "why_tests_cant": "Arbitrary sequences of planes.", "anchors": ["larreco/RecoAlg/SpacePointAlg.cxx: SpacePointAlg::fillSpacePoints"]}
{"id": "C120", "title": "Each combination once", "statement": "makeSpacePoints, without filter and merge, returns one point per compatible combination of hits.", "quantifier": "all events, all detectors of any number of cryostats, TPCs and planes", "why_tests_cant": "Combinatorial over all hits and TPCs.", "anchors": ["larreco/RecoAlg/SpacePointAlg.cxx: SpacePointAlg::makeSpacePoints"]}
{"id": "C121", "title": "Filter: one point per wire of the most populated plane", "statement": "With the filter on, of the points sharing a hit of the last plane exactly one of least chisquare is returned.", "quantifier": "all events, all detectors", "why_tests_cant": "Minimality among all combinations.", "anchors": ["larreco/RecoAlg/SpacePointAlg.cxx: SpacePointAlg::makeSpacePoints"]}
{"id": "C122", "title": "Merge: one point per hit of the most populated plane", "statement": "With merging on, the combinations sharing a hit of the last plane are returned as one point associated with the union of their hits.", "quantifier": "all events, all detectors", "why_tests_cant": "Union over all combinations.", "anchors": ["larreco/RecoAlg/SpacePointAlg.cxx: SpacePointAlg::makeSpacePoints, SpacePointAlg::fillComplexSpacePoint"]}
{"id": "C123", "title": "Making space points does not throw", "statement": "makeSpacePoints ends without an exception on any hits of the detector.", "quantifier": "all events, all detectors, all settings of MinViews", "why_tests_cant": "All hit patterns over several TPCs.", "anchors": ["larreco/RecoAlg/SpacePointAlg.cxx: SpacePointAlg::makeSpacePoints"]}
{"id": "C124", "title": "Every compatible combination is found", "statement": "Two (MinViews 2) or three compatible hits on crossing wires make a space point; hits on wires that come nowhere near each other do not.", "quantifier": "all events, all regular geometries", "why_tests_cant": "Exhaustive search limited by computed wire ranges: for every geometry.", "anchors": ["larreco/RecoAlg/SpacePointAlg.cxx: SpacePointAlg::makeSpacePoints"]}
{"id": "C125", "title": "The hits of a space point", "statement": "Each returned point has MinViews..3 compatible hits of the input, of enabled views, of one TPC and of different planes, that getAssociatedHits returns, ordered by how many hits their planes have, collection last with PreferColl.", "quantifier": "all events, all detectors, all settings without merging", "why_tests_cant": "Invariant over the whole map for every input.", "anchors": ["larreco/RecoAlg/SpacePointAlg.cxx: SpacePointAlg::makeSpacePoints, SpacePointAlg::getAssociatedHits"]}
{"id": "C126", "title": "Track stitching: composites", "statement": "FindHeadsAndTails, WalkStitch and CommonComponentStitch always end without an exception and give one stitched track per composite, with distinct ids from the starting one; the points of a stitched track are those of its components, each forwards or backwards, one after the other; a composite is a nonempty set of input tracks linked by matches within the tolerances; a single component keeps its points in order; with CommonComponentStitch no input track is in two composites, without it every input track is in one.", "quantifier": "all events of tracks with at least one point, all tolerances", "why_tests_cant": "Arbitrary numbers of tracks and matches; termination of three while loops.", "anchors": ["larreco/RecoAlg/StitchAlg.cxx: StitchAlg::FindHeadsAndTails, StitchAlg::WalkStitch, StitchAlg::FirstStitch, StitchAlg::CommonComponentStitch", "larreco/TrackFinder/TrackStitcher_module.cc: TrackStitcher::produce"]}
{"id": "C127", "title": "Track stitching: no jumps", "statement": "Consecutive components of a stitched track are joined at ends within the tolerances.", "quantifier": "all events of tracks with at least one point, all tolerances", "why_tests_cant": "Depends on every match, every orientation and every merge.", "anchors": ["larreco/RecoAlg/StitchAlg.cxx: StitchAlg::FindHeadsAndTails, StitchAlg::FirstStitch, StitchAlg::CommonComponentStitch"]}
{"id": "C128", "title": "Track stitching: an end has one partner", "statement": "No two track ends are matched with the same end of a third track.", "quantifier": "all events, all tolerances", "why_tests_cant": "Competing claims in every order of tracks.", "anchors": ["larreco/RecoAlg/StitchAlg.cxx: StitchAlg::FindHeadsAndTails"]}
{"id": "C129", "title": "Track stitching: no track twice in a composite", "statement": "A stitched track contains each of its components once.", "quantifier": "all events, all tolerances", "why_tests_cant": "Walks over arbitrary match graphs.", "anchors": ["larreco/RecoAlg/StitchAlg.cxx: StitchAlg::WalkStitch"]}
{"id": "C130", "title": "Track stitching: merging composites loses no track", "statement": "Merging composites that have a track in common keeps every input track in some stitched track.", "quantifier": "all events, all tolerances, every sequence of merges", "why_tests_cant": "All histories of merges.", "anchors": ["larreco/RecoAlg/StitchAlg.cxx: StitchAlg::CommonComponentStitch"]}
{"id": "C131", "title": "Track stitching: associations", "statement": "Each stitched track is associated with exactly the hits and space points of its components in order, and each such space point found in the event with its hits, whichever way the space points are stored.", "quantifier": "all events, both layouts of the space point collection", "why_tests_cant": "Any number of tracks, hits and points.", "anchors": ["larreco/TrackFinder/TrackStitcher_module.cc: TrackStitcher::produce, TrackStitcher::GetHitsFromComponentTracks, TrackStitcher::GetSpacePointsFromComponentTracks"]}
{"id": "C132", "title": "Line merging: every cluster in one output", "statement": "Every input cluster of the views U, V and Z, with all its hits, is in exactly one output cluster; the outputs have distinct ids of input clusters, the view of their members and the largest width of a member.", "quantifier": "all events of valid clusters, all tolerances, any angle function", "why_tests_cant": "Arbitrary numbers of clusters, each of which may be merged at any point of the scan.", "anchors": ["larreco/ClusterFinder/LineMerger_module.cc: LineMerger::produce, ClusterMerger::Add, ClusterAndHitMerger::Add"]}
{"id": "C133", "title": "Line merging: extent of an output", "statement": "A merged cluster starts at the start of its member with the least start wire and ends at the end of its member with the greatest end wire.", "quantifier": "all events of valid clusters, all tolerances", "why_tests_cant": "Every set of members in every order.", "anchors": ["larreco/ClusterFinder/LineMerger_module.cc: ClusterMerger::Add, ClusterMerger::AdoptEnd"]}
{"id": "C134", "title": "Line merging: order of hits", "statement": "In a merged cluster the hits of a cluster that starts where another ends come after the hits of the other.", "quantifier": "all pairs of clusters in line", "why_tests_cant": "All geometries of the pair.", "anchors": ["larreco/ClusterFinder/LineMerger_module.cc: LineMerger::EndpointCompatibility, ClusterAndHitMerger::AddHits, LineMerger::produce"]}
{"id": "C135", "title": "Line merging: what is merged", "statement": "A cluster joins an output only when it continues the line of the output within the tolerances, and no two outputs of a view continue each other.", "quantifier": "all events of valid clusters, all tolerances", "why_tests_cant": "Depends on every order of the clusters.", "anchors": ["larreco/ClusterFinder/LineMerger_module.cc: LineMerger::produce, LineMerger::SlopeCompatibility, LineMerger::EndpointCompatibility"]}
{"id": "C136", "title": "Small clusters: a partition", "statement": "FindSmallClusters ends and on each plane divides the hits of the event: those with NHitsInClust hits or more (itself included) within RadiusSizePar are the leftovers, in event order; every other hit is in exactly one small cluster. Earlier events do not matter.", "quantifier": "all events of distinct hits on planes of the detector, all positive radii, all thresholds and scales, any previous state of the object", "why_tests_cant": "Arbitrary numbers of hits and any history.", "anchors": ["larreco/RecoAlg/SmallClusterFinderAlg.cxx: SmallClusterFinderAlg::FindSmallClusters, SmallClusterFinderAlg::CreateHighHitlist, SmallClusterFinderAlg::SelectLocalHitlist"]}
{"id": "C137", "title": "Small clusters: shape and separation", "statement": "Each small cluster is made of the hits within the radius of its first hit, has fewer than NHitsInClust hits, and is farther than RadiusSizePar from any other hit.", "quantifier": "as C136", "why_tests_cant": "Every arrangement of hits.", "anchors": ["larreco/RecoAlg/SmallClusterFinderAlg.cxx: SmallClusterFinderAlg::FindSmallClusters, SmallClusterFinderAlg::SelectLocalHitlist"]}
{"id": "C138", "title": "Small clusters: the call ends", "statement": "FindSmallClusters ends for every configuration and event.", "quantifier": "all configurations and events", "why_tests_cant": "Termination of the splitting loop.", "anchors": ["larreco/RecoAlg/SmallClusterFinderAlg.cxx: SmallClusterFinderAlg::FindSmallClusters"]}
{"id": "C139", "title": "Small clusters: products", "statement": "The module puts in every event clusters that hold each hit once, with distinct ids 100 p for the leftovers of plane p and 100 p + k for its small clusters, and the plane of their hits.", "quantifier": "all events", "why_tests_cant": "Any number of clusters per plane, including none.", "anchors": ["larreco/ClusterFinder/SmallClusterFinder_module.cc: SmallClusterFinder::produce"]}
{"id": "C140", "title": "Small clusters: independence", "statement": "The result for a plane of a TPC depends on the hits of that plane of that TPC only.", "quantifier": "all pairs of events that agree there, all histories", "why_tests_cant": "Relates arbitrary events.", "anchors": ["larreco/RecoAlg/SmallClusterFinderAlg.cxx: SmallClusterFinderAlg::FindSmallClusters, SmallClusterFinderAlg::GetPlaneAndTPC"]}
{"id": "C141", "title": "Gnocchi calorimetry: organising hits", "statement": "For each plane the organised hits are the hits of that plane with a valid trajectory point, each exactly once; per hit in input order with the charge methods 0 and 1, otherwise grouped by wire number, start and end tick. The call is undefined exactly when a hit with a valid point is on a plane the detector does not have.", "quantifier": "all lists of hits, tracks and configurations", "why_tests_cant": "Arbitrary numbers of hits and snippets.", "anchors": ["larreco/Calorimetry/GnocchiCalorimetry_module.cc: GnocchiCalorimetry::OrganizeHits, GnocchiCalorimetry::OrganizeHitsIndividual, GnocchiCalorimetry::OrganizeHitsSnippets, GnocchiCalorimetry::HitIsValid"]}
{"id": "C142", "title": "Gnocchi calorimetry: the hit that stands for a snippet", "statement": "The hit that stands for a snippet is the one with the largest integral, the first of them on a tie; snippets come in the order of their first hits.", "quantifier": "as C141, charge methods from 2 on", "why_tests_cant": "Every order and every pattern of ties.", "anchors": ["larreco/Calorimetry/GnocchiCalorimetry_module.cc: GnocchiCalorimetry::OrganizeHitsSnippets"]}
{"id": "C143", "title": "Gnocchi calorimetry: points and charge", "statement": "The object of a track and plane has one point per hit or per snippet, with the key, location, field and angle of the hit that stands there, the charge of the configured method (for the summed integrals: of all valid hits of the snippet) over the pitch and normalised by the tools in turn, and the energy from it; the kinetic energy is the sum of energy times pitch; fewer than two points give the bogus object.", "quantifier": "all events for which the module returns", "why_tests_cant": "Any numbers of tracks, hits and tools.", "anchors": ["larreco/Calorimetry/GnocchiCalorimetry_module.cc: GnocchiCalorimetry::produce, GnocchiCalorimetry::GetCharge, GnocchiCalorimetry::Normalize, GnocchiCalorimetry::GetLocation, GnocchiCalorimetry::GetEfield"]}
{"id": "C144", "title": "Gnocchi calorimetry: hits of different TPCs", "statement": "Hits of different TPCs never share a point.", "quantifier": "all events", "why_tests_cant": "Every arrangement of hits.", "anchors": ["larreco/Calorimetry/GnocchiCalorimetry_module.cc: GnocchiCalorimetry::OrganizeHitsSnippets"]}
{"id": "C145", "title": "Gnocchi calorimetry: residual ranges", "statement": "Residual ranges are the path along the points to the end of the track, half of the last step at the last point, and never exceed the range, which is the length of the path.", "quantifier": "all events", "why_tests_cant": "Any number of points, any geometry.", "anchors": ["larreco/Calorimetry/GnocchiCalorimetry_module.cc: GnocchiCalorimetry::produce"]}
{"id": "C146", "title": "Gnocchi calorimetry: order of the hits", "statement": "Listing the hits of a track in the opposite order reverses the vectors of its objects, residual ranges included, and changes nothing else.", "quantifier": "all events, charge methods 0 and 1", "why_tests_cant": "Relates two runs on arbitrary events.", "anchors": ["larreco/Calorimetry/GnocchiCalorimetry_module.cc: GnocchiCalorimetry::produce"]}
{"id": "C147", "title": "Gnocchi calorimetry: products", "statement": "The module makes one object per track and plane of the readout, in that order, each associated with its track; it throws when a PFParticle label is set and a track has no PFParticle, and otherwise fails only for hits outside the detector.", "quantifier": "all events", "why_tests_cant": "Any numbers of tracks and planes.", "anchors": ["larreco/Calorimetry/GnocchiCalorimetry_module.cc: GnocchiCalorimetry::produce"]}
{"id": "C148", "title": "Gnocchi calorimetry: pitch", "statement": "Without field distortions the pitch of a point is the wire pitch over the cosine of the angle to the wires, and so at least the wire pitch.", "quantifier": "all events without distortions", "why_tests_cant": "All directions.", "anchors": ["larreco/Calorimetry/GnocchiCalorimetry_module.cc: GnocchiCalorimetry::GetPitch"]}
{"id": "C149", "title": "Simple clustering: a partition", "statement": "SimpleClustering ends on every list of hits and puts each hit into exactly one cluster; no cluster is empty.", "quantifier": "all lists of hits", "why_tests_cant": "Arbitrary numbers and arrangements of hits.", "anchors": ["larreco/ClusterFinder/TrackShowerSplitter/Segmentation2D/SimpleClustering.cxx: SimpleClustering::run, SimpleClustering::merge"]}
{"id": "C150", "title": "Simple clustering: connected components", "statement": "Two hits are in one cluster exactly when a chain of touching hits leads from one to the other (same or neighbouring wires, tick ranges overlapping or following each other); hence the clusters do not depend on the order of the hits.", "quantifier": "all lists of hits", "why_tests_cant": "Arbitrary chains; relates runs on all orders.", "anchors": ["larreco/ClusterFinder/TrackShowerSplitter/Segmentation2D/SimpleClustering.cxx: SimpleClustering::hitsTouching, SimpleClustering::run"]}
{"id": "C151", "title": "Segmentation2D: keeps the hits", "statement": "Segmentation2D::run puts every hit of the cluster into exactly one segment; no segment is empty.", "quantifier": "all clusters of distinct hits, all configurations with non-zero widths", "why_tests_cant": "Arbitrary numbers of hits and any tie-breaking of the sort.", "anchors": ["larreco/ClusterFinder/TrackShowerSplitter/Segmentation2D/Segmentation2D.cxx: Segmentation2D::run, Segmentation2D::buildSegment, Segmentation2D::mergeDenseParts"]}
{"id": "C152", "title": "Segmentation2D: ends", "statement": "Segmentation2D::run ends and never accesses a hit out of range.", "quantifier": "all clusters and configurations", "why_tests_cant": "Termination for every input.", "anchors": ["larreco/ClusterFinder/TrackShowerSplitter/Segmentation2D/Segmentation2D.cxx: Segmentation2D::run, Segmentation2D::mergeDenseParts"]}
{"id": "C153", "title": "Segmentation2D: dense vertices", "statement": "An end of a segment is tagged dense exactly when an end of another segment is within the vertex radius; in the result no track-like cluster has more than DenseMinNVtx ends of track-like clusters around its first or last hit.", "quantifier": "all runs", "why_tests_cant": "Arbitrary numbers of segments.", "anchors": ["larreco/ClusterFinder/TrackShowerSplitter/Segmentation2D/Segmentation2D.cxx: Segmentation2D::tagDenseEnds, Segmentation2D::mergeDenseParts"]}
{"id": "C154", "title": "Segmentation2D: EM clusters", "statement": "A segment with a dense vertex becomes EM, and the segments of one EM cluster meet in one vertex.", "quantifier": "all runs", "why_tests_cant": "Arbitrary numbers of segments.", "anchors": ["larreco/ClusterFinder/TrackShowerSplitter/Segmentation2D/Segmentation2D.cxx: Segmentation2D::mergeDenseParts, Segmentation2D::mergeClusters"]}
{"id": "C155", "title": "Segmentation2D: splitting of hits", "statement": "splitHits sends the hits of EM clusters to the EM hits and all others to the track hits, in order; splitHitsNaive sends a hit to the EM hits exactly when more than DenseMinNHits other hits are within the dense radius; for many clusters the hits of all of them count.", "quantifier": "all clusters and configurations", "why_tests_cant": "Arbitrary numbers of hits.", "anchors": ["larreco/ClusterFinder/TrackShowerSplitter/Segmentation2D/Segmentation2D.cxx: Segmentation2D::splitHits, Segmentation2D::splitHitsNaive"]}
{"id": "C156", "title": "TrackShowerHits: what is written", "statement": "The module ends; the clusters it writes are numbered from 0x10000 without gaps, none is empty, each lies in one plane of one TPC and carries its view, and no hit is in two. With FindHugeShowers alone two hits are written into one cluster exactly when chains of touching hits of their plane connect them and each has more than DenseMinNHits hits so connected within the dense radius; with both searches off nothing is written.", "quantifier": "all events, geometries and configurations with non-zero widths", "why_tests_cant": "Arbitrary events.", "anchors": ["larreco/ClusterFinder/TrackShowerSplitter/TrackShowerHits_module.cc: TrackShowerHits::produce, TrackShowerHits::sortHits"]}
{"id": "C157", "title": "Segmentation2D: linear segments", "statement": "Every track-like cluster of the result is one linear segment: within MaxLineDist of a straight line, each hit touching an earlier one, ordered outward from the first; every other cluster is a sequence of whole segments.", "quantifier": "all runs on hits off wire 0", "why_tests_cant": "Arbitrary numbers of hits.", "anchors": ["larreco/ClusterFinder/TrackShowerSplitter/Segmentation2D/Segmentation2D.cxx: Segmentation2D::buildSegment, Segmentation2D::run"]}
{"id": "C158", "title": "Polygon2D: area", "statement": "Area() is the absolute value of the signed area of the polygon, seen from any point; it does not depend on the vertex the list starts with, on the direction, or on the position, and a cut along a diagonal splits the signed area into those of the parts.", "quantifier": "all polygons", "why_tests_cant": "Arbitrary numbers and positions of vertices.", "anchors": ["larreco/RecoAlg/ClusterRecoUtil/Polygon2D.cxx: Polygon2D::Area"]}
{"id": "C159", "title": "Polygon2D: perimeter", "statement": "Perimeter() is the sum of the lengths of the sides.", "quantifier": "all polygons", "why_tests_cant": "Arbitrary numbers and positions of vertices.", "anchors": ["larreco/RecoAlg/ClusterRecoUtil/Polygon2D.cxx: Polygon2D::Perimeter"]}
{"id": "C160", "title": "Polygon2D: overlap of polygons", "statement": "PolyOverlap says yes exactly when the convex hulls of the polygons have a point in common; PolyOverlapSegments is symmetric and says yes only when one polygon contains the vertices of the other or two sides meet.", "quantifier": "all pairs of polygons", "why_tests_cant": "Arbitrary pairs of polygons.", "anchors": ["larreco/RecoAlg/ClusterRecoUtil/Polygon2D.cxx: Polygon2D::PolyOverlap, Polygon2D::Overlap, Polygon2D::Project, Polygon2D::PolyOverlapSegments, Polygon2D::Contained"]}
{"id": "C161", "title": "Polygon2D: crossing segments", "statement": "SegmentOverlap says yes exactly when the two segments have a point in common, and GetIntersection then returns such a point; it does not matter which segment is given first. The constructor of the common polygon lists the vertices of each polygon inside the other and the crossings of their sides.", "quantifier": "all pairs of segments", "why_tests_cant": "Arbitrary positions.", "anchors": ["larreco/RecoAlg/ClusterRecoUtil/Polygon2D.cxx: SegmentOverlap, Clockwise, GetIntersection, FindSlope, Polygon2D::Polygon2D"]}
{"id": "C162", "title": "Polygon2D: point inside", "statement": "PointInside says yes exactly when the point is inside the polygon by the even-odd rule, whichever vertex the list starts with; Contained asks it of all vertices.", "quantifier": "all polygons and all points in general position", "why_tests_cant": "Arbitrary polygons, not only convex ones.", "anchors": ["larreco/RecoAlg/ClusterRecoUtil/Polygon2D.cxx: Polygon2D::PointInside, Polygon2D::Contained"]}
{"id": "C163", "title": "Polygon2D: untangling", "statement": "UntanglePolygon ends; the polygon then has the same vertices and no two sides cross.", "quantifier": "all polygons", "why_tests_cant": "Termination for every input.", "anchors": ["larreco/RecoAlg/ClusterRecoUtil/Polygon2D.cxx: Polygon2D::UntanglePolygon"]}
{"id": "C164", "title": "TrackCalorimetryAlg: one object per track and plane", "statement": "ExtractCalorimetry appends one calorimetry object for each plane of each track, in that order, associated with the track. It has one entry for each hit of the track on that plane, with the values at the trajectory point nearest to the hit, and the kinetic energy is the sum of dE/dx times pitch; the entries run from the end of the track with the larger charge when there are more than NHitsToDetermineStart of them, otherwise from the last point of the track.", "quantifier": "all events with valid indices", "why_tests_cant": "Arbitrary numbers of tracks, hits, planes and points.", "anchors": ["larreco/Calorimetry/TrackCalorimetryAlg.cxx: TrackCalorimetryAlg::ExtractCalorimetry, TrackCalorimetryAlg::AnalyzeHit, TrackCalorimetryAlg::IsInvertedTrack, TrackCalorimetryAlg::MakeCalorimetryObject"]}
{"id": "C165", "title": "TrackCalorimetryAlg: residual range", "statement": "The residual range of an entry is the length of the track from its point to the end taken as the stopping point; along an object it never falls and is between zero and the length of the track.", "quantifier": "all tracks whose length is the sum of their steps and not zero", "why_tests_cant": "Arbitrary numbers of points and hits.", "anchors": ["larreco/Calorimetry/TrackCalorimetryAlg.cxx: TrackCalorimetryAlg::CreatePathLengthFractionVector, TrackCalorimetryAlg::MakeCalorimetryObject"]}
