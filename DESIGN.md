# DESIGN — formal model of LArSoft/larreco in Rocq (Coq 8.16.1)

(This first version was committed before any proof; the section "Status" at the end is updated as work proceeds.)

## 1. Method

* Code is read as text from `/repo`; nothing is compiled or run from it.
* Every subsystem has files `<X>_Model.v` (executable Gallina transcription, no proofs, each definition cites
  file:lines), `<X>_Spec.v` where a separate specification is useful (vocabulary of the English property only,
  independent of the model's helpers), `<X>_Proofs.v` and `<X>_Props.v` (only `Theorem … Proof. exact …. Qed.`,
  `Print Assumptions` and non-vacuity `Example`s).
* C++ exceptions, `abort()` and undefined behaviour are distinct outcomes of the model (`Base.outcome`:
  `Ok | Throw | Undef`); container `.at()` out of range is `Throw`, `operator[]` out of range is `Undef`.
* Loops become structural recursion / folds, or recursion on explicit fuel with a distinct out-of-fuel outcome
  which the theorems exclude.
* Floating point values are modelled by exact numbers (`Z`, `Q`/`Qc`) or by an abstract ordered type: all theorems are
  about exact arithmetic; rounding, overflow and NaN are outside unless the model says otherwise (division by zero
  is modelled explicitly where the code can reach it).
* Where the property is false of the code, the theorem is named `…_refuted` and gives a concrete witness; beside it
  the strongest true variant is proved.

## 2. Trusted base

* Coq 8.16.1 kernel (and `vm_compute` for examples/witnesses).
* `Print Assumptions` under each property theorem; no axiom of our own. Axioms that appear, if any, are listed in section 5.
* Faithfulness of the transcription (by reading); the semantics attributed to the C++ standard library containers
  (vector, multimap, set, map, max_element, sort as *some* sorted permutation) as written in the models.

## 3. Per-property plan

| id | what is modelled | how proved |
|----|------------------|-----------|
| C01–C04 | `CMergeBookKeeper`: vector of output indices, triangular prohibit table, output count; each loop of `Merge` as a fold over table updates with `.at` semantics | refinement: abstraction to (equivalence relation, set of prohibited original pairs); invariant "table entry (a,b) true iff some prohibited pair between classes a and b"; induction over call lists |
| C05 | `Combine` with the snapshot of `PassResult` | invariant over inner loops, uses C01 refinement |
| C06–C08 | `CMManagerBase::Process`, `CMergeManager` with algorithms as arbitrary state-transforming oracles | measure = number of clusters; invariant hits(out)=union |
| C09 | `ComputePriority` with multimap as stably sorted list | induction, sortedness |
| C10 | `CMatchBookKeeper` with multimap + growing used-vector | greedy invariant by induction |
| C11 | `SimpleCombination` (next_permutation on bool vectors), `ClusterCombinations` odometer | enumeration proofs by induction |
| C12 | `CMatchManager::IterationProcess` | composition of C09–C11 |
| C13, C14 | `CBAlgoArray::Bool`, `CPAlgoArray::Priority` | equality with a left fold; refuted where code differs, with the exact class of configurations for which it holds |
| C15 | QuadExpr over Qc, abort as outcome | ring |
| C16–C18 | solver state (space charges, wires, neighbours as index graphs), exact rationals, division by zero explicit | invariants over schedules; algebra |
| C19 | index walk `i := (i+1299827) mod n` in 32-bit unsigned | number theory: full cycle iff coprime; witness otherwise |
| C20–C22 | hit lists, intersection table as oracle, window loop, sort-merge join | induction with window invariant |
| C23, C24 | `DBScan3DAlg` with symmetric neighbour oracle, seed worklist | loop invariants; density connectivity as inductive relation |
| C25 | heap of objects with prev/next/next_vector | global invariant by case analysis per operation, induction on op lists |
| C26–C28 | waveform as list Z/Q, iterator arithmetic as indices | well-founded induction on range length |
| C29, C30 | RFF fitter grouping and pruning, elimination over Qc | loop invariants |
| C31–C34 | MCBTAlg / MCMatchAlg tables | sums by induction |
| C35, C36 | kd-tree build (sort as any sorted permutation) and searches | structural / well-founded induction |
| C37 | `GFTrackCand`: the parallel vectors of hits, all mutators and constructors | refinement to a list of records, per vector; refuted where a mutator leaves one vector behind |
| C38 | `GausFitCache`, compiled variants; TF1 as formula or compiled function on a heap | invariant on the cache vector; meaning of formulas as sums of Gaussians |
| C39 | `TrackCreationBookKeeper` and optional outputs | refinement to the list of added points, induction on histories |
| C40, C50 | PMA track forest: nodes/segments in the C25 heap, tracks, `TrkCandidateColl` (`setTreeId(s)`, `merge`, `setParentDaughterConnections`), `ExtendWith`, `GetRoot` | well-formedness invariant; fuel for pointer-following loops is shown to suffice; refuted for the stale index |
| C41–C44 | event life cycle of the CMTool managers | state invariants over event sequences |
| C45 | `Minimize` with the metric it monitors | uses C16–C18 |
| C46 | `GaussianEliminationAlg` distance table | index arithmetic |
| C47, C48 | `MCQFrac`, `ShowerCorrectness` | sums by induction |
| C49 | Cluster3D `DBScanAlg_tool` on top of the kd-tree model | loop invariants; density reachability as an inductive relation |
| C51–C53 | `SpacePointSolver` module: `BuildSystem`, `AddNeighbours`, `produce` from the triplets on | classification by list filters; cell arithmetic of truncation; composition with C16–C18 |
| C54 | `LinFitAlg::LinFit` over exact rationals, with its unsigned short counter | sums by induction, completing the square (field) |
| C55, C56 | `WaveformTools` erosion, dilation, opening, closing; iterators as indices, leftmost/rightmost extremum searches | invariant: the kept element is an extremum of the current window |
| C57 | `triangleSmooth`, `medianSmooth`, `firstDerivative`; std::sort any sorting function | range-update induction, counting lemma for medians |
| C58 | `findPeaks` with fuel; reads outside are `Undef` | strong induction on the range length |
| C59 | `getTruncatedMeanRMS`; histogram as association list | fold invariant for counts and mode, sums over bins, averages of sorted squares |
| C60, C61 | `CandHitDerivative` search (recursion with fuel, changing thresholds) and grouping, on top of the `WT` model | strong induction on the range; shape lemmas for the four scans; fold invariant for the groups |
| C62 | `CandHitMorphological`: region search, pair search, splitting of ticks between neighbours, sigma limits, on top of `WT` and `CHD` | strong induction on ranges for both recursions; invariant on the stored candidates (adjacent, inside the region) |
| C63 | ConvexHull::getConvexHull as two stacks over lists of rational points | stack invariant: every edge has all processed points on its left and every turn is strict; the upper half is the lower half of the turned plane; skipped points lie above the chord |
| C64 | Area over the hull | the centre is a mean of vertices, each triangle is non-negative; telescoping gives the shoelace sum |
| C65 | findNearestEdge: the loop over the iterator as it is written | distance to a segment as the minimum of a quadratic; loop invariant over the edges looked at; refuted on a square |
| C66 | getExtremePoints with its three iterators | the iterators never cross the end; a closed polygon has an edge pointing back; refuted on a triangle |
| C67 | RunPrimsAlgorithm, one round of the loop after the other (MST_Model), over an abstract neighbour function; also with the kd search of KD_Model. | Loop invariant: attached hits are the hits of the clusters so far; the edge list holds exactly the edges from the current cluster to unattached neighbours; finished clusters have no neighbours in later ones. |
| C68 | same | Exchange argument as an invariant: every connecting set T' can be turned into T_i ++ R with R a part of T' and no more weight; each round trades the first edge of R that enters the cluster for the lightest edge leaving it. |
| C69 | LeastCostPath and its call | The tree grows by leaves, so walks that never go straight back never revisit a hit (induction over the growth); the search follows such walks, which bounds it and makes its result unique. |
| C70 | two nested parallel_for as interleaved pushes on two shared vectors, the collections put into the event | invariant over steps of the interleaving; merge of the per-task lists |
| C71 | long pulse branch | integer division, induction over the intervals |
| C72 | loop over peaks with its state (numHits, newleft, newright) | loop invariant; truncation lemmas; interval sums |
| C73 | sort, cut, sort, IsGoodHit | prefix before the first small hit = filter on a sorted list |
| C74-C80 | TrajCluster hit ownership: StoreTraj, ReleaseHits, SetEndPoints, SplitTraj, MakeTrajectoryObsolete, RestoreObsoleteTrajectory, MergeAndStore (with ReverseTraj, TrajPointTrajDOCA, HasDuplicateHits, MakeVertexObsolete on 2D vertices), InTrajOK over a slice with InTraj marks, trajectories, vertices, pfps and the UID counter | one invariant (live trajectories and InTraj marks agree) shown for each operation from its exact effect, then induction over histories; numbering by a separate growth relation that holds for every call; checker by comparing two sorted lists |
| C81 | FindClusters over an arbitrary rectangular image (lists of lists), the std::sort abstracted by its contract, vector indices checked | invariants of the scan/grow/fill/prune loops (cells used = cells of clusters); exact condition for reading past the sorted list; counterexamples |
| C82 | same | inductive description of growing/filling in BC_Spec, largest supported subset for pruning; counterexamples for fake holes and foreign neighbours |
| C83 | same | connected components as a transitive closure; soundness, completeness and order |
| C84 | ConvertRecobHitsToVector (bounds and filling loops) | prefix invariant of the filling loop; counterexample for two hits in one cell |
| C85 | the chain of BlurredClustering::produce for one plane without merging | composition of C81, C82, C84, C86 |
| C86 | GaussianBlur and DeadWireCount with index-checked kernel access | sum exchange over the smearing loops; counterexamples with dead wires and with BlurWire = 0 |
| C87 | MergeClusters with the loops over all clusters; PassCuts an arbitrary function of the two hit lists; separations by squares | absorption relation and closed groups (MCA_Spec); invariants over the remaining clusters; counterexamples for small clusters |
| C88 | the loop over planes of produce, composed of the BC and MCA models | composition of C85 and C87, std::map as a sorted list |
| C89 | the slice (trajectory ends, 2D/3D vertices, PFParticle vertices) and the vertex functions; geometry as oracles | invariant sound (TV_Spec), preserved by each operation; induction on histories; counterexample for AttachTrajToVertex |
| C90 | ChkVtxAssociations on arbitrary slices | case analysis over the three loops; counterexamples that pass |
| C91 | MakeVertexObsolete for 2D and 3D vertices and the two killers | effect relations obsoleted and kills (TV_Spec), prefix invariants of the loops; counterexamples reached by histories |
| C92 | Find3DVertices with oracles for the matches and any sorting permutation | set of candidates = set of matches; greedy selection lemma; counterexamples |
| C93 | SetHighScoreBits with its while loop | fuel bounded by the number of unflagged vertices; flags = reachable set |
| C94 | the clustering loop and Reconcile2VTs up to the out-of-range read | invariant of join_pair; counterexample |
| C95 | Find2DVertices, AttachAnyTrajToVertex, MergeWithVertex, StoreVertex | sound_but (vertex under construction); counterexamples |
| C96 | the members fHits, inClus, tcl, NClusters, vtx.NClusters and the functions that change them; fits and cuts as arguments | invariant sound (CCB_Spec) preserved by each operation, induction on crawl histories |
| C97 | TmpStore with its loop over the hits, MakeClusterObsolete, RestoreObsoleteCluster | exact characterisation of the loop (prefix marked); counterexample reached from an empty event |
| C98 | SplitCluster | exact pieces by cases of the position; counterexamples |
| C99 | DoMerge with the wire vector, MergeOverlap for a pair, the last part of ChkClusterDS and VtxClusterSplit | slot invariant of the wire vector; both restored after failure; counterexamples |
| C100 | CheckHitClusterAssociations with its early returns | zero errors at the end iff none at each step |
| C101 | RemoveObsoleteHits, produce | loop invariant: prefix compacted, clusters mapped by the rank function |
| C102 | AssociateClustersAndTracks, both overloads, std::map as ordered list | invariant: maps = the links of the hits so far |
| C103 | FindShowers with its matching loop | fold invariants; counterexample made by the association code |
| C104 | CheckShowerPlanes | closed form of the averages, last bad plane = highest |
| C105 | FindOrderOfHits_ with centre and gradient, std::map<double> as sorted list | map fold = last hit per position, sorted |
| C106 | CheckIsolatedHits_ with the erase loop on indices | case analysis equivalent to the stray condition; counterexample for two stray hits |
| C107 | OrderShowerHits in full, with the permutation search | preserved invariant on planes; permutations = all directions when the widths differ |
| C108 | FindShowerStart_ | loops produce subsequences of hits alone on their wires; TPC filter |
| C109 | MakeSpacePoints | invariant on used hits; maximality by grow-only used set |
| C110 | produce without PFParticles | induction on the showers written |
| C111 | isCleanShower, the two loops of MakeShower over planes | fold invariants |
| C112 | the three matrices, findNeighbors, the loop over the growing vector of neighbours | loop invariants (labels, visits, neighbours still to come, witnesses, joined), measure = list length + unvisited * n |
| C113 | getSimilarity(2), getWidthFactor, compute*, findNeighbors | matrix invariant; algebra of the ellipse; counterexample with channel numbers |
| C114 | isNear, nearestPoint, the acceptors, both region queries, ExpandCluster, run_dbscan_cluster | induction on the tree (undefined read); inner and outer invariants of ExpandCluster; counterexamples |
| C115 | produce, hits grouped by plane | closed form of the output, numbering lemma |
| C116 | compatible, separation with their geometry calls | case analysis on two or three hits; the signed distance does not depend on the order |
| C117 | correctedTime, compatible, fillSpacePoint | counterexamples with one offset; equality with zero offsets |
| C118 | both fill functions | normal equations, completing the square |
| C119 | fillSpacePoints | loop invariant over runs; id invariant of the map |
| C120 | makeSpacePoints with the shared map | closed form of the search loops, invariant over TPCs |
| C121 | the filter section | invariant of the table of best points |
| C122 | the merge section | closed form of one round; exceptions from colliding ids |
| C123 | makeSpacePoints | counterexample, case analysis on plane numbers |
| C124 | the wire ranges | geometry of crossing segments implies the range holds the wire |
| C125 | makeSpacePoints, getAssociatedHits | from the closed form |
| C126 | find_ht, walk_stitch, common: the loops over tracks, claims, walks and merges | invariants of each loop (STI_Find, STI_Walk, STI_All): links go to later tracks, so walks end; components stay connected |
| C127 | as C126 | refuted by two parallel overlapping tracks, and, for the merge, by three collinear tracks; proved when each track meets at most one later and one earlier track at one end each (STI_Line*) |
| C128 | find_ht | refuted (coincident ends; a head and a tail claiming one end); proved per kind of end when no two ends coincide (STI_Uniq), and in full for in-line events |
| C129 | walk_stitch | refuted by a track met three times in one walk; proved for in-line events |
| C130 | common | refuted by a track shared in the middle; proved for one call, after any history, when shared tracks are at an end of the later composite |
| C131 | produce, read_points, associate | the flattened layout proved; the nested layout refuted (the inner loop increments the outer index) |
| C132 | produce, add, first | refuted by two TPCs (a cluster whose plane clashes is marked as merged but not added); otherwise an exact partition by an invariant of both loops |
| C133 | add | refuted: the end is adopted when it is at a LOWER wire (263); proved: least start wire, least end wire, and exactly when the two agree |
| C134 | endpoint, add | refuted for every pair whose second starts at the end of the first: its hits are put before; what happens is proved for all pairs |
| C135 | turn2, turn1 | refuted by four clusters along a line; proved: members continue the line, lone outputs have no free continuation, and pairs merge exactly when they should |
| C136 | find: by_plane, refine, split_all | closed forms of all loops (SCF_Proofs): the backward erasure removes exactly the selected hits |
| C137 | split_loop, one_split | the shape proved from the closed form; the documented separation refuted by a chain of three hits |
| C138 | split_loop with fuel | refuted: a radius that is not positive gives an endless loop; proved exactly when it ends |
| C139 | write_all, produce | refuted: ids collide with 100 small clusters on a plane, and an event without hits gets no product; the rest proved |
| C140 | find | refuted: TPC numbers are ignored, so hits of two TPCs are clustered together; proved for plane numbers |
| C141 | organize, individual, snippets | loop invariant: per plane a permutation of the listed hits, one entry per snippet |
| C142 | snip_step | same invariant: the leader is the first of the largest |
| C143 | one, one_plane, produce | closed forms of the loops; the result related point by point to an independent description |
| C144 | snippets | refuted: the identifier has no TPC; proved when snippets do not collide |
| C145 | res_down, res_up, downstream | recurrences from the loops; bound refuted, the exact maximum proved |
| C146 | produce | the recurrences determine the residual ranges; refuted on a tie of the direction test |
| C147 | produce | total and partial correctness of the two loops |
| C148 | pitch | refuted: zero along the wires; proved otherwise |
| C149 | simple, absorb, sweep, merge_all | termination measure (number of clusters) and permutation invariant |
| C150 | touch, simple | invariant: clusters are linked classes, at the end no two touch; refuted on wire 0, where the unsigned subtraction wraps around |
| C151 | run and all below | permutation invariant over the loops; refuted: a last single hit is dropped |
| C152 | split_loop, centers_loop, seeds_loop, merge_dense | measures; refuted by two configurations whose loops never end |
| C153 | tag_dense, around, merge_dense | closed form of the counts; loop exit condition |
| C154 | merge_dense, merge_clusters, swallow | refuted both ways by a run on ten hits |
| C155 | split_hits, split_naive, split_naive2 | closed forms of the loops |
| C156 | produce, by_view, huge, more, write | composition of the above; view by view, component by component |
| C157 | build, cand, grow, arrange | invariant of the segment under construction, kept by tagging and merging |
| C158 | area | the loop as a sum over the sides; algebra of the fan of triangles |
| C159 | perimeter | refuted: it returns the root of the sum of squares (unit square: 2); proved: at most the perimeter, zero only with it |
| C160 | project, overlap, poly_overlap, poly_overlap_segments | refuted both ways (vertical side; side direction instead of its normal); proved: hulls that meet are found when no side is vertical, and never when one is |
| C161 | clockwise, seg_overlap, intersection, common | signs of four areas against a common point; refuted on collinear segments and for the point (sign of the abscissa) |
| C162 | crossings, point_inside, contained | parity of crossings with the ray = parity of fan triangles around the point, by induction on the sides; refuted around the corner (10000,10000) |
| C163 | turn, sides, untangle | invariant of the nested loops; refuted by nine vertices whose swaps repeat after eight steps |
| C164 | extract, by_plane, one_plane, analyze, inverted, make_calo | closed form of every loop; the multiset as insertion of hits by their path |
| C165 | fractions, emplace, make_calo | prefix sums; order of the multiset, reversed or not |

## 4. What is modelled and what is not

Not modelled anywhere: detector geometry services, art framework, ROOT fitting, rounding of floating point (exact
rationals are used), wall clock, I/O, log messages, printing and memory exhaustion. Per subsystem (prefix of the files):

| files | modelled | simplified or left out |
|-------|----------|------------------------|
| `CMergeBK`, `CMgr` | `CMergeBookKeeper`, `CMManagerBase`, `CMergeManager` completely but for printing and timing | algorithms are arbitrary functions of the clusters and of their own state that do not throw; `FillParams` of merged clusters does not throw; priorities are `Z` (an order embedding of non-NaN floats), the default priority (number of hits as float) is exact, i.e. below 2^24 hits |
| `CMatchBK`, `CMComb`, `CMatch` | `CMatchBookKeeper`, combination generator, `CMatchManager` | same; scores are `Z` |
| `AlgoArray` | `CBAlgoArray::Bool`, `CPAlgoArray::Priority` | the members are arbitrary answers |
| `Solver` | `QuadExpr`, `Solver.cxx`, `Minimize` | exact rationals with IEEE outcome of division by zero; construction from hits not modelled |
| `SPS` | `SpacePointSolver_module.cc`: `BuildSystem`, `AddNeighbours`, `AddSpacePoint`, the two fill functions, `produce` after the triplets | hits are addresses (naturals), `std::set` in address order, `exp(-d/2)` an oracle; reading of hits, the `fMaxNTriplets` bail-out and the XHit location provider left out; coordinates below 10^10 cm |
| `LF` | `LinFitAlg` | exact rationals, sqrt an oracle; zero errors outside the model |
| `WT` | `WaveformTools` (T = float/double) | exact rationals; int overflow, the short instantiation's truncation, histograms and the FFT left out |
| `CHD` | `CandHitDerivative` | exact rationals; hitCenter kept as the tick below it; histograms left out |
| `CHM` | `CandHitMorphological` | as `CHD`; tick differences fit an int |
| `HULL` | RecoAlg/Cluster3DAlgs/ConvexHull/ConvexHull.cxx without getKinkPoints | float = exact rational; hits are numbers; normalised products only by sign; squared distances |
| `MST` | MinSpanTreeAlg_tool.cc and MSTPathFinder_tool.cc: RunPrimsAlgorithm, LeastCostPath and the call of it | hits are numbers, neighbours a function (kd search linked in c67_close), weights rational; choice of the two end hits by PCA, AStar and DepthFirstSearch (never called), printing and timing not modelled |
| `GHF` | GausHitFinder_module.cc produce (216-663), HitFilterAlg.cxx (16-36) | rationals for floats; candidate finder and fitter are parameters; errors, integral and histograms left out; std::sort abstract; concurrent_vector push_back atomic; data races inside non thread safe tools (PeakFitterGaussian, CandHitDerivative histograms) not modelled |
| `TJ` | Utils.cxx 1049-1199, 1257-1314, 2138-2169, 2269-2404, 2689-2760, 3219-3243, 3330-3355, 4521-4701; TCVertex.cxx 2698-2786 (2D part) | one slice; fit quantities left out; positions and charges integers; SetPDGCode and AttachAnyVertexToTraj are arbitrary functions (section variables); merging shower trajectories not modelled |
| `BC` | BlurredClusteringAlg.cxx 108-187, 189-372, 421-484, 604-671, 704-709, 748-781; BlurredClustering_module.cc 169-192 (no merging) | charges and times are exact rationals; GlobalWire, FindBlurringParameters, the kernel values and the dead-wire list are inputs; drawing and debug code left out |
| `MCA` | MergeClusterAlg.cxx 116-138, 182-316; BlurredClustering_module.cc 153-248 | the alignment quantities (principal components, angle, width) are not modelled: PassCuts is an arbitrary function; hitsToCluster is given |
| `TV` | TCVertex.cxx 131-420, 433-598, 1059-1256 (up to line 1214), 1258-1563, 1678-1841, 1908-1940, 2058-2243, 2698-2820; TCShower.cxx 704-744 | positions, fits, pulls, hits and scores of 2D vertices are arbitrary functions; FindHammerVertices, the completion of incomplete 3D vertices, SplitTrajCrossingVertices and the rest of Reconcile2VTs are not modelled; one slice, exact rationals, three planes for Find3DVertices |
| `CCB` | ClusterCrawlerAlg.cxx 623-628, 717-812, 825-970, 1118-1150, 1506-1524, 1642-1649, 2669-2783, 3129-3251, 3447-3536; ClusterCrawler_module.cc 116-136, 158-217 | positions, slopes, charges, angles, fits are not modelled (verdicts are arguments); the choice of the clusters to split or merge and the crawling itself are not modelled; width of unsigned short loop counters; vertex association output of produce |
| `EMS` | EMShowerAlg.cxx 62-390, 652-863, 865-949, 1013-1105 (plane choice), 1219-1573, 1738-1820, 2033-2050; EMShower_module.cc 189-211, 275-464 | geometry (3D points, projections, hit coordinates) is given as values or verdicts; the directions are not normalised; square roots are compared as squares; energies, dE/dx, track fits, plots and the PFParticle and CNN paths are not modelled; no floating-point rounding |
| `DB2` | DBScanAlg.cxx 37-46, 149-236, 295-304, 350-708, 730-785; DBcluster_module.cc 116-187 | exact rationals; the exponential is any function; one pitch as in the code; the R*-tree library is a tree of boxes searched below accepted nodes; cluster parameters and logging are not modelled |
| `SPA` | SpacePointAlg.cxx 47-81, 161-175, 179-254, 260-404, 410-528, 548-600, 608-759, 789-1436, 1441-1453 | exact rationals; wires are straight with rational end points and (sin, cos) of their angle; ids of hits are their positions; SimChannel matching is not modelled (disabled by the configuration read in the constructor); logging is not modelled |
| `STI` | StitchAlg.cxx 36-562, TrackStitcher_module.cc 85-262 | exact rationals; distances are represented by their squares; cosines stored in the tuples are never read and left out; a track is its ends, end directions and named points (momenta, flags and covariances go with the points); art lookups of associations are functions of the track and space point |
| `LM` | LineMerger_module.cc 228-272, 319-335, 349-546 | exact rationals; atan is any function; distances are compared by their squares; the charges computed from the final hits and the logging are left out |
| `SCF` | SmallClusterFinderAlg.cxx 56-335, SmallClusterFinder_module.cc 116-228 | exact rationals; Get2DDistance is the Euclidean distance for any two scale factors, compared by squares; printing and unread members left out; unsigned overflow of ids not modelled |
| `GNO` | GnocchiCalorimetry_module.cc 188-694 | exact rationals; norm, floating point quotient, arc cosine, dE/dx functions, normalisation tools and space charge services are arbitrary functions; hits and their metadata as one list; the norm hypotheses (non-negative, even, homogeneous) are stated per theorem |
| `SEG` | SimpleClustering.cxx, Segmentation2D.cxx 15-414, TrackShowerHits_module.cc 82-199 | exact rationals; the position of a hit, std::sort (a parameter constrained by what the standard promises) and the geometry are given; unsigned wire arithmetic modelled modulo 2^32; hits are identified by their key; while-loops on fuel with returns/hangs |
| `POL` | Polygon2D.{h,cxx} | exact rationals for float and double; sqrt, tan, sin and cos are arbitrary functions; a quotient by zero is None (infinity or not-a-number); recursion on fuel with returns/hangs; operator<< and the trivial accessors are left out |
| `TCA` | TrackCalorimetryAlg.cxx 31-220 | exact rationals; projection, wire pitch, step lengths, Length(), TrackPitchInView and dEdx_AREA are given; a quotient by zero is zero (the theorems on it exclude it); the plane of an object is its number, the code labels it as plane of cryostat 0, TPC 0 whatever TPC the hits are from |
| `Triplet` | `TripletFinder` | geometry and drift conversion are oracles; `std::sort` is any function returning a sorted permutation |
| `DBScan` | `DBScan3DAlg::dbscan` and helpers | allocation failure and `init` from the geometry left out |
| `SortedObj` | `SortedObjects` | the client only touches live objects |
| `CandHit` | `CandHitStandard_tool` | ticks are naturals, samples exact rationals |
| `GaussElim`, `RFF` | `GaussianEliminationAlg`, `RFFHitFitter` | `exp` and `sqrt` are oracles; infinities and NaN explicit in RFF; zero pivots excluded by a premise; RFF's amplitude solver is an oracle with a length premise |
| `MCBT` | `MCBTAlg`, `MCMatchAlg` | id+1 does not wrap; TDC conversion left out; 0/0 excluded by a premise |
| `KD`, `CDB` | `kdTree`, Cluster3D `DBScanAlg_tool` | FLT_MAX is a value above all sums; `sqrt` and `std::sort` oracles; `BuildClusterInfo` left out; hits distinct |
| `TCand` | `GFTrackCand` | scalar members left out |
| `GFC` | `GausFitCache` | ROOT's parsing of the formula trusted; `exp` an oracle |
| `TBK` | `TrackCreationBookKeeper`, `OptionalOutputs` | checks made by the `recob` constructors left out; chi2 is a rational or NaN |
| `PT` | `TrkCandidateColl` tree functions, `Track3D::ExtendWith`, `GetRoot`, `NextSegment`, `DeleteSegments` | positions, hits, TPC numbers left out; addresses returned by `new` are an argument; fuel for pointer-following loops, exhaustion = non-termination |

## 5. Status and assumptions

MANIFEST.json has the status of each property. Every theorem named there is "Closed under the global context"
(`Print Assumptions` stands after each group of theorems in the `*_Props.v` files): no axiom is used, neither ours nor the
library's. (vcheck lists seven `Coq.ssr.ssrunder` constants because a file of the standard library that is loaded
declares them; no theorem depends on them.)

Where a property is false of the code its claim is "partial": a theorem `…_refuted` exhibits a concrete reachable state in
which it fails, and the strongest true variants beside it carry the suffix `_partial` when they cover only part of the property.

`seeded/LOG.jsonl` has one line per wrong program tried; each makes the proof of at least one of the theorems of its property fail.
