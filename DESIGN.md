# Formal model of shcsywendy/lhf in Rocq

## 1. What is trusted

* Coq 8.16.1's kernel (and `vm_compute`, which some example computations use).
* Axioms: none are added.  Apart from C104 to C107 the development uses only the Coq standard library (lists, `nat`, `Z`,
  `string`).  Each theorem in a `Properties*.v` file is followed by `Print Assumptions`; every one prints
  "Closed under the global context", except `C104_nearest`, `C104_neighbourhood`, `C104_dbscan`,
  `C105_distance_error`, the two theorems of C106 and `C107_centroid_error`.  Their proofs use real numbers and Flocq, and they depend on four axioms of the standard
  library: `ClassicalDedekindReals.sig_not_dec`, `ClassicalDedekindReals.sig_forall_dec`,
  `FunctionalExtensionality.functional_extensionality_dep` and `Classical_Prop.classic`.
* That the Gallina functions in `*Model.v` do what the cited C++ lines do.  Each definition cites file and lines
  and says where it simplifies.

### How C++ is represented

* **Doubles.**  Doubles embed order-preservingly into `Z` (by their places in the order of the doubles; C91), so code that only
  copies, compares and takes maxima of doubles (the complexes, Kruskal, the reductions, sorting) is modelled with `Z`
  weights with no loss.  NaN is excluded; C90 shows that distances of finite points are never NaN.  Where the code *computes* distances, the distance is an
  arbitrary function parameter (`dist`), so no statement depends on rounding; where a property of the distance is needed
  (non-negative, dominates coordinate differences, symmetric), it is an explicit premise of the theorem.
* **Undefined behaviour** is an explicit outcome (`UB`), never a default value.  Out-of-range indexing,
  dereferencing `end()` and reading uninitialised pointers yield `UB`.
* **std::sort** is not stable and its order on ties is unspecified: theorems quantify over every sorting
  function (a parameter returning a sorted permutation).
* **std::set<unsigned>** is a strictly increasing list.  **std::map** with string keys is a sorted association list.
* **`unsigned`/`size_t`/`int`** are unbounded (`nat`/`Z`); wrap-around is modelled only where the code relies on it
  (e.g. `size()-1` of an empty container), as noted in the comments.
* **Pointers**: trees are inductive values; the aliasing in this code is tree shaped.
* **Output**: `std::to_string`/`atof`/`atoi` are parameters where they matter; times are a parameter; of the console output only the log (C108) is modelled.

## 2. Files

See section 6: every `XModel.v` contains definitions only, `XProofs.v` lemmas,
`Properties*.v` only the property theorems (with an `Example` next to each that shows a concrete case).

## 3. Properties

| id | modelled | plan |
|----|----------|------|
| C01 | the merge algorithms of libstdc++ (`set_intersection`, `set_symmetric_difference`) and the wrappers | induction on both lists; spec = membership + strict sortedness |
| C02 | `set_union` and wrapper with early return | same; equal-argument anomaly is part of the statement |
| C03 | wrapper `intersect` | from C01, C02 |
| C04 | subset enumeration loop | enumeration = all sublists, NoDup; facets characterised as sublists of length k-1 |
| C05 | label loop with checked indexing | fold invariant over the labels |
| C06 | radius loop, `computeMaxRadius` | fold invariants; witness for the dropped farthest point |
| C07 | loop over copies | the function returns the table unchanged or UB |
| C08 | distMatrix double loop, ordered weight set | loop invariant |
| C09-C12 | `simplexArrayList` insert / expandDimensions / clear / getAllEdges | state invariant over histories; each d-simplex is generated exactly from the pair of facets that drop its two smallest vertices |
| C13-C15 | `simplexTree` insert/recurseInsert as a rose tree | tree invariant: paths = strict Rips simplices |
| C16 | `indSimplexTree` insert, getWeight, getAllEdges, find, search and the counters (`IndModel`) | the insertion simulates that of the other tree (C13) as long as the counter array is in range, and is undefined exactly when a simplex has four vertices; the walks of find and search are computed on the characterised tree |
| C17, C18 | Kruskal loop of fastPersistence | invariant: the set list is the partition into components of the scanned prefix; component counting by quotient lists |
| C19, C20 | column reduction | measure: minimum strictly increases; GF(2) span invariants |
| C21, C22, C23 | row loop with the `end()` dereference as an oracle | exact characterisation and concrete refutations |
| C24, C25 | Gaussian eliminations | span/independence invariants |
| C26, C27 | kd-tree | tree ordering invariant, pruning lemma |
| C28 | DBSCAN | traversal invariant |
| C29 | k-means assignment loop | argmin fold |
| C30-C33 | CSV/MAT/stream reading and writing over character lists | string induction; number printing/parsing is a parameter with the round-trip as premise |
| C34-C37 | argument parser, pipeline table, factory tables | induction on argv; case analysis over all strings |
| C38, C39 | `WindowModel`: the two windows as folds over the stream, with their sub-pipelines; `EvalModel`: all of deleteNNstats, updateStats and nnBasedEvaluator | invariants over the prefix read |
| C65 | `runComplexInitializer` | loop invariant over rows and columns |
| C40, C41 | nearest search, binary search | loop invariants, fuel excluded by theorem |
| C42 | CollapseModel: reduceComplex, recurseReduce, deletion, with fuel for the recursion and the while loop | exact characterisation of the result by induction over the dimensions; induction on (weight, edge) for connectivity; rank computation for the hole |
| C43 | tree collapse | case analysis with the reachable-state fact that `dimensions` has at most one entry |
| C44 | wrappers | case analysis over configured flag |
| C45 | composition of the stages | from C08, C09, C11, C17 |
| C46 | `vectors_distance` with checked indexing over any number operations | induction on the vectors |
| C47 | `separateBoundaryPartitions` | fold invariant |
| C48, C49 | `find`, `findWeight`, `getDimEdges` of the array list | from the history invariant of C09 |
| C50-C52 | simplex tree: clear, sort flag, `getDimEdges` boundary | history invariant; the frees are an explicit `uaf` parameter |
| C53, C54 | fastPersistence tables and levels | Kruskal invariant on the table; level count of the array list |
| C55 | column reduction | counting: paired rows are distinct non-pivot rows, columns of weight <= t count the rank at t |
| C56 | loop bound of fastPersistence | from C45 and C23 |
| C57, C58 | pivot computation and pairing loop of persistencePairs / optPersistencePairs | elimination invariant of C25 per dimension; clearing is sound because the last simplex of a cycle depends on earlier ones; first pivot reaches the read at `tArray[tArray.size()]` |
| C59 | elimination on sets | simulated by the matrix elimination on the rows below the number of columns |
| C60 | last loop of boundaryPipe | direct |
| C61, C62 | readMAT past the end of the file, streamRead on written CSV | stream-state invariant, line induction |
| C63, C64 | kMeansPlusPlus: classification, mean update, iteration loop, initial centroids; numbers, distance and random draws are parameters | loop invariant relating sums and counts to label classes; pigeonhole for the initial centroids |
| C66-C68 | DenStreamModel: micro-clusters and the stream loop over exact rationals (`Qc`), fading factor and square root parameters; DBSCAN from KdModel | the state is related to the history of inserted points; loop invariant on disjoint groups |
| C69 | StreamKmModel: the whole runPreprocessor of streamingKmeans over an abstract number type | the last loop reads `summedClusters` of an empty vector; fuel of the search bounded |
| C70 | composition with the collapse of the array list | collapse (C42) of the Rips complex (C12), then the flag expansion of the kept edges; components by C42, holes by the fact that with -d 2 every triangle stays in the collapse and so loses its top edge |
| C71 | `optPersistencePairs::getRankNull(graph)` (twist), `createBoundarySets`, `graphEntry::getFaces`, and the two branches of `runPipe` that use them (`TwistModel`) | the lazy reduction is simulated by the eager one of C59, so its pivots are the fresh columns; on the tree every column is {0,1} or {1} because `find` returns a bool, and freshness among such columns is decided by first occurrence |
| C72 | `main`, `processDataWrapper` and `processUpscaleWrapper` with the output (`MainModel`) | composition of C34/C35 (options), C31 (file), C45 (run) and C05 (partitions) into one statement about the command line and the text of the file |
| C73 | `processReducedWrapper` (`MainModel`) | invariant of the tree between two groups (C14 with the vertex numbers shifted by the points inserted before); Kruskal on the shifted edges in any order gives a spanning forest; a path of two edges records a vertex number of the group, which `mapPartitionIndexing` then uses as an index; witness for the centroids |
| C74-C76 | two runs of the default pipelines (`reports` in `SpecRobust`) | by C45 the deaths of a run count the classes of a reachability relation at every scale; sorted lists with the same counts are equal; relations are compared along the matching, the threshold, the scale or the perturbation |
| C77, C78 | the same | the set of rows paired by columns of weight at most t is the set of least rows of the span of these columns (`pairing_weight`), hence depends only on the set of weighted columns; with different distances the rows are matched one by one; concrete clouds for the refutations |
| C79 | TreeDeleteModel: the object with a head that is sound, freed or lost; deleteIndexRecurse on the sibling list, deleteIterative with the row and the (copied) columns. For every legal history (TreeHist) by cases on where the vertex is in the list; the later calls by computation; the wrong triangle by a concrete witness. |
| C80 | TreeDeleteModel: the stubs as constants, streamEvaluator over any number type and any sort, insertIterative over any evaluator. By induction on the window and the properties of the sort. |
| C81 | IndReduceModel: the recursion with fuel over the triangles, the erasing loops, the freed nodes as a list of simplices. A measure (triangles not yet processed) shows that the recursion ends; an invariant of the two lists (removed pairs, processed exposed triangles are removed); erasing equals filtering; concrete witnesses for the refutations. |
| C82 | PipeModel gets the indSimplexTree as a third complex (newSimplex, insert, getAllEdges, the counts, reduceComplex in ripsPipe). The run is shown equal to fastPersistence on the listing that C16 and C81 describe; the lemmas about fastPersistence behind C17 and C45 on a Rips listing then give the bars. Refutations by running the model on concrete clouds. |
| C83 | DebugModel adds the outputData functions of the four default pipes and runs the pipeline on pairs (packet, files). One theorem relates the run with output to the one without, pipe by pipe: asking a complex for its edges does not change later answers. The contents come from the lemmas about the Rips complex behind C09 and C13. For a collapsed indSimplexTree the listing is frozen before reduceComplex, which C81 says keeps it. |
| C84 | StatsModel computes the lines of runPipeWrapper next to the run: size of the packet, unit, counts. That the run is unchanged and that there is one line for each component is by induction on the components; the units by cases on the size as a rational number; the counts of a default run from the stages of C17, where the number of listed simplices is compared with the number of simplices of the Rips complex; for the indexed tree from its counter (C16) and the stages of C82. |
| C85 | LinkModel puts the k-means of C63 and C64 in the place of the preprocessor of the whole program of C72 and C73, on numbers that may be "not a number" (0 / 0 of an empty cluster); the random draws are parameters. The loop keeps the invariant that some centroid is a point, so nearest centroids exist; that the pipes neither read nor change labels and full data carries the runs of C72 over to the centroids. |
| C86 | AllModel puts persistencePairs, optPersistencePairs, boundaryPipe, upscalePipe and the two windows in the place left open in the program of C72; the windows read their stream from the text of the input file (C33). A pipe that does not return is a parameter that no theorem depends on. The plan of the mode gives a pipeline of one component; C38 and C39 say what it does. |
| C87 | The same program on a command line that names its pipeline: setPipeline leaves it alone. boundary: induction over the components, C60. persistence: the first three pipes as in the runs of the default pipeline, then C57 for the default complexes and C71 for the indexed tree, with its condition on the tree rewritten as one on the points. upscale: no pipe looks at the statistics, induction over the components. |
| C88 | StreamUtilsModel follows the two functions; the uninitialised counts are parameters, and so are the draws. kMeans is compared with the loop of C49's k-means: the same labels and means in every iteration, and the sums kept beside them. ballKmeans writes to an empty vector in its first turn. |
| C89 | StreamLinkModel puts C69's streaming k-means and C67's DenStream in the place left open for a preprocessor in the program of C85. SpecStreamLink says which preprocessor a command line ends up with; the theorems compose C69, C67 and C68 with the runs of C72 and C85 on the points DenStream leaves. |
| C90 | DoubleModel instantiates vectors_distance with the doubles of Coq's SpecFloat (53 bits, exponents below 1024); pow(x, 2) is any function with the properties in SpecDouble, and x * x correctly rounded is shown to be one. Lemmas about rounding (shift right, round to nearest even) give signs, zeros and NaN of each operation; the sum is by induction over the coordinates. |
| C91 | SpecDouble gives every double its place in the order of the doubles as a whole number; places compare as the doubles do. The program of C72 is run with the places of the distances of C90 and any coding of coordinates; C72 and C74 give the bars, and the places are turned back into doubles because every death is the distance of a pair. |
| C92 | TextModel has the decimal digits of whole numbers, printf's rounding to six decimals of a double and the lines of the barcode file. SpecText says what number a text stands for and which millionth is nearest. Rounding is monotone; the result of the square root is canonical (shown through the rounding of SpecFloat), so the order of doubles is the order of their values. The text of a run composes this with C91 and the shape of the lines of C23. |
| C93 | ReadModel has strtod with correct rounding, and std::stod, atof, atoi and stoi on top of it. SpecRead says which decimal number a text is and which double is nearest to a fraction; it does not mention the rounding. The rounding is proved nearest among all doubles by comparing multiples of powers of two. Printing again gives the same text because the double that is read is at least as near to the printed decimal as the double that was printed. Files of doubles instantiate C30 and C32, whose assumptions on std::stod and std::stoi are proved of the model. |
| C94 | ProgramModel closes the model of main: coordinates are the doubles that std::stod reads from the text, weights their places in the order (C91), and the output is the text of the files. The proof puts C91, C92, C93 and C72 together; that the nearest double is unique (ReadUnique) lets the statement speak of the doubles the texts stand for, without the reader. |
| C95 | NanModel is the run of ProgramModel and of the k-means++ preprocessor with doubles that may be infinite or NaN. A NaN distance has no place in the order of the doubles; the model gives it the place the comparison in each container gives it (0 in the tree, beyond epsilon in the array list), and the theorem about the coded run (C94) is carried over by a proof that all comparisons of the run come out the same. The sign of a NaN in the text is left out ("-nan" is written "nan"), the output directory is assumed to exist, and cluster sizes are exact below 2^53. |
| C96 | The statements compare two runs of NanModel's program from text to text. Every run is tied to a run on coded points (C95), whose lines of dimension 0 and 1 are compared by the theorems C74 to C77; the codes are then taken back to doubles. The two claims that fail (columns shuffled, points moved) are refuted by files whose outputs are computed. |
| C97 | The run on coded points that C95 ties to the text is the run of FastModel on a complex of coded distances. Its levels are decoded to doubles (SpecHigher: rips_by_dimension), and the theorems on pairs and on Betti numbers are carried over. The polygon theorem counts edge ends (each point is in two of the edges up to the scale, so there are as many edges as points), shows that the last of them closes the loop, so that the first n - 1 rows end classes, and that the read past the end leaves out row n - 1 too. |
| C98 | Histories with an operation that exchanges the matrix (MatrixModel; TMatrix in TreeModel). Undefinedness: an invariant that speaks of shapes only (increasing vertex lists of the right length, node indices within range), kept by every call whatever the weights, and a failing read otherwise. Contents: the invariants of C09 and C13 for the distance function "entry of the matrix in force when the later point came", which an insertion extends without changing it on older points. |
| C99 | One lemma about two-pointer merges of sorted vectors, by induction on both, gives sortedness and the multiplicities for the three merges of Base.v; a sorted vector is determined by its multiplicities. Commutativity by induction on both vectors without sortedness. |
| C100 | EvalModel.v models deleteNNstats and updateStats with std::map as sorted association lists and averages as rationals. The loop of updateStats over the remaining points is followed by an invariant on the rewritten prefix (NearRuns.v); that every written distance is the minimum over the new partition is a case analysis on whether the deleted point was the recorded neighbour. Right records are defined in SpecNear.v without the model. Witnesses refute that the indices stay right. |
| C101 | The decision with rational averages is turned into integer inequalities between sums; the accepted branch is C100 for the first point and a fresh partition. |
| C102 | The fold over the map of last vectors is shown to give the smallest outdated partition by induction from the right; the decision to join becomes integer inequalities as in C101. A witness refutes that the records of the remaining points stay right. |
| C103 | The model needs nothing new. The tree stores all edges whatever its dimension (C13 with the limit 1), so the argument of C72 applies; the loop over higher dimensions is skipped, which makes the output exactly the bars of dimension 0. For the array list, induction on the insertions shows that only level 0 exists. |
| C104 | The kd-tree model of C26-C28 with the coordinates given by their places in the order of the doubles and the distance of C90. Flocq relates the operations of SpecFloat to rounded real arithmetic. Needed: subtraction is monotone; a sum is at least each of its terms; and the rounded root of the rounded square of b is at least b, when b is 2^-511 or more, or b is itself a rounded root (then b times b rounds to the number it is the root of, if that is small). The search proofs are redone for bounds with this property. A witness shows that small radii lose points. |
| C105 | Relative errors of sums (which hold with gradual underflow), absolute errors of products, and induction over the coordinates, in real arithmetic with Flocq. |
| C106 | C94 with the bound of C105: a pair joined at the computed scale t has a true square below the larger bound, and a pair with a true square below the smaller bound is joined; a coarser relation has fewer classes. |
| C107 | The run of C95 (centroids are the computed means of the labelled points); errors of a sum of numbers of both signs by induction over the points, and of the division by the count, with Flocq. |
| C108 | LogModel adds the lines of the log, the old files and the files written at the end to the run of C84 (a file is a name with a text; which files can be opened, the times and the debug messages are parameters). SpecLog has the two lines of a pipe and the text of the statistics. Induction over the components, and over the lines for the appended file. |
| C109 | computeMaxRadius and separatePartitionsRad of UtilsModel on points whose coordinates are doubles; a distance is given by its place in the order of the doubles, NaN above all (SpecRadius). The general statements of C06, the order of the doubles, and Flocq for the doubling of the radius (exact unless it overflows). For k-means++ the conditions come from C95 and C107. |
| C110 | WindowFilesModel adds the counter and the files to the run of the sliding window of C39 (the rows of a file before the numbers become text). Induction over the stream; that the window after every prefix is the first one comes from C39 applied to the prefixes. |
| C111 | ReducedModel instantiates processReducedWrapper (MainModel, generic in the comparison of distances and in 2 * maxRadius) with doubles and puts it between the reader of C95 and the writer of C92. The groups come from C73's proof, made generic; their partitions from C109, carried over to coded points by a simulation of the loops; the texts by decoding the places of the bars. |
| C112 | EvalDoubleModel has the decision of nnBasedEvaluator on a window with one partition with the doubles of SpecFloat: std::min_element, std::accumulate, the division and the comparisons. The error of the average comes from C107's lemma on means; the quotient is compared with 4 through the monotonicity of rounding. A list of 200 times 1.1 refutes the exact rule. |
| C113 | SlideDoubleModel runs the loop of WindowModel, which is generic in the evaluator, with the decision of C112 in doubles and the reading and printing of ReadModel and TextModel. A refused vector leaves the state, so the stored distances stay those of the first 200 points; an admitted one makes updateStats read one distance more than there are. What happens when the window has several partitions is a parameter, which the theorem shows not to be reached. |
| C114 | AllTextModel runs lhf_all of AllModel with the distances, options and cells of doubles (as C95 and C113) and prints bettiOutput as the last pipe that assigns it does; the statistics, which have an entry for every pipe that was run, say which that is, so C86 and C87 now also state the pipes that were run. The statements are instances of C86 and C87, with ranks translated back into doubles. For every pipeline without a stream pipe, the text below the header is what the last running pipe that assigns bars assigned (by induction over the list of pipes that ran, which C117 gives). |
| C115 | The wrapper of MainModel with the pipeline named on the command line, so that the complex is the one asked for. For a simplexArrayList an invariant says that the complex is empty between two groups; for an indSimplexTree that vertex 0 stays a root and the next vertex is at least 1, so that the next group's last insertion reads beyond the first row of its distances. |
| C116 | The two pair pipes again, now with tArray as a result, and outputData. Where a run is defined no pairing took place (the search for a partner starts one beyond the end of the table), so the table is the listing; for the program an invariant over the components of an arbitrary pipeline, and a lock-step argument for the runs without debug output. |
| C117 | processReducedWrapper (C73) with all the pipes of C87; the lines are those runPipeWrapper appends (C84). One run appends one line per component that starts, by induction over the components; the loop over the groups by induction over the partition, with clear and mapPartitionIndexing leaving the statistics alone. On a simplexArrayList the complex is empty before every group (C115), so the counts of C84 hold block by block. The preprocessor's own line has two fields only and is a parameter. |

## 4. Which parts of the code are modelled

"Modelled" means: a Gallina definition whose comment cites the lines.  The list is by file of /repo.

| file | modelled | not modelled |
|------|----------|--------------|
| `Complex/simplexArrayList.cpp` | insert, expandDimensions, clear, getAllEdges, getDimEdges, find, findWeight, the counts, reduceComplex, recurseReduce, deletion, getSize | nothing |
| `Complex/simplexTree.cpp` | insert, recurseInsert, clear, getAllEdges, getDimEdges, find, findWeight, getd0Pairs, the counts, reduceComplex, deleteIterative, deleteIndexRecurse, deletion, insertIterative, getSize | printTree and insertInductive (called from nowhere), recurseReduce (no call reaches it: C43) |
| `Complex/indSimplexTree.cpp` | insert, recurseInsert, sortAndBuildGraph, getAllEdges, getIndexEdges, getWeight, find, search, the counts, clear, reduceComplex, recurseReduce, deletion, coreduction, getDimEdges, getSize | printTree and insertInductive (called from nowhere), haveChild (an empty body, called from nowhere) |
| `Complex/simplexBase.cpp` | newSimplex, setDistanceMatrix, streamEvaluator, insertIterative's evaluator | the default implementations (they return an empty value, -1 or false; only insertIterative's is used and modelled) |
| `Pipes/basePipe.cpp`, `pipePacket.*` | newPipe, runPipeWrapper (order of the steps, counts, data size, log, debug output), the packet's constructors, getSize | timing (a parameter); the default outputData |
| `Pipes/distMatrixPipe.cpp`, `neighGraphPipe.cpp`, `ripsPipe.cpp`, `fastPersistence.cpp` | configPipe (which options are required), runPipe, outputData | the text of the debug messages (a parameter) |
| `Pipes/boundaryPipe.cpp` | the matrix reduction, checkFace, boundary extraction, runPipe, outputData (C116) | code after the point at which every run stops (C60) |
| `Pipes/persistencePairs.cpp`, `optPersistencePairs.cpp` | nSimplices, checkFace, createBoundaryMatrix, createBoundarySets, getRankNull, runPipe (its text in C114), the two reductions on an indexed tree, outputData (C116) | |
| `Pipes/naiveWindow.cpp`, `slidingWindow.cpp` | runPipe, the sub-pipelines, the complex initializer, deleteNNstats, nnBasedEvaluator and updateStats (averages as exact rational numbers; the decision on a window with one partition also in doubles, C112; the whole mode from text to text, C113; naiveWindow from text to text, C114), the files of the sliding window (C110; runSubPipeline and outputData of naiveWindow are never called) | writeComplexStats; the state left in the static object when a second window is run in the same process; log lines |
| `Pipes/upscalePipe.cpp` | configPipe, and runPipe as the parameter `other` | |
| `Preprocessing/kMeansPlusPlus.cpp` | initialisation and iteration over exact rationals, and again in IEEE doubles (C95, C107) | the random generator (an arbitrary sequence of draws) |
| `Preprocessing/streamingKmeans.cpp` | the run up to the loop that never ends, binarySearch, approxNearestNeighbor, approxHat, dotProd | the random numbers (arbitrary) |
| `Preprocessing/streamingUtils.cpp` | kMeans, ballKmeans, with the uninitialised counts and the draws as parameters | the division after the loop of ballKmeans (never reached with anything to divide) |
| `Preprocessing/denStream.cpp` | micro-clusters, merging, the searches, runPreprocessor, over exact rationals | rounding |
| `Preprocessing/kdTree.cpp`, `dbscan.cpp` | construction, nearest, neighborhood, the wrappers; cluster, expandCluster | constructors and conversion operators of the nodes |
| `Preprocessing/preprocessor.cpp` | newPreprocessor, the wrapper, the two files outputData writes (for k-means, C95) | the wrapper's line of statistics, timing |
| `Utils/utils.cpp` | the set algebra, getSubsets, partitions, computeMaxRadius, mapPartitionIndexing, writeLog, writeDebug, writeFile, vectors_distance (when it is defined, and its value in IEEE double arithmetic), nearestNeighbors | print1DVector and the other console functions, writeError |
| `Utils/argParser.cpp` | parse, defaultArguments, setPipeline | printUsage, printArguments (console) |
| `Utils/readInput.cpp`, `writeOutput.cpp` | the CSV, MAT and streaming readers; the CSV, MAT, barcode and statistics writers, std::to_string of doubles in the barcode file, and std::stod, atof, atoi and stoi as functions of the text | writeConsole (commented out); failure to open a file for writing (except in C108) |
| `LHFmain/main.cpp` | main, runPipeline, the reduced, upscale and default modes | timing, console output |

Simplifications that hold everywhere: allocation never fails; `int` and `unsigned` do not overflow, except where a comment
says so; a `double` is an exact number (see section 1), and where the code divides (k-means, DenStream) it is an exact
rational.  The constructors of `simplexTree` and `indSimplexTree` leave `nodeCount` and `head` uninitialised; the model takes
`head` as null and `nodeCount` as an arbitrary number `nc0` over which the theorems quantify.  `setUnion` in `checkFace` is
applied to vectors that the code does not keep sorted; the model computes the merge on the list as it is.

## 5. Print Assumptions

Every theorem of every `Properties*.v` file is followed by `Print Assumptions`.  It prints
"Closed under the global context" for all of them but seven: `C104_nearest`, `C104_neighbourhood`, `C104_dbscan`,
`C105_distance_error`, `C106_bars_against_true_distances`, `C106_true_clusters_exist`
and `C107_centroid_error` depend on the axioms of the standard library's real numbers,
`ClassicalDedekindReals.sig_not_dec`, `ClassicalDedekindReals.sig_forall_dec`,
`FunctionalExtensionality.functional_extensionality_dep` and `Classical_Prop.classic`.  `vcheck` lists seven entries `Coq.ssr.ssrunder.Under_rel.*` as library axioms: they are
parameters of a module type inside the standard library's ssreflect files, which are loaded but on which no theorem depends.

## 6. Files

| file | content |
|------|---------|
| `Base.v` | shared vocabulary of the model: outcomes, checked indexing, the C++ standard-library pieces used all over the code base |
| `Spec.v` | vocabulary used in the statements of the properties |
| `RunMonad.v` | programs that may be undefined or may not end (C++ itself, no particular file of /repo) |
| `UtilsModel.v` | model of /repo/Utils/utils.cpp (definitions only) |
| `UtilsProofs.v` | lemmas about Base.v and UtilsModel.v |
| `PartitionProofs.v` | lemmas about the partition helpers of UtilsModel.v |
| `ArrayListModel.v` | model of /repo/Complex/simplexArrayList.cpp (definitions only) |
| `ArrayListProofs.v` | lemmas about ArrayListModel.v |
| `ArrayListInv.v` | invariant of simplexArrayList under insert / expandDimensions / clear |
| `SpecComplex.v` | vocabulary for statements about histories of calls on a complex |
| `ArrayListHist.v` | simplexArrayList over arbitrary histories of calls |
| `TreeModel.v` | model of /repo/Complex/simplexTree.cpp (definitions only) |
| `TreeProofs.v` | simplexTree::insert keeps the strict Vietoris-Rips complex |
| `SpecTree.v` | vocabulary for statements about histories of calls on a simplexTree |
| `TreeHist.v` | invariants of simplexTree objects along every history |
| `FastModel.v` | model of /repo/Pipes/fastPersistence.cpp (definitions only) |
| `SpecGraph.v` | connectivity of weighted graphs, for the statements about dimension-0 persistence |
| `KruskalProofs.v` | the dimension-0 part of fastPersistence computes a minimum spanning forest |
| `SpecLinear.v` | linear algebra over GF(2), for the statements about boundary matrices |
| `LinearProofs.v` | GF(2) spans |
| `SpecFast.v` | vocabulary for the statements about fastPersistence in dimension one and above |
| `ReductionProofs.v` | the column reduction of fastPersistence |
| `FastProofs.v` | clearing, the dimension loop and the whole of fastPersistence |
| `FastRuns.v` | whole runs of fastPersistence: what holds for any value read past the end, what libstdc++ gives, and the Betti curve |
| `ArgModel.v` | model of /repo/Utils/argParser.cpp, of the factories in Pipes/basePipe.cpp and Preprocessing/preprocessor.cpp, of their wrappers, and of the driver functions of LHFmain/main.cpp (definitions only) |
| `SpecArgs.v` | vocabulary for the statements about command lines and pipelines |
| `ArgProofs.v` | lemmas about the argument parser, the factories and the driver |
| `PipeModel.v` | the packet and the pipes of the default pipelines: /repo/Pipes/distMatrixPipe.cpp, neighGraphPipe.cpp, ripsPipe.cpp, fastPersistence.cpp (lines 33-41), pipePacket.cpp (definitions only) |
| `SpecPipe.v` | vocabulary for the statements about whole runs on a point cloud |
| `PipeProofs.v` | lemmas about the pipes of the default pipelines |
| `PipeRuns.v` | whole runs of the default pipeline |
| `GaussModel.v` | the matrix reductions of Pipes/boundaryPipe.cpp, Pipes/persistencePairs.cpp and Pipes/optPersistencePairs.cpp, and the pairing of the latter two |
| `SpecGauss.v` | vocabulary for the statements about 0/1 matrices given as lists of rows |
| `GaussProofs.v` | the eliminations of GaussModel compute ranks |
| `GaussRuns.v` | the pivots of persistencePairs and optPersistencePairs on a simplicial complex |
| `KdModel.v` | Preprocessing/kdTree.cpp and Preprocessing/dbscan.cpp |
| `SpecKd.v` | vocabulary for the statements about the kd-tree and DBSCAN |
| `KdProofs.v` | lemmas about the kd-tree (C26, C27) |
| `DbscanProofs.v` | lemmas about dbscan::cluster (C28) |
| `IoModel.v` | Utils/readInput.cpp and the file writers of Utils/writeOutput.cpp |
| `SpecIo.v` | vocabulary for the statements about reading and writing files |
| `IoProofs.v` | lemmas about reading and writing files (C30-C33, C61) |
| `IoTotal.v` | what reading any CSV file and any stream gives |
| `MatTotal.v` | what reading any MAT file gives |
| `KmeansModel.v` | Preprocessing/kMeansPlusPlus.cpp |
| `SpecKmeans.v` | vocabulary for the statements about k-means |
| `KmeansProofs.v` | lemmas about k-means (C29, C63, C64) |
| `EvalModel.v` | the stream evaluator of /repo/Pipes/slidingWindow.cpp: deleteNNstats, updateStats and nnBasedEvaluator (definitions only) |
| `WindowModel.v` | /repo/Pipes/naiveWindow.cpp and Pipes/slidingWindow.cpp (definitions only) |
| `SpecWindow.v` | vocabulary for the statements about the two streaming windows |
| `WindowProofs.v` | proofs about the streaming windows |
| `SlidingProofs.v` | proofs about slidingWindow |
| `DenStreamModel.v` | Preprocessing/denStream.cpp |
| `SpecDenStream.v` | vocabulary for the statements about DenStream |
| `DenStreamProofs.v` | proofs about micro-clusters and the DenStream run |
| `DenStreamRuns.v` | proofs about whole runs of DenStream |
| `StreamKmModel.v` | Preprocessing/streamingKmeans.cpp |
| `SpecStreamKm.v` | vocabulary for the statements about streaming k-means |
| `StreamKmProofs.v` | proofs about the binary search and the run of streaming k-means |
| `CollapseModel.v` | Complex/simplexArrayList.cpp:291-387: reduceComplex, recurseReduce, deletion |
| `SpecCollapse.v` | vocabulary for the collapse of a complex |
| `CollapseProofs.v` | lemmas about CollapseModel.v |
| `PropertiesUtils.v` | properties of Utils/utils.cpp |
| `PropertiesComplex.v` | property theorems about the complexes |
| `PropertiesTree.v` | property theorems about simplexTree |
| `PropertiesFast.v` | property theorems about fastPersistence |
| `PropertiesDriver.v` | property theorems for Utils/argParser.cpp, the factories and the driver functions |
| `PropertiesPipe.v` | property theorems about whole runs of the default pipelines on a point cloud |
| `PropertiesGauss.v` | property theorems about boundaryPipe, persistencePairs and optPersistencePairs |
| `PropertiesKd.v` | C26, C27, C28: the kd-tree and DBSCAN |
| `PropertiesIo.v` | C30 to C33, C61, C62: reading and writing files |
| `PropertiesKmeans.v` | C29, C63, C64: kMeansPlusPlus |
| `PropertiesWindow.v` | property theorems for Pipes/naiveWindow.cpp and Pipes/slidingWindow.cpp |
| `PropertiesStream.v` | C40, C41, C66, C67, C68, C69: DenStream and streaming k-means |
| `PropertiesCollapse.v` | property theorems about reduceComplex of the array list |
| `CollapseRuns.v` | runs of the default pipeline with the collapse |
| `PropertiesCollapseRuns.v` | property theorems about whole runs with the collapse of the array list |
| `IndModel.v` | model of /repo/Complex/indSimplexTree.cpp (definitions only) |
| `SpecInd.v` | vocabulary for statements about histories of calls on an indSimplexTree |
| `IndProofs.v` | indSimplexTree::insert does what simplexTree::insert does, as long as dimCounts is long enough |
| `IndHist.v` | what an indSimplexTree holds and answers after any legal history of calls |
| `PropertiesInd.v` | property theorems about indSimplexTree |
| `SpecTwist.v` | vocabulary for statements about the reductions on an indexed simplex tree |
| `TwistModel.v` | the two branches of Pipes/optPersistencePairs.cpp that work on the indexed simplex tree: the reduction on sets (complexType "indSimplexTree") and the incremental reduction (twist "true") |
| `TwistProofs.v` | the incremental reduction finds the columns the eager one finds |
| `TwistRuns.v` | the reductions of optPersistencePairs on an indexed simplex tree |
| `PropertiesTwist.v` | property theorems about the reductions of optPersistencePairs on an indSimplexTree |
| `MainModel.v` | the rest of /repo/LHFmain/main.cpp (definitions only): processReducedWrapper, processUpscaleWrapper and main, on the packets of PipeModel.v |
| `LinkModel.v` | the whole program with its own preprocessor k-means++ (definitions only): Preprocessing/kMeansPlusPlus.cpp in the place of the parameter pre_run of MainModel.v |
| `SpecMain.v` | vocabulary for the statements about the whole program |
| `SpecLink.v` | vocabulary for the statements about the program with k-means++ |
| `LinkProofs.v` | k-means++ on numbers that may be "not a number" |
| `MainProofs.v` | later runs of the default pipeline on a packet that was used before |
| `MainRuns.v` | the reduced mode: one run per group of points on the same packet |
| `LinkRuns.v` | the whole program with k-means++ |
| `PropertiesMain.v` | C72 and C73: the program from its command line, and its reduced and upscale modes |
| `PropertiesLink.v` | C85: the program from its command line with its own preprocessor k-means++ |
| `SpecRobust.v` | vocabulary for the statements that compare two runs |
| `RobustProofs.v` | two runs on related point clouds: lemmas about dimension 0 |
| `RobustRuns.v` | two runs on clouds with the same, pairwise different distances: dimension 1 |
| `PropertiesRobust.v` | property theorems that compare the results of two runs of the default pipelines |
| `TreeDeleteModel.v` | model of the deletion, the stream evaluation and the unimplemented queries of simplexTree (/repo/Complex/simplexTree.cpp, /repo/Complex/simplexBase.cpp; definitions only) |
| `TreeDeleteProofs.v` | what deleteIterative, the stream evaluator and the unimplemented queries of simplexTree do |
| `PropertiesTreeDelete.v` | property theorems about deletion from a simplexTree, its unimplemented queries and the stream evaluator |
| `IndReduceModel.v` | model of indSimplexTree::reduceComplex (/repo/Complex/indSimplexTree.cpp; definitions only) |
| `IndReduceProofs.v` | what indSimplexTree::reduceComplex does |
| `PropertiesIndReduce.v` | property theorems about reduceComplex of indSimplexTree |
| `SpecIndRun.v` | vocabulary for whole runs on an indSimplexTree |
| `IndRuns.v` | whole runs of the default pipeline on an indSimplexTree |
| `PropertiesIndRun.v` | property theorems about whole runs on an indSimplexTree |
| `DebugModel.v` | the debug output of the pipes (outputData of /repo/Pipes; definitions only) |
| `SpecDebug.v` | vocabulary for the statements about the files of a debug run |
| `DebugRuns.v` | what the debug output does to a run of the default pipeline |
| `PropertiesDebug.v` | property theorems about the debug output of the pipes |
| `StatsModel.v` | the lines of statistics a run writes: /repo/Pipes/basePipe.cpp (the wrapper), pipePacket.cpp (getSize) and the getSize functions of the complexes (definitions only) |
| `SpecStats.v` | vocabulary for the statements about the statistics of a run |
| `StatsRuns.v` | the statistics of whole runs |
| `PropertiesStats.v` | property theorems about the statistics of a run |
| `AllModel.v` | the program of MainModel.v with all its pipes (definitions only): persistencePairs, optPersistencePairs, boundaryPipe, upscalePipe and the two windows in the place left open by run_pipe |
| `SpecAll.v` | vocabulary for the statements about the program with all its pipes |
| `AllRuns.v` | runs of the program with all its pipes |
| `OwnRuns.v` | runs of the program on command lines that name their own pipeline |
| `UpscaleRuns.v` | an upscale component changes nothing but the statistics |
| `PropertiesAll.v` | C86 and C87: the program from its command line with all its pipes |
| `StreamUtilsModel.v` | Preprocessing/streamingUtils.cpp (definitions only) |
| `StreamUtilsProofs.v` | lemmas about streamingUtils (C88) |
| `PropertiesStreamUtils.v` | C88: streamingUtils |
| `StreamLinkModel.v` | the whole program with its preprocessors streaming k-means and DenStream (definitions only): Preprocessing/streamingKmeans.cpp and denStream.cpp in the place of the parameter pre_run of MainModel.v |
| `SpecStreamLink.v` | vocabulary for the statements about the program with streaming k-means and DenStream |
| `StreamLinkRuns.v` | the whole program with streaming k-means and DenStream |
| `PropertiesStreamLink.v` | C89: the whole program with streaming k-means and DenStream |
| `DoubleModel.v` | utils::vectors_distance in IEEE double arithmetic (definitions only) |
| `SpecDouble.v` | vocabulary for the statements about double arithmetic |
| `DoubleProofs.v` | lemmas about double arithmetic (C90) |
| `DoubleRuns.v` | lemmas about the runs of the program on points with double coordinates (C91) |
| `PropertiesDouble.v` | C90, C91: the distance between points, and a run of the program, in double arithmetic |
| `TextModel.v` | numbers as text: std::to_string of a double, and the text of the barcode file (definitions only) |
| `SpecText.v` | vocabulary for the statements about numbers as text |
| `TextProofs.v` | lemmas about numbers as text (C92) |
| `TextRuns.v` | the text of the barcode file of a run (C92) |
| `PropertiesText.v` | C92: numbers as text, and the text of the barcode file |
| `ReadModel.v` | text as numbers: std::stod, std::atof, std::atoi and std::stoi as the program uses them (definitions only) |
| `SpecRead.v` | vocabulary for the statements about text as numbers |
| `ReadProofs.v` | proofs about text as numbers (C93) |
| `ReadFileProofs.v` | proofs about files of doubles (C93) |
| `ReadUnique.v` | there is one nearest double (C93) |
| `ReadRest.v` | blanks before a number and text behind it; texts without a number (C93) |
| `PropertiesRead.v` | C93: text as numbers, and files of doubles |
| `SpecProgram.v` | vocabulary for the statements about the program from text to text |
| `ProgramModel.v` | the program from the text of its input to the text of its output (definitions only): main of MainModel.v with the doubles of DoubleModel.v, and std::stod, atof, atoi and std::to_string on text |
| `ProgramRuns.v` | proofs about the program from text to text (C94) |
| `PropertiesProgram.v` | C94: the program from the text of its input to the text of its output |
| `NanModel.v` | the program of ProgramModel.v on points whose coordinates need not be numbers, with k-means++ in double arithmetic and the files of the preprocessor (definitions only) |
| `SpecNan.v` | vocabulary for the statements about coordinates that are not numbers and about k-means in double arithmetic |
| `NanRuns.v` | lemmas about runs on points whose coordinates need not be numbers (C95) |
| `NanKmeans.v` | lemmas about k-means in double arithmetic (C95) |
| `NanProgram.v` | the program on any doubles, with and without k-means (C95) |
| `PropertiesNan.v` | C95: coordinates that are not numbers, and k-means in double arithmetic, from text to text |
| `SpecCompare.v` | vocabulary for the statements that compare two runs of the program from text to text |
| `CompareRuns.v` | proofs about two runs of the program from text to text (C96) |
| `PropertiesCompare.v` | C96: how the output text changes with the input text |
| `SpecHigher.v` | vocabulary for the statements about the bars of dimension one and above of a run from text to text |
| `PolygonProofs.v` | points that form a polygon: the loop is lost with libstdc++'s list (C97) |
| `HigherRuns.v` | proofs about the bars of dimension one and above of a run from text to text (C97) |
| `PropertiesHigher.v` | C97: the bars of dimension one and above, from text to text |
| `MatrixModel.v` | a simplexArrayList whose distance matrix is exchanged between its calls (definitions only) |
| `SpecMatrix.v` | vocabulary for statements about complexes whose distance matrix is exchanged between calls |
| `MatrixRuns.v` | proofs about complexes whose distance matrix is exchanged between calls |
| `PropertiesMatrix.v` | C98: complexes whose distance matrix is exchanged between calls, and which histories of calls read outside the matrix |
| `MultisetProofs.v` | the set operations of Utils/utils.cpp on vectors with repeated or unordered elements |
| `PropertiesMultiset.v` | C99: the set operations of Utils/utils.cpp on vectors with repeated elements in any order |
| `SpecNear.v` | vocabulary for the statements about the nearest-neighbour statistics of the sliding window: which distances, averages and numbers are right for a window of points that carry the labels of their partitions |
| `NearProofs.v` | proofs about deleteNNstats, updateStats and nnBasedEvaluator |
| `NearRuns.v` | the loop of updateStats: its state after every iteration |
| `NearEnd.v` | replacing a point of the window: the statistics that deleteNNstats and updateStats leave |
| `NearEval.v` | proofs about nnBasedEvaluator |
| `PropertiesNear.v` | property theorems for the stream evaluator of /repo/Pipes/slidingWindow.cpp |
| `LowRuns.v` | whole runs with a dimension that is not positive |
| `PropertiesLow.v` | C103: runs with a dimension that is not positive |
| `FloatFacts.v` | the double operations of Coq's standard library as rounded operations on real numbers, by Flocq (C104) |
| `FloatSqrt.v` | the rounded square root of a rounded square is not below the number (C104) |
| `SpecKdDouble.v` | vocabulary for the statements about the kd-tree on points with double coordinates |
| `KdDouble.v` | lemmas about the kd-tree and DBSCAN on points with double coordinates (C104) |
| `PropertiesKdDouble.v` | C104: the kd-tree and DBSCAN on points with double coordinates |
| `SpecError.v` | vocabulary for the statement about the error of computed distances |
| `FloatError.v` | how far computed distances are from the true ones (C105) |
| `PropertiesError.v` | C105: how far a computed distance is from the true Euclidean distance |
| `TrueRuns.v` | the bars of a run in double arithmetic against the true distances of the points |
| `PropertiesTrue.v` | C106: the file the program writes against the true distances of the points |
| `SpecMean.v` | vocabulary for the statement about the error of computed means |
| `MeanError.v` | how far computed means are from the true ones (C107) |
| `PropertiesMean.v` | C107: how far the centroids k-means computes are from the means of their points |
| `LogModel.v` | the log of a run and the files runPipeline leaves: /repo/Utils/utils.cpp (writeLog, writeDebug, writeFile), Pipes/basePipe.cpp (the wrapper), Utils/writeOutput.cpp (writeStats, writeBarcodes) and LHFmain/main.cpp (runPipeline); definitions only |
| `SpecLog.v` | vocabulary for the statements about the log of a run |
| `LogRuns.v` | the log of whole runs |
| `PropertiesLog.v` | property theorems about the log of a run and the files it leaves |
| `SpecRadius.v` | vocabulary for the statement about the partitions of the reduced mode in double arithmetic |
| `RadiusDouble.v` | proof for C109 |
| `PropertiesRadius.v` | C109: the partitions of the reduced mode in double arithmetic |
| `WindowFilesModel.v` | the files that the sliding window writes while it runs (definitions only) |
| `SpecWindowFiles.v` | vocabulary for the statement about the files of the sliding window |
| `WindowFilesRuns.v` | proofs for C110 |
| `PropertiesWindowFiles.v` | C110: the files that the sliding window writes |
| `ReducedModel.v` | the reduced mode of /repo/LHFmain/main.cpp in double arithmetic, with k-means++ and the files of the preprocessor (definitions only) |
| `SpecReduced.v` | vocabulary for the statement about the reduced mode in double arithmetic |
| `ReducedRuns.v` | proof for C111 |
| `PropertiesReduced.v` | C111: the reduced mode in double arithmetic, from text to text |
| `EvalDoubleModel.v` | the stream evaluator of /repo/Pipes/slidingWindow.cpp on a window with one partition, in double arithmetic (definitions only) |
| `SpecEvalDouble.v` | vocabulary for the statement about admission to the window in double arithmetic |
| `EvalDouble.v` | admission to the sliding window in double arithmetic (C112) |
| `PropertiesEval.v` | C112: which vectors the sliding window admits, in double arithmetic |
| `SlideDoubleModel.v` | the program in the mode sw (the sliding window) in double arithmetic, from the text of the input to the text of the barcode file (definitions only) |
| `SpecSlide.v` | vocabulary for the statement about the mode sw in double arithmetic |
| `SlideDouble.v` | proof for C113 |
| `PropertiesSlide.v` | C113: the mode sw (the sliding window) in double arithmetic, from text to text |
| `AllTextModel.v` | the program with all its pipes in double arithmetic, from the text of the input to the text of the barcode file (definitions only) |
| `SpecAllText.v` | vocabulary for the statements about the program with all its pipes in double arithmetic |
| `AllText.v` | proofs for C114 |
| `PropertiesAllText.v` | C114: the naive window and the persistence components in double arithmetic, from text to text |
| `ReducedArray.v` | the reduced mode on the two complexes other than the simplexTree |
| `SpecReducedLine.v` | the command line of the reduced mode with the default pipeline spelled out |
| `ReducedLine.v` | the reduced mode on the other complexes, from the command line with k-means++ |
| `PropertiesReducedArray.v` | C115: the reduced mode on a simplexArrayList and on an indSimplexTree |
| `PairsFilesModel.v` | the debug output of persistencePairs, optPersistencePairs and boundaryPipe (definitions only) |
| `SpecPairsFiles.v` | what the files of the pair pipes hold (the vocabulary of C116) |
| `PairsFiles.v` | proofs about the debug output of the pair pipes |
| `PropertiesPairsFiles.v` | the debug output of the pair pipes and of boundaryPipe |
| `SpecReducedStats.v` | vocabulary for the statistics of a run in the mode reduced |
| `ReducedStats.v` | the statistics of the runs of the mode reduced, one block after the other |
| `PropertiesReducedStats.v` | C117: the statistics of a run in the mode reduced |
| `SpecLastText.v` | vocabulary for the text that the last of several pipes leaves in the barcode file |
| `LastText.v` | the last pipe that assigns the bars decides what the barcode file holds |
| `PropertiesLastText.v` | C114: which pipe decides about the text of the barcode file |
| `SpecWords.v` | vocabulary for the words that stand for numbers |
| `PropertiesWords.v` | C93: inf and nan in small and capital letters |
| `SpecLogDebug.v` | the line that is written for debugging |
| `LogDebug.v` | the lines for debugging in the log of whole runs |
| `PropertiesLogDebug.v` | C108: the lines for debugging in the log of a run |
