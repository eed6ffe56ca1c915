{"id": "C01", "title": "Sorted-set algebra is exact", "statement": "utils::setIntersect, utils::symmetricDiff and utils::setXOR return exactly the elements in both arguments / in exactly one argument, as a strictly increasing sequence (setIntersect of a vector with itself returns it in its given order). For vector arguments this holds for any order of the elements when isSorted is false, provided neither vector has repeats.", "quantifier": "all pairs of vertex sets / duplicate-free vertex vectors of any length, every order of their elements", "why_tests_cant": "There are infinitely many pairs of sets; an interleaving or tail case of a merge can be wrong only for particular orders.", "anchors": ["Utils/utils.cpp: utils::setIntersect, utils::symmetricDiff, utils::setXOR"]}
{"id": "C02", "title": "setUnion is the union, except that it returns nothing for equal arguments", "statement": "utils::setUnion returns exactly the sorted union of two different duplicate-free vectors, and returns the EMPTY vector when the two vectors are equal (so it is not a union on equal arguments).", "quantifier": "all pairs of duplicate-free vectors", "why_tests_cant": "A test of different sets passes; the defect shows only on equal non-empty arguments.", "anchors": ["Utils/utils.cpp: utils::setUnion"]}
{"id": "C03", "title": "intersect reports exactly the adjacent pairs", "statement": "utils::intersect returns (symmetric difference, union) when the two arguments differ in exactly two elements, and returns two empty vectors in every other case.", "quantifier": "all pairs of duplicate-free vectors", "why_tests_cant": "The size of the symmetric difference ranges over all naturals; the caller relies on the equivalence.", "anchors": ["Utils/utils.cpp: utils::intersect"]}
{"id": "C04", "title": "getSubsets enumerates the facets exactly once", "statement": "For a simplex with k>=1 distinct vertices, utils::getSubsets returns precisely its k facets (drop one vertex), each once; getSubsets(set,dim) returns precisely its subsets with dim vertices, each once, C(k,dim) of them. For an empty set getSubsets(set) returns nothing.", "quantifier": "all finite vertex sets and all dim", "why_tests_cant": "The enumeration is exponential in k; tests see only tiny k.", "anchors": ["Utils/utils.cpp: utils::getSubsets (three overloads)"]}
{"id": "C05", "title": "Label partitioning loses and duplicates nothing", "statement": "utils::separatePartitions(k,data,labels) puts data[i] in partition labels[i] and nowhere else, keeps input order inside a partition, keeps the index table aligned with the point table, and the partition sizes add up to the number of labels. A label >= k (or a missing data row) is an out-of-range access.", "quantifier": "all data sets, all label vectors, all k", "why_tests_cant": "Losing one point needs a particular label pattern; alignment must hold for every index.", "anchors": ["Utils/utils.cpp: utils::separatePartitions(int,...)"]}
{"id": "C06", "title": "Radius partitioning is the strict ball, and every non-farthest point is covered by its own centroid at the maximum radius", "statement": "utils::separatePartitions(rad,centroids,data,labels) puts point i in partition j iff dist(i,centroid j) < rad. With rad = computeMaxRadius of the same labels every point strictly closer to its own centroid than the farthest one is in its own partition, but the point attaining the maximum radius is NOT in its own centroid's partition; when every point coincides with its centroid every own-partition is empty.", "quantifier": "all data sets, centroids, labels and distance functions", "why_tests_cant": "The dropped point is the one that attains a maximum; whether it is dropped depends on strictness at equality.", "anchors": ["Utils/utils.cpp: utils::separatePartitions(double,...), utils::computeMaxRadius", "LHFmain/main.cpp: processUpscaleWrapper"]}
{"id": "C07", "title": "mapPartitionIndexing does not change the table", "statement": "utils::mapPartitionIndexing leaves every betti-table entry unchanged, whatever the partition labels, unless an index is out of range.", "quantifier": "all betti tables and label vectors", "why_tests_cant": "A caller needs to know it for every table, not for one.", "anchors": ["Utils/utils.cpp: utils::mapPartitionIndexing"]}
{"id": "C08", "title": "Distance matrix and weight list of the distMatrix pipe", "statement": "After the distMatrix pipe the matrix is n x n, every entry above the diagonal is the distance between the two points (0 if the row's point is empty), every other entry is 0, and the weight list is the strictly decreasing enumeration of the distances < epsilon, together with 0, epsilon and the weights that were there before.", "quantifier": "all point clouds, all epsilon, all distance functions", "why_tests_cant": "Entry-by-entry indexing must hold for every n and every pair i<j.", "anchors": ["Pipes/distMatrixPipe.cpp: distMatrixPipe::runPipe"]}
{"id": "C09", "title": "The array-list complex is the Vietoris-Rips complex", "statement": "For every history of insert / expandDimensions / clear calls starting from an empty simplexArrayList, level 0 is the inserted vertices, level 1 is exactly the pairs at distance <= maxEpsilon, and every higher level holds only vertex sets all of whose pairs are at distance <= maxEpsilon; after expandDimensions(D) with no later insert, levels up to D are complete.", "quantifier": "all histories of calls, all distance matrices with non-negative entries, all epsilon, all dimensions", "why_tests_cant": "The algorithm joins pairs of simplices and searches the remaining faces; completeness is a claim about every point configuration and insertion history.", "anchors": ["Complex/simplexArrayList.cpp: simplexArrayList::insert, expandDimensions, find, findWeight, clear"]}
{"id": "C10", "title": "The complex is closed under faces, without duplicates, with monotone weights equal to diameters", "statement": "In every state reached by insert/expandDimensions/clear, each facet of a stored simplex is stored, no simplex is stored twice, vertices have weight 0, every other simplex weighs exactly its largest pairwise distance, so faces never weigh more than cofaces.", "quantifier": "all histories, all distance matrices with non-negative entries", "why_tests_cant": "Invariants over unbounded call sequences.", "anchors": ["Complex/simplexArrayList.cpp: simplexArrayList::insert, expandDimensions"]}
{"id": "C11", "title": "getAllEdges lists exactly the stored simplices by dimension in order of weight", "statement": "simplexArrayList::getAllEdges returns one list per non-empty dimension, each a permutation of the stored simplices of that dimension in non-decreasing weight, whatever order the sort gives to ties, and ignores its epsilon argument.", "quantifier": "all complexes, all epsilon, all tie orders of the sort", "why_tests_cant": "std::sort is unspecified on ties; the consumer relies on any outcome.", "anchors": ["Complex/simplexArrayList.cpp: simplexArrayList::getAllEdges", "Utils/utils.cpp: utils::sortBySecond"]}
{"id": "C12", "title": "expandDimensions is idempotent and monotone", "statement": "Calling expandDimensions again with the same or a smaller dimension changes nothing; a larger dimension only appends new levels.", "quantifier": "all reachable complexes, all dimensions", "why_tests_cant": "Deduplication must catch every regenerated simplex for every complex.", "anchors": ["Complex/simplexArrayList.cpp: simplexArrayList::expandDimensions"]}
{"id": "C13", "title": "The simplex tree holds the strict Vietoris-Rips complex", "statement": "Starting from a null head pointer, after any sequence of insert calls the simplexTree holds, without repeats, exactly the vertex sets whose pairwise distances are all < maxEpsilon and that have at most max(maxDimension,1)+1 vertices, with weight equal to the largest pairwise distance.", "quantifier": "all point sequences, all distance matrices, all epsilon, all maxDimension", "why_tests_cant": "Incremental recursive insertion; completeness and no-duplication quantify over all histories.", "anchors": ["Complex/simplexTree.cpp: simplexTree::insert, recurseInsert"]}
{"id": "C14", "title": "Both complex representations agree away from the threshold", "statement": "For the same points and parameters, if no pairwise distance equals epsilon, the array list after expandDimensions(maxDimension) and the simplex tree hold the same weighted simplices in every dimension; if some distance equals epsilon the array list has that edge and the tree has not.", "quantifier": "all distance matrices and epsilon", "why_tests_cant": "The difference between <= and < only shows at equality.", "anchors": ["Complex/simplexArrayList.cpp: simplexArrayList::insert", "Complex/simplexTree.cpp: simplexTree::recurseInsert"]}
{"id": "C15", "title": "Counts reported by the complexes", "statement": "simplexArrayList::simplexCount is the number of stored simplices and vertexCount the number of inserted vertices; simplexTree::simplexCount is the number of simplices plus whatever nodeCount held before the first insert, and vertexCount is the number of points ever inserted and not removed from the index list.", "quantifier": "all histories", "why_tests_cant": "An uninitialised counter cannot be observed reliably by a test.", "anchors": ["Complex/simplexArrayList.cpp: simplexCount, vertexCount", "Complex/simplexTree.cpp: simplexCount, vertexCount"]}
{"id": "C16", "title": "The indexed simplex tree", "statement": "After any legal history of insert, clear, setDistanceMatrix and getAllEdges an indSimplexTree holds exactly the strict Vietoris-Rips simplices up to the maximal dimension, each once with its diameter, if no simplex has four vertices; otherwise the history wrote outside the three-element counter array. vertexCount and simplexCount both return the number of simplices and the counters by dimension start from 6, 15 and 20. getWeight returns the diameter of a present simplex, 10000 for an absent one of a size that occurs, and is undefined for other sizes. The first getAllEdges returns the complex as a filtration and every later call returns that same list whatever was inserted since. find returns whether the position of the simplex in its sorted level is not 0 (so false for a present simplex at position 0), and dereferences null when the next vertex is not among existing children. search does not return unless it is asked for vertex 0 followed by largest neighbours.", "quantifier": "all legal histories of calls, all parameters, all sorts, all arguments of the queries", "why_tests_cant": "Out-of-range writes and truncation are silent.", "anchors": ["Complex/indSimplexTree.cpp: insert, recurseInsert, getWeight, find, search, sortAndBuildGraph, getAllEdges, vertexCount, simplexCount", "Complex/simplexBase.hpp: dimCounts"]}
{"id": "C17", "title": "Dimension-0 bars count connected components at every scale", "statement": "For fastPersistence: the finite dim-0 bars are the weights at which components merge, so for every threshold t the number of dim-0 bars still alive is (components at t) - (components of the whole complex) + 1, and there are n - c + 1 bars; it equals the true number of components at every scale iff the complex is connected.", "quantifier": "all edge lists sorted by weight (all tie orders), all vertex counts, all thresholds", "why_tests_cant": "A statement about every graph and every threshold; the disconnected case is silently wrong.", "anchors": ["Pipes/fastPersistence.cpp: fastPersistence::runPipe 81-150"]}
{"id": "C18", "title": "The recorded pivots are a minimum spanning forest", "statement": "The pivot edges chosen by fastPersistence are acyclic, connect exactly what all the edges connect, and their multiset of weights is minimal: for every threshold they span the components of the subgraph of edges with at most that weight.", "quantifier": "all weighted graphs, all tie orders", "why_tests_cant": "Optimality over all spanning forests.", "anchors": ["Pipes/fastPersistence.cpp: fastPersistence::runPipe 81-150"]}
{"id": "C19", "title": "Column reduction terminates and pairs each row and column at most once", "statement": "For every column list the reduction loop terminates; no row is paired twice, no column is paired twice, and every emitted bar has birth different from death and, for filtered complexes, birth < death.", "quantifier": "all boundary matrices", "why_tests_cant": "Termination and injectivity for matrices of all sizes.", "anchors": ["Pipes/fastPersistence.cpp: fastPersistence::runPipe 166-247"]}
{"id": "C20", "title": "Death columns are exactly the linearly independent ones", "statement": "A column is paired iff its reduced boundary is not a GF(2) combination of the boundaries of earlier columns, so the number of pairs is the rank of the boundary matrix.", "quantifier": "all boundary matrices over GF(2)", "why_tests_cant": "Rank is a statement about all linear combinations.", "anchors": ["Pipes/fastPersistence.cpp: fastPersistence::runPipe 166-247"]}
{"id": "C21", "title": "Pairs in dimension >= 1 do not follow the elder rule", "statement": "fastPersistence pairs a death column with the OLDEST remaining row instead of the youngest, so there is a Vietoris-Rips complex for which the reported dim-1 bars differ from the persistent homology bars.", "quantifier": "exists a complex (refutation of: for all complexes the bars are the persistence bars)", "why_tests_cant": "The correct answer must be characterised by ranks at all scales to contradict it.", "anchors": ["Pipes/fastPersistence.cpp: fastPersistence::runPipe 166-247"]}
{"id": "C22", "title": "The pivot pointer is dereferenced past the end exactly when a row follows the last pivot", "statement": "The row loop in fastPersistence reads *pivots.end() iff some row index is greater than the last pivot (or there are rows and no pivots), which is undefined behaviour; otherwise each column's face list is exactly the non-pivot faces.", "quantifier": "all complexes and pivot lists", "why_tests_cant": "Undefined behaviour does not show reliably in a test.", "anchors": ["Pipes/fastPersistence.cpp: fastPersistence::runPipe 196-222"]}
{"id": "C23", "title": "Essential classes of dimension >= 1 are never reported", "statement": "No bar of dimension >= 1 emitted by fastPersistence ends at maxEpsilon unless a simplex has that weight: an unfilled cycle produces no bar, and a complex with a hollow cycle as top dimension reports none.", "quantifier": "all complexes", "why_tests_cant": "A negative statement over all outputs.", "anchors": ["Pipes/fastPersistence.cpp: fastPersistence::runPipe 166-247"]}
{"id": "C24", "title": "boundaryPipe's matrix reduction returns the rank", "statement": "boundaryPipe::reduceBoundaryMatrix applied to an m x n 0/1 matrix returns the GF(2) rank and n - rank, and the rows it returns span the same space as the input rows, unless the rows are independent, in which case it reads outside the erased matrix; on an empty matrix it returns (0,0).", "quantifier": "all rectangular 0/1 matrices with at least one row", "why_tests_cant": "Rank over all matrices.", "anchors": ["Pipes/boundaryPipe.cpp: boundaryPipe::reduceBoundaryMatrix"]}
{"id": "C25", "title": "persistencePairs' getRankNull returns as many pivots as the rank", "statement": "The number of indices returned by persistencePairs::getRankNull is the GF(2) rank of the matrix. An empty matrix is an out-of-range access.", "quantifier": "all rectangular 0/1 matrices", "why_tests_cant": "Rank over all matrices.", "anchors": ["Pipes/persistencePairs.cpp: persistencePairs::getRankNull"]}
{"id": "C26", "title": "kd-tree nearest neighbour is a true nearest neighbour", "statement": "kdTree::nearestIndex returns the index of a point whose distance to the query is minimal among all points in the tree; a tree of no points has no defined answer, and a tree over more points than given is undefined.", "quantifier": "all point sets of equal positive dimension, all queries, any distance that dominates coordinate differences, all tie orders of the sort", "why_tests_cant": "Branch pruning must be right for every configuration.", "anchors": ["Preprocessing/kdTree.cpp: kdTree::makeTree, findNearest, nearest"]}
{"id": "C27", "title": "kd-tree neighbourhood is sound, complete inside the open ball, and can miss points on the sphere", "statement": "kdTree::neighborhoodIndices returns only points within rad, each at most once, includes every point at distance < rad, and may omit a point at distance exactly rad.", "quantifier": "all point sets, queries, radii, sort tie orders", "why_tests_cant": "Pruning correctness; the sphere case depends on the tree shape.", "anchors": ["Preprocessing/kdTree.cpp: kdTree::neighborhood"]}
{"id": "C28", "title": "DBSCAN labels", "statement": "dbscan::cluster terminates and gives every point a label: a core point gets a positive label equal to that of all core points reachable from it, two core points share a label iff they are density-connected, noise points (-1) have no core neighbour, border points get the label of a cluster that has a core neighbour of it; clusters are numbered from 1 without gaps. With epsilon 0 a point can be left with label 0.", "quantifier": "all data sets, minPoints, epsilon and symmetric neighbourhood relations", "why_tests_cant": "The result depends on a traversal order; the claim is about every data set.", "anchors": ["Preprocessing/dbscan.cpp: dbscan::cluster, expandCluster"]}
{"id": "C29", "title": "k-means assignment labels are nearest centroids, and the last point is never labelled", "statement": "Each iteration of kMeansPlusPlus assigns every point except the last the lowest index of a nearest centroid; exactly n-1 labels are produced; the last data point takes no part in any sum.", "quantifier": "all data sets, all centroid lists, all iterations", "why_tests_cant": "An off-by-one at the last element for every n.", "anchors": ["Preprocessing/kMeansPlusPlus.cpp: runPreprocessor 107-157"]}
{"id": "C30", "title": "CSV reading inverts CSV writing", "statement": "Reading with readInput::readCSV a file written by writeOutput::writeCSV from rows whose cells print as at least one character and parse back, gives back the non-empty rows, with the printed precision. A file written with the barcode header makes the reader throw.", "quantifier": "all matrices, all number formats that print cells and parse them back", "why_tests_cant": "Round trip for all sizes.", "anchors": ["Utils/readInput.cpp: readCSV, parseDoubleVector", "Utils/writeOutput.cpp: writeCSV"]}
{"id": "C31", "title": "CSV lines of at most one character are dropped", "statement": "readCSV skips every line that has fewer than two characters after removing spaces, keeps all other lines in order (a comma at the end is tolerated), and throws exactly if one of the other lines has a cell that is no number, an empty one included; a one-column file with one-digit values loses those rows. A file that cannot be opened reads as no rows, as it does with readMAT.", "quantifier": "all files", "why_tests_cant": "Depends on the printed width of the data.", "anchors": ["Utils/readInput.cpp: readCSV, parseDoubleVector"]}
{"id": "C32", "title": "MAT reading inverts MAT writing", "statement": "Reading with readMAT a file written by writeMAT gives back the matrix when it is rectangular; otherwise the values are cut into rows of the width of the first row. Writing an empty matrix is undefined.", "quantifier": "all rectangular matrices", "why_tests_cant": "Round trip for all sizes.", "anchors": ["Utils/readInput.cpp: readMAT", "Utils/writeOutput.cpp: writeMAT"]}
{"id": "C33", "title": "Streaming read delivers one line per call and stops at the first short line or end of file", "statement": "Successive streamRead calls deliver the parsed lines of the file in order; the consumer stops at the first line of spaces, at the end of the file or at a last line of one character; a line longer than the buffer is cut after 999 characters. It throws exactly if a cell read before that is no number.", "quantifier": "all files", "why_tests_cant": "Histories of calls over all files.", "anchors": ["Utils/readInput.cpp: streamInit, streamRead"]}
{"id": "C34", "title": "Argument parsing: the last occurrence wins within a form, the short form over the long one, defaults fill the rest", "statement": "After argParser::parse every option has the value of the last pair of words that gives it by its short name; if there is none, of the last pair that gives it by its long name; if there is none, its documented default. Short names do not remain in the map, unknown names are kept with their last value. The parse is undefined exactly if the number of words is odd and the last word is a flag. (So a long form given after a short form does not override it.)", "quantifier": "all argument vectors", "why_tests_cant": "Infinitely many command lines, including odd counts and repeated flags.", "anchors": ["Utils/argParser.cpp: parse, defaultArguments"]}
{"id": "C35", "title": "setPipeline is a total function of mode and options", "statement": "argParser::setPipeline selects the documented pipeline string, complex type and preprocessor for every combination of mode and complex type, and leaves other options unchanged.", "quantifier": "all option maps", "why_tests_cant": "Every combination including unknown values.", "anchors": ["Utils/argParser.cpp: setPipeline"]}
{"id": "C36", "title": "A pipeline string is executed part by part in order", "statement": "runPipeline runs exactly the '.'-separated components in order, each on the packet returned by the previous one; a component that cannot be created or configured is reported and leaves the packet unchanged.", "quantifier": "all pipeline strings, all pipe behaviours", "why_tests_cant": "String splitting loop over all strings.", "anchors": ["LHFmain/main.cpp: runPipeline"]}
{"id": "C37", "title": "Pipe and preprocessor factories", "statement": "basePipe::newPipe and preprocessor::newPreprocessor return an object exactly for the documented names and null otherwise.", "quantifier": "all strings", "why_tests_cant": "All strings.", "anchors": ["Pipes/basePipe.cpp: newPipe", "Preprocessing/preprocessor.cpp: newPreprocessor"]}
{"id": "C38", "title": "The naive window is a FIFO of the last 50 points", "statement": "After reading m points with a simplexTree the naive window holds the last min(m,50) points in arrival order; the complex is the Vietoris-Rips complex of the first 50 points, is built exactly once and never changes, so every printed line repeats its counts; fewer than 50 points leave the packet alone; no bars are computed. With a simplexArrayList the window stops at the first 50 points.", "quantifier": "all streams of points, options, sort functions and non-negative distances", "why_tests_cant": "Invariant over unbounded streams.", "anchors": ["Pipes/naiveWindow.cpp: runPipe, runSubPipeline", "Complex/simplexTree.cpp: insertIterative"]}
{"id": "C39", "title": "The sliding window keeps its first 200 points, or the run is undefined", "statement": "The sliding window fills with the first 200 points, and the complex is then their Vietoris-Rips complex. A run over more points is defined exactly when every later point is turned away (distance 0; or average nearest-neighbour distance at most 1/4 and distance at most 1; or distance at most 4 times the average) and no two of the first 200 points are closer than epsilon. In a defined run the window, its keys 0..199, the complex and the statistics stay those of the first 200 points; no point is ever replaced, and no bars reach the packet.", "quantifier": "all streams of points, options, sort functions and non-negative distances", "why_tests_cant": "Invariant over unbounded streams; the failure needs a window of 200 points and a particular next point.", "anchors": ["Pipes/slidingWindow.cpp: nnBasedEvaluator, deleteNNstats, updateStats, runPipe, runSubPipeline", "Pipes/persistencePairs.cpp: runPipe"]}
{"id": "C40", "title": "DenStream neighbour search returns the first nearest micro-cluster", "statement": "denStream::nearestPCluster / nearestOCluster return the smallest index of a micro-cluster whose centre is at minimal distance.", "quantifier": "all cluster lists and points", "why_tests_cant": "All lists and ties.", "anchors": ["Preprocessing/denStream.cpp: nearestPCluster, nearestOCluster"]}
{"id": "C41", "title": "Streaming k-means binary search", "statement": "streamingKmeans::binarySearch ends on every non-empty ascending list within as many rounds as there are elements and returns an index r such that element r is not above and element r+1 not below the query, -1 exactly when the query is not above the first element, and the last index exactly when it is above the last; with a not-a-number in the list it can run forever.", "quantifier": "all sorted lists and queries", "why_tests_cant": "Termination of a loop with high=mid/low=mid updates.", "anchors": ["Preprocessing/streamingKmeans.cpp: binarySearch"]}
{"id": "C42", "title": "What collapsing the array list keeps: connectivity, not homology", "statement": "reduceComplex on any array-list complex built by insertions and expansions terminates, keeps every vertex, removes every simplex of dimension two or more and removes exactly the edges that are the heaviest face of a triangle that is itself not removed as a heaviest face; at every scale the same vertices stay connected and the number of components is unchanged, but holes can be created: the first Betti number of two triangles that share their heaviest edge goes from 0 to 1.", "quantifier": "all histories of insertions, expansions and clears, all distances, every scale; for the hole: there is a complex", "why_tests_cant": "Termination and result of a mutually recursive removal over every complex; the claim refuted (homology is preserved) is universally quantified.", "anchors": ["Complex/simplexArrayList.cpp: reduceComplex, recurseReduce, deletion"]}
{"id": "C43", "title": "Collapse on the simplex tree does nothing", "statement": "simplexTree::reduceComplex leaves the tree's simplices unchanged.", "quantifier": "all reachable trees", "why_tests_cant": "All reachable states.", "anchors": ["Complex/simplexTree.cpp: reduceComplex"]}
{"id": "C44", "title": "An unconfigured pipe returns its input", "statement": "runPipeWrapper and runPreprocessorWrapper return the packet unchanged if the pipe has not been configured.", "quantifier": "all packets", "why_tests_cant": "All packets.", "anchors": ["Pipes/basePipe.cpp: runPipeWrapper", "Preprocessing/preprocessor.cpp: runPreprocessorWrapper"]}
{"id": "C45", "title": "End to end: default pipeline dim-0 bars are the single-linkage merge heights of the points", "statement": "Running distMatrix, neighGraph, rips, fast on a point cloud outputs as finite dim-0 bars exactly the heights at which the epsilon-neighbourhood graph components merge.", "quantifier": "all point clouds with at least one pair within epsilon, all epsilon", "why_tests_cant": "Composition of all stages over all inputs.", "anchors": ["Pipes/distMatrixPipe.cpp", "Pipes/neighGraphPipe.cpp", "Pipes/ripsPipe.cpp", "Pipes/fastPersistence.cpp"]}
{"id": "C46", "title": "Distance between vectors: when it is defined", "statement": "utils::vectors_distance(a,b) is 0 when b is empty whatever a is, reads outside b (undefined) exactly when b is non-empty and shorter than a, ignores the extra coordinates of a longer b, and is symmetric on vectors of equal length.", "quantifier": "all vectors over any number type and any square/sum/root operations (square difference symmetric for the symmetry part)", "why_tests_cant": "Mixed-length rows come from data files; out-of-range reads are silent.", "anchors": ["Utils/utils.cpp: utils::vectors_distance"]}
{"id": "C47", "title": "Boundary partitions hold exactly the points whose label is listed", "statement": "utils::separateBoundaryPartitions puts point i in partition j iff the label of i is in boundary list j, in input order.", "quantifier": "all boundary lists, data sets, labels", "why_tests_cant": "Index alignment for every size.", "anchors": ["Utils/utils.cpp: utils::separateBoundaryPartitions", "LHFmain/main.cpp: processUpscaleWrapper"]}
{"id": "C48", "title": "find and findWeight answer membership and weight", "statement": "On every complex reached by insert/expandDimensions/clear, simplexArrayList::find tells exactly whether a non-empty vertex vector is a stored simplex, and findWeight returns its diameter, or -1 when it is absent; the empty vector, and for findWeight a vector longer than the deepest level, are out-of-range accesses.", "quantifier": "all call histories, matrices, thresholds and query vectors", "why_tests_cant": "The answer must be right for every query on every reachable complex.", "anchors": ["Complex/simplexArrayList.cpp: simplexArrayList::find, simplexArrayList::findWeight"]}
{"id": "C49", "title": "getDimEdges lists the stored simplices of one size below a scale", "statement": "simplexArrayList::getDimEdges(dim,epsilon) returns, without repeats, exactly the stored simplices with dim vertices all of whose pairwise distances are at most epsilon; nothing for dim <= 0 or beyond the deepest level.", "quantifier": "all call histories, matrices, dim and epsilon", "why_tests_cant": "The filter is a nested loop with an inner break only; every size and scale must agree.", "anchors": ["Complex/simplexArrayList.cpp: simplexArrayList::getDimEdges"]}
{"id": "C50", "title": "Reusing a simplex tree after clear", "statement": "After any history of insert, clear, setDistanceMatrix and getAllEdges calls (matrix exchanged only while the complex is empty, clear only on a non-empty complex) the tree holds the strict Vietoris-Rips complex of the points inserted since the last clear, numbered from the count of points inserted before; clear writes to freed memory (so by the standard it is undefined), dereferences a null head on an empty tree, and leaves simplexCount too high by the number of non-vertex simplices.", "quantifier": "all histories, matrices, epsilon, maxDimension", "why_tests_cant": "Depends on how many points were inserted before every earlier clear; use after free is silent.", "anchors": ["Complex/simplexTree.cpp: insert, clear, deletion"]}
{"id": "C51", "title": "simplexTree::getAllEdges sorts once per object", "statement": "The first getAllEdges call returns every level as a permutation sorted by weight, and repeats of the call return the same; simplices inserted after a getAllEdges call come back in insertion order, not sorted.", "quantifier": "all histories, all sorting algorithms", "why_tests_cant": "Whether the list is sorted depends on the whole call history.", "anchors": ["Complex/simplexTree.cpp: getAllEdges"]}
{"id": "C52", "title": "simplexTree::getDimEdges boundary", "statement": "getDimEdges(d) lists the d-dimensional simplices when d is at most the top dimension, reads one past the end of the level list when d is exactly one more, and returns nothing for larger or negative d.", "quantifier": "all trees and all int arguments", "why_tests_cant": "An out-of-range read may go unnoticed at run time.", "anchors": ["Complex/simplexTree.cpp: getDimEdges"]}
{"id": "C53", "title": "The betti table omits merging edges that start a component", "statement": "fastPersistence prints one dimension-0 bar for every edge that merges two components, but the betti table of the packet only gets an entry for a merging edge that shares a vertex with an earlier edge; in dimension 1 and above table and printed bars agree, in order.", "quantifier": "all filtered complexes, all tie orders, all values read past the end", "why_tests_cant": "The two outputs agree on many small inputs; the discrepancy depends on the whole edge order.", "anchors": ["Pipes/fastPersistence.cpp: fastPersistence::runPipe 81-150, 225-245"]}
{"id": "C54", "title": "Isolated points make fastPersistence read out of range", "statement": "If no two points are within epsilon, the complex has a single level and fastPersistence reads edges[1] beyond the end of the vector.", "quantifier": "all point sets with all distances above epsilon, all histories that build them", "why_tests_cant": "Undefined behaviour does not show reliably in a test.", "anchors": ["Pipes/fastPersistence.cpp: fastPersistence::runPipe 41-81"]}
{"id": "C55", "title": "The bars alive at a scale never exceed the Betti number", "statement": "For fastPersistence and every dimension d >= 1 it processes, the number of reported d-bars alive at a scale t is at most the d-th Betti number of the complex at scale t, and they are equal at every scale iff the whole complex has d-th Betti number 0 (provided the value read past the end is not a row number).", "quantifier": "all filtered complexes, all scales", "why_tests_cant": "Betti numbers at every scale of every complex.", "anchors": ["Pipes/fastPersistence.cpp: fastPersistence::runPipe 166-247"]}
{"id": "C56", "title": "No bar of the requested dimension is ever reported", "statement": "A run of the default pipeline with -d D reports only bars of dimension below D; in particular the default -d 1 reports only connected components.", "quantifier": "all point clouds without empty points, both default complexes, all D > 0, all epsilon, every defined run", "why_tests_cant": "Tests see particular outputs; that no input at all yields a bar of dimension D needs the loop bound of the reduction.", "anchors": ["Pipes/fastPersistence.cpp: fastPersistence::runPipe 166-167", "Pipes/neighGraphPipe.cpp", "Pipes/ripsPipe.cpp"]}
{"id": "C57", "title": "persistencePairs: the pivots are right, the run is undefined", "statement": "persistencePairs marks as pivots exactly the simplices whose boundary is not a sum of boundaries of earlier simplices of their dimension, numbered over all levels; but runPipe reads one past the end of its tArray as soon as the complex has an edge, so a defined run exists only for complexes with vertices only, where it prints one bar per vertex if 1 < dim and nothing otherwise.", "quantifier": "all simplicial complexes, all non-negative dim and epsilon", "why_tests_cant": "The pivots depend on the ranks of all boundary matrices; the out-of-range read is silent.", "anchors": ["Pipes/persistencePairs.cpp: createBoundaryMatrix, getRankNull, runPipe"]}
{"id": "C58", "title": "optPersistencePairs: clearing keeps the pivots, the numbering is shifted, the run is undefined", "statement": "Skipping the rows of the maximal faces found in the dimension above does not change the set of pivot simplices; their numbers are too high by the number of simplices above dimension dim; runPipe reads out of range for every complex when dim >= 1.", "quantifier": "all simplicial complexes, all dim", "why_tests_cant": "Soundness of clearing is a theorem about cycles, not a finite check.", "anchors": ["Pipes/optPersistencePairs.cpp: createBoundaryMatrix, getRankNull, runPipe"]}
{"id": "C59", "title": "The set variant of getRankNull ignores row numbers beyond the number of columns", "statement": "optPersistencePairs::getRankNull on sets returns the columns that are fresh after deleting all row numbers not below the number of columns; it is right when every row number is below the number of columns and misses pivots otherwise.", "quantifier": "all lists of sets", "why_tests_cant": "The loop bound is right for square matrices only.", "anchors": ["Pipes/optPersistencePairs.cpp: getRankNull(std::vector<std::set<unsigned>>)"]}
{"id": "C60", "title": "boundaryPipe never produces Betti numbers", "statement": "boundaryPipe::runPipe reads past the end of its result vector for every dim other than 0 and yields nothing for dim = 0.", "quantifier": "all dim and all weight lists", "why_tests_cant": "The read is silent.", "anchors": ["Pipes/boundaryPipe.cpp: runPipe"]}
{"id": "C61", "title": "Short MAT files are completed silently", "statement": "When a MAT file has fewer values than its header announces, readMAT leaves the missing values out if the file ends with a newline, and repeats the last value in every missing place if it does not. In general a file without two counts gives no rows, a count that is no number throws, and otherwise the rows are cut from the lines in order, the last line being read again when there are no more; blank lines give no value, and it throws exactly if another line that is read is no number.", "quantifier": "all files", "why_tests_cant": "Depends on the state of the stream after the end of the file.", "anchors": ["Utils/readInput.cpp: readMAT"]}
{"id": "C62", "title": "A written CSV file cannot be streamed", "statement": "Every file written by writeCSV whose first row is not empty and fits the buffer makes streamRead throw on its first line, because of the comma at the end of the line; readCSV reads the same file.", "quantifier": "all matrices with a non-empty first row", "why_tests_cant": "Interplay of two formats over all data.", "anchors": ["Utils/readInput.cpp: streamRead, parseDoubleVector", "Utils/writeOutput.cpp: writeCSV"]}
{"id": "C63", "title": "k-means centroids are means of their members", "statement": "The centroids k-means++ returns are, coordinate by coordinate, the mean of the points carrying their label, the last data point left out; the labels are nearest to the centroids of the iteration before, and once a further iteration leaves the labels unchanged they are nearest to the returned centroids.", "quantifier": "all data sets of one dimension, all initial centroids, all iteration limits", "why_tests_cant": "Every data set and every number of iterations.", "anchors": ["Preprocessing/kMeansPlusPlus.cpp: runPreprocessor 85-150"]}
{"id": "C64", "title": "k-means++ starts from different data points", "statement": "The initial centroids are num_clusters pairwise different data points, whatever the random draws; the search for them leaves the data exactly when the data has fewer different points than num_clusters; otherwise the run gives num_clusters centroids of the data's dimension and one label less than points, all below num_clusters.", "quantifier": "all data sets, all random draws, all numbers of clusters and iterations above 0", "why_tests_cant": "The draws are random; all of them must be covered.", "anchors": ["Preprocessing/kMeansPlusPlus.cpp: runPreprocessor 28-164"]}
{"id": "C65", "title": "The sliding window starts with the right nearest neighbours", "statement": "The initialiser of the sliding window stores for every point of a window of at least two points the smallest index of a nearest other point and its distance, together with the Vietoris-Rips complex of the window.", "quantifier": "all windows of at least two points, all non-negative distances", "why_tests_cant": "All point configurations, including ties.", "anchors": ["Pipes/slidingWindow.cpp: runComplexInitializer"]}
{"id": "C66", "title": "A micro-cluster summarises the faded points inserted into it", "statement": "After any sequence of insertions at any times, the weight of a micro-cluster at time T is the sum of the fading factors of its points at T, its centre is their weighted mean and its squared radius their weighted variance (never negative, in exact arithmetic, and independent of T); mergeRadius is the radius the cluster would have after inserting the point.", "quantifier": "all sequences of points and times, all fading factors with lambda(a+b)=lambda(a)lambda(b)", "why_tests_cant": "The incremental update has to be equal to the definition over all histories.", "anchors": ["Preprocessing/denStream.cpp: microCluster::insertPoint, getCenter, getRadius, getWeight, mergeRadius"]}
{"id": "C67", "title": "DenStream returns faded means of disjoint groups of points", "statement": "On at least 1000 points denStream terminates and returns the faded means of disjoint groups of the points; each group is either a DBSCAN cluster of the first 1000 points that later points did not join, or its radius is at most epsilon; each group began as a DBSCAN cluster or as a group whose faded weight exceeded 2. A check drops exactly the groups whose faded weight is below 2: after a check at the last point every group weighs at least 2, and if no check happens no point of a DBSCAN cluster is lost. On fewer than 1000 points it reads past the end of the data.", "quantifier": "all data sets, all fading factors, all epsilon not equal to a distance, all pruning periods", "why_tests_cant": "All streams; the invariant has to survive merging, promotion and pruning.", "anchors": ["Preprocessing/denStream.cpp: runPreprocessor, merging"]}
{"id": "C68", "title": "DenStream turns noise into the origin", "statement": "When the data are exactly 1000 points and none has 20 points in its neighbourhood, denStream replaces the data by one point, the origin, wherever the data are.", "quantifier": "all data sets of 1000 points without dense points", "why_tests_cant": "All such data sets.", "anchors": ["Preprocessing/denStream.cpp: runPreprocessor"]}
{"id": "C69", "title": "Streaming k-means never returns", "statement": "A configured streamingKmeans preprocessor never returns new data: whatever the data, the random draws and the arithmetic, it reads out of range; not configured it returns the data unchanged.", "quantifier": "all data, all draws, all number operations", "why_tests_cant": "Covers all random draws and all data.", "anchors": ["Preprocessing/streamingKmeans.cpp: runPreprocessor", "Preprocessing/streamingKmeans.cpp: binarySearch, approxNearestNeighbor"]}
{"id": "C70", "title": "What the collapse option changes in the result of a run", "statement": "A default run on a simplexArrayList with -z true (or 1) and a positive -d computes the persistence of the flag complex, up to dimension -d + 1, of exactly the edges of the Vietoris-Rips complex that are not the top face of a triangle that stays in the collapse. Its bars of dimension 0 are those of the run without collapse: they die at the single-linkage heights. The collapse always ends, and the run is undefined in exactly the case in which a run without collapse is: no two points close. The holes are not kept: with -d 2 or less no bar of dimension 1 or more is ever reported.", "quantifier": "every list of non-empty points, every non-negative distance, every epsilon and dimension, every sort function, every behaviour of the reads past the end of the pivots", "why_tests_cant": "tests with collapse compare a few point clouds; which edges survive depends on all triangles at once", "anchors": ["LHFmain/main.cpp: runPipeline", "Pipes/ripsPipe.cpp: runPipe", "Complex/simplexArrayList.cpp: reduceComplex", "Pipes/fastPersistence.cpp: runPipe"]}
{"id": "C71", "title": "Persistence pairs on an indexed simplex tree", "statement": "The incremental (twist) reduction of optPersistencePairs, given correct boundary sets, ends and marks exactly the columns that are not sums of earlier ones. On an indSimplexTree, however, the boundary sets are built from a bool, so in each dimension only two pivots are ever found: the first simplex that has the first simplex of the dimension below as a face, and the first that has not. A run with twist for dimensions of 1 or more therefore always reads past the end of its table, with any complex; without twist the same holds except for dimensions = 1 and a single edge away from vertex 0, where every point is reported as a class living up to epsilon. With dimensions = 0 nothing is reported.", "quantifier": "every legal history of insertions into an indSimplexTree, every sort function, every number of dimensions, every boundary sets of every size", "why_tests_cant": "the order in which rows and columns are filled depends on the whole complex; undefined behaviour is invisible to tests", "anchors": ["Pipes/optPersistencePairs.cpp: getRankNull, createBoundarySets, runPipe", "Complex/simplexBase.hpp: graphEntry::getFaces, getAllSubsets", "Complex/indSimplexTree.cpp: find, getIndexEdges"]}
{"id": "C72", "title": "From the command line and the file to the barcode file", "statement": "A command line in mode standard or fast without preprocessor, collapse, upscale, mpi or own pipeline, on a file with at least one point: if the program ends, it writes one barcode file, named as the output option plus .csv (none if the output is console), and the bars of dimension 0 in it end at the single-linkage heights of the points of the file and at epsilon. It is undefined if no two points are close, and with libstdc++ lists it ends in every other case. Without points it prints the usage text and writes nothing; a cell that is no number ends it with an exception. With mpi 1 or in the mode upscaleBound it never computes a bar: it prints how many points have each label, is undefined if a label is not below the number of clusters, and throws if that number is negative.", "quantifier": "every command line of that kind, every file, every non-negative distance, every sort function, every preprocessor", "why_tests_cant": "end-to-end tests run a few command lines on a few files", "anchors": ["LHFmain/main.cpp: main, processDataWrapper, processUpscaleWrapper, runPipeline", "Utils/argParser.cpp: parse, setPipeline", "Utils/readInput.cpp: readCSV"]}
{"id": "C73", "title": "The reduced mode", "statement": "In the reduced mode the pipeline runs on the points around each centroid (closer than twice the largest radius) and then on the centroids. If it ends, every run wrote the same file, so that only the bars of the centroids remain; in each group the bars of dimension 0 end at the lengths of the edges of a spanning forest of the graph of close points; in the first group these are the single-linkage heights, in later groups they need not be (witness). It is undefined if the write to freed memory when the tree is cleared is, if some group has no two close points, or if some later group with two adjacent short edges is not larger than all groups before it together.", "quantifier": "every preprocessor result (centroids and labels), every non-negative distance, every epsilon and dimension, every sort function", "why_tests_cant": "the state of the shared tree and table depends on all groups handled before", "anchors": ["LHFmain/main.cpp: processReducedWrapper", "Complex/simplexTree.cpp: clear, insert, getAllEdges", "Utils/utils.cpp: separatePartitions, computeMaxRadius, mapPartitionIndexing", "Pipes/fastPersistence.cpp: runPipe"]}
{"id": "C74", "title": "Bars of dimension 0 depend only on the distances", "statement": "Two runs of a default pipeline on point clouds whose points can be matched at the same distances report the same lines of dimension 0, in the same order. In particular the order of the points, the order in which the sort puts equal weights, the dimension option and the memory behind the pivot list do not change them.", "quantifier": "every pair of clouds and symmetric non-negative distances, every matching, every epsilon and complex type, every two dimensions, sort functions and memory contents", "why_tests_cant": "the matching ranges over all permutations of all clouds; the sort is unstable in the standard", "anchors": ["Pipes/fastPersistence.cpp: runPipe", "Pipes/distMatrixPipe.cpp: runPipe", "Complex/simplexTree.cpp: insert, getAllEdges", "Complex/simplexArrayList.cpp: insert"]}
{"id": "C75", "title": "Threshold and scale", "statement": "A run with a smaller epsilon (or with the complex that joins fewer points) reports exactly those deaths of dimension 0 of the other run that are still close. Measuring all distances on another strictly increasing scale moves every death of dimension 0 to that scale.", "quantifier": "every cloud, every two thresholds and complex types of which one joins fewer points, every strictly increasing map of distances", "why_tests_cant": "relates two runs at arbitrary thresholds and scales", "anchors": ["Pipes/fastPersistence.cpp: runPipe", "Complex/simplexTree.cpp: insert", "Complex/simplexArrayList.cpp: insert"]}
{"id": "C76", "title": "Stability, added points and repeated points in dimension 0", "statement": "If no distance changes by more than delta then the k-th death of dimension 0 does not change by more than delta, and a bar that appears or disappears ends within delta of the threshold. Adding points never makes the k-th death later. The number of bars of length 0 is the number of points that repeat an earlier one.", "quantifier": "every two clouds of the same size and every delta; every cloud and every list of added points", "why_tests_cant": "a bound over all perturbations of all clouds", "anchors": ["Pipes/fastPersistence.cpp: runPipe", "Pipes/distMatrixPipe.cpp: runPipe", "Complex/simplexTree.cpp: insert", "Complex/simplexArrayList.cpp: insert"]}
{"id": "C77", "title": "Bars of dimension 1 and the order of the points", "statement": "With libstdc++ and pairwise different distances, two runs with at least dimension 2 on matched clouds report the same bars of dimension 1 (as a multiset). With equal distances this fails: the same five points of the plane in another order lose their only bar of dimension 1.", "quantifier": "every pair of matched clouds with pairwise different distances, every epsilon and complex type, every two dimensions from 2 on and sort functions; two concrete orders for the refutation", "why_tests_cant": "the matching ranges over all permutations of all clouds, and the failure needs a particular tie", "anchors": ["Pipes/fastPersistence.cpp: runPipe", "Complex/simplexTree.cpp: getAllEdges", "Complex/simplexArrayList.cpp: expandDimensions"]}
{"id": "C78", "title": "What is not robust in dimension 1 and 2", "statement": "The bars of dimension 2 depend on the order of the points even when all distances differ, and the bars of dimension 1 are not stable: there is a cloud in which a change of at most 1 of the distances removes a bar of length 100.", "quantifier": "two concrete clouds each, run through the whole default pipeline", "why_tests_cant": "a refutation of a claim over all clouds that every user of persistent homology expects", "anchors": ["Pipes/fastPersistence.cpp: runPipe"]}
{"id": "C79", "title": "What deleting a point from a simplex tree does", "statement": "After any legal history of calls on a simplexTree, deleteIterative(key, index): (a) leaves the simplices that getAllEdges lists and the vertexCount as they were, so every simplex with the deleted point is still listed; (b) takes row index off the distance matrix but no column (the columns are erased from copies), and is undefined if the index is not a row or a remaining row has exactly index entries; (c) takes the vertex out of the list the next insertion is compared with and leaves simplexCount alone if the vertex is not the first one or not present; (d) if it is the first of several vertices, simplexCount drops by the number of vertices and every later insert, deleteIterative or clear is undefined; (e) if it is the only vertex, the next point appears as a new level of the listing and the insertion after that is undefined; (f) after deleting a later point the next insertion reads distances from wrong rows and can list a triangle whose edge is not listed.", "quantifier": "every threshold, dimension bound, matrix, sort, legal history of calls, key and index", "why_tests_cant": "the damage depends on the whole history before the deletion and on the calls after it", "anchors": ["Complex/simplexTree.cpp: deleteIterative, deleteIndexRecurse, deletion", "Complex/simplexTree.cpp: insert, clear, getAllEdges, vertexCount"]}
{"id": "C80", "title": "The unimplemented queries and the stream evaluator of a simplex tree", "statement": "After any legal history, find answers no and findWeight answers 1 for every simplex, listed or not, getd0Pairs answers with no pairs and deletion of a set changes nothing and answers no (it is undefined on an empty tree). The stream evaluator accepts every vector: it is undefined for a window of fewer than 20 vectors or when a distance is undefined, and otherwise logs mean and standard deviation of all distances and of the 20 smallest distances, whatever sort is used. insertIterative answers yes on an empty window without asking the evaluator, otherwise what the evaluator answers, counts the accepted vectors, changes nothing else, and is undefined if no evaluator was set.", "quantifier": "every legal history; every number type, arithmetic, distance, sort, window, vector and evaluator", "why_tests_cant": "the answers must hold for every stored complex and every window of every size", "anchors": ["Complex/simplexTree.cpp: find, findWeight, getd0Pairs, deletion, insertIterative", "Complex/simplexBase.cpp: streamEvaluator, setStreamEvaluator", "Utils/utils.cpp: nearestNeighbors"]}
{"id": "C81", "title": "What reduceComplex of the indexed simplex tree removes", "statement": "After any legal, defined history of calls on an indSimplexTree, reduceComplex ends and is defined. It keeps every vertex, the listing of an earlier getAllEdges (so after one the listing stays the unreduced one), the order of what stays, and simplexCount drops by exactly the number of simplices removed. Below maximal dimension 2 it changes nothing. Otherwise every triangle that has an edge in no other triangle is removed, every removed triangle has lost an edge and every removed edge has lost a triangle. What remains need not be a complex, need not have the same Euler characteristic, and looking up an edge that stays can read the freed node of a removed edge. getDimEdges answers with nothing, always.", "quantifier": "every threshold, dimension bound, matrix, sort and legal history of calls", "why_tests_cant": "the recursion runs over the adjacency of all triangles; the claims are for every complex", "anchors": ["Complex/indSimplexTree.cpp: reduceComplex, recurseReduce, deletion, coreduction, find, getDimEdges"]}
{"id": "C82", "title": "Runs of the default pipeline on an indexed simplex tree", "statement": "With complexType indSimplexTree and without collapse, a run of the default pipeline analyses the strict Vietoris-Rips complex of the points up to dimension -d, listed by weight (so its bars of dimension 0 are the single-linkage merge heights), except that with -d 3 or more it writes out of range as soon as four points are pairwise closer than epsilon. It is also undefined on points of which no two are closer than epsilon; with libstdc++ every other run ends. With collapse=true the run analyses what reduceComplex leaves: all vertices; everything with -d 1; from -d 2 on, triangles with an edge of their own are gone together with one edge. This does not keep the bars of dimension 0: on three points of a line a bar ends at 3 instead of 2, and a connected cloud can lose a bar.", "quantifier": "every distance function with values from 0 on, cloud of non-empty points, options, sort and behaviour of list ends; concrete clouds for the refutations", "why_tests_cant": "the run is a composition of four pipes over clouds of every size", "anchors": ["Pipes/basePipe.cpp: runPipeWrapper", "Pipes/neighGraphPipe.cpp: runPipe", "Pipes/ripsPipe.cpp: runPipe", "Pipes/fastPersistence.cpp: runPipe", "Complex/indSimplexTree.cpp: insert, getAllEdges, reduceComplex", "Complex/simplexBase.cpp: newSimplex"]}
{"id": "C83", "title": "What the debug output of a run changes and what it writes", "statement": "Switching the debug option of a run of the default pipeline on or off does not change the packet the run ends with, or whether it is defined, on a simplexTree, a simplexArrayList, or an indSimplexTree that is not collapsed; without it no file is written. With it and without collapse, the files are exactly: the upper triangular distance matrix; for neighGraph every pair of close points of a simplexArrayList, but the whole complex of a simplexTree, each simplex once with its diameter, and an empty line; for rips the complex of a simplexArrayList up to dimension -d (one dimension less than is analysed) and nothing for a simplexTree; the bars the run returns; and a tArray.csv with its header only. On an indSimplexTree with collapse the option changes the result: writing the neighbourhood graph freezes the listing, so the bars are those of the run without collapse.", "quantifier": "every distance function with values from 0 on, cloud of non-empty points, options, sort and behaviour of list ends; one concrete cloud for the refutation", "why_tests_cant": "the output functions share the complex with the pipes; independence must hold for every run", "anchors": ["Pipes/basePipe.cpp: runPipeWrapper", "Pipes/distMatrixPipe.cpp: outputData", "Pipes/neighGraphPipe.cpp: outputData", "Pipes/ripsPipe.cpp: outputData", "Pipes/fastPersistence.cpp: outputData", "Complex/indSimplexTree.cpp: getAllEdges, reduceComplex"]}
{"id": "C84", "title": "What the statistics of a run say", "statement": "Reporting statistics never changes a run. A run writes one line for each component of the pipeline that did not fail to be created or configured, in the order of the components, under the name of the pipe class. The memory column shows the size in bytes divided by the unit named next to it, and the unit is the largest of B, KB, MB, GB that the size exceeds. In a default run without collapse the lines say: DistMatrix 0 vertices; neighGraph, ripsPipe and FastPersistence all the points, and the number of simplices of the Vietoris-Rips complex up to dimension 1, -d and -d+1 for a simplexArrayList, and up to dimension -d all three times for a simplexTree, on top of what its uninitialised counter held; the size is 8 bytes per coordinate and a constant per simplex. On an indSimplexTree all four lines give the counter of simplices, which starts uninitialised, as the number of vertices and of simplices. The lines go to <outputFile>_stats.csv below a fixed header, or nowhere if the output is the console.", "quantifier": "every pipeline string and options; every size; every distance function with values from 0 on, cloud of non-empty points, options, sort and behaviour of list ends", "why_tests_cant": "the counts are compared with the number of simplices of a complex of every size", "anchors": ["Pipes/basePipe.cpp: runPipeWrapper", "Pipes/pipePacket.cpp: getSize", "Complex/simplexArrayList.cpp: getSize, simplexCount", "Complex/simplexTree.cpp: getSize, simplexCount", "Complex/indSimplexTree.cpp: getSize, simplexCount, vertexCount", "Utils/writeOutput.cpp: writeStats", "LHFmain/main.cpp: runPipeline"]}
{"id": "C85", "title": "The program with k-means from its command line", "statement": "Take a file whose points have the same dimension, a command line that selects k-means++ (by name, or by default with mpi 1, in mode upscaleBound and in mode reduced), at least one cluster and one iteration. With fewer different points than clusters the program is undefined, whatever the random draws; with no or a negative number of clusters too. Otherwise k-means labels every point but the last of the file with the nearest of its last but one centroids, and its centroids are the means of their points, or not a number if they have none. With mpi 1 and in mode upscaleBound the program then prints the sizes of the clusters, which add up to one less than the number of points. In the modes standard and fast, if every cluster has a point, the bars of dimension 0 in the barcode file are the single-linkage heights of the centroids; the run is undefined if no two centroids are close. In the mode reduced the pipeline runs on the points around each centroid, within twice the largest distance of a labelled point to its centroid and without the last point of the file, and then on the centroids, all into the same file; if writing to freed memory is undefined, so is the whole mode.", "quantifier": "every command line, file, number of clusters and iterations, random draw, distance from 0 on and below the largest double, rounding of quotients, sort and behaviour of list ends", "why_tests_cant": "the claims hold for every file and every sequence of random draws", "anchors": ["LHFmain/main.cpp: main, processDataWrapper, processReducedWrapper, processUpscaleWrapper", "Preprocessing/kMeansPlusPlus.cpp: runPreprocessor, configPreprocessor", "Preprocessing/preprocessor.cpp: runPreprocessorWrapper, newPreprocessor", "Utils/argParser.cpp: parse, setPipeline"]}
{"id": "C86", "title": "The window modes from the command line", "statement": "In the modes naive and naivewindow a run on a file with at least one point ends, and the barcode file holds no bars, whatever the stream of vectors in the file: the packet is left with the last full window of 50 of those processed, and the complex is the Vietoris-Rips complex of the first 50 vectors; with fewer than 50 nothing happens; the naive window is the only pipe that runs. In the modes sw and slidingwindow a run without an input file or with fewer than 200 vectors ends with no bars; with exactly 200 it ends with no bars on the complex of these; with more it ends with no bars if every later vector is turned away and no two of the first 200 are close, and otherwise it is undefined.", "quantifier": "every command line for these modes, dimension, epsilon, file, stream, distance from 0 on, sort, and behaviour of the parts left open", "why_tests_cant": "the claims range over streams of every length and content", "anchors": ["LHFmain/main.cpp: main, processDataWrapper, runPipeline", "Pipes/naiveWindow.cpp: runPipe, runSubPipeline", "Pipes/slidingWindow.cpp: runPipe, runSubPipeline", "Utils/argParser.cpp: setPipeline", "Utils/readInput.cpp: readCSV, streamRead"]}
{"id": "C87", "title": "Pipelines of one's own from the command line", "statement": "With -p and a pipeline that has the component boundary (and no window), on any file with points and a default complex, the run is undefined for every dimension other than 0. With the pipeline distMatrix.neighGraph.rips.persistence on a simplexTree or a simplexArrayList the run is undefined as soon as two points are close; otherwise the barcode file has one bar from 0 to epsilon for every point if the dimension is above 1, and no bars for dimension 1. On an indSimplexTree it is undefined, except for dimension 1, without twist, and with exactly one pair of close points, which does not contain the first point: then the file has one bar from 0 to epsilon for every point. A component upscale, anywhere in a pipeline without windows, changes neither the file nor the packet: it only adds a line of statistics.", "quantifier": "every command line with such a pipeline, file of points, distance from 0 on, epsilon, dimension, sort, and behaviour of the parts left open", "why_tests_cant": "the claims range over every pipeline string with that component and every cloud", "anchors": ["LHFmain/main.cpp: main, processDataWrapper, runPipeline", "Pipes/basePipe.cpp: newPipe, runPipeWrapper", "Pipes/boundaryPipe.cpp: runPipe", "Pipes/persistencePairs.cpp: runPipe", "Pipes/optPersistencePairs.cpp: runPipe", "Pipes/upscalePipe.cpp: runPipe", "Utils/argParser.cpp: parse, setPipeline"]}
{"id": "C88", "title": "The two helpers for streaming k-means", "statement": "streamingUtils::kMeans, for at least one cluster, one iteration and points of the same dimension, returns for each cluster the coordinatewise sum of its points, not their mean; the clusters are those of the k-means iteration from the drawn points and the last point belongs to none. The starting points are drawn between 0 and the dimension (not the number of points), so all draws are safe exactly if there are more points than dimensions. It is undefined without points, and without clusters as soon as there are two points and one iteration. ballKmeans has a result only for a single point, and then an empty one.", "quantifier": "every number type, distance, list of points of every length and dimension, number of clusters and iterations, and draws (the two counts are uninitialised variables in the code)", "why_tests_cant": "the counts are indeterminate and the draws random: the claims hold for all of them", "anchors": ["Preprocessing/streamingUtils.cpp: kMeans, ballKmeans"]}
{"id": "C89", "title": "The program with streaming k-means and with DenStream from its command line", "statement": "With streaming k-means chosen (by name and kept by the mode) the program never has a result, whatever the mode, options, random numbers and points. With DenStream and fewer than 1000 points it is undefined. With DenStream and at least 1000 points, one run of the default pipeline writes as bars of dimension 0 the single-linkage heights of the faded means of disjoint groups of points; it is undefined if there are groups but no two means are close, and the file has no bars if there are no groups. 1000 points none of which has 20 points within epsilon become one point at the origin, and the program is undefined. In the mode reduced the pipeline runs once, on the means only; in the mode upscaleBound and with mpi the program counts 0 points in each cluster, and throws for a negative number of clusters.", "quantifier": "every command line, file of points, epsilon, fading function, distance from 0 on, rounding, sort, random numbers and behaviour of the parts left open; for the results, at least 1000 points no two of which are exactly epsilon apart", "why_tests_cant": "the claims range over every stream of points and every sequence of random numbers", "anchors": ["LHFmain/main.cpp: main, processDataWrapper, processReducedWrapper, processUpscaleWrapper", "Preprocessing/preprocessor.cpp: newPreprocessor, runPreprocessorWrapper", "Preprocessing/streamingKmeans.cpp: runPreprocessor", "Preprocessing/denStream.cpp: runPreprocessor, configPreprocessor", "Utils/argParser.cpp: parse, setPipeline"]}
{"id": "C90", "title": "The distance between points in double arithmetic", "statement": "In IEEE double arithmetic the distance of two points with finite coordinates and the same dimension is never negative and never NaN, is the same in both directions bit for bit, and is +0 from a point to itself. It is 0 exactly if the squares of all differences round to 0, so different points can be at distance 0; it can be infinite for finite points; and it does not obey the triangle inequality. It is NaN exactly if some difference of coordinates is NaN, and then the pair is below no threshold.", "quantifier": "every pair of points of every dimension with every double as coordinates, and every function for pow(x, 2) that ignores the sign, is not negative and is 0 at 0", "why_tests_cant": "rounding, underflow and overflow make the claim range over all pairs of doubles in every dimension", "anchors": ["Utils/utils.cpp: vectors_distance"]}
{"id": "C91", "title": "A run of the program in double arithmetic", "statement": "A run of the program on a file of points with finite double coordinates, with distances computed and compared in IEEE double arithmetic, writes as bars of dimension 0, in ascending order, computed distances of pairs of points within epsilon, and one more bar that ends at epsilon; for every double t, as many of them are at most t as there are points more than single-linkage clusters at scale t. If no computed distance is within epsilon the run is undefined. The whole numbers that the model compares in place of doubles (their places in the order of the doubles) compare exactly as the doubles do.", "quantifier": "every file of points of the same dimension with finite coordinates, every epsilon (also infinite), both complexes, every sort, every function for pow(x, 2) as in C90", "why_tests_cant": "the claim ranges over all clouds of points and all doubles, with every rounding, underflow and overflow", "anchors": ["Utils/utils.cpp: vectors_distance", "LHFmain/main.cpp: main, runPipeline", "Pipes/distMatrixPipe.cpp: runPipe", "Pipes/neighGraphPipe.cpp: runPipe", "Pipes/fastPersistence.cpp: runPipe"]}
{"id": "C92", "title": "The text of the barcode file", "statement": "A finite double is written with six digits after the point: the text is the nearest multiple of 1/1000000 (the even one in the middle). Writing keeps the order of numbers from 0 on, but two numbers get the same text exactly if the same multiple is nearest to both, so a positive number can be written as 0.000000. The barcode file of a run on points with finite double coordinates is the header, a line 0,0,w for each single-linkage height w in ascending order, the line 0,0,epsilon, and then a line d,b,w with d >= 1 for each bar of a higher dimension, where b and w are different computed distances of pairs within epsilon.", "quantifier": "every finite double; every file of points, epsilon and option as in C91", "why_tests_cant": "the claim ranges over all doubles and all clouds of points", "anchors": ["Pipes/fastPersistence.cpp: runPipe (std::to_string)", "Utils/writeOutput.cpp: writeBarcodes, writeCSV", "LHFmain/main.cpp: runPipeline"]}
{"id": "C93", "title": "Numbers in input files, and files of doubles read back", "statement": "A decimal text (sign, digits, perhaps a point, perhaps an exponent) in the normal range of double is read as the nearest double, the even one in the middle, with the sign of the text (there is only one); std::stod throws and std::atof gives an infinity from 2^1024 on, and std::stod throws and std::atof gives zero for a non-zero number below 2^-1075. Blanks before a number and text behind it that cannot go on it do not matter; inf and nan in small or capital letters, behind blanks and a sign, are read as the infinity with that sign and as NaN, whatever follows; a text without a number makes std::stod and std::stoi throw and std::atof and std::atoi give 0; std::stoi throws outside the range of int. A printed double reads back as the double nearest to the printed decimal, with the same sign, and prints as the same text again; multiples of 1/64, numbers from 2^34 on, infinities and NaN come back exactly, other numbers need not. A CSV file written from rows of doubles reads back as its non-empty rows with every number read like this, and writing them again gives the same text; likewise a MAT file whose counts are below 2^31. Reading a barcode file throws.", "quantifier": "every decimal text; every double as it is stored; every list of rows of doubles", "why_tests_cant": "the claim ranges over all texts and all doubles", "anchors": ["Utils/readInput.cpp: readCSV, readMAT, parseDoubleVector (std::stod, std::stoi)", "Utils/writeOutput.cpp: writeCSV, writeMAT, writeBarcodes (std::to_string)", "Complex/simplexBase.cpp: setConfig (std::atof)", "Pipes/fastPersistence.cpp: configPipe (std::atof)"]}
{"id": "C94", "title": "From the text of the input to the text of the output", "statement": "The program run on a command line for the default pipeline and an input file whose lines are blank or hold decimal numbers separated by commas, equally many on each line: if the run ends, it writes one file, the named output with .csv appended, and its text is the header, a line 0,0,w for each height w at which clusters of the points merge, in ascending order, the line 0,0,epsilon, and a line for each bar of a higher dimension; points and epsilon are the doubles nearest to the decimals in the texts. The run is undefined if no two points are within epsilon and ends otherwise (with libstdc++'s list). A number beyond the doubles anywhere behind readable rows ends the program with an exception before a file is written.", "quantifier": "every command line for the default pipeline, every dimension and epsilon, every input text of this form", "why_tests_cant": "the claim ranges over all texts of input files", "anchors": ["LHFmain/main.cpp: main, processDataWrapper, runPipeline", "Utils/argParser.cpp: parse, setPipeline", "Utils/readInput.cpp: readCSV", "Utils/writeOutput.cpp: writeBarcodes", "Pipes/fastPersistence.cpp: runPipe"]}
{"id": "C95", "title": "Coordinates that are not numbers, and k-means in double arithmetic, from text to text", "statement": "The program run on an input file whose cells may also read as infinite or as not-a-number: the bars of dimension 0 are the heights at which clusters of the points merge, where the tree takes a distance that is not a number for 0 and the array list takes it for no distance. So with the tree a single coordinate that is not a number makes every bar of dimension 0 but the last 0,0,0.000000. With the k-means++ preprocessor on double coordinates the run is undefined if fewer than k of the points differ; otherwise it ends rounds of assignment and mean (in double arithmetic, the last point left out) with k centroids, writes the centroids and the labels to two files, and the barcodes are those of the centroids. If k is the number of points, some centroid is always not a number, so that with the tree the bars of dimension 0 say nothing about the points.", "quantifier": "every command line for the default or k-means++ pipeline, every input text of this form, every random choice of the preprocessor, every correctly typed square root", "why_tests_cant": "the claim ranges over all texts of input files, all random choices and all double rounding cases", "anchors": ["LHFmain/main.cpp: main, processDataWrapper, runPipeline", "Preprocessing/kMeansPlusPlus.cpp: runPreprocessor, outputData", "Complex/simplexTree.cpp: insert", "Complex/simplexArrayList.cpp: insert", "Utils/utils.cpp: vectors_distance", "Utils/readInput.cpp: readCSV"]}
{"id": "C96", "title": "How the output text follows changes of the input text", "statement": "Two runs of the program on two input files are compared. If the lines of the file are shuffled, the lines of dimension 0 in the output are the same text, and one run is undefined exactly if the other is; the bars of dimension 1 are then the same, too, if no two distances are equal. A smaller epsilon only removes the deaths that are not within it. Further lines anywhere in the file make no death of dimension 0 later. A further copy of a line adds one death 0 and changes no other. But shuffling the columns can change the output, and so can adding one number to a whole column, because the sums and the coordinates are rounded.", "quantifier": "every pair of command lines for the default pipeline and of input texts that are related in this way, both complexes, every sort", "why_tests_cant": "the claims compare all pairs of input files related by a permutation or an insertion, in double arithmetic; tests compare a few pairs", "anchors": ["LHFmain/main.cpp: main, runPipeline", "Pipes/fastPersistence.cpp: runPipe", "Complex/simplexTree.cpp: insert", "Complex/simplexArrayList.cpp: insert", "Utils/utils.cpp: vectors_distance", "Utils/readInput.cpp: readCSV"]}
{"id": "C97", "title": "The bars of dimension one and above, from text to text", "statement": "The lines of dimension 1 and above in the output file are the bars of the pairs that reducing the boundary matrices of the Vietoris-Rips complex of the input gives, with births and deaths the diameters as doubles; the columns leave out the rows that ended classes one dimension below and the row that a read past the end of a list adds. If that read adds no row, then at every scale the number of bars of a dimension is at most the Betti number over GF(2), and equal at all scales exactly if no class of that dimension is left. With the list of libstdc++ the read does add a row, and so the loop of a polygon is never reported: if at some scale the points are connected and each has exactly two neighbours, no bar of dimension 1 has begun by that scale, although from four points on the first Betti number is one. A square gives an output without any line of dimension 1.", "quantifier": "every command line for the default pipeline, every input text with rows of one length, every dimension, both complexes, every sort", "why_tests_cant": "the claims hold for all point sets, dimensions and scales; a test looks at a few barcodes and does not show that a whole family of loops is lost", "anchors": ["Pipes/fastPersistence.cpp: runPipe", "Complex/simplexTree.cpp: insert, getAllEdges", "Complex/simplexArrayList.cpp: insert, expandDimensions", "Pipes/ripsPipe.cpp: runPipe", "LHFmain/main.cpp: runPipeline"]}
{"id": "C98", "title": "Complexes whose distance matrix is exchanged between calls, and undefined histories", "statement": "A simplexArrayList that keeps edges, and a simplexTree under a non-empty matrix, behave undefinedly along a history of calls exactly if some insertion does not find an entry of the matrix in force for every older point (for the tree also if clear is called while it is empty), whatever the entries are. If the entries read are not negative, both complexes hold, for each pair of points, the distance of the matrix that was in force when the later point was inserted: their contents are exactly the Vietoris-Rips simplices for these distances (at most epsilon in the array list, below epsilon in the tree), each once and with its diameter, within the expanded or maximal dimension. Exchanging the matrix afterwards does not change the contents, so the complex need not be the Vietoris-Rips complex of the matrix in force, while the array list's getDimEdges filters by the matrix in force.", "quantifier": "every history of insertions, expansions, clears, exchanges of the matrix and getAllEdges calls, every sequence of matrices of any shapes and entries, every epsilon and dimension, every sort", "why_tests_cant": "histories and matrices are unbounded; which histories read outside a matrix cannot be seen by running them", "anchors": ["Complex/simplexBase.cpp: setDistanceMatrix", "Complex/simplexArrayList.cpp: insert, expandDimensions, getDimEdges, clear", "Complex/simplexTree.cpp: insert, recurseInsert, clear"]}
{"id": "C99", "title": "Set operations on vectors with repeated elements in any order", "statement": "For two different vectors, with isSorted false or both vectors sorted, an element occurs in setIntersect as often as in both, in setUnion as often as in the vector that has it more often, and in symmetricDiff as often as its numbers in the two differ; the results are sorted, and intersect returns the differences and the union exactly if there are two differences counted with multiplicity. Exchanging the two arguments never changes a result, whatever the vectors. With isSorted false the order of the elements does not matter, except that the test for equal arguments is made before sorting: then setUnion returns nothing and setIntersect an unsorted vector. setXOR makes the finite sets a group in which every set is its own inverse. getSubsets leaves out the entries of any vector one position at a time, the last position first.", "quantifier": "every pair of vectors with repetitions in any order, both values of the flag, every triple of sets", "why_tests_cant": "the claims are equations between multisets over all vectors and all permutations of them", "anchors": ["Utils/utils.cpp: setIntersect, setUnion, symmetricDiff, intersect, setXOR, getSubsets"]}
{"id": "C100", "title": "Replacing one point of the sliding window keeps its statistics right", "statement": "The stream evaluator deletes one point of a window of labelled points and enters the statistics of a new vector. If all records of the window were right - for every point the distance to the nearest point of its partition (-1 for a point that is alone) and the number of such a point, for every partition its number of points and average distance - and the distance matrix is that of the remaining points, then the distances, numbers and averages recorded afterwards are right for the window with the new vector at its end. A recorded index is right or one too large, because indices behind the deleted point are not moved down. The update is undefined exactly if the point leaves and the vector enters the same partition, at least two of its points remain, and for one of them the deleted point was the recorded neighbour and the new vector is not nearer.", "quantifier": "every window of labelled points, every deleted point, every new vector and partition, every symmetric distance", "why_tests_cant": "the claim quantifies over all windows, labels and vectors and over all ways in which the nearest neighbours of the remaining points change", "anchors": ["Pipes/slidingWindow.cpp: deleteNNstats, updateStats"]}
{"id": "C101", "title": "What the stream evaluator does with a window of one partition", "statement": "A new vector comes to a full window of one partition whose records are right. It is turned away exactly if it is equal to a point of the window, or the average nearest-neighbour distance is at most 1/4 and it is within 1 of a point, or its distance to the window is at most four times the average; then nothing changes. Otherwise the first point leaves, the vector founds the next partition, and with a distance matrix of the remaining points the run is defined and all distances, numbers and averages are right for the new window.", "quantifier": "every window of at least two points with one label, every vector, every symmetric non-negative distance", "why_tests_cant": "the claim is about all windows and all vectors, and about the exact boundary between accepted and rejected ones", "anchors": ["Pipes/slidingWindow.cpp: nnBasedEvaluator, deleteNNstats, updateStats"]}
{"id": "C102", "title": "What the stream evaluator does with a window of several partitions", "statement": "A new vector comes to a full window of several partitions with non-negative labels whose records are right. It is never turned away. It joins the partition of its first nearest point if it is equal to that point, or if it is within 5 of it and the partition has a single point, an average nearest-neighbour distance of at most 1/4 while the vector is within 1, or a positive average of at least a quarter of the distance; otherwise it founds the partition after the greatest label. The point that leaves is the first point of the smallest partition that has got no vector for more than 25 vectors (the one with the least label among several); if there is none, the first point of the window if the vector founds a partition, and otherwise the first point with label 0, or with label 1 if the vector joins partition 0: if no point has that label, the run is undefined. The lists lose the entries of the leaving point and the numbers of points are right; but the distances and averages of the points that stay are not updated, nor is anything entered for the new vector.", "quantifier": "every window with at least two labels, every vector, every history of the last vectors of the partitions, every non-negative distance", "why_tests_cant": "the claim is about all windows, label patterns and vectors; the undefined case needs a label pattern that tests do not produce", "anchors": ["Pipes/slidingWindow.cpp: nnBasedEvaluator, deleteNNstats"]}
{"id": "C103", "title": "A dimension of 0 or less: only the single-linkage bars, or an undefined run", "statement": "A plain command line with a dimension of 0 or less on a file with points. With the simplex tree the run ends exactly if two points are closer than epsilon; the barcode file then holds one bar of dimension 0 for every single-linkage height and one until epsilon, and no other bar. With the simplex array list the run is always undefined, because the complex has no edges and the persistence pipe reads them.", "quantifier": "every command line of that kind, every file with points, every dimension that reads as 0 or less, every non-negative distance", "why_tests_cant": "the claim is about all files and all such dimensions; negative dimensions are turned into huge unsigned limits in one complex and into none in the other", "anchors": ["Pipes/fastPersistence.cpp: runPipe", "Complex/simplexTree.cpp: recurseInsert", "Complex/simplexArrayList.cpp: insert, expandDimensions"]}
{"id": "C104", "title": "Nearest neighbours, neighbourhoods and DBSCAN in double arithmetic", "statement": "For points with any finite double coordinates, the index that a nearest-neighbour query on the kd-tree returns is that of a point whose distance to the query point, as the program computes it with all rounding, underflow and overflow, is the smallest. A neighbourhood query with a radius of at least 2^-511 (about 1.5e-154) returns only points within the radius, none twice, and all points closer than it; with such an epsilon that is not a distance between two points, DBSCAN labels the points by density reachability for the computed distances. With a smaller radius this fails: the squares underflow, and a point closer than the radius can be missed.", "quantifier": "every non-empty list of points of one dimension with finite double coordinates, every query point, every radius, every minimal number of points, every order that the sort gives to ties, and both readings of abs (of double, or of int after truncation)", "why_tests_cant": "the pruning compares a rounded difference with a rounded root of a sum of rounded squares; whether that is safe is a claim about all combinations of rounding errors, which tests do not reach", "anchors": ["Preprocessing/kdTree.cpp: nearestIndex, findNearest, neighborhoodIndices, neighborhood, makeTree", "Preprocessing/dbscan.cpp: cluster, expandCluster", "Utils/utils.cpp: vectors_distance"]}
{"id": "C105", "title": "The computed distance is the Euclidean distance up to a bounded error", "statement": "For two points with n finite double coordinates, the square of the distance that the program computes lies between (1 - 2^-53)^(n+5) times the square of the true Euclidean distance, less n times 2^-1075, and (1 + 2^-53)^(n+5) times the sum of the square of the true distance and n times 2^-1075, unless the result is infinite; and it is finite if the true square, with these errors, is below 2^1024.", "quantifier": "all pairs of points with the same number of finite double coordinates", "why_tests_cant": "the bound is over all doubles, with cancellation, underflow and overflow, and over every dimension", "anchors": ["Utils/utils.cpp: vectors_distance"]}
{"id": "C106", "title": "The printed bars against the true Euclidean distances", "statement": "For an input file of points with n decimal numbers each, every number the program writes to the barcode file apart from epsilon is the computed distance of two of the points, and the square of the true Euclidean distance of these points is within a relative error of about (n + 5) times 2^-53 and n absolute errors of 2^-1075 of its square. Up to any double t within epsilon, the file has at least as many bars of dimension 0 ended as clusters of the points merge, by true distances, up to t made smaller by these errors, and at most as many as merge up to t made larger by them.", "quantifier": "every input file of decimal numbers, every dimension and epsilon, both complexes, every order of ties, every double t within epsilon whose square is below 2^1024", "why_tests_cant": "it bounds the effect of all rounding errors of a whole run, on every input; a test compares with another floating-point program at best", "anchors": ["Utils/utils.cpp: vectors_distance", "Utils/readInput.cpp: readCSV", "Pipes/fastPersistence.cpp: runPipe", "Utils/writeOutput.cpp: writeBarcodes", "LHFmain/main.cpp: main"]}
{"id": "C107", "title": "The centroids of k-means in double arithmetic are near the means", "statement": "After a run of k-means++ on points with finite double coordinates, each coordinate of the centroid of a cluster of n points (the last data point belongs to none) is finite and differs from the true mean of that coordinate over the cluster by at most ((1 + 2^-53)^(n+1) - 1) times the mean absolute value plus 2^-1075, if the absolute values of the coordinate, with the errors of the sum, add up to less than 2^1024.", "quantifier": "all data with finite double coordinates, all random draws, all numbers of clusters and iterations, every cluster with at least one and fewer than 2^53 points and every coordinate", "why_tests_cant": "the bound is over all doubles of both signs, with cancellation and underflow, and over every size of a cluster", "anchors": ["Preprocessing/kMeansPlusPlus.cpp: runPreprocessor"]}
{"id": "C108", "title": "What a run logs and which files it leaves", "statement": "A run of a pipeline without the two window pipes logs exactly two lines for every component that did not fail, in the order of the components: how long it took and how large the data is after it, with the same times and sizes as in the file of statistics. Any other line of the log begins with [DEBUG], and there is none if the option debug is 0 or false. Such a line is the module and the message of one of the pipes, and with any other value of debug a message that a pipe always writes is in the log. With outputFile console the log is printed and no file changes. With any other name the log is added to the end of the file with exactly that name, whatever it held before; name_stats.csv and name.csv are replaced (so an input file called name.csv is lost), and no other file changes. Without the option the log is lost and no file changes.", "quantifier": "all pipelines, options and point clouds whose run is defined, all earlier contents of all files, all sets of files that can be opened, all times, all debug messages", "why_tests_cant": "contents of files before the run, failing opens and the interleaving of the lines of all components range over infinitely many cases", "anchors": ["Utils/utils.cpp: writeLog, writeDebug, writeFile", "Pipes/basePipe.cpp: runPipeWrapper", "Utils/writeOutput.cpp: writeStats, writeBarcodes", "LHFmain/main.cpp: runPipeline"]}
{"id": "C109", "title": "The partitions of the reduced mode in double arithmetic", "statement": "In the reduced mode the points are divided after the preprocessor: the radius is the largest computed distance of a labelled point to its own centroid, and every centroid gets the labelled points that are less than twice the radius away, where distances, doubling and comparison are those of IEEE doubles. Points with finite coordinates and centroids that are finite or (for an empty cluster) not a number give a radius that is the largest of these distances (or zero) and tables with exactly these points, in order. If the radius is positive and finite, doubling it is exact or overflows to infinity, and every labelled point is in the partition of its own centroid, in spite of rounding; if it is zero, all partitions are empty and no pipeline runs. A centroid that is not a number has an empty partition. The centroids and labels of a k-means++ run meet the conditions if no cluster sum comes near 2^1024, so every point but the last, which k-means leaves unlabelled, is in its own partition.", "quantifier": "all dimensions, point clouds with finite coordinates, centroids and labels; all k, iteration limits and random draws of k-means++", "why_tests_cant": "rounding, overflow and subnormal radii range over all doubles, and the loss of points at a radius of zero needs special data", "anchors": ["Utils/utils.cpp: computeMaxRadius, separatePartitions(double)", "LHFmain/main.cpp: processReducedWrapper", "Preprocessing/kMeansPlusPlus.cpp: runPreprocessor"]}
{"id": "C110", "title": "The files of the sliding window always show the first window", "statement": "In the mode sw the program writes the window it works on to output/SlidingWindow_0_output.csv, output/SlidingWindow_1_output.csv and so on, whether or not debug is set. Writing them does not change the run. A run on a simplexTree that ends leaves no file for up to 200 vectors; for more it leaves one file for every full hundred above 200 and one for an incomplete last hundred, numbered from 0, and each of them holds the first 200 vectors of the stream, in order, however long the stream: no file ever shows a later vector.", "quantifier": "all streams of non-empty vectors of any length, all distances, options and initial counts", "why_tests_cant": "the number of files grows with the stream, and that no stream ever changes the window needs every stream", "anchors": ["Pipes/slidingWindow.cpp: runPipe, runSubPipeline, outputData"]}
{"id": "C111", "title": "The reduced mode from text to text, in double arithmetic", "statement": "In the mode reduced, with k-means++ and double arithmetic throughout: the program is undefined if the points of the file have fewer than k different ones. Otherwise k-means labels all points but the last and ends with k centroids, both are written to files, and the labelled points are sorted into the balls of twice the largest distance of a point to its centroid, around the centroids. The default pipeline runs on the points of every non-empty ball and then on the centroids; every run writes the same barcode file, so only the bars of the centroids stay. In every text the bars of dimension 0 end at the lengths of the edges of a spanning forest of the points closer than epsilon (a distance that is not a number counts as 0), one more ends at epsilon, and the other bars begin and end at such distances. The program is undefined if some group has no two such points, if the memory freed between the groups must not be written, or if a ball is not larger than all balls before an earlier one with a path of two short edges.", "quantifier": "all files of finite numbers, all numbers of clusters and iterations, dimensions, epsilons, random draws and sorting functions, as long as no sum of coordinates of a cluster comes near 2^1024", "why_tests_cant": "the groups, the forest and the text depend on every coordinate and every rounding; tests see single files", "anchors": ["LHFmain/main.cpp: main, processReducedWrapper, runPipeline", "Utils/writeOutput.cpp: writeBarcodes", "Utils/utils.cpp: computeMaxRadius, separatePartitions", "Preprocessing/kMeansPlusPlus.cpp: runPreprocessor", "Pipes/fastPersistence.cpp: runPipe"]}
{"id": "C112", "title": "Which vectors the sliding window admits, in double arithmetic", "statement": "While the window has one partition, a new vector is turned away if it is at distance 0 from a point of the window, or the average nearest-neighbour distance of the window is at most 1/4 and the vector is within 1 of a point, or the average is positive and its distance is at most four times the average; otherwise it is admitted. The program, which sums, divides and compares doubles, decides so whenever the numbers are not within a relative error of 2^-43 (and an absolute one of 2^-1073) of these thresholds, for windows of 200 points with an average below 2^1016. At a threshold the decision can differ: with the average 1.1 a vector at the distance 4.4 is admitted.", "quantifier": "all windows, all lists of 200 finite nearest-neighbour distances with an average below 2^1016, all vectors at finite distances, all squaring functions", "why_tests_cant": "the rounding errors depend on all 200 distances and their order", "anchors": ["Pipes/slidingWindow.cpp: nnBasedEvaluator, runPipe", "Utils/utils.cpp: nearestNeighbors, vectors_distance"]}
{"id": "C113", "title": "The sliding window in double arithmetic, from text to text", "statement": "In the mode sw, on a text stream of vectors whose computed distances are finite, the program writes a barcode file without bars or is undefined. On at most 200 vectors it writes the file without bars. On more it is undefined if two of the first 200 are closer than epsilon, and if some later vector is admitted by the rule of C112 for the average nearest-neighbour distance of the first 200; it writes the file without bars if no two are closer than epsilon and every later vector is turned away by that rule. Vectors within a relative error of 2^-43 of a threshold of the rule are left out.", "quantifier": "all command lines of the mode, all streams of lines of at most 998 characters with decimal numbers, of any length, all stable sorts, all behaviours of the other pipes", "why_tests_cant": "the decision for every later vector depends on rounding errors over 200 distances, and the number of vectors is not bounded", "anchors": ["LHFmain/main.cpp: main", "Pipes/slidingWindow.cpp: runPipe, nnBasedEvaluator, deleteNNstats, updateStats", "Preprocessing/streamingUtils.cpp", "Utils/utils.cpp: nearestNeighbors, vectors_distance"]}
{"id": "C114", "title": "The naive window and the persistence component in double arithmetic, from text to text", "statement": "In the mode naive the barcode file of any text of lines of doubles consists of its header. The pipeline distMatrix.neighGraph.rips.persistence on the default complexes is undefined if two points are close; otherwise the barcode file has two header lines, dimension,birth,death and dim,birth,death, and, from dimension 2 on, a line 0,0.000000,epsilon for every point. On an indSimplexTree it is undefined but for dimension 1, no twist and exactly one pair of points closer than epsilon, not containing the first; then the file has the headers dimension,birth,death and curIndex,index,dim,birth,death and such a line for every point. A pipeline with the component boundary is undefined unless the dimension reads as 0. Whatever the pipeline, short of the stream pipes, a run that ends leaves below the file's header what the last running pipe that assigns bars assigned: its own header, if it has one, and a line per bar, and nothing of the pipes before it.", "quantifier": "all command lines for these pipelines, all files of such lines of any length, all dimensions, epsilons and sorting functions, all behaviours of the parts left open", "why_tests_cant": "when the run is defined depends on every distance and its rounding; the text is produced from all points", "anchors": ["LHFmain/main.cpp: main, runPipeline", "Pipes/naiveWindow.cpp: runPipe", "Pipes/persistencePairs.cpp: runPipe", "Pipes/optPersistencePairs.cpp: runPipe", "Pipes/boundaryPipe.cpp: runPipe", "Utils/writeOutput.cpp: writeBarcodes"]}
{"id": "C115", "title": "The reduced mode on the other complexes", "statement": "With an explicit pipeline and -m reduced the complex named on the command line is used. On a simplexArrayList the complex is emptied between two groups, so the bars of dimension 0 written for every group (not only the first) are the single-linkage heights of that group; the run is undefined if a group has no two close points, and with dimension 1 it ends when every group has two close points and the rows do not shrink. On an indSimplexTree nothing is emptied: a run with two or more non-empty groups is undefined.", "quantifier": "all data, labels, distances, epsilon, dimensions, preprocessors and numbers of groups", "why_tests_cant": "the claim is about every sequence of groups: state left by one group may only show in a later one", "anchors": ["LHFmain/main.cpp: processReducedWrapper", "Complex/simplexArrayList.cpp: clear", "Complex/simplexBase.cpp: clear", "Complex/indSimplexTree.cpp: insert"]}
{"id": "C116", "title": "The debug files of the pair pipes and of boundaryPipe", "statement": "With debug output, persistencePairs and optPersistencePairs write two files and change nothing of the run: the bars the run returns, below a header, and tArray.csv with one row per simplex the complex lists, in that order, each marked, born at its weight, dead at -1 and with ti -1. So whatever the pipeline, the options and the data, no run that ends ever records a pairing in tArray.csv, and boundaryPipe, which is defined for dimension 0 only, writes nothing but its header. Run after distMatrix, neighGraph and rips on a simplexArrayList or a simplexTree, persistencePairs is undefined if two points are close, and otherwise its table has exactly one row for each point. Without debug output no file is written and the run is that of the program.", "quantifier": "all pipelines, options, data, distances, complexes and packets", "why_tests_cant": "a test sees the files of one run; that no run at all fills in a pairing is a statement about all of them", "anchors": ["Pipes/persistencePairs.cpp: runPipe, outputData", "Pipes/optPersistencePairs.cpp: runPipe, outputData", "Pipes/boundaryPipe.cpp: outputData", "Pipes/basePipe.cpp: runPipeWrapper"]}
{"id": "C117", "title": "The statistics of the mode reduced accumulate over its groups", "statement": "The mode reduced runs the pipeline once for every non-empty group of points and once for the centroids, and nothing empties the statistics in between. A run that ends therefore leaves what the preprocessor wrote, followed by one block of lines per run, in the order of the runs, each block with one line for every component that could be created and configured, and it writes as many barcode files as there are blocks, one over the other. On a simplexArrayList with the default pipeline each block is about its own group alone: no vertices before the group is inserted, then exactly its points, and its Rips simplices after the three stages.", "quantifier": "all pipelines without a stream pipe, options, data, labels, centroids, distances and preprocessors", "why_tests_cant": "a test looks at the file of one run with one number of groups; the claim is about every pipeline and every partition", "anchors": ["LHFmain/main.cpp: runPipeline, processReducedWrapper", "Pipes/basePipe.cpp: runPipeWrapper", "Utils/writeOutput.cpp: writeStats", "Complex/simplexArrayList.cpp: clear, vertexCount, simplexCount"]}
