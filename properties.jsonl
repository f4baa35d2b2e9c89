{"id": "C01", "title": "Stretching a bounding box yields the least enclosing box", "statement": "After a.stretch(b), a encloses both its old value and b, every box that encloses both also encloses the result, and the returned flag is true exactly when a changed. The numbers that a reset box starts from are the largest double and the smallest positive normal one.", "quantifier": "all pairs of boxes (including degenerate and inverted ones)", "why_tests_cant": "the claim is about every pair of boxes and every competing enclosing box", "anchors": ["lib/RStarTree/RStarBoundingBox.h:62-83 RStarBoundingBox::stretch", "lib/RStarTree/RStarBoundingBox.h:106-114 encloses"]}
{"id": "C02", "title": "Overlap test, overlap area and intersection agree", "statement": "overlaps is symmetric; it is true exactly when the overlap area of two non-degenerate boxes is positive; overlap() is the volume of the intersection box; a&=b is the largest box enclosed by both; a==b exactly when the boxes hold the same points; the area is the product of the edge lengths.", "quantifier": "all pairs of boxes", "why_tests_cant": "the branches of overlap() form 6 orderings per axis, over unbounded coordinates", "anchors": ["lib/RStarTree/RStarBoundingBox.h:117-128 overlaps", "lib/RStarTree/RStarBoundingBox.h:131-174 overlap", "lib/RStarTree/RStarBoundingBox.h:202-216 operator&=, operator&&"]}
{"id": "C03", "title": "R*-tree insertion loses and duplicates nothing", "statement": "After any sequence of Insert calls the leaves of the tree are exactly the inserted (item, box) pairs with their multiplicities, and GetSize() is their number, whatever choices ChooseSubtree, the split and the forced reinsertion make.", "quantifier": "all insertion histories, all box geometries, all split/reinsert/subtree choices", "why_tests_cant": "splits and forced reinsertions cascade; the histories are unbounded and the heuristics depend on floating point areas", "anchors": ["lib/RStarTree/RStarTree.h:153-177 Insert", "lib/RStarTree/RStarTree.h:398-444 InsertInternal", "lib/RStarTree/RStarTree.h:448-483 OverflowTreatment", "lib/RStarTree/RStarTree.h:491-609 Split", "lib/RStarTree/RStarTree.h:613-643 Reinsert"]}
{"id": "C04", "title": "R*-tree stays balanced with bounded fan-out and enclosing node boxes", "statement": "After any history of Insert, Remove and translation, all leaves are at the same depth, no node has more than M items, no non-root node fewer than m, and every node's box encloses the boxes of all the leaves stored below it.", "quantifier": "all operation histories and all heuristic choices", "why_tests_cant": "structural invariant over unbounded histories", "anchors": ["lib/RStarTree/RStarTree.h:398-643", "lib/RStarTree/RStarTree.h:763-840 RemoveFunctor", "lib/RStarTree/RStarTree.h:336-339 operator+="]}
{"id": "C05", "title": "Overlap queries are exact", "statement": "Query(AcceptOverlapping(q)) visits each stored leaf whose box overlaps q exactly once and no other leaf.", "quantifier": "all trees reachable by any history, all query boxes", "why_tests_cant": "pruning correctness depends on the shape the tree happened to take", "anchors": ["lib/RStarTree/RStarTree.h:671-702 QueryFunctor", "lib/RStarTree/RStarVisitor.h:54-71 RStarAcceptOverlapping"]}
{"id": "C06", "title": "Enclosing queries equal the brute-force answer for boxes with an extent", "statement": "Query(AcceptEnclosing(q)) visits no leaf twice and only leaves whose box is enclosed by q; it visits every enclosed leaf except possibly those that have no common interior with q (flat boxes lying on a face of q), and none is missed if all stored boxes have a positive extent.", "quantifier": "all reachable trees, all query boxes", "why_tests_cant": "whether a leaf on the query face is found depends on the tree shape", "anchors": ["lib/RStarTree/RStarTree.h:671-702 QueryFunctor", "lib/RStarTree/RStarVisitor.h:75-92 RStarAcceptEnclosing"]}
{"id": "C07", "title": "Removal deletes exactly what it should and keeps the tree valid", "statement": "Remove(acceptor, remover) deletes exactly the leaves accepted by both, keeps every other leaf with its multiplicity (including those reinserted from underfull nodes), and GetSize() stays the number of leaves.", "quantifier": "all reachable trees, all acceptors/removers, all heuristic choices", "why_tests_cant": "underflow handling dissolves subtrees and reinserts; depends on history", "anchors": ["lib/RStarTree/RStarTree.h:285-305 Remove", "lib/RStarTree/RStarTree.h:738-840 RemoveLeafFunctor, RemoveFunctor, QueueItemsToReinsert"]}
{"id": "C08", "title": "Translating an R*-tree translates its answers", "statement": "After tree += v, querying the box translated by v returns what querying the original box returned before.", "quantifier": "all reachable trees, vectors and query boxes", "why_tests_cant": "needs every node and leaf box to be moved exactly once", "anchors": ["lib/RStarTree/RStarTree.h:324-339 Modif, operator+=", "lib/RStarTree/RStarTree.h:708-724 ModifFunctor", "lib/RStarTree/RStarBoundingBox.h:236-244 operator+="]}
{"id": "C09", "title": "The overall box of a spatial index is the bounding box of its content", "statement": "getOverallBox() always encloses the content; for an index filled by insertions it is the smallest box enclosing all inserted boxes whenever all upper edges are at least DBL_MIN or there are at most M items (it is not in general: with negative coordinates a root split stretches it to DBL_MIN).", "quantifier": "all insertion histories and geometries", "why_tests_cant": "only shows after a root split with particular coordinate signs", "anchors": ["lib/RStarTree/RStarTree.h:143-150 getOverallBox", "lib/RStarTree/RStarBoundingBox.h:43-50 reset", "lib/RStarTree/RStarTree.h:448-483 OverflowTreatment"]}
{"id": "C10", "title": "Forced reinsertion only ever handles leaves", "statement": "The cast of reinserted items to leaves is always valid: forced reinsertion is only triggered on a node whose items are leaves, it happens at most once per Insert, and insertion always terminates.", "quantifier": "all reachable trees, all heuristic choices", "why_tests_cant": "a wrong cast would be undefined behaviour only on rare overflow patterns", "anchors": ["lib/RStarTree/RStarTree.h:448-457 OverflowTreatment", "lib/RStarTree/RStarTree.h:613-643 Reinsert"]}
{"id": "C11", "title": "Spatial index answers are sorted, duplicate-free and equal to brute force", "statement": "RStarIndex_S(q) returns a strictly increasing list of ids, only of stored boxes enclosed by q, and of all of them except possibly boxes lying flat on a face of q; BruteSpatialIndex(q) returns exactly the enclosed ones; both return the same list when the stored boxes have a positive extent (they can differ for points, which is what Particles stores).", "quantifier": "all sequences of insertions (possibly repeated ids), all query boxes", "why_tests_cant": "set equality over unbounded contents and shapes", "anchors": ["lib/index.cpp:87-117 BruteSpatialIndex, RStarIndex_S", "lib/index.hpp:79-86 BasicIndex"]}
{"id": "C12", "title": "getInside selects the objects at least a margin away from the faces", "statement": "getInside(margin) returns, sorted, only objects whose box is inside the overall box shrunk by margin on every axis wider than 2*margin; the brute-force index returns all of them; the R*-tree index returns all those with a positive extent or not touching the shrunk box by a face only (on planar point data it returns nothing).", "quantifier": "all contents, margins, noZ flag", "why_tests_cant": "degenerate (planar) contents and boundary objects interact with strict comparisons", "anchors": ["lib/index.cpp:26-37 SpatialIndex::getInside", "lib/particles.hpp:302-308 selectInside"]}
{"id": "C13", "title": "Temporal index returns every object spanning the query interval", "statement": "When the query starts no later than the last stored start, TreeIndex_T([a,b]) returns the sorted ids of exactly the objects [s,e] with s<=a and e-s>=b-a, hence every object spanning [a,b] (and, contrary to its documentation, some that do not); when it starts later it reads out of bounds.", "quantifier": "all insertion sequences, all query intervals", "why_tests_cant": "depends on relative offsets between every stored interval and the query", "anchors": ["lib/index.cpp:120-146 TreeIndex_T::insert, operator()"]}
{"id": "C14", "title": "Index construction and uninitialised state", "statement": "Building a BruteSpatialIndex or TreeIndex_T from any non-empty list reads an uninitialised pointer as the code is written; if the pointer were null, construction would be defined for every list and record the overall extent.", "quantifier": "all item lists", "why_tests_cant": "undefined behaviour may look fine in any particular run", "anchors": ["lib/index.hpp:41-47 INDEX_CONSTRUCTOR", "lib/index.hpp:119-130,159-170", "lib/index.cpp:75-82,120-128"]}
{"id": "C15", "title": "Trajectory existence, span and access are consistent", "statement": "For a trajectory with at least one position (and times below 2^64): exist(t) holds iff a position was recorded for step t; for a<=b span(a,b) holds iff one was recorded for every step of [a,b]; operator[] returns the recorded position and throws exactly when there is none; push_back records one more step at the end and changes no other; subtraj(a,b) has exactly the records of [a,b], or throws when one is missing. For an empty trajectory this fails: starting at 0 it claims to exist at every step.", "quantifier": "all trajectories, all time steps", "why_tests_cant": "quantifies over all lengths, starts and times including the empty/wrap-around case", "anchors": ["lib/traj.hpp:164-225 last_time, operator[], exist, span", "lib/traj.cpp:109-115 subtraj"]}
{"id": "C16", "title": "Every frame of a TrajMap is a bijection between positions and trajectories", "statement": "After any history of push_back whose follower lists are in range, no access is out of range and each frame maps each position 0..frameSize-1 to exactly one trajectory and no two positions to the same trajectory.", "quantifier": "all histories of push_back with in-range followers", "why_tests_cant": "greedy conflict resolution over arbitrary candidate sets", "anchors": ["lib/traj.cpp:33-70 TrajMap"]}
{"id": "C17", "title": "Trajectories are contiguous and numbered in order of appearance", "statement": "The frames in which a trajectory is present are consecutive; the trajectories are exactly the numbers below getNbTraj(), numbered in order of first appearance and, within a frame, by increasing position; in the first frame trajectory i is at position i.", "quantifier": "all histories of push_back", "why_tests_cant": "no-resurrection is a property of whole histories", "anchors": ["lib/traj.cpp:47-70 TrajMap::push_back"]}
{"id": "C18", "title": "Linking is shortest-link-first", "statement": "A link that continues a trajectory is one of the candidates; a candidate is refused only if its trajectory or its new position is taken by another candidate that is not longer; a position without candidates starts a new trajectory.", "quantifier": "all candidate sets", "why_tests_cant": "the greedy outcome depends on the global order of all candidate links", "anchors": ["lib/traj.cpp:47-62 TrajMap::push_back"]}
{"id": "C19", "title": "Trajectory index and its inverse agree", "statement": "For the TrajIndex built from a TrajMap, trajectory tr is at position p at time t iff the inverse index maps (t,p) to tr iff the map links p to tr in frame t; the frame sizes counted from the trajectories are those of the map. makeInverse is right for every list of trajectories that never share a position. Asking for a trajectory that is not there is undefined; asking one for a time where it has no position throws.", "quantifier": "all TrajMap histories", "why_tests_cant": "needs contiguity of every trajectory over the whole history", "anchors": ["lib/traj.cpp:135-204 TrajIndex, getMaxTime, getFrameSizes, makeInverse"]}
{"id": "C20", "title": "Trajectory files round-trip", "statement": "Reading back the text written by operator<<(TrajIndex) yields the same trajectories, appended to those already in the index, for any list of trajectories with at least one position each; writing a list with an empty trajectory is undefined.", "quantifier": "all lists of trajectories", "why_tests_cant": "all lengths and all decimal values", "anchors": ["lib/traj.cpp:87-106,207-237 operator<<, operator>>"]}
{"id": "C21", "title": "Conversion between position-indexed and trajectory-indexed maps is lossless", "statement": "posToTraj gives each trajectory the value of its position at the time step, and trajToPos at the same time step returns the original mapping; trajToPos alone drops exactly the trajectories absent from the time step.", "quantifier": "all consistent trajectory indexes, time steps and mappings", "why_tests_cant": "bijectivity over all sizes", "anchors": ["lib/traj.hpp:226-250 posToTraj, trajToPos"]}
{"id": "C22", "title": "Multiscale trajectory index: every frame is linked bijectively", "statement": "After any history of add_Frame (both forms, throwing calls included) whose p_from are positions of the previous frame and whose new trajectory numbers start at size(), no access is out of range; in every frame each position is in exactly one trajectory and no two positions in the same one, and the position-to-trajectory table is the inverse of the trajectories. The form with distances accepts only candidate links, refuses one only if its origin or destination is taken by one that is not longer, and gives new numbers to the other positions in order.", "quantifier": "all histories of add_Frame", "why_tests_cant": "greedy linking over arbitrary candidate sets and histories", "anchors": ["multiscale/src/traj.cpp:39-81 TrajIndex::add_Frame"]}
{"id": "C23", "title": "add_Frame: what is accepted, rejected and undefined", "statement": "With candidate links, add_Frame throws exactly on arrays of different sizes or a destination outside the new frame; an origin outside the previous frame is undefined behaviour; all else is accepted. With trajectory numbers, on an index that has trajectories, it throws exactly on duplicates, on a known trajectory absent from the previous frame, or on a hole in the new numbers; new numbers without hole that do not start at size() pass the checks and are undefined behaviour; all else is accepted. A call that throws changes nothing.", "quantifier": "all index states, all id sequences", "why_tests_cant": "strong exception guarantee and absence of out-of-range access for all inputs", "anchors": ["multiscale/src/traj.hpp:93-132 add_Frame", "multiscale/src/traj.cpp:48-81"]}
{"id": "C24", "title": "Multiscale trajectory span is half-open", "statement": "exist(t) holds iff a position was recorded for step t, and operator[] then gives it; for a<b span(a,b) holds iff exist(t) for every t in [a,b), b excluded: a trajectory that exists at time 0 only satisfies span(0,1).", "quantifier": "all trajectories and intervals", "why_tests_cant": "boundary case", "anchors": ["multiscale/src/traj.hpp get_finish, exist, span"]}
{"id": "C25", "title": "removeOverlapping returns pairwise non-overlapping centres and only drops overlapped ones", "statement": "removeOverlapping, for any outcome of its unstable sort: the output centres are input centres, each dropped centre conflicts with a kept one of lower or equal (more negative) intensity, no two kept centres conflict, the returned tree holds exactly the boxes of the kept centres, and repeating the call changes nothing. Two centres conflict when their boxes of half-width tolerance*r meet and tolerance*distance < r1+r2; for a tolerance up to 1 two kept centres are at least tolerance*(r1+r2) apart, and for the default tolerance 1/2 the second test is never decisive.", "quantifier": "all centre sets", "why_tests_cant": "greedy independent set over arbitrary geometry, depends on index correctness", "anchors": ["multiscale/src/center.hpp removeOverlapping"]}
{"id": "C26", "title": "Brute-force overlap removal is a greedy maximal independent set", "statement": "removeOverlapping_brute_force, for any outcome of its unstable sort: the output centres are input centres, two kept centres are never closer than r1+r2, each dropped centre is closer than r1+r2 to a kept one of lower or equal intensity, and repeating the call changes nothing.", "quantifier": "all centre sets", "why_tests_cant": "same", "anchors": ["multiscale/src/center.hpp removeOverlapping_brute_force"]}
{"id": "C27", "title": "Half-overlap removal keeps no centre inside a stronger one", "statement": "removeHalfOverlapping, for non-negative radii and any outcome of its unstable sort: the output centres are input centres, two kept centres are never closer than max(r1,r2), each dropped centre is closer than that to a kept one of lower or equal intensity, and the returned tree holds exactly the boxes of the kept centres.", "quantifier": "all centre sets", "why_tests_cant": "same", "anchors": ["multiscale/src/center.hpp removeHalfOverlapping"]}
{"id": "C28", "title": "3D reconstruction partitions every slice", "statement": "After any non-empty sequence of push_back(slice, max_dist) with non-negative radii and distances, every centre of every slice that removeOverlapping keeps is in exactly one cluster, once; each cluster is a non-empty run of consecutive slices with one centre per slice; cluster n follows trajectory n. Calling push_back after split_clusters breaks this: the new centre joins the first piece.", "quantifier": "all slice sequences", "why_tests_cant": "invariant of an unbounded streaming process", "anchors": ["multiscale/src/reconstructor.cpp:27-74 clear, push_back"]}
{"id": "C29", "title": "The candidate links are exactly the close pairs", "statement": "The links proposed by links_by_RStarTree are exactly the pairs of centres of the two slices closer than max_dist, each once, with their squared distance; those of links_by_brute_force are exactly the pairs closer than tolerance times the sum of the radii, each once. The two criteria are different: neither set contains the other.", "quantifier": "all pairs of slices", "why_tests_cant": "index pruning vs exhaustive search for all geometries", "anchors": ["multiscale/src/reconstructor.cpp:208-270 links_by_brute_force, links_by_RStarTree"]}
{"id": "C30", "title": "Splitting clusters conserves the centres", "statement": "split_clusters never loses, duplicates or reorders centres: concatenating the pieces of each cluster gives the original cluster. A cluster is cut if and only if it has at least five centres and its first and third are more than 1 apart in the plane, and then before every centre from the third to the third last: a jump elsewhere is not found.", "quantifier": "all cluster sets", "why_tests_cant": "all shapes of intensity profiles", "anchors": ["multiscale/src/reconstructor.cpp:76-101 split_clusters"]}
{"id": "C31", "title": "Euclidean neighbour search is exact", "statement": "After any history of makeRTreeIndex, push_back and translations that leaves the set indexed, getEuclidianNeighbours(c, r) returns the strictly increasing indices of exactly the particles at distance < r from c (for a particle index, all but itself) and getEuclidianNeighboursBySqDist returns the same particles with their squared distances in increasing order. Without index the searches throw. Rescaling positions with operator*= leaves the index behind, so that later searches miss particles.", "quantifier": "all particle sets, centres and ranges", "why_tests_cant": "index pruning vs the ball of radius r, all geometries", "anchors": ["lib/particles.cpp:236-268 getEuclidianNeighbours"]}
{"id": "C32", "title": "Nearest neighbour search returns the nearest particle", "statement": "getNearestNeighbour(c, r) on an indexed set returns the index of a particle at minimal distance from c (smallest index on ties) and terminates whenever the range is positive and the set is not empty; with an empty set, or a range that is not positive, it never returns.", "quantifier": "all particle sets, centres, positive initial ranges", "why_tests_cant": "range-doubling loop; termination and optimality for all geometries", "anchors": ["lib/particles.cpp:292-320 getNearestNeighbour"]}
{"id": "C33", "title": "Neighbour lists are symmetric, irreflexive and sorted", "statement": "makeNgbList(bondLength): j is in the list of i iff i is in the list of j iff i<>j and distance(i,j) < 2*bondLength*radius; every list is strictly increasing; there is one list per particle.", "quantifier": "all particle sets and bond lengths", "why_tests_cant": "all pairs of all sets", "anchors": ["lib/particles.cpp:326-346 makeNgbList"]}
{"id": "C34", "title": "Bonds and neighbour lists round-trip", "statement": "A bond set filled in any order holds each bond once with its ends ordered. makeNgbList(bonds) with all ends in range links i and j iff one of (i,j), (j,i) is a bond, so the lists are symmetric; ngb2bonds of it gives back the bonds without the self-bonds; without self-bonds the lists are strictly increasing. Conversely for sorted, symmetric, irreflexive neighbour lists makeNgbList(ngb2bonds(lists)) = lists. An end out of range makes makeNgbList write out of bounds.", "quantifier": "all bond sets with in-range ends", "why_tests_cant": "all graphs", "anchors": ["lib/particles.cpp:326-346 makeNgbList(BondSet)", "lib/particles.cpp:990-998 ngb2bonds", "lib/particles.hpp:59-84 Bond"]}
{"id": "C35", "title": "cut keeps a maximal well-separated subset", "statement": "cut(sep) keeps, in order, exactly the particles with no earlier kept particle closer than sep: kept particles are pairwise at distance >= sep, every dropped one is closer than sep to a kept one, and the result has a valid spatial index. removeShortRange keeps, in order, exactly the particles with no other particle closer than sep, and gives a set without index.", "quantifier": "all particle sets and separations", "why_tests_cant": "greedy selection over all geometries", "anchors": ["lib/particles.cpp:93-120 cut, removeShortRange"]}
{"id": "C36", "title": "Common-neighbour pairs are exactly as defined", "statement": "get1551pairs returns exactly the bonded pairs p<q with exactly five common neighbours each of which has exactly two neighbours among the others; get2331pairs exactly the non-bonded pairs p<q with exactly three such common neighbours; getSP5c exactly the bonded pairs with exactly five common neighbours, each followed by these in increasing order, without the ring condition.", "quantifier": "all neighbour lists", "why_tests_cant": "all graphs", "anchors": ["lib/particles.cpp:651-753 is_ring, get1551pairs, get2331pairs"]}
{"id": "C37", "title": "Ring test decides closed rings up to five particles", "statement": "For three, four or five particles is_ring is true iff they can be ordered in a single closed ring where each is linked exactly to the previous and to the next. Closed rings of any size from three are accepted; from six on non-rings are accepted too (two triangles); the empty list is accepted; one or two particles never are.", "quantifier": "all neighbour graphs and lists", "why_tests_cant": "greedy walk vs existence of a cycle over all graphs", "anchors": ["lib/particles.cpp:651-670 is_ring"]}
{"id": "C38", "title": "Margin selection without index", "statement": "selectInside_noindex(margin) returns exactly the indices of the particles at least margin away from the faces of the bounding box, where the upper faces are the largest coordinates or 0 if these are negative: for non-negative coordinates it is the margin from the bounding box of the particles, for negative ones particles on the upper face are wrongly selected.", "quantifier": "all particle sets and margins", "why_tests_cant": "depends on coordinate signs", "anchors": ["lib/particles.cpp:171-190 selectInside_noindex"]}
{"id": "C39", "title": "removeOutside resets exactly the complement of the selection", "statement": "removeOutside(inside, v) with a strictly increasing in-range selection resets to the default value exactly the entries whose index is not selected and keeps the others; with an unsorted selection it also resets selected entries.", "quantifier": "all sorted selections and vectors", "why_tests_cant": "all selections", "anchors": ["lib/particles.hpp:324-335 removeOutside"]}
{"id": "C40", "title": "Radial distribution histogram counts every close pair once, in bounds", "statement": "Filling the radial distribution binner with any selection counts, for every ordered pair (p,q) with p selected, p<>q and distance below the cut-off, one in the bin of its distance, all bins in range, and nothing else. With the loop run by several threads no bin exceeds this count, but the plain increments can lose counts under some schedules.", "quantifier": "all particle sets, selections, bin counts and cut-offs", "why_tests_cant": "all pairs; rounding at the last bin", "anchors": ["lib/particles.cpp:780-830 Binner, RdfBinner", "lib/particles.hpp:182-214"]}
{"id": "C41", "title": "Angular distribution marks the bins hit", "statement": "If no pair of neighbours makes an angle of exactly 180 degrees, getAngularDistribution gives the same weight to every bin hit by at least one pair of neighbours and zero to the others. The weight is assigned, not added, so that the total depends on collisions; opposite neighbours (180 degrees) are written out of the array.", "quantifier": "all neighbour lists and geometries", "why_tests_cant": "aligned bonds (angle pi) and repeated angles", "anchors": ["lib/particles.cpp:610-628 getAngularDistribution"]}
{"id": "C42", "title": "Second shell bonds are the pairs joined by a path of two links", "statement": "getSecondShell returns exactly the pairs p<q joined by a path of two links through some particle. Bonded pairs with a common neighbour are therefore included, bonded pairs without are not: it is neither the second shell alone nor both shells.", "quantifier": "all neighbour lists", "why_tests_cant": "all graphs", "anchors": ["lib/particles.cpp:755-778 getSecondShell"]}
{"id": "C43", "title": "Periodic differences are minimum-image", "statement": "For a periodic cell of positive widths, getDiff from a position of the cell to a particle of the cell gives, on each axis, a value in (-P/2, P/2] that leads to a periodic image of the particle, and no image is nearer. For positions outside of the cell this fails (the correction is by one period at most).", "quantifier": "all coordinates inside the box and all periods", "why_tests_cant": "all values including boundary cases", "anchors": ["lib/periodic.cpp:26-51 periodify, getDiff"]}
{"id": "C44", "title": "Periodic queries see every periodic image", "statement": "With all particles in the cell, after any history that leaves the index valid: selectEnclosed returns in increasing order, once each, only particles having an image in the closed query box and, for boxes up to one period away from the cell, every particle having an image strictly inside; further away images are missed. getEuclidianNeighbours from any position of the cell, at any range, returns exactly the particles having an image closer than the range (never a particle's own image), so that makeNgbList is symmetric. selectInside returns everything.", "quantifier": "all particle sets and query boxes smaller than the period", "why_tests_cant": "27 images over all geometries", "anchors": ["lib/periodic.cpp:65-116 selectInside, selectEnclosed"]}
{"id": "C45", "title": "Time-averaged fields are sliding means", "statement": "For consistent trajectories, once every frame has been pushed a DynamicField with averaging/2 = h, 0 < h < number of frames, holds for each position of each frame t the sum of the non-null values its trajectory meets from t-h to t+h over their number. With averaging 0 or 1 it holds the frames unchanged. If the movie has h frames or fewer it holds the bare sums, never divided. No access is out of range.", "quantifier": "all trajectory sets, values, window sizes, numbers of frames", "why_tests_cant": "sliding window bookkeeping at both ends for all sizes", "anchors": ["lib/fields.hpp:74-162 DynamicField"]}
{"id": "C46", "title": "Cluster segregation computes connected components", "statement": "For symmetric neighbour lists, segregate(population) appends the connected components of the neighbour graph restricted to the population: non-empty increasing sets, disjoint, covering the population, two particles together iff a chain of links inside the population joins them; the recursion ends. segregateAll does so for all particles. With asymmetric lists it is still a partition, but not the components.", "quantifier": "all neighbour lists and populations", "why_tests_cant": "reachability over all graphs", "anchors": ["lib/dynamicClusters.cpp:33-67 growCluster, segregate"]}
{"id": "C47", "title": "Dynamic clusters partition every frame and follow overlaps", "statement": "After assign over any positive number of frames, the clusters of each frame are the connected components, of more than one trajectory, of the population existing there; each cluster of each frame is on exactly one cluster trajectory, without gaps; successive clusters of a trajectory have a union smaller than three times their intersection; two such overlapping clusters of successive frames follow each other unless one of them has another link with an overlap at least as good.", "quantifier": "all sequences of frames", "why_tests_cant": "history property", "anchors": ["lib/dynamicClusters.cpp:96-170 assign"]}
{"id": "C48", "title": "Selecting spanning trajectories is exact", "statement": "For consistent trajectories and a <= b < number of frames, selectSpanning([a,b]) without spatio-temporal index returns exactly the trajectories that have a position at every time of [a,b], in increasing order and each once. If b is not a frame the behaviour is undefined: nothing checks it.", "quantifier": "all trajectory indexes and intervals", "why_tests_cant": "set intersection over all histories", "anchors": ["lib/dynamicParticles.cpp:464-494 selectSpanning"]}
{"id": "C49", "title": "Time-correlation functions average the documented origins, where they stay in range", "statement": "For consistent trajectories present over the needed interval: getMSD(selection,t0,t1,0) gives for each lag dt in [1,t1-t0] the sum of the square displacements over all origins t0..t1-dt divided by the number of origins times that of trajectories; with t3 > 0 over the t3 origins from t0; getMSD(t0,t1,t2) averages the windows starting at t0..t2-1 (t2-t0 windows, not t2; none and a division by zero if 0 < t2 <= t0); getISF from time 0 and getSelfISF with t3 > 0 (t1-t0 values) average the documented products. getISF from a later time and getSelfISF with the default t3 = 0 are out of range for every interval. getNonGaussian and get_MSD_NGP stay in range but use the displacement from t0 to t1 for every lag. A trajectory or a time that is not there is undefined, a trajectory without position at that time throws.", "quantifier": "all intervals t0<=t1 and averaging parameters", "why_tests_cant": "index arithmetic for all intervals", "anchors": ["lib/dynamicParticles.cpp:649-942 getMSD, getNonGaussian, get_MSD_NGP, getISF, getSelfISF"]}
{"id": "C50", "title": "Cage decomposition keeps the order and all but the last step", "statement": "For every trajectory, separations, positive threshold and resolution, getCages either keeps the trajectory whole or replaces it by at least two non-empty consecutive trajectories, from its start, that hold its positions in order except the last one. Once split, the last position is in no cage. In the index of cages every other position is found under its own cage.", "quantifier": "all trajectories and jump sets", "why_tests_cant": "all lengths and jump positions", "anchors": ["lib/dynamicParticles.cpp:1192-1282 splitByCageJump, getCages"]}
{"id": "C51", "title": "Removing the drift", "statement": "getDrift(selection,t0,.) for two or more selected trajectories is their mean displacement from t0 to t0+1 (the end argument only selects, it does not enter the displacement). removeDrift shifts each frame as a whole, the least shift being 0, and afterwards the total displacement of the trajectories common to two consecutive frames is zero whenever there are at least two of them. With a single common trajectory the drift is not removed.", "quantifier": "all trajectory sets", "why_tests_cant": "history property over all frames", "anchors": ["lib/dynamicParticles.cpp:514-607 getDrift, removeDrift"]}
{"id": "C52", "title": "Lost neighbours are counted exactly", "statement": "getLostNgbs(tr,t1,t2) is exactly the sorted list of the trajectories that are neighbours of tr at t1 and not at t2; getNbLostNgbs gives for each position of frame t the size of that list between the ends of the window [t-h,t+h] cut to the life of its trajectory.", "quantifier": "all neighbour lists and trajectory indexes", "why_tests_cant": "set differences over all graphs", "anchors": ["lib/dynamicParticles.cpp:1140-1190 getLostNgbs, getNbLostNgbs"]}
{"id": "C53", "title": "Time averages use exactly the window", "statement": "For consistent trajectories and a selection without duplicates, makeTimeAverage and makeSlidingTimeAverage give, for each window and each position of a selected trajectory spanning it, the sum of its values over the window divided by the length of the window. A sliding window longer than the number of frames + 1 throws.", "quantifier": "all series lengths and window sizes", "why_tests_cant": "window arithmetic for all sizes", "anchors": ["lib/dynamicParticles.cpp:1409-1470"]}
{"id": "C54", "title": "File series names parse and print consistently", "statement": "For a pattern made of a head, the last occurrence of the token, digits and a non-empty tail not beginning with a digit, without percent sign: step t is named head+token+number+tail, the number being t+offset completed with zeros to the number of digits; distinct steps have distinct names; the step numbered like the pattern is named like it; for a token without digit every name that holds in the digits parses back to the same series, changeExt, addPostfix and head act on the extension, before the token, and give the head. get0th plus an extension gives names of equal length for all steps. A pattern ending with its digits (hence get0th's result) is refused, and changeExt throws when the only dot is in the directory.", "quantifier": "all names, digit counts, steps", "why_tests_cant": "all strings and numbers", "anchors": ["lib/files_series.cpp:27-110", "lib/files_series.hpp:51"]}
{"id": "C55", "title": "Spherical-harmonic coefficient storage is a bijection", "statement": "The 36 stored coefficients are indexed without collision by (l,m), 0<=m<=l, even l<=10; i2l/i2m invert the index and list every position; q(l,-m) = (-1)^m conj q(l,m).", "quantifier": "all (l,m), all coefficient values", "why_tests_cant": "finite but exhaustive index claim plus algebra over all values", "anchors": ["lib/boo_data.cpp:83-97,152-160", "lib/boo_data.hpp:67-74"]}
{"id": "C56", "title": "Wigner-3j table lookups are in range, collision-free and symmetric", "statement": "getW3j(l,m1,m2) reads inside the 91-entry table for all legal (l,m1,m2), is invariant under permutation and sign change of (m1,m2,-m1-m2), and distinct classes read distinct entries.", "quantifier": "all even l<=10 and legal m1,m2", "why_tests_cant": "exhaustive index claim", "anchors": ["lib/boo_data.cpp:83-112 getW3j"]}
{"id": "C57", "title": "What getWl and getInvarients compute", "statement": "For coefficients with real q(l,0): getInvarients sums the 3j symbol times three coefficients over every (m1,m2,m3) of null sum once, a real number; getWl returns 12 times the (complex) sum over 0<=m1<=m2, m1+m2<=l only; both divide by the same norm. Grouping the first by orders 0<=m1<=m2, the exact weights are 1 for (0,0), 6 when m1=0 or m1=m2, 12 otherwise: so the two do not agree, and getWl need not be real (both refuted).", "quantifier": "all coefficient vectors", "why_tests_cant": "algebraic identity over all values", "anchors": ["lib/boo_data.cpp:195-241 getWl, getInvarients"]}
{"id": "C58", "title": "Binary and text exports of coefficients round-trip", "statement": "BooData(toBinary) and operator>>(operator<<) restore the same 36 coefficients, toBinary leaving the rest of the buffer as it was. BooData(string) always writes out of bounds (refuted).", "quantifier": "all coefficient vectors", "why_tests_cant": "all values", "anchors": ["lib/boo_data.cpp:297-356"]}
{"id": "C59", "title": "Inner product is a symmetric positive form", "statement": "innerProduct(a,b,l) = innerProduct(b,a,l); for real m=0 coefficients it is the sum over all orders of Re(a conj b), innerProduct(a,a,l) = getSumNorm(l) >= 0 and innerProduct(a,b,l)^2 <= getSumNorm(a) getSumNorm(b). With an imaginary m=0 coefficient the product with itself is not the norm.", "quantifier": "all coefficient vectors", "why_tests_cant": "inequality over all values", "anchors": ["lib/boo_data.cpp:163-188"]}
{"id": "C60", "title": "2D blob detection finds exactly the scale-space minima", "statement": "Provided one size per scale, initialize_binary reads only existing pixels, reports each pixel at most once, sets the binary flag exactly at the reported pixels; each reported pixel is a negative minimum among its 26 scale-space neighbours, in the margins, passing the edge test; and every strict one in the scanned pairs of rows and columns (first pair at max(sizes[odd scale]+1,3)) is reported. Pixels allowed by the margins but before the first pair are missed (refuted).", "quantifier": "all images, layer counts and blob sizes", "why_tests_cant": "block-skipping search over all images", "anchors": ["multiscale/src/octavefinder.cpp:340-419 OctaveFinder::initialize_binary"]}
{"id": "C61", "title": "1D blob detection finds exactly the scale-space minima", "statement": "In one dimension, when the sizes of odd scales are at least 2: same as C60 with 8 neighbours and the gradient test. With a smaller size the pixels read are not those named: a strict minimum is missed and a pixel that is not a minimum reported (refuted).", "quantifier": "all signals and sizes", "why_tests_cant": "alignment between block position and read pointer", "anchors": ["multiscale/src/octavefinder.cpp:426-479 OctaveFinder1D::initialize_binary"]}
{"id": "C62", "title": "The 3D sliding window shows the right planes", "statement": "During the 3D search, when 3 <= sizes[1] and there are at least sizes[1]+3 planes, at every step reading plane offset k in [-3,4] of any scale returns image plane (current+k), which exists, and loading never crosses the circular boundary. Otherwise the first load reads outside the image (refuted).", "quantifier": "all image depths, numbers of steps and scales", "why_tests_cant": "circular indexing over all steps", "anchors": ["multiscale/src/octavefinder.cpp:481-557, 1042-1061 CircularZ4D", "multiscale/src/octavefinder.hpp:164-196"]}
{"id": "C63", "title": "Octave pyramid dimensions and downscaling are in bounds", "statement": "A finder for an image of any size has octave 0 of twice its size and octaves k+1 of its size divided by 2^k exactly as long as every dimension is at least 12 (10 in 3D); downscale from any octave to the next reads only existing pixels and writes every pixel of the smaller image, the mean of its 2, 4 or 8 pixels.", "quantifier": "all image sizes", "why_tests_cant": "index arithmetic for all parities", "anchors": ["multiscale/src/multiscalefinder.cpp:16-57,139-177"]}
{"id": "C64", "title": "Upscaling interpolates linearly", "statement": "In one and two dimensions upscale copies each input pixel to the even positions and fills the odd positions between two pixels with their mean, the last odd row and column being zero. In 3D lines and planes are interpolated so, but odd pixels of the lines stay zero (interpolation refuted), and a volume deeper than the finder, which fill does not refuse, overruns the buffer (refuted).", "quantifier": "all images", "why_tests_cant": "pointer walking over all sizes", "anchors": ["multiscale/src/multiscalefinder.cpp:178-298"]}
{"id": "C65", "title": "Image slices are read from the right place", "statement": "For a series of 8-bit images with fewer than 2^31 pixels per time step, fill2DBuffer(t,z) / fill3DBuffer(t) give every channel of every pixel of slice z / of time step t, read inside the data of the series; the volume is the concatenation of its slices; t out of range throws. But z is not checked, a read past the end of the file silently disables all later reads, larger or deeper pixels are misread, and the locator reads time step 0 at every time step, breaks the lines of non-square images and overruns its slice with several channels (each refuted).", "quantifier": "all dimensions, channel counts, t, z", "why_tests_cant": "offset arithmetic for all layouts", "anchors": ["multiscale/src/lifFile.cpp:280-323 fill3DBuffer, fill2DBuffer, getOffset", "multiscale/src/locatorfromlif.cpp:83-111"]}
{"id": "C66", "title": "Parsing a LIF file finds its memory blocks", "statement": "Reading a well-formed file yields one series per non-empty memory block, in order, with the headers in order and the right offset and size; on any file the loop over blocks ends and the series found begin in the file and, if their size is below 2^63, end in it without overlap. A file cut in the data is refused; cut before the second test code of a block it is read for ever (refuted), and sizes near 2^64 pass the end-of-file check (refuted).", "quantifier": "all files", "why_tests_cant": "byte-level parser over all inputs", "anchors": ["multiscale/src/lifFile.cpp:390-476 LifReader"]}
{"id": "C67", "title": "Image padding is transparent", "statement": "Filling the padded image (at once or slice by slice) and unpadding in place leaves a buffer that starts with the given pixels in order, with every access inside the block; unpadding twice changes nothing; copying out gives the same pixels; an input that is too short is read past its end. But fillImage sums into an uninitialised variable, so its mean is undefined (refuted).", "quantifier": "all dimensions and pixel values", "why_tests_cant": "in-place compaction over all sizes", "anchors": ["graphic/tracker.hpp:186-302 fillImage, fillSlice, copyImage", "graphic/tracker.cpp:357-364 unpad"]}
{"id": "C68", "title": "The Fourier mask is symmetric", "statement": "When the first two dimensions are even or 1, after mirrorMask mask(i,j,k) = mask(-i mod n0,j,k) = mask(i,-j mod n1,k), and band-pass and low-pass masks keep exactly the cells whose absolute frequencies are between the limits drawn. With an odd dimension of 5 or more the mirror is shifted by one frequency, and with a dimension of 3 the last row is never written (both refuted).", "quantifier": "all image dimensions (even and odd)", "why_tests_cant": "parity of every dimension", "anchors": ["graphic/tracker.cpp:272-319 mirrorMask"]}
{"id": "C69", "title": "Pixel centres are isolated local maxima above threshold", "statement": "On any image, findPixelCenters stays inside its memory, marks only pixels at least 6 pixels from the borders of the dimensions of 13 pixels or more, not below the threshold nor below an adjacent pixel, never two adjacent pixels, and marks every interior pixel that reaches the threshold and is brighter than all adjacent ones; the map can be reused for a series of images. In images below 13 pixels in all dimensions every pixel reaching the threshold is marked. A maximum made of equal pixels next to the margin can be lost entirely, and in dimensions of 5 to 12 pixels the window around a centre can be read out of the image (both refuted).", "quantifier": "all images and thresholds", "why_tests_cant": "neighbour pointers scanning over all images", "anchors": ["graphic/tracker.cpp:546-644 findPixelCenters"]}
{"id": "C70", "title": "Automatic thresholding terminates and removes only the dimmest centres", "statement": "When it returns, automatic thresholding keeps exactly the centres whose intensity reaches the start of one populated bin, in increasing intensity, always including the brightest; if no bin before the peak is empty it returns, with the first least populated bin before the peak. It never returns exactly when a bin between the result of the dichotomy and the peak is empty, and it is undefined without centres or when all have the same intensity (each refuted).", "quantifier": "all histograms", "why_tests_cant": "loop over histogram valleys for all histograms", "anchors": ["graphic/tracker.cpp:755-808 getSubPixel"]}
{"id": "C71", "title": "1D convolution along an axis touches every pixel exactly once", "statement": "On an image of any number of non-empty dimensions and along any axis, convolve(im, axis, kernel) replaces each pixel by the value, at its place, of the transform of the original line through it along the axis, and get_spectrum_1d(im, axis) accumulates each line along the axis exactly once and divides by their number; both throw if the axis does not exist. The kernel is read out of bounds if it is shorter than the spectrum and an image with an empty dimension before the axis divides by zero (both refuted).", "quantifier": "all image shapes and axes", "why_tests_cant": "stride arithmetic for all shapes", "anchors": ["multiscale/src/deconvolution.cpp:76-152"]}
{"id": "C72", "title": "Deconvolution kernel computation stays in bounds", "statement": "For any image shape, axes and non-negative size ratio, get_deconv_kernel reads only existing values of both spectra, returns one value per frequency of the bad axis (so that convolve can use it), equal to 1 where the interpolated good spectrum does not exist or the bad spectrum is not usable and to the ratio of the two otherwise; it throws if an axis does not exist. The frequencies compared have not the same period when the axes have different numbers of pixels (refuted).", "quantifier": "all image shapes and size ratios", "why_tests_cant": "interpolation index arithmetic for all ratios", "anchors": ["multiscale/src/deconvolution.cpp:113-133"]}
{"id": "C73", "title": "Velocities are displacements over the window", "statement": "velocities(t,h), h > 0, times below 2^31: for each position of frame t, the displacement of its trajectory between the ends of [t-h,t+h] cut to its life, divided by the (positive) number of steps between them; the null vector for a trajectory of one step. With h = 0 every longer trajectory divides by zero.", "quantifier": "all consistent trajectory sets, frames and windows", "why_tests_cant": "clipping of the window for all life spans", "anchors": ["lib/dynamicParticles.cpp:1119-1135 velocities"]}
{"id": "C74", "title": "The table holds the Wigner 3j symbols", "statement": "For every kept degree l and all legal orders, getW3j(l,m1,m2) is the Wigner 3j symbol (l l l; m1 m2 -m1-m2) as given by Racah's formula, sign included.", "quantifier": "all even l<=10 and legal m1,m2", "why_tests_cant": "756 arguments, exact radicals; tests compare a few decimals", "anchors": ["lib/boo_data.cpp:38-112 getW3j"]}
{"id": "C75", "title": "Rotations of the coefficients are total and exact sums", "statement": "Applying the Wigner D coefficients to any 36 coefficients reads only the tabulated powers, factorials of non-negative numbers and initialised prefactors; the result's coefficient (l,m2) is the sum over m1 in [-l,l] of exp(-i m2 alpha) d(l,m2,m1) exp(-i m1 gamma) q(l,m1), d being Wigner's formula; null angles give the coefficients back. rotate_by_Pi is one such application, reflect two with the signs (-1)^(l-m2) in between.", "quantifier": "all coefficient vectors and all tables of powers", "why_tests_cant": "index arithmetic over all (l,m1,m2,k)", "anchors": ["lib/boo_data.cpp:244-293,358-413 rotate_by_Pi, reflect, Wigner_D", "lib/boo_data.hpp:89-111"]}
{"id": "C76", "title": "3D blob detection finds exactly the scale-space minima", "statement": "When 3 <= sizes[1] and there are at least sizes[1]+3 planes, the 3D search reports each pixel at most once, each reported pixel is a negative minimum among its 80 neighbours in space and scale passing the edge test, every strict one in the scanned pairs of planes, rows and columns is reported, and its subpixel shifts are computed from the 7 image values around it in each direction and the 3 differences of Gaussians around its scale.", "quantifier": "all images, depths, layer counts and blob sizes", "why_tests_cant": "a sliding window over unbounded depth, 16-pixel blocks", "anchors": ["multiscale/src/octavefinder.cpp:481-557,1042-1169 OctaveFinder3D::initialize_binary, CircularZ4D"]}
{"id": "C77", "title": "Bond orientational order is a mean over bonds", "statement": "On sorted, symmetric, irreflexive, in-range neighbour lists: getBOO is the mean of the harmonics over the neighbours, null without any; getBOOs on a fresh vector gives the same value, bit for bit, for every particle with neighbours (a bond's harmonics not depending on its direction), and getBOOs_SurfBOOs for every particle; surface values are the mean over the particle's bonds and the bonds between two of its neighbours; coarse graining is the mean over the particle and its neighbours, flipping adds each non-null mate turned around the bond; removeOutside keeps exactly a sorted in-range selection. But getBOOs divides by zero for isolated particles, reused vectors are added to the sums, and removeOutside loses values of unsorted selections and overflows past the end.", "quantifier": "all neighbour lists, coefficients and selections", "why_tests_cant": "accumulation over all pairs in both directions", "anchors": ["lib/particles.cpp:348-540 getBOO, getCgBOO, getBOOs, getCgBOOs, getSurfBOOs, getBOOs_SurfBOOs, getFlipBOOs", "lib/particles.hpp:322-336 removeOutside"]}
{"id": "C78", "title": "Particle files round trip", "statement": "Positions written by exportToFile and read by the file constructor are the same in the same order, coordinates and upper box corner rounded once by the printing (lower corner lost); any spacing is accepted; but rows missing from a file silently put particles at the origin.", "quantifier": "all numbers of particles, coordinates and spacings", "why_tests_cant": "all texts", "anchors": ["lib/particles.cpp:33-60 Particles(filename)", "lib/particles.cpp:833-854 exportToFile"]}
{"id": "C79", "title": "Bond files and VTK exports are consistent", "statement": "loadBonds of any text stops and gives a set of bonds in increasing order; of pairs of numbers in any order, orientation and repetition, exactly the set of these bonds; of a saved set, this set. exportToVTK announces exactly the numbers of points, cells and cell entries that follow. But the length of the fields is not compared to the number of points.", "quantifier": "all texts, bond sets, points and fields", "why_tests_cant": "all texts", "anchors": ["lib/particles.hpp:261-272 operator<<, operator>>", "lib/particles.cpp:857-922,1000-1021 toVTKstream, exportToVTK, loadBonds", "lib/fields.cpp:33-55 operator<<"]}
{"id": "C80", "title": "Bond orientational order files", "statement": "Coefficients saved as text and read by load_qlm are the same, rounded once; fewer records leave the last values, more records than particles write out of bounds; loadBoo skips a line and stores at most 8 values per particle, more write out of bounds. load_q6m works exactly when there is a spare particle or no white space at the end, so what exportQ6m writes for the same particles always makes it write out of bounds.", "quantifier": "all coefficients, texts and numbers of particles", "why_tests_cant": "all texts", "anchors": ["lib/particles.cpp:559-606,969-987 exportQ6m, load_q6m, load_qlm, loadBoo", "lib/boo_data.cpp:338-356 operator<<, operator>>"]}
{"id": "C81", "title": "Linking successive frames", "statement": "link() on a non-empty serie of 3D frames (whose index was not left behind by a rescaling) keeps the positions, indexes every frame and puts each position of each frame on exactly one trajectory, the inverse agreeing; successive positions of a trajectory are closer than a diameter; two positions of successive frames closer than a diameter follow each other or one of them has a shorter link, or one of the same length from a position of smaller number or to a position of smaller number; a particle that moves less than a diameter and less than its distance to any other particle of either frame is followed. A serie without frame is undefined, and a frame rescaled after indexing keeps its old index, so that a particle that does not move is lost.", "quantifier": "all series of frames, positions and radii; all tree heuristics", "why_tests_cant": "all positions", "anchors": ["lib/dynamicParticles.cpp:1477-1512 link", "lib/dynamicParticles.cpp:35-66 constructors"]}
{"id": "C82", "title": "Removal of the drift written in a file", "statement": "removeDrift(file, offset) moves frame t along x and y by the sum of the displacements up to t minus the largest of these sums (or 0): the relative shift of two successive frames is the displacement of the file, no position moves to the positive side; without file nothing changes; the constructor links the shifted positions. But positions leave the image on the negative side, and with an offset the displacements of step n and after are ignored.", "quantifier": "all series, displacement files and offsets", "why_tests_cant": "all files", "anchors": ["lib/dynamicParticles.cpp:572-607 removeDrift", "lib/dynamicParticles.cpp:43-66 constructors"]}
{"id": "C83", "title": "Windowed self intermediate scattering function", "statement": "getSelfISF(q,t0,t1,t2) and getSelfISF(t0,t1,t2) with t2>t0 are the mean over the windows starting at t0..t2-1 of the self ISF of the spanning trajectories, weighted by their number (and over the 3 axes), with t1-t0 elements. But a window spanned by no trajectory gives an undefined mean, the default t2 is out of range for every interval, and makeDynamics is out of range for every set of trajectories; the mean over the axes it would go on with is the mean of the three functions at every lag, as long as none of them is shorter.", "quantifier": "all trajectories, wave vectors and intervals", "why_tests_cant": "all histories", "anchors": ["lib/dynamicParticles.cpp:944-1064 getSelfISF, makeDynamics"]}
{"id": "C84", "title": "Square displacement around a time step", "statement": "getSD(t,h) is 2h+1 times the squared velocity of getVelocity, hence not a squared displacement: uniform motion by 1 per step with h=1 gives 3.", "quantifier": "all trajectories, times and half widths", "why_tests_cant": "all histories", "anchors": ["lib/dynamicParticles.cpp:627-645 getSD"]}
{"id": "C85", "title": "Saved trajectories load back", "statement": "Dynamic particles saved by save and loaded by the constructor from a file, from any folder holding the trajectory file and the position files, have the same radius and time step (rounded once by the printing), the positions of the files, the same trajectories and an inverse that agrees with them; a missing trajectory file or a missing position file throws. Two cases fail: a trajectory longer than the number of steps given to save is saved but loading it writes out of bounds, and a white space at the end of the first line (a carriage return) makes the names be misread and the offset and size never be read.", "quantifier": "all trajectories, positions, names, folders and disks", "why_tests_cant": "the set of disks and trajectories is unbounded", "anchors": ["lib/dynamicParticles.cpp:69-96 DynamicParticles(filename)", "lib/dynamicParticles.cpp:274-299 save", "lib/traj.cpp:207-237"]}
{"id": "C86", "title": "Number density", "statement": "getNumberDensity is the number of particles over the volume between the extreme coordinates; it is the same with a spatial index if all coordinates are larger than the smallest positive double (image coordinates), and it does not change under a translation. It is undefined for an empty set; with an index a rescaling leaves it unchanged; and with negative coordinates making an index may change it by more than a factor two.", "quantifier": "all sets of particles and histories of translations, rescalings and indexings", "why_tests_cant": "all coordinates and histories", "anchors": ["lib/particles.cpp:930-953 getNumberDensity"]}
{"id": "C87", "title": "Normalised pair correlations", "statement": "getRdf of a selection gives n elements: the first is null, the k-th is the number of ordered pairs (selected particle, any other particle) with k/n <= distance/cutoff < (k+1)/n over the norm and over k squared. The orientational correlation counts only the pairs where both orders are not null and its k-th element is the sum of their inner products over 13/(4 pi) times their number, or null if there is none. Asking for no bin is never defined.", "quantifier": "all sets of particles, histories, selections, numbers of bins, cutoffs and orientational orders", "why_tests_cant": "all inputs", "anchors": ["lib/particles.cpp:780-828 Binner, RdfBinner, GlBinner, getRdf", "lib/particles.hpp:182-232", "lib/particles.hpp:311-320"]}
{"id": "C88", "title": "Names and pixels of a series of image files", "statement": "A name pattern head_zDD_tDD.ext (either number optional) makes the slice z of time t be read from the file named as the pattern with z and t, padded with zeros to the number of digits of the pattern; the pattern is the name of its own numbers and different (z,t) have different names. Each slice of the image is the chosen channel of its file and the mean is the sum of all these pixels over their number. Several slices without _z, several times without _t, a name ending with the digits and a missing file throw. What fails: text between the number of the slice and _t is lost; with _t before _z the same file (named as the text before _t) is loaded for every slice and time; the mean of a series without depth is never defined; the size of the files is not checked, so that a wider file gives scrambled lines.", "quantifier": "all names, numbers, disks, image sizes and channels", "why_tests_cant": "the names, files and sizes are unbounded", "anchors": ["graphic/serieTracker.cpp:161-274 SerieTracker, setTimeStep", "graphic/tracker.hpp:187-265"]}
{"id": "C89", "title": "Time steps of a Leica file in the tracker", "statement": "For one channel and contiguous time steps, k increments after setTimeStep(t) show time step t+k, pixel by pixel, exactly as setTimeStep(t+k); setTimeStep beyond the last step throws, and incrementing at the end of the file keeps the last image. With several interlaced channels the channel asked for is not used: voxel q holds channel q mod c of pixel q/c, and the increment stays in the same time step.", "quantifier": "all files, sizes, numbers of channels and time steps, sequences of increments", "why_tests_cant": "all histories", "anchors": ["graphic/lifTracker.cpp:35-84", "graphic/lifFile.cpp:302-322 begin, getOffset", "graphic/tracker.hpp:220-243"]}
{"id": "C90", "title": "Neighbourhood of a particle in an image", "statement": "The neighbourhood of 2r+1 voxels in each dimension around a particle of the image is the part of the image that begins at some voxel, the centre is given with respect to that voxel, all voxels at most r away in each dimension are there and everything else is null. For the radii the size is 2 rmax + 1 if rmax is a whole number of voxels and the image is larger than 2 rmax, else one voxel. What fails: an rmax of a half-integer number of voxels makes an even size and writes outside the neighbourhood around every particle far from the sides; a particle farther than the neighbourhood from the end of the image is undefined.", "quantifier": "all images, sizes, positions (at any fraction of a voxel) and radii", "why_tests_cant": "positions and sizes are unbounded", "anchors": ["graphic/radiiTracker.cpp:33-55 getNeighbourhood", "graphic/radiiTracker.cpp:128-144 getRadii"]}
{"id": "C91", "title": "Radius of a particle", "statement": "When rmax is a multiple of the precision, the radius is the precision times the first place, between the margins given by rmin, where the slope of the smoothed curve of mean intensity inside a distance is the smallest; the mean inside a distance is the sum of the intensities of the voxels closer than it, over one plus the number of those not in the first bin; distances are those of the sample: the steps along z, the first dimension of the array in Fortran order and the last otherwise, are scaled by the ratio of the voxel sizes. What fails: if rmax is not a multiple of the precision, a voxel beyond the last whole bin is counted out of bounds; a margin of more than half of the range is undefined; the first value of the curve is a sum, not a mean.", "quantifier": "all neighbourhoods, distances, precisions, margins and smoothing functions", "why_tests_cant": "all inputs", "anchors": ["graphic/radiiTracker.cpp:58-125 getRadius"]}
{"id": "C92", "title": "Boxes around trajectories, clusters and frames", "statement": "The bounding box of a trajectory is the smallest box that contains all its positions; that of a cluster at a time is the smallest box that contains the balls of the common radius around its members, and a member that does not exist at that time throws. The largest extents of the clusters of a time step are, in each dimension, the largest difference between the coordinates of two members of a same cluster plus a diameter, and null without cluster. The box of all frames is the smallest that contains the box of each frame, and the largest number of particles is that of some frame and at least that of each frame. Two cases fail: the box of all frames need not contain a particle added after the box was given; without frame, and for an empty cluster, the result is undefined.", "quantifier": "all trajectories, positions, clusters, radii, times and sets of frames", "why_tests_cant": "all inputs and histories", "anchors": ["lib/dynamicParticles.cpp:101-143 boundsTrajectory, getMaxBox, getMaxSimultaneousParticles", "lib/dynamicClusters.cpp:229-263 bounds, getLargestDelta"]}
{"id": "C93", "title": "Cluster files", "statement": "After clusters have been assigned, save writes one file per time step, with the name of that step; its first line is the number of clusters of the step, and each other line is, for one cluster in order, the number of its trajectory, the number of its members and the position of each member in the frame, where the trajectory of the cluster passes through that cluster at that step.", "quantifier": "all trajectories, symmetric neighbour lists, populations and file names", "why_tests_cant": "all inputs and histories", "anchors": ["lib/dynamicClusters.cpp:173-191 save", "lib/dynamicClusters.cpp:96-171 assign"]}
{"id": "C94", "title": "Orientational order of selected trajectories", "statement": "At a time step the order of a selection of trajectories is a map from exactly the positions of the selected trajectories that exist then to their order in the frame. The smoothed map has the same positions and the value of each is the sum of the orders of all particles of the frame closer than the range, over their number. Two cases fail: a neighbour that is not in the given map (for instance not selected) makes an undefined access, and a trajectory listed twice is averaged twice, the second time starting with the result of the first.", "quantifier": "all trajectories, selections, frames, histories of the frame, ranges and orders", "why_tests_cant": "all inputs and histories", "anchors": ["lib/dynamicParticles.cpp:1368-1403 makeBoo, makeSBoo"]}
{"id": "C95", "title": "Gaussian kernels shared between blurs", "statement": "The kernel returned for a standard deviation sigma is the one made for the first request, in the life of the program, whose 100 sigma has the same integer part; it was thus made for a sigma less than 0.01 pixel away, has an odd number of rows (2 round(4 sigma) + 1 of its own sigma), at most two rows more or less than the kernel of the exact sigma, and every later request with the same integer part gets the same kernel whatever is asked in between. Two expectations fail: the kernel of a given sigma depends on earlier requests of other sigmas, and its precision is not 1% (0.001 and 0.009 share their kernel).", "quantifier": "all sequences of requests and all standard deviations", "why_tests_cant": "histories of requests are unbounded", "anchors": ["multiscale/src/octavefinder.cpp:18-35 get_kernel"]}
{"id": "C96", "title": "Response at an intermediate scale", "statement": "gaussianResponse at a whole scale is the pixel of that layer; at an intermediate scale it is the pixel of the layer below blurred by the kernel, with null pixels outside of the image, whenever the image is a square (in 3D: planes of as many rows as columns) or the pixel is far from the ends of rows and columns; a scale beyond the last layer blurs the last; in 1D pixels outside are those reflected at the ends. A negative scale and too few coordinates throw. What fails: the limits of rows and columns are exchanged, so that a wide image is read out of bounds near its last row and gives a null response far in its columns, and a tall image gives a null response far in its rows; near a border the response of a uniform image is lower than its value.", "quantifier": "all images, sizes, pixels, kernels and scales", "why_tests_cant": "sizes, values and positions are unbounded", "anchors": ["multiscale/src/octavefinder.cpp:614-726 gaussianResponse"]}
{"id": "C97", "title": "Positions and scales better than the pixel", "statement": "In 2D a pixel that is not on the border gets two coordinates and the intensity of its difference of Gaussians; a coordinate is inside of the pixel whenever the pixel is an extremum of the Gaussian layer below along that dimension, and is the extremum of the parabola through the three pixels when they are on one; in 1D the same holds when the three pixels are not aligned. The scale in 2D is at most half a layer away from the detected layer or not a number, and is the extremum when the differences of responses are on a parabola; the first layer throws. In 3D, three voxels away from the ends, nothing is read out of bounds, each coordinate is between -9/16 and 23/16 of its voxel or not a number and is 7/16 more than the extremum of a parabola, and the shift in scale is at most half a layer or not a number. What fails: a pixel that is minimal in the differences of Gaussians but not extremal in the Gaussian layer may be placed at any distance, out of the image; border pixels (in 3D, less than three voxels away from the ends) are read out of bounds; aligned pixels give infinite or undefined positions in 1D, and uniform values undefined scales and 3D positions.", "quantifier": "all images, sizes, pixels, layers and responses", "why_tests_cant": "values and sizes are unbounded", "anchors": ["multiscale/src/octavefinder.cpp:559-589 spatial_subpix", "multiscale/src/octavefinder.cpp:728-778 scale_subpix", "multiscale/src/octavefinder.cpp:1119-1170 CircularZ4D::shift"]}
{"id": "C98", "title": "Centres found in two successive octaves", "statement": "seam_binary, called on the finder of the larger image with the finder of the smaller one, keeps images and order and only removes centres of the last layer of the larger and of the first layer of the smaller; afterwards two centres at the same place have the same value, no centre of the larger near a centre of the smaller is lower than it, each removed centre has a strictly lower one near by that survives, and the binary images show the surviving centres. Called in the other order, which the code provides for, it is undefined as soon as the smaller finder has a centre in its first layer.", "quantifier": "all finders: sizes, values, sets of centres", "why_tests_cant": "all images and sets of centres", "anchors": ["multiscale/src/octavefinder.cpp:843-883 seam_binary"]}
{"id": "C99", "title": "Centres of all octaves", "statement": "subpix reports exactly the centres of each octave in use, octave after octave and in order, whatever was in the container; a pixel of octave o is worth 2^(o-1) pixels of the input and the radius is that of the layer in its octave; radii of successive octaves continue each other (layer s of octave o+1 is layer s+n of octave o). In 2D the radius of a centre below layer 1 is the one measured in the previous octave, at the pixel nearest to the double of its coordinates and layer n+1. Without the first octave, an image of a single octave has no centre. What fails: a centre placed at a negative coordinate is looked for at a negative pixel.", "quantifier": "all numbers of octaves and layers, sets of centres and coordinates", "why_tests_cant": "all inputs", "anchors": ["multiscale/src/multiscalefinder.hpp:94-156 subpix, previous_octave_coords, seam", "multiscale/src/octavefinder.hpp:55-57 scale"]}
{"id": "C100", "title": "Memory of the 3D finder", "statement": "For positive sizes whose product is less than 2^31, every voxel of every Gaussian layer is in the memory (or file) of the finder, no two voxels share memory, every pixel of the memory is one voxel, and the two-dimensional headers show the same voxels. What fails: the images of the differences of Gaussians, that get_layers gives, are entirely out of the memory, and a volume of 2^31 voxels or more (for instance the first octave of 512x1024x1024 voxels) is undefined.", "quantifier": "all sizes and numbers of layers", "why_tests_cant": "sizes are unbounded", "anchors": ["multiscale/src/octavefinder.cpp:52-97 OctaveFinder3D", "multiscale/src/octavefinder.hpp:39-40"]}
{"id": "C101", "title": "Drawing a sphere", "statement": "For a radius that is not negative drawsphere gives the value to exactly the voxels of the volume closer to the point than the radius and changes no other; a radius of -1 or less draws nothing. A negative radius larger than -1 may still draw.", "quantifier": "all volumes, points, radii and values", "why_tests_cant": "all inputs", "anchors": ["multiscale/src/octavefinder.hpp:203-221 drawsphere"]}
{"id": "C102", "title": "Shrinking a volume", "statement": "With integer pixels whose block sum is not negative, volume_shrink gives to each voxel the mean of its block of factor^3 voxels rounded to the nearest integer, thus keeps uniform volumes; a block beyond the end of the large volume is read out of bounds. What fails: negative means are not rounded to the nearest (a uniform -2 becomes -1), and with floating point pixels one half is added and fractional parts are lost.", "quantifier": "all volumes, factors and voxels", "why_tests_cant": "sizes and values are unbounded", "anchors": ["multiscale/src/octavefinder.hpp:222-238 volume_shrink"]}
{"id": "C103", "title": "Lost and gained neighbours", "statement": "dhlngb counts, for each particle and time, the neighbours at that time (beyond the smallest separation) that are no longer neighbours at the end of the interval; lostngb counts those at the end of the interval that were not there at the start, and gives -1 to trajectories that end before. Reading a bond file always ends, and a bond file that cannot be opened is silently a frame without bonds. What fails: the number that lostngb calls lost is the number of gained neighbours; a bond file without any bond is undefined; an interval longer than the number of frames is undefined.", "quantifier": "all bond files, trajectories, separations and intervals", "why_tests_cant": "files and histories are unbounded", "anchors": ["mains/lostngb.cpp:27-108 export_post_lostNgb", "mains/dhlngb.cpp:33-146 fillNgbFrame, main"]}
{"id": "C104", "title": "Pairs with a ring of five common neighbours", "statement": "For bonds between different particles sp5c ends and writes, once each and in the order of the bonds, the seven particles of each bond whose ends have exactly five common neighbours bonded in a ring: the two ends, then the five in the order of the ring; the number of particles written is a multiple of seven, and the .n7a file gives for each particle the number of such bonds it belongs to. What fails: with a particle bonded to itself a record may have fewer than seven particles, which shifts the following ones.", "quantifier": "all sets of bonds and numbers of particles", "why_tests_cant": "bond networks are unbounded", "anchors": ["mains/sp5c.cpp:45-125 main"]}
{"id": "C105", "title": "Average of pair correlation functions over files", "statement": "totalRdf reads the files of a series up to the first that is missing, ends, and writes one row per bin: the distance and the sum of the values of the files divided by the number of files plus one; without any file it succeeds with null values. What fails: the values are not the mean: for identical files, each value written is smaller than that of the files.", "quantifier": "all series of files, numbers of bins, values and ranges", "why_tests_cant": "the number of files is unbounded", "anchors": ["mains/totalRdf.cpp:46-64 main"]}
{"id": "C106", "title": "Bond length from the first minimum of the pair correlation function", "statement": "The search for the first minimum gives the lowest bin after the highest bin whenever it is not null. all_bonds and linkboo, run again on the file they saved, find the same bond length. The bonds program, given a length, writes exactly the pairs closer than that many diameters, once each and in order. What fails: the search never ends as soon as a bin after the highest one is null, in particular for multiple centres at small distance, which the loop is there to get rid of, and after totalRdf has written the same file with fewer than 200 bins; the bonds program without a length never uses the minimum it looked for: it never ends or writes no bond.", "quantifier": "all pair correlation functions, files, positions and lengths", "why_tests_cant": "values, files and positions are unbounded", "anchors": ["mains/all_bonds.cpp:79-122 main", "mains/linkboo.cpp:100-143 main", "mains/bonds.cpp:35-59 main"]}
{"id": "C107", "title": "Correlation of the bond orientational order with distance", "statement": "g6 writes one row per bin: its distance, the sum over the pairs of particles of that distance of the scalar products of their orders, and their number. Each pair of two different particles strictly inside the slab, both with an order that is not null, is counted once, in the only bin of its distance, and not at all beyond the range. In coarse grained mode the order of a particle is the mean over itself and its neighbours when none of these neighbours is null, and null otherwise. What fails: the range is not in diameters, the radius has no effect; a particle without any order of its own gets one in coarse grained mode and is counted.", "quantifier": "all positions, orders, neighbour lists, ranges, slabs and numbers of bins", "why_tests_cant": "positions and orders are unbounded", "anchors": ["mains/g6.cpp:70-157 main"]}
{"id": "C108", "title": "Bins of pair histograms in floating point", "statement": "The pair histograms (pair correlation function, g6) count each pair selected in the bin computed for it. Whatever the rounding errors of product, quotient and square root, within a relative precision, a pair that is inside a bin by more than a few roundings is counted in that bin, a pair inside the cutoff by more than a few roundings never leaves the histogram, and a pair selected goes at most one bin past its end. What fails: with doubles, two particles a last bit closer than a cutoff of 10 are selected and counted in bin 100 of 100, which writes out of bounds, in the histograms of the library and in g6.", "quantifier": "all rounding functions of a given relative precision, cutoffs, numbers of bins and distances; IEEE double arithmetic for the failures", "why_tests_cant": "rounding errors depend on the last bit of the positions", "anchors": ["lib/particles.hpp:198-213 RdfBinner", "lib/particles.hpp:311-320 GlBinner", "lib/particles.cpp:236-249 getEuclidianNeighbours", "mains/g6.cpp:135-149 main"]}
{"id": "C109", "title": "Sums added up by several threads", "statement": "The drift, the mean square displacement and the intermediate scattering function are added up by parallel loops. Whatever the number of threads, the way the iterations are shared out and the interleaving, each cell of the result ends as its first value plus some of the values given to it: no value is counted twice. Thus the mean square displacement is never above the right one, nor negative. All the values are counted, and the drift and the mean square displacement are the right ones, whenever no thread interrupts another within an addition, in particular with one thread. What fails: the additions are not protected, two threads can lose some of them: half of the drift, half of the mean square displacement, a scattering function of 2 for particles that do not move.", "quantifier": "all numbers of threads, distributions of iterations, interleavings, selections and positions", "why_tests_cant": "the interleaving is chosen by the machine at each run", "anchors": ["lib/dynamicParticles.cpp:514-525 getDrift", "lib/dynamicParticles.cpp:671-677 getMSD", "lib/dynamicParticles.cpp:829-866 getISF"]}
{"id": "C110", "title": "Parallel loops on cells of their own", "statement": "A parallel loop whose iterations work on different cells gives the same result as the sequential loop, whatever the threads and the interleaving; it is never stuck and always ends, after a number of steps fixed by the work. Thus a translation moves every particle exactly once, lists filled position by position hold the value of each position, and the sums over trajectories at each time are those of the sequential loop, to the last bit.", "quantifier": "all numbers of threads, distributions of iterations, interleavings and contents", "why_tests_cant": "the interleaving is chosen by the machine at each run", "anchors": ["lib/particles.cpp:145-151 operator+=", "lib/dynamicParticles.cpp:838-848 getISF", "lib/dynamicParticles.cpp:1496-1498 link", "lib/dynamicParticles.cpp:1032-1034 makeDynamics"]}
{"id": "C111", "title": "Names of the files of a series asked by several threads", "statement": "When each thread has its own copy of a file series, or when calls are protected by a critical section, each thread gets the name of the step it asks for, whatever the interleaving and whatever was asked before, and no exception is thrown. What fails: a series shared without protection, as for the qlm files of linkboo, the velocity files of cage2vtk, and the coarse grained volumes, bonds and outside files of cgVoro: two threads can get the same name, so that both write into the same file and the other one is missing, or an exception ends the program.", "quantifier": "all series, numbers of threads, questions and interleavings", "why_tests_cant": "the interleaving is chosen by the machine at each run", "anchors": ["lib/files_series.hpp:51 operator%", "mains/linkboo.cpp:160-217 main", "mains/cage2vtk.cpp:258-266 main", "mains/cgVoro.cpp:248-305 main", "mains/all_bonds.cpp:128-140 main", "mains/lostngb.cpp:53-56", "mains/traj2vtk.cpp:380-383"]}
{"id": "C112", "title": "Blur of a volume by several threads", "statement": "When a volume is blurred along its depth by n threads, each thread works on its own block of columns, no two threads touch the same pixel, and whatever their order the columns of the first n blocks end blurred exactly once. If n divides the number of columns the result is that of a single thread; blurring each plane in parallel always gives the result of a single thread. What fails: when n does not divide the number of columns, the last (columns mod n) columns are never blurred along the depth, and with more threads than columns nothing is, so that the result depends on the machine.", "quantifier": "all volumes, kernels, numbers of threads and interleavings", "why_tests_cant": "the number of threads and their interleaving are those of the machine; sizes are unbounded", "anchors": ["multiscale/src/octavefinder.cpp:174-249 inplace_blurXY, inplace_blur3D"]}
{"id": "C113", "title": "The scale space of an octave", "statement": "After filling an octave with an image of its dimensions, the first Gaussian layer is the image (or its first blur), each next layer is the blur of the previous one, and in one and two dimensions each layer of differences is the difference of two consecutive Gaussian layers, whatever the octave held before; the differences add up to the last Gaussian layer minus the first. In three dimensions the image given is replaced by its last blur and the differences are left as they were. An image of other dimensions throws and neither the octave nor the image is modified.", "quantifier": "all octaves, images, numbers of layers and previous contents", "why_tests_cant": "all sizes, all contents and all previous states", "anchors": ["multiscale/src/octavefinder.cpp:128-172 fill, _fill_internal", "multiscale/src/octavefinder.cpp:265-335 preblur_and_fill"]}
{"id": "C114", "title": "The octaves of an image", "statement": "Filling all octaves with an image puts in the first octave the upscaled image blurred, in the second one the image blurred, and in each next one the downscaled layer of the previous one, whatever images were treated before; the image given is unchanged and an image of other rows or columns throws without modifying anything. What fails: a 2D image of single precision numbers is blurred in place when the first octave is used, so that the second and next octaves start from an image already blurred and the same image given twice gives different results; a volume with a wrong number of planes throws only after the first octave was overwritten.", "quantifier": "all finders, images, pixel types, numbers of octaves and histories of previous images", "why_tests_cant": "all images and all histories of calls", "anchors": ["multiscale/src/multiscalefinder.cpp:96-124 fill", "multiscale/src/multiscalefinder.cpp:178-255 upscale", "multiscale/src/multiscalefinder.hpp:24-80 get_width, get_height"]}
{"id": "C115", "title": "Detection does not depend on the light", "statement": "Multiplying an image by a positive gain and adding a background multiplies the differences of Gaussians by the gain, and the centres found in an octave are the same in the same order with the same acceptance, in one and two dimensions; in three dimensions a gain gives the same centres, and multiplies the values used for sub-pixel resolution. The elimination of elongated shapes, of saddles and of slopes is unchanged. What fails: the upscaling of the first octave leaves the last column and row to zero, so that a background is not conserved there.", "quantifier": "all images, gains, backgrounds, sizes, numbers of layers and normalised blurs", "why_tests_cant": "all images, gains and backgrounds", "anchors": ["multiscale/src/octavefinder.cpp:340-419 initialize_binary", "multiscale/src/octavefinder.cpp:426-557 initialize_binary (1D, 3D)", "multiscale/src/octavefinder.cpp:1096-1118", "multiscale/src/multiscalefinder.cpp:178-219 upscale"]}
{"id": "C116", "title": "Settings of the three-dimensional finder", "statement": "After any sequence of calls to the settings of a 3D finder, exceptions being caught, deconvolution is active exactly when it was asked after a kernel of the length of the depth was loaded and not cancelled since; it uses the last kernel of the right length, never reads it out of its bounds, blurs with a ratio of one, convolves every line along the depth and leaves no negative pixel. Otherwise the first blur uses a ratio of a half if asked, else the last ratio given. A call throws exactly when deconvolution is asked without kernel or when a kernel has another length, and then changes nothing. With several octaves the settings go to the second octave and the ratio to all. What fails: with a single octave (small volumes) every call succeeds, even with a wrong kernel, and deconvolution is silently not done.", "quantifier": "all sequences of calls, kernels, depths and images", "why_tests_cant": "histories of calls are unbounded", "anchors": ["multiscale/src/octavefinder.cpp:251-302 set_deconv, load_deconv_kernel, preblur", "multiscale/src/octavefinder.hpp:99-104 set_ZXratio, set_halfZpreblur", "multiscale/src/multiscalefinder.cpp:67-90"]}
{"id": "C117", "title": "Centres in three dimensions from clusters of two-dimensional ones", "statement": "get_blobs gives, for each cluster of at least two members and in order, one centre for each blob found inside the signal of its radii (padded on each side by as many points at nine tenths of the end radius, and searched by a finder made for that length): the linear interpolation between two consecutive members at the place of the blob, with the depth lowered by a half. Every coordinate, radius and intensity thus lies between those of two consecutive members. Clusters of one member give nothing. What fails: a blob found on the point just after the cluster reads past its end; a blob at the last member is not lowered, so that its depth is half a step too high compared to all others.", "quantifier": "all sets of clusters and all results of the search in signals", "why_tests_cant": "all clusters and positions of blobs, including those at the boundary", "anchors": ["multiscale/src/reconstructor.cpp:142-206 get_blobs"]}
{"id": "C118", "title": "Files of dynamics and the relaxation time read from them", "statement": "The relaxation time read from a file of scattering functions is, for any file, a step where the function crosses 1/e, or the last step, or (when the very first value is already below) wraps to 2^64-1. When the file is the one written by traj2vtk or cage2vtk, it is the last step before the function settles below 1/e. What fails: exportDynamics does not end its header line, so that its first row is lost by readers that skip one line, and a time read from such a file is one step too short.", "quantifier": "all files and functions of time", "why_tests_cant": "all functions of time and all files, whoever wrote them", "anchors": ["mains/traj2vtk.cpp:253-275 loadTau", "mains/cage2vtk.cpp:136-158 loadTau", "mains/traj2vtk.cpp:358-367", "mains/cage2vtk.cpp:233-242", "lib/dynamicParticles.cpp:1066-1114 exportDynamics"]}
{"id": "C119", "title": "Frequency of jumps between cages", "statement": "When the index of cages covers the trajectories, the jump frequency written for a particle at step u is the number of its cages that end within half the averaging time of u (its disappearance counts as one), divided by the number of steps of the window that exist. What fails: with the index given by getCages itself the program never ends as soon as the first trajectory was split, whatever the averaging time; with an averaging time below two steps every value is a division by zero.", "quantifier": "all trajectories, cages and averaging times", "why_tests_cant": "all trajectories and cages; non-termination cannot be tested", "anchors": ["mains/cage2vtk.cpp:27-67 export_jump", "lib/dynamicParticles.cpp:1234-1282 getCages"]}
{"id": "C120", "title": "Life times of cages, and cages read back", "statement": "Row k of the distribution of life times is the number of cages of k steps when all cages are shorter than the number of frames; one cage as long as the number of frames makes the program write out of its array. Cages read back from their file get their exact inverse index when at every time each position is below the number of cages of that time, and otherwise the program writes out of bounds. What fails: cages written by the program itself (a split trajectory before one that goes on) cannot be read back by its next run.", "quantifier": "all sets of cages and numbers of frames", "why_tests_cant": "all sets of cages", "anchors": ["mains/cage2vtk.cpp:276-293 main", "lib/traj.cpp:183-204 getFrameSizes, makeInverse"]}
{"id": "C121", "title": "Interrupted runs and files of previous runs", "statement": "traj2vtk skips a stage when the first and last files of its series exist. After any number of interrupted runs on the same inputs, if none stopped while the scattering function or the last file of a series was being written, nor with the first and last velocities written but not all of them, a complete run leaves exactly the files a single run would. Wherever the runs stopped, if the interval is sure, the files of every series but the last are whole and the last is a prefix of what it should be. Once the first and last files of a series exist, no run changes any file of it. What fails: a last file cut by a crash is never repaired; a velocity file missing between two others is never written; a cut scattering function changes the interval silently; with another interval the files of the first interval are kept.", "quantifier": "all inputs, all crash points, all numbers of interrupted runs, all interleavings of the threads that write velocities", "why_tests_cant": "all crash points and all histories of runs; a test stops a run in a few places", "anchors": ["mains/traj2vtk.cpp:316-520 main", "mains/cage2vtk.cpp main"]}
{"id": "C122", "title": "Fields averaged in time", "statement": "traj2vtk and cage2vtk write, for each particle, time and column of bond order, the mean of the values of its trajectory over the steps within half the interval of that time (values equal to zero and steps where the trajectory does not exist are not counted). A file with more numbers than particles times columns is written out of bounds. The averaged files of traj2vtk are read back exactly by its later stages. What fails: the volume of a particle is computed with an integer division, so that the volume fractions are three quarters of the mean fraction; a file that is missing is silently replaced by the values of the previous time, position by position; the later stage of cage2vtk reads four-column files as eight-column ones, so that position p gets the values of position 2p and the second half of the particles get zero; the mean over 'whole cages' is over half of the movie on each side.", "quantifier": "all trajectories, intervals, numbers of columns and contents of the files", "why_tests_cant": "all trajectories, intervals and files; wrong factors and shifts do not crash", "anchors": ["mains/traj2vtk.cpp:179-251 export_timeBoo, export_phi", "mains/cage2vtk.cpp:66-132 export_timeBoo, export_phi", "mains/cage2vtk.cpp:319-392 main", "lib/particles.cpp:969-987 loadBoo", "lib/fields.hpp"]}
{"id": "C123", "title": "Changes of neighbours within an interval", "statement": "The number written by traj2vtk for a particle at a time is the number of trajectories that are its neighbours at the last step where its trajectory exists within half the interval of that time and that are not at the first such step. What fails: the file and the field are called lost neighbours, but neighbours that are lost are not counted, only those that are gained.", "quantifier": "all trajectories, files of bonds and intervals", "why_tests_cant": "all trajectories and bond networks", "anchors": ["mains/traj2vtk.cpp:27-104 export_lostNgb"]}
{"id": "C124", "title": "Bond order computed again on the same data", "statement": "The first run of boo builds a spatial index and writes the bonds, later runs read the bonds and have no index. When the set is wider than twice the margin along each axis and no particle is exactly at the margin, all runs select the same particles, those at more than the margin from each side, and write the same values. A selection that is not empty leaves zero for the particles outside. What fails: on a slab thinner than twice the margin the first run keeps only a part of the particles and later runs all of them; with the option for walls a layer lying on the wall is mostly dropped by the first run and kept by later ones.", "quantifier": "all sets of particles, margins, trees and values", "why_tests_cant": "all sets of particles and histories of runs", "anchors": ["mains/boo.cpp:29-98 calculateBoo", "mains/boo_flip.cpp main", "lib/particles.cpp:171-190 selectInside_noindex", "lib/index.cpp:26-37 getInside", "lib/particles.hpp:302 selectInside"]}
{"id": "C125", "title": "Clusters of the percolation program", "statement": "When the bond files of all times are there, percolation writes the clusters (connected components) of the bonds they list and nothing else. When at least one is missing, all the others are ignored: the clusters are those of the particles closer than 1.3 diameters, and one file, without any time in its name, is written with the bonds of the last time. What fails: the missing file is never written however often the program is run; the range given by the user is not used, so that with a range of two diameters a pair at one diameter and a half is in no cluster. A bond file that is there but damaged is not replaced: the behaviour is undefined.", "quantifier": "all positions, trajectories, ranges, bond files present or missing, numbers of runs", "why_tests_cant": "all inputs and histories of runs; a wrong range gives plausible clusters", "anchors": ["mains/percolation.cpp main", "lib/particles.cpp:326-346 makeNgbList", "lib/particles.cpp:1000-1011 loadBonds", "lib/dynamicClusters.cpp:84-191 assign, save"]}
{"id": "C126", "title": "Sub-intervals in MSD and ISF", "statement": "For intervals in the movie, MSD and ISF write one file per group of three numbers, named after the three numbers so that two different groups never share a file, whose rows are the lags and the mean over windows of the displacement or scattering function of the trajectories that span them; arguments left over are not used. The first interval out of the movie or longer than all trajectories ends the program with an error, after the files of the intervals before it. What fails: the windows begin from the start of the interval to the averaging number, so that there are fewer than asked, and when the interval does not begin before that number every row is zero divided by zero; without averaging ISF reads out of its array for every interval; a start of -1 is not refused.", "quantifier": "all trajectories, positions and lists of arguments", "why_tests_cant": "all movies and lists of arguments", "anchors": ["mains/MSD.cpp main", "mains/ISF.cpp main", "lib/dynamicParticles.cpp:649-718 getMSD", "lib/dynamicParticles.cpp:944-1012 getSelfISF"]}
{"id": "C127", "title": "Similar bonds in boo_flip", "statement": "For bonds between existing particles, boo_flip gives each bond whose two ends are taken (inside the box, or everybody when nobody is inside, and with a non null order parameter) the product of the order parameters of its ends, and the product with the second end turned by Pi; the other bonds get -2. The number written for a particle is the number of its measured bonds above one half, so that the sum of these numbers is twice the number of similar bonds. The first bond whose lower end is no particle is read out of bounds.", "quantifier": "all lists of bonds, selections, order parameters", "why_tests_cant": "all bond lists and selections", "anchors": ["mains/boo_flip.cpp main", "lib/boo_data.cpp normedProduct", "lib/boo_data.cpp rotate_by_Pi"]}
{"id": "C128", "title": "Files of invariants and fields of dat2vtk", "statement": "Invariants written by boo (per particle, coarse grained) or boo_flip are read back by loadBoo as the q4 q6 q8 q10 w4 w6 w8 w10 of each particle, and boo puts the coarse grained file where dat2vtk looks for it, whenever the last time mark of the name is before the extension; dat2vtk then writes one file with the particles, the bonds and eight fields. What fails: the fields called W4 and W6 hold q8 and q10; the file of the surface has no line of names, so that loadBoo drops its first particle and gives to each the invariants of the next; dat2vtk called as documented, with one argument, always stops on an exception; a file name without time never gives any output.", "quantifier": "all particles, invariants, file names and contents of the disk", "why_tests_cant": "all inputs; a shifted column gives plausible fields", "anchors": ["mains/dat2vtk.cpp main", "mains/boo.cpp calculateBoo", "lib/boo_data.hpp cloud_exporter", "lib/particles.cpp loadBoo"]}
{"id": "C129", "title": "Cutting particles file by file", "statement": "For each file of a series, cutter writes the box and, in the same order, the particles that come closer than the separation to no earlier kept one (with --both: to no other particle); each output depends on its own input only, no other file is touched, and the first missing input ends the program with the earlier outputs written. Its result is separated, and is left as it is by a second run if its values are printed without loss. Interrupted at any point and run again, the program gives the same files as if it had not been interrupted when a postfix is given; without postfix (in place), this holds for interruptions between two files. What fails: in place, an interruption inside a file loses particles and the next run adds one at the origin; when printing rounds the coordinates a second run can remove more particles; given a file and no separation, the program runs with an uninitialised one.", "quantifier": "all file names, contents, separations, postfixes, numbers of steps and interruption points", "why_tests_cant": "every crash point and every input", "anchors": ["mains/cutter.cpp main", "lib/particles.cpp:89-120 cut, removeShortRange", "lib/particles.cpp:33-60 Particles", "lib/particles.cpp:833-854 exportToFile", "lib/files_series.cpp addPostfix"]}
{"id": "C130", "title": "Centres found in two successive octaves, in one and three dimensions", "statement": "In one and in three dimensions, seam_binary called on the finder of the larger image with that of the smaller one keeps images and order and only removes centres of the last layer of the larger and of the first layer of the smaller; afterwards two centres at the same place have the same value, no centre of the larger near a centre of the smaller is lower than it, each removed centre has a strictly lower one near by that survives, and the binary images show the surviving centres. Called in the other order, which the code provides for, it is undefined as soon as the smaller finder has a centre in its first layer.", "quantifier": "all finders: numbers of coordinates, sizes, values, sets of centres", "why_tests_cant": "all images and sets of centres", "anchors": ["multiscale/src/octavefinder.cpp:886-927 OctaveFinder1D::seam_binary", "multiscale/src/octavefinder.cpp:928-971 OctaveFinder3D::seam_binary"]}
{"id": "C131", "title": "From files of positions to trajectories and back", "statement": "linker, run on a series of files of positions with any contents, writes one file, the trajectories, named after the series, and leaves every other file as it is; loading that file gives back the radius and time step (as printed) and the positions of the series; each position of each frame is on exactly one trajectory, successive positions of a trajectory are closer than a diameter, and two positions closer than a diameter follow each other unless one of them has a link that is not longer; with a .displ file (and first step 0) this distance is that after moving the second position by the displacement of its step. A second run writes the same file; a missing input file ends the program with nothing written. Without its last argument the first step is 0. What fails: with a .displ file the loading does not move the frames, so that successive positions of a loaded trajectory can be farther than a diameter; when the token is in the name of the folder (one folder per time step) the file is written but cannot be loaded; four arguments pass the check although a fifth is read; zero time steps is undefined.", "quantifier": "all series of files, names, contents, radii, offsets and numbers of steps", "why_tests_cant": "all names, contents and numbers of steps", "anchors": ["mains/linker.cpp main", "lib/dynamicParticles.cpp:60-96 constructors", "lib/dynamicParticles.cpp:274-299 save", "lib/dynamicParticles.cpp:1469-1512 fill, link"]}
{"id": "C132", "title": "The drift of a movie, and the dynamics without it", "statement": "If at least two trajectories follow each pair of successive frames, adding any displacement to each frame of a movie changes what removeDrift gives by one translation of the whole only; hence the mean square displacement, and the files that dynamics writes in mode 1, do not depend on the drift. A movie without drift is left as it is by removeDrift. drift writes one line per frame but the last, with the mean displacement along each axis, to the next frame, of the trajectories that have positions at both times, and these are exactly the displacements that removeDrift takes away. dynamics writes the files of the movie as it is in mode 0, of the movie without drift in mode 1, both, as modes 0 and 1 would write them, in mode 2, and nothing in any other mode. What fails: a single trajectory keeps its drift, and its drift is said to be null; the default mode of the message cannot be had; without any frame drift reads outside of its vectors.", "quantifier": "all movies, trajectories, added displacements and modes", "why_tests_cant": "all movies and all drifts", "anchors": ["mains/drift.cpp main", "mains/dynamics.cpp main", "lib/dynamicParticles.cpp:512-571 getDrift, removeDrift", "lib/dynamicParticles.cpp:1066-1114 exportDynamics"]}
{"id": "C133", "title": "Scales of an octave and radius of a centre", "statement": "For any number of layers and any first blur: the blurs applied one after the other add up (by squares) to the target width of each layer, which doubles from a layer to the one an octave further; the radius to go from any scale to a larger one is consistent with these widths, and between two successive layers it is the radius in the list; the sizes in pixels grow with the layer and double with the octave within a pixel. In one, two and three dimensions, at the centre of a bright segment, disc or ball of any radius the difference of Gaussian layers is negative, and is lowest, strictly, at one real scale only: the one that scale() converts to exactly that radius; larger objects are at larger scales.", "quantifier": "every number of layers, first blur, dimension from 1 to 3, layer, scale and radius", "why_tests_cant": "Real analysis over all radii and scales; a test samples a few radii with a tolerance.", "anchors": ["multiscale/src/octavefinder.cpp: OctaveFinder::fill_iterative_radii, OctaveFinder::get_iterative_radius, OctaveFinder::_fill_internal", "multiscale/src/octavefinder.hpp: OctaveFinder::scale"]}
{"id": "C134", "title": "The program avpos", "statement": "For any movie and averaging window tau, the file of step t written by avpos holds, in the order of the particles of the step, for each particle the mean of the drift-free positions of its trajectory over the steps from t-tau/2 to t+tau/2 where it exists (with tau below 2: its drift-free position), under the name folder/av<tau>/... of the input file, in a box moved from that of the input file by the translation that cancels the drift of the step; other files are untouched and a second run writes the same files; a drift added to the movie changes the averages by one common translation. It fails: when tau/2 reaches the number of frames (sums are written instead of means), for a position at the origin (taken as missing) and for a folder whose name has a space (other folders are made, nothing is written). Without the file of trajectories it throws.", "quantifier": "every movie, trajectory index, averaging window, file name and drift", "why_tests_cant": "Quantifies over all movies and all drifts; a test would check one movie with a tolerance.", "anchors": ["mains/avpos.cpp: main", "lib/fields.hpp: DynamicField", "lib/dynamicParticles.cpp: DynamicParticles::removeDrift"]}
{"id": "C135", "title": "Rotating bond order coefficients by half a turn", "statement": "Rotating by Pi around any non-null axis the bond order coefficients (even degrees up to 10) of any set of bonds gives exactly the coefficients of the same bonds turned by Pi around the axis; the length and the orientation of the bonds and of the axis do not matter; rotating twice restores the coefficients; around the z axis the coefficient of order m is multiplied by (-1)^m; inner products and norms at each degree are kept. The angles of a bond are its spherical coordinates, with 0 <= theta < Pi and 0 <= phi < 2 Pi. It fails: the colatitude given to a bond along the negative z axis is 0 (without effect on the even degrees), and reflecting by a plane ignores the azimuth of its normal: it rotates around the axis (-sqrt(x^2+y^2), 0, |z|), which is not the normal.", "quantifier": "every bond, every list of bonds, every axis, all coefficients whose order-zero entries are real", "why_tests_cant": "Quantifies over a continuum of axes and bonds, where every order of every degree has to have the right phase and sign; tests compare a few rotated configurations.", "anchors": ["lib/boo_data.cpp: cartesian2spherical", "lib/boo_data.cpp: BooData::BooData(const Coord &rij)", "lib/boo_data.cpp: Wigner_D::Wigner_D", "lib/boo_data.cpp: BooData::rotate_by_Pi", "lib/boo_data.cpp: BooData::reflect"]}
{"id": "C136", "title": "Coarse-grained Voronoi volumes", "statement": "The coarse-grained volume of a particle is the mean of the volumes of the cells that count for it: its own and those of the particles having it as neighbour, when they do not touch the walls; a particle that gets no such volume takes the mean of its neighbours that already have one, in successive rounds. Every coarse-grained volume lies between the smallest and largest volumes of the cells away from the walls. The computation ends exactly when every cell is joined by neighbours to one away from the walls, in at most n*n passes. The volumes and the neighbours read are those of the cells; outside particles are exactly those whose cell touches a wall, second outside those and their neighbours; the box given to the library extends exactly one unit beyond the extreme particles; the files of a step carry the names derived from the input, and nothing else is written. It fails: when all cells touch the walls the program never ends; an empty diagram and a particle without a cell are undefined behaviour; a particle without neighbour of smaller index has its walls written as bonds; a single file with no \"_t\" in its name fails, and a \"_t\" in the folder is taken for that of the file name. Without any particle the behaviour is undefined.", "quantifier": "every set of particles and every diagram (list of cells) given by the Voronoi library, every file name", "why_tests_cant": "Quantifies over every neighbour graph, including the length of the chains to the walls on which termination depends; a test that does not end says nothing.", "anchors": ["mains/cgVoro.cpp: VoroContainer::get_volumes", "mains/cgVoro.cpp: VoroContainer::get_cgVolumes", "mains/cgVoro.cpp: VoroContainer::getOutsides", "mains/cgVoro.cpp: VoroContainer::print_bonds", "mains/cgVoro.cpp: main"]}
{"id": "C137", "title": "Positions of tracked particles better than the pixel", "statement": "From the pixels kept by the tracker, the list returned holds, last first, one position for each pixel that no pixel of its window outshines and whose window has no negative pixel, unless it falls before the first pixel in the first dimension; the box is that of the image. A coordinate in a dimension of less than five pixels is that of the pixel; otherwise it is the pixel plus one Newton step, -f'/f'' at the pixel, for the polynomial of degree four through the five pixels around. So it is exact when the pixels are on a parabola, it does not depend on gain and offset of the brightness, it is mirrored with the image, and it is within one pixel if the fall over two pixels is at most four times the fall over one. These windows are inside the image for the pixels found in images without a dimension of 5 to 12 pixels. What does not hold: the position can be out of the window, and out of the image, at the edge of a terrace; five equal pixels give a coordinate that is not a number and that is kept, for which no intensity is defined. The intensity given for a position is that of the pixel of its integer parts over the number of pixels, which is not always the summit. The iterator multiplies depths by the voxel ratio, and the same particles are returned again without new export; after the last time step there is no particle. Where the curvature is null and the slope is not, the coordinate is the infinity in the direction of decreasing brightness.", "quantifier": "all images, sizes, sets of kept pixels, orders of coordinates, ratios", "why_tests_cant": "the values of five pixels in three dimensions are free; tests use a few blobs", "anchors": ["graphic/tracker.cpp: centroid::operator()", "graphic/tracker.cpp: Tracker::getSubPixel", "graphic/tracker.cpp: Tracker::getIntensities", "graphic/tracker.cpp: TrackerIterator::operator*"]}
{"id": "C138", "title": "Fields in the vtk files of traj2vtk and cage2vtk", "statement": "For each time step the vtk file of traj2vtk holds the positions and bonds of that step and, particle by particle, the values written by the previous stages: Q4 to Q10 and W4 to W10 from the columns of the bond order file in this order, lostNgb, phi if volume fractions are there, and the velocity; each value has been printed and read once, so the digits are those of the files when printing a value just read gives back its digits. There is one file per time step in order; a failure at one step leaves the files of the steps before. In cage2vtk the same holds for jumps, phi and velocity. What does not hold: cage2vtk gives to particle p the bond order of particle 2p, and null values to the second half; a value that cannot be read back, like nan, and all those after it become null without an error, as does a missing file; a file with more values than particles writes out of bounds.", "quantifier": "all numbers of particles and time steps, values, bonds, texts of files", "why_tests_cant": "the number of particles, of steps, and the content of six files per step are free", "anchors": ["mains/traj2vtk.cpp: main, export VTK", "mains/cage2vtk.cpp: main, export VTK", "lib/fields.cpp: operator<<", "lib/index.hpp: operator>>", "lib/particles.cpp: Particles::exportToVTK"]}
{"id": "C139", "title": "The program boo, from positions to files", "statement": "When no bond file exists, boo writes one with the pairs closer than 2.6 radii, else it uses the bonds of the file, in any order. Then for each particle further than 1.3 radii from all faces (or all particles if there is none) the files of coefficients and invariants hold the mean of the harmonics over its neighbours, with the surface file over its bonds and those between its neighbours, and zero for the other particles; for each particle further than 2.6 radii from all faces (or all if there is none) the coarse grained files hold the mean of these values over the particle and its neighbours; no other file changes. A second run rewrites exactly the same files. With periodic boundary conditions all particles get their values, neighbours across faces included. Coarse grained values are the mean of the true orders when no neighbour is further than 1.3 radii along an axis. What does not hold: otherwise a coarse grained value may include neighbours reset to zero. In a periodic series the last digits of the name are replaced by the time, so each time has its own name, but a file numbered with leading zeros is never found.", "quantifier": "all sets of positions and radii, file names, contents of the disk, bond files", "why_tests_cant": "positions, bonds, files on the disk and histories of runs are free", "anchors": ["mains/boo.cpp: calculateBoo", "mains/boo.cpp: main", "lib/particles.cpp: Particles::getBOOs_SurfBOOs, getCgBOOs, selectInside_noindex", "lib/particles.hpp: Particles::removeOutside", "lib/periodic.hpp: PeriodicParticles::selectInside_noindex"]}
{"id": "C140", "title": "The program boo_flip, from positions to files", "statement": "When no bond file exists, boo_flip writes one with the pairs closer than 2.6 radii, else it uses the bonds of the file, in any order. The bond order of each particle further than 1.3 radii from all faces (or of all if there is none) is the mean of the harmonics over its neighbours, zero for the other particles; the coarse grained order is the mean over the particle and its neighbours for those further than 2.6 radii. The two flipped orders are the means of the order of the particle and of the orders of its neighbours, respectively of its neighbours' neighbours, turned around the bond, null orders being left out. The vtk file holds, in this order, the positions, the bonds, the number of bonds of high product per particle without and with the turn, the invariants of degree 6 of the order and of the coarse grained order, and the two products per bond, minus two for a bond with an end that is not kept or has a null order. No other file changes; a second run rewrites exactly the same files; with periodic boundary conditions all particles get their values, neighbours across faces included. If every particle kept has a neighbour, the bonds, the orders and the coarse grained orders are those that boo writes. What does not hold: for a particle kept without neighbours boo writes the null value, boo_flip the null value over zero.", "quantifier": "all sets of positions and radii, file names, contents of the disk, bond files", "why_tests_cant": "positions, bonds, files on the disk and histories of runs are free", "anchors": ["mains/boo_flip.cpp: main", "lib/particles.cpp: Particles::getBOOs, getCgBOOs, getFlipBOOs, getBonds, getSecondShell", "lib/particles.hpp: Particles::removeOutside", "lib/periodic.hpp: PeriodicParticles::selectInside_noindex"]}
{"id": "C141", "title": "The program rdf, with and without periodic boundary conditions", "statement": "rdf writes one file and changes no other: two names, then for each bin its abscissa and its value. The first value is null; the k-th is the number of ordered pairs closer than the range, with distance/range between k/n and (k+1)/n, the first particle being further than the range from the extreme coordinates along each axis, divided by the norm for the density and the number of these centres, and by the square of k. The density is the number of particles over the volume between the extreme coordinates, or of the cell with periodic boundary conditions. What does not hold: with periodic boundary conditions pairs that are close through a face are never counted, since centres are selected away from the faces all the same; the histogram is the one without periodicity. When no particle is that far from the faces each value is zero over zero. Along an axis where the set is narrower than twice the range, centres may be close to the faces.", "quantifier": "all sets of positions in any cell, numbers of bins, ranges, file names and contents of the disk", "why_tests_cant": "positions, cell, range and number of bins are free", "anchors": ["mains/rdf.cpp: main", "lib/particles.cpp: Particles::getRdf, Binner::operator<<, RdfBinner::normalize", "lib/periodic.cpp: PeriodicParticles::getDiff, getNumberDensity, selectEnclosed", "lib/index.cpp: SpatialIndex::getInside"]}
{"id": "C142", "title": "Scales of blobs on a line and in a volume", "statement": "On a line, from the second layer on, the scale found depends neither on the brightness nor on the contrast, and when the responses to scales follow a cubic it is a fixed empirical law of the exact distance between the layer and the steepest slope; the first layer throws. In a volume, for a layer that has neighbours, the scale is at most half a layer away from the layer or not a number, depends neither on brightness nor on contrast, and when the differences of Gaussians are on a parabola it is the empirical law of the distance to the extremum, brought to at most half a layer; other layers are read out of bounds. What fails: on a line nothing keeps the scale near the layer, it can be any number of layers above; when the third difference of the responses vanishes, as it does for uniform ones, the scale is infinite or not a number, and in a volume it is not a number.", "quantifier": "all responses to scales, layers, numbers of layers, brightness and contrast", "why_tests_cant": "responses, layers and numbers of layers are free", "anchors": ["multiscale/src/octavefinder.cpp:779-790 OctaveFinder1D::scale_subpix", "multiscale/src/octavefinder.cpp:791-821 OctaveFinder3D::scale_subpix"]}
{"id": "C143", "title": "The program tracker writes the files of every time step and nothing else", "statement": "Running tracker on a series of a Leica file, with its configuration file in place and an output path that can be written: for each time step t of the series there is a file <output>_t<t>.dat, and <output>_t<t>.intensity if asked for, with the positions and intensities found in the image of step t and of no other, t being written with as many digits as the last step; <output>.nb has the number of positions of each step, one by line; the header is in <input without extension>_header.xml and the FFT plans in wisdom.fftw of the configuration directory; <output>test.test is removed; all other files are as before. One underscore at the end of the output path is ignored. With --onlyTimeStep t only the files of step t are written, and a step after the last is an error. All this is so when the data of the series end the file or are followed by at least one more image; when less than one image follows, all files are written and then the program reads after the end of its data. In series mode the number of steps is not --tsize but a member that is never set: with value e, the files of steps below e are written and the run succeeds if the images of steps 0 to e are there, and if only those of m <= e steps are there the files of these m steps are written and the run fails; so with exactly the images asked for, it never both succeeds and writes all steps. Without slices and without threshold the threshold is undefined. Without HOME, userprofile is used. The first run, when the configuration directory does not exist, always fails; if the directory is there the default file is written. An empty output path, or one that cannot be written, is an error before anything is written.", "quantifier": "every image file content, image size, number of steps, output path without percent sign, previous content of the disk, threshold and tracking function", "why_tests_cant": "The set of files left on the disk after a run, for every number of steps, every content of the disk before, and every value of a member that is never initialised, cannot be enumerated by tests; the failing cases depend on memory contents and on what follows the data in a file.", "anchors": ["graphic/mains/tracker.cpp:main, testTrackerIni, ParticlesExporter", "graphic/serieTracker.hpp:SerieTracker", "graphic/serieTracker.cpp:SerieTracker::SerieTracker", "graphic/lifTracker.cpp:LifTracker", "graphic/tracker.cpp:TrackerIterator::operator*"]}
{"id": "C144", "title": "The program linkboo writes the bond order of every time step, from a cut-off or from the files of cgVoro", "statement": "Running linkboo on a series of positions, for each time step: when one of the .bonds, .outside and .outside2 files of the first and last steps is missing, the .bonds file written has exactly the pairs of particles closer than the bond length (position of the first minimum of the pair correlation, in diameters), the order in .qlm and .cloud is that of a particle over its bonds when it is at least half the bond length away from all faces and null otherwise, and the mean in the _space .cloud is over the orders written of the particle and its neighbours when it is at least the bond length away and null otherwise. When these six files are there, the bonds are those of the .bonds file, the order is null for exactly the particles listed in .outside and the mean for exactly those listed in .outside2, provided the lists are sorted; a missing .outside or .outside2 file of another step counts as an empty list, a missing .bonds file ends the program. All other files are as before. Run again, it writes the same files if there are no .outside files; if there are and there was no .bonds file, the second run uses them and may change the results. A particle at the bond length from the faces has the same neighbours whatever there is out of the picture; at half the bond length it may lack some. If the last step has no particle the program stops without writing; a series without steps is undefined. A bond file missing when it is its turn is an exception.", "quantifier": "every number of time steps, positions, bin of the first minimum, previous content of the disk, content of the files of numbers, harmonics and way of printing", "why_tests_cant": "What a run reads depends on what previous runs of this and of another program left on the disk, so the claim ranges over histories of the disk; and the selections range over all configurations of positions.", "anchors": ["mains/linkboo.cpp:main", "lib/files_series.hpp:FileSerie", "lib/particles.cpp:Particles::selectInside", "lib/particles.cpp:Particles::getCgBOOs", "lib/particles.hpp:BondSet loadBonds"]}
{"id": "C145", "title": "Trajectories selected in space and time with an index", "statement": "With an index that gives, for an interval and a box, the trajectories having a position at each time of the interval and all their positions in the box: selectSpanning gives the same trajectories as without index for intervals within the movie; selectSpanning_Enclosed, selectSpanningInside and the drift selection give exactly the trajectories that span the interval and stay, at all their times, in the box, respectively at least the margin away from the faces of the smallest box holding all positions of the movie (axes not wider than twice the margin do not count); selectEnclosed and getInside give those that moreover exist at all times of the movie, so that a trajectory enclosed in the box may be missing. Results are sorted without repetition. Without index these are errors, except selectSpanning, which is undefined after the end of the movie, where the index gives nothing. removeDrift drops the index, and selectSpanning does not change; removeDrift from a file keeps the index of the previous positions, whose answers are then wrong. The slice of an index at a time gives the positions at that time of the trajectories that stay in the box at all times, not those that are in the box at that time, and not sorted. Every consistent set of trajectories has such an index.", "quantifier": "every set of trajectories and positions, every index satisfying the contract, interval, box, margin, time and shift of the frames", "why_tests_cant": "The index is a class of the user: the claim ranges over all implementations of the interface, and over all movies; tests use one.", "anchors": ["lib/index.cpp:SpatioTemporalIndex::operator(), SpatioTemporalIndex::getSpanningInside, SpatioTemporalIndex::getInside", "lib/index.hpp:SpatioTemporalIndex_slice", "lib/dynamicParticles.cpp:selectSpanning_Enclosed, selectEnclosed, selectSpanning, selectSpanningInside, getDrift, removeDrift"]}
{"id": "C146", "title": "all_bonds writes the bonds shorter than the first minimum of the mean pair correlation function", "statement": "For a trajectory file whose series of positions is on the disk, all_bonds sums over the time steps the pair correlation function (200 bins up to 15 diameters, centres at least that far from the faces), writes the mean to <head>.rdf, and writes for each time step the pairs closer than 15 m / 200 diameters, m being the first of the smallest bins from the first of the largest on; no other file changes. If <head>.rdf exists it is not written: the second numbers of its first 200 rows are used instead. If the minimum is null, or the file has less than 200 rows, the program never ends. If the text keeps the order of the bins a second run leaves the same files; otherwise the bonds may differ. A time step without any centre makes all values not-a-number and all files of bonds empty. Another extension, a missing trajectory file, a missing file of positions, or a last time step without particle end in an error and change nothing; no time step at all is undefined behaviour.", "quantifier": "every trajectory file, series of positions, arithmetic of doubles, text of doubles, tree of the index and previous content of the disk", "why_tests_cant": "The bonds depend on all positions of all time steps and on the text of a previous run; tests see a few movies and cannot see a loop that never ends.", "anchors": ["mains/all_bonds.cpp:main", "lib/particles.cpp:getRdf, makeNgbList"]}
{"id": "C147", "title": "The correlation of bond order in a periodic cell does not depend on where the cell is cut", "statement": "For particles in a cell of positive edges, periodic g6 writes one file, <stem>.g<l> (or .cg<l> when coarse grained), and changes no other: a header, then for each of n equal bins from 0 to half of the shortest edge the abscissa, the sum of the products of the orders over the pairs i<j of which some images are at that distance, and the number of these pairs. A pair is in at most one bin, and in one exactly when some images are less than half of the shortest edge apart. The order is the one read, or the mean over a particle and its neighbours when none of these is null. Moving all particles by any vector and putting them back in the cell gives the same file, character for character. Particles with a null order are counted, contrary to the program without periodic conditions; positions several periods away from the cell may be missed.", "quantifier": "every cell with positive edges, list of positions in it, number of bins, orders and neighbours, arithmetic of doubles and vector of translation", "why_tests_cant": "The distances involve infinitely many images and every position of the origin; tests try a few configurations.", "anchors": ["mains/g6.cpp:main (use_periodic)", "lib/periodic.cpp:periodify, getDiff"]}
{"id": "C148", "title": "The header of a .lif file gives what its XML says, for every tree", "statement": "A series whose XML has the format (a name, an image with channels, dimensions, optional time stamps and settings of the scanner, possibly among other nodes) is read without failure: the resolution and colour of each channel, the number of time steps (1 without T), the sizes along X, Y and Z, in this order, whatever the order in the file, the voxel sizes from the last non-empty hardware settings (0 when missing; the first of repeated settings counts) and the ratio of Z to X (1 without Z). Asking a channel that does not exist is undefined behaviour, and so is reading a header where a name, unit or identifier is missing, where something else than an element is among channels or dimensions, or with more time stamps than announced. The series of a file are the elements named Element except BleachPointROISet, in order; a file without series is refused by an exception. Printed to a stream, a series gives its name, its dimensions in the alphabetical order of their names and its colours, but the voxel sizes go to the standard output: two series that differ in sizes only print the same to a file. The time stamps are in ms in the old format but not in the new one.", "quantifier": "every XML tree, and every conversion of text to numbers", "why_tests_cant": "The format leaves the order of nodes, optional nodes and repeated keys free; tests read a few files of one microscope.", "anchors": ["graphic/lifFile.cpp:LifSerieHeader, LifHeader::parseHeader, parseTimeStampList, getVoxelSize, getZXratio, operator<<", "graphic/lifFile.hpp:ChannelData, DimensionData, ScannerSettingRecord", "multiscale/src/lifFile.cpp:parseTimeStampList"]}
{"id": "C149", "title": "The question which series or which channel to use ends with an answer in range, or never ends", "statement": "With one series (channel), 0 is returned and nothing is asked nor read. Otherwise what is typed determines how the question ends: the first number in range is returned after one question for each refused number before it, and the input is left just after it; something that is not a number is taken for 0; if the input ends after numbers out of range, or a number does not fit 64 bits, the question is asked for ever; if nothing is typed, series 0 is taken but the channel is an indeterminate value. A negative number stands for its value modulo 2^64. Without any series the question is asked for ever whatever is typed.", "quantifier": "every text typed, every number of choices below 2^64", "why_tests_cant": "Tests cannot observe that a loop never ends, nor try every text.", "anchors": ["graphic/lifFile.cpp:LifHeader::chooseSerieNumber, LifSerieHeader::chooseChannel", "multiscale/src/lifFile.cpp:chooseSerieNumber, chooseChannel"]}
{"id": "C150", "title": "The Fourier filter keeps exactly the waves of the mask, whatever the image", "statement": "With FFTW transforms that do what FFTW documents and a mask that does not depend on the signs of frequencies, FFTapplyMask replaces the image by the sum of its plane waves whose frequencies are in the mask, times the number of pixels. So the spectrum of the result is that of the image inside of the mask and null outside; filtering twice is filtering once up to the number of pixels; the filter is linear; it commutes with moving (periodically) and mirroring the image; a uniform brightness added to the image changes nothing if the mask excludes the null frequency; a mask that keeps everything gives back the image. The masks drawn by the band-pass and low-pass functions are of that kind when the first two dimensions are even or 1; with an odd one they are not, and the inverse transform is asked of something that is half of no real spectrum.", "quantifier": "every image, every dimensions, every mask, every pair of transforms meeting FFTW's contract, every commutative ring with roots of unity", "why_tests_cant": "Tests compare a few images; they cannot cover all images, dimensions and masks, nor every correct FFT.", "anchors": ["graphic/tracker.cpp:Tracker::FFTapplyMask, makeBandPassMask, makeLowPassMask, mirrorMask, setDimensions"]}
{"id": "C151", "title": "The band-pass keeps exactly the waves whose half period is between the two radii, the same in all directions", "statement": "For 0 < radiusMin < radiusMax and dimensions of the image that are even (or 1), setIsotropicBandPass builds a mask that keeps a wave exactly when half its period, measured in pixels of a slice with slices getZXratio() apart, is at least radiusMin and less than radiusMax, whatever its direction and the number of pixels in each; setIsotropicLowPass keeps it when half its period is at least radiusMin; setAnisotropicBandPass does so with an ellipsoid of radii. So filtering an image gives the sum of its waves in that band, and a band-pass result does not depend on brightness added everywhere. Radii that are not in order in some dimension are refused with invalid_argument. A null or negative smallest radius is not refused, and is undefined behaviour.", "quantifier": "every image, all dimensions (even or 1 for slices and lines), all radii and distances between slices, all FFT implementations meeting FFTW's contract", "why_tests_cant": "Tests check a few masks; radii are real numbers and every frequency of every dimension counts.", "anchors": ["graphic/tracker.cpp:makeBandPassMask, makeLowPassMask, TrackerIterator::setIsotropicBandPass, setAnisotropicBandPass, setIsotropicLowPass"]}
{"id": "C152", "title": "tracker --extractRadii writes, for each time step, the radii around the tracked positions", "statement": "Run on the series and output path that were tracked, tracker --extractRadii writes for each time step a file of radii, with one radius by line for each position of the file of positions of this time step, in the same order, found in the image of this time step around this position (z divided by the ratio of voxel sizes). No other file changes, except the header and the wisdom. It succeeds only when the file goes on for at least one more image after the series; otherwise the same files are written, then bytes after the end of the file are read. A time step without its file of positions stops the run with the radii of the time steps before it. Distances along z are counted in slices, not in pixels.", "quantifier": "all files, series, dimensions, output paths, numbers of time steps, files of positions and radii found", "why_tests_cant": "A test has a few images; which image and which positions go together depends on the length of the history and on where the file ends.", "anchors": ["graphic/mains/tracker.cpp:main, RadiiExporter", "graphic/radiiTracker.cpp:LifRadiiTracker, RadiiTrackerIterator::setCenters, RadiiTracker::getRadii"]}
{"id": "C153", "title": "The multiscale program writes the centres of each time step to its own file", "statement": "Run on a three-dimensional series of a Leica file, the program of the multiscale tracker writes for each time step from --start on one file <output>_tNNN (at least three digits). It has one line by centre, with its coordinates, radius and intensity: the centres found in the image of this time step, their z multiplied by the ratio of voxel sizes, without those that are inside a stronger one. No other file changes, except the file of a computed kernel. The result does not depend on --verbose or on the images tracked before, so that a run started again later writes the same files; interrupted at any point of the tracking, in the middle of a file included, and started again from the time step reached (that of the last file) or from an earlier one, it leaves all files as an uninterrupted run does. The tracking uses half of the blur along z without deconvolution, the kernel of the first image with --deconvolution 1, which is written to the file of the kernel, and the numbers of this file with 2; the kernel written by one run is the one used by the next one, up to the rounding of its text. A missing name, a missing file or a kernel of the wrong size stops the program before it writes anything. What fails: a time step without centre keeps the file of an earlier run; files that cannot be created are skipped without a word; for images smaller than 10 voxels in one direction any kernel is accepted and none is used; a truncated Leica file is read past its end.", "quantifier": "all series, sizes, numbers of time steps, first steps, options, kernels, contents of the disk and of the memory of the finder", "why_tests_cant": "a test compares files for one series; it cannot show for all of them that time steps do not influence each other, that other files are left alone and that runs can be resumed", "anchors": ["multiscale/main.cpp", "main", "multiscale/src/multiscalefinder.hpp", "get_centers", "MultiscaleFinder3D::load_deconv_kernel", "removeHalfOverlapping"]}
{"id": "C154", "title": "dhlngb and lostngb write the numbers of changed neighbours of each particle, one file per time step", "statement": "Given a trajectory file next to its series of bond files, with trajectories that have at each time the positions 0, 1, 2... without hole: dhlngb with an initial step before the last one writes for each later step t the file <head>_<argument>dynhet<token><number>.lngb, and only these; line p is the number of neighbours that particle p of the initial step had then and has no longer at t, or -1 if it is not followed until t. lostngb with an interval tau not longer than the series writes for each t0 with t0+tau in the series the file <head>_post<token><number>.lngb, and only these; line p is the number of neighbours that particle p of t0 has at t0+tau and had not at t0, or -1. An initial step without later one, or a negative one other than -1, is an error of dhlngb that leaves the disk unchanged, as is a missing trajectory file in both. Not checked: with -1 dhlngb reads out of bounds; with an interval longer than the series lostngb fills the files of all steps with -1 and then reads out of bounds; with a negative interval it never succeeds; an argument that is not a number counts as 0 and lostngb then writes 0 for every particle; when a position is not below the number of trajectories of its step, both write out of bounds.", "quantifier": "all trajectories, numbers of steps, offsets, names, bond files, arguments and disks", "why_tests_cant": "The files depend on all trajectories, on the names split at the token, on the bonds of pairs of steps and on arithmetic that wraps; tests compare a few outputs", "anchors": ["mains/dhlngb.cpp: main, fillNgbFrame", "mains/lostngb.cpp: main, export_post_lostNgb", "lib/traj.cpp: TrajIndex::getFrameSizes, makeInverse"]}
{"id": "C155", "title": "An interrupted cage2vtk can be run again, except when it was interrupted in the file of cages", "statement": "cage2vtk writes in this order: .msd, .ngp and .isf (without averaging interval on the command line), the velocities, .cages and _cages.span, then the jumps, the order parameters and the volume fractions of cages (if volumes are there), and one VTK file per time step; stages whose files exist are skipped: the first group if .isf exists, the cages if .cages exists, a series if its first and last files exist. After any number of interrupted runs, none of which stopped inside .isf, inside the last file of a series, between the opening of .cages and the end of _cages.span, or with both ends of the velocities there but some missing, a run ends and leaves on disk exactly what a single run on an empty disk leaves; a further run changes nothing. More generally a run on a disk where skipped stages are whole gives all outputs and touches nothing else. Otherwise: once .cages exists, no run ever writes it or _cages.span again; interrupted between them, the spans are never written; interrupted inside .cages, the next run calculates jumps from the truncated list of cages or is undefined; with another averaging interval, velocities and jumps of the previous interval are kept without a warning.", "quantifier": "all inputs, numbers of time steps, intervals, crash points, histories of interrupted runs and schedules of the threads", "why_tests_cant": "The outcome depends on where each of any number of runs was interrupted; tests run the program once, to its end", "anchors": ["mains/cage2vtk.cpp: main"]}
{"id": "C156", "title": "trackXYZ lists the summits of the filtered image from the brightest to the dimmest; a higher threshold only removes the end of the list", "statement": "On any image without dimension of 5 to 12 pixels, trackXYZ without automatic threshold returns. Its particles come from pixels of the filtered image that are at least 6 pixels from the borders of the large dimensions, at least as bright as the threshold times the number of pixels, and not dimmer than their neighbours; no two are neighbours; all pixels brighter than their neighbours that are as bright are among them; they are listed from the brightest to the dimmest, each at its refined position, leaving out those that are not the top of a window without negative pixel and those placed before the first pixel. With a higher threshold the list is a beginning of the list with the lower one, whatever the images tracked before; so is the list with the automatic threshold. Multiplying the brightness of the image by a positive ratio and adding a constant changes nothing, with or without automatic threshold, if the threshold is multiplied too and the filter rejects the mean. Moving the image with periodic boundaries moves the particles that stay in the interior by as many pixels. But with the automatic threshold an image where nothing reaches the threshold is undefined behaviour.", "quantifier": "All dimensions but 5 to 12, all images, thresholds, orders of coordinates, maps left by previous images; all filters that keep the size, are linear, reject the mean, and commute with periodic motions.", "why_tests_cant": "Tests track a few images with one threshold; the claims relate runs for all images and thresholds.", "anchors": ["graphic/tracker.cpp: Tracker::trackXYZ, Tracker::FFTapplyMask, Tracker::findPixelCenters, Tracker::getSubPixel"]}
{"id": "C157", "title": "The order parameters Ql and the similarity of two particles depend only on the angles between their bonds: they do not change when the sample is moved, turned, mirrored or magnified", "statement": "The square of the Ql of a particle with neighbours at other positions is the mean, over all pairs of its bonds, of the Legendre polynomial of degree l at the cosine of their angle; it is null without neighbours, between 0 and 1, and 1 with one neighbour or for l = 0. The normed product of two particles is the same mean over the pairs made of a bond of each, divided by the root of the product of the two means of each. So any map of space that multiplies all distances by the same number leaves unchanged Ql and normed products of all particles, and Ql of the coarse-grained coefficients. The coefficients themselves do change with the orientation; and with two neighbours at the same position Ql changes too (both refuted).", "quantifier": "all positions, neighbour lists, particles, even degrees up to 10, similarities of space", "why_tests_cant": "the angles and orientations form a continuum; a test can only compare a few turned samples, within rounding", "anchors": ["lib/boo_data.cpp:140-149 BooData(Coord)", "lib/boo_data.cpp:174-193 normedProduct, getQl", "lib/particles.cpp:350-414 sphHarm_OneBond, getBOO, getCgBOO, getBOOs", "lib/particles.hpp:285-290 getDiff"]}
{"id": "C158", "title": "getAngle gives the geometric angle between two bonds and getAngularDistribution the set of whole degrees that occur", "statement": "For two particles at other positions than the origin, getAngle returns the only angle between 0 and pi that satisfies the formula of the scalar product, hence the law of cosines; it is pi exactly when the origin is between the two others and 0 exactly when they are in the same direction; the angles of a triangle add up to pi; exchanging the two particles or moving, turning, mirroring, magnifying the sample changes nothing. Unless a particle is exactly between two of its neighbours, its angular distribution has 180 values: the same weight at the degrees k such that two of its neighbours are seen under an angle of k whole degrees, 0 elsewhere; the weight is 1 up to 3 neighbours, then 2/((n-1)(n-2)). If it is exactly between two neighbours the distribution is written out of its array.", "quantifier": "all positions, triplets of particles, neighbour lists, similarities of space", "why_tests_cant": "angles form a continuum, the failing case is a set of null measure", "anchors": ["lib/particles.cpp:159-168 getAngle", "lib/particles.cpp:610-628 getAngularDistribution"]}
{"id": "C159", "title": "the cubic order parameter W_l of getInvarients depends only on the angles between the bonds", "statement": "The value W_l given by getInvarients, for the particles' own bonds or the coarse-grained ones, is a real number that depends only on the angles between the bonds taken two by two: two particles whose neighbours are seen under the same angles have the same W_l wherever they are, at whatever distances; moving, turning, mirroring or magnifying the sample changes nothing, and so does rotating the coefficients around any axis. A single bond gives the 3j symbol (l l l; 0 0 0) whatever its direction, no bond gives 0. W_l is between -1 and 1 whatever the coefficients; 1 is reached for l=0. The other function, getWl, has not this property: for one bond and l=2 it gives 16 times as much along z as along x.", "quantifier": "all even degrees of the library, all positions, neighbour lists, axes and similarities of space", "why_tests_cant": "rotations form a continuum; the claim rests on the algebra of all the 3j symbols of the table together", "anchors": ["lib/boo_data.cpp:219-242 getInvarients", "lib/boo_data.cpp:195-216 getWl", "lib/boo_data.cpp:38-81 w3j", "lib/particles.cpp getBOOs, getCgBOOs"]}
{"id": "C160", "title": "The self intermediate scattering function is the mean cosine of the displacements; it is bounded by 1 and by the mean square displacement", "statement": "For trajectories present over the interval, the value of getSelfISF at a lag is the mean, over origins and trajectories, of the cosine of the product of the wave vector and the displacement: it is 1 at lag 0, between -1 and 1, and 1 exactly when all displacements are whole numbers of wavelengths; it is at least 1 - q*q*MSD/2 with the getMSD of the same interval. Moving the sample as a whole, turning it together with the wave vector, taking the opposite vector or any motion perpendicular to it changes nothing. The form over the three axes is the mean over windows, spanning trajectories and axes of the cosine of pi times the displacement over the radius. getISF is the mean over origins of the sum over pairs of trajectories of these cosines, not divided by the number of trajectories: it is 1 at lag 0 but k*k at the others for k trajectories in a plane perpendicular to the wave vector.", "quantifier": "all movies, trajectories, selections, wave vectors, intervals and numbers of origins where all trajectories are present", "why_tests_cant": "positions and wave vectors form a continuum; bounds and invariances are about all of them", "anchors": ["lib/dynamicParticles.cpp:828-867 getISF", "lib/dynamicParticles.cpp:896-1012 getSelfISF", "lib/dynamicParticles.cpp:649-681 getMSD"]}
{"id": "C161", "title": "The non Gaussian parameter is the same ratio of moments at all lags, between 1/3 and a third of the number of trajectories", "statement": "For trajectories present at t0 and t1, at least one of which moved, getNonGaussian and get_MSD_NGP give at every lag from 1 to t1-t0, whatever the number of origins, the same number: the mean fourth power of the displacements from t0 to t1 over three times their squared mean square. It is at least 1/3, reached exactly when all trajectories moved by the same length, and at most a third of the number of trajectories, reached exactly when a single one moved; displacements with the moments of a Gaussian give 5/9. Moving, turning, reflecting or magnifying the sample does not change it. The mean square displacement given by get_MSD_NGP is also the same at all these lags: the mean square displacement from t0 to t1 in squared diameters, divided once more by the number of trajectories when a number of origins is given.", "quantifier": "all movies, selections of trajectories, pairs of times, numbers of origins, radii and similarities", "why_tests_cant": "positions form a continuum; bounds, their cases of equality and invariances are about all of them", "anchors": ["lib/dynamicParticles.cpp:721-766 getNonGaussian", "lib/dynamicParticles.cpp:769-821 get_MSD_NGP"]}
{"id": "C162", "title": "Removing the drift gives the least mean square displacement", "statement": "For a movie where at least two trajectories exist and all are followed all along, moving each frame as a whole after removeDrift adds to getMSD, at each lag from 1 on, the mean over the origins of the square of the change of the move during the lag. So no way of moving the frames of the original movie, leaving them in place included, gives a lower mean square displacement of all trajectories at any lag, for any interval and number of origins; and over the whole movie the same value at lag 1 is reached only by the frames of removeDrift all moved by one vector. This fails for a part of the trajectories: their mean square displacement can be raised by the removal.", "quantifier": "all movies where at least two trajectories exist and all are followed all along, all moves of frames, intervals, numbers of origins and lags", "why_tests_cant": "a minimum over all moves of all frames of any movie", "anchors": ["lib/dynamicParticles.cpp:537-571 removeDrift", "lib/dynamicParticles.cpp:512-533 getDrift", "lib/dynamicParticles.cpp:649-681 getMSD"]}
{"id": "C163", "title": "Neighbours and pair distribution depend on distances only", "statement": "Take two sets of particles, each with an up to date spatial index, such that all the distances of the second are a fixed positive multiple of those of the first up to a renumbering of the particles: the second may be moved, turned, mirrored, rescaled, renumbered, and its index built in another way. With ranges in the same ratio, two particles are neighbours in one if and only if they are in the other; the histogram and the count of pairs of the radial distribution function are equal; removing the particles closer than a separation drops the same particles. If the numbering is the same the neighbour lists are identical and the greedy cut keeps the same particles. With another numbering the greedy cut can keep other particles and another number of them.", "quantifier": "all pairs of sets of particles with proportional distances, all histories, index strategies, ranges, numbers of bins, selections and renumberings", "why_tests_cant": "a relation between the results on any two congruent or similar configurations with any tree shapes", "anchors": ["lib/particles.cpp:93-120 cut, removeShortRange", "lib/particles.cpp:326-334 makeNgbList", "lib/particles.cpp:780-809 RdfBinner, getRdf"]}
{"id": "C164", "title": "Local structures do not depend on the numbering of the particles", "statement": "When two symmetric neighbour lists are the same network under another numbering of the particles, the renumbering takes the bonds, the bonded pairs with a ring of five common neighbours, the unbonded pairs with a ring of three, and the bonds of the second shell of one exactly to those of the other, as many of them; the groups of two bonded particles and their five common neighbours correspond, as many of them; and so do the clusters of neighbouring particles, as many of them and with the same members. The neighbour lists of two samples with proportional distances are such lists, whatever the order of the particles, the frame of axes, the unit of length and the shape of the spatial index.", "quantifier": "all symmetric neighbour lists, all renumberings, all pairs of samples with proportional distances", "why_tests_cant": "all permutations of all networks: the code visits pairs in increasing order only, and grows clusters depth first from the lowest number", "anchors": ["lib/particles.cpp:651-775 is_ring, getSP5c, get1551pairs, get2331pairs, getSecondShell", "lib/particles.cpp:990-998 ngb2bonds", "lib/dynamicClusters.cpp:33-90 growCluster, segregate, segregateAll"]}
{"id": "C165", "title": "Trajectories do not depend on the direction of time, the axes, the unit of length and the order of the positions", "statement": "Linking the frames in reverse order puts two positions on the same trajectory if and only if linking them in order does. Linking another movie whose distances between successive frames are proportional to those of the first one (moved, turned, mirrored, another unit of length), with a radius in proportion, puts the corresponding positions on the same trajectories. The frames may be renumbered if no two possible links from a frame to the next one that share a position have exactly the same length; with equal lengths the order of the positions decides and this fails.", "quantifier": "all movies of any number of frames and positions (without ties if renumbered), all similar movies, radii and index strategies", "why_tests_cant": "a relation between two runs of the linking on any movie, over any number of frames", "anchors": ["lib/dynamicParticles.cpp:1477-1512 link", "lib/traj.cpp:47-70 TrajMap::push_back"]}
{"id": "C166", "title": "The linking follows every particle that moves by less than half the separation of the particles", "statement": "In a movie where particles of a frame are at least 2d apart, each moves by less than d from a frame to the next one, d is at most the linking distance 2*radius, and no particle comes within the linking distance of the last position of one that leaves, link puts two positions on the same trajectory if and only if they are those of one particle seen in all the frames from one to the other, whatever the order of the positions in the frames. With a separation of 2d-3 this fails (a particle is linked to the place where its neighbour went), and when a particle comes near the last position of one that leaves they are taken for one.", "quantifier": "all movies of any number of frames and particles, any numbering of the positions, radii and index strategies", "why_tests_cant": "it must hold for all motions of any number of particles over any number of frames; a test tries a few motions", "anchors": ["lib/dynamicParticles.cpp:1477-1512 link", "lib/traj.cpp:47-70 TrajMap::push_back"]}
{"id": "C167", "title": "The trajectories in a part of a movie are those of the movie", "statement": "Linking successive frames of a movie alone puts two positions on the same trajectory if and only if linking the whole movie does: what comes before and after does not matter. More generally this holds for any part of a movie such that no position left out is closer than the linking distance to a position kept in the frame before or after, if the order of the positions is kept or no two possible links that share a position have exactly the same length: distant particles do not matter. When a position nearer than that is left out it fails.", "quantifier": "all movies, all windows in time, all parts apart from the rest, radii and index strategies", "why_tests_cant": "a relation between two runs of the linking on any movie and any part of it", "anchors": ["lib/dynamicParticles.cpp:1477-1512 link", "lib/traj.cpp:47-70 TrajMap::push_back"]}
