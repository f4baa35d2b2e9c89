# Design of the formal model of MathieuLeocmach/colloids

The model lives in `rocq/theories/` (logical name `Verif`), Coq 8.16.1, standard library only.

## Conventions

- Each C++ module has a `*_Model.v` file (total, computable Gallina functions; every definition
  cites file and lines), a `*_Spec.v` file when the specification needs its own vocabulary, a
  `*_Proofs.v` file, and a `*_Props.v` file. The property files contain the theorems listed in MANIFEST.json,
  each next to a concrete instance (`Example`) that meets its hypotheses, and `Print Assumptions`.
- Undefined behaviour (out-of-range access, uninitialised reads, null dereference) is an explicit
  outcome of the modelled function (`None` or an `UB` constructor), never a silent default.
- C++ exceptions are an explicit outcome.
- Loops without a structural measure take fuel; theorems show the fuel given always suffices.
- Heuristic choices that depend on floating point areas (R*-tree) are universally quantified oracles
  restricted to what the C++ code can return, so the theorems hold whatever the heuristics compute.

## Numbers

- Finite doubles are modelled as integers `Z` counting a common unit (2^-1074 is one: every finite
  double is an integral multiple of it). Comparisons, min and max are exact in this reading.
  Additions, subtractions and products are exact, i.e. rounding, overflow, NaN and infinities are not
  modelled. Every file that uses arithmetic beyond comparisons says so.
- Euclidean distances are compared through their squares (sqrt is monotone).
- `size_t` is `nat`, or `Z` modulo 2^64 where wrap-around matters.

## Trusted base

- Coq's kernel (8.16.1) and its `vm_compute` reduction machine.
- The reading of the C++ code in the model files (each definition cites what it models).
- Standard containers (`std::multimap`, `std::set`, `std::list`, boost bimap) are modelled by lists with the
  documented semantics (e.g. multimap insertion keeps insertion order among equal keys).

## Plan per property

- **C01** Stretching a bounding box yields the least enclosing box — Box = list of (lo,hi) pairs over Z. Lattice laws by induction over axes.
- **C02** Overlap test, overlap area and intersection agree — Box, same. overlap() transcribed branch by branch, compared with a spec using max/min.
- **C03** R*-tree insertion loses and duplicates nothing — R*-tree as an inductive tree; heuristics as oracles; Permutation of leaves by induction on depth/history.
- **C04** R*-tree stays balanced with bounded fan-out and enclosing node boxes — R*-tree; inductive invariant `wf` over a history type of Insert/Remove/Translate.
- **C05** Overlap queries are exact — R*-tree; query = filter of leaves, from enclosure of boxes.
- **C06** Enclosing queries equal the brute-force answer for boxes with an extent — R*-tree; sound always, complete when strict overlap; witness of incompleteness.
- **C07** Removal deletes exactly what it should and keeps the tree valid — R*-tree; Permutation of kept leaves, invariant preserved.
- **C08** Translating an R*-tree translates its answers — R*-tree; map translation commutes with query.
- **C09** The overall box of a spatial index is the bounding box of its content — R*-tree; hull equality under hi >= DBL_MIN, refutation witness for negative data.
- **C10** Forced reinsertion only ever handles leaves — R*-tree; model carries an explicit `bad cast` outcome shown unreachable.
- **C11** Spatial index answers are sorted, duplicate-free and equal to brute force — Index module on top of the R*-tree; sort/unique; brute-force multimap model.
- **C12** getInside selects the objects at least a margin away from the faces — Index module: getInside as shrink + query.
- **C13** Temporal index returns every object spanning the query interval — Temporal index as list of lists of sorted sets, out-of-range access is None.
- **C14** Index construction and uninitialised state — Pointer modelled as uninitialised/initialised; first insert hits the uninitialised case.
- **C15** Trajectory existence, span and access are consistent — Traj as (start, list of positions); size_t arithmetic modulo 2^64 for last_time.
- **C16** Every frame of a TrajMap is a bijection between positions and trajectories — TrajMap frames as association lists with bimap insertion; greedy fold; invariant by induction over histories.
- **C17** Trajectories are contiguous and numbered in order of appearance — Same model; history invariant.
- **C18** Linking is shortest-link-first — Same model; stable sort by distance then greedy; refusal reason theorem.
- **C19** Trajectory index and its inverse agree — TrajIndex built from the frames; equivalence with the bimap relation.
- **C20** Trajectory files round-trip — Character-level printer and parser of the text format; parse (print x) = x.
- **C21** Conversion between position-indexed and trajectory-indexed maps is lossless — posToTraj/trajToPos over association maps; inverse theorem.
- **C22** Multiscale trajectory index: every frame is linked bijectively — multiscale TrajIndex model with explicit UB for unchecked input; invariant over histories.
- **C23** add_Frame: what is accepted, rejected and undefined — Same model; result type Throw/Ok/UB; state unchanged on Throw.
- **C24** Multiscale trajectory span is half-open — Direct; refuted at the boundary.
- **C25** removeOverlapping returns pairwise non-overlapping centres and only drops overlapped ones — Greedy removal over squared integer distances; independent-set and domination theorems.
- **C26** Brute-force overlap removal is a greedy maximal independent set — Same.
- **C27** Half-overlap removal keeps no centre inside a stronger one — Same.
- **C28** 3D reconstruction partitions every slice — Reconstructor state machine; invariant over slice sequences.
- **C29** The candidate links are exactly the close pairs — Geometric argument: box of half-width tol contains the ball; index exactness from C05.
- **C30** Splitting clusters conserves the centres — List concatenation.
- **C31** Euclidean neighbour search is exact — Box around ball contains ball; index exactness from C11; squared distances in Z.
- **C32** Nearest neighbour search returns the nearest particle — Range doubling loop with fuel; termination measure.
- **C33** Neighbour lists are symmetric, irreflexive and sorted — From C31.
- **C34** Bonds and neighbour lists round-trip — Sets of ordered pairs as sorted lists.
- **C35** cut keeps a maximal well-separated subset — Greedy fold.
- **C36** Common-neighbour pairs are exactly as defined — Set theoretic spec of common neighbours.
- **C37** Ring test decides closed rings up to five particles — Greedy walk modelled; sound; completeness tested against cycles, refuted if false.
- **C38** Margin selection without index — Direct model with upper corner initialised to 0; refutation for negative data.
- **C39** removeOutside resets exactly the complement of the selection — Vector update loop.
- **C40** Radial distribution histogram counts every close pair once, in bounds — Histogram fold.
- **C41** Angular distribution marks the bins hit — Histogram fold with overwrite; refutations.
- **C42** Second shell bonds are the pairs joined by a path of two links — Graph distance two spec.
- **C43** Periodic differences are minimum-image — Arithmetic over Z (doubled units).
- **C44** Periodic queries see every periodic image — 27 translated queries.
- **C45** Time-averaged fields are sliding means — Sliding window sums over Q.
- **C46** Cluster segregation computes connected components — Graph reachability spec by inductive relation.
- **C47** Dynamic clusters partition every frame and follow overlaps — History of frames.
- **C48** Selecting spanning trajectories is exact — Set intersection.
- **C49** Time-correlation functions average the documented origins, where they stay in range — Index arithmetic with explicit bounds.
- **C50** Cage decomposition keeps the order and all but the last step — Interval splitting.
- **C51** Removing the drift — Averages over Q.
- **C52** Lost neighbours are counted exactly — Set difference.
- **C53** Time averages use exactly the window — Window arithmetic.
- **C54** File series names parse and print consistently — String functions over lists of characters.
- **C55** Spherical-harmonic coefficient storage is a bijection — Finite domain checked completely by computation inside the kernel, plus algebra.
- **C56** Wigner-3j table lookups are in range, collision-free and symmetric — Finite domain checked completely by computation inside the kernel.
- **C57** What getWl and getInvarients compute — Commutative ring algebra; refutation witness.
- **C58** Binary and text exports of coefficients round-trip — Byte/word list codec.
- **C59** Inner product is a symmetric positive form — Algebra over Q or Z.
- **C60** 2D blob detection finds exactly the scale-space minima — Images as total functions on Z coordinates with explicit in-range check; block scan.
- **C61** 1D blob detection finds exactly the scale-space minima — Same in 1D; misalignment refuted.
- **C62** The 3D sliding window shows the right planes — Circular buffer invariant by induction over steps.
- **C63** Octave pyramid dimensions and downscaling are in bounds — Dimension arithmetic.
- **C64** Upscaling interpolates linearly — Pointer walk as index list.
- **C65** Image slices are read from the right place — Offset arithmetic over byte lists.
- **C66** Parsing a LIF file finds its memory blocks — Byte parser with fuel.
- **C67** Image padding is transparent — In-place array compaction.
- **C68** The Fourier mask is symmetric — Index arithmetic modulo n.
- **C69** Pixel centres are isolated local maxima above threshold — Scan with marking.
- **C70** Automatic thresholding terminates and removes only the dimmest centres — Histogram loop.
- **C71** 1D convolution along an axis touches every pixel exactly once — Stride arithmetic bijection.
- **C72** Deconvolution kernel computation stays in bounds — Index bounds over Q.
- **C73** Velocities are displacements over the window — Window arithmetic of C52; exact formula per position.
- **C74** The table holds the Wigner 3j symbols — Racah's formula in Q (coefficient and radicand); exhaustive evaluation of the finite domain inside the kernel.
- **C75** Rotations of the coefficients are total and exact sums — Loops over (l,m2,m1,k) with outcome-valued array reads; closed formula by fold lemmas; zero angle by cancellation.
- **C76** 3D blob detection finds exactly the scale-space minima — Window invariant of C62 turns reads into image reads; generic dynamic block lemma of C60 in four dimensions.
- **C77** Bond orientational order is a mean over bonds — Fold of deposits into cells; the bonds of a cell are a sorted list.
- **C78** Particle files round trip — Texts abstracted by their list of words; streams consume words.
- **C79** Bond files and VTK exports are consistent — Same words; set insertion invariant; fuel bounded by the length of the text.
- **C80** Bond orientational order files — Same words, with the end-of-file flag depending on trailing white space.
- **C81** Linking successive frames — Link as composition of the index, the sorted follower search and addFrame of the trajectory map (C16); the sort is any sorted rearrangement.
- **C82** Removal of the drift written in a file — Partial sums and their maximum; shift of each frame; composition with C81.
- **C83** Windowed self intermediate scattering function — Nested averages over windows and axes, from the windows theorem on interval averages.
- **C84** Square displacement around a time step — Velocity of C73 times the width; witness of the finding.
- **C85** Saved trajectories load back — Save as a list of words and load as a word reader over a disk oracle; composition with the index file lemmas of C20 and the inverse of C16.
- **C86** Number density — Ratio as a pair (number, volume); extreme coordinates as an inductive characterisation, bounds of the tree from the R*-tree invariant.
- **C87** Normalised pair correlations — Fold over the Euclidean neighbours; numbers and the norm are section variables; induction over the pairs with the bin characterisation of C40.
- **C88** Names and pixels of a series of image files — Names as lists of characters with the rfind lemmas of C54; images by induction over the slices with the slice lemma of C67; the disk is an oracle.
- **C89** Time steps of a Leica file in the tracker — Stream position as part of the state; invariant over the increments.
- **C90** Neighbourhood of a particle in an image — Lengths as integers in a unit dividing the voxel; limits characterised by inequalities; indices of flat arrays.
- **C91** Radius of a particle — Bins by integer square root; fold over the voxels; partial sums as sums over distances; first minimum of a strict weak order; smoothing is a parameter.
- **C92** Boxes around trajectories, clusters and frames — Boxes as lists of intervals; the smallest box is a separate predicate; the hull of balls by induction over the members.
- **C93** Cluster files — Text of the file by induction over the clusters, on top of the clusters of C47 and the map of trajectories of C19; lines split into words.
- **C94** Orientational order of selected trajectories — Maps as sorted association lists; fold over the selection; neighbours by C31; values and their arithmetic are parameters.
- **C95** Gaussian kernels shared between blurs — Table of kernels as state; invariant over the history of requests; sigma as an exact rational in a small unit.
- **C96** Response at an intermediate scale — Blurred pixel as a double (triple) sum over the kernel with null outside; the clipped loop equals the sum by splitting the range; witnesses for the exchanged limits.
- **C97** Positions and scales better than the pixel — Exact rationals extended with infinities and not-a-number; finite differences of a parabola by field arithmetic; bounds by the order of the three values.
- **C98** Centres found in two successive octaves — Centres as lists and binary images as functions; both loops are filters; invariant between lists and binary images.
- **C99** Centres of all octaves — Octaves as lists of centres, radii in any structure with the law of powers of two; induction over octaves.
- **C100** Memory of the 3D finder — Addresses as integers with 32 bit products; Euclidean division for uniqueness and covering.
- **C101** Drawing a sphere — Image as a function, loops as folds; a cell is painted iff some step paints it; rational distances.
- **C102** Shrinking a volume — Folds over the block; partial sums by induction; truncation towards zero of exact rationals.
- **C103** Lost and gained neighbours — Files as lists of lines, frames as lists of sorted neighbour lists; loops by induction over lines, frames and trajectories; counts compared with set differences.
- **C104** Pairs with a ring of five common neighbours — Neighbour lists by C34; the walk along the ring ends in five steps by a case analysis on the ring of five different particles; induction over the bonds for the order and the counts.
- **C105** Average of pair correlation functions over files — Loop over files with fuel; invariant: the sum of the values so far; induction over the readable files.
- **C106** Bond length from the first minimum of the pair correlation function — max_element and min_element as first extrema; the loop body does not change its state, thus one iteration decides; scaling invariance for the saved file; bonds by C33 and C34.
- **C107** Correlation of the bond orientational order with distance — Nested loops as a list of pairs; selection and renumbering commute with listing the pairs; fold over pairs with one count per bin; coarse graining by C77.
- **C108** Bins of pair histograms in floating point — Counting by induction over the pairs; relative error bounds on rationals for any rounding functions of the standard model of floating point; IEEE doubles computed with the reference functions of Coq.Floats.SpecFloat for the failures.
- **C109** Sums added up by several threads — Threads as lists of statements, each a load and a store, run by an arbitrary schedule; invariant: every cell and every pending store is a sum of some of the values already read; exact under statement-by-statement schedules.
- **C110** Parallel loops on cells of their own — Same machine; for each cell its only owner, and what that thread alone would still do to it, is invariant; progress by a decreasing measure.
- **C111** Names of the files of a series asked by several threads — The state of boost::format as a record, the three operations of a call as atomic steps of threads; per-thread invariant with private formats, block invariant with critical sections, two schedules for the failures.
- **C112** Blur of a volume by several threads — Columns of the volume as cells of the machine of C110, each thread the list of its columns; ownership of cells gives the result for every schedule; the blocks leave the last columns to nobody.
- **C113** The scale space of an octave — Layers as lists of images, blurs and differences as functions; invariant of the loops over layers.
- **C114** The octaves of an image — Octaves and a memory of image buffers (OpenCV headers share buffers); the loop over octaves by induction, a shared buffer as counter-example.
- **C115** Detection does not depend on the light — Reuses the searches of C60, C61, C76 with the concrete tests of shape on exact numbers; every comparison commutes with a positive factor, by rewriting through the search; the interpolation of C64 for what fails.
- **C116** Settings of the three-dimensional finder — Settings as a record, calls as operations; invariant over histories (reverse induction), expected values defined from the history only; convolution from C71.
- **C117** Centres in three dimensions from clusters of two-dimensional ones — Rational coordinates, the 1D finder as an oracle; the conversion to an integer splits positions in inside, outside and just after; induction over blobs and clusters with the invariant of the cache of finders.
- **C118** Files of dynamics and the relaxation time read from them — Text files as lists of characters, numbers by an abstract codec (C57); upper_bound on the reversed table as its libstdc++ loop; the crossing is an invariant of the bisection.
- **C119** Frequency of jumps between cages — The walk from cage to cage with fuel; invariant on the array of counts (one added to each step of the window); uniqueness of the trajectory at a position gives the count; non-termination: no fuel suffices, since every step sends back to a cage that ends before the trajectory.
- **C120** Life times of cages, and cages read back — Array updates with explicit bounds; induction over cages; makeInverse from C05 in both directions.
- **C121** Interrupted runs and files of previous runs — Runs as lists of operations on the disk (truncate, append one character), a crash as a prefix of that list; invariant over histories of crashes (each file absent or a prefix of what is expected, files of a series whole before the one being written); stages by induction on the files.
- **C122** Fields averaged in time — Exact rationals; the averaging of C45 for each column, files as lists of numbers read into the array left by the previous step; induction over the frames.
- **C123** Changes of neighbours within an interval — Bond files and inverse index as in C99 (lost neighbours), sets of neighbours as sorted lists; difference of sets counted.
- **C124** Bond order computed again on the same data — Index queries from C21 and C39, selection without index as a filter; both are shown to be the same sorted list of indices.  Concrete trees for what fails.
- **C125** Clusters of the percolation program — Disk as a map from names to texts, updated file by file; bond files as in C79, neighbours from the tree as in C33, clusters as in C47; runs of the program iterated by structural recursion.
- **C126** Sub-intervals in MSD and ISF — Recursion over groups of three arguments, size_t arithmetic in Z; library functions from C49 and C83; names compared by splitting after digits.
- **C127** Similar bonds in boo_flip — Order parameters, product and threshold are section variables; the loop over bonds as a fold on arrays; induction over the bonds.
- **C128** Files of invariants and fields of dat2vtk — Names as texts, the disk as a map; the reading of words of C80; column of a table shown pointwise equal to the invariants.
- **C129** Cutting particles file by file — Disk as a map from names to texts; the reading and writing of C78, cut and removeShortRange of C35; steps by induction over the files, interruption as an inductive relation; names from C54.
- **C130** Centres found in two successive octaves, in one and three dimensions — The 1D and 3D functions as one function on lists of coordinates; each pass is a filter of the centres; same argument as C98 with coordinate-wise relations.
- **C131** From files of positions to trajectories and back — Disk as a map from names to texts; names from C54, files of positions from C78, linking from C81/C82, trajectory files from C85, composed; trajectories made by linking are shown non-empty by induction over the frames.
- **C132** The drift of a movie, and the dynamics without it — The three axes of removeDrift and getDrift (C51) put together; the shifts of a movie and of the same movie with a drift added are compared pair of frames by pair of frames, and their difference is constant by induction over time. The programs are functions of the disk.
- **C133** Scales of an octave and radius of a centre — Real numbers of the standard library; powers of two by Rpower; the profile of a blurred ball is any function with the Gaussian derivative, shown to exist as an integral; sign of the derivative of the difference and the mean value theorem on each side.
- **C134** The program avpos — The disk is a function from names to texts; the program is the composition of the loading of a .traj file, the removal of the drift, the running average (DynamicField) and the writing of the files. Each written file is characterised as the mean over the window along the trajectory, by the theorems of C45, C51 and C78.
- **C135** Rotating bond order coefficients by half a turn — Doubles are real numbers. The coefficients of one degree are read as a homogeneous polynomial of two complex variables; the Wigner table acts on it by a substitution of SU(2), the coefficients of a bond are a power of a quadratic form of its direction, and the substitution turns the form of a direction into that of the turned direction. Spherical harmonics are defined by Rodrigues' formula.
- **C136** Coarse-grained Voronoi volumes — The program is modelled on a list of cells (volume and neighbour identifiers, walls negative) given by an oracle for voro++; the buffer written and read back is a list of numbers. The coarse-grained volume is proved equal to an independent mean over the donors, the second-chance loop is run with fuel and its termination is characterised by an inductive relation.
- **C137** Positions of tracked particles better than the pixel — Model Newton_Model.v: the Newton step from the five pixels of each dimension, the discarded pixels, the list of positions and its box, the intensities, and what the iterator returns. Spec Newton_Spec.v: the step is the one to the stationary point of the second order expansion of the only polynomial of degree four through the five pixels. Refinement of the code's coefficients to that polynomial, then laws of the step; witnesses for what fails.
- **C138** Fields in the vtk files of traj2vtk and cage2vtk — Model Film_Model.v: the last stage of traj2vtk and cage2vtk, on texts of files, with the loop on time steps. Refinement: the text written is the vtk export of the values that the previous stages wrote, through the words of the files; induction on the values for files cut by something unreadable; induction on time steps for the loop.
- **C139** The program boo, from positions to files — Model Order_Model.v: calculateBoo from the positions and the disk to the disk, plain and periodic, by composing the models of the bond file, the neighbour lists, the two selections, the coefficients and the files. Refinement to a specification (Order_Spec.v) of the values of each particle by its neighbours; the second run is compared to the first; names of the periodic series by induction on texts.
- **C140** The program boo_flip, from positions to files — Model Flip_Model.v: boo_flip from the positions and the disk to the disk, plain and periodic, composing the models of the bond file, the selections, the coefficients, the flips along the two shells, the similarities and the files. Refinement to a specification (Flip_Spec.v) of each value by the relation of neighbours; the vtk file is specified by its words; comparison with the files of boo.
- **C141** The program rdf, with and without periodic boundary conditions — Model Rdf_Model.v: the program rdf and its periodic variant, with getRdf on periodic particles, from positions to the file. The periodic loop is proved equal to the plain one for the centres selected (no image of a particle of the cell is within range of a centre), then C40, C86 and C124 give the values; the file is specified by its words.
- **C142** Scales of blobs on a line and in a volume — Model Scale1_Model.v: OctaveFinder1D::scale_subpix and OctaveFinder3D::scale_subpix over exact rationals with infinities and not-a-number, responses given. Laws by field arithmetic: exact on cubic responses (line) and on parabolas (volume), invariance under brightness and contrast, range.
- **C143** The program tracker writes the files of every time step and nothing else — Model graphic/mains/tracker.cpp with its files (Track_Model): the configuration file, the test of the output path, the loop over time steps of a Leica file or of a series of image files, the names and texts written. Tracking of one image is an argument (it is C69, C70, C137). Prove by induction on the steps what is on the disk after any run, and that nothing else changes.
- **C144** The program linkboo writes the bond order of every time step, from a cut-off or from the files of cgVoro — Model mains/linkboo.cpp up to the linking (Lboo_Model): names of the files of a time step, the choice between bonds from a cut-off and bonds and selections from the files of cgVoro, the files of numbers, and the order and files of each step. Prove by induction on the steps what is on the disk after a run, in both cases, for any disk before.
- **C145** Trajectories selected in space and time with an index — Model the interface of spatio-temporal indices (lib/index) and the selections of DynamicParticles that use it (Stidx_Model). The index is a class of the user: it is an argument, with what is asked of it stated on the positions of the trajectories. Prove what each selection returns for every index that does so, that there is one for every set of trajectories, and follow the index through the removals of drift.
- **C146** all_bonds writes the bonds shorter than the first minimum of the mean pair correlation function — Model the program all_bonds from the trajectory file to the .rdf and .bonds files (Allb_Model), on top of the models of series of files, of the pair correlation function and of neighbours. Prove the files left by every run that ends, the runs that do not end, the failures, and when a second run writes the same files.
- **C147** The correlation of bond order in a periodic cell does not depend on where the cell is cut — Model g6 compiled with periodic boundary conditions down to the text it writes (Pg6_Model), on top of the models of periodic differences (C43) and of the order (C107). Prove the rows of the file from images of the particles, uniqueness of the bin of a pair, and invariance under a change of the origin of the cell.
- **C148** The header of a .lif file gives what its XML says, for every tree — Model the reading of the XML header of a .lif file by LifHeader and LifSerieHeader (Xml_Model) on the trees TinyXML gives, with UB for null pointers and indeterminate values; a specification of the format by relations on trees (Xml_Spec). Prove the getters from the format, which headers are undefined behaviour, the list of series and the text printed.
- **C149** The question which series or which channel to use ends with an answer in range, or never ends — Model extraction of a size_t from the standard input (with signs, overflow, failures) and the loops of chooseSerieNumber and chooseChannel turn by turn (Ask_Model); specify dialogues as a relation on the text typed (Ask_Spec). Prove that every text has exactly one dialogue and that the functions end as it says, for ever included.
- **C150** The Fourier filter keeps exactly the waves of the mask, whatever the image — Model FFTapplyMask on the block of memory, the mask in memory order multiplied by pairs of floats, FFTW's plans being any functions that do what FFTW documents (Fft_Model); specify discrete Fourier transforms over any commutative ring with roots of unity, half spectra, filtered images (Fft_Spec). Prove that the result is the sum of the waves kept, from the Hermitian symmetry of masked spectra, and consequences by orthogonality of waves; show by naive transforms that the contracts can be met.
- **C151** The band-pass keeps exactly the waves whose half period is between the two radii, the same in all directions — Model makeBandPassMask and makeLowPassMask over the Reals of the standard library: frequencies of radii, limits of each line with conversions to size_t, the test of the radii (Band_Model); specify the period of a wave from its frequency and the distances between pixels (Band_Spec). Prove cell by cell which waves are kept, and compose with C150 for complex roots of unity, proved to be roots by De Moivre and geometric sums.
- **C152** tracker --extractRadii writes, for each time step, the radii around the tracked positions — Model tracker --extractRadii down to its files (Extract_Model, on top of Track_Model): constructor of LifRadiiTracker, setCenters, the increment that reads an image without looking for the end of the file, RadiiExporter, the wisdom and the header. Prove by induction over time steps that the file of radii of each step holds the radii found in the image of this step around the positions of this step, and what is left by a run that fails.
- **C153** The multiscale program writes the centres of each time step to its own file — Model the program multiscale/main.cpp down to its files (Scan_Model, on top of Settings_Model, Center_Model and the disk of Perco_Model): choice of the series, octaves made from the sizes, the three ways to have a deconvolution kernel, views of the mapped file, the loop over time steps, names and lines of the files. The stages of the finder are parameters whose results do not depend on the memory (C113, C114). Prove by induction over time steps what each file holds after a run.
- **C154** dhlngb and lostngb write the numbers of changed neighbours of each particle, one file per time step — Model the programs dhlngb and lostngb from their arguments to their files (Heter_Model, on top of Lost_Model, DynFile_Model, Files_Model, Jump_Model.reload_cages and the disk of Perco_Model): atoi, header and index, check of the initial step in size_t, names of the series, loops over time steps with a file written at each. Prove that the index of tidy trajectories is consistent (pigeonhole), then what each file holds by C103, and what happens for the other arguments.
- **C155** An interrupted cage2vtk can be run again, except when it was interrupted in the file of cages — Model the main of cage2vtk as a list of operations on the disk, stage by stage, each stage skipped according to the files found (Crun_Model); the contents of files are inputs (modelled by C102, C120, C121 and others). Prove by invariants over interrupted runs that a later run completes the outputs, and prove the losses when the interruption falls in the file of cages.
- **C156** trackXYZ lists the summits of the filtered image from the brightest to the dimmest; a higher threshold only removes the end of the list — Compose the filter, unpad, the search of centres, the sort, the automatic threshold and the refinement as trackXYZ does (Xyz_Model), the filter being any function on the block with the properties that C150 proves of exact transforms. Prove which pixels give particles and their order, and the relations between runs: higher threshold, automatic threshold, gain and offset, motion.
- **C157** The order parameters Ql and the similarity of two particles depend only on the angles between their bonds: they do not change when the sample is moved, turned, mirrored or magnified — Derive the addition theorem of spherical harmonics from the half-turns of C135 (bring one bond on the z axis, where only the zonal coefficient is left), then write the coefficients of a particle (C77) as weighted sums of bonds (Angle_Model). Ql and the normed product become means of Legendre polynomials of angles between bonds; a similarity of space keeps these angles.
- **C158** getAngle gives the geometric angle between two bonds and getAngularDistribution the set of whole degrees that occur — Write getAngle with acos on real numbers and getAngularDistribution on positions (Bend_Model, on top of the loop of C41). Prove that the value is the geometric angle (Cauchy-Schwarz and its case of equality), the law of cosines, the sum of the angles of a triangle, the bins and the invariance under similarities.
- **C159** the cubic order parameter W_l of getInvarients depends only on the angles between the bonds — Write the table of 3j symbols as real numbers and the division by the power 3/2 (Cubic_Model, on top of C57). The cubic form is shown to be linear in each argument and, on powers of linear forms, a power of determinants (Cubic_Proofs, Cubic_Link); with the harmonics of C135 this gives a function of the angles of three bonds (Cubic_Bonds). Then: rotations, congruent clusters, similarities, coarse-graining, one bond, no bond.
- **C160** The self intermediate scattering function is the mean cosine of the displacements; it is bounded by 1 and by the mean square displacement — Write the waves as cosine and sine on real numbers (Wave_Model) under the loops of C49 and C83. Prove the formula of the cosine of a difference under the sums, then bounds, the case of equality, the bound by the mean square displacement (1-cos x <= x*x/2 and Cauchy-Schwarz), the invariances, the windows over the three axes, and the collective function.
- **C161** The non Gaussian parameter is the same ratio of moments at all lags, between 1/3 and a third of the number of trajectories — Instantiate the loops of C49 (getNonGaussian, get_MSD_NGP) with real positions (Ngp_Model). The sums over origins are multiples of the sums over trajectories; the bounds follow from the sum of squared deviations and from the expansion of the square of a sum of non negative numbers, with their cases of equality.
- **C162** Removing the drift gives the least mean square displacement — Instantiate getMSD (Corr_Model) on rational positions and use removeDrift of Drive_Model. When every trajectory is followed all along, the sum of the coordinates is constant after the removal (induction over time from C51); expand the square of a displacement plus the change of the move and sum: the cross term vanishes.
- **C163** Neighbours and pair distribution depend on distances only — Take two sets of particles of Particles_Model with any histories and R*-tree strategies, whose distances are in a fixed ratio through a renumbering. Transfer C33, C35 and C40 from one to the other; a renumbering is a permutation, so it keeps the counts of pairs.
- **C164** Local structures do not depend on the numbering of the particles — Relate two neighbour lists of Ngb_Model by a renumbering and its inverse. Transport common neighbours, rings and chains of links through it; with C34, C36, C42 and C46 the results correspond one to one, and an injective correspondence both ways gives equal numbers. C163 supplies the relation for two samples.
- **C165** Trajectories do not depend on the direction of time, the axes, the unit of length and the order of the positions — By C81 the links between two frames form a matching such that a possible link is taken or meets a taken link that is not longer. Without ties such a matching is unique (induction on the length). Reversing the movie or applying a similarity keeps these conditions, so the links and then the trajectories, which are contiguous, correspond.
- **C166** The linking follows every particle that moves by less than half the separation of the particles — By C81 a possible link is taken or meets a taken link that is not longer. The link of a particle to itself is shorter than d, and any other link sharing an end with it is longer than d (parallelogram inequality on the separation 2d), so it is taken; a taken link between two particles would meet such a link or join a particle that leaves to one that comes. Trajectories are contiguous: induction on the number of frames.
- **C167** The trajectories in a part of a movie are those of the movie — As C165: between two frames the taken links are the only matching that takes the shortest links first; the conditions on the part make the possible links around a position of the part the same in both movies, so the links are the same; trajectories are contiguous, by induction along them. A window in time is the special case where all positions of its frames are kept. With ties: the sort of the links is stable, so links are taken in the lexicographic order of length, position before, position after (C81_order), and such a matching is unique.

## What `Print Assumptions` lists

Every theorem of MANIFEST.json is followed by `Print Assumptions` in its `*_Props.v` file.

- All theorems but those named below: `Closed under the global context` (no axiom at all).
- The theorems that speak of real numbers (`C133_between`, `C133_blurs`, `C133_case`, `C133_iterative`, `C133_negative`, `C133_profile`, `C133_radius`, `C133_scale_of`, `C133_sizes`, `C135_axis`, `C135_bond`, `C135_bonds`, `C135_case`, `C135_colatitude_refuted`, `C135_direction`, `C135_products`, `C135_reflect`, `C135_reflect_refuted`, `C135_rodrigues`, `C135_spherical`, `C135_twice`, `C135_vertical`, `C151_anisotropic`, `C151_brightness`, `C151_case`, `C151_fftw`, `C151_image`, `C151_isotropic`, `C151_low`, `C151_low_image`, `C151_negative_refuted`, `C151_refused`, `C151_refused_isotropic`, `C151_roots`, `C157_angle`, `C157_case`, `C157_coarse`, `C157_coefficients_refuted`, `C157_coincident_refuted`, `C157_isolated`, `C157_legendre`, `C157_moved`, `C157_own`, `C157_product`, `C157_range`, `C158_angle`, `C158_case`, `C158_distribution`, `C158_moved`, `C158_moved_distribution`, `C158_opposite`, `C158_straight`, `C158_triangle`, `C159_angles`, `C159_bound_reached`, `C159_bounded`, `C159_bounded_case`, `C159_bounded_coarse`, `C159_bounded_sample`, `C159_case`, `C159_coarse`, `C159_isolated`, `C159_moved`, `C159_single`, `C159_turned`, `C159_wl_refuted`, `C159_wl_unbounded`, `C160_axes`, `C160_bounds`, `C160_case`, `C160_collective`, `C160_msd`, `C160_norm_refuted`, `C160_seen`, `C160_self`, `C160_windows`, `C161_bounds`, `C161_case`, `C161_gaussian_case`, `C161_gaussian_refuted`, `C161_moved`, `C161_value`) rest on four axioms of the standard library and no other:
  `ClassicalDedekindReals.sig_forall_dec`, `ClassicalDedekindReals.sig_not_dec`,
  `FunctionalExtensionality.functional_extensionality_dep` and `Classical_Prop.classic`
  (all four come with `Coq.Reals`).
- No file declares an axiom, a parameter, a functor, a module type, or switches off a check of the kernel.
  Section variables and hypotheses are discharged: they appear as quantifiers of the theorems.
- `coqchk -o` and `vcheck` list in addition the fields of sealed modules of the standard library that are loaded
  (`Coq.Reals.Rdefinitions.RbaseSymbolsImpl`, `RinvImpl`, and `Coq.ssr.ssrunder.Under_rel`): they have definitions there, no theorem of the list assumes them.
- `Coq.Floats.SpecFloat` (used for C108) is a set of plain definitions on `Z`; primitive floats are not used.

## Which parts of the code are modelled

From the citations in the model files (each definition cites its own lines):

- `Allb_Model.v`: all_bonds.cpp, particles.cpp
- `Angle_Model.v`: boo_data.cpp, boo_data.hpp, particles.cpp, particles.hpp
- `Ask_Model.v`: lifFile.cpp
- `Average_Model.v`: cage2vtk.cpp, fields.hpp, particles.cpp, traj2vtk.cpp
- `Avpos_Model.v`: avpos.cpp, fields.hpp, particles.cpp
- `Band_Model.v`: tracker.cpp
- `Bend_Model.v`: index.hpp, particles.cpp
- `Bins_Model.v`: g6.cpp, index.hpp, particles.cpp, particles.hpp
- `Blobs_Model.v`: center.hpp, reconstructor.cpp
- `Boo_Model.v`: boo_data.cpp
- `Box_Model.v`: RStarBoundingBox.h
- `Center_Model.v`: center.hpp
- `Cloud_Model.v`: boo.cpp, boo_data.hpp, boo_flip.cpp, dat2vtk.cpp, fields.hpp, particles.cpp
- `Cluster_Model.v`: dynamicClusters.cpp
- `Corr_Model.v`: 
- `Crun_Model.v`: cage2vtk.cpp
- `Cubic_Model.v`: boo_data.cpp
- `Cut_Model.v`: cutter.cpp, particles.cpp
- `Deconv_Model.v`: deconvolution.cpp
- `Density_Model.v`: particles.cpp, particles.hpp
- `Drive_Model.v`: drift.cpp, dynamicParticles.cpp, dynamics.cpp
- `DynFile_Model.v`: dynamicParticles.cpp, particles.cpp, traj.cpp
- `Dyn_Model.v`: dynamicParticles.cpp
- `Euler_Model.v`: boo_data.cpp, index.hpp
- `Export_Model.v`: boo.cpp, boo_data.cpp, dynamicParticles.cpp, fields.cpp, linkboo.cpp, particles.cpp, particles.hpp
- `Extent_Model.v`: dynamicClusters.cpp, dynamicParticles.cpp
- `Extract_Model.v`: lifFile.cpp, particles.cpp, radiiTracker.cpp, radiiTracker.hpp, tracker.cpp
- `Fft_Model.v`: tracker.cpp
- `Field_Model.v`: fields.hpp
- `Files_Model.v`: files_series.cpp, files_series.hpp
- `Fill_Model.v`: multiscalefinder.cpp, multiscalefinder.hpp, octavefinder.cpp, octavefinder.hpp
- `Film_Model.v`: cage2vtk.cpp, fields.hpp, index.hpp, particles.cpp, traj2vtk.cpp
- `Flip_Model.v`: boo.cpp, boo_data.cpp, boo_flip.cpp
- `Format_Model.v`: all_bonds.cpp, cage2vtk.cpp, cgVoro.cpp, files_series.hpp, linkboo.cpp, lostngb.cpp, traj2vtk.cpp
- `G6_Model.v`: g6.cpp
- `Gain_Model.v`: lostngb.cpp, traj2vtk.cpp
- `Heter_Model.v`: dhlngb.cpp, lostngb.cpp, traj.cpp
- `Index_Model.v`: index.cpp, index.hpp
- `Isf_Model.v`: 
- `Jump_Model.v`: cage2vtk.cpp
- `Lboo_Model.v`: linkboo.cpp
- `Lif_Model.v`: lifFile.cpp, lifFile.hpp, locatorfromlif.cpp, reconstructor.hpp
- `Light_Model.v`: octavefinder.cpp, octavefinder.hpp
- `Link_Model.v`: dynamicParticles.cpp
- `Linker_Model.v`: dynamicParticles.cpp, linker.cpp, particles.cpp
- `Lost_Model.v`: dhlngb.cpp, lostngb.cpp, traj2vtk.cpp
- `MTraj_Model.v`: traj.cpp, traj.hpp
- `Mean_Model.v`: all_bonds.cpp, bonds.cpp, linkboo.cpp, totalRdf.cpp
- `Minima_Model.v`: octavefinder.cpp, octavefinder.hpp
- `Multi_Model.v`: center.hpp, multiscalefinder.hpp, octavefinder.hpp
- `Newton_Model.v`: particles.cpp, tracker.cpp
- `Ngb_Model.v`: particles.cpp, particles.hpp
- `Ngp_Model.v`: dynamicParticles.cpp
- `Order_Model.v`: boo.cpp, boo_data.cpp, periodic.cpp, periodic.hpp
- `PBoo_Model.v`: boo_data.cpp, particles.cpp, particles.hpp
- `Par_Model.v`: dynamicParticles.cpp, fields.hpp, particles.cpp
- `Particles_Model.v`: particles.cpp, particles.hpp
- `Peaks_Model.v`: tracker.cpp
- `Perco_Model.v`: percolation.cpp
- `Periodic_Model.v`: particles.cpp, particles.hpp, periodic.cpp, periodic.hpp
- `Pg6_Model.v`: g6.cpp, periodic.cpp
- `Pyramid_Model.v`: multiscalefinder.cpp
- `RTree_Model.v`: RStarBoundingBox.h, RStarTree.h, RStarVisitor.h, index.hpp
- `Race_Model.v`: particles.cpp, particles.hpp
- `Radii_Model.v`: radiiTracker.cpp
- `Rdf_Model.v`: particles.cpp, particles.hpp, periodic.cpp, rdf.cpp
- `Reconstructor_Model.v`: center.hpp, reconstructor.cpp, reconstructor.hpp
- `Relax_Model.v`: cage2vtk.cpp, dynamicParticles.cpp, traj2vtk.cpp
- `Rerun_Model.v`: boo.cpp
- `Resp_Model.v`: octavefinder.cpp, octavefinder.hpp
- `Rest_Model.v`: dynamicParticles.cpp
- `Resume_Model.v`: traj2vtk.cpp
- `Scale1_Model.v`: octavefinder.cpp
- `Scale_Model.v`: octavefinder.cpp, octavefinder.hpp
- `Scan_Model.v`: lifFile.cpp, lifFile.hpp, main.cpp, multiscalefinder.cpp, multiscalefinder.hpp
- `Seam3_Model.v`: octavefinder.cpp, octavefinder.hpp
- `Seam_Model.v`: octavefinder.cpp, octavefinder.hpp
- `Serie_Model.v`: lifFile.cpp, lifTracker.cpp, serieTracker.cpp, serieTracker.hpp
- `Settings_Model.v`: multiscalefinder.cpp, octavefinder.cpp, octavefinder.hpp
- `Sim_Model.v`: boo_flip.cpp
- `Spindle_Model.v`: sp5c.cpp
- `Stidx_Model.v`: dynamicParticles.cpp, dynamicParticles.hpp, index.cpp, index.hpp
- `Sub_Model.v`: ISF.cpp, MSD.cpp
- `Subpix_Model.v`: octavefinder.cpp
- `Track_Model.v`: serieTracker.cpp, serieTracker.hpp, tracker.cpp, tracker.hpp
- `Tracker_Model.v`: tracker.cpp, tracker.hpp
- `TrajFile_Model.v`: traj.cpp
- `Traj_Model.v`: traj.cpp, traj.hpp
- `Vol_Model.v`: octavefinder.cpp, octavefinder.hpp
- `Voro_Model.v`: cgVoro.cpp, stl_algobase.h
- `Wave_Model.v`: dynamicParticles.cpp
- `Wigner_Model.v`: boo_data.cpp, boo_data.hpp
- `Xml_Model.v`: lifFile.cpp, lifFile.hpp
- `Xyz_Model.v`: tracker.cpp
- `Zblur_Model.v`: octavefinder.cpp

## Which parts are not modelled

- Rounding, overflow, NaN and infinities of floating point numbers, except where a property is about them (C97, C108, C115 and the cases named in the model files).
- Third party code: CImg, tinyxml, FFTW, OpenCV, Boost, the C++ standard library. Their calls appear as functions with the documented behaviour, or as section variables.
- The Python package, the build scripts, the tests, the displays (windows of CImg and OpenCV), help and progress messages on the terminal.
- `mains/boo5.cpp` (calls functions that the library does not have, hence cannot be compiled), `liveTrack/*`, `graphic/mains/aquireWisdom.cpp`, `graphic/mains/lifTest.cpp` and `graphic/mains/data2img.cpp`.
- Classes that implement the abstract interface `SpatioTemporalIndex`: the library has none (C145 is about any such class, C13 about the temporal index).
- Reading of command lines by `boost::program_options` in `traj2vtk.cpp`, `cage2vtk.cpp`, `tracker.cpp` (the values of options are arguments of the modelled functions).
- Parallel execution, except where a property is about it (races and OpenMP loops: C109 to C112 and the race properties); elsewhere loops are sequential.
- Time, memory exhaustion and failures of the operating system, other than missing files and interrupted runs (C121, C125, C129, C131, C153, C155).

## How to read the log of wrong programs

- `seeded/LOG.jsonl` holds edits written by hand and edits made automatically (one token of a definition replaced by another).
- A theorem is listed as failed when its proof, or that of a lemma it uses, no longer compiles after the edit. This shows that the theorem depends on the edited code. It does not show by itself that its statement became false.
- The automatic edits were checked only against the theorems of the `Props` file of the same module, so a surviving edit may break a theorem elsewhere.
- Entries with `"survived": true` and an empty list of theorems are edits that no theorem checked noticed. Of the 1095 automatic edits that gave a verdict, 137 were first left out of the log for this reason and were added together at the end. Of these, the 77 that do more than change the kind of a failure were run again on the last theorems or on tightened ones: 40 were then noticed (entries with the note "run again"), 37 still survive. The other 60 only change the kind of a failure (exception or undefined behaviour): 13 of them were run again after new theorems on failures, 10 were then noticed; the rest were not run again. Most of those that still survive seem to change nothing observable (a default that is not read, a test on a value that cannot occur), but this was not proved for each.
- Seven automatic edits gave no verdict (the script could not repair the build) and are not in the log.
- A last run of 60 automatic edits, logged in full, left 11 survivors; 4 of them were noticed when run again with the theorems of other modules or new ones.

## Findings

Properties that the code does not have. Each is a theorem about the model with a concrete witness; the English statement of the property says what holds and what fails.

- `C06_enclosing_query_exact_refuted`
- `C09_overall_box_is_hull_refuted`
- `C11_rstar_equals_brute_refuted`: Points (the boxes Particles::makeRTreeIndex stores) on a face of the query make them differ.
- `C12_rstar_inside_refuted`
- `C13_temporal_exact_refuted`: The claim itself is false in both directions: objects that do not span the query are returned, ...
- `C15_empty_refuted`: An empty trajectory starting at 0 claims to exist at every time step, and reading it is undefined; an empty trajectory starting later exists nowhere.
- `C20_empty_refuted`: Writing an index that holds an empty trajectory is undefined.
- `C24_inclusive_span_refuted`: With b included the equivalence fails: span(0,1) holds of a trajectory that only exists at time 0.
- `C28_push_after_split_refuted`
- `C29_same_criterion_refuted`: The two methods do not agree: at tolerance 1, the brute force method links what the tree method with max_dist 5 does not, and conversely.
- `C30_finds_jumps_refuted`: The jump is not looked for: a cluster that jumps in its middle only is left whole.
- `C31_after_rescaling_refuted`: After a change of scale the index has been left behind.
- `C38_negative_refuted`: With negative coordinates the upper face is taken at 0.
- `C39_unsorted_refuted`: The selection must be sorted.
- `C40_parallel_counts_refuted`: With the plain increments of the code counts can be lost: two particles, two threads, two ordered pairs in the same bin, which is left at one.
- `C37_six_refuted`: Two triangles pass for a ring of six.
- `C41_opposite_refuted`: Two neighbours exactly opposite (angle 180, the largest value of acos) write out of the array.
- `C41_total_weight_refuted`
- `C42_distance_two_refuted`: It is neither the pairs at distance two nor the pairs at distance one or two: a triangle 0-1-2 with a tail 2-3-4.
- `C43_outside_refuted`: With a position away from the cell the result may be larger than half a period.
- `C44_far_refuted`: Further away than one period, images are missed.
- `C46_asymmetric_refuted`
- `C45_short_movie_refuted`: The claim fails when the movie is not longer than half the interval: nothing is ever divided and every position holds the bare sum over all the frames.
- `C48_out_of_range_refuted`: The precondition is needed: nothing checks the end of the interval.
- `C50_last_step_lost_refuted`: "no time step is lost" fails: as soon as a trajectory is split, its last position is in no cage.
- `C51_single_trajectory_refuted`
- `C51_end_ignored_refuted`: getDrift(t0,t1) does not depend on t1: it is always the drift from t0 to t0+1.
- `C53_long_window_refuted`: A window longer than the movie by more than one frame makes the sliding average throw (it asks for nearly 2^64 maps).
- `C73_no_window_refuted`: With h = 0 every trajectory of more than one step divides by zero.
- `C49_msd_windows_refuted`: With 0 < t2 <= t0 no window is visited and everything is divided by zero.
- `C49_non_gaussian_refuted`
- `C49_isf_late_start_refuted`: Any other start writes out of the buffers.
- `C49_self_isf_greedy_refuted`: The documented default, t3 = 0, is out of range for every interval.
- `C54_dot_in_head_refuted`: A dot in the directory and none in the tail: changeExt cuts the name before the token and throws.
- `C54_no_extension_refuted`: A pattern that ends with its digits is refused.
- `C54_get0th_refuted`: In particular what get0th returns is not a pattern.
- `C57_same_refuted`: The two are different numbers: the function that averages over fewer terms counts the pairs (0,0), (0,m) and (m,m) too often. With a single non null coefficient q(6,0) = 1 and the same table getWl gives twelve times getInvarients.
- `C57_real_refuted`: Nor is the result of getWl a real number.
- `C58_string_refuted`: The constructor from a string writes beyond the end of its 16 coefficients, whatever the string.
- `C59_imaginary_refuted`: When the order 0 has an imaginary part the product with itself is not the norm.
- `C60_border_refuted`: Pixels at the distance sizes[k] of the border, although allowed by the test on margins, are not scanned.
- `C61_small_sizes_refuted`: With smaller sizes the pixels read are one or two places before the pixels named: a strict minimum in the middle of the signal is missed, and a pixel that is not a minimum is reported.
- `C62_outside_refuted`: Sizes below 3 (blurring radius below about 1.3 with 3 layers) or fewer than sizes[1]+3 planes: the first load reads outside the image.
- `C64_upscale3_refuted`: So the odd pixels of even lines are not the mean of their neighbours, for any volume where some mean is not zero.
- `C64_deeper_refuted`: A volume deeper than the finder (not refused by fill, which checks only rows and columns) overruns the buffer.
- `C65_slice_number_refuted`: The slice number is not checked: past the last slice, bytes of the next time step (or of what follows) are returned.
- `C65_recovery_refuted`
- `C65_large_refuted`: Pixels are counted in an int: a slice of 2^16 * 2^16 pixels is read as empty.
- `C65_depth_refuted`: Pixels of more than 8 bits: the increments of the header are not used, and half of a 16-bit slice is missing from a buffer of its size; the next slice is read from the middle of the first.
- `C65_time_step_refuted`: So at a later time step whose images differ from those of the first, the slices tracked are not the right ones.
- `C65_rectangular_refuted`
- `C65_channels_refuted`: With several channels the slice of the locator is overrun.
- `C66_wrap_refuted`
- `C66_hangs_refuted`
- `C67_mean_refuted`: Refuted: fillImage adds the pixels to an uninitialised variable, so the mean is never defined.
- `C68_odd_refuted`
- `C68_three_refuted`: A dimension of 3: the third row is never written.
- `C68_three_band_refuted`
- `C69_plateau_refuted`
- `C69_window_refuted`: Refuted: with a dimension of 5 to 12 pixels, the window around a centre can be out of the image.
- `C70_endless_refuted`
- `C70_empty_refuted`: Refuted: no centre, or centres of the same intensity only (for instance a single centre): undefined behaviour.
- `C70_equal_refuted`
- `C71_short_refuted`: Refuted: the length of the kernel is not known; a kernel shorter than the spectrum is read out of bounds.
- `C71_empty_refuted`: Refuted: an image without planes before the axis divides by zero.
- `C72_frequency_refuted`: Refuted: frequency i of the bad axis (n pixels) has the period of frequency i*m/(n*size_ratio) of the good axis (m pixels), but the sizes of the half spectra are used instead: with 4 and 64 pixels of the same size, frequency 1 is compared to frequency 11 instead of 16.
- `C77_isolated_refuted`: But a particle without neighbours is divided by zero, where getBOO gives the null value.
- `C77_reused_refuted`: And what the vector held before the call is counted in the sum.
- `C77_outside_refuted`: Unsorted selections lose selected values, selections past the end write out of bounds.
- `C78_truncated_refuted`: A missing row gives no error but a particle at the origin.
- `C79_field_refuted`: The number of values of a field is not compared to the number of points: the reader takes the following words as values.
- `C80_q6m_refuted`: Degree 6: what is exported can never be loaded for the same particles, the final newline makes a row out of bounds.
- `C81_no_frame_refuted`: Without frame the first one is read all the same.
- `C81_rescaled_refuted`: A frame that was indexed before a change of scale keeps its old index, and a particle that does not move is lost.
- `C82_negative_refuted`: Positions inside the image leave it on the negative side.
- `C82_offset_refuted`: With an offset, the n frames are steps offset to offset + n - 1, but the displacements of step n and after are never used.
- `C83_empty_window_refuted`: A window that no trajectory spans contributes null times a division by zero (not a number) for every lag but the first.
- `C83_default_refuted`: The default t2 = 0 is out of range for every interval, and so are both forms.
- `C83_make_dynamics_refuted`: makeDynamics is out of range for any sets of trajectories present all the time (one at least), and for the default one.
- `C83_make_dynamics_all_refuted`
- `C84_square_displacement_refuted`
- `C85_short_refuted`: Trajectories longer than the number of steps given to save: it is saved, but its loading writes out of bounds.
- `C85_space_refuted`: A white space (e.g. a carriage return) at the end of the first line: the name of the series is read as empty, and its token as the name.
- `C86_empty_refuted`: Undefined for an empty set.
- `C86_rescaled_refuted`: With an index, a rescaling of the positions does not change it.
- `C86_negative_refuted`
- `C87_no_bin_refuted`: Without bin the result is never defined.
- `C88_between_refuted`: What is written between the number of the slice and the mark of the time is lost.
- `C88_order_refuted`: The time before the slice: the same file, named as what comes before the time, is loaded for all slices and times.
- `C88_size_refuted`: The size of the files is not checked: with a wider file the lines of the image are not lines of the file.
- `C89_channels_refuted`
- `C90_half_refuted`: An rmax of r-1/2 voxels gives a neighbourhood of 2r voxels, and memory outside of it is written around all particles far from the sides.
- `C90_outside_refuted`: So is a particle that is farther than the neighbourhood from the last voxel.
- `C91_overrun_refuted`: When rmax is not a multiple of the precision, any voxel beyond the last whole bin is counted out of the bounds of the vectors.
- `C91_margin_refuted`: So is a margin of more than half of the range.
- `C91_first_bin_refuted`: The first value of the curve is not a mean as soon as several voxels are closer than the precision: their sum is divided by one.
- `C92_max_box_refuted`: It does not have to contain the particles: those added one by one do not enlarge the box of their frame.
- `C92_empty_refuted`: Without frame both are undefined, and so is the box of an empty cluster.
- `C94_neighbour_refuted`: A selection of part of the particles: as soon as a selected one has a neighbour whose trajectory is not selected, averaging the map that makeBoo gives is undefined.
- `C94_twice_refuted`: A trajectory selected twice is averaged again, with its mean as an additional term.
- `C95_history_refuted`: The kernel depends on the past: two widths with the same whole number of hundredths, a first request for one of them.
- `C95_percent_refuted`: The precision is not one percent of the width: 0.001 and 0.009 share a kernel.
- `C96_wide_refuted`: The limits of rows and columns are exchanged. In an image with more columns than rows the pixels near the last row read out of the image ...
- `C96_right_refuted`: ... those far on the right have no response at all, whatever the image ...
- `C96_tall_refuted`: ... and so are those of the last rows of an image with more rows than columns.
- `C96_border_refuted`: Near the border the response is lower, even in a uniform image: in the corner only half of the kernel is used in each dimension.
- `C97_border_refuted`: Finding: a pixel of the border of the image is read out of bounds.
- `C97_far_refuted`: Finding: the minimum is one of the differences of Gaussians, the position that of the Gaussian layer below, which need not be extremal there: the position may then be at any distance from the pixel, even out of the image.
- `C97_line_refuted`: Finding: three equal pixels give not-a-number in 1D, and three aligned different pixels an infinite position of infinite intensity.
- `C97_scale_nan_refuted`: Finding: when the differences of Gaussians do not change between scales (a uniform image) the scale is not a number.
- `C97_volume_border_refuted`: Less than three voxels away from the ends of a row or of a column, voxels out of the row or of the column are read.
- `C97_volume_nan_refuted`: Finding: seven equal voxels give a coordinate that is not a number, and three aligned differences of Gaussians a scale that is not a number.
- `C98_reversed_refuted`: Finding: called on the finder of low resolution, the ratio of sizes is the integer division 0 and its inverse infinite: the call is undefined as soon as the finder of low resolution has a centre in its first layer, although the code provides for this order.
- `C99_seam_pixel_refuted`: Finding: a centre with a negative coordinate (possible by C97_far_refuted) is looked for in the previous octave at a negative pixel, out of the image.
- `C100_layers_refuted`: Finding: all voxels of the difference of Gaussian layers are out of the memory (get_layers gives headers that must not be read).
- `C100_overflow_refuted`: Finding: a volume of 2^31 voxels or more is undefined (the product is an int), even when it fits in the memory or in a file.
- `C101_negative_refuted`: Finding: a negative radius larger than -1 still draws (its square is positive).
- `C102_negative_refuted`: Finding: negative means are not rounded to the nearest: a uniform volume of -2 becomes -1.
- `C102_float_refuted`: Finding: with floating point pixels one half is added without being truncated, and the fractional parts of the pixels are lost: a uniform volume of 3/4 becomes one of 1/2, a uniform volume of an integer c one of c + 1/2.
- `C103_no_bond_refuted`: A bond file without bonds, empty or white: uninitialised indices are used.
- `C103_interval_refuted`: An interval longer than the series reads after the last frame, once the bond files are loaded.
- `C103_lost_refuted`: The files called lost neighbours of lostngb are the neighbours gained: particle 0 loses particle 2 and its value is 0; dhlngb writes 1.
- `C104_self_refuted`
- `C105_mean_refuted`
- `C106_endless_refuted`: ... and never ends otherwise: as soon as a bin after the highest is null (no bin is negative). This is the case of multiple centres at small distance, that the loop is there to get rid of, when they are more numerous than the first neighbours.
- `C106_after_total_refuted`: But after totalRdf, that writes the same file, with fewer than 200 bins, the program never ends (the values are not negative).
- `C106_bonds_default_refuted`: Without a length, the program looks for the first minimum of g(r) but does not use it: either it never ends or there is no bond at all.
- `C107_range_refuted`: The range should be in diameters: two particles of radius 2 in contact, at distance 4, are one diameter apart. With a range of 3 diameters in 6 bins they are reported at 2 (the bin after them at 2.5) as the radius is not used; a range of 1 diameter and a half misses them.
- `C107_null_centre_refuted`: Coarse graining tests the neighbours only: a particle without order of its own gets one, and is counted.
- `C108_double_refuted`
- `C108_double_bin_refuted`: It is a matter of the last bit: the accepted pair is sent to bin 100 of 100; with a range of 6 diameters in 12 bins the same pair is counted, in the bin that starts at its rounded distance (10, exact place below), and with 3 diameters it is not selected.
- `C109_drift_refuted`
- `C109_msd_refuted`: Half of the mean square displacement lost.
- `C109_isf_refuted`: getISF adds up the numbers of intervals in the same way: with some of them lost, particles that never moved get a function of 2 instead of 1.
- `C111_shared_refuted`
- `C111_shared_throws_refuted`: ... and the program may also die, with an argument missing or one too many.
- `C112_last_columns_refuted`: ... and only then: otherwise the last (cols mod n) columns keep the unblurred voxels, whatever the schedule.
- `C112_too_many_threads_refuted`: More threads than columns: nothing is blurred along Z.
- `C114_float_refuted`: Images of floats with the first octave (the default): the user's image is replaced by its blur, and octave 1 and the next ones start from that.
- `C114_twice_refuted`: Asking twice with the same image of floats gives two different answers.
- `C114_planes_refuted`
- `C115_first_octave_refuted`: The first octave: interpolation leaves the last column and row to zero, whatever the background.
- `C116_single_octave_refuted`: Refuted: with a single octave (small volumes) every call succeeds and deconvolution is never done: nothing tells the user that it was ignored, nor that no kernel was given.
- `C117_past_end_refuted`: Refuted: a blob found on the point just after the cluster reads past its end.
- `C117_last_refuted`: except when the blob is at the last member: two clusters, one with one more member after the blob, give centres half a step apart in depth for the same blob.
- `C118_first_row_refuted`: "The files of exportDynamics have the values below a line of names" fails: the line of names is not ended, the values of the first step follow on it; a reader that skips the first line, such as loadTau, loses them.
- `C118_other_file_refuted`: So the relaxation time read by traj2vtk or cage2vtk in a file of the program dynamics is one step too short; and if it should be zero, it wraps to the greatest integer.
- `C119_never_ends_refuted`: The index that getCages itself gives does not cover the trajectories it splits (C50: their last step is in no cage). As soon as the first trajectory is split, the program never ends, whatever the averaging time: when it looks for the cage of the last step it is sent back to the first cage.
- `C120_long_cage_refuted`
- `C119_short_time_refuted`: An averaging time below two steps: every value is a division by zero.
- `C120_reload_refuted`: The cages of a run cannot be read back by the next one: a file of cages with a split trajectory before one that goes on, and the program writes out of the array.
- `C121_last_file_refuted`: Interrupted while the last one is: it stays empty for ever.
- `C121_velocity_hole_refuted`: Velocities are written by several threads: interrupted after both ends, those in the middle are never written, and each later run takes the series as complete.
- `C121_scattering_refuted`: Interrupted in the scattering function: the next run reads an interval from what there is of it.
- `C121_other_interval_refuted`: Asked again with another interval, or without, the program keeps the velocities, the lost neighbours and the averages of the first one.
- `C122_cage_fields_refuted`: The files of cage2vtk are not: position p is given the values of position 2p, and the second half of the positions get 0.
- `C122_phi_refuted`
- `C122_missing_file_refuted`: A file that is missing is replaced without a word by the values of the previous time, position by position (here one value per particle; no averaging).
- `C122_whole_cage_refuted`: With the number of frames as interval (cage2vtk.cpp:319, 331) the values are not the means over whole cages: the same cage has two values.
- `C123_lost_refuted`: The neighbours counted are those gained: in the example of C103, particle 0 loses particle 2 and nothing is counted for it.
- `C124_slab_refuted`: A slab thinner than twice the margin: the first run keeps the middle of it, the later runs find nobody inside and keep everybody, on the sides too.
- `C124_wall_refuted`
- `C125_again_refuted`
- `C125_range_refuted`: Two particles at one diameter and a half, with a range of two diameters: no cluster; the file of their trajectories says so.
- `C126_negative_refuted`: A start of -1 is never refused: the library is called with the start 2^64-1, whatever the movie, and only its own exception can end the run.
- `C126_late_refuted`: An interval that does not begin before the averaging is accepted, and every row of its file is a division of zero by zero.
- `C126_no_average_refuted`: Without averaging, ISF reads out of its array for every interval that it accepts.
- `C128_surf_refuted`: The file of the surface has no line of names: loadBoo drops the first particle, gives to each the invariants of the next one, and leaves the last as it was.
- `C128_syntax_refuted`: The documented use, "dat2vtk filename", always stops on an exception.
- `C128_no_time_refuted`: A name without time: nothing is ever written.
- `C128_column_refuted`
- `C129_rounding_refuted`: Digits are lost by the printing: run again on its own result, cutter removes particles.
- `C129_crash_refuted`: In place, an interruption inside a file loses particles for good: the next run takes the missing ones to be at the origin, and keeps one of them.
- `C129_options_refuted`: With the file and no separation, the separation is what the memory holds; the message is shown only when both are missing.
- `C130_reversed_refuted`: In the other order the call is undefined as soon as the finder of low resolution has a centre in its first layer.
- `C131_folders_refuted`: When the token is in the name of the folder (one folder per time step), the file written cannot be loaded.
- `C131_arguments_refuted`: Four arguments pass the check, but a fifth is read.
- `C131_no_step_refuted`: No time step: the first frame is read all the same.
- `C131_displ_refuted`
- `C132_single_refuted`
- `C132_default_refuted`: The default mode of the message cannot be had: without mode nothing is done.
- `C132_no_frame_refuted`
- `C134_short_refuted`: An interval of twice the movie or more: sums in place of means.
- `C134_space_refuted`: A folder with a space in its name: the shell is asked for other folders, and no file can be written, unless the folder was made by hand.
- `C134_origin_refuted`
- `C135_colatitude_refuted`
- `C135_reflect_refuted`: So it is not the half-turn around the normal that its comment announces: a bond at 45 degrees of the y axis, reflected by the plane normal to y, stays where it is.
- `C136_walls_refuted`: When all cells are near the walls the program does not end.
- `C136_read_refuted`: Without any cell the loop uses a variable that was never given a value.
- `C136_outside_refuted`
- `C136_bonds_refuted`: The walls of the first particle are written as bonds.
- `C136_folder_refuted`: The "_t" may be that of the folder: the averages go to another folder.
- `C137_far_refuted`
- `C137_flat_refuted`: Five equal pixels: the position is not a number, it is given, and its intensity can not be asked.
- `C137_intensity_refuted`
- `C138_unread_refuted`: A value that cannot be read back, like "nan", and all those after it are null.
- `C138_long_refuted`: A file with more values than particles writes out of bounds.
- `C138_cage_refuted`: cage2vtk on two particles with the values 1 2 3 4 and 11 12 13 14: the second particle has only null values.
- `C139_series_padded_refuted`: The file given is one of the series only if its digits have no leading zero: a numbering with a fixed number of digits is not found.
- `C139_coarse_refuted`: "The coarse grained order is the mean of the order of the particle and of its neighbours" is false of some particles kept for it: the second margin exceeds the first by half of the bond length only. Here all bonds have the same harmonics, 60, so that all three bonded particles have order 60, and the mean written is 40.
- `C140_isolated_refuted`
- `C141_no_centre_refuted`: What does not hold: when no particle is that far from the faces, the program succeeds, and each value written is zero over a norm for no particle (zero over zero).
- `C141_images_refuted`: "The periodic pair correlation function counts the pairs that are close through a face" is false: the first two particles, at opposite corners, are at distance square root of 12 in the crystal; only the three particles in the middle are centres. Values: 100 pairs/centre/bin squared.
- `C141_narrow_refuted`: "Centres are further than the range from the faces" is false along an axis where the set is narrower than twice the range: that axis is not cut.
- `C142_line_far_refuted`: Finding: on a line the scale is not kept near the layer, it may be any number of layers above.
- `C142_line_nan_refuted`: Finding: when the slope of the responses changes steadily, the scale is infinite if it decreases, and not a number otherwise; a uniform response is such a case.
- `C142_volume_nan_refuted`: Finding: when the differences of Gaussians of the three scales are aligned, the scale in a volume is not a number; this is so in a uniform image.
- `C143_rest_refuted`: When what follows the series is shorter than an image, the same files are written, and then bytes are read after the end of the file.
- `C143_serie_refuted`: So with the images of the nt steps asked for and no others, whatever the memory contained, the run does not both succeed and write the files of all steps.
- `C143_flat_refuted`: A series without slices and no threshold: the threshold is a mean that is never computed.
- `C143_first_run_refuted`: C143. Without its directory, the first run always fails: a command that succeeds is taken for a failure.
- `C144_bonds_refuted`: In that case all bond files are needed, not only the two that are looked at.
- `C144_unsorted_refuted`: "A particle of the .outside file has no order" is false when that file is not sorted: here it lists the third and then the second particle, and the second has an order.
- `C144_again_refuted`: "Run again the program writes the same files" is false when cgVoro, which writes .outside and .outside2 but no .bonds of that name, ran before: the first run writes .bonds, so that the second takes the lists of cgVoro.
- `C144_window_refuted`: "The order written is that of a particle all the neighbours of which are in the picture" is false: the first margin is half of the bond length. The third particle gets an order and would have another neighbour in a larger picture.
- `C145_enclosed_refuted`: "A box selects the trajectories enclosed in it" is false: three of these trajectories stay in the box, and none is selected, since none of them exists at all times.
- `C145_slice_refuted`: "The slice of an index at a time selects the positions of that time that are in the box, in increasing order" is false, on both counts: the first trajectory is in the box at time 1 and is left out because of its position at time 3; in a larger box the positions found are 1 and then 0.
- `C145_stale_refuted`: "After the drift is removed the selections are about the new positions" is false of the drift read in a file, which leaves the index of the old positions in place: here the last frame moves by 100 and the trajectories that end there are still selected in the box.
- `C146_short_refuted`: "A shorter function is read as far as it goes": false, the missing values are null and the program never ends.
- `C146_nan_refuted`: "Bonds are found whatever the time steps": false; a time step without a particle far from the faces makes the sum undefined (0/0), the first bin is then both the largest and the smallest, and all files of bonds are empty.
- `C146_empty_refuted`: "A trajectory file without any time step has no bonds": false, the last of no time steps is looked at.
- `C146_again_refuted`: "A second run finds the same bonds" is false: with fewer digits in the text the bin 198 is as low as the next one.
- `C147_null_refuted`: Without periodic conditions a particle with a null order is left out (C107); here it is counted among the pairs, though it adds nothing to the sum: with the same particles and the same bins, far from the borders, the two programs disagree.
- `C147_outside_refuted`: Only one period is taken off: particles of a trajectory that was not put back in the cell can be missed although images of them are nearly in contact.
- `C148_units_refuted`: The same instants do not give the same time stamps in the two formats: the new one is not converted to ms. A comment between the channels, or more time stamps than announced, is undefined behaviour.
- `C148_half_refuted`: A time stamp without a half takes silently the half of the one before.
- `C148_comment_refuted`
- `C148_print_refuted`
- `C148_ratio_refuted`: The size along X is not checked: with a size along Z only, the ratio is a division by 0.
- `C149_empty_refuted`: Without any series the question is asked for ever, whatever is typed.
- `C149_end_refuted`: Answers that are all too large, then the end of the input: the question is asked for ever.
- `C149_letter_refuted`: An answer that starts with a letter is taken for 0 without a word.
- `C150_odd_refuted`
- `C151_negative_refuted`
- `C152_end_refuted`: When less than an image follows, the end of the file included, the same files are written, and then bytes are read after the end of the file.
- `C152_ratio_refuted`: The ratio of the microscope is not given to the search of radii: the first particle, bright to two slices, 4 pixels, from its centre, is given a radius of 2.
- `C153_stale_refuted`: Refuted: "after a run, the file of a time step holds the centres of its image". If none is found, a file from an earlier run is left as it was.
- `C153_unwritable_refuted`: Refuted: "a run that succeeds has written its results". Files that cannot be created are skipped without a word.
- `C153_small_refuted`: Refuted: "a kernel of the wrong size is refused". An image with a size below 10 has no octave of its own size: any kernel is accepted, and has no effect.
- `C154_before_refuted`: With -1 the check is passed, since the largest size_t plus one is 0, and the program reads out of bounds.
- `C154_longer_refuted`: lostngb with an interval longer than the series: the files of all time steps are filled with -1, then the program reads out of bounds.
- `C154_negative_refuted`: With a negative interval it never succeeds either.
- `C154_dropped_refuted`: Both programs count the positions of each time step on the trajectories: a position that is not below this number, because a trajectory was dropped or filtered out, is written out of bounds.
- `C155_span_refuted`: Hence an interruption between the two loses the spans for good, and one inside the file of cages makes every later run use the torn file, or undefined.
- `C155_torn_refuted`
- `C155_other_interval_refuted`: With another interval, the velocities and the jumps of the previous one are kept.
- `C156_dark_refuted`: When no pixel of the interior reaches the threshold (a dark frame), no particle is found; but the automatic threshold takes the first of no centre: undefined behaviour.
- `C157_coefficients_refuted`: The coefficients themselves do change.
- `C157_coincident_refuted`
- `C159_wl_refuted`: getWl, the shorter sum, depends on the direction of a bond: 12 times the symbol along z, 3/4 of it along x.
- `C160_norm_refuted`: It is not normalised: for k trajectories in one plane perpendicular to the wave vector it is 1 at lag 0 and k*k at all others.
- `C161_gaussian_refuted`: Finding: nothing is subtracted. The moments of a Gaussian in three dimensions (mean fourth power 5/3 of the squared mean square) give 5/9, not 0.
- `C162_selection_refuted`
- `C163_cut_numbering_refuted`
- `C165_ties_refuted`
- `C166_fast_refuted`: Half the separation is the limit: these particles move by one less than 50 and are 97 apart, and the second one is linked to the place where the first one went.
- `C166_swap_refuted`: A particle that disappears is taken for the one that appears near.
- `C167_near_refuted`: A position left out near one that was kept: the trajectories change.
