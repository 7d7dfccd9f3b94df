# Design

Formal model of the fisheye direct sparse odometry code in `/repo`, in Coq 8.16.1,
under `rocq/theories`. Properties: `properties.jsonl`. Status per property: `MANIFEST.json`.

## Method

* One model file per area (`*Model.v`): small computable Gallina functions; every definition
  carries a comment with the file and lines it models and the simplifications made.
* One specification per area, written without the helpers of the model (`*Spec.v`).
* Proofs in `*Proofs.v`; the property theorems in `Prop_*.v`, which contain only theorem
  statements closed by `exact`, their `Print Assumptions`, and examples showing that the
  hypotheses are met.
* Outcomes: undefined behaviour, CHECK failure, exceptions and non-termination are separate
  outcomes of the model, never default values.
* Properties that the code violates are proved as `..._refuted` with a witness; the part that
  does hold is proved beside it under its exact condition.

## Numbers

`int` is modelled by `Z`; wrap-around is written explicitly where a property is about it
(`clp2`). `double` is modelled by the reals `R` or by rationals `Q` (exact arithmetic, no
rounding) for geometry; by an abstract type with a codec for serialisation; comparisons that
may see NaN or infinities are modelled with explicit such values where they matter.

## Plan per property

* **C01 Keyframe window stays bounded** (area DsoSystem). `addFrame` as a total step function on a record state (frame numbers, keyframe map as a number-sorted list, pose table, point counts, event log), with CHECK failure, exception and undefined behaviour as separate outcomes. Tracking, tracing and optimisation results are arbitrary inputs of the step. Invariant by induction over the list of calls.
* **C02 Every keyframe is handed to observers exactly once when it leaves** (area DsoSystem). Event log of the same machine; invariant: reported ++ held = created, strictly increasing.
* **C03 Keyframe cadence** (area DsoSystem). Event log: every accepted tracked frame is promoted iff the arithmetic rule holds; counting corollary for consecutive numbers.
* **C04 No tracked frame is lost** (area DsoSystem). Invariant: multiset of accepted frames after initialisation = keyframes + tracked lists of held and reported keyframes; refutation witness for the disabled flag.
* **C05 Frame numbers gate** (area DsoSystem). Invariant on frame numbers and pose-table size; converse: a bad number gives the abort outcome.
* **C06 Pose table agrees with the keyframe graph** (area DsoSystem). Poses are elements of an arbitrary group given by a record of operations and laws (instance: rigid motions over the reals); bundle adjustment is an arbitrary new pose assignment. Invariant.
* **C07 Motion prediction uses known poses and a well-defined time ratio** (area DsoSystem). Pose table holds options (None = never assigned); theorem about the entries read by the predictor and about the gaps.
* **C08 Constant-velocity prediction is exact for uniform motion** (area Motion). Rigid motions as unit quaternions and translation vectors over R with the closed formulas of the Sophus exponential and logarithm; exp/log inverse laws proved.
* **C09 Optimised-point budget** (area DsoSystem). Counting invariant of the machine, using the size bound of choose.
* **C10 Activation moves exactly the chosen points** (area Activation). Lists of points per keyframe, swap-with-last-and-pop in any order that is non-increasing in index; permutation theorem.
* **C11 Distance map is the exact city-block distance** (area DistanceMap). Executable breadth-first search over a grid with queue, invariant-based proof of exact city-block distance and of termination (fuel never exhausted).
* **C12 Sparse point choice is farthest-first** (area DistanceMap). choose relative to any result of nth_element that satisfies the standard's postcondition.
* **C13 Distance map memory safety** (area DistanceMap). Explicit out-of-bounds outcome; safety theorem and refutation witnesses.
* **C14 Power-of-two rounding** (area DistanceMap). Bit-level 32-bit model; theorem over all x.
* **C15 Pixel selection returns the requested number of genuine pixels** (area PixelSelector). Executable model of selectLayer/selectInternal over a gradient function; counting and membership theorems, witness of the filler.
* **C16 Pixel selection always terminates** (area PixelSelector). Loops with fuel, divergence = no fuel suffices; termination and non-termination theorems.
* **C17 Streaming PLY file is always well-formed** (area PlyHolder). Byte strings; independent parser of the PLY format as specification.
* **C18 One-shot PLY export drops exactly the non-finite points** (area PlyHolder). Same parser applied to printInPly.
* **C19 Exported trajectory is strictly increasing and duplicate free** (area Trajectory). TrajectoryWriter as event consumer composed with the DsoSystem event log.
* **C20 Exported trajectory is complete at shutdown** (area Trajectory). The conversion of infinity to int is an explicit parameter of the flush; completeness when large, refutation otherwise, and a theorem that it is always reached.
* **C21 Exported cloud contains every marginalised point exactly once** (area Cloud). CloudWriter as event consumer composed with the event log and the PLY model.
* **C22 Snapshot round trip** (area Snapshot). Character-level files: tokens separated by blanks, decimal printing of ints proved invertible, printing of doubles a parameter with its round-trip law; directory as a finite map.
* **C23 Snapshot directory reuse** (area Snapshot). Directory contents before the save are arbitrary results of earlier saves.
* **C24 Loading does not depend on directory enumeration order** (area Snapshot). Fold over an arbitrary permutation of the directory listing.
* **C25 What a snapshot forgets** (area Snapshot). Indeterminate field = explicit constructor.
* **C26 Frame history of a restored system** (area Restore). Model of the restoring constructor; list equality theorem and witnesses.
* **C27 Frame-tracker observers receive every tracked frame** (area Observers). Registration histories as operation lists.
* **C28 Triangulation incidence consistency** (area Del). Heap model: numbered vertices, edges and triangles with the fields and pointer sets of the classes, null dereference and CHECK as outcomes; the three surgeries as executable functions; invariant over inductive histories.
* **C29 Triangulation vertex indexing** (area Del). Constructor loop over the insertion order with arbitrary geometric predicates.
* **C30 Triangulation size** (area Del). Counting invariant on the same heap.
* **C31 Delaunay predicate is the empty-circle test** (area Geometry). Real arithmetic, circumcentre as specification, nsatz/nra.
* **C32 Point-in-triangle predicate** (area Geometry). Barycentric specification.
* **C33 Segment intersection predicate** (area Geometry). Segment sharing a point as specification; rational witnesses.
* **C34 Curve interpolation** (area Geometry). Piecewise-linear specification over R, Lipschitz bound.
* **C35 Affine brightness algebra** (area Light). Reals with exp; refutations by explicit parameters.
* **C36 Camera normalisation and ray lifting** (area Camera). Reals; polynomial evaluation as sum.
* **C37 Camera pyramid matches image pyramid** (area Camera). Reals and integer halving lemmas.
* **C38 Residual patterns stay inside the image** (area Camera). Integer model of the border test and pattern accesses.
* **C39 Image pyramid** (area ImagePyramid). Images as functions with sizes; block specification.
* **C40 Depth pyramid** (area ImagePyramid). Integral images as prefix sums over Q; block sum specification.
* **C41 Tracing a point changes its depth only on success** (area Tracing). Status decision function over oracle values with explicit state record; histories as lists.
* **C42 Depth uncertainty never grows** (area Tracing). Same machine; monotonicity.
* **C43 Sub-pixel refinement is safe** (area Tracing). Damped Gauss-Newton loop over an arbitrary energy and step oracle with not-a-number values.
* **C44 Epipolar search samples** (area Tracing). Model of the sampling loop over an arbitrary curve oracle.
* **C45 Spherical sector queries** (area Sector). Key-ordered list of sectors over R; the 3x3 solver is an oracle exact for independent columns; degenerate sectors are excluded from the cone statements only.
* **C46 Terrain depth interpolation** (area Sector). Real linear algebra; oracles: last column of the QR factor, 3x3 interpolation solver, enclosing triangle and boundary test of the planar terrain. Constructors beyond the norms of the reference rays are not modelled.
* **C47 Ground-truth alignment** (area Motion). Rigid motions over R.
* **C48 Robust motion estimation loop** (area Ransac). Loop over arbitrary random draws and solver outputs; pigeonhole.
* **C49 Still-match filtering is a stable partition** (area Stereo). In-place compaction model vs filter.
* **C50 Spherical parameterisation** (area Sphere). Real linear algebra.
* **C51 Multi-level debug image** (area Util). Index arithmetic with explicit out-of-bounds outcome.
* **C52 Depth colouring** (area Util). Sorting specification via Permutation/Sorted.
* **C53 File naming** (area Util). String model and path specification (components).
* **C54 Command-line flags reach the settings** (area Flags). Records of flags and settings.
* **C55 Initialisation timing** (area DsoSystem). Initialiser machine run over lists of frames.
* **C56 Failed initialisation** (area DsoSystem). Exception outcome inside the step; witness history.
* **C57 Bundle adjustment gauge and outlier marking** (area Bundle). Keyframes with address, pose, light and points over R; solver, visibility test and residual values are oracles; solver contract `solved` in BundleSpec.v. Loss functions, weights, logging and drawing are not modelled; residuals that are not numbers are excluded.
* **C58 Dataset reader frame count** (area Reader). Token/character level model of the reading loop with eof semantics.
* **C59 Pyramid level configuration** (area Tracker). Level accesses with explicit out-of-bounds outcome; the residuals of each level; the solver and the test whether a point is projected into the image are arbitrary functions.
* **C60 Two-view triangulation** (area Geometry). Least squares over R, normal equations.
* **C61 Stereographic projection** (area Sphere). Real algebra.
* **C62 Clipping an arc to the field of view** (area Sphere). Real algebra on cosines.
* **C63 Reduced distance map respects its size limits** (area DistanceMap). Arithmetic of the reduction factor; witness for the violated side.
* **C64 Selected pixels are distinct** (area PixelSelector). NoDup per layer; witness for repetition across layers.
* **C65 A well-configured run never leaves defined behaviour** (area DsoSystem). The run of the machine ends in Ok for every call list meeting the contracts.
* **C66 A restored system continues the keyframe schedule** (area Restore). The history rule of C03 continues from the snapshot.
* **C67 – C71** (areas Cloud, Light, Stereo, Reader, Geometry). Further properties found while modelling: see `properties.jsonl`; same method as their areas.
* **C72, C73** (area Camera). Projection after lifting and the check at construction; the fit and the drawn radii are arbitrary.
* **C74** (area Tracing). Acceptance tests of traceOn over the measured energies.
* **C75 Bundle adjustment problem** (area Bundle). The blocks, constants, bounds and residuals handed to the solver.
* **C76, C77** (area Tracker). Gradient weights with out-of-image reads as undefined behaviour; bounds and constancy of the light through all levels under the solver contract `level_solver` of TrackerSpec.v. Huber loss, display and observers are not modelled.
* **C78 General position** (area Del). Planar specification over R (orientation, barycentric coordinates, covering and non-overlap of the triangles); random draws arbitrary; search and flip loops with fuel, the flip loop proved to end; the exact rational predicates meet the contract `exact_sides`.
* **C79-C81 Ground-truth writers** (area Gt). TrajectoryWriterGT and CloudWriterGT as observers of the event log of area Dso with poses over R; the lists of written poses stand for the text of the trajectory files, the cloud file is modelled byte by byte (area Ply); `dbl_of` gives the doubles stored for a real vector.
* **C82-C86 Base keyframe projection and initializer keyframes** (area Base). projectOntoBaseKf with its optional outputs, the three constructions of the tracker reference (on top of area Pyramid), the point lists of KeyFrame and DelaunayDsoInitializer::createKeyFrames. Camera map/unmap, pixel selections, terrains and the stereo result are parameters; an uninitialised depth is a missing value whose read is UB; positions are rationals, depths and poses reals; a deviation is a real or infinity (1/0 excluded by hypothesis); exp and log are exact and activating a depth that is not positive is outside the model (UB stands for it). tracedPyrLevel, light parameters and the patterns of the points are left out.
* **C87, C88 Delaunay property** (area Del, files DelDiscSpec to DelFinal). DelDiscSpec.v states circles by their centres, coverage of the hull and the contract `exact_circles`; the rational predicate isABDelaunay is proved to meet it. The proof carries "the triangles away from the new vertex are empty of the old vertices, those at the new vertex are the cone over the conflict region" through the flips and obtains the global property at the end of the flip loop from walks along segments towards a vertex.
* **C89 Search for the triangle** (files DelReach to DelLoop). From every edge the straight way to the point is one of the ways the search can take, so some draws end it; the mesh may contain a circle of triangles around the point because triangles with bounding vertices need not be Delaunay, and an explicit point list shows the search going round it for ever. Probabilities are not modelled.
* **C90, C91 Calibration files and undistort** (area Cal). The file is a tag and a list of words (area Reader); a failed extraction leaves later members unwritten and their use is UB. Conversion of a double to int truncates and is UB out of range. The inverse of the camera matrix is a parameter.
* **C92 Jacobian of the camera map** (area Jet). ceres::Jet<double, 3> over R: value and derivatives, `None` once a quotient by zero was formed. The template map() is modelled a second time on dual numbers and proved to carry the derivatives of the model of area Camera.
* **C93 Light along a run** (area LightRun). lightKfToLast and the lights stored with keyframes, on top of the tracker model of C77; per frame the tracker's base image, points, depths, prediction and the fate of the frame are inputs. The solver contracts are those of C77.
* **C94 Kept pointers** (area Alive). No new model: the observer's two pointers are read off the event log of the system model (area Dso). A frame is alive while some keyframe of the window owns it, as keyframe or as tracked frame.
* **C95 Ground-truth sampling** (area GtSample). readPointsInFrameGT and the --gen_gt_only branch of samples/mfov/genply/main.cpp over real arithmetic, with the division by a zero step, the conversion of an infinite or NaN step, the overflow of the loop counters and the indices outside the vectors as undefined behaviour. Reading depth maps and images is an oracle; the writing of the PLY file is C18.
- **C96** Planar terrain end to end (GroundModel.v): the constructor of Terrain over `triangulate`, operator() and hasInterpolatedDepth over `enclosingTriangle` and the interpolation of C46; query points are rational, the geometric tests exact, the 3x3 solver a parameter with the contract `affine_solver`, the normalised rays of unmap a parameter (norm 1). Points within the tolerance of an edge (`on_edge`) are excluded where stated: there the neighbouring triangle may be used. Drawing is not modelled here.
- **C97** Images of the genply sample (MainModel.v): the program as a writer over the run of DsoModel with the state of the four drawers. An image is what it shows (base frame, last frame, level residuals), not its pixels; file system and data set are inputs (directory exists, reader and ground-truth cloud succeed, image n). Command line parsing, the saved settings and the contents of args.txt are not modelled. Statement closed form in MainSpec.v.
- **C98** Photometric residuals (PhotoModel.v): DirectResidual, PointTrackingResidual, isOOB, weights and Huber loss over the camera of CamModel, the light of LightModel and the problem of BundleModel (whose oracles `isOOB` and `value` they instantiate). Interpolated images and gradient norms are arbitrary functions; automatic differentiation is not modelled here (C92 has the camera's derivative).
- **C99** Drawing a planar triangulation (DrawModel.v): the edges drawn by draw and drawCurved, and the pixels between which draw draws them, over the meshes of DelModel.v with rational coordinates. Conversions outside the range of int, and the infinite scale of a flat box, are UB. cv::line itself, colours and thickness are not modelled; of drawCurved only the list of the edges drawn is.
- **C100**, **C101** Drawing a spherical triangulation (ArcModel.v): fillUncovered and isInConvexDummy with the solver as an oracle (contract: the normal equations hold for all triples of stored rays, and a matrix with three equal columns gets at most one non-zero coefficient, as FullPivHouseholderQR sets the coefficients beyond the rank to zero); draw as the list of segments, rays by position in _rays instead of by pointer, camera map and toCvPoint an arbitrary function; drawCurvedInternal in real arithmetic (acos of a product rounded above 1, which gives NaN, is not modelled). Logging and cv::line are not modelled.
- **C102**, **C103** The motion of an essential matrix and the reprojection error (EssModel.v: StereoGeometryEstimator.cpp 62-168, 251-308, geometry.cpp 17-28), in real arithmetic. Oracles: the singular value decomposition (contract is_svd: the factors are orthogonal, singular values in descending order and not negative, the product is the matrix; nothing about signs), the conversion of a rotation matrix to a quaternion (contract converts), the least-squares solver of triangulate (contract basic_solver: the normal equations, and one unknown 0 for dependent columns, as FullPivHouseholderQR does), the projection of the camera (any function). The Sophus constructor accepts exactly the orthogonal matrices with positive determinant here and stops otherwise; its tolerance 1e-10 is left out. The RANSAC loops around these functions are not part of the model.
- **C104** Motion and depths from two views (PairModel.v): the constructor, findCoarseMotion, findPreciseMotion and depths of StereoGeometryEstimator put together from StereoModel (search), StopModel (stopping rule) and EssModel (geometry). Further oracles: the five-point solver est (any function of the five pairs of rays; the theorems assume for the scene at hand that the essential matrix is among its results for exact samples and that no wrong result gathers as many inliers), the random draws (any), ceres::Solve (contract: a motion with zero residuals is left alone). Correspondences are pixels with unmap and map any functions; shows says what is assumed of them for the pixels at hand.
- **C105** Drawing of a tracing (`EpiModel.v`): `drawTracing` and its call in `traceOn`; the list of strokes, `normalize()` an oracle.
- **C106** Drawings of depths (`PlotModel.v`): `insertDepths`, `KeyFrame::drawDepthedFrame`, `Terrain::drawDensePlainDepths`, `InterpolationDrawer`; lists of figures, rasterisation not modelled.
- **C107** Collecting tracing errors (`StatModel.v`): samples/mfov/stat/stat_epipolar/main.cpp; a task's step is a frame or an append, any division into ranges and any interleaving; reader, tracing and Gaussian draws are oracles.
- **C108** Showing selected points (`SelModel.v`): samples/selectpix/main.cpp and `grad` (exact, doubled; cv::magnitude an oracle `mag_ok`); imread, opendir and the windows are oracles or left out.
- **C109** The counts of a traced frame (`TallyModel.v`): DsoSystem.cpp 480-505 over `traceOn` of `TraceModel.v`; which points leave between frames is free.
- **C110** The text of doubles (`DoubleModel.v`): the format `%.{p}g` of streams and reading of numerals over binary64 values (`SpecFloat`), both correctly rounded; serialization.cpp 7-23, util.cpp 51, PlyHolder.cpp 46. Flocq is used in proofs only. NaN has no sign or payload.
- **C111** A sector drawn densely (`DenseModel.v`): SphericalTerrain.cpp 49-64 over the queries of `SectorModel.v`, which erase sectors; dots as pixel and depth.

## Trusted base

* Coq's kernel (8.16.1) and the `vm_compute` machine used in witnesses.
* The axioms listed by `Print Assumptions` under each theorem: none for the integer, list and
  string parts; for the real-number parts the axioms of Coq's `Reals`
  (`ClassicalDedekindReals.sig_forall_dec`, `ClassicalDedekindReals.sig_not_dec`,
  `FunctionalExtensionality.functional_extensionality_dep`) and `Classical_Prop.classic` where
  listed.
* Contracts on code outside `/repo`, which appear as hypotheses of the theorems that use them:
  number formatting and parsing (`fmt_ok`, `codec_ok`; both are proved in C110 of a concrete correctly rounding
  format and reader, so that there the trust is that the C++ library rounds correctly), conversion of out-of-range doubles to
  `int` (`conv`, arbitrary), `std::nth_element`, `cv::minMaxLoc`, `std::shuffle` (any permutation),
  group laws of poses (`pose_laws`), the QR solves (`least_squares_solver`), the RANSAC draws, minimal solver, decomposition and refinement
  (arbitrary results), for tracing the projection, triangulation, interpolation and predicted deviation of each
  call (`env`, arbitrary; `deviation` and `nonneg` where signs matter), the file system as a finite map, Sophus exponential and logarithm as exact
  formulas.
* The reading of `/repo` recorded in the comments of the model files: the code is not run.

## Not modelled

Floating-point rounding (except where stated), OpenCV, Eigen, Ceres, Sophus internals (their
results are arbitrary inputs or exact-arithmetic functions), the pixels drawn by the drawing code
(C97 covers which images are drawn when), threading inside
Ceres, timing.
