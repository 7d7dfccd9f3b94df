{"id": "C01", "title": "Keyframe window stays bounded", "statement": "After every successful DsoSystem::addFrame call the number of keyframes held by the system is at most max(2, maxKeyFrames) when maxKeyFrames >= 1, and the keyframes held are always the most recently created ones (no younger keyframe is ever retired while an older one stays).", "quantifier": "all settings with maxKeyFrames >= 1, all finite sequences of addFrame calls, all tracking / optimisation outcomes", "why_tests_cant": "The bound is over unbounded frame sequences and every setting; a test sees one sequence.", "anchors": ["source/system/DsoSystem.cpp: addFrame, marginalizeFrames", "include/system/DsoSystem.h: lastKeyFrame, lboKeyFrame, baseKeyFrame"]}
{"id": "C02", "title": "Every keyframe is handed to observers exactly once when it leaves", "statement": "Over the life of a DsoSystem, the concatenation of all keyFramesMarginalized notifications followed by the destructed notification lists every keyframe ever created exactly once, in strictly increasing frame-number order, and each with its final tracked-frame list.", "quantifier": "all histories of addFrame calls followed by destruction, all settings", "why_tests_cant": "A keyframe reported twice or never loses or duplicates map points; only quantifying over all histories excludes it.", "anchors": ["source/system/DsoSystem.cpp: marginalizeFrames, ~DsoSystem, addFrame", "include/output/DsoObserver.h"]}
{"id": "C03", "title": "Keyframe cadence", "statement": "When keyframe selection is enabled a tracked frame is promoted to a keyframe exactly when its frame number exceeds the newest keyframe's number by a positive multiple of shiftBetweenKeyFrames; for consecutively numbered frames this means exactly one promotion every shiftBetweenKeyFrames frames.", "quantifier": "all shiftBetweenKeyFrames >= 1, all frame numberings, all histories", "why_tests_cant": "Needs every gap pattern in the numbering, including skipped numbers, over unbounded histories.", "anchors": ["source/system/DsoSystem.cpp: doNeedKf, addFrame"]}
{"id": "C04", "title": "No tracked frame is lost", "statement": "After initialisation, every frame passed to addFrame is either a keyframe or listed among the tracked frames of exactly one keyframe (still held, or already handed to observers), as long as keyframe selection is enabled. With keyframe selection disabled this fails exactly for the frames whose number satisfies the promotion rule: those frames are in no keyframe's list and reach no output.", "quantifier": "all histories, both values of the continue-choosing-keyframes setting, both tracking-base modes", "why_tests_cant": "A dropped frame only shows on particular numbers after the last keyframe and with a non default flag.", "anchors": ["source/system/DsoSystem.cpp: addFrame 507-568", "include/system/KeyFrame.h: trackedFrames"]}
{"id": "C05", "title": "Frame numbers gate", "statement": "addFrame accepts a frame only if its number is positive and strictly greater than every number accepted before; otherwise the process aborts through a CHECK. Hence the accepted numbers form a strictly increasing sequence, and the pose table always has room for the newest number.", "quantifier": "all sequences of frame numbers (including negative, zero, repeated and decreasing)", "why_tests_cant": "Quantifies over all call sequences.", "anchors": ["source/system/DsoSystem.cpp: addFrame 381-390, adjustWorldToFrameSizes"]}
{"id": "C06", "title": "Pose table agrees with the keyframe graph", "statement": "After every addFrame call, for every keyframe held and every frame tracked against it, the world-to-frame pose stored for its number equals the inverse of the keyframe's frame-to-world pose, respectively the frame's base-to-frame motion composed with the inverse of its keyframe's frame-to-world pose, even when bundle adjustment moves keyframes.", "quantifier": "all pose values, all optimisation results, all histories from a fresh system", "why_tests_cant": "The table is updated in three separate places; consistency is a history invariant over continuous poses.", "anchors": ["source/system/DsoSystem.cpp: addFrame 437-445, 470-480, 531-540", "source/system/KeyFrame.cpp: KeyFrame::KeyFrame"]}
{"id": "C07", "title": "Motion prediction uses known poses and a well-defined time ratio", "statement": "In a fresh system the constant-velocity predictor never aborts, and its time ratio is the quotient of two non-zero frame gaps of the same sign (hence positive) for every accepted numbering. The two earlier poses it reads have been assigned by tracking or initialisation for every tracked frame except the first one after initialisation: that first prediction reads a pose that was never estimated (the default identity) exactly when firstFramesSkip >= 1.", "quantifier": "all firstFramesSkip values, all numberings, all histories", "why_tests_cant": "Depends on the interplay of two histories (frame numbers and pose table) at every length.", "anchors": ["source/system/DsoSystem.cpp: getTimeLastByLbo, predictInternal, predictBaseKfToCur, purePredictBaseKfToCur, addFrame"]}
{"id": "C08", "title": "Constant-velocity prediction is exact for uniform motion", "statement": "The pose predicted for a new frame continues the motion of the two frames before it. With equal frame gaps a camera repeating the same rigid motion is predicted exactly by both formulas; with any gaps a pure translation is continued in proportion to the gaps by both, and a constant-rate screw motion turning by less than half a turn over the previous gap is continued exactly by the screw formula (not by the simple one, which only shares its rotation). The prediction does not depend on the frame the motion is measured from. Fewer than three frames stop the program; two frames with the same number give a division by zero.", "quantifier": "all rigid motions, all gap ratios", "why_tests_cant": "Continuous group of motions; tests sample a few numeric values with tolerance.", "anchors": ["source/system/DsoSystem.cpp: predictScrew, predictSimple, timeLastByLbo, predictInternal, predictBaseToCurFromPreKeyFrame"]}
{"id": "C09", "title": "Optimised-point budget", "statement": "The total number of optimised points over all keyframes held never exceeds maxOptimizedPoints, at any time, for every history from a fresh system with a non-negative budget.", "quantifier": "all histories, all point selections and tracing outcomes", "why_tests_cant": "Global counting invariant over unbounded histories.", "anchors": ["source/system/DsoSystem.cpp: activateNewOptimizedPoints, marginalizeFrames"]}
{"id": "C10", "title": "Activation moves exactly the chosen points", "statement": "Activating a set of immature points turns exactly those points into optimised points of their own keyframe, keeps every other immature point and every earlier optimised point, and creates or loses none, whatever the number of keyframes and whatever order the sort leaves among equal indices.", "quantifier": "all keyframe point lists, all chosen index sets, all admissible sort results", "why_tests_cant": "Index-based swap-and-pop deletion is correct only for all interleavings of indices; tests see one ordering.", "anchors": ["source/system/DsoSystem.cpp: activateNewOptimizedPoints 296-359"]}
{"id": "C11", "title": "Distance map is the exact city-block distance", "statement": "After construction every cell of the distance map holds the smallest city-block distance to a seed cell, or the maximal int if there are no seeds, for seeds that fall inside the reduced grid; the construction always terminates.", "quantifier": "all image sizes, all reduction settings, all seed sets inside the grid", "why_tests_cant": "Breadth-first propagation over arbitrary grids; tests compare one 0/1 configuration.", "anchors": ["source/util/DistanceMap.cpp: DistanceMap::DistanceMap"]}
{"id": "C12", "title": "Sparse point choice is farthest-first", "statement": "For a map whose reduction factor divides both image sides, DistanceMap::choose returns distinct valid indices of its input, never more than requested, only of points that fall on the reduced grid after truncation (in-image points, and points less than one reduced cell left of or above the image), exactly as many as requested whenever an in-image point is left out, and no chosen in-image point is closer to the existing points than an in-image point left out, whatever order nth_element leaves. A negative request is undefined behaviour.", "quantifier": "all point lists, all requested counts >= 0, all admissible outcomes of the partial sort", "why_tests_cant": "The partial sort result is unspecified by the standard; the claim must hold for all admissible permutations.", "anchors": ["source/util/DistanceMap.cpp: choose"]}
{"id": "C13", "title": "Distance map memory safety", "statement": "Building and querying the distance map touches only cells of the grid when the reduction factor divides both image sides and points lie in [0,w)x[0,h). When the reduction factor does not divide a side there are in-image points that make the constructor write past the grid, and choose reads past the grid for a point lying exactly on the right or bottom border.", "quantifier": "all image sizes, reduction settings and point positions", "why_tests_cant": "Requires every size / position combination; default test sizes are divisible.", "anchors": ["source/util/DistanceMap.cpp: DistanceMap::DistanceMap, choose"]}
{"id": "C14", "title": "Power-of-two rounding", "statement": "clp2(x) is the least power of two that is >= x for every 1 <= x <= 2^31 in 32-bit arithmetic, is 0 for x = 0, and wraps to 0 above 2^31.", "quantifier": "all 2^32 values", "why_tests_cant": "Exhaustive over 32-bit values.", "anchors": ["source/util/DistanceMap.cpp: clp2"]}
{"id": "C15", "title": "Pixel selection returns the requested number of genuine pixels", "statement": "When its adapted block size is at least 1, PixelSelector::select returns exactly min(number of candidates found, pointsNeeded) points, all inside the image; the candidates are, per layer, one maximal pixel for exactly the blocks whose maximum exceeds the block mean by more than the threshold; every returned point is such a candidate except for at most (number of layers - 2) filler points (0,0), which appear only when the finest layer is used up; a concrete case with a filler that is no candidate exists with the default settings.", "quantifier": "all gradient images, all block sizes >= 1, all requested counts >= 0", "why_tests_cant": "The truncation arithmetic goes wrong only for rare layer count combinations.", "anchors": ["source/util/PixelSelector.cpp: selectInternal, selectLayer"]}
{"id": "C16", "title": "Pixel selection always terminates", "statement": "A call to PixelSelector::select terminates whenever its adapted block size is at least 1. The adapted block size can reach 0: after a call that found no candidate pixel at all (a uniform image) every later call has block size 0 and never terminates.", "quantifier": "all histories of select calls on one selector", "why_tests_cant": "Non-termination after a particular history cannot be observed by a finite test.", "anchors": ["source/util/PixelSelector.cpp: select, selectLayer"]}
{"id": "C17", "title": "Streaming PLY file is always well-formed", "statement": "After any sequence of putPoints calls ending in updatePointCount, the file parses as a PLY with a header whose vertex count equals the number of vertex lines, containing exactly the points given so far in order; updating the count never changes any byte outside the fixed-width count field.", "quantifier": "all sequences of operations, all point lists, point totals below 2^31", "why_tests_cant": "In-place rewriting of a fixed-width field must be right for every digit count and history.", "anchors": ["source/util/PlyHolder.cpp: PlyHolder, putPoints, updatePointCount"]}
{"id": "C18", "title": "One-shot PLY export drops exactly the non-finite points", "statement": "printInPly writes a file whose declared vertex count equals the number of vertex lines, and the lines are exactly the points with three finite coordinates, in order, each with its own colour (red, green, blue order).", "quantifier": "all point and colour lists with colours at least as many as points", "why_tests_cant": "All combinations of finite and non-finite coordinates at every position.", "anchors": ["source/util/util.cpp: printInPly"]}
{"id": "C19", "title": "Exported trajectory is strictly increasing and duplicate free", "statement": "For every history of a DSO system the frames written by TrajectoryWriter before shutdown have strictly increasing frame numbers, so no frame is written twice, and every line carries a frame of a keyframe that left the window with the pose derived from that keyframe. This holds unless the window size makes the last reference keyframe retire at once: with trackFromLastKf off and maxKeyFrames = 2, or trackFromLastKf on and maxKeyFrames = 1, the writer executes an undefined conversion in mid-run, and in the first case the order is broken for the conversion value INT_MAX. The order survives shutdown whatever the undefined conversion there yields.", "quantifier": "all histories, both tracking-base modes, all settings", "why_tests_cant": "The writer delays frames in a pool until it is safe; correctness depends on the full event history.", "anchors": ["source/output/TrajectoryWriter.cpp: newKeyFrame, keyFramesMarginalized, destructed", "source/system/DsoSystem.cpp: addFrame"]}
{"id": "C20", "title": "Exported trajectory is complete at shutdown", "statement": "If the final flush threshold is at least as large as every frame number, then after destruction every keyframe and every tracked frame of the run has been written exactly once. The threshold the code computes is the conversion of an infinite double to int, which is undefined behaviour reached at every shutdown; with the value x86 hardware delivers (the minimal int) no frame is written at shutdown.", "quantifier": "all histories ending with destruction, all values the undefined conversion may produce", "why_tests_cant": "Undefined behaviour: a passing test only samples one compiler's choice.", "anchors": ["source/output/TrajectoryWriter.cpp: keyFramesMarginalized, destructed"]}
{"id": "C21", "title": "Exported cloud contains every marginalised point exactly once", "statement": "Over any history the cloud file written by CloudWriter ends up with exactly the optimised points (whatever their state) and the immature points traced at least once of every keyframe, each once, in the order the keyframes were reported, and its declared count equals the number of points. Besides, one file per keyframe is written with its points of finite coordinates; it is named /kf<number>.ply in the file system root, not in the configured directory.", "quantifier": "all histories, all point sets", "why_tests_cant": "Exactly-once export over all window histories; the path defect shows only on a real file system.", "anchors": ["source/output/CloudWriter.cpp", "source/util/PlyHolder.cpp"]}
{"id": "C22", "title": "Snapshot round trip", "statement": "Saving keyframes into an empty directory and loading them back yields the same keyframes: same numbers, poses, light parameters, tracked frames, and the same saved fields of every immature and optimised point, in the same order.", "quantifier": "all keyframe sets with distinct numbers and at most one tracked frame per number, all pattern sizes >= 1, all values for which printing then parsing a double is the identity, rotations unchanged by normalisation, int-sized counts", "why_tests_cant": "All structures and sizes; the existing test uses one recorded snapshot.", "anchors": ["source/system/serialization.cpp", "include/system/serialization.h"]}
{"id": "C23", "title": "Snapshot directory reuse", "statement": "Saving into a directory that already contains snapshots and loading it again returns, for every keyframe number ever saved there, the keyframe saved last under that number, with each of its tracked frames as saved last under that frame's number; the result equals the last saved set exactly when every earlier keyframe number is overwritten.", "quantifier": "all earlier directory contents produced by saves, all saved keyframe sets", "why_tests_cant": "Depends on the history of the directory.", "anchors": ["source/system/serialization.cpp: SnapshotSaver::save, SnapshotLoader::load"]}
{"id": "C24", "title": "Loading does not depend on directory enumeration order", "statement": "The keyframes restored from a snapshot are the same for every order in which the operating system enumerates the directory.", "quantifier": "all permutations of the directory listing", "why_tests_cant": "The enumeration order is unspecified; one run shows one order.", "anchors": ["source/system/serialization.cpp: SnapshotLoader::load"]}
{"id": "C25", "title": "What a snapshot forgets", "statement": "The state flag of an optimised point is not part of the snapshot: after loading it is indeterminate, so no reader can distinguish an outlier from an active point. The traced counter of an immature point is restored as 1 exactly when its maximal depth is finite and 0 otherwise, so a point whose last successful trace had infinite maximal depth comes back as never traced.", "quantifier": "all points", "why_tests_cant": "Reading an uninitialised field passes or fails tests depending on memory contents.", "anchors": ["include/system/OptimizedPoint.h", "source/system/ImmaturePoint.cpp: 53-75", "source/system/serialization.cpp"]}
{"id": "C26", "title": "Frame history of a restored system", "statement": "A system restored from a snapshot with exactly one DSO observer (and tracking against the last keyframe) has in its frame history exactly the keyframes and their tracked frames in increasing order. With no observer the tracked frames are missing from the history and from the pose table; with n observers each tracked frame occurs n times, so that with two or more observers and a newest keyframe that has exactly one tracked frame the next motion prediction divides by a zero gap.", "quantifier": "all snapshots, all observer counts", "why_tests_cant": "The number of observers is not expected to influence the history; tests use one.", "anchors": ["source/system/DsoSystem.cpp: DsoSystem::DsoSystem(snapshot) 40-110, getTimeLastByLbo"]}
{"id": "C27", "title": "Frame-tracker observers receive every tracked frame", "statement": "Every frame-tracker observer registered through the constructor or through addFrameTrackerObserver before a frame is added is attached to the tracker that processes that frame, for every history of a fresh system. In a restored system an observer registered during the created notification is not attached until the next keyframe replaces the tracker.", "quantifier": "all registration histories", "why_tests_cant": "Depends on when trackers are replaced relative to registrations.", "anchors": ["source/system/DsoSystem.cpp: addFrameTrackerObserver, constructors, addFrame"]}
{"id": "C28", "title": "Triangulation incidence consistency", "statement": "Whatever the points, starting from the bounding triangle and putting points into triangles and inner edges and flipping edges whose two opposite vertices are not joined yet never fails and keeps the mesh consistent: an edge lists a triangle iff the triangle lists the edge, a vertex lists exactly the edges and triangles containing it, every triangle has three distinct vertices and its three edges join them, and no two edges join the same two vertices. A flip between vertices already joined creates a second edge between them; the constructor does so for collinear points (in general position never, C78), and it aborts for two equal points or two points on a line with a bounding vertex.", "quantifier": "all sequences of insertions and flips between unjoined vertices, all point positions", "why_tests_cant": "Pointer surgery with case analysis over vertex orders; random tests cover a few configurations.", "anchors": ["source/util/Triangulation.cpp: divideTriangle, divideEdge, performFlip, addPoint"]}
{"id": "C29", "title": "Triangulation vertex indexing", "statement": "If no input point is dropped as a duplicate, indexing the triangulation with i yields the vertex created for input point i, for every insertion order. As soon as a point is dropped before another one is inserted, some index yields another point's vertex or reads past the vertex array.", "quantifier": "all point lists, all insertion orders", "why_tests_cant": "Duplicates are rare in tests; the result depends on the random insertion order.", "anchors": ["source/util/Triangulation.cpp: Triangulation::Triangulation, operator[], fillPtrVectors"]}
{"id": "C30", "title": "Triangulation size", "statement": "With n accepted points the full mesh (including the bounding triangle) has exactly n+3 vertices, 3n+3 edges and 2n+1 triangles at every stage of construction.", "quantifier": "all insertion sequences and flip decisions", "why_tests_cant": "Counting invariant for all inputs.", "anchors": ["source/util/Triangulation.cpp: divideTriangle, divideEdge, performFlip, addPoint"]}
{"id": "C31", "title": "Delaunay predicate is the empty-circle test", "statement": "isABDelaunay(a,b,c,d) for a non-degenerate triangle abc is true exactly when d is not strictly inside the circle through a, b and c (which always exists); it does not depend on the order of a, b and c, and for c and d on opposite sides of line ab it is symmetric in c and d. If an edge inside a strictly convex quadrilateral fails the test, the flipped edge passes it.", "quantifier": "all quadruples of points with exact arithmetic", "why_tests_cant": "Continuum of inputs.", "anchors": ["source/util/geometry.cpp: isABDelaunay"]}
{"id": "C32", "title": "Point-in-triangle predicate", "statement": "For a non-degenerate triangle, isInsideTriangle is true exactly when the point is a convex combination of the corners (border included), for both orientations. For a degenerate triangle it accepts every point of the plane.", "quantifier": "all triangles and points with exact arithmetic", "why_tests_cant": "Continuum of inputs.", "anchors": ["source/util/geometry.cpp: isInsideTriangle, isSameSide"]}
{"id": "C33", "title": "Segment intersection predicate", "statement": "Whenever doesABIntersectCD answers true the two segments cross in exactly one point, inside both. Crossing segments are found when ab ascends in both coordinates and an end of cd lies inside its box by the margin; otherwise there are crossing segments for which it answers false whatever the margin, and swapping the end points of the first segment can change the answer (swapping those of the second cannot).", "quantifier": "all segment pairs with exact arithmetic, all eps >= 0", "why_tests_cant": "Continuum of inputs; depends on the ordering of coordinates.", "anchors": ["source/util/geometry.cpp: doesABIntersectCD"]}
{"id": "C34", "title": "Curve interpolation", "statement": "approxOnCurve is the piecewise-linear extension through its points: it returns the i-th point at integer position i, the linear interpolation in between, and linear extrapolation outside; it is continuous with slope bounded by the largest step between neighbouring points. Fewer than two points stop the program.", "quantifier": "all point lists of length >= 2 and all real positions", "why_tests_cant": "Continuum of inputs.", "anchors": ["source/util/geometry.cpp: approxOnCurve"]}
{"id": "C35", "title": "Affine brightness algebra", "statement": "Applying a product of two brightness transforms equals applying them one after the other exactly when the right factor has trivial gain or the two offsets cancel; applying the inverse undoes the transform, on either side, exactly when the gain or the offset is trivial. Neither law holds in general, the product is not associative, and the default transform is a right but not a left unit.", "quantifier": "all brightness parameters", "why_tests_cant": "Continuum; default settings keep the identity so tests never see it.", "anchors": ["include/system/AffineLightTransform.h: operator(), operator*, inverse"]}
{"id": "C36", "title": "Camera normalisation and ray lifting", "statement": "For every calibration with at least one coefficient and a positive scale, and for the pinhole constructor, the constructed camera lifts every pixel to the ray (x, y, z) of the calibration as given, z being the calibration polynomial at the radius, for every degree, times one positive factor common to all pixels. Every pixel of the image is at normalised radius at most 1 and some corner is at exactly 1, and if the rays widen steadily up to the farthest corner then the stored field of view contains the ray of every pixel.", "quantifier": "all calibrations, all pixels", "why_tests_cant": "The evaluation loop is unrolled by two and the rescaling touches every coefficient.", "anchors": ["source/system/CameraModel.cpp: unmap, calcUnmapPoly, normalize", "include/system/CameraModel.h"]}
{"id": "C37", "title": "Camera pyramid matches image pyramid", "statement": "At every level the camera of the pyramid has the same width and height as the image of the image pyramid and the depth pyramid, projects every ray to the level-0 projection divided by 2^level, and lifts p/2^level to the same ray as level 0 lifts p. The images do not follow this: box filtering makes a level-1 pixel show the scene half a level-0 pixel away from the place the cameras assign to it, which on a linear ramp is a systematic brightness error.", "quantifier": "all image sizes, levels, rays and pixels", "why_tests_cant": "All sizes including odd ones at every level.", "anchors": ["source/system/CameraModel.cpp: camPyr", "source/util/ImagePyramid.cpp", "source/util/DepthedImagePyramid.cpp", "include/util/util.h: boxFilterPyrDown"]}
{"id": "C38", "title": "Residual patterns stay inside the image", "statement": "A point that passes the border test with a border one pixel larger than the pattern height has all its pattern pixels inside the image and its stored intensities are those pixels. With the border actually used, creating a point is safe except when it lies exactly on the right or bottom line of the border test and a pattern pixel reaches the line behind it; then memory outside the image is read. With the default pattern this happens for the whole column width - 2, and the pixel selector does produce such points.", "quantifier": "all images, patterns and points", "why_tests_cant": "Off-by-one at the border for particular block sizes only.", "anchors": ["include/system/CameraModel.h: isOnImage", "source/system/ImmaturePoint.cpp: 18-51", "source/util/PixelSelector.cpp"]}
{"id": "C39", "title": "Image pyramid", "statement": "Each pyramid level has the sides of the full image divided by 2^level, rounded down; every pixel is the rounded-down mean of its 2x2 block, lies at every level between the minimum and maximum of its 2^level block of the full image, and equals c where the block has constant value c. Against the exact mean of the block a pixel of level l is never brighter and at most 3l/4 grey values darker, and this loss occurs.", "quantifier": "all images, all level counts", "why_tests_cant": "All images and depths.", "anchors": ["include/util/util.h: boxFilterPyrDown", "source/util/ImagePyramid.cpp"]}
{"id": "C40", "title": "Depth pyramid", "statement": "Level 0 of the depth pyramid holds the depth of the last point inside each pixel and -1 elsewhere; level l holds, for each cell, the weighted mean of the depths left in the pixels of the corresponding 2^l x 2^l block, and -1 when the block has a total weight of at most 1e-8; for non-negative weights it lies between the smallest and largest depth of the block's points. A point exactly on the right border, which the border test of the caller accepts, is written outside the matrix.", "quantifier": "all point sets with positive weights, all sizes and levels, exact arithmetic", "why_tests_cant": "Uses integral images with index arithmetic; all sizes and placements.", "anchors": ["source/util/DepthedImagePyramid.cpp", "source/util/util.cpp: pyrNUpDepth"]}
{"id": "C41", "title": "Tracing a point changes its depth only on success", "statement": "ImmaturePoint::traceOn changes depth, depth bounds, deviation, trace count, quality and traced level only when it reports OK; WAS_OOB, BIG_PREDICTED_ERROR and EPIPOLAR_OOB leave the whole point unchanged; exactly the out-of-bounds points report WAS_OOB and stay so for life; no tracing changes the state of a point; over the life of a point the trace count is the number of OK results and the depth is defined iff there was one; lastTraced is true exactly when the last tracing that searched along the curve reported OK (an early exit after it leaves the flag stale).", "quantifier": "all images, poses and sequences of tracings", "why_tests_cant": "Eleven exits with different partial updates, over all histories.", "anchors": ["source/system/ImmaturePoint.cpp: traceOn"]}
{"id": "C42", "title": "Depth uncertainty never grows", "statement": "With full tracing off and improvement factor >= 1, the standard deviation of an immature point never increases over its life, each successful re-trace divides it at least by the improvement factor (n of them by its n-th power), and a ready point stays ready. This does not survive saving and restoring: a ready point whose depth interval is unbounded counts as never traced after loading, and its next tracing may make it not ready.", "quantifier": "all sequences of tracings", "why_tests_cant": "Monotonicity over all histories.", "anchors": ["source/system/ImmaturePoint.cpp: traceOn, isReady"]}
{"id": "C43", "title": "Sub-pixel refinement is safe", "statement": "The sub-pixel refinement returns a position at most one unit, along the search direction, from the middle of the two neighbouring samples, with the energy of that position, not above the energy in the middle; it is defined whenever no normal equation is 0/0 and undefined when the one at the middle is. The depth is then taken at this position times 2^level. It does not refine the discrete optimum: on level 0 its energy can be above the best sample's and the depth that of a position far away (the neighbour after the last sample is the first one again), and on a coarser level the depth is wrong even when the best sample is exactly in the middle.", "quantifier": "all images, all iteration counts", "why_tests_cant": "All energy landscapes.", "anchors": ["source/system/ImmaturePoint.cpp: tracePrecise"]}
{"id": "C44", "title": "Epipolar search samples", "statement": "The list of sampled search positions consists of runs along the epipolar curve each listed twice; with limited search it is one run from the far end, repeated, at most max(1, maxSearchCount) long, all but its last position on the image, and sampling terminates. For a point with bounded depth the best sample is in the first half and a lower depth bound past the end of the run is taken between the last and the first sample, so the depth interval of a successfully traced point can be empty (minDepth > maxDepth).", "quantifier": "all poses, depth intervals and settings", "why_tests_cant": "Not visible in outputs of a test, only as wrong depth bounds.", "anchors": ["source/system/ImmaturePoint.cpp: pointsToTrace, traceOn", "source/util/geometry.cpp: approxOnCurve"]}
{"id": "C45", "title": "Spherical sector queries", "statement": "SphericalTriangulation::enclosingSector finds nothing exactly when no stored sector's cone contains the ray, and then changes nothing. Otherwise it returns a stored sector that contains the ray and whose widest angle is least among those, removes the other stored sectors containing the ray and keeps every other one. Repeating the query gives the same answer and removes nothing more. Over any history sectors are only removed, and a ray without a sector never gets one. A query for another ray can make an earlier found ray have no sector at all.", "quantifier": "all sector sets with independent rays, all rays, all query sequences", "why_tests_cant": "A query mutates the structure; the effect depends on the query history.", "anchors": ["source/util/SphericalTriangulation.cpp: enclosingSector"]}
{"id": "C46", "title": "Terrain depth interpolation", "statement": "Inside a sector of known points SphericalTerrain returns the distance of the one point where the viewing ray meets the triangle of the three points: positive, the known depth at each corner, never beyond the farthest corner (but possibly nearer than the nearest), independent of the plane vector chosen, of the order of the corners and of the length of the ray; it answers false exactly when no stored sector contains the ray. The planar Terrain interpolates the absolute values of the depths linearly in the image, hence stays between the least and the greatest of them, and answers false outside the triangulation or next to its boundary; hasInterpolatedDepth is undefined behaviour outside.", "quantifier": "all triangles and rays, exact arithmetic", "why_tests_cant": "Continuum of inputs.", "anchors": ["source/util/SphericalTerrain.cpp", "source/util/Terrain.cpp"]}
{"id": "C47", "title": "Ground-truth alignment", "statement": "If both the ground-truth motion and the estimated motion between the two reference frames are at least 1e-3 long, the aligner is a similarity: it maps the first ground-truth pose exactly to its estimate, multiplies all distances between camera centres by one positive factor, makes the distance of the two reference centres equal to the estimated one, keeps relative rotations, and gives a scaled point the same world position from whichever frame it was seen. If either motion is shorter, the scale is left indeterminate and every use of the aligner is undefined.", "quantifier": "all rigid poses of the reference frames, all further poses and points", "why_tests_cant": "Continuum; the static branch is undefined behaviour.", "anchors": ["source/util/Sim3Aligner.cpp"]}
{"id": "C48", "title": "Robust motion estimation loop", "statement": "The search for the coarse motion ends for every sequence of random draws after at most the configured maximal number of iterations (exactly that many when asked to run them all); an earlier end happens only after as many iterations as the stopping rule asks for with the inliers found. It keeps the largest consensus set among all evaluated samples, also when the solver returns nothing and the buffers still hold an older hypothesis; the reported inliers are increasing indices in front of both the kept and the returned motion. With one to four correspondences no sample is ever evaluated and the identity with no inliers is the result; with none at all the behaviour is undefined. The precise search keeps exactly the correspondences agreeing with the refined motion and in front of it, and repeated calls return the same motion.", "quantifier": "all random draws, all correspondence sets, all solver outputs", "why_tests_cant": "Randomised loop.", "anchors": ["source/system/StereoGeometryEstimator.cpp: findCoarseMotion"]}
{"id": "C49", "title": "Still-match filtering is a stable partition", "statement": "filterOutStillMatches splits the matches into those whose keypoints are farther apart than the threshold and the still ones without losing, duplicating or reordering any.", "quantifier": "all match lists", "why_tests_cant": "In-place compaction over all inputs.", "anchors": ["source/system/StereoMatcher.cpp: filterOutStillMatches"]}
{"id": "C50", "title": "Spherical parameterisation", "statement": "The spherical parameterisation accepts every initial value at distance radius from the centre, a zero update changes nothing and every update gives a value on the sphere (or the centre itself when value and update cancel). On the unit sphere around the origin, away from the antipode of the initial value, the update is the projection of a step along two orthonormal tangents, so every direction of the open half sphere around the value is reached. Near the antipode a non-zero update can leave the value unchanged; so it can around another centre (as the bundle adjuster uses it) even at the initial value; and initial values far inside the sphere are accepted.", "quantifier": "all centres, radii and updates", "why_tests_cant": "Continuum of values, centres and updates.", "anchors": ["include/system/SphericalPlus.h"]}
{"id": "C51", "title": "Multi-level debug image", "statement": "drawLeveled places every pyramid level exactly once for every positive even number of levels; for every odd number of levels, one included, it has undefined behaviour (writes outside its arrays or divides by zero).", "quantifier": "all level counts", "why_tests_cant": "Default level count is even.", "anchors": ["source/util/util.cpp: drawLeveled"]}
{"id": "C52", "title": "Depth colouring", "statement": "The colour bounds are order statistics of the given depths, independent of their order, with lower bound <= upper bound whenever the red part <= the blue part; depthCol then returns channel values within 0..255 for every depth when the bounds differ, red at the lower and blue at the upper bound. When the bounds coincide, the depth equal to them has no colour (0/0) and drawing it is undefined behaviour.", "quantifier": "all depth lists and quantile flags", "why_tests_cant": "All lists; the degenerate case divides by zero.", "anchors": ["source/util/util.cpp: setDepthColBounds, depthCol"]}
{"id": "C53", "title": "File naming", "statement": "fileInDir yields a path naming the given file in the given directory for every non-empty directory name, with or without trailing slash; for an empty directory name the result is an absolute path in the root directory.", "quantifier": "all strings", "why_tests_cant": "All strings.", "anchors": ["source/util/util.cpp: fileInDir"]}
{"id": "C54", "title": "Command-line flags reach the settings", "statement": "Every documented command-line flag changes its own setting and nothing else, except the tracing improvement factor flag, which has no effect.", "quantifier": "all flag values", "why_tests_cant": "A forgotten assignment is invisible unless every flag is tested.", "anchors": ["source/util/flags.cpp: getFlaggedSettings"]}
{"id": "C55", "title": "Initialisation timing", "statement": "Initialisation succeeds exactly at frame number firstFramesSkip + 2 of the sequence (counting from one; negative skips count as 0), and the two initial keyframes are the first frame and that frame.", "quantifier": "all skip values and frame sequences", "why_tests_cant": "All skip values and sequences.", "anchors": ["source/system/DelaunayDsoInitializer.cpp: addFrame", "source/system/DsoSystem.cpp: addFrame"]}
{"id": "C56", "title": "Failed initialisation", "statement": "If stereo matching throws during initialisation, the system is left marked initialised without keyframes, and the next addFrame call dereferences a missing keyframe.", "quantifier": "all histories where the matcher throws", "why_tests_cant": "Needs a failing matcher and a caller that continues.", "anchors": ["source/system/DsoSystem.cpp: addFrame 392-420", "source/system/StereoMatcher.cpp"]}
{"id": "C57", "title": "Bundle adjustment gauge and outlier marking", "statement": "Bundle adjustment never changes the pose or the light of the keyframe added first, and keeps the distance of the second keyframe to it (or moves it onto the first); the options for a fixed first motion, fixed rotation and fixed light hold exactly. Of the points of the second keyframe those not yet out of bounds become out of bounds when no residual is left, outliers when at least half of their final residuals exceed the threshold, and otherwise keep their state; the points of every other keyframe keep theirs; no point ever becomes active. Points with large negative residuals are not marked, an outlier that is seen nowhere becomes out of bounds, and the 'second' keyframe is the one with the least address, not the one added second.", "quantifier": "all keyframe lists, residual values, visibility tests, settings, and results of the solver within its contract", "why_tests_cant": "All residual configurations and memory layouts.", "anchors": ["source/system/BundleAdjuster.cpp: addKeyFrame 28-32, adjust 99-313"]}
{"id": "C58", "title": "Dataset reader frame count", "statement": "Reading a trajectory file of n >= 1 well-formed lines that does not end in a newline gives n+1 poses: the identity for frame 0 and the inverse of the k-th line's pose for frame k, whatever frame numbers the lines carry. A newline at the end, or an empty file, adds an entry made of variables never written; an incomplete last line gives an entry with its missing parts never written; and after a word that is not a number the reader never ends.", "quantifier": "all trajectory files", "why_tests_cant": "Depends on the last byte of the file.", "anchors": ["samples/mfov/reader/MultiFovReader.cpp"]}
{"id": "C59", "title": "Pyramid level configuration", "statement": "With 2 to 6 configured pyramid levels (and points inside the image) tracking a frame is defined: it visits every level once from the coarsest to level 0, each level starts from the result of the coarser one, and its least-squares problem contains exactly one residual per pixel of that level of the base image which has positive depth and is projected into the image by the estimate so far, using that level's camera, base image, depths and tracked image. One level makes the tracker read a missing camera, more than 6 make the first tracked frame read a missing level because frames are always built with the default 6; a frame built with more than 8 levels overruns its arrays.", "quantifier": "all level counts, images, points, depths, weights, predicted motions, solvers and projection tests", "why_tests_cant": "The default is 6 and tests do not look at the composition of the problems.", "anchors": ["source/system/DsoSystem.cpp: addFrame 424-430", "source/system/FrameTracker.cpp 55-220", "internal/source/PreKeyFrameInternals.cpp", "source/system/PreKeyFrame.cpp"]}
{"id": "C60", "title": "Two-view triangulation", "statement": "For two rays of a common 3D point seen from two poses with non-parallel viewing directions, triangulate returns exactly the two depths; in general it returns the depths minimising the distance between the two rays' points.", "quantifier": "all poses and ray pairs with exact arithmetic", "why_tests_cant": "Continuum.", "anchors": ["source/util/geometry.cpp: triangulate"]}
{"id": "C61", "title": "Stereographic projection", "statement": "stereographicProject ignores positive scaling of the ray, gives a point exactly for the rays that do not look straight back, gives every point of the plane, gives the same point only for rays of the same direction, and maps the rays at a fixed angle to an axis exactly to a circle, or to a line when the straight-back ray is among them.", "quantifier": "all rays", "why_tests_cant": "Continuum.", "anchors": ["source/util/SphericalTriangulation.cpp: stereographicProject"]}
{"id": "C62", "title": "Clipping an arc to the field of view", "statement": "When exactly one end of an arc is outside the field of view by more than the tolerance and the other is inside, intersectOnSphere answers true, replaces the outside end by a unit direction on the border and on the arc, and the whole remaining arc is inside. Both ends outside beyond the tolerance: false; both within tolerance: true; nothing is changed. With an end in the tolerance band the answer can be true and the replaced end off the arc although no part of the arc is inside; an arc through the middle with both ends outside is rejected; opposite ends abort.", "quantifier": "all direction pairs and sector angles", "why_tests_cant": "Continuum; tolerance band.", "anchors": ["source/util/geometry.cpp: intersectOnSphere"]}
{"id": "C63", "title": "Reduced distance map respects its size limits", "statement": "For every image size and integral limits, at least one side of the reduced distance map is within its limit (maxWidth or maxHeight); both sides need not be: there is an image size whose reduced map is wider than maxWidth, because the smaller of the two reduction factors is used.", "quantifier": "all image sizes below 2^30 and all positive integral limits", "why_tests_cant": "Two-dimensional unbounded input space; the violation needs an unusual aspect ratio.", "anchors": ["source/util/DistanceMap.cpp: DistanceMap::DistanceMap"]}
{"id": "C64", "title": "Selected pixels are distinct", "statement": "Within one threshold layer the selected pixels are pairwise distinct, but the whole result can contain the same pixel several times, once per layer, so two immature points can be created for one pixel.", "quantifier": "all images and selector states; witness for the repetition", "why_tests_cant": "Needs the combination of layers; the project tests only count points.", "anchors": ["source/util/PixelSelector.cpp: PixelSelector::selectInternal"]}
{"id": "C65", "title": "A well-configured run never leaves defined behaviour", "statement": "With sane settings (at least one keyframe kept, a positive keyframe shift, non-negative budget) and components that return values within their contracts, no sequence of addFrame calls with increasing positive frame numbers aborts, throws, or reads or writes outside a container.", "quantifier": "all settings within the stated ranges, all call sequences, all component results within contract", "why_tests_cant": "Undefined behaviour is invisible to a test; absence over unbounded histories needs an invariant.", "anchors": ["source/system/DsoSystem.cpp: addFrame, activateNewOptimizedPoints, marginalizeFrames"]}
{"id": "C66", "title": "A restored system continues the keyframe schedule", "statement": "A system restored with one observer from a snapshot with increasing frame numbers and then fed further frames creates and reports exactly the keyframes and tracked-frame lists that the schedule of the original run prescribes for the continued numbering, and its frame history is the snapshot's frames followed by the new ones. A snapshot whose two newest keyframes both have no tracked frames (such as one taken right after initialisation) cannot be restored: construction reads before the start of a list.", "quantifier": "all snapshots, all continuations", "why_tests_cant": "Quantifies over all snapshots and all continuations.", "anchors": ["source/system/DsoSystem.cpp: DsoSystem::DsoSystem(snapshot) 40-110, addFrame"]}
{"id": "C67", "title": "Traced intensities after tracking", "statement": "Frame tracking fits brightness so that the transform applied to the tracked frame's intensity gives the base intensity, while point tracing applies the same transform to the base intensity to predict the tracked frame's. The two agree on every intensity exactly when the transform is the identity; a frame tracked with zero residual can be traced against wrong intensities with parameters inside the optimiser's bounds. With brightness optimisation off all transforms are the identity and intensities are compared unchanged.", "quantifier": "all brightness parameters and intensities with exact arithmetic", "why_tests_cant": "the two formulas live in different components and the default settings hide the mismatch; tests sample few brightness values", "anchors": ["source/system/FrameTracker.cpp: 37-44", "source/system/ImmaturePoint.cpp: 217-219, 245-247", "include/system/AffineLightTransform.h"]}
{"id": "C68", "title": "Brightness in bundle adjustment", "statement": "The bundle adjustment residual is the difference of the two brightness-corrected intensities divided by the gain of the reference frame: it vanishes exactly when they agree and is unchanged by a gain common to both frames. The brightness given to a new keyframe acts as correction to its base followed by the base's correction exactly when the base has no offset or the two gains cancel.", "quantifier": "all brightness parameters and intensities with exact arithmetic", "why_tests_cant": "algebraic identity over all reals", "anchors": ["source/system/BundleAdjuster.cpp: 71-85", "source/system/KeyFrame.cpp: 30-33"]}
{"id": "C69", "title": "Stereo initialisation output", "statement": "StereoMatcher::match reports, for the inliers among the moved matches and in their order, aligned pairs of points and positive depths triangulated with one and the same motion; it is the returned motion when the motion is refined, and also without refinement if each correspondence is in front of at most one decomposition of an essential matrix. Without any match an exception is thrown, but if the camera did not move (all matches still) the behaviour is undefined.", "quantifier": "all keypoints, matches, random draws, solver outputs and settings", "why_tests_cant": "Randomised search over arbitrary match lists; the still camera is outside the tested data.", "anchors": ["source/system/StereoMatcher.cpp: match", "source/system/StereoGeometryEstimator.cpp: depths, findCoarseMotion, findPreciseMotion"]}
{"id": "C70", "title": "Dataset reader files", "statement": "The reader accepts the dataset directory with or without a final slash and reads the intrinsics (negated polynomial without the linear term, centre, size), the trajectory and, row by row, the depth maps in it. An empty directory name, and a name of 236 or more characters, are undefined behaviour; a depth file with too few numbers leaves the remaining cells never written.", "quantifier": "all directory names and file contents", "why_tests_cant": "Fixed-size buffers and unchecked stream reads fail only on inputs outside the dataset.", "anchors": ["samples/mfov/reader/MultiFovReader.cpp"]}
{"id": "C71", "title": "Tolerance and convexity predicates", "statement": "areEqual with a non-negative tolerance is true exactly for points closer than it. doesABcontain accepts every point of the segment, exactly the points whose perpendicular foot lies on the segment lengthened by the tolerance at a distance below the tolerance, and hence only points closer than sqrt(2) tolerances to the segment. For c and d on opposite sides of ab, isABCDConvex(a,c,b,d) is true exactly when the diagonals ab and cd meet.", "quantifier": "all points, tolerances", "why_tests_cant": "Continuum of configurations including borderline ones; tests sample a handful.", "anchors": ["source/util/geometry.cpp: areEqual, doesABcontain, isABCDConvex"]}
{"id": "C72", "title": "Projecting a lifted pixel back", "statement": "For every constructed camera, every pixel and every positive length of the lifted ray, projecting the ray back gives a point whose distance from the pixel is exactly the scale of the camera (the pixel distance of the farthest corner) times the error of the fitted polynomial at the angle of the ray; the principal point is recovered exactly for every fit.", "quantifier": "all calibrations, fits, pixels and ray lengths", "why_tests_cant": "The unit test measures one root-mean-square error for one calibration; the property isolates the fit as the only source of error.", "anchors": ["include/system/CameraModel.h: map, unmap, calcMapPoly", "source/system/CameraModel.cpp: setMapPolyCoeffs"]}
{"id": "C73", "title": "Calibration check at construction", "statement": "Constructing a camera never throws when the angle of the rays grows steadily with the radius, and in general it succeeds exactly when the angle does not decrease between any two of the drawn radii; a calibration whose rays turn back between two drawn radii is accepted.", "quantifier": "all calibrations and all sets of drawn radii", "why_tests_cant": "The radii are drawn at random; a run sees one draw.", "anchors": ["source/system/CameraModel.cpp: setMapPolyCoeffs 136-176"]}
{"id": "C74", "title": "What a successful tracing guarantees", "statement": "When traceOn reports OK, the stored energy is the smallest measured along the curve, attained first at some sample; it is at most outlierEnergyFactor*PS*TH^2; every sample at distance at least minSecondBestDistance from that sample has an energy above secondBestEnergyThresFactor*PS*TH^2 and at least outlierQuality times the best; and the sample was not measured on the coarsest level.", "quantifier": "all images, poses, settings and point states", "why_tests_cant": "All energy landscapes and orders of samples; includes NaN energies.", "anchors": ["source/system/ImmaturePoint.cpp: traceOn"]}
{"id": "C75", "title": "Bundle adjustment problem", "statement": "The problem given to the solver contains, for every point of finite depth of every keyframe whatever its state, one free depth and exactly one residual per pattern pixel and other keyframe in which the point is visible, and no other residual. Afterwards depths and light parameters are within the configured bounds, or nothing was changed at all; a depth that is not finite stays so and puts a point of the second keyframe out of bounds. The call is defined when the first keyframe and the second are at different places; it is undefined behaviour with a single keyframe and aborts when the two coincide.", "quantifier": "all keyframe lists, visibility tests, settings, and results of the solver within its contract", "why_tests_cant": "The problem is handed to an external solver; its completeness cannot be observed from outside.", "anchors": ["source/system/BundleAdjuster.cpp: adjust 99-313"]}
{"id": "C76", "title": "Gradient weighting of tracking residuals", "statement": "With gradient weighting enabled every tracking residual is weighted with c / |(c, image gradient)|, a factor in (0, 1] that is 1 exactly where the gradient vanishes - provided no level has a depth on its border. As soon as a point's cell on the coarsest level lies on the border of that level (the point itself may be far inside the base image) the gradient is read outside the image.", "quantifier": "all images, points, positive depths and weights, level counts 2..6", "why_tests_cant": "Weighting is off by default and out-of-image reads of cv::Mat_ are silent in release builds.", "anchors": ["source/system/FrameTracker.cpp 164-174", "source/util/util.cpp gradNormAt 164-168"]}
{"id": "C77", "title": "Affine light during tracking", "statement": "Tracking returns the predicted affine light unchanged when light optimisation is off; otherwise the returned light lies within the configured bounds unless the whole prediction is returned unchanged. A predicted light outside the bounds blocks every level, so the predicted motion is returned untouched.", "quantifier": "all base frames, frames, predictions and solvers obeying the bounds contract", "why_tests_cant": "Needs all solver behaviours on all levels.", "anchors": ["source/system/FrameTracker.cpp 118-135, 76-95"]}
{"id": "C78", "title": "Triangulation of points in general position", "statement": "If no three of the points and bounding vertices are collinear, no two are within the tolerance and none lies within the tolerance of a segment between two others, then for every insertion order and all random draws the constructor neither aborts nor leaves defined behaviour: after every insertion the mesh is consistent, its triangles do not overlap and they cover the bounding triangle exactly; in the end all points have vertices, operator[] returns the vertex of the point, vertices()/edges()/triangles() list exactly the elements without bounding vertices. The flips after locating a point end after at most 2n+11 rounds; only the random search for the triangle may run on.", "quantifier": "all point lists in general position, all insertion orders and random draws", "why_tests_cant": "Needs all point sets, all orders and all random walks; overlap of triangles is never checked.", "anchors": ["source/util/Triangulation.cpp: Triangulation::Triangulation, addPoint, enclosingTriangle, isEdgeLegal, performFlip", "source/util/geometry.cpp: isSameSide, isInsideTriangle, isABCDConvex, isABCDDelaunay"]}
{"id": "C79", "title": "Ground-truth trajectory lines", "statement": "In a fresh system whose two initial cameras are at least a millimetre apart both in truth and in the estimate, at any moment the two files of TrajectoryWriterGT hold one line per reported frame, in order of the reports (a keyframe, then the frames tracked against it). The poses are the true world-to-frame poses under a single similarity of the world: it puts the first initial keyframe exactly where the system put it and scales the distance of the two initial cameras to the estimated one. The matrix lines are the unaligned true frame-to-world motions of the same frames. With less motion, or a ground-truth list shorter than a needed frame number, the behaviour is undefined. In a system restored from a snapshot the poses are written unaligned.", "quantifier": "all call sequences, settings, ground-truth lists, trackers and initialisers (rigid results)", "why_tests_cant": "Needs all schedules of reports and all ground-truth motions; an uninitialised scale often happens to work.", "anchors": ["source/output/TrajectoryWriterGT.cpp: all", "source/util/Sim3Aligner.cpp", "source/system/DsoSystem.cpp: 427-433, 280-294, 112-119"]}
{"id": "C80", "title": "True and estimated trajectory line by line", "statement": "When frames are tracked against the newest keyframe, line i of the ground-truth files and line i of the trajectory written at shutdown (if complete) describe the same frame, so the matrix files without frame numbers can be compared line by line. When frames are tracked against the keyframe before the newest they do not: with three frames the ground truth is written in the order first, third, second while the estimate is written in increasing order.", "quantifier": "all call sequences and settings", "why_tests_cant": "Depends on all schedules of keyframes and reports.", "anchors": ["source/output/TrajectoryWriterGT.cpp: keyFramesMarginalized 34-59", "source/output/TrajectoryWriter.cpp: 16-45"]}
{"id": "C81", "title": "Ground-truth cloud", "statement": "In a fresh system initialised with at least a millimetre of motion, at shutdown the file of CloudWriterGT parses, declares exactly its number of vertices and holds, for every reported frame once and in order of the reports, the measured points of that frame multiplied by the ratio of the estimated and true distance of the initial cameras and moved by the frame's estimated pose, with their colours; where the estimate agrees with the aligned truth these are the similarity images of the true world points. A system destroyed before its initialisation, and every restored system, aborts in the writer.", "quantifier": "all call sequences, settings, ground truths, point and colour lists", "why_tests_cant": "Needs all schedules of reports; the abort needs an early end or a restored system.", "anchors": ["source/output/CloudWriterGT.cpp: all", "source/util/PlyHolder.cpp"]}
{"id": "C82", "title": "Points projected onto the base keyframe", "statement": "DsoSystem::projectOntoBaseKf fills the requested outputs with parallel columns of one list: the ACTIVE points of the base keyframe with their own pixel and depth, and every point of another keyframe whose world position is seen by the base camera inside the image, with that pixel and its distance; keyframe by keyframe in the order of their lists; what the outputs held before and which others are requested does not matter. It is defined exactly when every point it reads has a depth. Boundary: points of other keyframes are used whatever their state (outliers included), and a never-traced one makes it undefined.", "quantifier": "all keyframe maps, poses, cameras, point lists and subsets of outputs", "why_tests_cant": "Quantifies over all poses, maps and point states; reads of uninitialised depths do not fail in a test.", "anchors": ["source/system/DsoSystem.cpp: projectOntoBaseKf"]}
{"id": "C83", "title": "Level 0 of the tracker reference shows the projected points", "statement": "At initialisation, after a new keyframe and after restoring, the finest depth image of the frame tracker holds in each pixel the depth of the last projected point that falls into it and -1 elsewhere. If the last keyframe is the base, the pixel of an ACTIVE base point shows an ACTIVE base point; otherwise points of the last keyframe win, even an outlier farther away; a point projected exactly on the right or lower border makes the construction undefined.", "quantifier": "all keyframe maps, cameras, images and settings", "why_tests_cant": "Depends on collisions of projected points over all geometries; the border case is undefined behaviour.", "anchors": ["source/system/DsoSystem.cpp: projectOntoBaseKf", "source/system/DsoSystem.cpp: DsoSystem (restoring), addFrame", "source/util/DepthedImagePyramid.cpp"]}
{"id": "C84", "title": "Weights of the coarser levels of the tracker reference", "statement": "The coarser depth levels are means of the points shown on level 0, weighted by 1 at initialisation and by the inverse deviation after a new keyframe and after restoring. At initialisation every cell that contains a projected point has a depth. Boundary: the same two keyframes saved before any tracing and restored give coarser levels without any depth, since all deviations are infinite.", "quantifier": "all keyframe maps, cameras, images, levels and cells", "why_tests_cant": "Compares two ways of reaching the same state over all inputs.", "anchors": ["source/system/DsoSystem.cpp: DsoSystem (restoring), addFrame", "source/util/DepthedImagePyramid.cpp"]}
{"id": "C85", "title": "The keyframes made by the initializer", "statement": "createKeyFrames puts the first keyframe at the origin and the second where the stereo matcher saw it. In spherical mode the points of each are, in order, the pixels of the second selection that keep the pattern's distance from the border and hit the terrain, ACTIVE with the terrain's depth, and the second selection asks for needed * total / hits pixels; observers are told. In plain mode every pixel of the first selection stays, ACTIVE with depth iff the terrain has one. Boundaries: in spherical mode the deviation 1 set before is lost (all deviations are infinite) and without a hit the behaviour is undefined; in plain mode a point without depth in the other keyframe makes the tracker reference undefined, pixels too close to the border become ACTIVE, and observers are not told.", "quantifier": "all frames, selections, terrains, motions and settings", "why_tests_cant": "Selections and terrains are arbitrary; the failures are undefined behaviour or silent loss of a field.", "anchors": ["source/system/DelaunayDsoInitializer.cpp: createKeyFrames", "source/system/KeyFrame.cpp: selectPointsDenser, addImmatures"]}
{"id": "C86", "title": "Activating and deactivating all points of a keyframe", "statement": "activateAllImmature appends, in order, an ACTIVE optimized point with the same position, depth and deviation for every immature point and empties the immature list; deactivateAllOptimized appends, in order, immature points with the same position and depth, infinite deviation and the state the border test gives, and empties the optimized list. Boundaries: an immature point that is not ACTIVE becomes ACTIVE, and one never traced makes activation undefined.", "quantifier": "all keyframes with positive depths", "why_tests_cant": "All lists and states; reading an uninitialised depth does not fail in a test.", "anchors": ["source/system/KeyFrame.cpp: activateAllImmature, deactivateAllOptimized", "include/system/OptimizedPoint.h"]}
{"id": "C87", "title": "The triangulation is a Delaunay triangulation of the convex hull", "statement": "If no three of the points and bounding vertices are collinear and no point is within the tolerance of another or of a segment, then, whatever the insertion order and the random draws, when the constructor returns: no given point lies strictly inside the circumcircle of a triangle listed by triangles(); the listed triangles cover every point inside any triangle of given points, that is the interior of the convex hull; and every three points with no other given point in or on their circle are the corners of a listed triangle. The same holds between the inner vertices after every insertion. The bounding vertices, although at a finite distance, never take a triangle away from the hull. Points on a common circle are allowed.", "quantifier": "all point lists in general position, all insertion orders and random draws, every geometry with exact side and circle tests", "why_tests_cant": "The empty circle property is global: it has to follow from local flips only, for every point set and every order of insertion.", "anchors": ["source/util/Triangulation.cpp: Triangulation::Triangulation, addPoint, isEdgeLegal, performFlip, divideTriangle", "source/util/geometry.cpp: isABDelaunay, isABCDConvex, isSameSide"]}
{"id": "C88", "title": "The triangulation does not depend on the shuffle or the random draws", "statement": "For points in general position with no four on a circle, two runs of the constructor that return, with any two insertion orders and any random draws, list the same triangles, compared by the indices of their corners.", "quantifier": "all point lists in general position without four cocircular points, all pairs of orders and draws", "why_tests_cant": "Quantifies over pairs of random runs for all point sets.", "anchors": ["source/util/Triangulation.cpp: Triangulation::Triangulation (std::shuffle), enclosingTriangle (mt), triangles"]}
{"id": "C89", "title": "The search for the triangle of a new point", "statement": "For points in general position (as in C78), after every prefix of the insertions and from whatever edge enclosingTriangle has come to, there are random draws that end the search within twice as many rounds as points inserted plus one, in the triangle that strictly contains the point; so with fair draws the search ends with probability one, and for every order of insertion and of the sets there are draws for which the whole constructor returns. It is not true that it ends for all draws: there are six points in general position for which a generator that always answers zero when both sides are possible keeps the search going round for ever.", "quantifier": "all point lists in general position, all insertion orders, all starting edges; for the negative part one explicit point list and all numbers of rounds", "why_tests_cant": "A random walk that ends in every test may still be able to cycle, and whether the end can always be reached is a statement about all meshes.", "anchors": ["source/util/Triangulation.cpp: enclosingTriangle, addPoint, Triangulation::Triangulation"]}
{"id": "C90", "title": "A calibration file gives the camera it describes, or is rejected", "statement": "For a file tagged omnidirectional that holds scale, centre, the number of coefficients and the coefficients (at least one), the file constructor builds exactly the camera of the other constructor, and anything after is ignored. A file without the tag is rejected with an exception. Boundaries: only the tag is checked. A file cut short at any word, or with something that is not a number in place of any word but the last coefficient, makes the constructor use values never written (undefined behaviour); in place of the last coefficient it is silently read as 0.", "quantifier": "all files, image sizes and fits", "why_tests_cant": "Every way of cutting or spoiling a file; uninitialised reads do not fail in a test.", "anchors": ["source/system/CameraModel.cpp: CameraModel(int, int, const std::string &, const Settings::CameraModel &), operator>>"]}
{"id": "C91", "title": "What undistort shows, and the radius of an angle", "statement": "A pixel of the undistorted image shows the image at the truncated projection of its ray exactly when that projection is greater than -1 and less than the size in both coordinates, and is zero otherwise, so no pixel outside the image is read; the pixel shown is the one whose unit cell contains the projection if the projection is not negative. Boundaries: a ray that leaves the image on the left or top by less than a pixel still shows the border pixel, and a projection outside the range of int is undefined behaviour. getImgRadiusByAngle is the distance from the image centre of the projection of every ray at that angle, and getRectByAngle of the angle of the corner is the size of the image.", "quantifier": "all cameras, camera matrices, images and pixels", "why_tests_cant": "Quantifies over all real projections; truncation towards zero differs from floor only in a strip a test image rarely hits.", "anchors": ["include/system/CameraModel.h: undistort", "source/system/CameraModel.cpp: getImgRadiusByAngle, getRectByAngle"]}
{"id": "C92", "title": "The Jacobian of the camera map is its derivative", "statement": "diffMap returns the point map returns, and for every ray off the optical axis its two rows are the derivatives of the projection: along every line through the ray the projection has a derivative and it is the row times the direction. So the step of the epipolar search is one over the speed with which the projection moves along the search curve, one pixel to first order, and the search direction used for the predicted error is the tangent of that curve. Boundary: on the optical axis (for two or more map coefficients) none of the derivatives is a finite number, although the derivative of the map may exist there.", "quantifier": "all cameras, rays, directions and search intervals", "why_tests_cant": "A derivative is a limit; finite differences in a test check neither all rays nor the singular one.", "anchors": ["source/system/CameraModel.cpp: diffMap", "include/system/CameraModel.h: map", "source/system/ImmaturePoint.cpp: pointsToTrace, traceOn"]}
{"id": "C93", "title": "The affine light along a run", "statement": "If the configured bounds allow the identity, then after initialisation every affine light of every frame ever tracked, and every guess handed to the tracker, lies within the bounds; with light optimisation off all are the identity. Each frame is tracked starting from the light found for the frame before it. A system restored after a frame that did not become a keyframe continues from the same light as the saved one. Boundaries: if the bounds exclude the identity no frame is ever tracked, every one gets its predicted motion; the guess is not converted when the base keyframe changes, so a frame equal to its new base keyframe does not start from the identity; a system restored right after a keyframe starts from the light of the frame before that keyframe, and if the keyframe before has no tracked frame this is undefined behaviour.", "quantifier": "all sequences of frames, base keyframes, predictions and fates, all solvers obeying the bounds contract", "why_tests_cant": "An invariant of runs of any length over all solver behaviours.", "anchors": ["source/system/DsoSystem.cpp: addFrame (lightKfToLast), DsoSystem(const SnapshotLoader &, ...)", "source/system/FrameTracker.cpp: trackFrame", "include/system/AffineLightTransform.h"]}
{"id": "C94", "title": "The pointers an observer keeps stay valid between calls", "statement": "An observer that keeps the frame of the last newFrame and the keyframe of the last newKeyFrame notification, as DebugImageDrawer does, can use both after every call of addFrame: no frame is notified up to the initialisation, afterwards the kept frame is the last one accepted and belongs to a keyframe still in the window, and the kept keyframe is the base keyframe of the window, whatever is retired, adjusted or activated. Boundaries: if choosing of new keyframes is switched off, a frame that is due belongs to no keyframe when addFrame returns, so only the returned shared pointer keeps it and an observer of a caller that drops the result holds a dangling pointer; right after a promotion with tracking against the newest keyframe the two pointers denote the same frame, although baseToThis of that frame is still its motion relative to the keyframe before, so the drawn reprojections mix two keyframes.", "quantifier": "all sequences of calls, settings, results of tracking, selection and adjustment", "why_tests_cant": "Lifetime of objects after every prefix of every run; a dangling pointer usually goes unnoticed in a test.", "anchors": ["source/output/DebugImageDrawer.cpp: newFrame, newKeyFrame, draw", "source/system/DsoSystem.cpp: addFrame, marginalizeFrames", "samples/mfov/genply/main.cpp: main"]}
{"id": "C95", "title": "The sampling of the ground-truth cloud", "statement": "For a positive request --gt_points the ground-truth cloud takes from each of the frames start..start+count-1 the pixels whose coordinates are multiples of the least step s with count*w*h <= gt_points*s*s and whose depth is at most 1e10, in reading order, each as the point at its depth along the viewing ray of the pixel with the pixel's colour. A frame outside the ground-truth list is never sampled without undefined behaviour. If s divides both image sizes there are at most gt_points points; in general there are count*ceil(w/s)*ceil(h/s) when no pixel is too far, which can exceed the request (16 points for a request of 15 from one 10x10 frame). Every point written with --gen_gt_only, seen from the true pose of its frame, is the sampled point. A zero or negative request is undefined behaviour.", "quantifier": "all image sizes, requests, ranges of frames, depth maps, images, cameras and poses", "why_tests_cant": "The step is a rounded square root; the bound on the number of points and the place of every point concern all sizes and requests.", "anchors": ["samples/mfov/genply/main.cpp: readPointsInFrameGT, main (gen_gt_only)", "samples/mfov/reader/MultiFovReader.cpp: getDepths, getFrame, getWorldToFrameGT"]}
{"id": "C96", "title": "The planar terrain interpolates over its own Delaunay triangulation", "statement": "A Terrain built over points in general position answers every query that ends without an invalid access. Strictly inside the convex hull of the points, away from the edges, Terrain::operator() returns true with the linear interpolation, at the query point, of the absolute depths at the three corners of the Delaunay triangle containing it; outside the hull it returns false; an answer lies between the least and the greatest absolute depth; at an input point an answer is the absolute depth of that point. With no four points on a circle the answer depends neither on the order of insertion nor on the random draws. At an input point on the hull the same query of the same terrain can return true once and false the next time. hasInterpolatedDepth agrees with operator() for the same draws and dereferences a null pointer exactly for points outside the bounding triangle.", "quantifier": "all point sets in general position, all insertion orders and random draws for which the search ends, all depths, all query points", "why_tests_cant": "A test fixes the seed, a few points and a few queries; the claim covers every point set, order, draw and query point, and the dependence on the draw shows only for particular draws.", "anchors": ["source/util/Terrain.cpp:5-45", "source/util/Triangulation.cpp:247-370", "include/util/Terrain.h"]}
{"id": "C97", "title": "What the genply sample writes and shows over a run", "statement": "Running genply on frames start..start+count-1: the debug and tracking images are written for every frame, under the number of that frame, the residual pyramid exactly for the frames at which the system takes a new base frame (the initialisation frame and every keyframe after it), and the windows are shown in the same order; a run that stops early has produced a beginning of this list, a run that ends normally all of it, then the snapshot. No numbered image is written twice, but interpolation.jpg is overwritten for every frame from the initialisation on, and never written with plain triangulation. With sane settings and readable frames the run ends normally, except: with gen_gt and fewer frames than the initialisation needs it aborts on destruction; if new keyframes are never chosen while debug images are asked for, the first due frame reads a freed frame; without write_files and without an existing output directory it dies with an exception before reading a frame. gen_gt_only writes pointsGT.ply into the working directory instead of the output directory.", "quantifier": "all flag combinations, settings, frame counts, tracking and keyframe results, data sets, directory states", "why_tests_cant": "The program needs a data set and a display; which image belongs to which frame depends on drawer state carried across frames, and the bad endings need particular flag and setting combinations.", "anchors": ["samples/mfov/genply/main.cpp:91-230", "source/output/DebugImageDrawer.cpp:12-106", "source/output/TrackingDebugImageDrawer.cpp:12-48", "source/output/DepthPyramidDrawer.cpp:11-37", "source/output/InterpolationDrawer.cpp:6-8"]}
{"id": "C98", "title": "What the photometric residuals measure", "statement": "The bundle adjustment cost depends only on the relative geometry and the relative gains of the keyframes: moving, turning or scaling the whole world (depths scaled along), or multiplying all gains by one factor, changes neither which points count as visible, nor the set of residuals, nor any residual, nor the cost. The parameters held constant remove this freedom completely: if an adjustment has moved all keyframes by one similarity or one common gain, it has moved nothing. The cost is never negative and is zero exactly when each pattern pixel and the pixel of the other keyframe showing the same world point have the same brightness-corrected intensity; each loss is quadratic up to the outlier threshold and linear beyond. All pixels of a pattern are taken to lie at the distance of their point, on a sphere around the base camera. For a base keyframe without brightness correction the tracking residual is the bundle adjustment residual for the relative motion times the gain. A point counts as visible in another keyframe exactly when the world point maps into its image within the border.", "quantifier": "all cameras, images, patterns, poses, depths, lights, similarities, solvers meeting the contract", "why_tests_cant": "Invariance under all similarities and the absence of remaining freedom are statements about every pose and every solver; a test evaluates the cost at a few parameter values.", "anchors": ["source/system/BundleAdjuster.cpp:20-97", "source/system/BundleAdjuster.cpp:135-226", "source/system/FrameTracker.cpp:13-46", "include/system/CameraModel.h:54-75"]}
{"id": "C99", "title": "Drawing a planar triangulation", "statement": "Triangulation::draw(img) draws each listed edge exactly once, between pixels that are less than two pixels up and to the left of its end points, and at exactly the truncated coordinates when the upper left corner of the bounding box is a pixel; otherwise a point may be drawn one pixel off, because the offset and the corner are truncated separately. Triangulation::draw(width, height) draws each listed edge exactly once; if the bounding box of the points is square all lines are on the image and past the padding, in the order of the coordinates. For other boxes this is false: the scale of each direction is computed from the extent in the other one, so with a box wider than high (or higher than wide) by the factor 1 + 2 padding the rightmost (lowest) points are drawn outside the image, and a box without extent in one direction is undefined behaviour. drawCurved draws every listed edge exactly twice, since it never records the edges drawn. Edges of the bounding triangle are never drawn.", "quantifier": "all rational points in general position, insertion orders, random draws, image sizes and paddings; for the counts all meshes whose records agree", "why_tests_cant": "a test compares a few images; that the exchanged scales are harmless exactly for square boxes, and that each edge is drawn once or twice for every triangulation, needs the mesh invariants for all inputs", "anchors": ["source/util/Triangulation.cpp:593-632", "source/util/Triangulation.cpp:657-670"]}
{"id": "C100", "title": "What fillUncovered of a spherical triangulation fills", "statement": "SphericalTriangulation::fillUncovered colours exactly the pixels of the 11 by 11 squares at the grid points 0, 10, 20, ... whose viewing ray makes an angle of at most 90 degrees with some ray of the triangulation, and changes no other pixel. In particular it fills what lies within the convex hull of the rays, which is what the triangulation covers. The underlying test isInConvexDummy is not a test for the convex hull: since it also tries triples of equal rays, for which the least-squares solution has a single coefficient, it accepts every ray in the half-space of some stored ray; with the three axes it accepts (1,-1,-1).", "quantifier": "all sets of non-zero rays, cameras, image sizes and images, and all solvers that return least-squares solutions", "why_tests_cant": "the coincidence of the triple loop with a union of half-spaces is a statement about all rays and all least-squares solutions", "anchors": ["source/util/SphericalTriangulation.cpp:131-161", "source/util/geometry.cpp:107-115"]}
{"id": "C101", "title": "Arcs drawn by a spherical triangulation", "statement": "SphericalTriangulation::draw draws exactly one arc for every unordered pair of rays that are neighbours in some sector. An arc (also those of Triangulation::drawCurved) is drawn as 50 segments between 51 points that begin at the one ray, end at the other and lie on the shorter great circle between them in equal angular steps, within the cone between the rays. This fails only for opposite rays: all points then coincide with the first ray and the other is not reached.", "quantifier": "all lists of sectors; all pairs of non-zero rays; all cameras", "why_tests_cant": "a test sees some pixels; that every arc stays in the cone of its two rays and ends at the second for all rays is a geometric theorem", "anchors": ["source/util/SphericalTriangulation.cpp:70-96", "source/util/SphericalTriangulation.cpp:169-190", "source/util/Triangulation.cpp:634-655"]}
{"id": "C102", "title": "The motion of an essential matrix", "statement": "extractMotion never stops on the decomposition of a matrix: whatever the signs of the singular vectors, the four candidate motions are rigid with translations of length one. If the matrix is a multiple of the essential matrix of a motion, the four candidates are exactly the motions that explain it, the true one (with its translation brought to length one) among them. For correspondences of points in front of both cameras and off the base line, the true candidate has positive depths for all of them and each other candidate for none, so extractMotion returns the true motion and keeps every correspondence.", "quantifier": "all 3x3 matrices and all decompositions meeting the contract, all rigid motions with a translation, all scale factors other than 0, all non-empty lists of exact correspondences", "why_tests_cant": "The decomposition is not unique: signs and bases of the singular vectors depend on the library; that the front check separates the candidates is a statement about every motion and every point.", "anchors": ["source/system/StereoGeometryEstimator.cpp:95-168", "source/util/geometry.cpp:17-28"]}
{"id": "C103", "title": "What the reprojection error of a correspondence measures", "statement": "A correspondence that satisfies the epipolar constraint has reprojection error 0, so exact correspondences are inliers of every multiple of the true essential matrix. Away from the epipoles a correspondence is an inlier exactly when at least one of its points is within the threshold of the image of the nearest direction in its epipolar plane; the other point may be arbitrarily far off (refuted bound). A ray within 1/100 of the epipole matches everything (refuted). The refinement residual consists of the same two displacements, is 0 for exact correspondences and is 0 near the epipoles.", "quantifier": "all cameras, matrices, motions, rays and thresholds", "why_tests_cant": "The behaviour near epipoles and the one-sided acceptance need configurations that random tests rarely hit; the claims quantify over all of them.", "anchors": ["source/system/StereoGeometryEstimator.cpp:62-93", "source/system/StereoGeometryEstimator.cpp:251-308"]}
{"id": "C104", "title": "Motion and depths from two views", "statement": "On exact correspondences findCoarseMotion and findPreciseMotion return the true motion with its translation brought to length one, keep every correspondence as inlier, and depths() gives the distances of the points from the two cameras in units of the base line, for every sequence of random draws that has a sample of five different correspondences. With outliers among less than half of the correspondences the motion is still the true one and all exact correspondences are inliers, if a sample of exact ones is drawn before the stopping rule ends the search and no wrong matrix gathers as many inliers. depths() computes only once (refuted otherwise): asked before findPreciseMotion it keeps the depths of the coarse motion, asked before any motion it is zero for good.", "quantifier": "all cameras, motions with a translation, points in front of both cameras and off the base line, random draws, solvers meeting their contracts, thresholds, probabilities, iteration numbers", "why_tests_cant": "A test runs the estimator with one seed on one scene; the claim is about all scenes, seeds and signs chosen by the decomposition, and about all orders of calls.", "anchors": ["source/system/StereoGeometryEstimator.cpp:20-60", "source/system/StereoGeometryEstimator.cpp:170-249", "source/system/StereoGeometryEstimator.cpp:310-362"]}
{"id": "C105", "title": "Drawing of a tracing", "statement": "drawTracing draws one stroke across the search curve at every sample, in order: the first sample of lowest energy gets a black stroke of thickness 3 and twice the length, every other one a thin stroke coloured by its energy between the lowest and the highest. It is defined as soon as there are two samples and undefined below that. Inside traceOn it is only reached with at least two samples, so switching the drawing on never makes a tracing undefined and never changes its result, it happens exactly for successful tracings of active points, and (without NaN energies) the black stroke is at the sample whose energy is stored. But with limited search every sample is listed twice, so for a point of bounded depth the black stroke is drawn over by a thin one of the same sample.", "quantifier": "all sample lists, poses, images, settings and point states", "why_tests_cant": "Quantifies over all energy landscapes; the drawing ends in a window and is never compared.", "anchors": ["source/system/ImmaturePoint.cpp: drawTracing, traceOn"]}
{"id": "C106", "title": "Drawings of depths", "statement": "insertDepths throws for lists of different lengths and otherwise draws one circle per point at its truncated position in the colour of its depth. KeyFrame::drawDepthedFrame draws squares exactly for the ACTIVE immature points with a finite maxDepth and circles for all optimized points; along any history of tracings the depth it reads has been written; it is defined for different colour bounds and depths that are numbers, undefined for a NaN depth or a depth equal to both bounds. Terrain::drawDensePlainDepths throws for other image types and otherwise changes exactly the pixels for which the terrain has a depth (undefined when such a depth equals both bounds). InterpolationDrawer takes its colour bounds from the depths of the immature points, fills circles for the key points below the triangulation and draws the immature points above it; an immature point without depth would be undefined, which C85 excludes for the keyframes it is given.", "quantifier": "all point lists, depths, bounds, images and histories of tracings", "why_tests_cant": "Undefined conversions and uninitialised reads depend on data; histories are unbounded.", "anchors": ["source/util/util.cpp: insertDepths, depthCol", "source/system/KeyFrame.cpp: drawDepthedFrame", "source/util/Terrain.cpp: drawDensePlainDepths", "source/output/InterpolationDrawer.cpp: initialized"]}
{"id": "C107", "title": "Collecting tracing errors in parallel", "statement": "stat_epipolar writes, for every interleaving of its tasks, the errors of the ranges of frames one after another, each range as if worked off alone from a new selector and a new generator; if every range alone ends, every fair interleaving ends. It handles the frames from start to min(end, 2500 - shift) inclusive, needs the poses of each and of its partner (undefined otherwise) and, without --precise_placement, positive deviations and a camera that moves. At most as many errors as points asked for; a point traced to its true depth under the exact motion has error 0; a purely turning camera gives disparity 0. The file holds the nine numbers of each error in order. Hazards: the number of errors depends on how the work is divided; with ranges of one frame all frames get the same noise factors; a uniform frame followed by another in the same range never ends. Every row comes from a pair of frames and a point traced between them; its true depth is the one stored at the point's pixel and its errors are the distances in the second image between the true point and the estimated one.", "quantifier": "all flags, readers, images, tracings, generators, divisions into ranges and interleavings", "why_tests_cant": "Interleavings and divisions chosen by tbb are unbounded and not reproducible; the noise is random.", "anchors": ["samples/mfov/stat/stat_epipolar/main.cpp: EpipolarCurveErr::operator(), main", "include/util/util.h: outputArray"]}
{"id": "C108", "title": "Showing the selected points of a directory of images", "statement": "selectpix shows the files named .jpg or .png of a directory once each in the order of their names, whatever order readdir has, and ends normally exactly if all are shown. Every point drawn is (0,0) or a pixel off the last row and column with a gradient longer than 5; images made brighter, darker or negative get the same points. The first image is shown with at most 2000 points. Hazards: the first unreadable file ends the program with an exception (the test of line 50 never skips one), an image more than 1200 times as wide as high throws, a first image whose brightness varies by at most 7 makes the program run forever on the next one, a directory that cannot be opened is undefined behaviour.", "quantifier": "all directories, listings, images, minMaxLoc and shuffle choices", "why_tests_cant": "Depends on the listing order of the file system and on the state carried from image to image; non-termination is not observable by a test.", "anchors": ["samples/selectpix/main.cpp: isImage, main", "source/util/util.cpp: grad, cvtBgrToGray", "source/util/PixelSelector.cpp: select"]}
{"id": "C109", "title": "The counts of a traced frame", "statement": "The numbers the log tells after tracing all immature points on a new frame are right and are gathered without leaving their arrays: points traced successfully, points ready, points by number of tracings (below eight) and by pyramid level; the levels add up to all points and the last of two or more levels never has any. This holds for every sequence of frames with points added, read back and dropped in between, for one or more pyramid levels. Hazards: with a pyramid of one level no tracing ever succeeds and no new point ever gets ready; with none the first point is undefined behaviour; a negative number throws.", "quantifier": "all sequences of frames, points, tracing settings and views", "why_tests_cant": "The indices depend on the history of every point; a test sees some histories and some settings only.", "anchors": ["source/system/DsoSystem.cpp: addFrame (480-505)", "source/system/ImmaturePoint.cpp: traceOn, pyramid level"]}
{"id": "C110", "title": "The text of doubles", "statement": "Every double written with 17 or more significant digits is read back as the same double, infinities and both zeros included; so a snapshot, which writes 18, is read back exactly as it was saved with nothing assumed of the text of numbers. A number is written as the nearest number of the asked digits, and a numeral is read as the nearest double, failing only above all doubles. Coordinates of exported clouds are off by at most half a unit of the last digit and their text never breaks a line. Hazard: sixteen digits, the fifteen of the one-shot export and the six of the streamed cloud make different points fall together (a kilometre from the origin, points three millimetres apart).", "quantifier": "all doubles, all numerals, all precisions, all snapshots", "why_tests_cant": "There are 2^64 doubles, and those that lose digits are rare and look like any other.", "anchors": ["source/system/serialization.cpp: correctLocale, DataSerializer (7-23)", "source/util/util.cpp: printInPly (51, 68)", "source/util/PlyHolder.cpp: updatePointCloud (46)"]}
{"id": "C111", "title": "A sector drawn densely", "statement": "Drawing a sector of the spherical terrain puts its dots only on pixels of every tenth row and column, row by row and each once, with the distance at which the viewing ray meets the triangle of that very sector; a null sector draws nothing and no pixel is drawn for two sectors. If no viewing ray is in two sectors, every such pixel of the sector is drawn and the terrain is unchanged. Otherwise the sectors left are the same whichever sector is drawn, only sectors under visited pixels can be lost, and where one is left its pixel was drawn for some sector. Hazard: drawing changes the terrain, so that a second drawing, and depths asked for later, can lack what the first showed.", "quantifier": "all terrains, cameras, image sizes and sectors", "why_tests_cant": "The answer at a pixel depends on what all queries before it erased.", "anchors": ["source/util/SphericalTerrain.cpp: drawDenseTriangle (49-64)", "source/util/SphericalTriangulation.cpp: enclosingSector (42-68)"]}
