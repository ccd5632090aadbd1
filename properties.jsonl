{"id": "C01", "title": "Heap::pop returns and removes a smallest entry", "statement": "On a Heap holding at least one live entry, pop(address, value) returns the address and value of a live entry whose value is not greater than that of any other live entry, and afterwards exactly that entry is gone: every other live entry keeps its address and value. peek returns the value pop would return and changes nothing; size is the number of live entries.", "quantifier": "every capacity, every history of push/pop/set calls with ordered (non-NaN) values, every reachable heap", "why_tests_cant": "Tests insert a handful of literals in one or two orders; the claim is about every interleaving of push, set and pop and every tie pattern.", "anchors": ["src/Heap.cpp:push", "src/Heap.cpp:pop", "src/Heap.cpp:siftDown", "src/Heap.cpp:siftUp", "src/Heap.cpp:peek", "src/Heap.cpp:size"]}
{"id": "C02", "title": "Heap handles stay valid and set() re-prioritises exactly one entry", "statement": "The handle returned by push(address, value) denotes that entry until it is popped: set(handle, v) changes the value of exactly that entry to v, leaves every other entry alone and the heap again satisfies C01. set on a handle whose entry has already been popped never changes the set of live entries.", "quantifier": "every history of operations, every previously returned handle, every new value", "why_tests_cant": "The back-pointer bookkeeping is correct only if it survives every sequence of sifts; a test exercises a few swaps.", "anchors": ["src/Heap.cpp:set", "src/Heap.cpp:push", "src/Heap.cpp:siftUp", "src/Heap.cpp:siftDown"]}
{"id": "C03", "title": "Heap never touches memory out of bounds, whatever the comparison results", "statement": "As long as no more than maxLength entries are pushed over the lifetime of a Heap, every push/pop/set/peek/size call either succeeds or terminates the program through the documented check (push on full heap, pop or peek on empty heap); no call indexes outside its arrays and every call returns, even when values are NaN. Pushing more than maxLength entries in total, even with pops in between, is an out-of-bounds write.", "quantifier": "every capacity, every operation history with at most maxLength pushes, every outcome of floating point comparisons", "why_tests_cant": "Out-of-bounds access may go unnoticed in a test run, and NaN patterns are not enumerable.", "anchors": ["src/Heap.cpp:push", "src/Heap.cpp:pop", "src/Heap.cpp:siftDown", "src/Heap.cpp:siftUp", "src/Heap.cpp:set"]}
{"id": "C04", "title": "Draining a heap sorts it", "statement": "Pushing any list of (address, value) pairs and popping until empty returns a permutation of the pushed pairs in non-decreasing order of value.", "quantifier": "every list of ordered values and every sufficient capacity", "why_tests_cant": "Sorting must hold for all lists, not the two lists in the unit test.", "anchors": ["src/Heap.cpp:push", "src/Heap.cpp:pop"]}
{"id": "C05", "title": "The heap self-test never aborts a correct program", "statement": "With isTest enabled, the consistency checks executed after each operation never fail: a program using the self-testing heap behaves identically to one that does not.", "quantifier": "every history of operations on ordered values", "why_tests_cant": "A check that misfires only for a particular shape of heap is not found by a few literal pushes.", "anchors": ["src/Heap.cpp:test", "src/Heap.cpp:push", "src/Heap.cpp:pop", "src/Heap.cpp:set"]}
{"id": "C06", "title": "Mesh numbering is a bijection between indices and grid coordinates", "statement": "A Mesh(width, height) has (width+1)*(height+1) nodes and width*height elements; node i is at (i mod (width+1), i div (width+1)), xyToIndex[x][y] is the inverse map, and element j has centre (j mod width + 1/2, j div width + 1/2).", "quantifier": "every width, height >= 1 whose node count fits an unsigned int", "why_tests_cant": "Tests check a 3x3 mesh; the arithmetic (including the float division used to get coordinates) must be right for each size.", "anchors": ["src/Mesh.cpp:Mesh", "src/Mesh.cpp:initialiseNodes", "src/Mesh.cpp:initialiseElements"]}
{"id": "C07", "title": "Mesh neighbours are exactly the four grid neighbours", "statement": "Neighbours 0..3 of a node are the left, right, lower and upper grid neighbours when they exist and the out-of-bounds marker nNodes exactly when they do not; the relation is symmetric (my right neighbour's left neighbour is me) and commutes around an element.", "quantifier": "every mesh size >= 1x1 and every node", "why_tests_cant": "The modular (wrap-around) arithmetic has special cases at each border and for width or height 1.", "anchors": ["src/Mesh.cpp:initialiseNeighbours"]}
{"id": "C08", "title": "Element corners and node-to-element incidence agree", "statement": "Element j's nodes are its four corners in anticlockwise order from bottom-left; a node lists exactly the elements it is a corner of, without repeats, so 1, 2 or 4 of them; construction never writes past the four slots.", "quantifier": "every mesh size >= 1x1, every element and node", "why_tests_cant": "Incidence is built incrementally; correctness for all sizes needs induction.", "anchors": ["src/Mesh.cpp:initialiseElements"]}
{"id": "C09", "title": "Domain-border nodes are flagged exactly", "statement": "A node is marked as lying on the domain boundary if and only if its x is 0 or width or its y is 0 or height.", "quantifier": "every mesh size and node", "why_tests_cant": "Needs all sizes.", "anchors": ["src/Mesh.cpp:initialiseNodes"]}
{"id": "C10", "title": "getElement returns an element that contains the point", "statement": "For a point inside the domain, getElement(x, y) returns the index of an existing element whose closed unit square, enlarged by the code's 1e-6 tolerance, contains (x, y).", "quantifier": "every mesh size and every point of the closed domain", "why_tests_cant": "The inputs are a continuum and rounding near element edges is the hard case.", "anchors": ["src/Mesh.cpp:getElement"]}
{"id": "C11", "title": "getClosestNode returns a nearest node", "statement": "For a point inside the domain, getClosestNode(x, y) returns an existing node and no other node is closer. Points outside the domain are not protected: to the right of the domain the call returns a node of another row or reads out of bounds.", "quantifier": "every mesh size and every point of the closed domain", "why_tests_cant": "A continuum of inputs; ties and borders are special cases.", "anchors": ["src/Mesh.cpp:getClosestNode"]}
{"id": "C12", "title": "Fast marching always terminates safely and finalises the whole field", "statement": "On a freshly constructed FastMarchingMethod, march(signedDistance) with a vector of nNodes values never reads or writes out of bounds, always terminates, and either exits through the documented error (no node at or next to the zero contour) or returns with a final value for each node: every non-frozen node enters the heap at most once and leaves it exactly once.", "quantifier": "every mesh, every vector of doubles (including NaN and infinities), every arithmetic rounding", "why_tests_cant": "Termination of the heap loop and heap capacity for each possible input cannot be sampled.", "anchors": ["src/FastMarchingMethod.cpp:march", "src/FastMarchingMethod.cpp:initialiseFrozen", "src/FastMarchingMethod.cpp:initialiseHeap", "src/FastMarchingMethod.cpp:initialiseTrial", "src/FastMarchingMethod.cpp:solve"]}
{"id": "C13", "title": "Reinitialisation keeps the zero contour in place", "statement": "After march, nodes that were exactly zero are still zero, and each node adjacent to a sign change receives the distance to the interpolated zero crossings of its own incident edges: sign unchanged, magnitude in (0, 1], determined only by the node and its neighbours.", "quantifier": "every mesh and field on the mesh", "why_tests_cant": "Drift of the front is a property of every field; a test checks two.", "anchors": ["src/FastMarchingMethod.cpp:initialiseFrozen"]}
{"id": "C14", "title": "Reinitialisation never flips the sign of a node", "statement": "After march, every node that was outside (negative) is negative and every node that was inside (positive) is positive, so reinitialisation never adds or removes material.", "quantifier": "every mesh and each field whose positive values exceed machine epsilon", "why_tests_cant": "Random tests pass even when rare fall-back branches of the quadratic solver could flip signs.", "anchors": ["src/FastMarchingMethod.cpp:march", "src/FastMarchingMethod.cpp:updateNode", "src/FastMarchingMethod.cpp:solveQuadratic"]}
{"id": "C15", "title": "Velocity extension leaves the level set and known velocities alone", "statement": "march(signedDistance, velocity) returns with signedDistance exactly as it was passed and the velocities of nodes adjacent to (or on) the boundary exactly as passed; only nodes being extended receive new values.", "quantifier": "every mesh, signed distance and velocity field", "why_tests_cant": "A frame property: it must hold for each node and input.", "anchors": ["src/FastMarchingMethod.cpp:march", "src/FastMarchingMethod.cpp:finaliseVelocity"]}
{"id": "C16", "title": "Extended velocities stay within the range of the known velocities", "statement": "Each velocity written by the extension is a weighted average of already final velocities, with non-negative weights: it lies between the minimum and maximum of the velocities on the boundary nodes.", "quantifier": "every mesh, signed distance field, and velocity field", "why_tests_cant": "Maximum principle over all inputs and marching orders.", "anchors": ["src/FastMarchingMethod.cpp:finaliseVelocity", "src/FastMarchingMethod.cpp:solve"]}
{"id": "C17", "title": "Fast marching reproduces the distance to a straight axis-aligned front", "statement": "If the field is a signed distance to an axis-aligned line then march returns it unchanged in exact arithmetic.", "quantifier": "every mesh size, every position and orientation of an axis-aligned line meeting the mesh", "why_tests_cant": "Exactness for each mesh size needs induction over the marching order.", "anchors": ["src/FastMarchingMethod.cpp:march", "src/FastMarchingMethod.cpp:updateNode"]}
{"id": "C18", "title": "LevelSet rejects invalid parameters", "statement": "Constructing a LevelSet with bandWidth <= 2, or a move limit that is not strictly between 0 and 1 (NaN included), exits with failure, for all six constructors; with valid parameters and any list of holes it succeeds.", "quantifier": "every mesh, move limit, band width and hole list", "why_tests_cant": "All doubles including NaN have to be classified.", "anchors": ["src/LevelSet.cpp:LevelSet"]}
{"id": "C19", "title": "The narrow band is exactly the near-interface nodes", "statement": "After initialisation or reinitialisation the narrow band lists, in strictly increasing order and without repetition, exactly the nodes with |signedDistance| < bandWidth (excluding fixed and, for a fixed domain, border nodes); a node is active if and only if it is in the band.", "quantifier": "every mesh, field, band width and set of masked nodes", "why_tests_cant": "Needs all fields and all sizes.", "anchors": ["src/LevelSet.cpp:initialiseNarrowBand"]}
{"id": "C20", "title": "Mines guard the edge of the narrow band", "statement": "A node is recorded as a mine exactly when it lies in the narrow band within one grid unit of its edge; update() returns true (and reinitialises) if and only if after the step some mine is within one grid unit of the interface.", "quantifier": "every mesh, field, band width, velocity field and time step", "why_tests_cant": "All histories of updates.", "anchors": ["src/LevelSet.cpp:initialiseNarrowBand", "src/LevelSet.cpp:update"]}
{"id": "C21", "title": "update() moves only narrow-band nodes and keeps the domain border outside", "statement": "update(timeStep) changes signedDistance only at nodes of the narrow band (to sd - timeStep*gradient*velocity, clamped at 0 from above on the domain border) and, unless it reports a reinitialisation, leaves every other node bit-for-bit unchanged; after it border nodes of the band are <= 0.", "quantifier": "every mesh, state and time step", "why_tests_cant": "A frame property quantified over all states.", "anchors": ["src/LevelSet.cpp:update"]}
{"id": "C22", "title": "Masked regions stay outside the structure for ever", "statement": "After mask() or construction with a mask, masked nodes keep a negative signed distance through every later sequence of update, reinitialise and velocity calls; without reinitialisation their value is unchanged.", "quantifier": "every mesh, mask and every finite history of calls", "why_tests_cant": "History quantification.", "anchors": ["src/LevelSet.cpp:mask", "src/LevelSet.cpp:update", "src/LevelSet.cpp:reinitialise"]}
{"id": "C23", "title": "Initial signed distance is the distance to the nearest feature", "statement": "Initialising with holes gives at each node the minimum over the domain border distance and radius-signed distances of all holes: it is never larger than any of them, equals one of them, and does not depend on the order of the holes; the sign is negative exactly inside some hole.", "quantifier": "every mesh, every list of holes, every node", "why_tests_cant": "All hole lists, permutations.", "anchors": ["src/LevelSet.cpp:initialise", "src/LevelSet.cpp:closestDomainBoundary"]}
{"id": "C24", "title": "Mask application has set semantics", "statement": "mask with holes/points marks and sinks exactly the nodes inside one of the circles/rectangles (idempotent, order independent) and leaves every other node unchanged.", "quantifier": "every mesh, region list and level set", "why_tests_cant": "Set semantic over all region lists.", "anchors": ["src/LevelSet.cpp:mask"]}
{"id": "C25", "title": "Gradients vanish outside the band, are non-negative inside, and are computed safely", "statement": "computeGradients sets the gradient to 0 outside the narrow band and to a non-negative number inside, reads no node outside the mesh for width, height >= 4 (and does for smaller ones) whatever the velocities.", "quantifier": "every mesh with width and height >= 4, every field and velocity", "why_tests_cant": "Stencil indexing at each border case: memory safety must hold for all nodes.", "anchors": ["src/LevelSet.cpp:computeGradients", "src/LevelSet.cpp:computeGradient"]}
{"id": "C26", "title": "The gradient of an affine field is exact", "statement": "If signedDistance is affine, a*x+b*y+c, then in exact arithmetic every narrow-band node gets gradient sqrt(a^2+b^2), for either velocity sign, on the border as well as inside; the only exception is a corner node when both |a| and |b| are below 1e-6.", "quantifier": "every slope (not degenerate under the 1e-6 guard), mesh, node and velocity", "why_tests_cant": "A continuum of slopes.", "anchors": ["src/LevelSet.cpp:computeGradient", "src/LevelSet.cpp:gradHJWENO"]}
{"id": "C27", "title": "HJ-WENO is a convex combination of three stencils", "statement": "gradHJWENO returns, in exact arithmetic, a convex combination of the three third-order ENO candidates, hence lies within their range and is exact on constant differences; it never divides by zero.", "quantifier": "every 5-tuple of values", "why_tests_cant": "Continuum of inputs, division by zero guard.", "anchors": ["src/LevelSet.cpp:gradHJWENO"]}
{"id": "C28", "title": "Area fractions are fractions and account for the total area", "statement": "computeAreaFractions gives each element a value in [0, 1]: 1 when the element is inside, 0 when outside, the area of the inside polygon when cut (triangles, trapezoids and pentagons given by linear interpolation on the edges; for a saddle, by the side of the centre); the returned total equals the sum over elements and hence lies between 0 and width*height; nothing else changes.", "quantifier": "every mesh and boundary for the total and the uncut elements; in exact arithmetic, every field for which discretise is shown to succeed for the cut elements", "why_tests_cant": "All fields.", "anchors": ["src/LevelSet.cpp:computeAreaFractions", "src/LevelSet.cpp:cutArea", "src/LevelSet.cpp:polygonArea", "src/LevelSet.cpp:isClockwise"]}
{"id": "C29", "title": "pointToLineDistance is the distance to the segment", "statement": "The helper used to initialise from polygons returns the minimum Euclidean distance from the point to the closed segment, for each segment at least a thousandth long and each segment that is a single point; for shorter segments it is at most a thousandth too large.", "quantifier": "every two end points and query point", "why_tests_cant": "Continuum.", "anchors": ["src/LevelSet.cpp:pointToLineDistance"]}
{"id": "C30", "title": "Velocities transferred to the grid are averages of boundary-point velocities", "statement": "computeVelocities assigns to every narrow-band node next to the zero contour the average of the velocities of the boundary points around it, weighted by inverse squared distance, hence a value between the smallest and largest of them; a node coinciding with a boundary point takes its velocity. If the narrow band covers the zero contour, no velocity in the band leaves the range spanned by the boundary point velocities and zero.", "quantifier": "every mesh, reachable level set, list of boundary points in the domain, point velocities and node", "why_tests_cant": "All boundaries.", "anchors": ["src/LevelSet.cpp:initialiseVelocities", "src/LevelSet.cpp:computeVelocities"]}
{"id": "C31", "title": "Node and element status classify the field", "statement": "After discretise each node is BOUNDARY when its signed distance is within 1e-6 of zero, otherwise OUTSIDE when negative and INSIDE when not. An element is INSIDE exactly when no corner is OUTSIDE, OUTSIDE exactly when some corner is OUTSIDE and none INSIDE; with corners on both sides it is NONE, or, only when all four edges are cut, CENTRE_INSIDE or CENTRE_OUTSIDE by the sign of the sum of its corner values. Nothing else changes: signed distance, velocities, band, masks and geometry stay as they were.", "quantifier": "every mesh, every history of calls, every field (NaN included) for which discretise completes", "why_tests_cant": "All fields.", "anchors": ["src/Boundary.cpp:computeMeshStatus"]}
{"id": "C32", "title": "Boundary points lie on the zero contour", "statement": "Every boundary point produced by discretise is a grid node whose signed distance is zero within tolerance or the zero of the linear interpolant along a grid edge whose end nodes have opposite status; all points are inside the domain.", "quantifier": "every mesh and field for which discretise completes", "why_tests_cant": "All fields.", "anchors": ["src/Boundary.cpp:discretise"]}
{"id": "C33", "title": "Boundary segments are well formed", "statement": "Every segment joins two existing boundary points, is recorded with its element, and has length equal to the distance of its end points. If no edge is cut within 1e-6 of one of its end nodes the end points lie on the border of that element, so the length is at most sqrt 2; in general each is within 1e-6 of such a point.", "quantifier": "every mesh and field for which discretise completes", "why_tests_cant": "All fields.", "anchors": ["src/Boundary.cpp:discretise", "src/Boundary.cpp:segmentLength"]}
{"id": "C34", "title": "Boundary length is consistently accounted", "statement": "The total boundary length is the sum of the segment lengths and equals the sum over points of the length attributed to each point.", "quantifier": "every discretised boundary", "why_tests_cant": "All boundaries (exact arithmetic identity).", "anchors": ["src/Boundary.cpp:discretise", "src/Boundary.cpp:computePointLengths"]}
{"id": "C35", "title": "Boundaries of well-separated fields are closed curves", "statement": "If no node is within tolerance of zero, no edge is cut within tolerance of its ends, and every cut edge is visible (target field, or an end in the band or masked), then discretise succeeds without going out of bounds; there is exactly one point on every cut edge and no other; every point strictly inside the domain is the end of exactly two segments and every point on the border of exactly one; no segment is degenerate. In each element every cut edge is the end of exactly one of its segments, each segment joins two different edges, and in a saddle (four cut edges) the status is the side of the mean corner value and each segment cuts off a corner of the other side, unless that mean is exactly zero. With nodes on the contour none of this is guaranteed: out-of-bounds writes occur.", "quantifier": "every mesh and field with all nodes off the contour, in exact arithmetic", "why_tests_cant": "Topological property over all fields.", "anchors": ["src/Boundary.cpp:discretise", "src/Boundary.cpp:isAdded"]}
{"id": "C36", "title": "Boundary points carry admissible move limits and flags", "statement": "Each boundary point gets positiveLimit = moveLimit and negativeLimit = minus the least of moveLimit, the distance to the domain border and the distance to its closest node when that node is masked; so it lies in [-moveLimit, 0] and shrinks to 0 as the point approaches the border. isDomain is set exactly when the point is within 1e-6 of the border (and closer than moveLimit); isFixed exactly when a masked node is within 1e-6.", "quantifier": "every reachable level set and every boundary point of every completed discretise", "why_tests_cant": "Continuum of positions.", "anchors": ["src/Boundary.cpp:initialisePoint"]}
{"id": "C37", "title": "Boundary normals are unit vectors along the gradient", "statement": "After discretise, computeNormalVectors returns and changes only normals. In exact arithmetic each boundary point off the border of the domain gets a normal of unit length unless the gradients around it cancel, and on a plane that normal is the unit gradient. (Points on the border are not normalised: refuted there.)", "quantifier": "every reached level set, every boundary made by discretise, every point", "why_tests_cant": "Continuum of fields.", "anchors": ["src/Boundary.cpp:computeNormalVectors"]}
{"id": "C38", "title": "Optimised displacements respect the CFL limit", "statement": "After solve every boundary point displacement velocity*timeStep has magnitude at most maxDisplacement and, on the domain border, is at least the point's negative limit, whatever the external optimiser does, provided the negative limits on the border lie between -maxDisplacement and 0. Without that proviso the limit can be exceeded.", "quantifier": "every boundary, sensitivities, and every behaviour of the NLopt call after which solve returns with a non-zero time step", "why_tests_cant": "External optimiser result cannot be enumerated.", "anchors": ["src/Optimise.cpp:solve", "src/Optimise.cpp:rescaleDisplacements", "src/Optimise.cpp:computeDisplacements"]}
{"id": "C39", "title": "Velocities and the time step reproduce the displacement", "statement": "After solve the time step is |lambda_0|, where lambda are the multipliers left in the caller's vector, and the velocity of every point is its displacement divided by the time step, the displacement being the combination of its sensitivities with lambda (cut at the negative limit on the domain border, 0 for fixed points). No other field of a point changes.", "quantifier": "every boundary and every behaviour of the NLopt call after which solve returns", "why_tests_cant": "All results.", "anchors": ["src/Optimise.cpp:solve"]}
{"id": "C40", "title": "The predicted objective change is the boundary integral of sensitivity times displacement", "statement": "The value returned by solve equals the sum over boundary points of sensitivity * length * displacement, if NLopt reports the objective at the multipliers it returns and either no moving point lies on the domain border or no displacement has been scaled back to the limit. With a border point held at its limit and another point scaled back, the returned value is wrong.", "quantifier": "every boundary and optimiser result", "why_tests_cant": "All results.", "anchors": ["src/Optimise.cpp:solve", "src/Optimise.cpp:computeFunction"]}
{"id": "C41", "title": "Only unreachable inequality constraints are relaxed or dropped", "statement": "Of the constraints, NLopt is given, in their order, the equalities and exactly those inequalities whose distance is at most 0.99 times the largest change that the multipliers of the given functions allow; the distance given is the caller's, cut to plus or minus that bound. solve returns a value only if all constraints were given or none; dropping some but not all leads to undefined behaviour.", "quantifier": "every list of constraints and boundary without moving points on the domain border, every behaviour of NLopt", "why_tests_cant": "All constraint lists.", "anchors": ["src/Optimise.cpp:computeConstraintDistances", "src/Optimise.cpp:solve"]}
{"id": "C42", "title": "The optimiser callback is the linear model with the right gradient", "statement": "The function handed to NLopt is a positive factor times (change of the function for the displacements of the multipliers minus the given distance); for points without side limits its difference between any two multiplier vectors is the reported gradient times their difference.", "quantifier": "every boundary, lambda and constraint list of which all or nothing has been removed", "why_tests_cant": "Continuum.", "anchors": ["src/Optimise.cpp:callback", "src/Optimise.cpp:computeFunction", "src/Optimise.cpp:computeGradients"]}
{"id": "C43", "title": "Finite-difference sensitivities restore the boundary point and are exact on quadratics", "statement": "computeSensitivity calls the callback only at point +- delta*normal, leaves the point where it was, and returns the exact directional derivative (per unit length) for each callback that is quadratic along the normal.", "quantifier": "every point, delta, quadratic callback", "why_tests_cant": "Continuum.", "anchors": ["src/Sensitivity.cpp:computeSensitivity"]}
{"id": "C44", "title": "The Ito correction only touches the objective sensitivity", "statement": "itoCorrection changes only sensitivity 0 of each boundary point, by a term proportional to temperature; at zero temperature it changes nothing.", "quantifier": "every boundary, temperature", "why_tests_cant": "Frame property over all boundaries.", "anchors": ["src/Sensitivity.cpp:itoCorrection"]}
{"id": "C45", "title": "Binary level-set files round-trip exactly", "statement": "Loading a file written by saveLevelSetBIN into a level set of the same mesh restores each signed distance bit for bit and leaves the rest unchanged.", "quantifier": "every mesh and field (including NaN, infinities)", "why_tests_cant": "All fields.", "anchors": ["src/InputOutput.cpp:saveLevelSetBIN", "src/InputOutput.cpp:loadLevelSetBIN"]}
{"id": "C46", "title": "Text level-set files round-trip to printed precision, line count checked", "statement": "loadLevelSetTXT of a file written by saveLevelSetTXT (same isXY flag) restores the printed values node by node; a file with a different number of lines makes the program exit instead of loading.", "quantifier": "every mesh, field and file length", "why_tests_cant": "All fields.", "anchors": ["src/InputOutput.cpp:saveLevelSetTXT", "src/InputOutput.cpp:loadLevelSetTXT"]}
{"id": "C47", "title": "File names of different data points never collide", "statement": "The zero padded names generated from the data point number are distinct for distinct data points.", "quantifier": "every pair of data point numbers", "why_tests_cant": "Infinite domain.", "anchors": ["src/InputOutput.cpp:saveLevelSetVTK", "src/InputOutput.cpp:saveLevelSetTXT", "src/InputOutput.cpp:saveBoundaryPointsTXT"]}
{"id": "C48", "title": "Re-seeding reproduces the random stream", "statement": "After setSeed(s), the sequence of uniform, integer and normal(mean, sd) results depends only on s and the calls made, not on the generator's history; normal() with default parameters does not have this property because its saved second variate survives re-seeding.", "quantifier": "every seed and history", "why_tests_cant": "History quantification.", "anchors": ["src/MersenneTwister.h:setSeed", "src/MersenneTwister.h:normal"]}
{"id": "C49", "title": "No history of level set calls misuses memory", "statement": "After construction and any sequence of update, reinitialise, mask, computeVelocities, computeGradients, computeAreaFractions and boundary discretisation calls, mixed with writes of any values to the public vectors, each further call returns normally or exits with the documented error: no access outside a vector.", "quantifier": "every mesh size up to 2^31 nodes, every finite history of calls, every values written, NaN and infinities included", "why_tests_cant": "Quantifies over all histories; out-of-bounds reads can go unnoticed in a test.", "anchors": ["src/LevelSet.cpp:update", "src/LevelSet.cpp:mask", "src/LevelSet.cpp:computeVelocities", "src/LevelSet.cpp:computeGradients", "src/LevelSet.cpp:initialiseNarrowBand"]}
{"id": "C50", "title": "Settings and target survive every call", "statement": "A level set constructed with a move limit, band width and fixed-domain flag keeps them through every sequence of calls; construction succeeds only for a move limit strictly between 0 and 1 and a band width above 2; no call of the library changes the target, only the caller's own writes do.", "quantifier": "every constructor, parameters and finite history of calls", "why_tests_cant": "tests cover a handful of call sequences; the property is about all of them", "anchors": ["src/LevelSet.cpp: LevelSet::LevelSet, update, reinitialise, killNodes, computeVelocities, computeGradients, computeAreaFractions", "src/Boundary.cpp: discretise"]}
{"id": "C51", "title": "Points, segments and elements refer to each other consistently", "statement": "After discretise each boundary point lists exactly the segments that end in it, in order, and as neighbours the opposite ends of those segments, at most two of each; every segment names existing points and an existing element; each element lists exactly its own segments, at most two; each node lists at most four boundary points, all existing.", "quantifier": "every reachable level set and completed discretise", "why_tests_cant": "a dangling index appears only for particular contours; all fields must be covered", "anchors": ["src/Boundary.cpp: discretise, computePointLengths, isAdded", "src/Mesh.h: Node, Element"]}
{"id": "C52", "title": "Every save function writes exactly the documented file", "statement": "For any level set a program can have and any boundary discretised from it, each save function ends the program if the file cannot be opened; otherwise the file contains one line per node, element, point or segment (coordinates only if asked for) or the VTK header followed by one block per quantity asked for, and no other file changes. No save reads outside its data.", "quantifier": "every history of a level set, every discretised boundary, every file system state, every flag", "why_tests_cant": "All meshes, histories and flag combinations.", "anchors": ["src/InputOutput.cpp:saveLevelSetVTK", "src/InputOutput.cpp:saveLevelSetTXT", "src/InputOutput.cpp:saveBoundaryPointsTXT", "src/InputOutput.cpp:saveBoundarySegmentsTXT", "src/InputOutput.cpp:saveAreaFractionsVTK", "src/InputOutput.cpp:saveAreaFractionsTXT"]}
{"id": "C53", "title": "Failed optimisation attempts are repeated on a relaxed problem", "statement": "When solve returns, NLopt was called on the same problem until it first returned a non-negative code; after each roundoff error, and only then, the distances to the constraints are multiplied by 0.7, and each further attempt starts from the multipliers the previous one left. If the very first attempt ends with an exception, or no attempt succeeds, solve does not return a value.", "quantifier": "every problem, every arithmetic, every finite or infinite sequence of NLopt behaviours", "why_tests_cant": "NLopt's failures cannot be provoked on demand; the claim is about every sequence of them.", "anchors": ["src/Optimise.cpp:solve"]}
{"id": "C54", "title": "Noise never moves the boundary further than the move limit allows", "statement": "computeVelocities with noise returns a positive time step no longer than the caller's and the ratio of the two as the scale factor. Over the returned step a unit normal deviate on a point of unit length moves it by at most half the move limit. The step is cut only if that would not hold otherwise, and then to exactly half the limit. Each boundary point's velocity gains one normal deviate times sqrt(2 temperature / (returned step * length)), and the extension velocities are those of the noisy points.", "quantifier": "every level set, boundary, positive time step, non-negative temperature and random sequence; exact arithmetic", "why_tests_cant": "The random sequence and the temperature range over all values.", "anchors": ["src/LevelSet.cpp:computeVelocities"]}
{"id": "C55", "title": "One optimisation step moves the level set by at most the move limit", "statement": "Discretise, optimise with the level set's move limit, extend the velocities, compute gradients and update with the time step found: signed distances outside the narrow band are unchanged, and each one inside changes by at most its gradient times the move limit, whatever the sensitivities, constraints and optimiser results. Reinitialising makes the band cover the boundary as this requires.", "quantifier": "every reachable level set at least 4 x 4 whose band covers its boundary and whose border nodes are not inside, every objective, set of constraints and NLopt behaviour; exact arithmetic", "why_tests_cant": "It composes five functions over all shapes, sensitivities and optimiser behaviours.", "anchors": ["src/Boundary.cpp:discretise", "src/Optimise.cpp:solve", "src/LevelSet.cpp:computeVelocities", "src/LevelSet.cpp:computeGradients", "src/LevelSet.cpp:update", "src/LevelSet.cpp:reinitialise"]}
{"id": "C56", "title": "Constructors mask nothing and keep target and initial shape independent", "statement": "A newly constructed level set has no masked node. A constructor with a target gives the same signed distance, narrow band and mines as the one without, and its target is the reinitialised signed distance of the level set that the target's description alone constructs. It succeeds whenever both descriptions do on their own and the target has a contour, and ends the program if the target has none.", "quantifier": "every size, move limit, band width, list of holes or points for shape and target; any arithmetic", "why_tests_cant": "All shapes and targets; the constructors reuse one signed distance array for both.", "anchors": ["src/LevelSet.cpp:LevelSet", "src/LevelSet.cpp:initialise"]}
{"id": "C57", "title": "Results depend only on what a level set shows, not on its history", "statement": "Two level sets of the same size with equal signed distance, velocity, gradient, target, narrow band, mines, masks and parameters give the same results to every program that calls the level set, boundary and Ito functions on them, also one that chooses its next call from what it has seen: the same failures, return values, boundaries, areas and normals, and the same fields after each call. Boundary links, statuses and areas left in the mesh by earlier calls do not matter.", "quantifier": "every pair of reachable level sets that show the same, every program (finite tree of calls and writes); any arithmetic", "why_tests_cant": "It ranges over all histories and all later programs; stale members of nodes and elements would only show in particular sequences of calls.", "anchors": ["src/LevelSet.cpp", "src/Boundary.cpp:discretise", "src/Boundary.cpp:computeMeshStatus", "src/Boundary.cpp:computeNormalVectors", "src/LevelSet.cpp:computeAreaFractions", "src/Sensitivity.cpp:itoCorrection"]}
{"id": "C58", "title": "A run can be restarted from its signed distance", "statement": "A level set given the signed distance of another with the same target, masks and parameters and then reinitialised is equivalent to the other one reinitialised: with the same velocities and gradients written, or computed from the same boundary points, every program gets the same results from both. Narrow band, mines, velocities and gradients from before the reinitialisation do not matter.", "quantifier": "every pair of reachable level sets with equal signed distance, target, masks and parameters, all boundary points, every program; any arithmetic", "why_tests_cant": "All histories before and all programs after the restart.", "anchors": ["src/LevelSet.cpp:reinitialise", "src/LevelSet.cpp:initialiseNarrowBand", "src/LevelSet.cpp:computeVelocities", "src/LevelSet.cpp:computeGradients"]}
{"id": "C59", "title": "The shape matching programs draw each boundary point towards the target", "statement": "The sensitivity shape_match assigns to a boundary point is the difference between target and signed distance, limited to [-1, 1]: at a node the point coincides with, otherwise averaged over the closest node and its four neighbours with inverse squared distances as weights. It lies between the smallest and the largest difference at those nodes. Nothing else of the boundary changes.", "quantifier": "every reachable level set with a target, every boundary, every point; exact arithmetic", "why_tests_cant": "All shapes and targets; next to the border of the domain the program reads outside its arrays, which a run need not show.", "anchors": ["demos/shape_match.cpp:computeSensitivity", "demos/dumbbell.cpp:computeConstraintSensitivity", "demos/bimodal.cpp:computeConstraintSensitivity", "demos/bimodal_brolly.cpp:computeConstraintSensitivity"]}
{"id": "C60", "title": "The recorded mismatch is the distance between the area fractions of shape and target", "statement": "The mismatch the demo programs record is the sum over all elements of the absolute difference between target area and current area. It is zero exactly if all areas agree, at least the difference of the total areas, at most the number of elements for area fractions, symmetric, and obeys the triangle inequality. The target areas are the areas of the elements under the target, one for each element.", "quantifier": "every reachable level set, all target areas; exact arithmetic (target areas: any arithmetic)", "why_tests_cant": "All meshes and areas.", "anchors": ["demos/shape_match.cpp:computeObjective", "demos/dumbbell.cpp:computeMismatch", "demos/shape_match.cpp:main"]}
{"id": "C61", "title": "The weighted perimeter counts each segment once with its mean weight", "statement": "The weighted perimeter of a discretised boundary is the sum over its segments of length times mean weight at the middles of n equal parts, where the weight is 1 above the upper height, the reduced value below the lower one and linear and increasing in between; so it lies between the reduced and the full length of the boundary. The mean weight does not depend on the direction of the segment. Without reduction the length at a point is the perimeter the other programs use.", "quantifier": "every discretised boundary of every reachable level set, every weight function; exact arithmetic", "why_tests_cant": "All boundaries: the program adds half the lengths at each point, over links made by discretise.", "anchors": ["demos/dumbbell.cpp:computePerimeter", "demos/dumbbell.cpp:computePointLength", "demos/dumbbell.cpp:computePerimeterWeight", "demos/bimodal.cpp:computePerimeter"]}
{"id": "C62", "title": "The centre of mass lies within the boundary's bounds and moves with it", "statement": "The centre of mass of a boundary of positive weighted length lies in every box that contains its points, so in the domain. Shifting the boundary in x or reflecting it shifts or reflects the centre of mass and keeps the weighted perimeter.", "quantifier": "every discretised boundary of positive length, every list of points, all shifts and reflections in x; exact arithmetic", "why_tests_cant": "All boundaries.", "anchors": ["demos/bimodal.cpp:computeCentreOfMass", "demos/bimodal_brolly.cpp:computeCentreOfMass"]}
{"id": "C63", "title": "Umbrella sampling accepts with the Metropolis probability", "statement": "A trial is accepted exactly if the number drawn from [0, 1) is below min(1, exp(-beta (new bias - bias of the shape accepted last))), where the bias is the harmonic potential at the centre of mass relative to the middle of the domain. Steps that do not raise the bias are always accepted. Detailed balance holds with respect to exp(-beta bias).", "quantifier": "all draws, biases and inverse temperatures, every trial; exact arithmetic", "why_tests_cant": "All real values and draws.", "anchors": ["demos/bimodal_brolly.cpp:isAccepted", "demos/bimodal_brolly.cpp:computeBiasPotential", "demos/bimodal_brolly.cpp:main"]}
{"id": "C64", "title": "The demo programs reinitialise often enough", "statement": "In the main loop of every demo program there are at most 19 successive turns without a reinitialisation after the first, and at most 20 before it. Each turn moves the signed distance by time step times velocity times gradient and then reinitialises it or not, as its flag says, and discretises the result. When the loop ends, the running time has reached its limit.", "quantifier": "every program, every history of its main loop, whatever NLopt and the random numbers do; any arithmetic", "why_tests_cant": "All histories: update may reinitialise by itself at any turn, which resets the counter.", "anchors": ["demos/minimise_area.cpp:main", "demos/minimise_perimeter.cpp:main", "demos/shape_match.cpp:main", "demos/dumbbell.cpp:main", "demos/bimodal.cpp:main"]}
{"id": "C65", "title": "The demo programs sample on schedule", "statement": "The samples recorded by the main loop are due at equally spaced times. Each is taken in the first turn at whose end its due time has passed, in order, none is missed and none is taken twice; several that fall into one turn are all taken. The sampling loop ends.", "quantifier": "every program, every history of its main loop, every interval > 0; exact arithmetic, and any arithmetic in which the due times keep their order", "why_tests_cant": "All histories and time steps.", "anchors": ["demos/minimise_area.cpp:main", "demos/shape_match.cpp:main", "demos/dumbbell.cpp:main", "demos/bimodal.cpp:main"]}
{"id": "C66", "title": "Umbrella sampling keeps its books and undoes rejected trials", "statement": "After any number of trials the counters hold the number of trials and of accepted ones; backup, position and bias belong to the shape accepted last, and rejected trials do not change them. After a rejected trial boundary, signed distance, narrow band, mines and areas are those of a level set restarted from the backup, whatever the trial did. Target, masks and parameters never change.", "quantifier": "every sequence of trials, whatever NLopt, the random numbers and the draws do; any arithmetic", "why_tests_cant": "All histories of accepted and rejected trials; left-over state of a rejected trial would only show later.", "anchors": ["demos/bimodal_brolly.cpp:main"]}
{"id": "C67", "title": "A turn of minimise_area is safe", "statement": "From a shape inside the domain, with no node on the contour, a turn of minimise_area stays within its arrays and ends, for every behaviour of NLopt within its interface: it can only stop with an error message, or arrives at a reachable level set, of which it discretises the boundary.", "quantifier": "every such shape on every mesh of at least 4 by 4, every NLopt, all earlier multipliers and counters; exact arithmetic", "why_tests_cant": "All shapes and all answers of the external optimiser.", "anchors": ["demos/minimise_area.cpp:main", "src/Optimise.cpp:solve", "src/LevelSet.cpp:computeVelocities", "src/LevelSet.cpp:update"]}
{"id": "C68", "title": "The temperature does not affect the drift in shape_match", "statement": "The sensitivities shape_match passes to the optimiser are the same at every temperature: its Ito correction has no effect, because the normal vectors of the boundary are never computed.", "quantifier": "every reachable level set, every temperature, every target; exact arithmetic", "why_tests_cant": "It is about all shapes and temperatures; a test sees noise.", "anchors": ["demos/shape_match.cpp:main", "src/Sensitivity.cpp:itoCorrection"]}
{"id": "C69", "title": "Sensitivities and distances the demo programs give the optimiser", "statement": "Before each optimisation the demo programs change nothing of the boundary but the sensitivities of its points. minimise_perimeter gives each point the rate of change of the perimeter when the point moves along its normal, minimise_perimeter_constrained the same with the Ito correction and -1 for the area, and dumbbell, bimodal and bimodal_brolly the rate of change of the weighted perimeter with the Ito correction and a mismatch with the target between -1 and 1. The constraint distance is the allowed area minus the area of the shape, or the allowed mismatch minus the mismatch of the areas of the elements with those of the target.", "quantifier": "every reachable level set with such a boundary, every temperature, every weight and target; exact arithmetic", "why_tests_cant": "All shapes and parameters; a test compares a few points.", "anchors": ["demos/minimise_perimeter.cpp:main", "demos/minimise_perimeter_constrained.cpp:main", "demos/dumbbell.cpp:main", "demos/bimodal.cpp:main", "demos/bimodal_brolly.cpp:main", "src/Sensitivity.cpp:computeSensitivity", "src/Boundary.cpp:computeAreaFractions"]}
{"id": "C70", "title": "The turns of every demo program are safe", "statement": "From a shape inside the domain, with no node on the contour, whose sensitivities are not all zero, a turn of the main loop of each of the seven demo programs stays within its arrays and ends, for every behaviour of NLopt within its interface: it can only stop with an error message, or arrives at a reachable level set, of which it discretises the boundary. Every turn of a run starts with the boundary of such a level set.", "quantifier": "every such shape on every mesh of at least 4 by 4, every NLopt, all random numbers, temperatures, multipliers and counters; exact arithmetic", "why_tests_cant": "All shapes, all random numbers and all answers of the external optimiser.", "anchors": ["demos/minimise_area.cpp:main", "demos/minimise_perimeter.cpp:main", "demos/minimise_perimeter_constrained.cpp:main", "demos/shape_match.cpp:main", "demos/dumbbell.cpp:main", "demos/bimodal.cpp:main", "demos/bimodal_brolly.cpp:main", "src/Optimise.cpp:solve", "src/LevelSet.cpp:computeVelocities"]}
{"id": "C71", "title": "Values recorded at a sample", "statement": "A turn of a demo program only appends to the samples, and every sample it appends holds the running time after the turn together with: the length of the boundary after the turn (minimise_area); that and the mean curvature of the boundary before the turn (minimise_perimeter); the length and the sum of the element areas per cell, both after the turn (minimise_perimeter_constrained); the mismatch of the areas per cell after the turn (shape_match); the weighted length after the turn and the mismatch before it (dumbbell, bimodal), and the centre of mass after it, relative to half the width (bimodal). bimodal_brolly records length and mismatch of one shape, with the acceptance ratio.", "quantifier": "every reachable state before the turn, every number of samples in it, every NLopt, all random numbers and parameters; generic arithmetic", "why_tests_cant": "All shapes and histories; which of two successive shapes a value belongs to shows only when they differ.", "anchors": ["demos/minimise_area.cpp:main", "demos/minimise_perimeter.cpp:main", "demos/minimise_perimeter_constrained.cpp:main", "demos/shape_match.cpp:main", "demos/dumbbell.cpp:main", "demos/bimodal.cpp:main", "demos/bimodal_brolly.cpp:main"]}
{"id": "C72", "title": "Configuration and shape files of the demo programs", "statement": "A configuration file of white-space separated decimal numbers is read number by number into the signed distance, node 0 first, each as the nearest double; nodes behind the last number keep their values, nothing but the signed distance changes, and the program stops exactly if there is no file. With as many numbers as nodes, dumbbell starts with exactly these. shape_match takes the pairs of numbers in its file, in order, as points, ignoring a last unpaired number. More numbers than nodes are written out of bounds; in particular a level set saved as text never is a configuration.", "quantifier": "every text, every level set, every file system; generic arithmetic, binary64 for the values of numbers", "why_tests_cant": "All texts, notations and lengths; a test reads one file.", "anchors": ["demos/dumbbell.cpp:main", "demos/shape_match.cpp:main", "src/InputOutput.cpp:saveLevelSetTXT"]}
{"id": "C73", "title": "Command line of the umbrella sampling program", "statement": "bimodal_brolly accepts its nine options in any order, repeated, in the short or long spelling; for each parameter the last value given counts and parameters not given keep their defaults. Every other command line either meets an unknown word (or a request for help) and ends the program, or lacks the value of its last option or gives a restart name of 100 or more characters, which is undefined behaviour. The spelling --umbrella-interval of the help text is rejected.", "quantifier": "every list of arguments", "why_tests_cant": "Infinitely many command lines; order and repetition matter.", "anchors": ["demos/bimodal_brolly.cpp:parseCommandLineArguments", "demos/bimodal_brolly.cpp:printHelpMessage"]}
{"id": "C74", "title": "Restarting umbrella sampling from a saved level set", "statement": "After any number of umbrella trials, saving the level set as binary and starting the program with this restart file gives the same target areas and the same boundary, signed distance, narrow band and area fractions as reinitialising and discretising the interrupted run's level set, whatever the two runs did before; counters and time start at zero, the backup is the loaded field, reinitialised. The run fails exactly if that would fail. The position and bias it starts with are not those of the interrupted run.", "quantifier": "every run of the program, every number of trials, all random numbers, every NLopt, every target; generic arithmetic", "why_tests_cant": "All histories; the restarted objects share no state with the interrupted ones, so any hidden state would show only for some history.", "anchors": ["demos/bimodal_brolly.cpp:main", "src/InputOutput.cpp:saveLevelSetBIN", "src/InputOutput.cpp:loadLevelSetBIN", "src/LevelSet.cpp:reinitialise", "src/Boundary.cpp:discretise"]}
{"id": "C75", "title": "Starting shapes, targets and constants of the demo programs", "statement": "minimise_area and minimise_perimeter start with the signed distance to a circle of radius 80 around (100,100), cut off at the domain boundary; minimise_perimeter_constrained starts with -1 on the nodes of the square from (90,90) to (110,110), border included, and 1 on all others. bimodal and dumbbell start, without any failure, from the holes they describe, with the reinitialised distance to their two lobes as target, whatever reduction factor. The weights of dumbbell and bimodal are the stated linear functions of the height between their cut-offs and non-increasing for every reduction factor in [0,1]. The mismatch bimodal allows is the area of the two lobes less 280, per cell.", "quantifier": "every node of the meshes, every reduction factor and every value of the circular constants; exact arithmetic and, for the square, binary64", "why_tests_cant": "40401 nodes and a continuum of factors; a test samples some.", "anchors": ["demos/minimise_area.cpp:main", "demos/minimise_perimeter.cpp:main", "demos/minimise_perimeter_constrained.cpp:main", "demos/dumbbell.cpp:main", "demos/bimodal.cpp:main"]}
{"id": "C76", "title": "Level sets and masks from polygons", "statement": "A level set constructed from the corners of a closed polygon has at each node the smallest of the distances to the border and to the polygon, negative exactly if the polygon goes round the node; masking with a polygon masks the nodes inside and only these, and fails only if no contour is left. Points that see all edges of a polygon from one side are inside, points a line separates from the corners are outside. shape_match starts from a round hole with the polygon of its file as target.", "quantifier": "every size up to 10000 and every closed polygon with corners within 10000; exact arithmetic", "why_tests_cant": "All polygons and nodes: the inside test rounds an area to an integer, which tests with large polygons do not notice.", "anchors": ["src/LevelSet.cpp:isInsidePolygon", "src/LevelSet.cpp:isLeftOfLine", "src/LevelSet.cpp:pointToLineDistance", "src/LevelSet.cpp:initialise", "src/LevelSet.cpp:mask", "demos/shape_match.cpp:main"]}
{"id": "C77", "title": "The units of objective and constraints do not matter", "statement": "If the sensitivities of the objective and of each constraint, with the distances to the constraints and the multipliers passed in, are given in other units (each function multiplied by its own positive number), solve ends in the same way, moves the boundary points by the same displacements, and returns multipliers, time step, velocities and change of the objective converted to the new units. The time step passed in does not matter.", "quantifier": "every list of boundary points, number of constraints, kind of problem, positive unit for each function and behaviour of the external optimiser that depends only on the problem it is given; exact arithmetic", "why_tests_cant": "Relates two runs of the whole solver for a continuum of units and every optimiser behaviour.", "anchors": ["src/Optimise.cpp:Optimise", "src/Optimise.cpp:solve", "src/Optimise.cpp:computeScaleFactors", "src/Optimise.cpp:computeLambdaLimits", "src/Optimise.cpp:computeConstraintDistances", "src/Optimise.cpp:callback", "src/Optimise.cpp:rescaleDisplacements"]}
{"id": "C78", "title": "Areas of two level sets compare as the shapes do", "statement": "If one level set lies nowhere above another, none of its elements and neither its total has more area. Swapping inside and outside leaves the rest of each element and of the domain, except in elements where the two sides alternate and the values cancel. Multiplying all values by a positive number changes no area.", "quantifier": "every pair of reachable level sets (or targets) of a mesh with the contour away from the nodes and in the narrow band; exact arithmetic", "why_tests_cant": "Relates two runs on arbitrary shapes; the comparison crosses all sixteen sign patterns of an element and the switch at a saddle.", "anchors": ["src/LevelSet.cpp:computeAreaFractions", "src/LevelSet.cpp:cutArea", "src/LevelSet.cpp:polygonArea", "src/Boundary.cpp:discretise"]}
{"id": "C79", "title": "No values break the optimiser", "statement": "Whatever the sensitivities, lengths, distances and multipliers are, infinities and NaN included, solve stays within its arrays and uses no uninitialised number, and its results have one entry per boundary point and per function, if every point that can move has all sensitivities, there are at most 30 constraints, and there is at most one constraint or none that can be dropped.", "quantifier": "every number type and all values, every behaviour of the external optimiser that asks only for functions it was given and whose first attempt is not cut off by an exception", "why_tests_cant": "All values of all inputs, including those only overflow produces, and every optimiser.", "anchors": ["src/Optimise.cpp:Optimise", "src/Optimise.cpp:solve", "src/Optimise.cpp:computeConstraintDistances", "src/Optimise.cpp:rescaleDisplacements", "src/Optimise.cpp:callback"]}
{"id": "C80", "title": "Inside and outside are treated alike", "statement": "If all signs are swapped, the level set describes the complement of the shape: discretise gives the same points, segments and length, computeNormalVectors the opposite normals, reinitialise the opposite distances, and if the boundary points move the opposite way, computeVelocities, computeGradients and update give the complement of what they give for the shape, and reinitialise in the same turns.", "quantifier": "every reachable level set in exact arithmetic; values are 0 or exceed machine epsilon, for the boundary no node is on the contour and no saddle is balanced, for the motion the border is fixed", "why_tests_cant": "All shapes and velocities; two runs must agree step by step.", "anchors": ["src/FastMarchingMethod.cpp:march", "src/FastMarchingMethod.cpp:solveQuadratic", "src/LevelSet.cpp:reinitialise", "src/LevelSet.cpp:computeVelocities", "src/LevelSet.cpp:computeGradients", "src/LevelSet.cpp:update", "src/Boundary.cpp:discretise", "src/Boundary.cpp:computeNormalVectors"]}
{"id": "C81", "title": "Only the contour counts", "statement": "Multiplying all values of a level set, or of the target, by the same positive number leaves its contour where it is, and then discretise gives the same points, segments, length and mesh status, computeNormalVectors the same normals, computeAreaFractions the same areas, and reinitialise the same distances at all nodes on or next to the contour.", "quantifier": "every level set and every positive factor in exact arithmetic that moves no value across the tolerance for nodes on the contour (1e-6); for the distances every reachable level set with some contour", "why_tests_cant": "All shapes and all factors; two runs must agree.", "anchors": ["src/Boundary.cpp:discretise", "src/Boundary.cpp:computeNormalVectors", "src/LevelSet.cpp:computeAreaFractions", "src/LevelSet.cpp:reinitialise", "src/FastMarchingMethod.cpp:march"]}
{"id": "C82", "title": "Areas describe the contour last discretised", "statement": "computeAreaFractions with the boundary of the last discretise gives the same element areas and total, or fails in the same way, however many other calls and writes to the level set lie between, so it never mixes the old contour with a moved level set; before the first discretise it reads uninitialised memory.", "quantifier": "every history of calls and writes, any arithmetic", "why_tests_cant": "All sequences of calls.", "anchors": ["src/LevelSet.cpp:computeAreaFractions", "src/LevelSet.cpp:cutArea", "src/Boundary.cpp:discretise", "src/LevelSet.cpp:update", "src/LevelSet.cpp:reinitialise", "src/LevelSet.cpp:mask"]}
{"id": "C83", "title": "Turning or mirroring a shape changes neither area nor perimeter", "statement": "In exact arithmetic, with the contour through no node and away from element corners: a level set mirrored left to right, turned upside down or with rows and columns swapped (and so turned by any right angle) gives the element areas in the mirrored or turned places, the same total area and the same total boundary length. For the length under mirroring no element may be a balanced saddle (values of alternating sign adding to zero); without that condition it is false.", "quantifier": "all meshes, level sets and targets", "why_tests_cant": "All real values at all nodes.", "anchors": ["src/LevelSet.cpp:computeAreaFractions", "src/LevelSet.cpp:cutArea", "src/Boundary.cpp:discretise", "src/Boundary.cpp:computeMeshStatus"]}
{"id": "C84", "title": "Moving a shape by whole elements changes neither area nor perimeter", "statement": "In exact arithmetic, with the contour through no node and away from element corners: a shape that keeps clear of the border and is moved by any whole number of elements to the right and up, in the same domain or in one of another size, has the same total area, the same total boundary length, and in every element the area the corresponding element had.", "quantifier": "all meshes, level sets, targets and displacements", "why_tests_cant": "All real values at all nodes and all displacements.", "anchors": ["src/LevelSet.cpp:computeAreaFractions", "src/LevelSet.cpp:cutArea", "src/Boundary.cpp:discretise", "src/Boundary.cpp:computeMeshStatus"]}
{"id": "C85", "title": "The order of the boundary points does not matter to the optimiser", "statement": "In exact arithmetic: if the same boundary points are handed to Optimise in another order, solve ends in the same way (value, exception or undefined behaviour); if it returns a value, the change of the objective, the time step and the multipliers are the same, and every point gets the same displacement and velocity. In doubles this is false: the sums round differently.", "quantifier": "all lists of boundary points and permutations of them, constraints, multipliers, limits, kinds of constraint, and all behaviours of NLopt that depend only on the problem it is given", "why_tests_cant": "All permutations of all lists of points, and everything NLopt may do.", "anchors": ["src/Optimise.cpp:solve", "src/Optimise.cpp:computeScaleFactors", "src/Optimise.cpp:computeConstraintDistances", "src/Optimise.cpp:computeGradients", "src/Optimise.cpp:rescaleDisplacements"]}
{"id": "C86", "title": "Areas and perimeters of separate parts add up", "statement": "In exact arithmetic, with the contour through no node and away from element corners: if a shape is made of two parts that share no element, and its level set has the values of a part at the corners of every element that part reaches, then its total area, its area in every element and its total boundary length are the sums of those of the parts measured alone.", "quantifier": "all meshes, all level sets and targets of the parts and of the whole", "why_tests_cant": "All real values at all nodes, and all ways of composing shapes.", "anchors": ["src/LevelSet.cpp:computeAreaFractions", "src/LevelSet.cpp:cutArea", "src/Boundary.cpp:discretise", "src/Boundary.cpp:computeMeshStatus"]}
{"id": "C87", "title": "No area only for an empty shape, all of it only for a full one, no boundary only for these", "statement": "In exact arithmetic, with the contour through no node and away from element corners: the total area lies between zero and the number of elements; it is zero exactly if every node is outside and equals the number of elements exactly if every node is inside; the total boundary length is never negative, and it is zero exactly if all nodes are on one side. So no part of a shape, however small, goes unmeasured.", "quantifier": "all meshes, level sets and targets", "why_tests_cant": "All real values at all nodes, including arbitrarily small parts.", "anchors": ["src/LevelSet.cpp:computeAreaFractions", "src/LevelSet.cpp:cutArea", "src/Boundary.cpp:discretise", "src/Boundary.cpp:computeMeshStatus"]}
{"id": "C88", "title": "An Optimise object can be used again", "statement": "Calling solve again on an Optimise object, after the boundary points and multipliers it refers to have changed, has the same result as solve of a new object built from them: same value, displacements, velocities, multipliers and time step. What earlier calls left in the object does not matter.", "quantifier": "all histories of solve calls on one object, all points and multipliers between them, doubles as well as exact arithmetic", "why_tests_cant": "Every history of calls and every change in between; stale entries show only for particular combinations of old and new points.", "anchors": ["src/Optimise.cpp:solve", "src/Optimise.cpp:computeConstraintDistances", "src/Optimise.cpp:computeDisplacements", "src/Optimise.h:Optimise"]}
