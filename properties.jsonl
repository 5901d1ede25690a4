{"id": "C01", "title": "LRU cache never exceeds its capacity and never holds a key twice", "statement": "After any sequence of put/get/exists/clear calls on an lru_cache of capacity max, size() <= max, each key is present at most once, and exists(k) answers true exactly when get(k) would not throw.", "quantifier": "every capacity, every finite sequence of cache operations", "why_tests_cant": "unit tests run a handful of operation sequences; the invariant must survive every interleaving of hits, overwrites and evictions", "anchors": ["libs/hdd/lrucache.h: lru_cache::put, get, exists, size, clear"]}
{"id": "C02", "title": "LRU cache keeps exactly the most recently used keys with their last value", "statement": "At any moment the keys held are exactly the max most recently used (put or successfully read) distinct keys since the last clear, in that order, and get(k) returns the value of the last put of k.", "quantifier": "every capacity, every history of operations", "why_tests_cant": "the claim is about the whole history of calls, unbounded in length", "anchors": ["libs/hdd/lrucache.h: lru_cache::put, get"]}
{"id": "C03", "title": "LRU eviction callback accounting", "statement": "With a pop callback registered, each value that leaves the cache because of capacity or clear() is handed to the callback exactly once and no value still stored is ever handed to it. (A value replaced by a put on the same key should be accounted for as well.)", "quantifier": "every history of operations", "why_tests_cant": "leaks of open files depend on rare interleavings of overwrite and eviction", "anchors": ["libs/hdd/lrucache.h: lru_cache::put, clear, register_on_pop"]}
{"id": "C04", "title": "Id/index translation is a bijection on 0..size-1", "statement": "After any sequence of insertions, distinct ids get distinct indexes, indexes are exactly 0..size()-1, translating an id to its index and back returns the id, and an index never changes once given.", "quantifier": "every sequence of inserted ids (with repetitions)", "why_tests_cant": "must hold for every insertion order", "anchors": ["libs/hdd/index.h: IdToIndex"]}
{"id": "C05", "title": "Cross-correlation cache is antisymmetric and last write wins", "statement": "After any sequence of add/remove, reading the pair (e1,e2) returns the coefficient written last for the unordered pair {e1,e2}, with the lag as written if the write had the same orientation and the negated lag otherwise; reading (e2,e1) gives the same coefficient and the opposite lag.", "quantifier": "every history of add/remove on every pair, station, phase type", "why_tests_cant": "orientation mistakes appear only for particular orders of writes", "anchors": ["libs/hdd/xcorrcache.h: XCorrCache::add, get, has, remove"]}
{"id": "C06", "title": "Cross-correlation coefficients equal the normalised correlation and are bounded by 1", "statement": "For every lag tested, the coefficient computed from the rolling sums is the normalised cross-correlation of the short trace with the window of the long trace at that lag, and (in exact arithmetic) lies in [-1,1].", "quantifier": "all traces, all sizes with short <= long, all lags", "why_tests_cant": "unit tests check a few synthetic signals; the rolling update can be wrong for one particular lag only", "anchors": ["libs/hdd/xcorr.cpp: crossCorrelation"]}
{"id": "C07", "title": "Cross-correlation returns the lag of largest absolute coefficient", "statement": "The returned coefficient has the largest absolute value among all lags whose coefficient is defined, the returned delay is the first lag attaining it, and no element outside the two traces is read.", "quantifier": "all traces and sizes", "why_tests_cant": "maximum over all lags for all signals", "anchors": ["libs/hdd/xcorr.cpp: crossCorrelation"]}
{"id": "C08", "title": "Swapping the two waveforms negates the measured lag", "statement": "Cross-correlating (A,B) and (B,A) over the same maximum delay gives the same coefficient and opposite lags whenever the traces differ in length, and the long trace is never read outside its bounds for a non-negative maximum delay.", "quantifier": "all traces, sampling frequencies, maximum delays", "why_tests_cant": "needs every combination of lengths and delays", "anchors": ["libs/hdd/dd.cpp: DD::xcorr"]}
{"id": "C09", "title": "Time text representation round trips", "statement": "Parsing the text printed for a time point gives back exactly that time point.", "quantifier": "all microsecond time points (years 0000..9999)", "why_tests_cant": "2^63 time points; failures are confined to corner dates and fractions", "anchors": ["libs/hdd/utctime.cpp: UTCClock::toString, fromString"]}
{"id": "C10", "title": "Calendar conversion is exact", "statement": "Splitting a time into year/month/day/hour/minute/second/microsecond and rebuilding it gives the same time, the fields are in their calendar ranges and the text order is the time order.", "quantifier": "all time points not before 1970", "why_tests_cant": "leap years and century rules", "anchors": ["libs/hdd/utctime.cpp: UTCClock::toDate, fromDate"]}
{"id": "C11", "title": "Time window algebra", "statement": "Windows always have start <= end; merge is the smallest window containing both; overlap is the intersection when the windows intersect and has non-negative length otherwise; contains is a partial order compatible with merge and overlap; overlaps is symmetric.", "quantifier": "all windows", "why_tests_cant": "algebraic laws over all integers", "anchors": ["libs/hdd/timewindow.h: GenericTimeWindow"]}
{"id": "C12", "title": "CSV reading inverts CSV quoting", "statement": "A table written with every field quoted (inner quotes doubled, records separated by newlines) is read back field by field unchanged; unquoted fields that contain neither comma, quote, nor newline are read back unchanged too.", "quantifier": "all tables of byte strings without embedded newlines", "why_tests_cant": "every byte string; escapes interact with the state machine", "anchors": ["libs/hdd/csvreader.cpp: CSV::read, readRow"]}
{"id": "C13", "title": "CSV header mapping", "statement": "With a header, row i of the result maps the j-th column name to the j-th field of line i+1; missing fields map to the empty string and surplus fields are dropped; no input makes the reader access memory outside its rows.", "quantifier": "all inputs, including the empty file", "why_tests_cant": "needs every shape of ragged input", "anchors": ["libs/hdd/csvreader.cpp: CSV::readWithHeader, format"]}
{"id": "C14", "title": "Catalog referential integrity", "statement": "Every catalog built from the public operations (add station/event/phase of existing objects, add/extract/remove events, update) contains no phase whose event or station is missing, and every map key equals the id stored in the element.", "quantifier": "all sequences of catalog operations", "why_tests_cant": "history property", "anchors": ["libs/hdd/catalog.cpp: Catalog::addStation, addEvent, addPhase, add, extractEvent, removeEvent, updateEvent, updateStation"]}
{"id": "C15", "title": "A new event never replaces an existing one", "statement": "Adding an event without keeping its id returns an id not used before and leaves all other events unchanged; adding with its id kept either stores it under that id or throws and changes nothing.", "quantifier": "all catalogs including the largest 32 bit id", "why_tests_cant": "wrap-around at the maximum id", "anchors": ["libs/hdd/catalog.cpp: Catalog::addEvent"]}
{"id": "C16", "title": "Copying events between catalogs loses nothing", "statement": "Extracting or adding an event copies the event, exactly its phases (re-labelled with the new id, with multiplicity) and the stations they need; events, phases and stations already there are untouched; merging catalogs preserves every event whose id is new.", "quantifier": "all catalogs, all event ids", "why_tests_cant": "all catalog contents", "anchors": ["libs/hdd/catalog.cpp: Catalog::add, extractEvent"]}
{"id": "C17", "title": "Removal is exact", "statement": "removeEvent removes the event and all its phases and nothing else; removePhase removes exactly one phase matching event, station and type, if there is one.", "quantifier": "all catalogs", "why_tests_cant": "all contents, duplicates included", "anchors": ["libs/hdd/catalog.cpp: Catalog::removeEvent, removePhase, searchPhase"]}
{"id": "C18", "title": "Catalog files round trip", "statement": "Writing a catalog to station/event/phase files and reading it back gives the same events, phases and stations up to the printed precision.", "quantifier": "all catalogs", "why_tests_cant": "strings with separators, absent relocation data, NaN magnitudes", "anchors": ["libs/hdd/catalog.cpp: Catalog::writeToFile, Catalog(stationFile,eventFile,phaseFile)"]}
{"id": "C19", "title": "Pick weights depend monotonically on pick uncertainty", "statement": "The weight of a pick is 1/2^k where k is its uncertainty class; it is in (0,1], a larger uncertainty never gets a larger weight, an unknown or out of range uncertainty gets the lowest weight.", "quantifier": "all uncertainty class lists and all uncertainties (including NaN)", "why_tests_cant": "boundaries of every class list", "anchors": ["libs/hdd/catalog.cpp: Catalog::computePickWeight"]}
{"id": "C20", "title": "Order statistics are exact", "statement": "computeMedian, computeMedianAbsoluteDeviation and compute5numberSummary return the corresponding order statistics of the multiset of values, independently of input order, for every non-empty input, without violating preconditions of the algorithms they use.", "quantifier": "all value lists, all behaviours allowed for nth_element", "why_tests_cant": "nth_element leaves the order unspecified: all outcomes must be covered", "anchors": ["libs/hdd/utils.cpp: computeMedian, computeMedianAbsoluteDeviation, compute5numberSummary"]}
{"id": "C21", "title": "Angle normalisation", "statement": "normalizeLon returns the equivalent longitude in [-180,180), normalizeAzimuth the equivalent azimuth in [0,360) (radians [0,2pi)), for every finite angle, and both are idempotent.", "quantifier": "all real angles", "why_tests_cant": "all reals", "anchors": ["libs/hdd/utils.cpp: normalizeLon, normalizeAzimuth"]}
{"id": "C22", "title": "Interpolation is exact on nodes and never overshoots", "statement": "Bilinear and trilinear interpolation return the node value on each node, lie between the smallest and the largest node value inside the cell, and reproduce affine functions.", "quantifier": "all node values, all positions in the cell", "why_tests_cant": "all reals", "anchors": ["libs/hdd/utils.h: interpolateBilinear, interpolateTrilinear"]}
{"id": "C23", "title": "Distances behave like distances", "statement": "computeDistance is non-negative, symmetric, zero for a point with itself, at most half the circumference at the given depth, and the three dimensional distance is at least both the horizontal and the vertical distance.", "quantifier": "all coordinates", "why_tests_cant": "all reals", "anchors": ["libs/hdd/utils.cpp: computeDistance"]}
{"id": "C24", "title": "Ellipsoid layers and quadrants cover space", "statement": "Every point inside the outermost ellipsoid belongs to exactly one layer of a nested sequence and to at least one of the eight quadrants; a point off all three separating planes belongs to exactly one quadrant.", "quantifier": "all points, centres, numbers of layers", "why_tests_cant": "continuous space", "anchors": ["libs/hdd/ellipsoid.h: Ellipsoid, HddEllipsoid"]}
{"id": "C25", "title": "KD-tree build loses no point", "statement": "A tree built from any list of points contains exactly those points with their data, and the split invariants hold at every level whatever nth_element does with equal keys.", "quantifier": "all point lists, all permitted nth_element results", "why_tests_cant": "unspecified partition order", "anchors": ["libs/hdd/kdtree.h: KDTree::KDTree, search"]}
{"id": "C26", "title": "KD-tree queries are sound and, when the pruning bound is valid, complete", "statement": "radiusSearch returns only points within the radius with their true distances; nnSearch/knnSearch return points of the tree; bestFirstSearch visits every point exactly once. If the distance along the split axis never exceeds the true distance to points on the other side, radiusSearch returns all points in range, nnSearch the nearest, and bestFirstSearch goes in non-decreasing distance.", "quantifier": "all trees, queries, radii, distance functions", "why_tests_cant": "all trees and geometries", "anchors": ["libs/hdd/kdtree.h: radiusSearch, nnSearch, knnSearch, bestFirstSearch"]}
{"id": "C27", "title": "KD-tree radius search finds all points within the radius on the Earth", "statement": "For the library's own distance function, radiusSearch returns every point of the tree whose distance is within the radius.", "quantifier": "all trees of geographic points", "why_tests_cant": "needs geometry at all latitudes, longitudes and depths", "anchors": ["libs/hdd/kdtree.h: radiusSearch, axisDist", "libs/hdd/utils.cpp: computeDistance"]}
{"id": "C28", "title": "Neighbour selection honours its limits", "statement": "selectNeighbouringEvents returns at most maxNumNeigh neighbours, all different from the reference event, all events of the catalog, each with at least minNumPhase common phases, and each recorded phase is picked by both events at the same station with the same type, with the neighbour-to-station distance within the configured range and ratio.", "quantifier": "all catalogs and options", "why_tests_cant": "combinatorial input space", "anchors": ["libs/hdd/clustering.cpp: selectNeighbouringEvents"]}
{"id": "C29", "title": "Stations outside the configured distance range from the reference event are not used", "statement": "In selectNeighbouringEvents, no recorded phase uses a station whose distance to the reference event is below minESdist or above maxESdist.", "quantifier": "all catalogs and options", "why_tests_cant": "boundary combinations of two thresholds", "anchors": ["libs/hdd/clustering.cpp: selectNeighbouringEvents lines 320-340"]}
{"id": "C30", "title": "Neighbour selection terminates and prefers near events", "statement": "The selection always terminates; without ellipsoids the selected events are the nearest eligible ones.", "quantifier": "all catalogs and options", "why_tests_cant": "unbounded loops over layers and quadrants", "anchors": ["libs/hdd/clustering.cpp: selectNeighbouringEvents"]}
{"id": "C31", "title": "Catalog wide selection is closed", "statement": "selectNeighbouringEventsCatalog terminates and in its result each event has at least minNumNeigh neighbours and every neighbour is itself an event of the result.", "quantifier": "all catalogs and options, any single-event selection behaviour", "why_tests_cant": "cascading removals of arbitrary depth", "anchors": ["libs/hdd/clustering.cpp: selectNeighbouringEventsCatalog"]}
{"id": "C32", "title": "Clusters are the connected components", "statement": "clusterizeNeighbouringEvents puts each event in exactly one cluster and two events share a cluster exactly when they are linked by a chain of neighbour relations between listed events.", "quantifier": "all neighbour graphs, all iteration orders of the hash containers", "why_tests_cant": "iteration order is unspecified; graphs of any size", "anchors": ["libs/hdd/clustering.cpp: clusterizeNeighbouringEvents"]}
{"id": "C33", "title": "Clustering keeps each event pair once", "statement": "After clustering every pair of events that was linked in either direction is present in exactly one direction with the phases recorded in that direction, and no other pair appears.", "quantifier": "all neighbour graphs, all iteration orders", "why_tests_cant": "iteration order is unspecified", "anchors": ["libs/hdd/clustering.cpp: clusterizeNeighbouringEvents"]}
{"id": "C34", "title": "Neighbour sets and their files", "statement": "A Neighbours object behaves as a set of (event, station, phase type) triples under add and remove; writing to a pair file and reading back restores every triple.", "quantifier": "all operation sequences, all sets", "why_tests_cant": "history property", "anchors": ["libs/hdd/clustering.cpp: Neighbours::add, remove, has, writeToFile, readFromFile"]}
{"id": "C35", "title": "The two solver operators are adjoint", "statement": "For the double difference system, the two products handed to the least squares solver satisfy <A x, y> = <x, A^T y>, are additive updates of their output argument, coincide with the weighted design matrix, and never index outside the system.", "quantifier": "all systems, all vectors", "why_tests_cant": "identity over all real vectors", "anchors": ["libs/hdd/solver.cpp: Adapter::Aprod1, Aprod2"]}
{"id": "C36", "title": "Residual weights are in [0,1]", "statement": "computeResidualWeights yields weights in [0,1], non-increasing in the absolute residual, 1 for a zero residual and 0 beyond the cutoff.", "quantifier": "all residual lists, all cutoffs", "why_tests_cant": "degenerate spreads (all residuals equal)", "anchors": ["libs/hdd/solver.cpp: Solver::computeResidualWeights"]}
{"id": "C37", "title": "System assembly places each observation in its own row", "statement": "Every observation gives one row whose two coefficient blocks are the derivatives of its two events at its phase/station, with opposite signs, zero blocks for fixed events, and its weight and residual; each travel time constraint gives one further row; all stored indexes are in range.", "quantifier": "all sets of observations and parameters", "why_tests_cant": "arbitrary hash iteration order and sizes", "anchors": ["libs/hdd/solver.cpp: Solver::prepareDDSystem"]}
{"id": "C38", "title": "Observations are identified unambiguously", "statement": "Two observations with different (event, event, station, phase) are never merged and a second observation for the same key does not overwrite the first; residuals are reported for the pair, station and phase they were computed from.", "quantifier": "all identifiers", "why_tests_cant": "string concatenation ambiguities", "anchors": ["libs/hdd/solver.cpp: Solver::addObservation, getDoubleDifferences"]}
{"id": "C39", "title": "Column scaling is undone exactly", "statement": "With L2 normalisation every scaled column has unit norm and solving the scaled system and rescaling gives a solution of the unscaled system.", "quantifier": "all systems without zero columns", "why_tests_cant": "zero columns and all reals", "anchors": ["libs/hdd/solver.cpp: DDSystem L2 normalisation, Adapter"]}
{"id": "C40", "title": "Only constrained events are moved", "statement": "After solving, location changes are reported only for events that take part in at least one observation with non-zero weight and only with finite values.", "quantifier": "all systems", "why_tests_cant": "all patterns of zero weights", "anchors": ["libs/hdd/solver.cpp: Solver::loadSolutions, getEventChanges"]}
{"id": "C41", "title": "Solver parameters move from their start to their end value", "statement": "During relocation each scheduled parameter (damping, residual cutoff, location constraint) starts at its start value, ends at its end value and never leaves that range.", "quantifier": "all iteration counts, all parameter values", "why_tests_cant": "off by one at first/last iteration for every count", "anchors": ["libs/hdd/dd.cpp: DD::relocate"]}
{"id": "C42", "title": "Relocation output contains only relocated events and keeps fixed neighbours fixed", "statement": "The catalog returned by a relocation contains exactly the events marked relocated; in single-event mode the neighbours' hypocentres are left unchanged.", "quantifier": "all catalogs, all solver outcomes", "why_tests_cant": "all failure patterns of the solver", "anchors": ["libs/hdd/dd.cpp: DD::relocate, updateRelocatedEvents"]}
{"id": "C43", "title": "Differential time observations use cross-correlation only when valid", "statement": "An observation is corrected by the measured lag exactly when a valid coefficient reaching the configured minimum exists, its weight then grows monotonically with the coefficient up to the configured scale, otherwise the absolute time difference and the plain weight are used.", "quantifier": "all catalogs, caches, options", "why_tests_cant": "combination of thresholds", "anchors": ["libs/hdd/dd.cpp: DD::addObservations"]}
{"id": "C44", "title": "Memory waveform cache is transparent", "statement": "Serving waveforms through the memory cache returns the same waveform (or failure) as the underlying processor would, for every order of requests with the same processing parameters.", "quantifier": "all request sequences", "why_tests_cant": "history property; key collisions", "anchors": ["libs/hdd/waveform.cpp: MemCachedProc::get, waveformId"]}
{"id": "C45", "title": "Disk waveform cache is transparent, also after a crash", "statement": "Serving traces through the disk cache returns the same trace as the underlying loader, whatever was cached before and wherever a previous run was interrupted while writing.", "quantifier": "all request sequences, all crash points", "why_tests_cant": "crash points", "anchors": ["libs/hdd/waveform.cpp: DiskCachedLoader::get", "libs/hddsc/waveform.cpp: writeTrace, readTrace"]}
{"id": "C46", "title": "Batch loading", "statement": "After load() every requested window is answered with the trace obtained for exactly that window, or a failure; every distinct request is issued once.", "quantifier": "all request sequences", "why_tests_cant": "history property", "anchors": ["libs/hdd/waveform.cpp: BatchLoader"]}
{"id": "C47", "title": "Extended time windows contain what is needed", "statement": "The window loaded from the source contains the requested window and the configured span around the pick, and starts and ends on whole seconds.", "quantifier": "all times, window lengths", "why_tests_cant": "rounding at every microsecond", "anchors": ["libs/hdd/waveform.cpp: ExtraLenLoader::traceTimeWindowToLoad"]}
{"id": "C48", "title": "Trace slicing", "statement": "A successful slice yields a trace covering the requested window whose samples are the original samples at the same absolute times (to the microsecond); a failed slice leaves the trace unchanged; no access is out of bounds.", "quantifier": "all traces, frequencies, windows", "why_tests_cant": "rounding of sample indexes", "anchors": ["libs/hdd/trace.h: GenericTrace::slice, index, sampleTime"]}
{"id": "C49", "title": "Component rotation", "statement": "Rotation to radial/transverse preserves the energy of the horizontal components sample by sample, and the output time window is the common window of the inputs.", "quantifier": "all traces", "why_tests_cant": "all alignments of start times", "anchors": ["libs/hdd/waveform.cpp: BasicProcessor transformRT, transformL2"]}
{"id": "C50", "title": "Grid files are read within bounds, one value per node", "statement": "Distinct grid nodes read disjoint byte ranges, each node read is inside the file or an error is raised, for every header and file size.", "quantifier": "all grid sizes, all indexes (64 bit arithmetic)", "why_tests_cant": "overflow of 64 bit products", "anchors": ["libs/hdd/nll/grid.cpp: Grid::getValueAtIndex"]}
{"id": "C51", "title": "Grid values are interpolated in the right cell", "statement": "For a location inside the grid the eight (four) nodes used surround the location, the relative position is in [0,1], locations outside raise an error, and the time returned lies between node values and is non-negative.", "quantifier": "all grids and locations", "why_tests_cant": "cell boundaries, last cell, NaN", "anchors": ["libs/hdd/nll/grid.cpp: getValuesAt3DLocation, getValuesAt2DLocation, TimeGrid::interpolateValues*"]}
{"id": "C52", "title": "Map projections are inverted exactly", "statement": "For the SIMPLE and SDC transforms toLatLon(fromLatLon(p)) is p (longitude normalised), rotation and inverse rotation cancel, and angle conversion back and forth is the identity modulo 360.", "quantifier": "all origins, rotations, points off the poles", "why_tests_cant": "all reals", "anchors": ["libs/hdd/nll/grid.cpp: SimpleTransform, SDCTransform, Transform::rotate, inverseRotate, toLatLonAngle, fromLatLonAngle"]}
{"id": "C53", "title": "Travel time grids: results do not depend on cache history and open files are bounded", "statement": "The travel time for a station and phase is the one of the nearest grid whatever was computed before and whatever the cache size, each grid is open when read, and at most maxOpenFiles grids are open after each call.", "quantifier": "all query sequences, all cache sizes, shared grids", "why_tests_cant": "history property with aliasing of grids between stations", "anchors": ["libs/hdd/ttt/nllgrid.cpp: NLLGrid::compute"]}
{"id": "C54", "title": "Homogeneous travel times: the two entry points agree", "statement": "The travel time returned by the time-only entry point equals the one returned with angles; it is non-negative, and the horizontal and vertical slownesses combine to the medium slowness.", "quantifier": "all event and station positions, positive velocities", "why_tests_cant": "all reals", "anchors": ["libs/hdd/ttt/homogeneous.cpp: Homogeneous::compute"]}
{"id": "C55", "title": "Take-off angle decoding", "statement": "Packing and unpacking quality, dip and azimuth is lossless for in-range values; byte swapping twice is the identity; decoded angles are in range.", "quantifier": "all 32 bit words", "why_tests_cant": "2^32 words and all rotations", "anchors": ["libs/hdd/nll/grid.cpp: AngleGrid, Grid::getValueAtIndex"]}
{"id": "C56", "title": "Scheduling: no job too early, one per wake-up, no duplicates", "statement": "A job is never started before its scheduled time, at most one job is started per wake-up, an object has at most one pending process and the queue holds no process twice.", "quantifier": "all sequences of updates and timer ticks", "why_tests_cant": "schedules", "anchors": ["apps/scrtdd/rtddtool.cpp: RTDD::addProcess, runNewJobs, removeProcess"]}
{"id": "C57", "title": "Scheduling: every due job is started", "statement": "Once its delay has elapsed and the timer keeps firing, every process scheduled by the last update of an object is eventually started.", "quantifier": "all schedules", "why_tests_cant": "needs coincidences of due times", "anchors": ["apps/scrtdd/rtddtool.cpp: RTDD::runNewJobs"]}
{"id": "C58", "title": "Profile selection by region", "statement": "The profile used for an origin is the forced one, or the first configured whose region contains the epicentre; a rectangular region contains exactly the points between its latitudes and eastward from its western to its eastern longitude, also across the date line.", "quantifier": "all regions and epicentres", "why_tests_cant": "all longitudes", "anchors": ["apps/scrtdd/rtddtool.cpp: RectangularRegion::isInside, RTDD::getProfile"]}
{"id": "C59", "title": "Any background event can be a neighbour of a real-time event", "statement": "In single-event mode whether a background event can be selected does not depend on the coincidence of its numeric id with the id given to the new event.", "quantifier": "all background catalogs", "why_tests_cant": "id coincidences", "anchors": ["libs/hdd/clustering.cpp: selectNeighbouringEvents", "libs/hdd/dd.cpp: DD::relocateSingleEvent", "libs/hddsc/utils.cpp: addToCatalog"]}
{"id": "C60", "title": "Azimuthal gap", "statement": "The reported primary azimuthal gap is the largest angle between consecutive used stations around the circle and the secondary gap the largest with one station removed; primary <= secondary <= 360.", "quantifier": "all azimuth lists", "why_tests_cant": "all reals", "anchors": ["libs/hddsc/utils.cpp: convertOrigin"]}
{"id": "C61", "title": "Waveform requests are all covered", "statement": "When windows are merged into record stream requests every requested stream/window is contained in a request issued for that stream, and the splitting terminates.", "quantifier": "all request multisets, all iteration orders", "why_tests_cant": "hash iteration order", "anchors": ["libs/hddsc/waveform.cpp: WaveformProxy::loadTraces"]}
{"id": "C62", "title": "Log messages reach every file logger of sufficient level", "statement": "A message is written to each active log file whose minimum level is not above the message level, independently of the console level and of the function used to log.", "quantifier": "all sequences of logger operations", "why_tests_cant": "history property", "anchors": ["libs/hdd/log.cpp: log, addFileLogger, removeFileLogger, setLevel", "libs/hdd/log.h: logInfoF"]}
{"id": "C63", "title": "Cross-correlation windows", "statement": "The long window is the short window extended by the maximum delay on both sides, contains it, and both contain the pick time when the configured offsets do.", "quantifier": "all picks and options", "why_tests_cant": "all offsets", "anchors": ["libs/hdd/dd.cpp: DD::xcorrTimeWindowShort, xcorrTimeWindowLong"]}
{"id": "C64", "title": "The least squares solvers compute what they report", "statement": "D2Norm(a,b) is sqrt(a^2+b^2) and Dnrm2 is the Euclidean norm of the vector, for every real vector. LSQR and LSMR perform at most the configured number of iterations (at least one) and stop with a documented reason. In exact arithmetic, for every matrix: the reported norms of the residual, of the gradient and of the solution are those of the returned solution, each stopping reason means what its message says, the returned solution is never worse than no change at all, at most min(rows, columns) iterations are needed, and without tolerances the result is the least squares solution of minimal norm.", "quantifier": "all matrices, right hand sides, dampings and tolerances", "why_tests_cant": "recurrences of norms over all matrices and any number of iterations; division by zero on special systems", "anchors": ["libs/hdd/3rd-party/lsqr-lsmr/lsqr.cpp: D2Norm, Dnrm2, Solve", "libs/hdd/3rd-party/lsqr-lsmr/lsmr.cpp: Solve"]}
{"id": "C65", "title": "computeCoordinates inverts distance and azimuth", "statement": "The point that computeCoordinates(distance, azimuth, lat, lon) returns is at exactly that great-circle distance from the start and in exactly that azimuth, for every positive distance below half the circumference (the azimuth when the start is not a pole), unless the result is so close to the start that computeDistance takes the two for the same place; a zero distance returns the start.", "quantifier": "all start points, distances and azimuths", "why_tests_cant": "all points of the sphere", "anchors": ["libs/hdd/utils.cpp: computeCoordinates, computeDistance, computeAzimuth"]}
{"id": "C66", "title": "A relocation step never worsens the linearised problem", "statement": "For every set of observations, damping, number of iterations, with LSQR or LSMR and with or without normalisation of the columns, Solver::solve either throws (nothing to solve, ill conditioned system, no event with data) or reports changes for exactly the events having an observation of weight other than zero; these changes never make the sum of the squared weighted linearised double difference residuals (damping included) larger than no change would, have no part in the directions the data do not constrain, and satisfy the tolerance announced by the stopping reason.", "quantifier": "all sequences of calls, all systems, all options", "why_tests_cant": "needs every system including rank deficient and iteration-limited ones; the guarantee comes from the algebra of the solvers", "anchors": ["libs/hdd/solver.cpp:814-897", "libs/hdd/solver.cpp:45-237", "libs/hdd/3rd-party/lsqr-lsmr/lsqr.cpp", "libs/hdd/3rd-party/lsqr-lsmr/lsmr.cpp"]}
{"id": "C69", "title": "The origin made from a relocated event has one arrival per phase and a quality that describes the used ones", "statement": "convertOrigin adds exactly one arrival for each phase of the event, in order, with the weight and residual of the phase if it was relocated and zero otherwise; its pick is the first pick of the source origin with the same time and stream, or else a new pick that is returned, new picks being different from each other; the quality counts the relocated phases with a known station and their stations, and min distance <= median <= max distance.", "quantifier": "all phase lists, source origins, station tables", "why_tests_cant": "all combinations of missing stations, matching picks and relocated flags", "anchors": ["libs/hddsc/utils.cpp: convertOrigin"]}
{"id": "C70", "title": "The solution moves the event in the sense of the derivatives", "statement": "The derivatives given to the solver are the partial derivatives of the travel time with respect to the position of the event towards east, north and up; updateRelocatedEvents moves an event by (dx, dy, dz, dt) to the point on the sphere at its depth that lies at the distance sqrt(dx^2+dy^2) in the direction dx east and dy north, makes it shallower by dz and later by dt up to half a microsecond; without horizontal change the epicentre is kept exactly.", "quantifier": "all events away from the poles, all changes shorter than half the circumference, all stations, velocities", "why_tests_cant": "sign and unit conventions over all directions; exactness on the sphere", "anchors": ["libs/hdd/dd.cpp:983-999", "libs/hdd/dd.cpp:1126-1151", "libs/hdd/utctime.h:71-76"]}
{"id": "C67", "title": "Start and final residuals are those of the first and last pass", "statement": "After a relocation the start residual of every phase and the start rms of every event of the cluster are those of the first pass, the final ones those of the last pass, a phase without observation counts as zero residual and does not enter the rms; the rms is the weighted root mean square of the residuals, lies between the smallest and largest absolute residual, and is zero only if they all are; events outside the cluster are not touched; a missing station or event makes the function throw without changing anything.", "quantifier": "all catalogs, clusters, numbers of iterations, moves in between", "why_tests_cant": "all numbers of passes, reverted events and patterns of missing observations", "anchors": ["libs/hdd/dd.cpp:1013-1095", "libs/hdd/dd.cpp:667-771"]}
{"id": "C68", "title": "Resampling is the windowed sinc filter at the new instants", "statement": "Each sample of a resampled trace is the windowed sinc low pass filter of the old samples around its instant; the new trace covers the old one up to less than one new sample; resampling is linear; upsampling keeps the old samples exactly where the instants coincide; equal or non-positive frequency leaves the trace alone.", "quantifier": "all traces, all pairs of frequencies", "why_tests_cant": "all window positions at both ends of the trace and all frequency ratios", "anchors": ["libs/hdd/waveform.cpp:763-826"]}
{"id": "C71", "title": "Importing origins adds one consistent event per origin and keeps what was there", "statement": "addToCatalog adds one event with a new id for every origin that has arrivals and returns exactly these ids with their origins; an arrival becomes a phase exactly if its pick exists, it is not an automatic pick known to be unused, and its station is in the catalog or was found in the inventory for it or for an earlier arrival; the phase copies the pick; the catalog stays consistent and its earlier stations, events and phases are unchanged, also when the import throws, which needs an origin without depth or a sensor location without position.", "quantifier": "all catalogs, lists of origins, inventories", "why_tests_cant": "all combinations of missing picks, missing stations, unset attributes and orders", "anchors": ["libs/hddsc/utils.cpp:56-79", "libs/hddsc/utils.cpp:209-342"]}
{"id": "C72", "title": "The cross-correlation cache holds exactly the selected pairs, each measured once", "statement": "After the cache of a cluster has been built, there is an entry for a pair of events at a station and phase type exactly when one of the two has the other among its neighbours with this station and phase, and the station and the other event are within the configured distances. An entry that was given to the construction is kept. Any other entry is the measurement of the first phases of the two events with this station and type, made once per unordered pair, and it is seen with the opposite lag from the other event. A valid measurement belongs to the first component that gave one; its coefficient is between -1 and 1, its lag at most the allowed delay, and the trace of a trusted pick is the short one when the other pick is not trusted. Exchanging the events gives the opposite lag, so the contents of the cache do not depend on the order in which events and neighbours are visited. The construction cannot fail if events, phases and their processing information exist, and only requests announced by the preloading are made for an event outside the catalog. Every stored coefficient and lag was assigned.", "quantifier": "All catalogs with referential integrity, options, neighbourhoods, visiting orders, waveform loaders and earlier cache contents; real-valued traces of any length", "why_tests_cant": "The containers are unordered, so the order of visits differs between platforms; values that are read without having been assigned differ from run to run and are mostly zero in tests", "anchors": ["libs/hdd/dd.cpp:208-221", "libs/hdd/dd.cpp:1187-1233", "libs/hdd/dd.cpp:1239-1352", "libs/hdd/dd.cpp:1354-1440", "libs/hdd/dd.cpp:1472-1658", "libs/hdd/dd.cpp:1688-1725"]}
{"id": "C73", "title": "The lag of the cross-correlation corrects the errors of the picks", "statement": "If two traces show the same signal, with any gain and offset, and only one of the searched windows fits, then the coefficient is plus or minus one and the time difference given to the solver, which is that of the picks minus the lag, is the difference of the travel times of the signal whatever the errors of the picks.", "quantifier": "All signals, gains, offsets, pick errors within the allowed delay, window options and travel times, in exact arithmetic", "why_tests_cant": "A bias of some milliseconds is below the threshold of any test with real data, and depends on options and travel times", "anchors": ["libs/hdd/dd.cpp:1442-1470", "libs/hdd/dd.cpp:1521-1642", "libs/hdd/waveform.cpp", "libs/hdd/dd.cpp:891-931"]}
{"id": "C74", "title": "Relocating a single event returns that event or nothing", "statement": "A call for a single event returns an empty catalog or a catalog with that event only, under a new id, marked as relocated, with the same magnitude, moved by changes the solver returned for it and with exactly the picks it came with; the neighbours take part with the locations of the background catalog and are never returned. It is empty if the neighbours are too few or no change was found. The two steps made for an origin compose in the same way: the picks are those of the origin, with the types replaced for automatic origins, and the location is that of the origin moved by the changes of step 1, if that succeeded, and of step 2. The start rms reported is that before step 1.", "quantifier": "All background catalogs without relocation marks, events, neighbour selections within the background catalog, options, solver outcomes, phase type maps and contents left in a moved-from catalog", "why_tests_cant": "Whether the result holds other events, loses picks or keeps old marks depends on ids, failures of the solver and of the travel times at particular iterations; a wrong start rms looks plausible", "anchors": ["libs/hdd/dd.cpp:533-646", "apps/scrtdd/rtddtool.cpp:2027-2149"]}
{"id": "C75", "title": "Processing a waveform keeps its time, its frequency and its proportions", "statement": "The processing of a request never fails with an exception or undefined behaviour; it asks the loader only for the needed channels and the window extended by the margin. A result of a single channel covers the window and exceeds it by less than a sample, has the sampling frequency asked for (else that of the recording) and exists if the recording covers the extended window and the margin is at least two new samples; the same coverage holds for the L2 norm, radial and transversal components of channels sampled at the same times. An offset of the recordings changes nothing, a gain is passed on. Loading a longer window and cutting it gives the same trace as loading the window.", "quantifier": "All loaders, inventories, filters, windows, margins, channels, recordings (any samples, starts and sampling frequencies), resampling frequencies and transformations", "why_tests_cant": "Rounding of times to microseconds and of sample counts depends on sampling frequency, start and window in combination; a lost sample or a shifted start shows up as a small wrong delay only", "anchors": ["libs/hdd/waveform.cpp:202-248", "libs/hdd/waveform.cpp:340-457", "libs/hdd/waveform.cpp:518-746"]}
{"id": "C76", "title": "The real-time program relocates what it should and sends what it relocates", "statement": "In every execution with a clock that does not go back, each operation (an object arrives, the timer fires, a reload is requested, an origin of the command line is added) first loads configured profiles if need be and then relocates at most one origin. It is the origin of an object that arrived before and was due by then; it passes the filters (evaluation mode, author, agency, preferred origin) in the current state of the system and is relocated with the first profile whose region contains it. A new origin is written to the XML output and sent to the messaging exactly as configured; the program ends exactly with an exception of a relocation. Whatever is not accepted leaves no trace. An object that is due alone is processed; origins given on the command line are relocated in order, each once.", "quantifier": "All configurations, orders of operations, objects, times, answers of database, cache, inventory and relocation (changing at any time), and iteration orders", "why_tests_cant": "The outcome depends on the interleaving of updates, timer and profile loading; a test sees a handful of schedules with a stable database", "anchors": ["apps/scrtdd/rtddtool.cpp:1351-1448", "apps/scrtdd/rtddtool.cpp:1450-1636", "apps/scrtdd/rtddtool.cpp:1640-1775", "apps/scrtdd/rtddtool.cpp:1836-1854", "apps/scrtdd/rtddtool.cpp:2027-2056"]}
{"id": "C77", "title": "A grid header is read as it is written, and exactly the usable grids of a model are found", "statement": "The header of a time or angle grid is accepted with a source exactly if its lines (words separated by any blanks, blank lines ignored) contain, in this order and between lines that cannot be taken for one of them, the line of the numbers of nodes, origin and steps (10 or 11 words), the line of the source (4 words) and one line of the transform; a velocity grid needs the first and the last. The result holds the converted values of those lines (dx is 1 if there is one plane; DOUBLE with swapped bytes is refused). A transform line is accepted exactly if its keywords are in place, its numbers convert and its angles are in range. If at most one line describes a transform and a line of 10 or 11 words precedes it, no uninitialised value is read. Searching the directory of a model yields for P and S times and angles, in the order of the directory, exactly the grids whose name is model.phase.station.kind.hdr and whose header, data file and type are right, and the velocity grid of each phase; a file that fails does not affect the others.", "quantifier": "All file contents, grid types, directory contents and orders, and number conversions", "why_tests_cant": "Headers are free text: the accepted set is decided by counts of words and of accepted lines in an implicit state machine; tests use the headers one program writes", "anchors": ["libs/hdd/nll/grid.cpp:415-571", "libs/hdd/nll/grid.cpp:610-707", "libs/hdd/utils.cpp:92-97", "libs/hdd/ttt/nllgrid.cpp:75-186"]}
{"id": "C78", "title": "Relocating a catalog gives for every event what its own cluster gives, and loses no measurement", "statement": "For a catalog with consistent references the relocation always ends, with the same result whatever the number of loop passes allowed, without undefined behaviour if the measurements have none, and normally if the measurements succeed and each system can be prepared. The clusters are the connected components of the events kept by the neighbour selection (each event in exactly one, each pair of neighbours stated once). If no event of the catalog is marked as relocated, the returned catalog is consistent and holds only events of the clusters; an event of a cluster is returned exactly if it was moved, with its id, magnitude and picks, marked, at the hypocentre that results from the changes its own cluster's solver reported (all of them when no travel time failed), and no system of a cluster sees changed events of another. For every pair of events, station and phase the cross-correlations after the run hold the measurement of the cluster that contains both, otherwise what was there before; the construction for a cluster sees for its own pairs exactly what was there before the run.", "quantifier": "All catalogs, neighbour selections, iteration orders, solver and travel-time behaviours, cluster counts, precomputed measurements", "why_tests_cant": "Interference between clusters through the accumulated catalog and cache depends on hash order and on which clusters exist; tests run one or two catalogs", "anchors": ["libs/hdd/dd.cpp:378-391", "libs/hdd/dd.cpp:393-405", "libs/hdd/dd.cpp:407-531", "libs/hdd/dd.cpp:1187-1233"]}
{"id": "C79", "title": "After preloading the catalog, its waveforms are taken from the disk and are those of the data source", "statement": "Preloading the catalog with the disk cache enabled calls the data source at most once per event, with requests that are all different, each for a channel and window that a pick of that event needs for the cross-correlation and that cannot be read from the disk; every such window is requested. Files that could be read, and files nobody needs, are left as they are; any other file is written only with a waveform delivered for its stream and cut to its window. Whatever is needed and delivered can be read afterwards, the disk cache is connected to the normal loader again, and preloading again asks only for what the source does not have and changes no file. Afterwards the waveforms of the picks, and the cross-correlation of two picks, do not depend on the source, and if sampling periods are whole microseconds they are exactly those cut out of the recordings directly. (Ideally this holds for every pair of picks; it does not when no components are configured and the two picks are on different channels.)", "quantifier": "All catalogs, options, inventories, states of the cache directory, behaviours of the data source, orders of delivery and iteration", "why_tests_cant": "Which requests are made depends on the catalog, the inventory, and on what is already cached; a request missed by the preloading only costs a download later and shows in no result", "anchors": ["libs/hdd/dd.cpp:169-204", "libs/hdd/dd.cpp:208-221", "libs/hdd/dd.cpp:223-312", "libs/hdd/waveform.cpp:122-200", "libs/hdd/waveform.cpp:250-325", "libs/hdd/waveform.cpp:340-431"]}
{"id": "C80", "title": "The map projections of grids are undone by their inverse and have the geometry of their name", "statement": "For every known ellipsoid and every header that is accepted: the Lambert projection of a point within 90 degrees of longitude of the origin, off the poles, is mapped back to it (longitude exactly, latitude within 5e-9 degrees, exactly on the sphere), the origin is mapped to (0,0), the map is conformal everywhere and true to scale on both standard parallels. The azimuthal equidistant projection shows every point but the opposite one at its true arc from the origin times the equatorial radius, in its true direction turned by the rotation, and maps it back exactly. The transverse Mercator projection maps the central meridian to the vertical line at the false easting with its true lengths times the scale factor (within 1e-8 of the equatorial radius per radian), is conformal there to the same precision, is symmetric east and west of it, and its inverse has the same symmetry and the inverse scale. (Ideally all three are undone everywhere, and the shape of every ellipsoid is the published one; this fails for Lambert far from the origin, for the point opposite of the azimuthal origin, and for NAD-83.)", "quantifier": "All ellipsoids of the table, origins, rotations, standard parallels, scale factors, false eastings and points", "why_tests_cant": "The formulas and the iteration of the inverse depend on six real parameters and the point; a wrong sign or series coefficient shifts events by metres to kilometres only in some parts of the map", "anchors": ["libs/hdd/3rd-party/gmt/map_project.cpp:102-519", "libs/hdd/nll/grid.cpp:286-394"]}
{"id": "C81", "title": "The travel time plugin answers a phase with the grids of its type, and the adapter makes it equal to the native table", "statement": "A model that is set successfully is the configured one (path, search distance, byte order, access method, number of files, phase lists, each with its default), whatever the plugin was before, and it is set exactly if a configuration with the path of the tables exists and the grids accept their settings; otherwise the plugin has no model and answers no phase. After any sequence of calls, a phase has a travel time exactly if its name is in the list of P or S phases and the nearest grids of that type within the search distance can be opened and have a value; names in both lists are P; unknown names never touch the grids; travel times with and without the other values agree. The list of arrivals is sorted by time and holds exactly the answers for P and S, its first element is the earliest. Through the adapter the table gives, for P and S, the values of the native table, and every failure is an HDD::Exception. (Ideally for every configuration; it fails when the configured lists do not contain the names P and S.)", "quantifier": "All configurations, models, former states, phase names, sequences of calls, grids, cache sizes and Seiscomp versions", "why_tests_cant": "The answer depends on configuration entries, on the state of caches left by earlier calls, and on which of several exception types is caught where", "anchors": ["plugins/ttt/nll/nll_ttt.cpp:116-350", "libs/hddsc/ttt.cpp:28-109", "libs/hdd/ttt/nllgrid.cpp:188-469"]}
{"id": "C82", "title": "A configuration is accepted exactly if its profiles are acceptable, and every parameter has the configured value or its documented default", "statement": "Reading the configuration ends with an exception exactly if one of the nine parameters without a default cannot be read. Otherwise it is accepted exactly if, for every active profile and the profile of the command line, the region has no or the right number of values and they are numbers, the uncertainty classes are numbers and each of the three solver ranges has one or two values. If accepted, the loaded profiles are the active ones in order plus that of the command line, and each of their parameters is the value configured under the documented name or the documented default. The parameters of one profile do not influence another profile, whatever the names of the profiles are, and entries that are not documented have no effect. Messaging is off, and nothing is sent, exactly for the offline commands; the database is switched off exactly if the inventory is a file, an offline command that allows it is given and no catalog is a list of origin ids. (Ideally also that an unknown type of region or a negative number is refused; both are accepted.)", "quantifier": "All configurations, profile names, command lines, number formats and path resolutions", "why_tests_cant": "There are 61 parameters that may each be missing or given, any number of profiles with any names, and five ways to be invalid; a mixed up prefix, default or profile shows only for particular combinations", "anchors": ["apps/scrtdd/rtddtool.cpp:68-210", "apps/scrtdd/rtddtool.cpp:340-1041", "apps/scrtdd/descriptions/scrtdd.xml", "libs/hdd/dd.h:45-130"]}
{"id": "C83", "title": "The commands on catalogs: merging loses and duplicates nothing, dumped clusters read back as the clusters found, and relocated events are linked with the origins they came from", "statement": "Of the commands on catalogs that are given exactly one is executed, the first in a fixed order, and options of the others have no effect. --merge-catalogs writes a catalog in which every event of every input is exactly once with its phases under an id of its own, and nothing else; with --merge-catalogs-keepid the first input that has an id decides about its event and phases. If the names are not triples or an input cannot be read nothing is written. --dump-clusters writes for every cluster a file of pairs that reads back as exactly that cluster, and a catalog of exactly its events; relocating the catalog with these files gives what relocating it without them gives. When the catalog is a file of origin ids, every known origin with arrivals becomes one event, in the order of the file, and in the XML every relocated event appears once, linked with the origin it was imported from; with a catalog from files there is no link. A command that reports failure has written nothing. (Ideally also that a profile that cannot be loaded is reported as failure; several commands let an exception escape instead.)", "quantifier": "All command lines, files, numbers of catalogs and clusters, orders of the containers, data sources, and results of the relocation", "why_tests_cant": "The claims are about arbitrary numbers of catalogs with arbitrary overlapping ids, arbitrary clusters, and iteration orders that differ between platforms; a lost event or pair shows only for particular overlaps", "anchors": ["apps/scrtdd/rtddtool.cpp:1127-1253", "apps/scrtdd/rtddtool.cpp:1783-1834", "apps/scrtdd/rtddtool.cpp:1893-2004", "apps/scrtdd/rtddtool.cpp:2153-2241", "libs/hddsc/utils.cpp:344-385", "libs/hdd/clustering.cpp:214-280"]}
{"id": "C84", "title": "The waveform proxy answers every request once, many requests at once as if each were made alone, and delivers what was recorded", "statement": "loadTraces answers every request exactly once, with a trace that the receiver accepts or with a failure; only a trace that the receiver refuses with an exception is followed by a failure. A trace covers the window of its request, exceeds it by less than a sample at each end, and consists of samples of records of its stream. If the record stream delivers at least the records asked for and the buffers sort them, loadTraces answers every request with what loadTrace answers to it alone, however the requests are merged, distributed over connections and iterated. A window of at least a hundred samples that was recorded without gaps is delivered, with the recorded samples at the recorded times, also after it went through the loader of batches with any other requests. Without a connection a single request throws and every request of a batch is answered with a failure. A trace that is written to a file is read back. (Ideally shorter windows that were recorded are delivered as well, and data that cover less than 95 per cent of the window are refused.)", "quantifier": "All lists of requests, orders of iteration, divisions of the recording into records, orders and surpluses of the delivery, sampling frequencies and windows", "why_tests_cant": "Which requests are merged and in which order records arrive depends on hash tables and on the data server; the end of a window falls between two records only for particular divisions of the recording", "anchors": ["libs/hddsc/waveform.cpp:46-137", "libs/hddsc/waveform.cpp:139-298", "libs/hddsc/waveform.cpp:380-424", "libs/hddsc/waveform.h:59", "libs/hdd/waveform.cpp:122-200"]}
{"id": "C85", "title": "In double precision, durations survive the conversion to seconds and back, and cutting a trace keeps the window, unless it ends on the last sample", "statement": "secToDur(durToSec(d)) is d for durations of less than 2^32 seconds (and not always beyond). secToDur gives the nearest microsecond, up to the rounding of one product, and both conversions keep the order. For a trace whose sampling frequency is a whole number of at most 2^20 Hz, that has at most 2^31 samples and lasts less than 2^40 microseconds, slice never converts a number that does not fit nor reads outside of the samples; a window from the start time on that ends before the last sample is cut out: the kept samples begin at or before the window and end at or after it, by at most one sample, the new start time is that of the first kept sample within 0.501 microseconds. (Ideally this also holds for windows that end on the last sample.)", "quantifier": "All durations, doubles, traces, frequencies and windows in the stated ranges, computed in IEEE binary64", "why_tests_cant": "The rounding of a product depends on every bit of its factors; the failing windows are a few per cent of those that end on the last sample", "anchors": ["libs/hdd/utctime.h:71-82", "libs/hdd/trace.h:106-116", "libs/hdd/trace.h:144-172"]}
{"id": "C86", "title": "The commands on origins relocate every given origin as if it were alone, and write or send each result once, unless one of them ends in an exception", "statement": "scrtdd --ep relocates the origins of the file in their order, ignoring preferred origins, modes, authors and agencies; the first profile whose region contains the origin (or the forced one) is used. The output has the objects of the file followed by the new origins with their picks, in that order; what an origin contributes is what the command gives for it alone; origins without place or profile and those that cannot be relocated contribute nothing. scrtdd --origin-id does the same with the origins that are found, skips the other ids, and sends every new origin once if there is a connection and neither --test nor XML output. (Ideally the output also has the other results when the relocation of one origin ends in an exception, and --ep works without a database.)", "quantifier": "All files, lists of ids, configurations, worlds (answers of caches, database, regions, relocations), times, and iteration orders", "why_tests_cant": "The result depends on the scheduler's queue, on profiles loaded by earlier origins and on the iteration order of maps", "anchors": ["apps/scrtdd/rtddtool.cpp:1105-1126", "apps/scrtdd/rtddtool.cpp:1258-1325", "apps/scrtdd/rtddtool.cpp:1518-1624", "apps/scrtdd/rtddtool.cpp:1640-1775"]}
{"id": "C87", "title": "In double precision the cross-correlation finds the right lag and coefficient, as long as the offset or single samples do not outweigh the signal", "statement": "For traces of finite samples that are multiples of a power of two (between 2^-200 and 2^200, one for each trace), by factors of at most A, where the short trace has n samples and n A < 2^26 (2 n^2 A^2 < 2^53): crossCorrelation, computed in IEEE double precision, returns a lag at which neither the short trace nor the window is constant, and a coefficient that differs from the exact correlation coefficient at this lag by at most 5/2^53 of it, so it is at most 1 + 5/2^53 in absolute value. No other lag has an exact coefficient that is larger by more than 11/2^53 of it; of equal windows the first is returned. A lag better than all others by more than that, for example the only one that matches the short trace up to a gain and an offset, is the one returned. If there is no lag of this kind, the coefficient is NaN. For all other finite samples, bounded by M between 2^-400 and 2^400 in each trace, where the variance of the short trace and of each window is at least tau M^2 and tau >= 4000 (sizeL + 1) / 2^53: the coefficient is finite and differs from the exact one at the lag returned by at most delta = 160 (sizeL + 1) / (2^53 tau), and no lag has an exact coefficient that is larger by more than 2 delta in absolute value; a lag better than all others by more than that is the one returned. (Ideally this holds for all samples; but there are traces with a large offset whose coefficient is -2, or NaN although a trace is compared with itself, and one large sample makes a perfect match later in the trace unnoticed.)", "quantifier": "All lengths, traces, scales in the stated ranges, computed in IEEE binary64 with rounding to nearest", "why_tests_cant": "The rounding of rolling sums depends on all samples before the window; tests compare a few traces with a tolerance", "anchors": ["libs/hdd/xcorr.cpp:38-139"]}
{"id": "C88", "title": "The statistics of the cross-correlations describe the measurements that were made", "statement": "After the cross-correlation cache of a cluster has been built, logXCorrSummary logs one line per station and kind of phase (P, S by the configured names, P first) for which there is an entry in the cache between an event and one of its neighbours with this station and phase, and none for other stations. The line gives the number of these entries (an entry counts for each of the two events that has the other as neighbour), how many failed, how many valid ones have an absolute coefficient of at least the threshold of this kind of phase, and minimum, quartiles and maximum of the absolute coefficients of the valid ones (zeros if there are none). The totals are the sums over the stations. It does this for every cluster and order of its containers, and changes nothing. (Ideally for all caches; but with one, two or three valid entries at a station a precondition of std::nth_element is violated.)", "quantifier": "All clusters, caches, phase lists, thresholds, iteration orders, and outcomes that std::nth_element may have", "why_tests_cant": "The numbers are only logged, and nth_element with a bad range usually goes unnoticed", "anchors": ["libs/hdd/dd.cpp:1727-1888", "libs/hdd/utils.cpp:299-323"]}
{"id": "C89", "title": "A profile relocates with the catalog and the travel time table it was last loaded with", "statement": "For every sequence of timers, relocations, commands and reload requests: a relocation or preloading of a profile uses the HDD::DD object made by the last load, is refused exactly if the profile is not loaded, and never follows an empty pointer. A load makes a DD object exactly if nothing throws, with the given catalog unless it is empty, otherwise the catalog of the id file if configured, otherwise of the three files, with the travel time table described by tableType/tableModel, and the configured waveform cache; if it fails the profile is unloaded and the next timer or origin tries again. A loaded profile is not loaded again. The timer releases the waveforms of a profile exactly if it is loaded, profileTimeAlive is not negative, and more than this time has passed since the last use; with a negative value never. A reload request unloads the profile with this name, and the next timer loads it from the files as they are then; the reply is an error exactly if there is no such profile. (Ideally also: the reply to a reload is an error if the profile cannot be loaded; waveforms are not released right after a relocation has ended; fields of tableModel may be empty.)", "quantifier": "All sequences of operations, profiles, settings, readings of the clock, and outcomes of the reading of files and of the constructors at every moment", "why_tests_cant": "The interleavings of timers, requests, failures and clock readings cannot be enumerated, and need a messaging system and a database", "anchors": ["apps/scrtdd/rtddtool.cpp:1350-1370", "apps/scrtdd/rtddtool.cpp:1424-1448", "apps/scrtdd/rtddtool.cpp:1713-1725", "apps/scrtdd/rtddtool.cpp:1821-1834", "apps/scrtdd/rtddtool.cpp:1880-2034", "apps/scrtdd/rtddtool.h:154"]}
{"id": "C90", "title": "Dumping the waveforms of a catalog writes each of them to its own file", "statement": "DD::dumpWaveforms writes a file for an event of the catalog, one of its phases of type P or S, and a component (the configured ones, or the last letter of the channel) exactly if the waveform of the short cross-correlation window of this phase can be obtained; the file contains this waveform and is called ev<id>.<network>.<station>.<location>.<channel>.<type>.mseed in the given directory. Nothing else is written, also if the function ends with an exception, and a file that cannot be written does not keep the others from being written. If the directory does not exist and cannot be made, nothing is written. (Ideally every waveform gets its own file; but two phases of the same type of one event at one station share a name.)", "quantifier": "All catalogs, options, directories, waveforms, outcomes of loading and writing", "why_tests_cant": "Collisions of names and the state after an exception depend on the catalog", "anchors": ["libs/hdd/dd.cpp:314-377", "libs/hdd/dd.cpp:208-221", "libs/hdd/dd.cpp:1688-1725", "libs/hdd/utils.cpp:505-508"]}
{"id": "C91", "title": "The data source prefers the event parameters, asks the database only for what is missing, and an import by ids takes each event from it", "statement": "DataSource::getObject delivers the first object with the id in the event parameters (picks, amplitudes, origins, events), else what the cache delivers; get<T> delivers only objects of class T. getParentEvent delivers the first event of the event parameters that refers to the origin, else that of the database. loadArrivals and loadMagnitudes ask the database only for lists that are empty and wanted, keep what is there and change nothing else of the origin. addToCatalog with ids imports exactly the known origins that have arrivals after this loading, in the order of the ids, each with its time, position and the value of the preferred magnitude of its event, NaN if there is none. (Ideally the preferred magnitude of an event in the event parameters is found there, and all three constructors give usable objects; both are false.)", "quantifier": "All event parameters, databases, caches (each may be missing), ids and catalogs", "why_tests_cant": "The project has no test of the data source; the combinations of absent sources and duplicate ids are unbounded", "anchors": ["libs/hddsc/utils.cpp:111-207", "libs/hddsc/utils.cpp:209-384", "libs/hddsc/utils.h:38-76"]}
{"id": "C92", "title": "The value of a grid at a location in double precision is the interpolation of the cell's nodes, up to a bound on the rounding", "statement": "For a grid whose axes have a positive step, up to 2^40 nodes and an origin not further than 2^40 steps from zero, a finite location is accepted exactly if it is inside the grid, up to 3u(|origin|+length) at the last node (u = 2^-53); nodes that are numbers in double precision are accepted. The cell of an accepted location is made of nodes of the grid, and the position in it is exact up to 3u times the number of nodes. If the nodes have values between 0 and K, the time is a finite number within 19uK (2D: 13uK) of the exact interpolation at that position, with a further 1.025 2^-24 K for files in single precision. At a node that is not the last of an axis the time is exactly the value of the file. (Ideally also at the last node, and a grid without negative times gives no negative time; both are false, and without the bound on the origin the cell can be outside the grid.)", "quantifier": "All axes, locations, values of the nodes, both types of file", "why_tests_cant": "Rounding errors depend on all digits of the numbers", "anchors": ["libs/hdd/nll/grid.h:208-226", "libs/hdd/nll/grid.cpp:870-1034", "libs/hdd/nll/grid.cpp:1064-1130", "libs/hdd/utils.cpp:385-440"]}
{"id": "C93", "title": "In double precision DD::xcorr finds the lag within the maximum delay and swapping the traces negates it", "statement": "For traces whose samples are multiples of a power of two (bounded as in C87), a non-negative maximum delay D and a frequency F, DD::xcorr reads nothing outside the traces; its lag is a whole number k of samples divided by F with one rounding, where k has the best correlation, up to rounding, among all shifts up to m; m is D F up to one sample and rounding, or what the long trace allows; the lag is at most D up to rounding. Without any condition on the samples, exchanging the traces gives the same coefficient to the last bit and the opposite lag, also for traces of the same length. (Ideally D = n/F searches n samples; this is false, 0.29 s at 100 Hz are 28. A delay of 2^31 samples or more is undefined.)", "quantifier": "All traces, frequencies, delays within the stated ranges", "why_tests_cant": "Rounding depends on all digits of delay and frequency; all pairs of lengths", "anchors": ["libs/hdd/dd.cpp:1650-1686", "libs/hdd/xcorr.cpp:38-139"]}
{"id": "C94", "title": "Numbers in catalog files are read back within the printed precision, and writing them again gives the same files", "statement": "A finite double printed with \"%.nf\" is the decimal number with n decimals nearest to it, ties to even. std::stod gives the double nearest to the decimal number of a text, and an exception if it is too large or below the normal doubles. So a number printed with n decimals is read as one that differs by at most half of 10^-n and one rounding, a number with n decimals is read as it was, and a number printed with \"%g\" (unless between 0 and 2^-1021) is read with a relative difference of at most 5.1e-6; in all cases the number that was read is printed as the same text. A catalog of doubles written with writeToFile and read again has the same stations, events and phases up to these differences, and writing it once more gives the same station and event file and the same lines in the phase file. (Not every number is read exactly, and with a subnormal residual the files cannot be read.)", "quantifier": "All doubles including infinities and NaN, all catalogs whose references are complete, any order of stations and phases", "why_tests_cant": "All 2^64 doubles; stability of the text depends on ties and on the spacing of doubles and decimals", "anchors": ["libs/hdd/catalog.cpp:403-511", "libs/hdd/catalog.cpp:70-215", "libs/hdd/utils.cpp:46-90"]}
{"id": "C95", "title": "A cross-correlation cache written to a file and read again gives the same answers", "statement": "XCorrCache::writeToFile writes the header and one line for every pair, station and phase type of the cache; it throws exactly if some station is not in the catalog, and the file then ends before the first such pair. If events have ids of 32 bits, the stations are in the catalog and no code or phase type has a comma, quote, line end or NUL, readFromFile returns a cache with the same answers for all pairs in both directions: the same validity, and coefficient and lag with the same sign and up to six decimals, infinities and NaN unchanged. Writing this cache again gives the same lines. For any file that is read, the last line of a pair of events, in either order, gives the answer, and exchanging the events negates the lag. If all stations named in a file are in the catalog, reading returns or throws. (With a station that is not in the catalog, reading dereferences end().)", "quantifier": "All caches reachable by additions and removals of any doubles, all catalogs, all iteration orders, all texts of files", "why_tests_cant": "Arbitrary doubles, texts and iteration orders; memory error for a missing station", "anchors": ["libs/hdd/xcorrcache.cpp:38-99", "libs/hdd/xcorrcache.h:62-159"]}
{"id": "C96", "title": "Files saved for inspection are complete, never overwrite one another, and do not change the result", "statement": "With saveProcessing, relocateSingleEvent and relocateMultiEvents return the catalog they return without it, or throw; without it they write nothing. A call writes no file twice, whatever the number of clusters, and all files are in the working directory. After a return the files hold the input, the relocated events, the double-differences of the first and last system and, for each cluster under its number, exactly its events and phases, its pairs and its relocated events. The file of double-differences has one line per difference, in order, that says what it is with numbers of six digits; writing it throws exactly if a station is unknown. The directory chosen did not exist when it was asked for; its name is that of another call exactly if both are in the same second. A multi-event call that returns, and a single-event call that returns with enough neighbours, close the log files they opened. (A single-event call with too few neighbours and any call that throws leave their log file registered, so it receives the messages of later relocations; without saveProcessing a single-event call closes a log file of another user of this name; within one second the search for a directory does not advance.)", "quantifier": "All catalogs, clusters and selections, all answers of the file system, all messages logged before, during and after, all numbers of clusters, all double-differences of any doubles, all times up to the year 9999", "why_tests_cant": "Unbounded number of clusters and file names, interleaving of later log messages, every point at which an exception may occur", "anchors": ["libs/hdd/dd.cpp:88-125", "libs/hdd/dd.cpp:407-531", "libs/hdd/dd.cpp:533-650", "libs/hdd/log.cpp:136-167"]}
{"id": "C97", "title": "sclistorg lists the asked origin of each event, and rtddtool imports exactly what it lists", "statement": "For each event that is asked for (modified since, type in the list) sclistorg prints at most one origin: among the preferred origin or all origins of the event, those that have the asked mode, a status in the list up to case, a listed author, agency and method, no excluded one and lie in the area are considered, and the last of those with the latest or earliest creation time, most or least phases, largest or smallest RMS is printed; none is printed only if none passes. The area is the rectangle of scrtdd's regions. An exception occurs only if a creation time is missing and the order is first or last, or a depth is missing and an area is given; the output is then that of the events before. Read by rtddtool as a list of origins, the output gives exactly the printed origins in order, whatever the other columns hold. With --simple the file is not imported. (An excluded origin without creation time aborts the run; so does one without depth with an area; a malformed area is no area; an unknown order gives the last origin that passes.)", "quantifier": "All options, events, origins and answers of the database, all texts without newline in the columns, all conversions of numbers.", "why_tests_cant": "The choice is by a running best over any list of origins with missing attributes and ties, under eleven combined filters; the output must survive a second program's parser for arbitrary texts.", "anchors": ["apps/sclistorg/sclistorg.py:136-239", "apps/sclistorg/sclistorg.py:241-411", "libs/hdd/csvreader.cpp:44-145", "libs/hddsc/utils.cpp:361-384"]}
{"id": "C98", "title": "The script that renews the background catalog publishes only a complete relocation", "statement": "generate-reference-catalog.sh copies, imports, archives or removes nothing unless the working directory is new and both sclistorg and scrtdd succeed, the three files of the relocated catalog exist and that of the events has two lines, which a file written by scrtdd has exactly if the catalog has an event. The running program is told to reload its catalog only if all three files were replaced by the new ones, with the former ones kept under .old and all other files unchanged. What is not configured is not touched. An existing directory stops the script without any effect. A run that stops keeps what it made. A run with exit status 0 has done everything that is configured, and if tar succeeds the archive holds all results. (If tar fails the results are deleted with exit status 0; a failed import is reported as done; a failed copy can leave files of two catalogs and no events.)", "quantifier": "All configurations, all answers of the commands, all contents of the directories before.", "why_tests_cant": "Failures of every external command in every combination.", "anchors": ["scripts/generate-reference-catalog.sh:33-169", "libs/hdd/catalog.cpp:403-441"]}
{"id": "C99", "title": "Removing the mean in double precision is accurate, and exact for constant traces of few digits", "statement": "With demeaning on, the processed samples are those of the exact computation (C75) up to (n+4) M 2^-53 + 2^-1074, for n samples of size at most M; for integer samples of size at most A with n A < 2^53 (counts of a digitiser) the error is at most 3 A 2^-53 whatever n is. A constant trace whose value has few enough digits gives exactly zeros. A sample that is not a number or infinite makes every output not finite. (A constant trace does not give zeros in general: ten samples of 0.1 leave positive samples; and finite samples can give outputs that are not finite.)", "quantifier": "All lists of binary64 samples within the bounds, all lengths up to 2^40 (counts: n A < 2^53).", "why_tests_cant": "Rounding errors over all samples and lengths; tests compare with a tolerance on a few traces.", "anchors": ["libs/hdd/waveform.cpp:436-448"]}
{"id": "C100", "title": "The weights of the residuals in double precision are between zero and one and close to the exact ones", "statement": "computeResidualWeights in binary64: the median is the exact median of the residuals, correctly rounded. For finite residuals and positive alpha, the divisor alpha*MAD/0.67449 as computed is positive, infinite or zero, never NaN. If it is finite and positive, every weight is finite and in [0,1], it is exactly 1 for a zero residual, exactly 0 if and only if the absolute residual reaches the divisor, never increases with the absolute residual, and differs from the exact (max(0, 1-(r/c)^2))^2 by at most 9*2^-53. If it is infinite all weights are 1. For deviations and alpha of normal size the divisor is within 5*2^-53, relatively, of the exact one. (If it is zero, in particular if all residuals are equal, the weights are 0, and NaN for a residual of zero.)", "quantifier": "All lists of finite residuals, all positive finite alpha, all implementations of std::nth_element that meet its contract; overflow and underflow in all intermediate results included (median: residuals up to 2^999).", "why_tests_cant": "Rounding, overflow and underflow at all values; the equivalence at the cutoff is about neighbouring doubles.", "anchors": ["libs/hdd/solver.cpp:546-590", "libs/hdd/utils.cpp:325-350"]}
{"id": "C101", "title": "Longitudes and azimuths are brought to their range also in double precision", "statement": "normalizeAzimuth of any finite double is a finite double in [0, 360), and equals the azimuth up to whole turns and 2^-44 degrees. normalizeLon of any finite double up to 2^999 is in [-180, 180), 180 itself excluded whatever the rounding; up to 800 degrees it equals the longitude up to whole turns and 3*2^-44 degrees; it keeps exactly every longitude of the range that is a multiple of 2^-43. Infinities and NaN give NaN. (It is not the identity on its range: 2^-50 becomes 0.)", "quantifier": "All binary64 arguments within the stated sizes.", "why_tests_cant": "The ends of the ranges depend on rounding at single doubles.", "anchors": ["libs/hdd/utils.h:90-98"]}
