{"id": "C01", "title": "Baseline codes decode to the encoded antenna pair", "statement": "miriad.bl2ij(miriad.ij2bl(i,j)) is (min(i,j), max(i,j)) for all antenna numbers 0..2046; ij2bl does not depend on argument order and never maps two different unordered pairs to the same code.", "quantifier": "all pairs of antenna indices in 0..2046 (and, as a finding, the first pair outside it for which decoding fails)", "why_tests_cant": "Two encodings (256 and 2048 mantissa) share one integer range; a test samples pairs, the collision-freedom claim is about all ~4 million of them and about the boundary between the encodings.", "anchors": ["aipy/miriad.py:ij2bl", "aipy/miriad.py:bl2ij"]}
{"id": "C02", "title": "The reader and the writer in the C layer agree with Python on antenna numbers", "statement": "The pair handed to UV.write for a record, encoded by the C wrapper as a float32 baseline variable, is decoded by UV.read, by the antenna selection code of the MIRIAD library and by bl2ij to the same two antennas in the same order, for antennas 0..2046; for i<=j the code is the one ij2bl gives.", "quantifier": "all ordered antenna pairs in 0..2046", "why_tests_cant": "Three independent implementations of the code (Python, macros, uvbasant) must agree everywhere, including in the float32 representation.", "anchors": ["aipy/_miriad/miriad_wrap.h:MKBL,GETI,GETJ", "aipy/_miriad/mir/uvio.c:uvbasant_c", "aipy/miriad.py:ij2bl,bl2ij"]}
{"id": "C03", "title": "Baseline+polarisation keys are a faithful encoding", "statement": "pol.blp2ijp(pol.ijp2blp(i,j,pol)) gives back i, j (ordered) and pol for every antenna pair and every polarisation code the encoding has room for; different (pair,pol) have different keys.", "quantifier": "all antenna pairs 0..2046 and polarisation codes -9..6", "why_tests_cant": "Collision freedom over the full product of three ranges.", "anchors": ["aipy/pol.py:ijp2blp,blp2ijp"]}
{"id": "C04", "title": "Number codecs of the file format are lossless and big-endian", "statement": "Packing then unpacking an array of 16-, 32-, 64-bit integers, float32 or float64 gives back the same array (16-bit: the values that fit in 16 bits; others come back reduced modulo 2^16 with sign), and the bytes stored are the big-endian two's complement / IEEE bit pattern, whatever the array length.", "quantifier": "all arrays of all lengths over the full range of each type", "why_tests_cant": "2^64 values per element and unbounded array lengths.", "anchors": ["aipy/_miriad/mir/pack.c:pack16_c,unpack16_c,pack32_c,unpack32_c,pack64_c,unpack64_c,packr_c,packd_c"]}
{"id": "C05", "title": "Item I/O behaves like a flat byte array", "statement": "For every history of hread/hwrite calls on an open item (byte access at any offset and length; typed access in whole elements when all offsets are multiples of one unit that the element sizes divide, and a write is a multiple of that unit long or reaches the end of the item; items below 2 GiB), a read returns for every byte the last value written there (or the value on disk before the item was opened); the 16384-byte window, its partial refills and its write-backs are never visible, and after close the file holds exactly those bytes.", "quantifier": "all finite sequences of reads, writes, size queries and close/reopen with arbitrary offsets and lengths (writes that start at or before the current end of the item, or within one window of the start of a small item, or anywhere in an item that has its own file)", "why_tests_cant": "The state machine has a movable dirty window with partial fills; failures need particular interleavings of offsets relative to window boundaries.", "anchors": ["aipy/_miriad/mir/hio.c:hio_c,hwrite_fill,hdaccess_c,hflush_c", "aipy/_miriad/mir/dio.c:dread_c,dwrite_c"]}
{"id": "C06", "title": "Small header items survive close and reopen", "statement": "Setting, reading, deleting and testing items of a data set, flushing, and closing and reopening it behave as operations on one dictionary from names to byte strings: every non-empty item (and the history, empty or not), small (kept in the common header file) or large (own file), is present after reopening with exactly the same bytes, and no other item appears, in any creation order.", "quantifier": "all finite histories of operations on items with legal names (1 to 8 characters, not 'header') and non-empty contents of any size, at most 1000 items at a time", "why_tests_cant": "The items are concatenated in one 'header' file with padding that is not written at the end; the claim is about every combination of sizes and the end-of-file arithmetic.", "anchors": ["aipy/_miriad/mir/hio.c:hflush_c,hcache_read_c,hcreate_item_c"]}
{"id": "C07", "title": "Header values read back as written", "statement": "Assigning header items with uv[name]=value, reading them with uv[name], listing them with uv.items(), and closing and opening the data set again behave as operations on one dictionary from names to values: what is read is the value last assigned to that name. A sequence of one number comes back as that number, complex numbers are rounded to single precision (and not changed any further when stored again), every other value comes back as it was.", "quantifier": "all finite histories of assignments, reads, listings and reopenings; all 32-bit integers, all doubles, all complex numbers, ASCII text without NULs, scalars and sequences of any length up to 2 GiB, for every item name the UV class knows except the two the library rewrites itself (vartable, obstype)", "why_tests_cant": "Unbounded lengths and all values of each type; offset alignment differs per type.", "anchors": ["aipy/miriad.py:UV._rdhd,UV._wrhd", "aipy/_miriad/miriad_wrap.cpp:hread_init,hwrite_init,WRAP_hread,WRAP_hwrite"]}
{"id": "C08", "title": "The freqs header item round-trips", "statement": "uv['freqs']=v followed, after any other header operations and reopenings, by uv['freqs'] gives v back for every list of the form [n, (int,double,double)*].", "quantifier": "all well-formed frequency tables of any length", "why_tests_cant": "Unbounded number of records with mixed-size fields on a fixed stride, ended by end-of-file detection.", "anchors": ["aipy/miriad.py:UV._rdhd_special,UV._wrhd_special"]}
{"id": "C09", "title": "Flag bitmap I/O is exact for every history", "statement": "After any sequence of flag writes and reads, in bit-array or run-length form, at any bit offsets and lengths starting at or before the current end, reading any range returns exactly the flags last written there, and flags outside written ranges are unchanged, before and after flushing and reopening.", "quantifier": "all finite sequences of flag reads/writes/flushes with arbitrary offset, length and contents", "why_tests_cant": "31 bits per word, a 128-word window, and a read-modify-write of partial words make the outcome depend on alignment of the whole history.", "anchors": ["aipy/_miriad/mir/maskio.c:mkread_c,mkwrite_c,mkflush,mkfill"]}
{"id": "C10", "title": "Run-length and bit-array flag access agree", "statement": "Writing flags as runs and reading them as an array (or the reverse) gives the same flags; the runs read back are maximal, ordered, disjoint and within the requested range.", "quantifier": "all flag arrays and ranges", "why_tests_cant": "Combinatorial in the flag pattern and its alignment to 31-bit words and to the window.", "anchors": ["aipy/_miriad/mir/maskio.c:mkread_c,mkwrite_c"]}
{"id": "C11", "title": "Variables read with a record are those in force when it was written", "statement": "For every sequence of uv[name]=value assignments and record writes, a later sequential read sees, at each record, for each variable the last value assigned before that record was written, although unchanged values are not stored and change checking is switched off after repeated changes. (At most 128 distinct variables; a variable keeps its type; a variable not yet assigned has no value on the first pass.)", "quantifier": "all finite histories of assignments (any variables, types and lengths) and record ends", "why_tests_cant": "The stored stream omits unchanged values depending on the history of each variable (a per-variable counter), so correctness is a statement about unbounded histories.", "anchors": ["aipy/_miriad/mir/uvio.c:uvputvr_c,uvnext_c,uv_scan,uvflush_c"]}
{"id": "C12", "title": "Records come back in the order written, each exactly once", "statement": "Reading a data set with no selection to end of file yields exactly the records written, in the same order, with the same preamble (u,v,w,t,i,j), data and flags, then reports end of file. (At most 128 variables; if the caller assigns uv['time'], uv['coord'] or uv['baseline'] directly, the next record carries that value; the first record's preamble does not coincide with the writer's start values.)", "quantifier": "all finite sequences of records with any spectrum contents and flags", "why_tests_cant": "Depends on elision of unchanged time/baseline/coord values and on flag offsets accumulated over the whole history.", "anchors": ["aipy/_miriad/mir/uvio.c:uvwrite_c,uvread_c,uvread_preamble,uvread_flags", "aipy/miriad.py:UV.read,UV.write,UV.all"]}
{"id": "C13", "title": "Rewinding and reading again gives the same records", "statement": "After rewind(), reading yields the same sequence of preambles, data and flags as the first pass, also with selection and decimation in force, however much was read before.", "quantifier": "all data sets and all numbers of records read before the rewind", "why_tests_cant": "State left behind by a partial first pass differs with how far it went.", "anchors": ["aipy/_miriad/miriad_wrap.cpp:UVObject_rewind,UVObject_read", "aipy/_miriad/mir/uvio.c:uvrewind_c"]}
{"id": "C14", "title": "Decimation keeps exactly the chosen integrations", "statement": "With select('decimate',n,p) (n not 0), reading from the start returns exactly those of the selected records whose integration index k (counting changes of the time stamp among the selected records, from 0) satisfies k = p mod n, in order, then end of file; whatever was selected or read before.", "quantifier": "all record sequences, all n other than 0, all p, all earlier calls of select, read and rewind", "why_tests_cant": "Depends on unbounded sequences of time stamps and on state carried between reads.", "anchors": ["aipy/_miriad/miriad_wrap.cpp:UVObject_read,UVObject_select", "aipy/miriad.py:UV.select"]}
{"id": "C15", "title": "Antenna selection keeps exactly the chosen baselines", "statement": "After a sequence of antennae/auto select calls within one clause, a baseline is kept iff the last call that covers it was an include (or none covers it and the first call was an exclude), for records written with the lower antenna number first.", "quantifier": "all sequences of selection calls and all antenna pairs up to 2048 antennas", "why_tests_cant": "A table over pairs updated by unbounded call sequences with wildcards.", "anchors": ["aipy/_miriad/mir/uvio.c:uvselect_c,uvread_select"]}
{"id": "C16", "title": "Selection clauses combine as and/or of their meanings", "statement": "With clauses joined by 'and'/'or', a record is kept iff the left-to-right boolean combination of the clauses keeps it; in a clause, ranges of the same kind combine last-match-wins and different kinds are conjoined. Limits: whole numbers in 'visibility' calls; dazim/delev not mixed with the later kinds; after 'clear' of a 'visibility' selection that was already read with, a new selection.", "quantifier": "all finite selection programs and all records", "why_tests_cant": "Short-circuited evaluation over programs of any length.", "anchors": ["aipy/_miriad/mir/uvio.c:uvread_select,uv_addopers,uvselect_c"]}
{"id": "C17", "title": "int16 storage loses at most one quantum", "statement": "With corrmode='j', each visibility component read back differs from the one written by at most 1.01 times the largest absolute value of its record over 32767 (in single-precision arithmetic, for records whose largest value is between 2^-110 and 2^127), components that are zero are read back as zero, and a record of zeros is read back as zeros.", "quantifier": "all spectra of finite values", "why_tests_cant": "A statement about all real-valued spectra, including the extreme sample that defines the scale.", "anchors": ["aipy/_miriad/mir/uvio.c:uvwrite_c,uvread_line"]}
{"id": "C18", "title": "pipe() clones a data set", "statement": "init_from_uv followed by pipe with the default function gives a file whose records and, at every record, whose tracked variables equal those of the source; records for which the function returns None are dropped and no others.", "quantifier": "all source histories and all per-record functions", "why_tests_cant": "Variables are copied incrementally only when updated since the last copy; correctness depends on the update history of each variable and on dropped records.", "anchors": ["aipy/miriad.py:UV.init_from_uv,UV.pipe", "aipy/_miriad/mir/uvio.c:uvcopyvr_c"]}
{"id": "C19", "title": "parse_chans returns the channels the string denotes", "statement": "For a comma list of n, a_b and a_b_step terms the result is the concatenation of the terms' ranges (end point included when counting up; a range counting down stops before it), 'all...' gives 0..nchan-1, and no other string is accepted.", "quantifier": "all lists of terms and all nchan", "why_tests_cant": "Unbounded strings; claim is about exact set and order.", "anchors": ["aipy/scripting.py:parse_chans"]}
{"id": "C20", "title": "parse_ants yields the selection the antenna string denotes", "statement": "For strings made of all, auto, cross, i, i_j, (i,j)_k forms with optional '-' the result is the list of (baseline, include, polarisation) entries the string denotes, and uv_selector followed by reads gives exactly the records those entries keep: an included entry adds its records, an excluded one restricts what was kept so far. A string whose next item begins neither as an antenna, a keyword nor a parenthesised run of antennas raises an error.", "quantifier": "all antenna strings in the grammar, all array sizes", "why_tests_cant": "Unbounded strings and array sizes; correctness is about the composition with the selection engine.", "anchors": ["aipy/scripting.py:parse_ants,uv_selector"]}
{"id": "C21", "title": "flatten_prms and reconstruct_prms are inverse", "statement": "reconstruct_prms applied to the flattened values and key list of a parameter dictionary gives back a dictionary with the same value under every path, provided every list in it has at least two values; applied to any other vector of the same length it gives a dictionary of the same shape holding the new values. A one-value list comes back as a bare number and an empty list is lost.", "quantifier": "all nested dictionaries of scalars and lists, all value vectors", "why_tests_cant": "Recursive structure of any depth and any list lengths; the limits (lists of length 0 and 1) show only for particular shapes.", "anchors": ["aipy/fit.py:flatten_prms,reconstruct_prms"]}
{"id": "C22", "title": "get_params after set_params returns what was set", "statement": "For every parameter object of the fit and pol modules, after any sequence of set_params calls get_params returns for each parameter the last value set, or the initial value if none was; requested names that do not exist are left out and '*' means all. Exceptions found: mfreq is not settable, alm coefficients come back in reversed order, BeamPolynomial rejects plain lists, the imaginary bandpass of a polarised antenna cannot be set under the name get_params shows, a delay given together with phsoff is lost.", "quantifier": "all parameter values, all dictionaries and all orders of set calls", "why_tests_cant": "Histories of sets and all values; some classes violate it.", "anchors": ["aipy/fit.py:Antenna,RadioFixedBody,RadioSpecial,Beam2DGaussian,BeamPolynomial,BeamAlm,SrcCatalog", "aipy/pol.py:Antenna"]}
{"id": "C23", "title": "Setting one antenna's parameters leaves every other antenna unchanged", "statement": "In every history of constructions, get_params and set_params in which no list object is given as phsoff to two antennas (or polarisations) or also as a bandpass, an operation on one antenna changes neither the parameters nor the phases and gains in effect of any other. Without that discipline it fails: antennas built with the default phsoff share one list, and setting the dictionary read from one antenna on another ties them together.", "quantifier": "all histories over any number of antennas, polarisations and shared list objects", "why_tests_cant": "Aliasing of mutable lists: visible only for particular construction/mutation histories.", "anchors": ["aipy/phs.py:Antenna.__init__", "aipy/fit.py:Antenna.get_params,set_params", "aipy/pol.py:Antenna"]}
{"id": "C24", "title": "Rotation matrices are rotations and mutually inverse", "statement": "coord.rot_m(angle, unit axis) turns every vector right-handed by that angle around that axis, eq2top_m and top2eq_m are rotations (keep scalar products, determinant 1) inverse to each other, eq2top_m puts the direction (-ha, dec) straight up and the pole on the meridian, convert_m is the matrix of a linear conversion. (Refuted: the documented scaling by the length of the axis; the documented need to reverse the arguments of convert_m.)", "quantifier": "all angles, all unit axes, all vectors", "why_tests_cant": "Identity over the reals.", "anchors": ["aipy/coord.py:rot_m,eq2top_m,top2eq_m,convert,convert_m"]}
{"id": "C25", "title": "Coordinate conversions are inverse and stay in range", "statement": "xyz2thphi(thphi2xyz(th,phi)), eq2radec(radec2eq), top2azalt(azalt2top) give the angles back (azimuth/RA in [0,2pi)), in the other order they give the vector divided by its length, the angles are in range for every vector and do not depend on its length, and the forward maps give unit vectors in the directions meant.", "quantifier": "all non-zero vectors; all angles in the stated ranges", "why_tests_cant": "Identity over the reals including the branch logic of arctan2.", "anchors": ["aipy/coord.py:xyz2thphi,thphi2xyz,eq2radec,radec2eq,top2azalt,azalt2top,latlong2xyz"]}
{"id": "C26", "title": "Baselines are antisymmetric and close", "statement": "get_baseline(i,j) = -get_baseline(j,i), the three baselines of any triangle sum to zero, and get_baseline(i,i)=0, in every source frame the API offers; lengths are preserved by the frame rotation; towards a source the components are the projections on the directions east, north and towards it; a body computed for the present time gives what its vector gives and raises PointingError below the horizon; 'z' is towards straight up; gen_uvw is the baseline times each active frequency. (Refuted: the 'e' baseline, dotted with a source's equatorial vector, is not w.)", "quantifier": "all antenna positions, all triples, all pointing directions and times, all histories of operations on the array", "why_tests_cant": "Identity over real vectors and rotation matrices.", "anchors": ["aipy/phs.py:AntennaArray.get_baseline,gen_uvw"]}
{"id": "C27", "title": "Phasing to a source and back is the identity", "statement": "unphs2src(phs2src(data,src,i,j),src,i,j)=data and the reverse; the fringe of (j,i) is the conjugate of that of (i,j), with or without resolution effects; the phasor has modulus 1 and is exp(-2 pi i t) with t the turns of geometry, refraction and antenna phases; phases close around triangles. (Refuted: a body's refraction is scaled from its own frequency.)", "quantifier": "all visibilities, antennas, frequencies, directions, refractions", "why_tests_cant": "Identity over complex numbers.", "anchors": ["aipy/phs.py:AntennaArray.gen_phs,phs2src,unphs2src,get_phs_offset"]}
{"id": "C28", "title": "bl_indices lists every baseline of the asked kind exactly once", "statement": "bl_indices(auto,cross) contains each unordered pair i<j iff cross and each (i,i) iff auto, exactly once, and the codes decode to valid antennas.", "quantifier": "all array sizes", "why_tests_cant": "Unbounded array size.", "anchors": ["aipy/phs.py:AntennaArray.bl_indices,ij2bl,bl2ij"]}
{"id": "C29", "title": "Simulation never uses a stale or missing source cache", "statement": "After any history of calls, sim() raises AttributeError if set_jultime was never called, RuntimeError if sim_cache was not called since the last set_jultime, gives zeros if no source of that call was up, and otherwise the sum over exactly the sources of that call that were up, with the responses of the antennas as they are, provided antennas were not re-tuned or re-pointed after responses were first computed for these sources. (Findings: bm_response with no source up turns the zeros into KeyError; set_ephemtime does not discard sources; responses go stale when an antenna is re-pointed after first use.)", "quantifier": "all call histories", "why_tests_cant": "State machine with three cache states and exceptions in the middle.", "anchors": ["aipy/amp.py:AntennaArray.set_jultime,sim_cache,bm_response,sim"]}
{"id": "C30", "title": "sim_cache keeps exactly the sources above the horizon", "statement": "After sim_cache, the cached coordinates, fluxes, frequencies, refractions and shapes are those of the sources with positive altitude at the time of the last set_jultime, in the original order, each option with its source; missing flux rows of a source that is up raise IndexError and change nothing. (Finding: surplus rows go unnoticed.)", "quantifier": "all source lists", "why_tests_cant": "Alignment of several parallel arrays after filtering, for any length.", "anchors": ["aipy/amp.py:AntennaArray.sim_cache"]}
{"id": "C31", "title": "add2array adds every datum to its cell", "statement": "After add2array(arr,ind,data), each cell holds its old value plus the sum of all data addressed to it (repeats counted), negative indices address from the end, and an out-of-range index raises (indices within 32 bits).", "quantifier": "all arrays, index lists (with repeats) and data", "why_tests_cant": "Unbounded sizes, repeats and mixed-sign indices.", "anchors": ["aipy/utils/utils.cpp:add2array,addloop"]}
{"id": "C32", "title": "Gridding conserves and degridding is its transpose", "statement": "On a square buffer grid2D adds each sample, spread by a Gaussian footprint, to cells addressed cyclically (never outside the buffer), so that the sum over the grid grows by each datum times its total weight; degridding into a zeroed output returns the mean of the cells under the same weights, hence is the normalised transpose of gridding, and a constant grid degrids to that constant.", "quantifier": "all buffers, coordinates, data, footprints", "why_tests_cant": "Real-valued identity over arbitrary sizes with cyclic wrap.", "anchors": ["aipy/_dsp/grid/grid.c:grid1D_r,grid1D_c,grid2D_c,degrid2D_c"]}
{"id": "C33", "title": "recenter is an invertible cyclic shift", "statement": "recenter(a,c)[i] = a[(i+c) mod n] in every axis; recenter by c then by -c is the identity; sums are preserved; c outside the array wraps.", "quantifier": "all array shapes and all centres", "why_tests_cant": "Unbounded sizes and shifts of either sign.", "anchors": ["aipy/img.py:recenter", "aipy/deconv.py:recenter"]}
{"id": "C34", "title": "append_hermitian adds exactly the conjugate-mirrored visibilities", "statement": "After append_hermitian, the set of samples is closed under (uvw,data)->(-uvw,conj data), the originals come first unchanged, and gridding them onto a hermitian uv matrix leaves it hermitian (the beams too, for real weights), so that its inverse transform is real. Weights not given are 1 for the first beam and 0 for the others.", "quantifier": "all visibility sets", "why_tests_cant": "Unbounded numbers of samples.", "anchors": ["aipy/img.py:Img.append_hermitian"]}
{"id": "C35", "title": "W-projection gridding handles every sample exactly once", "statement": "ImgW.put partitions the samples, sorted by w, into consecutive chunks no wider than the w resolution in sqrt(w), grids each sample once with its own data and weight and adds each plane once, projected from the mean w of its samples; ImgW.get reads each sample from the plane of its chunk (remembered, or projected to the mean w of such a chunk) and returns the values in the caller's order.", "quantifier": "all sample sets with any w distribution", "why_tests_cant": "Partition of an unbounded sorted list with data-dependent boundaries; permutation and inverse permutation.", "anchors": ["aipy/img.py:ImgW.put,ImgW.get"]}
{"id": "C36", "title": "word_wrap keeps every word in order within the width", "statement": "When the width leaves room for at least one character, img.word_wrap never loses, duplicates or reorders a word (words too long for a line are cut into consecutive pieces), begins every line with prefix and indent, breaks a line only where the next word does not fit, and every line is shorter than the width.", "quantifier": "all texts, widths and indents", "why_tests_cant": "Unbounded texts.", "anchors": ["aipy/img.py:word_wrap"]}
{"id": "C37", "title": "CLEAN conserves residual plus convolved model", "statement": "At every return of clean (convergence, divergence with undo, restore of the best model, iteration limit), residual + kernel (*) model (cyclic) equals its value at entry.", "quantifier": "all images, kernels, masks, gains, tolerances, iteration limits and flags; 1-D, 2-D", "why_tests_cant": "Loop of unbounded length with roll-back and restore of saved state.", "anchors": ["aipy/_deconv/deconv.cpp:clean_1d_r,clean_1d_c,clean_2d_r,clean_2d_c", "aipy/deconv.py:clean"]}
{"id": "C38", "title": "CLEAN only places model components inside the mask", "statement": "Model pixels outside the search area never change; each iteration changes the model at one pixel of the area where the residual is largest (largest positive one with pos_def), by gain times that residual divided by the kernel's largest value in the area; with pos_def and a kernel whose peak is positive no model pixel ever decreases.", "quantifier": "all inputs as above", "why_tests_cant": "Loop of unbounded length, stale argmax state.", "anchors": ["aipy/_deconv/deconv.cpp:clean_1d_r,clean_2d_r,clean_1d_c,clean_2d_c"]}
{"id": "C39", "title": "CLEAN that stops on divergence never makes the residual worse", "statement": "With stop_if_div set clean always returns, after at most maxiter iterations, and the residual returned has rms no larger than the residual it started from; without it the same bound holds whenever clean ends on maxiter, and the reported termination is true: 'divergence' when one more component would have raised the rms (it is not kept), 'tol' when the last component lowered it by less than the tolerance relative to the start, 'maxiter' at the iteration limit.", "quantifier": "all inputs as above", "why_tests_cant": "Invariant over an unbounded loop.", "anchors": ["aipy/_deconv/deconv.cpp", "aipy/deconv.py:clean"]}
{"id": "C40", "title": "lsq, maxent and anneal keep to their bounds, and anneal never gets worse", "statement": "lsq performs a fixed iteration (each step moves every pixel by gain times the weighted residual over twice the size of the kernel and puts it between lower and upper) until the mean square changes by less than the fraction tol or maxiter is reached, and returns the residual of the model it returns; pixels of zero area only get clipped. anneal takes up a tried model exactly if it fits strictly better, so no further turn makes the fit worse, and the result fits at least as well as every model tried; its score and residual are those of the model returned. maxent follows the entropy iteration with the stated slope, curvature and multiplier step, clips every model it makes, reports success exactly if it has not diverged, and each step brings the chi-square to its target to first order. maxent_findvar returns the result of a successful maxent.", "quantifier": "all images, kernels, areas, gains, tolerances, bounds and iteration counts; all random draws and cooling functions", "why_tests_cant": "Quantifies over all random draws and unbounded iterations.", "anchors": ["aipy/deconv.py:anneal,lsq,maxent"]}
{"id": "C41", "title": "Map.add accumulates weighted sums and Map.get returns the weighted mean", "statement": "After any sequence of add calls on a map, none of which names a pixel twice in one call, the weight of every pixel is the sum of the weights added to it and reading the pixel returns (sum of wgt*data)/(sum of wgt) over everything added to it, likewise for every spectral index; a pixel of no weight reads as what it holds. (When one call names a pixel k times, what the pixel held before is counted k times: a finding.)", "quantifier": "all sequences of adds of any length, all maps, all coordinates", "why_tests_cant": "Histories are unbounded, and tests rarely repeat a pixel in one call.", "anchors": ["aipy/map.py:Map.add,Map.__getitem__"]}
{"id": "C42", "title": "Healpix map assignment sums repeats and touches nothing else", "statement": "hpm[crds]=data sets each addressed pixel to the sum of the data addressed to it and leaves other pixels unchanged, for maps of nside up to 8192; a pixel number outside the map or a wrong count of data raises. (From nside 16384 pixel numbers are cut to 32 bits: a finding.)", "quantifier": "all index lists and data", "why_tests_cant": "Unbounded sizes and repeats.", "anchors": ["aipy/healpix.py:HealpixMap.__setitem__"]}
{"id": "C43", "title": "Changing healpix scheme or resolution preserves the sky", "statement": "change_scheme keeps the value seen in every direction and changing back restores the map; from_hpm onto a coarser map sums the pixels whose centres fall in each pixel and conserves the total (so brightness is not kept: a finding), onto a finer one interpolates; with equal nside it copies the map, correctly only when the schemes agree (a finding); Map.from_map does this to the map, the weights and each spectral map; set_map accepts exactly the lengths 12*4^k.", "quantifier": "all maps, all nside that are powers of two, every pixelization that is a bijection between the two numberings", "why_tests_cant": "All map contents and sizes; relies only on nest/ring conversion being a bijection.", "anchors": ["aipy/healpix.py:HealpixMap.change_scheme,from_hpm,set_map"]}
{"id": "C44", "title": "Alm coefficients are addressed without collision", "statement": "Setting alm[l,m] and reading any coefficient returns the set value for that (l,m) and the old one for all others, set_data takes exactly the data of the right length, and lm_indices enumerates the storage order, for all 0<=m<=l<=lmax, m<=mmax.", "quantifier": "all lmax, mmax, (l,m)", "why_tests_cant": "Triangular index arithmetic over unbounded sizes.", "anchors": ["aipy/healpix.py:Alm"]}
{"id": "C45", "title": "facet_centers visits each facet once", "statement": "_bit_reverse_order(N) is a permutation of 0..N-1, _local_shuffle keeps the values whatever is drawn, and facet_centers returns each of N distinct points of the unit sphere exactly once. (With numpy 1.10 and later it raises for every N above 1, because a float is added in place to an integer array: a finding.)", "quantifier": "all N", "why_tests_cant": "Unbounded N; involution on bit strings of any length.", "anchors": ["aipy/map.py:_bit_reverse,_bit_reverse_order,_local_shuffle,facet_centers"]}
{"id": "C46", "title": "Windows are symmetric, bounded and peak in the middle", "statement": "gen_window returns L samples in [0,1] with w[k]=w[L-1-k], not falling before the middle and equal to 1 in the middle sample when there is one, for every window kind but parzen and none, and for every alpha of tukey; an unknown name or an unexpected keyword raises. (parzen is not symmetric for any L, none is one number instead of L, tukey of one sample has two: findings.)", "quantifier": "all L from 2 on and all window kinds", "why_tests_cant": "Identity over the reals for all L.", "anchors": ["aipy/dsp.py:gen_window,tukey"]}
{"id": "C47", "title": "remove_spikes and flag_by_int: which samples end up flagged", "statement": "remove_spikes never clears a flag; the curve it compares with is the least-squares fit to the samples left unflagged; it makes the passes asked for, one after another; a pass that starts from no flags flags exactly the samples whose distance to the curve exceeds the rms; a mask of another size is ignored. flag_by_int flags an integration iff all its channels are masked or its value reaches the threshold. (Refuted in part: once some samples are flagged, later passes flag the wrong samples.)", "quantifier": "all spectra, masks, numbers of passes, orders of fit and thresholds", "why_tests_cant": "All masks and values, any number of passes; indices of the compressed array are used on the full one, which a test with no prior flags never shows.", "anchors": ["aipy/rfi.py:remove_spikes,flag_by_int"]}
{"id": "C48", "title": "set_active/passband/beam frequency selection commutes with evaluation", "statement": "After AntennaArray.select_chans(c), the active frequencies, phase offsets, gains and beam responses of every antenna are the whole-band ones at channels c, whatever was selected before (only the last selection counts); None restores the whole band; a channel the band does not have raises IndexError. (Findings: selecting on one antenna whose beam is shared leaves the others with tables of the old channels; a selection that raises leaves the array half changed.)", "quantifier": "all channel lists and histories of selections", "why_tests_cant": "Histories of nested selections of any length.", "anchors": ["aipy/phs.py:Beam.select_chans", "aipy/amp.py:Antenna.select_chans", "aipy/phs.py:AntennaArray.select_chans"]}
{"id": "C49", "title": "Source catalogues return what was added", "statement": "After any sequence of add_srcs, item assignments and deletions, get_srcs(names) returns the object last put under each name in the order asked, and raises exactly when a name holds nothing; add_srcs raises exactly when given something other than sources or one list of sources, and deleting exactly when the name holds nothing; get_catalog finds each name asked in the last listed catalogue that has it, or every source above the flux cutoff, and nothing else. (get_srcs without arguments returns None: a finding.)", "quantifier": "all histories and name lists", "why_tests_cant": "Histories of dictionary updates.", "anchors": ["aipy/phs.py:SrcCatalog.add_srcs,get_srcs,get", "aipy/src.py:get_catalog", "aipy/_src/misc.py:get_srcs", "aipy/_src/helm.py:get_srcs"]}
{"id": "C50", "title": "A data set whose writer died shows only records that were written", "statement": "Take any program that creates a UV data set, sets header items and variables and writes records, and let its process die between any two changes it makes to the directory, also half-way through close. Opening what is left for reading either raises an error, or reading gives the first records that were written, in order, with unaltered preamble, data, flags and variable values, and then the end of the data or an error; never an altered or invented record. Once close has returned, all records are there, followed by the end of the data.", "quantifier": "all write histories (any variables with printable names, any records, any other header items), all lengths of the part of the stream that reached the disk, all crash points up to the last write of close", "why_tests_cant": "Quantifies over crash points and over all write histories; a test would have to kill the process at every system call of every program.", "anchors": ["aipy/_miriad/mir/hio.c:hflush_c,hclose_c,hio_c", "aipy/_miriad/mir/uvio.c:uvopen_c,uvclose_c,uvflush_c,uv_vartable_out,uv_vartable_in,uv_scan", "aipy/_miriad/mir/headio.c:wrhdl_c,rdhdl_c"]}
{"id": "C51", "title": "Parameters shown are the parameters in effect", "statement": "After every history of constructions, get_params, set_params and update calls that does not share phase lists between antennas, the phase polynomial and gain an antenna uses are those of the parameters get_params shows.", "quantifier": "all histories over any number of antennas", "why_tests_cant": "Derived state is refreshed only by update(); a missed refresh shows only for particular histories.", "anchors": ["aipy/phs.py:Antenna.update", "aipy/amp.py:Antenna.update", "aipy/fit.py:Antenna.set_params", "aipy/pol.py:Antenna.update"]}
{"id": "C52", "title": "Simulated visibilities are sums over sources with fringe, gains, responses and resolution", "statement": "A simulated visibility is, for each active frequency, the sum over the sources that are up of flux times gain_j conj(gain_i) times response_j conj(response_i) times the resolution of the source's disk times the conjugate of the fringe; it is additive over source lists in any order, conjugate when antennas and polarisations are exchanged, real and non-negative for an antenna with itself, and phasing it to its only source removes the fringe.", "quantifier": "all arrays, histories, source lists and frequencies", "why_tests_cant": "Identities between sums over arbitrary source lists and real-valued geometry.", "anchors": ["aipy/amp.py:AntennaArray.sim,passband,bm_response", "aipy/phs.py:AntennaArray.gen_phs,phs2src,resolve_src"]}
{"id": "C53", "title": "Beam patterns are bounded, peak at the zenith and follow the pointing", "statement": "The responses of Beam, Beam2DGaussian and BeamPolynomial are real, positive and at most 1, equal 1 at the beam's zenith, have the stated symmetries and widths and fall away from the zenith; after set_pointing(az, alt, twist) both polarisations see that direction at the beam's zenith, y being x turned a quarter turn about it. (Findings: with the default pointing the beam's x axis is north, so the EW width applies to north-south; y's azimuth differs from the documented one in sign.)", "quantifier": "all directions, frequencies, widths, polynomials and pointings", "why_tests_cant": "Real-valued identities and inequalities over a continuum of directions.", "anchors": ["aipy/amp.py:Beam.response,Beam2DGaussian.response,BeamPolynomial.response,Antenna.set_pointing,Antenna.bm_response"]}
{"id": "C54", "title": "Appending to a data set continues it", "statement": "A UV data set that is closed and opened again in append mode, any number of times, reads back as all the records written over all the openings, in order, each with its preamble, data, flags and variables; a variable set in one opening keeps its value at the records of later ones until it is set again; the corrmode given when reopening changes nothing. (Finding: a data set with variables but no record cannot be reopened.)", "quantifier": "all histories of variable assignments, records and reopenings", "why_tests_cant": "The records of one opening must be found with the types, positions, lengths and flag offsets another opening left; only particular histories can be tested.", "anchors": ["aipy/_miriad/mir/uvio.c:uvopen_c,uvclose_c,uv_vartable_in,uvset_preamble,uvputvr_c,uvwrite_c", "aipy/_miriad/miriad_wrap.cpp:UVObject_init"]}
{"id": "C55", "title": "Parameter and source strings mean what they say", "statement": "parse_prms of a comma-separated list of assignments (objects)=(parameters)/(values)/(widths) gives each named parameter of each named object the value and width written for it last, None where none is written, and holds no other object; one number serves all, a list must have one number for each object or each parameter, and any other count is refused. parse_srcs of a comma-separated list gives each source in order, as the position if it is written as one and as its name otherwise, and val/freq as the cut. (Findings: text after an assignment is silently ignored; a source whose name begins with all stands for all sources.)", "quantifier": "all strings, any numbers of objects, parameters, assignments and sources", "why_tests_cant": "The meaning of a string is composed from parts that can be combined without limit; a test covers only particular combinations.", "anchors": ["aipy/scripting.py:parse_prms,parse_srcs"]}
{"id": "C56", "title": "read_files returns exactly the records asked for, in order", "statement": "read_files(names, antstr, polstr, decimate, decphs) gives under (i, j, pol) the data and flags of exactly the records of that baseline and polarisation that the antenna string, the polarisations and the decimation ask for, over all files in the order given; times and lsts are those of the successive integrations, and freqs, sdf and inttime are the last file's. If every integration has one record of a baseline and polarisation, its rows are as many as the times and row n is of time n. A missing or empty file, or no file, is an error. (Findings: otherwise rows and times do not correspond, also when two files cover the same times; a file name given as a string is read letter by letter.)", "quantifier": "all lists of files, records, antenna strings, polarisation lists and decimations", "why_tests_cant": "The gathered rows depend on every record of every file and on the state of selection and decimation.", "anchors": ["aipy/miriad.py:read_files,UV.all,UV.read", "aipy/scripting.py:uv_selector,parse_ants", "aipy/cal.py:get_freqs"]}
{"id": "C57", "title": "Gains, phases and responses of polarised baselines", "statement": "For antennas with feeds x and y, after update, the passband of baseline (i, j) in polarisation pq is the gain of feed q of j times the conjugate of the gain of feed p of i at every active frequency, and exchanging antennas and feeds conjugates it; the phase offset is the phase of q of j minus that of p of i, is reversed by the exchange and closes around any three antennas. I and U have the sum and Q the difference of the yy and xx offsets. The response to I and Q is the quadratic, to U and V the geometric mean of the feeds'; both lie between them. ParAng is the position angle of the zenith from north through east. After any sequence of write_pol, read_pol gives the last valid name. (Findings: V's offset is symmetric and not zero on autocorrelations; I's is twice xx's when the feeds agree; passband raises KeyError for every Stokes parameter; write_pol ignores unknown names.)", "quantifier": "all antennas, parameters, frequencies, polarisations, hour angles, declinations, latitudes and histories of write_pol", "why_tests_cant": "Statements about all real parameters and all pairs of antennas; the symmetries are identities, not samples.", "anchors": ["aipy/pol.py:Antenna,AntennaArray,ParAng,UV", "aipy/amp.py:Antenna.bm_response,AntennaArray.get_active_pol", "aipy/miriad.py:str2pol,pol2str"]}
{"id": "C58", "title": "Where the sky appears in an image", "statement": "In an image of n by n pixels from a uv matrix of resolution res, get_LM gives the pixel in row i, column j the direction (l, m) with m = a/(n res) and l = -b/(n res), a and b the signed distances from the origin; get_uv gives the cell in row i, column j the u and v that are res times the signed distances of i and j from the corner; it masks exactly the pixels with l^2+m^2 >= 1, and get_eq gives the unit vector with components l, m along east and north at (ra, dec). After put, each pixel has changed by the sum over the samples of the real part of data times the phase of -(u l + v m), tapered by the gridding kernel; hence a source at (l0, m0) gives the sum of cos 2 pi(u (l-l0) + v (m-m0)), and the taper apart no pixel is brighter than the source's. With ImgW the phase includes w(sqrt(1-l^2-m^2)-1), so that sources away from the centre are not smeared, and pixels beyond the horizon do not change. convolve2d is circular convolution, and gaussian_beam falls by 1/e at distance sigma. (Findings: ImgW images are n^2 times fainter than Img's for the same samples; get_uv numbers the axes differently from put; east is left, not right; the origin goes to minus the centre given; gaussian_beam is not normalised to amp, and ignores an int shape.)", "quantifier": "all image sizes, resolutions, centres, samples, weights, pixels and source positions", "why_tests_cant": "A sum over all samples for every pixel and position; tests can look at a few sources only and cannot separate taper, scale and phase.", "anchors": ["aipy/img.py:Img.get_LM,Img.get_uv,Img.put,Img.image,Img.get_top,Img.get_eq,ImgW.put,ImgW.conv_invker,convolve2d,gaussian_beam,recenter"]}
{"id": "C59", "title": "Scripts that rewrite data sets", "statement": "The output of a script, read back, has exactly one record for each record it answers, in order, at the same u, v, w, time and baseline, with the input's value of every variable. uv_addsub: the sum or difference of the records at the same place, flagged where either is and zero there; a second data set with fewer records or another number of channels raises. pull_pol: exactly the records of the named polarisations, unchanged. xtalk3 -i: each record minus the spectrum stored for its antennas, in either order, and its polarisation; flags stay; others unchanged. xrfi -m val: a channel is flagged and zero exactly if it was flagged (unless reflagging), is zero, is listed or is found an outlier; all else is unchanged. mdlvis: cross-correlations are replaced by, lose or gain the model and are zero where flagged, simulation clearing flags unless asked not to; autocorrelations are unchanged. apply_cal: gains, then phases; flags stay. (Findings: uv_addsub does not compare times, antennas or polarisations, and leaves a readable truncated output that the next run skips; xrfi gives repeated records the flags of the last; pull_ants always raises; combine_freqs raises under Python 3 unless nothing is to be done.)", "quantifier": "all data sets written by any history of calls, all record counts and channels, all models, masks, calibrations and lists of polarisations", "why_tests_cant": "Each statement covers every record, channel and variable of every data set; a run on one file shows none of the others.", "anchors": ["scripts/uv_addsub.py:mfunc", "scripts/pull_pol.py:mfunc", "scripts/pull_ants.py", "scripts/xtalk3.py:mfunc", "scripts/xrfi.py:rfi_mfunc", "scripts/mdlvis.py:mdl", "scripts/apply_cal.py:mfunc", "scripts/combine_freqs.py:mfunc", "aipy/miriad.py:UV.pipe,UV.init_from_uv"]}
{"id": "C60", "title": "Copying a data set keeps its header items", "statement": "Any program that sets, reads and tests header items, closes and opens data sets, calls init_from_uv with any overrides and exclusions, and appends to histories the way pipe does, over any number of data sets, gives what one dictionary per data set gives. After b.init_from_uv(a, override, exclude) each item of a reads from b as it reads from a, an overridden one as if the override had been assigned, and excluded items and those a does not have are left as they were; a is unchanged. After pipe with append2hist=s the history of b is that of a followed by s. The items vartable and obstype read as the library last wrote them. (Findings: an override of an item the source does not have is dropped silently; pipe raises when the destination has no history.)", "quantifier": "all programs of any length over any number of data sets, all values of every item kind, all override dictionaries and exclusion lists, both sides of every close and open", "why_tests_cant": "The statement is about every sequence of calls and every value, at the byte level of items, header cache and buffers; a test copies one header.", "anchors": ["aipy/miriad.py:UV.init_from_uv", "aipy/miriad.py:UV.pipe", "aipy/miriad.py:UV.items", "aipy/miriad.py:UV._rdhd,UV._wrhd", "aipy/_miriad/miriad_wrap.cpp:WRAP_hwrite,WRAP_hread"]}
{"id": "C61", "title": "Source fluxes follow the spectrum given", "statement": "A RadioFixedBody or RadioSpecial with jys, index and mfreq has, after update_jys(afreqs) or compute, the flux jys*(f/mfreq)**index at each frequency f: jys at mfreq, and the same source may be described at any other frequency by its flux there. A Helmboldt source follows the published curve log10 S = log10 jys + B X + C exp(D X) with X = log10(f/mfreq), missing parameters being 0. SrcCatalog.update_jys gives every source in the catalogue its fluxes at these frequencies and touches nothing else, get_jys returns them for the names asked, and get_srcs(cutoff=(cut, freq)) of a catalogue module returns exactly the sources brighter than cut at that frequency.", "quantifier": "for all fluxes, indices, positive frequencies and measurement frequencies, all catalogues and all earlier updates", "why_tests_cant": "The tests use one source and a few frequencies; equality of spectra at all frequencies, and that an update leaves every other source alone whatever was updated before, is about unboundedly many inputs.", "anchors": ["aipy/amp.py:21-36", "aipy/amp.py:71-112", "aipy/_src/helm.py:14-43", "aipy/_src/misc.py:37-66"]}
{"id": "C62", "title": "Catalogue files are read row by row into the sources they list", "statement": "fromfile of the catalogue classes (3C, 3CR, 4C, 6C, 7C, Culgoora, GB6, MRT, NVSS, PAPER, Parkes, TXS, VLSS, WENSS, Helmboldt) reads a file exactly when every row has the columns needed with numbers where numbers belong, and then gives for each row, in order, the source with the name, position, flux, frequency and index of that row; comments, short lines and lines not beginning with a digit are passed over. The catalogue finds under a name the last row of that name and holds no other names. The Helmboldt files give one source per name, placed by the last line of that name in the position file and with the spectrum of its one line in the file of fits. A module reads its files once.", "quantifier": "for all files (lists of lines), all ways float() may read a text, and all earlier contents of the class dictionaries", "why_tests_cant": "Only two of the catalogue files are in the repository; what happens on arbitrary rows, and that a file is rejected exactly when a row is malformed, needs all files.", "anchors": ["aipy/_src/three_c.py:21-57", "aipy/_src/culgoora.py:22-86", "aipy/_src/parkes.py:21-38", "aipy/_src/txs.py:21-39", "aipy/_src/paper.py:13-30", "aipy/_src/mrt.py:14-23", "aipy/_src/helm.py:45-130"]}
{"id": "C63", "title": "Images written to FITS files are read back", "statement": "img.to_fits(filename, data, **kwds) followed by img.from_fits(filename) gives the same pixels in the same order, the shape of the data without its axes of one pixel, and exactly the keywords of the call that the file can tell (strings without trailing blanks, numbers as a card holds them, the right ascension step negative). to_fits accepts exactly the calls that name as many axes as are longer than one pixel and whose values a header can hold, puts name, middle pixel, value and step of each axis in the header, leaves other files alone and keeps the words of the history in order. Reading an image and writing it again with the keywords read changes neither data nor keywords. Files from elsewhere are read with missing keywords left out, and turned over when TRANSPOS is set.", "quantifier": "for all data of all shapes, all keyword values, axis names and histories, and all files", "why_tests_cant": "The tests write one small image; which calls are accepted, what the keywords become for all axis names, and the wrapping of arbitrary history text are statements about unboundedly many inputs.", "anchors": ["aipy/img.py:328-394", "aipy/img.py:396-432", "aipy/img.py:434-439", "aipy/img.py:441-497"]}
{"id": "C64", "title": "Sky maps saved to a file come back with fluxes, weights and indices", "statement": "A HealpixMap or Map written with to_fits and read with from_fits (or fromfits=) has the same side, ordering, fluxes, weights and indices, so every direction shows the sky it showed; with a column format every value is as the format keeps it. nindices=n then gives the first n indices of the file and empty ones after them. The table has the columns signal, weights, sp_index0, ... with the side, ordering and last pixel in its header. to_fits succeeds exactly when the file does not exist or clobber is set (given a library with new_table) and leaves other files alone. A Map is read from a file exactly when its ORDERING begins with RING or NEST and every column has 12*N**2 values, N a power of 2; a file without weights gives every pixel weight one.", "quantifier": "for all sides that are powers of two, both orderings, all pixel values, any number of indices, all files", "why_tests_cant": "Tests write one small map and do not run at all with the library required for Python 3; the round trip for every side, ordering and number of indices, and which files are accepted, are statements about all maps.", "anchors": ["aipy/healpix.py:293-326", "aipy/map.py:70-91", "aipy/map.py:120-166"]}
{"id": "C65", "title": "Interpolation gives factor outputs per sample, each a filter-weighted mean of the samples", "statement": "interpolate(ys, factor, filter, order) returns factor*len(ys) values; value m is the mean of the samples of ys (continued at either end by order values of a fitted parabola) weighted by the filter at the distances from m/factor. It succeeds exactly when factor > 0 and 0 < order <= len(ys). Samples on a parabola are continued by that parabola; constant samples give the constant; with the default filter and an order up to 4 every output lies between the smallest and largest of the continued samples; a filter that is symmetric in the distance keeps a straight line at the samples. All this where double precision gives the filter 2*order*factor+1 taps, which is proved for factors 1, 2, 4, ... 65536 with orders up to 32, and decided for order 4 and every factor up to 128.", "quantifier": "for all lists of samples, all filters, all factors and orders for which the number of taps is exact", "why_tests_cant": "The number of taps depends on rounding in arange: most factors are right and a few are one off, and the weighting is a statement about every filter and every list of samples.", "anchors": ["aipy/interp.py:18-63"]}
{"id": "C66", "title": "A Gaussian drawn about a pixel is found at that pixel", "statement": "twodgaussian([height, amplitude, x0, y0, width_x, width_y], shape) has at row r, column c the value amplitude*exp(-(((r-y0)/width_x)**2+((c-x0)/width_y)**2)/2), which for a positive amplitude lies between 0 and the amplitude and is the amplitude at the centre; exactly six parameters are accepted. moments(data) returns the median, the maximum above it, and the column and row chosen: the first row whose pixels weighted by their column number sum highest, and the first such column, or raises when the image is empty or that row or column is dark. For an image that is a product of two profiles the row and column are those where the profiles are largest, so a Gaussian of any widths drawn about a pixel is found at that pixel with its amplitude above the median.", "quantifier": "for all images, all parameters; for all centres, widths and shapes of at least 2 by 2 pixels", "why_tests_cant": "The two tests use one Gaussian of equal widths on an 11 by 11 grid; exchanged widths, a missing height and dark first rows do not show there.", "anchors": ["aipy/twodgauss.py:9-53"]}
{"id": "C67", "title": "Phasing and flux scripts change cross-correlations only as asked", "statement": "phs2src.py and flux_cal.py write one record for each record of the data set, with the same time, antennas, variables and flags. phs2src leaves autocorrelations unchanged and replaces the channels of a cross-correlation by what the phasing asked for gives for that record's polarisation, time and antennas, or by zeros when the source is below the horizon. flux_cal divides each channel by the product of the factors asked for (passband, beam response, source flux) for the record's polarisation, time and antennas, and by one where that product is zero. The source is the zenith for a name that begins with zen, else the first of the catalogue, and no source when none is given.", "quantifier": "for all data sets written by any history of calls, all numbers of earlier reads, all arrays and sources, all combinations of the options", "why_tests_cant": "No script has a test.", "anchors": ["scripts/phs2src.py:22-55", "scripts/flux_cal.py:27-70"]}
{"id": "C68", "title": "Crosstalk is measured as means and split into a profile and gains", "statement": "xtalk3.py -o stores one spectrum for each pair of antennas and polarisation that the file has cross-correlations of, whatever the order of the two antennas in a record. A channel of it is the mean of that channel's unflagged samples, and zero when there are none; the order of the records makes no difference, and taking it off the samples leaves a mean of zero. xtalk3.py -r writes one file for each UV file, at its time: the spectrum of a pair is the mean amplitude of the file's own spectrum over the channels asked for (channels with nothing left out) times a profile that all files share, the mean over the files of their spectra divided by their mean amplitudes, leaving out files with nothing in the channel. Spectra that are one shape times a positive gain for each file are written as they were. A file whose measurement does not exist is skipped.", "quantifier": "for all records of any numbers of antennas, polarisations, times and channels, all flags, all data, all numbers of files and all channel ranges", "why_tests_cant": "No script has a test.", "anchors": ["scripts/xtalk3.py:38-66", "scripts/xtalk3.py:72-97"]}
{"id": "C69", "title": "xrfi_simple flags the samples that stand out, and only those", "statement": "xrfi_simple.py writes every record it reads, at its time, with its antennas and polarisation. Without --combine a sample is flagged in the output exactly when it was flagged, its channel is listed with -c (channels below zero count from the end), or it stands out. With --df a sample stands out when its squared distance from the middle of the two channels beside it is more than df squared times the median of those squares over the record, or it is the first or last channel; with --dt the same along the times of the antenna pair and polarisation; with neither when its amplitude is more than nsig deviations above the median amplitude of the pair. Flagged samples are written as zero and all others as they were. With --combine a sample is flagged when at least thresh of the selected records of its time are. --to_npz and --from_npz give the same flags as one run, and give them to any other file with those times. With df of one or more at most half of the inner channels are newly flagged. A factor on all the data makes no difference.", "quantifier": "for all records of any numbers of antennas, polarisations, times and channels, all data and flags, all channel lists, limits and thresholds", "why_tests_cant": "No script has a test.", "anchors": ["scripts/xrfi_simple.py:40-165"]}
{"id": "C70", "title": "modmap adds sources to maps without loss of flux", "statement": "modmap.py starts an empty map or takes one from a file. Of an input map every output pixel shows mscale times the mean the input shows, by interpolation, at the direction that the pixel's centre has in the input's coordinates; in the same coordinates that is the mean of the pixel itself. The strength of each source times sscale is divided evenly among the pixels whose centres are in its ellipse, or is put in the one pixel of its position when there are none; it is added to what the pixel shows. So the total of the map grows by exactly sscale times the sum of the strengths, and the order of the catalog makes no difference to fluxes and weights. Pixels that a source is put in get weight one and, with --nindices, the index of the last source put there; all others keep what they had. The file written has these fluxes and weights as its first two columns; a file that exists is not written over.", "quantifier": "for all maps, sides, orderings, catalogs, shapes, strengths, scales and options, and every pixelization", "why_tests_cant": "No script has a test.", "anchors": ["scripts/modmap.py:40-122"]}
{"id": "C71", "title": "apply_bp applies the bandpass of the header to the data and takes it out of the header", "statement": "For every data set of float visibilities, apply_bp.py writes a data set with the same records, variables and flags in which every channel of the baseline of antennas i and j is the channel of the input times scale and times the bandpasses of i and of j in that channel: the real parts of the header item bandpass, nants times nchan numbers antenna by antenna, or ones if there is no such item. Of autocorrelations (i = j) the value of the polynomial chosen with -l takes the channel's place before. null changes nothing, digi and full are fitted polynomials normalized, comb is the mean of the three, and each of the four maps ten to ten; no other name is accepted. The header of the new data set has none of the ten items that tell of the bandpass and all others as they read in the input.", "quantifier": "for all data sets that a history of calls writes, all bandpasses, scales, linearizations and antennas below nants", "why_tests_cant": "No script has a test.", "anchors": ["scripts/apply_bp.py:112-165"]}
{"id": "C72", "title": "filter_src takes from each record the delays near the source, or those of the sky, and nothing else", "statement": "For every file of records of one number of channels whose cross-correlations have selected polarisations, filter_src.py without a delay-rate filter comes to the end and writes as many records, with the same times, antennas, polarisations and flags. Autocorrelations stay as they are. Of each other record a part e is found: with -e it is what is written, else it is subtracted in the channels that are not flagged. Seen from the source (or from zenith, without one) e has the delays from -dw up to dw alone, and has of them what cleaning away the flags' response finds in the record, its residual over the root of the share of unflagged channels added; e is zero when the source is below the horizon. In a record without flags this is exactly what the record has of these delays: after filtering none of it is left and all other delays are as before. With -d -1 the delays taken are those within 1.5 baseline lengths of the array's delay, to half a bin. With -r the times of a baseline are mirrored at both ends, and of unflagged records the delays from -dw up to dw with rates above -drw and below drw are taken, all others not.", "quantifier": "for all records, flags, sources, widths, tolerances, and all array delays shorter than 1.5 baseline lengths (sky-pass)", "why_tests_cant": "No script has a test.", "anchors": ["scripts/filter_src.py:13-27", "scripts/filter_src.py:62-175"]}
{"id": "C73", "title": "srclist prints the names of the sources asked for, in order, and calibration modules are asked for the frequencies of the channels", "statement": "For every catalogue, srclist.py prints, with the divider between any two, exactly the names of the sources that are in the catalogue, not among those excluded, within the separation of some center, strictly inside the range of right ascension taken round the circle from its first to its second end, and strictly inside the range of declination (or outside, when its ends are the other way round); each once, in the order of the characters. The text printed with --fitprms for one source is read by fitmdl.py as exactly the parameters asked for. In Python 2, get_aa gives what the calibration module makes for the frequencies given, or for those from the first channel on in steps of the channel width.", "quantifier": "for all catalogues, exclusions, centers, separations, ranges of right ascension within a turn, dividers, names and parameters without the special characters of the syntax", "why_tests_cant": "Neither the script nor aipy.cal has a test.", "anchors": ["scripts/srclist.py:38-133", "aipy/cal.py:13-43"]}
{"id": "C74", "title": "compress_uv loses no data and leaves no broken tarball", "statement": "Whichever plain paths are given and whenever tar fails, after compress_uv.py everything that was there is there as before, or -d was given and it is in the tarball of the path it was given by. Tarballs that were there are not written to. Everything new is the whole tarball of a path given, under its name with .tar.bz2. When tar does not fail, every path has its tarball at the end, and with -d the paths just packed are gone. Unpacking the tarball of one path with -x brings back what was packed.", "quantifier": "for all contents of the disk, all lists of plain paths of which none is the tarball of another or lies beneath another, all ways for tar to fail", "why_tests_cant": "The script has no test, and the failures of tar are hard to bring about.", "anchors": ["scripts/compress_uv.py:24-39"]}
