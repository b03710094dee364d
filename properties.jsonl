{"id": "C01", "title": "Site index and coordinates are inverse to each other", "statement": "Converting a site index to coordinates with get_mom_2piBZ and back with gen_site returns the index, and converting in-range coordinates to an index and back returns the coordinates; every index produced from in-range coordinates is below the volume. So every loop 'for i < LVOLUME' visits each lattice point exactly once.", "quantifier": "every number of dimensions, every choice of positive extents, every site / every in-range coordinate vector", "why_tests_cant": "The number of dimensions and the extents are unbounded; the tests use one small lattice of one shape.", "anchors": ["src/Geometry/geometry.c:gen_site", "src/Geometry/geometry.c:get_mom_2piBZ", "src/Geometry/init.c:init_latt"]}
{"id": "C02", "title": "Neighbour tables describe a torus", "statement": "After init_navig, lat[i].neighbor[mu] and lat[i].back[mu] are inside the lattice, are inverse to each other, moves in two directions commute, moving L_mu times in direction mu returns to the start, and moving changes only coordinate mu, by one modulo its extent.", "quantifier": "every number of dimensions, extents, site and pair of directions", "why_tests_cant": "Every measurement walks these tables; a wrap error that shows only for one extent or direction is invisible to a test on a 4^4 lattice.", "anchors": ["src/Geometry/geometry.c:gen_shift", "src/Geometry/init.c:init_navig"]}
{"id": "C03", "title": "The HiRep site order is a permutation of the lattice", "statement": "Reading a HiRep file places record i at gen_site(get_mom_2piBZ_hirep2(i)); this map sends the record numbers below the volume one-to-one onto the sites below the volume, so every site is filled exactly once.", "quantifier": "every number of dimensions, extents and record number", "why_tests_cant": "A collision for particular anisotropic extents leaves uninitialised links that a cubic test lattice never shows.", "anchors": ["src/Geometry/geometry.c:get_mom_2piBZ_hirep2", "src/IO/HIREP.c:read_gauge_field"]}
{"id": "C04", "title": "Brillouin-zone conversions preserve the momentum", "statement": "TwoPI_mpipi_momconv maps the Fourier index i to the momentum in [-L/2, L/2) that is congruent to the coordinates of i modulo L, and get_site_pipiBZ maps that momentum back to i.", "quantifier": "every number of dimensions, every choice of extents (even and odd), every site", "why_tests_cant": "Tests use even extents only; the claim is about all of them.", "anchors": ["src/Geometry/geometry.c:TwoPI_mpipi_momconv", "src/Geometry/geometry.c:get_site_2piBZ", "src/Geometry/geometry.c:get_site_pipiBZ", "src/Geometry/geometry.c:get_mom_pipi"]}
{"id": "C05", "title": "Translations by a separation vector compose and invert", "statement": "compute_spacing(s,k) is the site at displacement s from k on the torus: displacements add, displacement 0 is the identity, -s undoes s, and unit displacements agree with the neighbour tables. compute_rsq is the minimum squared distance over all periodic images.", "quantifier": "every site, every separation of magnitude up to the extent, every extents", "why_tests_cant": "The values of the separation and of the extents range over unbounded sets; the sign and wrap cases interact with unsigned arithmetic.", "anchors": ["src/Geometry/geometry.c:compute_spacing", "src/Geometry/geometry.c:get_vec_from_origin", "src/Geometry/geometry.c:compute_rsq"]}
{"id": "C06", "title": "The draughtboard colouring covers the lattice and is race free", "statement": "init_cb lists every site exactly once, and no two different neighbouring sites carry the same colour, so the parallel loop over one colour never has two threads touching a shared link.", "quantifier": "every choice of extents, every site and direction, every thread schedule", "why_tests_cant": "The race only exists for some extents and some schedules; a test can at best fail to see it.", "anchors": ["src/Geometry/draughtboard.c:init_cb", "src/Geometry/draughtboard.c:get_midx", "src/Update/hb.c:hb_lattice", "src/Gfix/Or.c:OR_iteration_th"]}
{"id": "C07", "title": "Byte swapping reverses the bytes of every element and is its own inverse", "statement": "bswap_16/32/64 replace each element of the array by the number with reversed bytes, leave no element untouched and applying them twice restores the array.", "quantifier": "every array length and every array content", "why_tests_cant": "2^64 values per element and arrays of any length.", "anchors": ["src/Utils/GLU_bswap.c"]}
{"id": "C08", "title": "The CRC is the standard CRC-32 and can be computed piecewise", "statement": "DML crc32(0,buf,len) equals the bitwise reflected CRC-32 with polynomial 0xEDB88320, initial value and final xor 0xFFFFFFFF; calling it on two consecutive pieces with the first result as the start value equals one call on the whole.", "quantifier": "every byte string, every split point and every start value", "why_tests_cant": "All byte strings of all lengths; the 8-way unrolled loop has a different path per length residue.", "anchors": ["src/IO/crc.c:crc32"]}
{"id": "C09", "title": "The BQCD cksum can be computed in a streaming fashion", "statement": "CKSUM_ADD called on consecutive pieces followed by CKSUM_GET gives the POSIX cksum of the concatenation of the pieces.", "quantifier": "every list of byte blocks, every earlier history of calls in the same process", "why_tests_cant": "The accumulator is static, so the answer depends on the call history, which a single-call test does not exercise.", "anchors": ["src/IO/crc.c:CKSUM_ADD", "src/IO/crc.c:CKSUM_GET"]}
{"id": "C10", "title": "Configuration checksums do not depend on the thread schedule", "statement": "The NERSC checksum and the two SciDAC/MILC checksums computed by the parallel loops are the same for every distribution of the sites over threads and every order in which the partial results are combined.", "quantifier": "every field content, every partition of the sites among any number of threads, every combination order", "why_tests_cant": "Schedules cannot be enumerated by running the program.", "anchors": ["src/IO/readers.c:lattice_reader_suNC", "src/IO/writers.c:compute_checksum", "src/IO/readers.c:DML_checksum_accum"]}
{"id": "C11", "title": "A file written by the library reads back as the same gauge field with a matching checksum", "statement": "For the NxN, GAUGE and SMALL layouts, writing a field and reading the data back in the precision and byte order declared gives the same links (the truncated layouts up to the reconstruction of the omitted rows) and the reader recomputes the checksum the writer put in the header.", "quantifier": "every field, every lattice size, both byte orders, both readers (in-memory and site-by-site)", "why_tests_cant": "Both directions are loops over all sites and all entries; tests compare one configuration.", "anchors": ["src/IO/writers.c:write_lat", "src/IO/writers.c:grab_sitedata", "src/IO/readers.c:lattice_reader_suNC", "src/IO/readers.c:lattice_reader_suNC_cheaper", "src/IO/readers.c:rebuild_lat"]}
{"id": "C12", "title": "CERN (openQCD) files cover every link exactly once and round trip", "statement": "The odd-site ordering used by write_CLS_field and read_CLS_field assigns each of the ND*Volume links exactly one slot of the file, so reading what was written restores the field.", "quantifier": "every lattice with even extents, every field", "why_tests_cant": "The slot map is a bijection on a set whose size depends on the lattice; odd extents break it.", "anchors": ["src/IO/CERN.c:read_CLS_field", "src/IO/CERN.c:write_CLS_field"]}
{"id": "C13", "title": "HiRep files round trip", "statement": "Reading back a configuration written in HiRep format gives the same links.", "quantifier": "every lattice, every field, every gauge group size including SU(2)", "why_tests_cant": "SU(2) uses a separate quaternion layout in the reader only.", "anchors": ["src/IO/HIREP.c"]}
{"id": "C14", "title": "LIME records are framed correctly", "statement": "Each record payload is padded to the next multiple of 8 bytes (0 to 7 bytes of padding), and skipping a record by its declared length plus padding lands exactly on the next record header.", "quantifier": "every payload length, every sequence of records", "why_tests_cant": "Lengths are unbounded; all residues and record sequences matter.", "anchors": ["src/IO/Scidac.c:lime_padding", "src/IO/Scidac.c:parse_SCIDAC_hdr", "src/IO/Scidac.c:write_SCIDAC_binary"]}
{"id": "C15", "title": "NERSC headers round trip", "statement": "The header produced by write_header_NERSC is accepted by the reader and yields the same dimensions, configuration number, checksum, plaquette and trace strings.", "quantifier": "every lattice size, configuration number, checksum value", "why_tests_cant": "Header values range over large domains and some values (for example a configuration number 0) take a different path.", "anchors": ["src/IO/write_headers.c:write_header_NERSC", "src/IO/read_headers.c:get_header_data_NERSC", "src/IO/chklat_stuff.c:get_header"]}
{"id": "C16", "title": "A configuration is accepted only if its integrity checks hold", "statement": "After reading, check_sums reports success only if the checksum, the plaquette and the link trace found in the header agree with the values recomputed from the links.", "quantifier": "every combination of header values and recomputed values", "why_tests_cant": "It is a decision rule over three real/integer comparisons; the failing combinations are rare in practice.", "anchors": ["src/IO/read_config.c:check_sums"]}
{"id": "C17", "title": "Saving and restoring the random number generator resumes the same sequence", "statement": "write_par_rng_state followed by read_par_rng_state restores a state from which every later draw, on every thread stream, equals what the uninterrupted program would have drawn.", "quantifier": "every reachable generator state, every number of threads, every number of later draws, each generator (KISS, MWC_1038, MWC_4096, WELL_512, XOR_1024)", "why_tests_cant": "It is a statement about an infinite future from any state.", "anchors": ["src/Utils/par_rng.c", "src/Utils/par_KISS.c", "src/Utils/par_MWC_1038.c", "src/Utils/par_MWC_4096.c", "src/Utils/par_WELL_512.c", "src/Utils/par_XOR_1024.c"]}
{"id": "C18", "title": "Random draws never index outside the state table and are in range", "statement": "Along every sequence of draws the table index stays inside the table, the whole table is used, and par_rng_dbl lies in the unit interval while par_rng_int stays below 2^32.", "quantifier": "every seed, every number of draws, every interleaving of thread streams", "why_tests_cant": "The period is astronomically larger than any test run.", "anchors": ["src/Utils/par_MWC_1038.c", "src/Utils/par_MWC_4096.c", "src/Utils/par_WELL_512.c", "src/Utils/par_XOR_1024.c", "src/Utils/par_KISS.c"]}
{"id": "C19", "title": "Thread random streams are independent of the schedule", "statement": "A draw on one thread's stream never changes what another thread will draw, so each thread sees the sequence determined by its own seed for every interleaving.", "quantifier": "every interleaving of draws by any number of threads", "why_tests_cant": "Interleavings cannot be enumerated.", "anchors": ["src/Utils/par_rng.c:par_rng_dbl", "src/Utils/par_MWC_1038.c", "src/Utils/par_XOR_1024.c", "src/Utils/par_WELL_512.c"]}
{"id": "C20", "title": "The compensated and divide-and-conquer sums return the sum", "statement": "In exact arithmetic dandc_sum, kahan_summation and par_danc_sum return the sum of the array and knuth_average(_err) the mean and the unbiased variance; no element outside the array is read.", "quantifier": "every array length, content and thread count", "why_tests_cant": "The recursion splits depend on the length and on the thread count; wrong splits show only for particular pairs.", "anchors": ["src/Utils/GLU_sums.c"]}
{"id": "C21", "title": "Spline interpolation reproduces its data", "statement": "cubic_eval returns the given values at the nodes, reproduces cubic polynomials exactly given exact derivatives, and reads only inside the arrays for every argument in the interval spanned by the nodes; the derivative formulas are exact on low-degree polynomials.", "quantifier": "every strictly increasing node set, every value and derivative array, every evaluation point in range", "why_tests_cant": "Continuous inputs.", "anchors": ["src/Utils/GLU_splines.c"]}
{"id": "C22", "title": "All matrix multiplication variants compute the matrix product", "statement": "multab, multabdag, multab_dag, multab_dagdag, multab_atomic_left and multab_atomic_right return b*c, b^dag*c, b*c^dag, b^dag*c^dag, b*a and a*b, for the unrolled SU(2)/SU(3) code and for the general loops.", "quantifier": "every pair of complex matrices, every NC", "why_tests_cant": "The operands range over a continuum and the general-NC code is never exercised by the default build.", "anchors": ["src/Matrix_Ops/MMUL/MMUL.c", "src/Matrix_Ops/MMUL/MMULdag.c", "src/Matrix_Ops/MMUL/MMUL_dag.c", "src/Matrix_Ops/MMUL/MMULdagdag.c"]}
{"id": "C23", "title": "The special-unitary shortcut multiplications agree with the general ones on the group", "statement": "For matrices in SU(2) and SU(3) the *_suNC products, which compute only the first rows and complete the last one, give the same result as the general products.", "quantifier": "every pair of special unitary matrices", "why_tests_cant": "The group is a continuum; agreement must be exact in exact arithmetic, not approximate on random samples.", "anchors": ["src/Matrix_Ops/MMUL/MMUL_SUNC.c", "src/Matrix_Ops/MMUL/MMULdag_SUNC.c", "src/Matrix_Ops/MMUL/MMUL_dag_SUNC.c", "src/Matrix_Ops/MMUL/MMULdagdag_SUNC.c"]}
{"id": "C24", "title": "Trace helpers equal the trace of the product", "statement": "trace_ab, trace_ab_dag, trace_ab_dag_Re, trace_ab_herm, trace_ab_herm_short, trace_abc, trace_abc_dag, trace_abc_dag_Re and Re_trace_abc_dag_suNC equal the trace of the corresponding explicit product (the real part where so named).", "quantifier": "every tuple of matrices in the documented class, every NC", "why_tests_cant": "Long unrolled formulas over a continuum of operands.", "anchors": ["src/Matrix_Ops/U_Nops.c", "src/Matrix_Ops/trace_abc.c"]}
{"id": "C25", "title": "Determinant, cofactor and inverse are mutually consistent", "statement": "det and the LU determinant equal the mathematical determinant; cofactor_transpose(M)*M = det(M)*1; inverse returns the inverse of every nonsingular matrix and reports failure on every singular one.", "quantifier": "every complex matrix, every NC", "why_tests_cant": "Singular matrices and pivoting paths are measure-zero/rare inputs.", "anchors": ["src/Matrix_Ops/U_Nops.c:det", "src/Matrix_Ops/U_Nops.c:cofactor_transpose", "src/Matrix_Ops/LU.c", "src/Matrix_Ops/invert.c"]}
{"id": "C26", "title": "Reunitarisation returns a group element and fixes group elements", "statement": "gram_reunit maps every matrix with linearly independent leading columns/rows to a special unitary matrix and leaves special unitary matrices unchanged.", "quantifier": "every such matrix", "why_tests_cant": "A continuum of inputs.", "anchors": ["src/Matrix_Ops/gramschmidt.c:gram_reunit"]}
{"id": "C27", "title": "SU(2) subgroup data enumerate each index pair once and rotations stay in the group", "statement": "compute_pertinent_indices lists each pair a<b of colour indices exactly once; su2_rotate, shortened_su2_multiply and its dagger multiply the matrix by the SU(2) element embedded at that pair and change nothing else, so they preserve unitarity and determinant.", "quantifier": "every NC, every subgroup index, every unit quaternion and matrix", "why_tests_cant": "Unbounded NC and a continuum of matrices.", "anchors": ["src/Update/SU2_rotate.c"]}
{"id": "C28", "title": "Over-relaxation leaves the action unchanged", "statement": "The microcanonical update of a link, whenever it does not divide by zero, leaves Re tr(U * staple^dag) unchanged and keeps the link in SU(N); it divides by zero exactly when the SU(2) part of U * staple^dag vanishes.", "quantifier": "every link, every staple, every subgroup", "why_tests_cant": "An exact invariance over a continuum of inputs; a sign error shows up as a slow drift in tests.", "anchors": ["src/Update/relax.c:microcanonical", "src/Update/relax.c:overrelax", "src/Update/SU2_rotate.c:only_subgroup"]}
{"id": "C29", "title": "The heat-bath update returns a group element", "statement": "generate_SU2 returns a unit SU(2) element for every outcome of the random number generator, including when the accept/reject loop gives up after its maximum number of tries.", "quantifier": "every sequence of random numbers, every scale", "why_tests_cant": "The give-up path has vanishing probability in tests.", "anchors": ["src/Update/hb.c:generate_SU2", "src/Update/hb.c:KP"]}
{"id": "C30", "title": "Gauge-invariant observables do not change under gauge transformations", "statement": "The plaquette sums, and the traced Polyakov loops, of a field and of its image under gtransform with any special unitary gauge field are equal.", "quantifier": "every lattice size, every field, every gauge transformation", "why_tests_cant": "Tests check one random transformation within rounding; the claim is exact and for all lattices.", "anchors": ["src/Gfix/gtrans.c:gtransform", "src/Field/plaqs_links.c:complete_plaquette", "src/Field/POLY.c:poly"]}
{"id": "C31", "title": "Gauge transformations compose and invert", "statement": "Transforming with g and then with h equals transforming with h*g; transforming with the daggered field undoes it; the links stay special unitary.", "quantifier": "every lattice, field and pair of gauge fields", "why_tests_cant": "As above.", "anchors": ["src/Gfix/gtrans.c"]}
{"id": "C32", "title": "A gauge-fixing step is a gauge transformation", "statement": "Every over-relaxation gauge-fixing sweep that does not divide by zero changes the field by a gauge transformation, so all gauge-invariant observables are unchanged by it; a step divides by zero exactly when both link sums at its site vanish.", "quantifier": "every field, every sequence of sites/subgroups/parameters, every lattice", "why_tests_cant": "Any number of steps in any order.", "anchors": ["src/Gfix/Or.c:OR_single", "src/Gfix/Or.c:OR_iteration_th"]}
{"id": "C33", "title": "Staples and smearing are gauge covariant", "statement": "The staple sum of a link transforms like the link itself, and one step of APE/STOUT smearing commutes with gauge transformations and keeps the links special unitary.", "quantifier": "every lattice, field, gauge transformation and smearing parameter", "why_tests_cant": "As above.", "anchors": ["src/Smear/staples.c:all_staples", "src/Smear/projectors.c"]}
{"id": "C34", "title": "Memory-saving smearing equals simultaneous smearing", "statement": "smear4D and the memory-cheap Wilson-flow step, which keep only a sliding window of time slices, produce exactly the field obtained by updating every link from the old field at once.", "quantifier": "every number of time slices, every field, every local update rule that reads neighbouring slices only", "why_tests_cant": "Window handling fails only for particular time extents or particular slices.", "anchors": ["src/Smear/smear.c:smear4D", "src/Smear/wflowfuncs.c:RK3step_memcheap"]}
{"id": "C35", "title": "Exponentials of traceless hermitian matrices are special unitary", "statement": "exponentiate and exponentiate_short return a special unitary matrix for every traceless hermitian input, the matrix exponential of i times it, including near-degenerate and zero input.", "quantifier": "every traceless hermitian 2x2 / 3x3 matrix", "why_tests_cant": "Degenerate eigenvalues and the small-angle branches are measure-zero inputs.", "anchors": ["src/Matrix_Ops/expMat.c"]}
{"id": "C36", "title": "Hermitian projections return traceless hermitian matrices and agree with their packed versions", "statement": "Hermitian_proj returns (U-U^dag)/(2i) minus its trace part; the packed version followed by rebuild_hermitian gives the same matrix; packing and unpacking is lossless on traceless hermitian matrices.", "quantifier": "every complex matrix, every NC", "why_tests_cant": "Continuum of inputs and unbounded NC.", "anchors": ["src/Matrix_Ops/exactQ.c", "src/Matrix_Ops/U_Nops.c:pack_hermitian", "src/Matrix_Ops/U_Nops.c:rebuild_hermitian"]}
{"id": "C37", "title": "The eight-parameter storage of SU(3) matrices is lossless", "statement": "rebuild(shorten(U)) = U for SU(3) matrices.", "quantifier": "every SU(3) matrix with a well-defined parametrisation, and the set on which it is not defined", "why_tests_cant": "The failing set has measure zero (but contains the identity).", "anchors": ["src/Matrix_Ops/U_Nops.c:shorten", "src/Matrix_Ops/U_Nops.c:rebuild"]}
{"id": "C38", "title": "Integer matrix powers are correct", "statement": "matrix_power(A,n) is the n-fold product of A for every n >= 0, with the identity for n = 0.", "quantifier": "every n >= 0 and every matrix", "why_tests_cant": "n is unbounded and each bit pattern takes its own path.", "anchors": ["src/Matrix_Ops/U_Nops.c:matrix_power"]}
{"id": "C39", "title": "The momentum list contains exactly the momenta that pass the cut", "statement": "compute_veclist keeps, in index order and once each, exactly the momenta satisfying the selected cut, and the stored site index of each is the Fourier-space site congruent to it modulo the extents; repeating the call gives the same list.", "quantifier": "every lattice, every cut and cut parameter", "why_tests_cant": "The lists depend on extents and real-valued cut parameters.", "anchors": ["src/Cuts/cut_routines.c:compute_veclist", "src/Cuts/cut_routines.c:get_mom_veclist"]}
{"id": "C40", "title": "The momentum list is symmetric under reflection", "statement": "If p is kept then -p is kept and sits at the mirrored position of the list, as the correlator code assumes when it pairs entry i with entry n-1-i.", "quantifier": "every lattice and every reflection-symmetric cut", "why_tests_cant": "Even extents have an unpaired zone-boundary momentum.", "anchors": ["src/Cuts/cut_routines.c:get_veclist", "src/Cuts/cut_routines.c:get_mom_veclist"]}
{"id": "C41", "title": "An interrupted run cannot poison the momentum-list cache", "statement": "If the program stops at any point while writing the momentum-list cache file, a later run either detects this and recomputes the list or uses the complete correct list.", "quantifier": "every crash point of the write, every list", "why_tests_cant": "Crash points cannot be enumerated by unit tests.", "anchors": ["src/Cuts/cut_routines.c:compute_veclist"]}
{"id": "C42", "title": "Momentum triplets are complete, conserve momentum and are written without overlap", "statement": "The triplet generator enumerates every pair (p1,p2) of lattice momenta with p1^2 = p2^2 = (p1+p2)^2 = n exactly once; the counting pass returns exactly the number of entries the filling pass writes.", "quantifier": "every momentum bound n, every number of dimensions", "why_tests_cant": "Enumeration over unbounded index ranges by recursive odometers.", "anchors": ["src/Cuts/triplet_gen.c"]}
{"id": "C43", "title": "Binary measurement output leaves the data unchanged in memory and is always big endian", "statement": "FWRITE writes the big-endian representation of the array on every host and the caller's array is the same after the call as before.", "quantifier": "every array and both host byte orders, element sizes 4 and 8", "why_tests_cant": "A double swap that is missing for one size or byte order is only seen on the other architecture.", "anchors": ["src/Cuts/cut_output.c:FWRITE"]}
{"id": "C44", "title": "Writing a configuration never overwrites an existing file", "statement": "write_configuration refuses to write when the target exists, and reports success only if the data were written.", "quantifier": "every initial file-system state and every failure point of the write", "why_tests_cant": "File-system states and failures are environmental.", "anchors": ["src/Wrappers/GLUlib_wrap.c:write_configuration", "src/Wrappers/GLUlib_wrap.c:file_exists", "src/IO/writers.c:write_lat"]}
{"id": "C45", "title": "A continued update run reproduces the uninterrupted one", "statement": "Stopping the heat-bath run at a save point and restarting with continuation from the saved configuration and generator state produces the same sequence of configurations as never stopping.", "quantifier": "every save interval, every number of iterations, every save point", "why_tests_cant": "A statement about two whole runs for all parameters.", "anchors": ["src/Update/KPHB.c:hb_update"]}
{"id": "C46", "title": "Maxima and sums over the lattice do not depend on the schedule", "statement": "The maximum deviation reported by the gauge-fixing tests and the sums of the plaquette measurement are the same for all thread counts and interleavings.", "quantifier": "every interleaving of the threads", "why_tests_cant": "Race windows are narrow.", "anchors": ["src/Gfix/gftests.c:theta_test_lin", "src/Gfix/gftests.c:theta_test_log", "src/Field/plaqs_links.c:av_plaquette"]}
{"id": "C47", "title": "Structure-constant contractions equal traces", "statement": "ifabc_ABC, dabc_ABC and ifabc_dabc_ABC contract the structure constants with three algebra elements and equal the corresponding traces of products, the constants being totally antisymmetric / symmetric.", "quantifier": "every triple of traceless hermitian matrices", "why_tests_cant": "Continuum of inputs, tables of constants.", "anchors": ["src/Matrix_Ops/lie_mats.c"]}
{"id": "C48", "title": "The Vandermonde solver solves its system", "statement": "solvandermonde returns the coefficients a of the polynomial with sum_j a_j x_i^j = f_i for all nodes.", "quantifier": "every set of distinct nodes and every right-hand side, every size", "why_tests_cant": "Unbounded size and continuum of nodes.", "anchors": ["src/Matrix_Ops/vandermonde.c"]}
{"id": "C49", "title": "The quadratic line search finds the minimum", "statement": "approx_minimum returns the minimiser of the parabola through the three probes when it lies in the probed interval, and always returns a finite value inside the documented range.", "quantifier": "every three probe values", "why_tests_cant": "Degenerate parabolas (zero denominators) are measure-zero inputs.", "anchors": ["src/Gfix/line_search.c:approx_minimum"]}
{"id": "C50", "title": "Input file settings are found by their tag independent of layout", "statement": "A value requested by tag is the value on the first line carrying that tag, regardless of the other lines; a missing tag or malformed number is reported as a failure and never read from an unrelated location.", "quantifier": "every input file", "why_tests_cant": "Files are arbitrary text.", "anchors": ["src/IO/input_reader.c"]}
{"id": "C51", "title": "Memory-mode decisions depend only on the request", "statement": "have_memory_readers_writers gives the same answer for the same file type and memory size regardless of earlier calls.", "quantifier": "every history of calls", "why_tests_cant": "History dependence through a static cache.", "anchors": ["src/Utils/GLU_memcheck.c:have_memory_readers_writers"]}
{"id": "C52", "title": "ILDG/SciDAC metadata is read back exactly", "statement": "The XML blocks written into SciDAC/ILDG files are parsed back to the same lattice dimensions, precision and checksums; malformed metadata is rejected without touching memory outside the destination.", "quantifier": "every lattice size and checksum, every XML text", "why_tests_cant": "Arbitrary text input.", "anchors": ["src/IO/XML_info.c", "src/IO/Scidac.c"]}
{"id": "C53", "title": "Wilson-flow measurements are recorded in flow-time order and the scale is bracketed", "statement": "The array handed to the scale-setting code lists all measurements in increasing flow time, and a scale is reported only from an interval whose end points bracket the target value.", "quantifier": "every number of measurements and every measured values", "why_tests_cant": "The list length is data dependent.", "anchors": ["src/Smear/wflowfuncs.c:scaleset", "src/Smear/wflowfuncs.c:evaluate_scale", "src/Utils/GLU_splines.c:solve_spline"]}
{"id": "C54", "title": "Axial gauge fixing is a complete gauge fixing and a gauge transformation", "statement": "mag turns a gauge field into a gauge transform of it in which every link of the maximal tree (direction mu, at sites with vanishing later coordinates, except the last of the line) is the unit matrix; plaquettes and Polyakov loops are unchanged, and gauge-equivalent fields end up equal up to one constant rotation. axial_gauge does the same for one direction, the last link of each line carrying the whole line.", "quantifier": "every lattice geometry, number of colours, gauge field and thread schedule", "why_tests_cant": "The claim is about all lattice sizes and a continuum of fields; completeness relates pairs of runs.", "anchors": ["src/Gfix/MAG.c:mag", "src/Gfix/MAG.c:axial_gauge", "src/Gfix/MAG.c:gauge_set", "src/Geometry/random_config.c:latt_reunitU"]}
{"id": "C55", "title": "Trace-maximising projection", "statement": "givens_reunit replaces a matrix by the special unitary matrix W maximising Re Tr(U W^dag); the result is always in the group, does not lose against Gram-Schmidt, and group elements are returned unchanged.", "quantifier": "every matrix of full rank, every number of colours", "why_tests_cant": "Continuum of inputs; global optimality can not be observed by testing; failing inputs have measure zero.", "anchors": ["src/Matrix_Ops/givens.c:givens_reunit"]}
{"id": "C56", "title": "Residual gauge fixing rotates whole time slices and brings temporal links to the identity", "statement": "residual_fix transforms the field by one group element per time slice: spatial links keep their traces, and on every time slice but the last the summed real trace of the temporal links becomes the one reached by the projected average, not smaller than before.", "quantifier": "every lattice geometry, gauge field and thread schedule", "why_tests_cant": "Quantifies over all fields and lattices.", "anchors": ["src/Gfix/MAG.c:residual_fix"]}
{"id": "C57", "title": "Action density and topological charge are gauge-invariant field-strength sums", "statement": "The measured action density and topological charge are the sums over all sites of tr F^2 over the planes and of epsilon tr F F, F being the traceless Hermitian part of the (improved) clover of closed rectangles around the site with weights cancelling the leading lattice artefacts. They do not change under gauge transformations, vanish on pure gauge fields, obey GG >= 2|Q|, and the serial, threaded and per-site routines agree for every distribution of the work; with the plaquette definition the density is 192 NC V (1 - plaquette).", "quantifier": "every four-dimensional lattice, every SU(2)/SU(3) (plaquette: SU(N)) field, every build option, every thread schedule", "why_tests_cant": "Continuum of fields, all lattice sizes (including extents shorter than a loop), and interleavings; a wrong link in one of 28 hand-written loops changes generic values by amounts no reference run can certify.", "anchors": ["src/Field/clover.c:compute_Gmunu", "src/Field/clover.c:compute_Gmunu_th", "src/Field/clover.c:compute_Gmunu_array", "src/Field/clover.c:compute_clover_s1", "src/Smear/wflowfuncs.c:update_meas_list"]}
{"id": "C58", "title": "Slab susceptibility is the averaged squared charge of slabs", "statement": "compute_Qsusc writes, for every direction and thickness, the square of the topological charge contained in a slab of that many slices averaged over all positions of the slab (periodic); the thickest slab gives the square of the total charge; the numbers do not depend on the build (with or without FFTW), on the number of threads or their schedule, or on the gauge.", "quantifier": "every lattice, density, direction, thickness, build and schedule", "why_tests_cant": "All lattices and densities; the agreement of two builds and the absence of data races can not be observed by running one of them.", "anchors": ["src/Field/Qslab.c:compute_slabs", "src/Field/Qslab.c:compute_Qsusc", "src/Field/Qslab.c:slab_idx"]}
{"id": "C59", "title": "Moments of the topological charge", "statement": "compute_Qmoments gives i^n/n! sum_t t^n Q(t) for n = 0..11 for the charges Q(t) of the slices in every direction, and the same of the autocorrelation of the charges; the zeroth moment is the charge; nothing overflows.", "quantifier": "every lattice, density, direction and build", "why_tests_cant": "All extents, including those where a power of t no longer fits an int; high moments are never looked at in a test.", "anchors": ["src/Field/Qmoments.c:compute_Qmoments", "src/Field/Qmoments.c:Time_Moments", "src/Field/Qmoments.c:loc_idx"]}
{"id": "C60", "title": "Topological charge density correlator", "statement": "compute_Qcorr gives C(r) = sum_x q(x) q(x+r) at every requested separation, summing to the squared charge, and the temporal correlator sum_t0 Q(t0) Q(t0+t), independently of build, schedule and gauge.", "quantifier": "every lattice, density, list of separations, build and schedule", "why_tests_cant": "The equality of a Fourier-space and a position-space computation for all lattices is a theorem, not a test.", "anchors": ["src/Field/Qcorr.c:compute_Qcorr", "src/Field/Qcorr.c:temporal_correlator"]}
{"id": "C61", "title": "Static quark correlators from lines of links", "statement": "The static potential measurement writes, for t = 1 .. T-1 and each requested spatial separation r, the sums over all positions (averaged over the times) of tr W(y+r) W(y)^dagger and tr W(y+r) tr W(y)^*, W(y) being the line of t temporal links starting at y; the numbers do not depend on the build (with or without FFTW), the threads or earlier memory contents; the first is invariant under gauge transformations constant on time slices and the second, for lines winding around the lattice, under all.", "quantifier": "every lattice, gauge field, list of separations, T, build and schedule", "why_tests_cant": "Equality of a Fourier-space and a position-space code for all lattices and fields; the two are never both compiled in one program.", "anchors": ["src/Field/POLY.c:static_quark_correlator", "src/Field/POLY.c:compute_tr", "src/Field/POLY.c:compute_trtr", "src/Field/POLY.c:Coul_staticpot"]}
{"id": "C62", "title": "Hypercubic smearing", "statement": "HYP and HEX smearing replace every link by the documented three-level hypercubic link: level-one links decorated with staples in the one remaining direction, level-two links with level-one staples, and the result with level-two staples, so that only links of hypercubes attached to the link enter; the weights are alpha_k/(2(Nd-k)). The fast routine (precomputed levels) and the recursive routine give the same links, for any threads and any earlier contents of the temporaries; the links stay in the group; smearing commutes with gauge transformations; spatial smearing leaves the temporal links alone.", "quantifier": "every four-dimensional lattice, gauge field, smearing parameters, number of iterations and schedule", "why_tests_cant": "All fields and lattices; which of 12 and 24 intermediate links is read for each of the directions is an index computation whose errors only show as slightly different smeared values.", "anchors": ["src/Smear/4D_fast.c:HYPSLsmear4D_expensive", "src/Smear/ND_generic_HYP.c:HYsmearND", "src/Smear/HYP.c:HYPSLsmear3D"]}
{"id": "C63", "title": "Gluon propagator in momentum space", "statement": "The gluon propagator run writes, for every kept momentum p, the transverse and the longitudinal part of Tr A(p)A(p)^dagger of the gauge field (traceless hermitian part of the links, Fourier transformed with the half-link phases), normalised by 2/((N^2-1)(Nd-1)V) and 2/((N^2-1)V), and the plain average 2/((N^2-1) Nd V) at zero momentum, each on the row of its own momentum. Both numbers are never negative; in Landau gauge the longitudinal number is zero; global gauge transformations change nothing; neither do threads or earlier contents of buffers.", "quantifier": "every lattice, gauge field, momentum cut, momentum definition and schedule", "why_tests_cant": "All lattices, cuts and fields; only half of the momenta are computed and the rest copied from their mirror images, which fails for particular cuts on even or odd lattices, and no test has a lattice of 2^31 sites.", "anchors": ["src/Cuts/cuts.c:cuts_struct", "src/Cuts/glueprop.c:compute_gluon_prop", "src/Cuts/pspace_landau.c:correct_pspace_landau"]}
{"id": "C64", "title": "Instantaneous gluon propagators", "statement": "The instantaneous propagator run writes, for every kept spatial momentum p, the spatial and the temporal part of the average over time slices of Tr A(p,t)A(p,t)^dagger, normalised by 2/((N^2-1)(Nd-2)V), and by 2/((N^2-1)(Nd-1)V) at zero momentum. Both are never negative and do not change under global gauge transformations, threads or earlier contents of buffers; a build that cannot do the transform reports it instead of writing numbers.", "quantifier": "every lattice, gauge field, momentum cut, build and schedule", "why_tests_cant": "All lattices, fields and cuts; each row pairs two entries of the momentum list that are mirror images only for cuts away from the edge of the zone, and the build without FFTW is never the one tested.", "anchors": ["src/Cuts/3Dcuts.c:cuts_spatial", "src/Cuts/3Dcuts.c:mom_gauge_spatial"]}
{"id": "C65", "title": "Gluon correlator in configuration space", "statement": "The configuration space run writes, for every time t, the correlation at distance t of the gauge field summed over time slices: the sum over all time slices and directions of Re Tr S(tau) S(tau+t)^dagger with one fixed normalisation. The numbers do not depend on the build (with or without FFTW), on threads or on earlier contents of memory; they are symmetric under t -> T-t, largest at t = 0, sum to a number that is not negative, and do not change under global gauge transformations. A source spacing outside of the lattice is refused.", "quantifier": "every lattice, gauge field, source spacing, build, number of threads and interleaving", "why_tests_cant": "Equality of a Fourier-space and a position-space code that are never both compiled; interleavings of threads sharing a loop variable show by chance only.", "anchors": ["src/Cuts/config_gluons.c:cuts_struct_configspace", "src/Cuts/config_gluons.c:spatial_correlator", "src/Cuts/config_gluons.c:spatial_pointsource"]}
{"id": "C66", "title": "Quenched U(1) field multiplied into the links", "statement": "With a charge asked for, the run draws noise and multiplies every link by exp(i e q A), where A is the real field whose modes are the noise divided by the modulus of the lattice momentum, with the zero spatial momentum modes taken out on every time slice: A is real, sums to zero on every time slice and direction, unitary links stay unitary, a plaquette gets the phase of the plaquette angle of A, and with zero charge or coupling nothing changes. A build that cannot do the transform reports it.", "quantifier": "every lattice, number of colours, gauge field, noise, coupling, charge, build and schedule", "why_tests_cant": "The field is random, so that tests see it through averages only; that it is real needs every momentum to be paired with its mirror image, on every lattice.", "anchors": ["src/U1/SUNCxU1_config.c:suNC_cross_u1", "src/U1/SUNCxU1_config.c:periodic_dft", "src/U1/SUNCxU1_config.c:create_u1", "src/Geometry/geometry.c:gen_p_sq_feyn", "src/Wrappers/GLUlib_wrap.c:read_and_U1"]}
{"id": "C67", "title": "Observables of the U(1) field", "statement": "The U(1) observables are lattice averages of the angle field: the compact plaquette and rectangle are averages of the cosine of the angle around the loop, the noncompact ones of its square, all invariant under gauge transformations of the angles; the compact ones do not change under shifts of single angles by multiples of 2 pi. The Dirac sheet is the number of full turns in the plaquette angles and the monopole count the sum over all cubes of the modulus of the turns flowing out of the cube.", "quantifier": "every lattice, angle field and schedule", "why_tests_cant": "All fields and lattices; the counts are integers without reference values, and wrong signs cancel on smooth fields.", "anchors": ["src/U1/U1_obs.c:compute_U1_obs", "src/U1/U1_obs.c:non_plaquette", "src/U1/U1_obs.c:U1_rectangle", "src/U1/U1_top.c:U1_topological"]}
{"id": "C68", "title": "Steps of Landau gauge fixing", "statement": "Fixing to Landau gauge changes a configuration by a gauge transformation only, whatever the parameters and however the run ends. The accuracy printed measures the lattice divergence of the gauge field and vanishes in Landau gauge only. The direction of a step is the divergence multiplied by the inverse lattice momentum squared in momentum space; along it the sum of the traces of the links goes up unless the field is fixed already. A step is 1 + alpha X brought back to SU(N), its length the best of a parabola through three probes of that sum. The coefficients of the conjugate gradient are ratios of scalar products of the Lie algebra.", "quantifier": "every SU(N) field, lattice, tuning, limit, build and schedule", "why_tests_cant": "Tests see that single runs converge; that no step leaves the orbit, and that every step goes up, is about all fields, and a wrong scalar product only slows the convergence down.", "anchors": ["src/Gfix/lin_derivs.c:fast_deriv_AntiHermitian_proj", "src/Gfix/lin_derivs.c:trace_deriv", "src/Gfix/gftests.c:theta_test_lin", "src/Gfix/FACG.c:FOURIER_ACCELERATE3", "src/Gfix/FACG.c:sum_PR3", "src/Gfix/CG.c:set_gauge_matrix", "src/Gfix/line_search.c:egauge_Landau", "src/Gfix/line_search.c:line_search_Landau", "src/Geometry/geometry.c:gen_p_sq"]}
{"id": "C69", "title": "What Landau gauge fixing reports", "statement": "The gauge fixing returns a failure unless the accuracy asked for has been reached; it returns the number of iterations otherwise. Runs that do not converge are started again from the file and a random gauge transformation, up to a fixed number of times.", "quantifier": "every field, accuracy, limit, number of failures and files that can or cannot be read", "why_tests_cant": "Needs runs that fail, at every stage, with every method; tests use fields that converge.", "anchors": ["src/Gfix/FACG.c:FACG", "src/Gfix/FACG.c:FASD", "src/Gfix/Landau.c:Landau", "src/Gfix/Landau.c:grab_file", "src/Wrappers/GF_wrap.c:GF_wrap_landau"]}
{"id": "C70", "title": "Report on a gauge fixed field", "statement": "After gauge fixing the code prints how far the field is from being constant in time, the value of the functional and, as an observable, the largest violation at a site. The temporal constance is zero in Landau gauge and is zero only if the sum of the temporal gauge field over space is the same on every time slice. The functional is one minus the average link trace, between 0 and 2, and 0 for the unit field only. The maximum is the largest violation at any site, whatever the number of threads.", "quantifier": "every SU(N) field, lattice, schedule, number of threads and interleaving", "why_tests_cant": "Conservation of the slice sums is an identity over all fields in Landau gauge; a comparison that leaves entries out shows on special fields only, and a race in the maximum on special interleavings.", "anchors": ["src/Gfix/gftests.c:const_time", "src/Gfix/gftests.c:gauge_functional", "src/Gfix/gftests.c:theta_test_lin", "src/Wrappers/OBS_wrap.c:gf_check"]}
{"id": "C71", "title": "Adaptive Wilson flow", "statement": "The adaptive flow accepts a step only if one step and two half steps agree to the tolerance, and goes on with the field of the two half steps; it fails only if no step in twenty shortenings is good enough. Every measurement printed carries the flow time of the field it was made on, the times increase, the field at the end has the time reported and no more than the maximal time, and no more steps are made than asked for. The plaquette printed with the measurements is the average plaquette.", "quantifier": "every field, first step, limit on the steps and flow of the links, whatever its plaquette and energy do", "why_tests_cant": "The decisions depend on real numbers along the whole run; tests see runs where the first try is accepted, and in four dimensions only.", "anchors": ["src/Smear/adaptive_flow.c:twostep_adaptive", "src/Smear/adaptive_flow.c:flow_adaptive_RK3", "src/Smear/adaptive_flow.c:get_plaq_th", "src/Field/plaqs_links.c:av_plaquette_th", "src/Smear/wflowfuncs.c:update_meas_list"]}
{"id": "C72", "title": "Choice among gauge copies", "statement": "A build with gauge copies fixes several random gauge transformations of the configuration at low accuracy and goes on with the copy of smallest functional (of largest, for the worst copy) among those that converged, to the accuracy asked for. The field returned is always a gauge transformation of the configuration given, and a last fixing that does not converge is reported like one without copies.", "quantifier": "every SU(N) field, lattice, number of copies, random transformations, accuracy, limit and method of fixing", "why_tests_cant": "The copies are random and nearly all converge in tests; what happens if none is accepted, or if the last run fails, needs runs that tests do not make.", "anchors": ["src/Gfix/Landau.c:luxury_copy_fast", "src/Gfix/Landau.c:Landau", "src/Gfix/gftests.c:gauge_functional", "src/Wrappers/GF_wrap.c:GF_wrap_landau"]}
{"id": "C73", "title": "Check of the link matrices", "statement": "Before measuring, the code checks every link and prints the number of bad links: links that are not in the gauge group up to the precision. A field of special unitary links has no bad links, every link not counted is special unitary up to the precision, and the number does not depend on the threads.", "quantifier": "every number of colours, lattice, field, precision and schedule", "why_tests_cant": "Accepting all good matrices and rejecting all bad ones is about all matrices; tests try some of either kind.", "anchors": ["src/Matrix_Ops/U_Nops.c:is_unitary", "src/Wrappers/OBS_wrap.c:check_links"]}
{"id": "C74", "title": "Loops of links for glueballs", "statement": "For a path given as a list of signed directions the traces of the product of links along the path are added for every site. A path that does not close is refused, so that the result never depends on the gauge. The plaquette printed is the average over the spatial planes: 1 for the trivial field.", "quantifier": "every number of colours, number of dimensions, lattice, SU(N) field, path and gauge transformation", "why_tests_cant": "Independence of the gauge and the refusal of open paths are about all paths and all transformations; a test has a few of either.", "anchors": ["src/Field/balls.c:link_path", "src/Field/balls.c:GLUball_lattice", "src/Field/balls.c:GLU_balls"]}
{"id": "C75", "title": "Instanton configuration", "statement": "Instead of reading a configuration the user can ask for an instanton: the links are then those of the BPST instanton of size 4 in singular gauge about the middle of the lattice, that is the path ordered exponential of its potential along the link, and special unitary.", "quantifier": "every four dimensional lattice, every link, two and three colours", "why_tests_cant": "A test compares a few links or the topological charge, which is near an integer for fields that are not instantons; that every link is the exponential of an integral is about all sites and lattices.", "anchors": ["src/Geometry/BPST_config.c:Asing", "src/Geometry/BPST_config.c:instanton_config", "src/IO/read_config.c:INSTANTON"]}
{"id": "C76", "title": "Topological measurements between smearings", "statement": "Asked for N topological measurements the code makes N of them, the one with number k on the field after k rounds of smearing, k from 0 to N - 1; the first that fails ends the run with a failure, and the moments written are those measured.", "quantifier": "every kind of measurement, number of measurements, smearing, field and failure", "why_tests_cant": "Which rounds are measured for which number is about all numbers including 0 and 1, and failures of a measurement are not made to happen in tests.", "anchors": ["src/Field/Qsusc.c:compute_Qsusc_step", "src/Cuts/cut_output.c:write_moments", "src/Wrappers/CUT_wrap.c:cuts_wrap_struct"]}
{"id": "C77", "title": "Exact logarithm of SU(2) links", "statement": "The gauge fields of the exact logarithmic definition, for two colours: for every SU(2) matrix a traceless hermitian matrix is returned of which the exponential (times i) is the matrix.", "quantifier": "every SU(2) matrix", "why_tests_cant": "The logarithm goes through a series for small angles and a quotient for the others; tests with random matrices hit neither the series nor minus one.", "anchors": ["src/Matrix_Ops/exactQ.c:exact_log_slow"]}
