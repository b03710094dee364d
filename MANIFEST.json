{
 "claims": [
  {
   "property": "C01",
   "status": "proved",
   "theorems": [
    "C01_coords_of_site",
    "C01_site_of_coords",
    "C01_volume",
    "C01_large_lattice_refuted"
   ],
   "note": "proved for every number of dimensions and all extents whose time-slice volume fits in the code's 'int subvol'; beyond that bound a collision is exhibited"
  },
  {
   "property": "C02",
   "status": "proved",
   "theorems": [
    "C02_neighbor_step",
    "C02_back_step",
    "C02_inverse",
    "C02_commute",
    "C02_period"
   ],
   "note": ""
  },
  {
   "property": "C03",
   "status": "proved",
   "theorems": [
    "C03_hirep_order",
    "C03_hirep_permutation"
   ],
   "note": ""
  },
  {
   "property": "C04",
   "status": "partial",
   "theorems": [
    "C04_momconv_partial",
    "C04_even_extents",
    "C04_momconv_refuted"
   ],
   "note": "true for all even extents (and all momenta without a coordinate L/2 in an odd direction); refuted for odd extents"
  },
  {
   "property": "C05",
   "status": "proved",
   "theorems": [
    "C05_spacing",
    "C05_compose",
    "C05_inverse",
    "C05_zero",
    "C05_unit",
    "C05_rsq_min",
    "C05_far_separation_refuted"
   ],
   "note": "separations of magnitude up to the extent, as claimed; a counterexample is given for separations below -L"
  },
  {
   "property": "C06",
   "status": "partial",
   "theorems": [
    "C06_partition",
    "C06_single_site",
    "C06_not_neighbours_partial",
    "C06_race_refuted",
    "C06_link_schedule",
    "C06_landau_schedule",
    "C06_coulomb_schedule"
   ],
   "note": "covering holds for all extents; race freedom and schedule independence hold when every odd extent is 1 or not of the form 3n+1, and are refuted for extent 7"
  },
  {
   "property": "C07",
   "status": "proved",
   "theorems": [
    "C07_swap16_reverses",
    "C07_swap32_reverses",
    "C07_swap64_reverses",
    "C07_arrays",
    "C07_involution"
   ],
   "note": "portable branch of the byte swap; the compiler built-ins are assumed to agree with it"
  },
  {
   "property": "C08",
   "status": "proved",
   "theorems": [
    "C08_crc32",
    "C08_pieces"
   ],
   "note": ""
  },
  {
   "property": "C09",
   "status": "partial",
   "theorems": [
    "C09_stream_partial",
    "C09_history",
    "C09_second_file_refuted",
    "C09_large_file_refuted"
   ],
   "note": "true for the first file read by the process and less than 2^32 bytes; refuted for a second file (static state is never reset) and for 2^32 bytes (counter wraps)"
  },
  {
   "property": "C10",
   "status": "partial",
   "theorems": [
    "C10_writer_checksums",
    "C10_schedule_independent",
    "C10_reader_checksums",
    "C10_strict_refuted"
   ],
   "note": "schedule independence is unconditional; the values are the format's checksums on machines where a 32 bit shift by 32 gives x or 0; in ISO C the computation is always undefined (shift by 32), proved as C10_strict_refuted"
  },
  {
   "property": "C11",
   "status": "partial",
   "theorems": [
    "C11_write_read_partial",
    "C11_file_bytes",
    "C11_short_file",
    "C11_cheap_writer_refuted",
    "C11_site_layout",
    "C11_site_roundtrip",
    "C11_top_rows",
    "C11_small_exactly",
    "C11_small_refuted",
    "C11_small_many_colours"
   ],
   "note": "bytes: in-memory writer with both readers, bit exact for double precision data, the reconstruction of omitted rows a parameter there; values: the reconstruction itself in exact arithmetic, all NC; the minimal SU(3) layout loses links whose first row is ( phase , 0 , 0 ) (refuted); the low-memory writer always overruns its buffer (refuted)"
  },
  {
   "property": "C12",
   "status": "proved",
   "theorems": [
    "C12_round_trip",
    "C12_dims",
    "C12_odd_refuted"
   ],
   "note": "Even extents as in the statement, every schedule of the time slices; a link is one block of an arbitrary type. Little-endian hosts only (the byte swap of the big-endian reader is applied to the struct array and not modelled). C12_odd_refuted: an odd extent leaves links in no slot."
  },
  {
   "property": "C13",
   "status": "partial",
   "theorems": [
    "C13_round_trip_partial",
    "C13_header",
    "C13_SU2_refuted",
    "C13_little_refuted"
   ],
   "note": "Every NC other than 2, any number of dimensions, bit patterns of the doubles, both endiannesses. For SU(2) the claim is false (reader and writer use different layouts); files written without OUT_BIG on little-endian hosts are rejected."
  },
  {
   "property": "C14",
   "status": "proved",
   "theorems": [
    "C14_padding",
    "C14_written",
    "C14_binary_written",
    "C14_skip_one",
    "C14_sequence",
    "C14_twelve_records"
   ],
   "note": "Byte level, both endiannesses. XML handling of the payloads is not part of the model; C14_twelve_records: the reader gives up silently after twelve records."
  },
  {
   "property": "C15",
   "status": "partial",
   "theorems": [
    "C15_round_trip_partial",
    "C15_accepted",
    "C15_number_zero_refuted",
    "C15_label_refuted"
   ],
   "note": "Round trip proved for every lattice size, checksum and positive configuration number, finite plaquette and trace of size at most 2 (read back to 2^-22, within the tolerance of the checks) and free texts without line breaks of at most 100 characters. False for configuration number 0 (always rejected) and for labels with line breaks (undefined behaviour)."
  },
  {
   "property": "C16",
   "status": "partial",
   "theorems": [
    "C16_accepted_partial",
    "C16_NERSC_refuted",
    "C16_checksum_refuted"
   ],
   "note": "The exact acceptance rule of each header type is proved. The claim itself is false: a NERSC file is accepted when only one of the three checks holds, and other types ignore some of the values. Exact arithmetic."
  },
  {
   "property": "C17",
   "status": "partial",
   "theorems": [
    "C17_resume_partial",
    "C17_mismatch",
    "C17_truncated",
    "C17_KISS_refuted"
   ],
   "note": "Proved for MWC_1038, MWC_4096, XOR_1024 (and KISS on big-endian hosts) for all seeds, thread counts, draw orders; false for KISS on little-endian hosts (bytes are not swapped back, refuted with a reachable witness). WELL_512 has no write branch and does not link, so it is outside the theorem. Single fopen/fread failures are the only file errors modelled."
  },
  {
   "property": "C18",
   "status": "partial",
   "theorems": [
    "C18_in_bounds",
    "C18_unit_interval",
    "C18_XOR_below_one_refuted",
    "C18_XOR_table",
    "C18_MWC_4096_one_entry",
    "C18_MWC_1038_two_entries",
    "C18_MWC_4096_table_refuted"
   ],
   "note": "In-bounds and range parts proved for all five generators; [0,1) holds for all but XOR_1024, which can round to 1. The whole-table part is proved for XOR_1024, and is false for the default MWC_4096 (refuted) and for MWC_1038 (two entries determine all draws)."
  },
  {
   "property": "C19",
   "status": "proved",
   "theorems": [
    "C19_streams",
    "C19_own_seed"
   ],
   "note": "For every generator, every interleaving of the threads' draws and every seed list."
  },
  {
   "property": "C20",
   "status": "partial",
   "theorems": [
    "C20_dandc",
    "C20_kahan",
    "C20_average",
    "C20_variance",
    "C20_parallel_partial",
    "C20_parallel_fails",
    "C20_parallel_refuted",
    "C20_variance_one_refuted"
   ],
   "note": "exact arithmetic; serial sums, mean and variance for every length; the parallel sum is right exactly when the last part is not empty, otherwise it reads outside the array or never returns (5 elements, 4 threads); variance of one element divides by zero"
  },
  {
   "property": "C21",
   "status": "proved",
   "theorems": [
    "C21_pder",
    "C21_derivative",
    "C21_in_range",
    "C21_nodes",
    "C21_cubic",
    "C21_beyond",
    "C21_beyond_refuted"
   ],
   "note": "exact arithmetic; everything stated is proved for arguments between the nodes; beyond the last node the element after the end is read (outside the quantifier); cubic_min is not modelled"
  },
  {
   "property": "C22",
   "status": "partial",
   "theorems": [
    "C22_multab",
    "C22_multabdag",
    "C22_multab_dag",
    "C22_multab_dagdag_partial",
    "C22_multab_dagdag_refuted",
    "C22_multab_atomic_left",
    "C22_multab_atomic_right",
    "C22_mat_mult_vec_partial",
    "C22_mat_mult_vec_refuted"
   ],
   "note": "proved for every NC except multab_dagdag for NC>3, whose code drops the conjugations (refuted); the SU(3) matrix times vector product has a wrong index (refuted)"
  },
  {
   "property": "C23",
   "status": "proved",
   "theorems": [
    "C23_su3",
    "C23_su2",
    "C23_general_NC"
   ],
   "note": "SU(2) and SU(3) shortcuts; for NC>3 the names are macros for the general products, three of which are right"
  },
  {
   "property": "C24",
   "status": "partial",
   "theorems": [
    "C24_trace",
    "C24_trace_ab",
    "C24_trace_ab_dag",
    "C24_trace_abc",
    "C24_Re_trace_abc_dag_suNC",
    "C24_trace_ab_herm_partial",
    "C24_trace_prod_herm_partial",
    "C24_trace_ab_herm_refuted",
    "C24_trace_prod_herm_refuted",
    "C24_trace_ab_herm_short"
   ],
   "note": "proved for every NC; the SU(2) hermitian traces also need tracelessness (refuted without)"
  },
  {
   "property": "C25",
   "status": "partial",
   "theorems": [
    "C25_det",
    "C25_det_multiplicative",
    "C25_cofactor_transpose",
    "C25_inverse_partial",
    "C25_inverse_2_partial",
    "C25_inverse_2_refuted"
   ],
   "note": "determinant, LU determinant and cofactors for every NC; inverse for every NC except that for NC=2 a singular matrix is not reported (refuted)"
  },
  {
   "property": "C26",
   "status": "proved",
   "theorems": [
    "C26_reunit_group",
    "C26_reunit_fixes_group",
    "C26_reunit_frame"
   ],
   "note": "every NC >= 2, real arithmetic; the leading vectors are the columns for NC=2,3 and the rows otherwise, as in the code"
  },
  {
   "property": "C27",
   "status": "partial",
   "theorems": [
    "C27_each_pair_once",
    "C27_only_pairs",
    "C27_multiply",
    "C27_multiply_dag",
    "C27_rotate_partial",
    "C27_rotate_2_refuted",
    "C27_group"
   ],
   "note": "every NC; su2_rotate for NC=2 recomputes the second row and so is a multiplication on SU(2) matrices only (refuted for a general 2x2 matrix)"
  },
  {
   "property": "C28",
   "status": "proved",
   "theorems": [
    "C28_overrelax",
    "C28_defined",
    "C28_zero_staple_refuted"
   ],
   "note": "every NC, every list of subgroups, whenever the update is defined; it is undefined (division by zero) exactly when the SU(2) part of U*staple^dag vanishes, e.g. for a zero staple (refuted)"
  },
  {
   "property": "C29",
   "status": "partial",
   "theorems": [
    "C29_generate_partial",
    "C29_heatbath_partial",
    "C29_give_up_refuted"
   ],
   "note": "unit whenever one of the 43 proposals is accepted; refuted when all are rejected"
  },
  {
   "property": "C30",
   "status": "proved",
   "theorems": [
    "C30_plaquettes",
    "C30_polyakov",
    "C30_face",
    "C30_loop",
    "C30_loop_starts",
    "C30_planes",
    "C30_average",
    "C30_range",
    "C30_unit",
    "C30_t_plaq_refuted"
   ],
   "note": "every NC, every lattice shape, any order of the sites; real arithmetic, portable (non-SSE) branches"
  },
  {
   "property": "C31",
   "status": "proved",
   "theorems": [
    "C31_transform",
    "C31_compose",
    "C31_inverse",
    "C31_slices"
   ],
   "note": "every NC, every lattice shape; also the transformation slice by slice"
  },
  {
   "property": "C32",
   "status": "proved",
   "theorems": [
    "C32_gauge_transformation",
    "C32_observables",
    "C32_defined",
    "C32_undefined_refuted"
   ],
   "note": "every NC, every sequence of (subgroup, site, random number); the undefined steps are characterised and a field on which every step is undefined is exhibited"
  },
  {
   "property": "C33",
   "status": "partial",
   "theorems": [
    "C33_stout_partial",
    "C33_stout_covariant_partial",
    "C33_staples",
    "C33_staples_covariant_partial",
    "C33_ape_group",
    "C33_ape_su2",
    "C33_ape_su3_refuted"
   ],
   "note": "staple sums proved for every NC; stout links proved for NC=2,3 where the exponential is exact; APE links are in the group for every NC and covariant for NC=2, but not covariant for NC=3 (refuted: a gauge transformed sum makes the projection divide zero by zero); log projections not modelled"
  },
  {
   "property": "C34",
   "status": "partial",
   "theorems": [
    "C34_window",
    "C34_window_improved_flow",
    "C34_smear4D",
    "C34_RK3step",
    "C34_smear3D",
    "C34_smear4D_improved_fails",
    "C34_smear4D_improved_refuted"
   ],
   "note": "Default build: proved for every local rule, number of slices, schedule; instantiated for stout links (smear4D) and the flow step (RK3step_memcheap = RK3step). With IMPROVED_SMEARING the flow step is right but smear4D writes the wrong slice of its window to slice T-3: refuted."
  },
  {
   "property": "C35",
   "status": "partial",
   "theorems": [
    "C35_su3",
    "C35_su3_exact",
    "C35_su3_short",
    "C35_su3_short_same",
    "C35_su2_partial",
    "C35_su2_short_partial",
    "C35_su2_refuted",
    "C35_unique"
   ],
   "note": "NC=3: defined for every traceless hermitian matrix and within 1e-17 of the exponential of i times it (series limit), which is in SU(3); equal to it for zero and for separated eigenvalues. NC=2: within 2e-9, exact when zero or -det >= 1e-8; refuted between (the small-argument series is evaluated at z instead of z^2). NC>3 (Pade/Horner) not modelled."
  },
  {
   "property": "C36",
   "status": "partial",
   "theorems": [
    "C36_hermitian_proj_partial",
    "C36_hermitian_proj_2_refuted",
    "C36_result_hermitian_traceless",
    "C36_packed_same_partial",
    "C36_antihermitian_proj_partial",
    "C36_trf_antihermitian_proj_partial",
    "C36_antihermitian_short_partial",
    "C36_antihermitian_short_refuted",
    "C36_pack_rebuild_hermitian",
    "C36_pack_rebuild_antihermitian"
   ],
   "note": "every complex matrix for NC = 3 and NC > 3; for NC = 2 quaternionic matrices only (refuted for the rest); the packed antihermitian version is wrong for every NC > 3 (refuted)"
  },
  {
   "property": "C37",
   "status": "proved",
   "theorems": [
    "C37_su3_roundtrip",
    "C37_su3_exactly",
    "C37_degenerate_refuted",
    "C37_su2_roundtrip",
    "C37_eight_numbers",
    "C37_only_eight_numbers"
   ],
   "note": "real arithmetic; the exact set of SU(3) matrices on which the round trip holds is characterised"
  },
  {
   "property": "C38",
   "status": "proved",
   "theorems": [
    "C38_matrix_power",
    "C38_negative_power_refuted"
   ],
   "note": "every n >= 0; for n < 0 the result is the power 2^64+n, not the inverse (refuted)"
  },
  {
   "property": "C39",
   "status": "partial",
   "theorems": [
    "C39_list",
    "C39_config",
    "C39_psq_cut",
    "C39_hypercubic_cut",
    "C39_cylinder_cut_partial",
    "C39_conical_cut",
    "C39_cylinder_refuted",
    "C39_repeat",
    "C39_big_endian_refuted"
   ],
   "note": "List contents, order and site indices for every cut predicate; each cut against its definition; the cylinder cut is right for four directions only and refuted for three; repetition on little-endian hosts, refuted on big-endian ones. The cache file name is not modelled."
  },
  {
   "property": "C40",
   "status": "partial",
   "theorems": [
    "C40_mirror",
    "C40_any_cut",
    "C40_odd",
    "C40_middle",
    "C40_even_refuted"
   ],
   "note": "Mirrored exactly if no kept momentum has a component -L/2 with L even; refuted for even extents."
  },
  {
   "property": "C41",
   "status": "partial",
   "theorems": [
    "C41_after_crash",
    "C41_complete_partial",
    "C41_refuted",
    "C41_empty"
   ],
   "note": "What every later run gets after a crash at any byte; the claim holds only for complete files."
  },
  {
   "property": "C42",
   "status": "partial",
   "theorems": [
    "C42_triplets_partial",
    "C42_conserve",
    "C42_even_squares",
    "C42_extra_cell",
    "C42_count_refuted",
    "C42_odd_refuted",
    "C42_extents_refuted",
    "C42_missing"
   ],
   "note": "Complete, free of repetitions and correctly counted for extents that are multiples of the smallest and even bounds; refuted for odd bounds and other extents; one more cell than counted is allocated and never written."
  },
  {
   "property": "C43",
   "status": "proved",
   "theorems": [
    "C43_big_endian_output",
    "C43_other_sizes"
   ],
   "note": "Any schedule of the swap loops, both byte orders, sizes 4 and 8."
  },
  {
   "property": "C44",
   "status": "partial",
   "theorems": [
    "C44_refuses",
    "C44_success_partial",
    "C44_failure",
    "C44_overwrites_refuted",
    "C44_full_refuted",
    "C44_no_output_refuted",
    "C44_null_refuted"
   ],
   "note": "A readable target is refused unchanged; success outside three situations is the complete file where none was. Refuted: an existing file that is writable but not readable is overwritten, a full device and output type 0 give success, a target that cannot be opened is undefined behaviour."
  },
  {
   "property": "C45",
   "status": "partial",
   "theorems": [
    "C45_restart_partial",
    "C45_saves_inert",
    "C45_number_refuted",
    "C45_buffer_refuted",
    "C45_interval_refuted"
   ],
   "note": "Restarting at any save point from the files left there gives the rest of the trace, same final configuration, generator and files. Missing: the sequence number in the saved header may be stale (race), then the restart starts a new random sequence; the name buffer overflows at 10^7 iterations; zero intervals divide by zero. The update itself is a parameter (fixed number of threads)."
  },
  {
   "property": "C46",
   "status": "partial",
   "theorems": [
    "C46_sums",
    "C46_maximum_partial",
    "C46_maximum_one_thread",
    "C46_maximum_refuted"
   ],
   "note": "Sums are schedule independent in exact arithmetic; the maximum is refuted for two threads (check and store not atomic), exact for one."
  },
  {
   "property": "C47",
   "status": "partial",
   "theorems": [
    "C47_su3",
    "C47_general_partial",
    "C47_symmetry",
    "C47_su2_is_half",
    "C47_su2_refuted",
    "C47_generators_refuted"
   ],
   "note": "NC=3 is complete: the three contractions equal 2Tr([A,B]D), 2Tr({A,B}D), 4Tr(ABD) for every traceless triple; symmetry of the tables for every NC. For NC>3 the same holds for every hermitian complete set of generators (satisfied by Pauli products, NC=4), but the set the program builds is wrong (unsigned negation, line 420), and for NC=2 the answer is an eighth of the documented one: both refuted. The tables written to and read from a file (NOT_CONDOR_MODE) are not modelled."
  },
  {
   "property": "C48",
   "status": "partial",
   "theorems": [
    "C48_result",
    "C48_first_zero_partial",
    "C48_refuted"
   ],
   "note": "false as stated: the last step of the conversion from Newton's form (with the first node) is missing; what is computed is characterised for every size, and it is the solution when the first node is zero"
  },
  {
   "property": "C49",
   "status": "partial",
   "theorems": [
    "C49_parabola",
    "C49_minimum",
    "C49_range",
    "C49_concave_refuted"
   ],
   "note": "exact arithmetic, zero denominators as the C comparisons treat them; proved for convex parabolas; for concave ones the maximiser is returned"
  },
  {
   "property": "C50",
   "status": "partial",
   "theorems": [
    "C50_layout_independent",
    "C50_settings",
    "C50_success_iff",
    "C50_missing_fails",
    "C50_located",
    "C50_unrelated_refuted",
    "C50_malformed_refuted",
    "C50_silent_refuted",
    "C50_empty_line_refuted",
    "C50_blank_refuted",
    "C50_twice_refuted"
   ],
   "note": "All of get_input_data is modelled. For files of lines tag/=/value in any layout (at most 63 lines, words under 64 characters): the result depends only on the first value of each tag, every setting is that value, success and undefined behaviour are characterised exactly. For every text without character 0 a value used stands after its tag. Refuted: missing RANDOM_TRANSFORM reads before the array, 12abc and -5 are accepted, CONFNO and unit lattice dimensions fail silently, lines without value or blank, second read. strtod and pow are parameters."
  },
  {
   "property": "C51",
   "status": "partial",
   "theorems": [
    "C51_answers_partial",
    "C51_fresh",
    "C51_history_refuted"
   ],
   "note": "First answer right, later ones repeat a stored decision; refuted by three histories."
  },
  {
   "property": "C52",
   "status": "partial",
   "theorems": [
    "C52_scidac_round_trip",
    "C52_ildg_round_trip",
    "C52_stays_inside",
    "C52_mismatch",
    "C52_colours",
    "C52_ildg_five_dims_refuted",
    "C52_ildg_large_refuted",
    "C52_sumb_refuted",
    "C52_outside_refuted",
    "C52_reject_refuted",
    "C52_malformed_refuted"
   ],
   "note": "The XML parser, the record loop around it and the three header writers are modelled. Written SciDAC files are read back for every lattice, colour number, date and checksum pair on any pair of hosts; ILDG files for up to four dimensions (or NC not 3) and extents below 2^31. For every text the parser stays inside the arrays under four stated conditions, each shown necessary. Refuted: ILDG with five dimensions or large extents, second checksum, rejection of mismatching or malformed metadata (the caller ignores the parser's failure)."
  },
  {
   "property": "C53",
   "status": "partial",
   "theorems": [
    "C53_order",
    "C53_bracket",
    "C53_t0",
    "C53_quadratic",
    "C53_cubic",
    "C53_root_partial",
    "C53_missed_refuted",
    "C53_correction_refuted",
    "C53_root_refuted",
    "C53_last_unused",
    "C53_last_refuted"
   ],
   "note": "fixed-step flow and scale setting; order of the entries used and bracketing proved; the entry after the correction step repeats a time, the last measurement is never used, the real part of a complex root may be reported as the scale, and a target on a shifted perfect cube is missed; the equation solver is otherwise proved to give all roots with multiplicity; adaptive flow not modelled"
  },
  {
   "property": "C54",
   "status": "proved",
   "theorems": [
    "C54_mag",
    "C54_mag_observables",
    "C54_mag_complete",
    "C54_axial"
   ],
   "note": "Every lattice, at least two colours, any order of the parallel loops; links must be reunitarisable (independent leading rows), which every group field meets. Exact arithmetic; allocation failures are not modelled."
  },
  {
   "property": "C55",
   "status": "partial",
   "theorems": [
    "C55_projection",
    "C55_fixes_group",
    "C55_improves",
    "C55_su2_maximum",
    "C55_defined_refuted",
    "C55_maximum_refuted"
   ],
   "note": "Whenever a result is produced it is in the group and at least as good as Gram-Schmidt; group elements are fixed; it is strictly better than Gram-Schmidt whenever a rotation in the plane of two colours is; for two colours it is the unique maximum, and no result exactly when all overlaps vanish. Refuted for three colours: division by zero at diag(1,1,-1), and a result that is not the maximum at diag(1,1,-3/4)."
  },
  {
   "property": "C56",
   "status": "partial",
   "theorems": [
    "C56_gauge",
    "C56_temporal",
    "C56_decrease_refuted"
   ],
   "note": "Slice-wise gauge transformation with spatial traces kept, for every lattice and schedule, when the averages have independent leading rows and the projection is defined; monotonicity of the temporal traces is proved for two colours, for three a 22x2 field is exhibited whose summed trace becomes smaller; the comparison with Gram-Schmidt holds for every number of colours. HERM_PROJ and single precision variants are not modelled."
  },
  {
   "property": "C57",
   "status": "partial",
   "theorems": [
    "C57_energy_and_charge",
    "C57_density",
    "C57_threads",
    "C57_measurement",
    "C57_gauge_invariant",
    "C57_vacuum",
    "C57_bound",
    "C57_zero_energy",
    "C57_plaquette",
    "C57_weights",
    "C57_dropped",
    "C57_many_colours_refuted"
   ],
   "note": "All of clover.c except the log and alternative projections, for the standard, plaquette and improved builds with any k5, NC = 2 and 3 (plaquette: any NC); every lattice and schedule. Refuted for NC >= 4 with the clover builds: a pure gauge field gets energy, since the product of two daggered links does not conjugate. Exact arithmetic."
  },
  {
   "property": "C58",
   "status": "partial",
   "theorems": [
    "C58_slab_values",
    "C58_all_directions",
    "C58_full_slab",
    "C58_gauge_invariant",
    "C58_one_thread",
    "C58_race_loses",
    "C58_threads_refuted"
   ],
   "note": "Values for both builds on every lattice and real density: proved with FFTW (its transforms taken as their defining sums) for any schedule and without FFTW on one thread. Refuted: without FFTW several threads add to one unprotected variable, and for every lattice and any sharing of the iterations between two threads an addend may be lost. Exact arithmetic, NORM as written."
  },
  {
   "property": "C59",
   "status": "partial",
   "theorems": [
    "C59_moments_partial",
    "C59_slices_used",
    "C59_zeroth_moment_refuted",
    "C59_tenth_moment_refuted",
    "C59_long_lattice_undefined",
    "C59_defined_refuted"
   ],
   "note": "For extents up to 13 the exact values of all moments of Q and Q^2 in both builds. Refuted: the slice L/2 is left out so the zeroth moment is not the charge, the tenth moment is divided by 362800 instead of 3628800, and every lattice with an extent of 14 or more overflows an int."
  },
  {
   "property": "C60",
   "status": "partial",
   "theorems": [
    "C60_correlator",
    "C60_temporal_fftw",
    "C60_temporal_direct",
    "C60_temporal_refuted",
    "C60_sum_rule",
    "C60_gauge_invariant"
   ],
   "note": "Correlator, sum rule and gauge invariance in both builds (extents up to 2^30 without FFTW). Refuted: without FFTW the temporal correlator is computed from the density itself and is the slice sum of q, not the correlator. The list of separations and its output are not part of this property."
  },
  {
   "property": "C61",
   "status": "partial",
   "theorems": [
    "C61_correlators",
    "C61_correlators_direct",
    "C61_builds_agree_refuted",
    "C61_builds_agree_partial",
    "C61_slice_gauge",
    "C61_closed_gauge"
   ],
   "note": "Both builds, any NC, lattice, schedule and memory contents; without FFTW extents up to 2^30. Refuted: for SU(3) the build without FFTW writes the complex conjugate of the first number and leaves out the complex conjugation in the second; they agree for SU(2). The smearing before, the list of separations (C39) and the output format are not part of this. Exact arithmetic, FFTW as its defining sums."
  },
  {
   "property": "C62",
   "status": "partial",
   "theorems": [
    "C62_fast",
    "C62_recursive",
    "C62_fast_is_recursive",
    "C62_spatial",
    "C62_covariant",
    "C62_spatial_covariant",
    "C62_su2",
    "C62_su2_spatial",
    "C62_weights",
    "C62_weights_not_four",
    "C62_weights_refuted"
   ],
   "note": "Stout links (HEX) for NC = 2 and 3 where the exponential is computed exactly (C35) and APE links (HYP) for NC = 2; for NC = 2, APE and parameters below 1/2 no hypothesis on the field is left. Refuted: with ND different from 4 the weights are alpha_k/((Nd-k)(Nd-2)) instead of the documented alpha_k/(2(Nd-k)), for every level. The spatial routine uses the four-dimensional weights alpha_2/4 and alpha_1/6, which is how the specification states it. Not modelled: logarithmic links (HYL), TOP_VALUE builds, allocation failure. Exact arithmetic."
  },
  {
   "property": "C63",
   "status": "partial",
   "theorems": [
    "C63_propagator_partial",
    "C63_positive",
    "C63_landau_partial",
    "C63_global_gauge",
    "C63_psq_cut",
    "C63_odd_refuted",
    "C63_edge_refuted",
    "C63_large_refuted"
   ],
   "note": "Both momentum definitions, any NC up to 100, lattice, cut and schedule, for lists whose momenta lie strictly inside the zone (C63_psq_cut: any p^2 cut up to 1/16 of the smallest extent squared) and sites below 2^31. Refuted outside: on odd extents the code converts an edge momentum to another one and Landau gauge fields get a longitudinal part; on even extents with the edge kept the copied half belongs to other momenta, even at zero momentum; from 2^31 sites an int truncates the site and the field is read out of bounds. The linear definition of the field only (not the logarithm); FFTW as its defining sums; exact arithmetic."
  },
  {
   "property": "C64",
   "status": "partial",
   "theorems": [
    "C64_instantaneous_partial",
    "C64_positive",
    "C64_global_gauge",
    "C64_psq_cut",
    "C64_no_fftw_refuted",
    "C64_edge_refuted"
   ],
   "note": "Any NC, number of spatial directions from two on, lattice, cut and schedule, for lists without momenta on the edge of the zone (C64_psq_cut: any p^2 cut up to 1/16 of the smallest spatial extent squared). Refuted: with the edge kept the zero momentum is paired with another momentum and the number becomes negative; without FFTW the failure of the transform is ignored and numbers made of the links themselves are written. The linear definition of the field only; the output format is not part of this. FFTW as its defining sums; exact arithmetic."
  },
  {
   "property": "C65",
   "status": "partial",
   "theorems": [
    "C65_fftw_partial",
    "C65_direct",
    "C65_direct_sparse",
    "C65_builds_spatial",
    "C65_symmetric",
    "C65_largest_at_zero",
    "C65_sum",
    "C65_global_gauge",
    "C65_fftw_too_large",
    "C65_threads_in_turn",
    "C65_builds_agree_refuted",
    "C65_threads_refuted",
    "C65_threads_bounds_refuted",
    "C65_spacing_zero_refuted"
   ],
   "note": "Both builds, any NC, lattice and schedule, all sources or sources on a sublattice; the build with FFTW only if the threads do not overlap in the convolution loop (C65_threads_in_turn). Refuted: the loop variable over directions is shared between the threads, so that an interleaving leaves wrong sums (0 and 10 instead of 8 and 8) and another one reads beyond the links; the build with FFTW sums over all directions, the other over the spatial ones only (without temporal field they differ by a fixed factor); a spacing of 0 without FFTW never ends. Smearing before and the output format are not part of this. The linear definition of the field only; exact arithmetic."
  },
  {
   "property": "C66",
   "status": "partial",
   "theorems": [
    "C66_field_partial",
    "C66_slices_partial",
    "C66_links_partial",
    "C66_uncharged_partial",
    "C66_odd_undefined",
    "C66_odd_refuted",
    "C66_three_refuted",
    "C66_build_refuted"
   ],
   "note": "Four dimensions with even extents, any number of colours, noise, coupling, charge and schedule, build with FFTW. Refuted: with an odd extent the symmetrisation writes beyond the end of the arrays; in three dimensions the formula for the last site leaves out the first extent and modes are not made conjugate, so that the field is another one; without FFTW the failure is dropped and success with unchanged links is reported. The noise is an arbitrary input: its distribution is not part of this. FFTW as its defining sums; exact arithmetic."
  },
  {
   "property": "C67",
   "status": "partial",
   "theorems": [
    "C67_averages",
    "C67_gauge_invariant",
    "C67_compact",
    "C67_counts_partial",
    "C67_small",
    "C67_sheet_refuted",
    "C67_monopoles_refuted"
   ],
   "note": "Averages, gauge invariance and bounds: any lattice of at least two dimensions for which the number of pairs fits 64 bits. Counts: four dimensions, angles within int; monopoles of the first and the last direction and a sheet of turns counted from the truncated angle. Refuted: the angle is cut to an integer before the division by 2 pi, so a plaquette that winds once is missed; the signs in the monopole current are wrong for the two middle directions. Exact arithmetic."
  },
  {
   "property": "C68",
   "status": "partial",
   "theorems": [
    "C68_measured_partial",
    "C68_tested",
    "C68_ascent_partial",
    "C68_step",
    "C68_run",
    "C68_step_exact",
    "C68_line_search",
    "C68_products_partial",
    "C68_conjugate_partial",
    "C68_start_partial",
    "C68_measured_refuted",
    "C68_products_refuted",
    "C68_continuation_refuted"
   ],
   "note": "Linear derivative, both builds, any SU(N), lattice and schedule; steps and whole runs of conjugate gradient and steepest descent stay on the gauge orbit; a step is 1 + a X brought back to SU(N), the slope of the functional is that along 1 + a X; the line search for any SU(N); the coefficients of the conjugate gradient for SU(2). Refuted: the test before the first step is twice the measure of the iterations, eight times for SU(2); the scalar products of the conjugate gradient are right for SU(2) only, since for SU(3) the product of the two diagonal entries has the wrong sign and for more colours the imaginary diagonals of the antihermitian field are dropped; a continuation run starts from sums that still hold those of the last step. Not modelled: logarithmic and MLG derivatives, the exponential of exp_exact, more than 18 colours."
  },
  {
   "property": "C69",
   "status": "partial",
   "theorems": [
    "C69_conjugate_gradient",
    "C69_reported_partial",
    "C69_failure",
    "C69_descent_partial",
    "C69_unreadable_refuted",
    "C69_descent_refuted",
    "C69_count_refuted"
   ],
   "note": "Conjugate gradient with a file that can be read again: -1 or the accuracy asked for, that of the field before the last step. Refuted: an unreadable file at a restart gives success with the sentinel 123456789 as the number of iterations; steepest descent adds its iterations to the sentinel, so that it never restarts and reports success; after a successful restart the count is 123456789 too large."
  },
  {
   "property": "C70",
   "status": "partial",
   "theorems": [
    "C70_constant",
    "C70_detects",
    "C70_value",
    "C70_su2_partial",
    "C70_functional",
    "C70_maximum_partial",
    "C70_su2_refuted",
    "C70_one_slice_refuted",
    "C70_maximum_refuted"
   ],
   "note": "Linear definition of the fields. Proved: the temporal constance is zero in Landau gauge for every SU(N); its value and the converse from SU(3) on; the functional; the maximum is the violation of some site, and the largest with one thread. Refuted: for SU(2) the diagonal of a slice is compared with itself, so that 0 is printed for fields that are not constant; one time slice gives not a number; with several threads the maximum is tested outside the lock, and a smaller value can replace a larger one. Not modelled: the logarithmic definition."
  },
  {
   "property": "C71",
   "status": "partial",
   "theorems": [
    "C71_step",
    "C71_times",
    "C71_plaquette_partial",
    "C71_plaquette_refuted",
    "C71_failure_refuted",
    "C71_limit_refuted"
   ],
   "note": "The control of the steps, for any step of the flow, plaquette and energy as functions of the field. Refuted, the last two with step functions made for the purpose and not with links: in three dimensions the plaquette printed is 3/2 of the average (normalised by (d-1)(d-2)); the 21st try fails even if its error is 0; the fine measurements around t0 and w0 do not look at the limit on the steps, and do not end if t^2 E stays at its target. Not modelled: the step of the links itself (C34 has that of the memory saving version), the topological charge printed, the fit of the scales (C53), failed allocations (the flag returned is then not initialised)."
  },
  {
   "property": "C72",
   "status": "partial",
   "theorems": [
    "C72_chosen",
    "C72_orbit",
    "C72_unset_refuted",
    "C72_failure_refuted"
   ],
   "note": "Which copy is chosen, for any fixing; the orbit, for conjugate gradient and steepest descent. Refuted: if no copy converges with a functional below 1 the lattice is overwritten with memory that was never set, shown with the real conjugate gradient on a field of -1 in Landau gauge, with the random transformation taken to be trivial; a last fixing that gives up is taken for a success, since its sign 123456789 has the iterations of the last copy added, shown with a fixing made for the purpose. The number of iterations returned is that of the last copy and the last fixing. Not modelled: the random numbers of the transformations, failed allocations."
  },
  {
   "property": "C73",
   "status": "partial",
   "theorems": [
    "C73_matrix",
    "C73_links",
    "C73_determinant_refuted"
   ],
   "note": "Any number of colours and any tolerance: unitary links accepted, every entry of U U^dagger of a link accepted within the tolerance of the unit matrix, the count that of the links rejected. Refuted: the determinant is not looked at, so that a field of determinant i has no bad links. Exact arithmetic; not modelled: the test for not a number. The test of the rows sets the flag to its old value and has no effect."
  },
  {
   "property": "C74",
   "status": "partial",
   "theorems": [
    "C74_loop",
    "C74_refused",
    "C74_closed",
    "C74_invariant_partial",
    "C74_printed",
    "C74_closed_refuted",
    "C74_average_refuted"
   ],
   "note": "Every path of two or more steps; which paths come back, on every lattice; the paths that come back do not depend on the gauge. Refuted: a path counts as closed if its numbers add up to zero, so that 1, 1, -2 is accepted although it does not come back, and its trace depends on the gauge; the plaquette printed divides the sum over three spatial planes by 18, so that one half is printed for the trivial field of SU(3). A path of one step reads a matrix that was never set. Not modelled: the smearing before, the correlator of the loops. No program of the repository calls the measurement."
  },
  {
   "property": "C75",
   "status": "partial",
   "theorems": [
    "C75_link_partial",
    "C75_profile_refuted"
   ],
   "note": "Two and three colours, four dimensions. Proved: every link is the exponential of the direction of the potential times a coefficient given in closed form, and special unitary (exponents in the range where no series is used). Refuted: the coefficient is not the integral of the profile of the instanton along the link, since the sum of all coordinates is added where only that along the link should be; on 2^4 sites the trace of a link is negative that should be positive. Not modelled: the regular gauge (not compiled), that other dimensions than four are reported as a success by the reader."
  },
  {
   "property": "C76",
   "status": "partial",
   "theorems": [
    "C76_measurements_partial",
    "C76_failure",
    "C76_count_refuted"
   ],
   "note": "Any smearing, measurements and failures as parameters. Proved: which fields are measured, the end at the first failure, the moments written after a success. Refuted: only the susceptibility is measured on the field as it is, so that one measurement of the correlator or the moments is none and a success; for 0 the susceptibility is measured once, and the array of the moments has the size 2^64 - 1. Not modelled: files and printing; the wrapper that calls it drops the flag returned."
  },
  {
   "property": "C77",
   "status": "partial",
   "theorems": [
    "C77_log_partial",
    "C77_no_result",
    "C77_small_angles",
    "C77_minus_one_refuted",
    "C77_small_refuted"
   ],
   "note": "Two colours, exact arithmetic. Proved: hermitian and traceless for every matrix but minus one, and a logarithm for angles of zero or from 10^-4 on. Refuted: for minus one there is a division by zero; for smaller angles the exponential is another matrix, since the series has the angle where its square is meant (an error in the fifth digit of the field). Not modelled: three and more colours, the packed version."
  }
 ]
}