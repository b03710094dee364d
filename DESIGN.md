# Formal model of GLU: design

GLU (`/repo/src`) is a C99 lattice gauge theory library.  The model lives in
`rocq/theories` (Rocq/Coq 8.16.1); properties are listed in `properties.jsonl`,
their status in `MANIFEST.json`, experiments with wrong programs in `seeded/LOG.jsonl`.

## Conventions

* Every definition that models code carries a comment citing file and lines.
* `*Model.v` contain definitions only.  Specifications that do not use the model's helpers
  are in `*Spec.v`, or at the head of the proof or properties file.  Proofs are in
  `*Proofs*.v`.  `Properties_*.v` contain the final theorems, the non-vacuity `Example`s and
  `Print Assumptions`.
* Integers: `Z`/`N`/`nat`.  Where unsigned wrap-around or the range of `int` matters it is
  written out.  Undefined behaviour (out-of-bounds access, division by zero, signed overflow,
  shift by the width, use of a null pointer) is a separate outcome (`None` or a constructor),
  never a default value.  A loop that never ends is the outcome of a fuel argument that no
  amount of fuel satisfies.
* Floating point (`double`, `double complex`) is modelled by exact real or complex numbers
  (`Cplx.v`: pairs of reals), by rationals in the header code, and by 64 bit patterns in the
  file code.  Rounding, NaN and infinities are not modelled; a division by an exact zero or
  the root of a negative number is a distinct outcome or a stated precondition.
* C arrays of complex numbers are functions `nat -> C` with explicit updates and counted
  loops (`Arr.v`); the mathematical matrices of the statements are functions of two indices
  with their own sums, products, daggers and a Laplace determinant (`CMat.v`, `Det.v`).
* OpenMP work-shared loops: any order of the iterations (an arbitrary permutation or
  partition); where a race is the point, interleavings of atomic reads and writes.
* Files are byte (or word) lists; a crash during a write leaves a prefix.
* The portable code (`*.c`, not `*_SSE.c`) is modelled, the unrolled NC = 2 and NC = 3 versions
  and the general loops separately.  ND and the extents are arbitrary wherever the code loops
  over `ND`.

## Property by property

Status, exact theorem names and what is missing are in `MANIFEST.json`.  "refuted" means that a
`..._refuted` theorem exhibits a witness in the model of the code as written.

| id | files | what is modelled | how it is proved |
|----|-------|------------------|------------------|
| C01 | Geom* | `gen_site`, `get_mom_2piBZ` over a list of extents, with the `int` subvolume | mixed radix numbers, induction on the dimensions |
| C02 | Geom* | `gen_shift`, `init_navig` | coordinates of neighbours, then C01 |
| C03 | Geom* | `get_mom_2piBZ_hirep2` | mixed radix in the permuted order |
| C04 | Geom* | `get_site_2piBZ`, `get_site_pipiBZ`, `get_mom_pipi`, `TwoPI_mpipi_momconv` | congruences per coordinate; odd extents refuted |
| C05 | Geom* | `compute_spacing`, `get_vec_from_origin`, `compute_rsq` with `size_t` wrap | modular arithmetic; minimality of the image distance |
| C06 | Draught* | `get_midx`, `init_cb` (counting and filling passes), update loops over a colour | partition by induction; neighbours by case analysis; schedules commute; extent 7 refuted |
| C07 | Byte* | `bswap_16/32/64` on arrays | bit lemmas; byte reversal as separate specification |
| C08 | Crc* | `crc32` with its table and unrolled loop | table equals the bitwise definition (all 256 entries), fold over bytes |
| C09 | Crc* | `CKSUM_ADD/GET` with their static state | streaming law; history dependence refuted |
| C10 | Omp*, IO* | checksum loops of the writers and readers | commutative folds over permutations; shift by 32 as undefined |
| C11 | IO*, Rebuild* | writer and reader loops over bytes; `lattice_reader_suNC` row reconstruction in exact arithmetic | round trip of bytes; completion of SU(N) rows through minors |
| C12 | Cern* | slot maps and block moves of `CERN.c` | bijection from the parity structure |
| C13 | Hirep* | `HIREP.c` layouts on 64 bit patterns | round trip; NC = 2 refuted |
| C14 | Lime* | padding, record framing, reader loop | arithmetic, induction over records |
| C15 | Hdr*, Nersc*, Text* | header writer, tokenizer, `atoi`/`atof`/`%.12g`-style printing | round trip of text; configuration number 0 refuted |
| C16 | Nersc* | `check_sums` decisions in rationals | decision tables |
| C17 | Rng* | all generators with save and restore files | round trip of states, induction over draws |
| C18 | Rng* | state machines of the five generators | invariants; table coverage by entries read |
| C19 | Rng* | thread table of generators | interleavings project to per-thread sequences |
| C20 | Num* | `GLU_sums.c` over the reals with index ranges | induction; bad splits refuted |
| C21 | Num* | `GLU_splines.c` over the reals | algebra, bracket search |
| C22 | Mmul*, Mat* | every `MMUL*.c` variant, unrolled and loops | algebra over C; sums |
| C23 | Mmul* | `*_suNC` variants | determinant relations of SU(2), SU(3) |
| C24 | Mat* | `trace_abc.c` | algebra, sums |
| C25 | Inv* | `det`, cofactor, LU, Gauss-Jordan | own Laplace determinant, loop invariants |
| C26 | Gram* | `gramschmidt.c` | loop invariants, minors for the last row |
| C27 | Su2* | `SU2_rotate.c` | enumeration by induction, embedding algebra |
| C28 | Su2* | `relax.c` | trace identity per subgroup |
| C29 | Su2* | `hb.c` | unit vectors; give-up branch refuted |
| C30 | Field* | `plaqs_links.c` plaquettes, `POLY.c` loops, `draughtboard` order | cyclicity of traces along closed loops |
| C31 | Field* | `gtrans.c` | matrix algebra per link |
| C32 | Field* | `Or.c`/`gtrans.c` local steps | invariant: the field is a gauge transform of the start |
| C33 | Field*, Exp*, Ape* | `staples.c`, `projectors.c` (stout, APE) | covariance of staples; quaternions for SU(2); witness for SU(3) |
| C34 | Smear* | slice windows of `4D_fast.c`, `smear.c`, `wflowfuncs.c` | induction over slices for every local rule |
| C35 | Exp* | `expMat.c` for NC = 2, 3 | Cayley-Hamilton, power series, trigonometric bounds |
| C36 | Proj* | projections in `U_Nops.c` | algebra |
| C37 | Proj* | eight parameter packing | algebra; exact domain |
| C38 | Proj* | `matrix_power` | binary powering |
| C39 | Cuts* | momentum cuts and list | filter of the site list; each cut against its definition |
| C40 | Cuts* | reflection of the list | symmetry of the predicates |
| C41 | Cuts* | cache file read after a crash | prefix semantics |
| C42 | Trip* | `triplet_gen.c` | counting and filling loops |
| C43 | Cuts*, Byte* | binary output | swap is an involution |
| C44 | Run* | writer entry on a small file system | case analysis |
| C45 | Run* | update trajectory with save points | simulation |
| C46 | Run* | maximum with check-then-lock, sums | interleaving witness; permutations |
| C47 | Lie* | `lie_mats.c` | completeness relation of the generators |
| C48 | Num* | `vandermonde.c` | Newton form algebra |
| C49 | Num* | `line_search.c` `approx_minimum` | algebra of the parabola |
| C50 | Input* | all of `input_reader.c`/`input_help.c` on text | list reasoning |
| C51 | Run* | `GLU_memcheck.c` with its static cache | histories |
| C52 | Xml* | `XML_info.c`, `Scidac.c` | token loops on text, round trip |
| C53 | Scale* | `wflowfuncs.c` lists and scale setting | induction on lists; cubic formula |
| C54 | Axial* | `MAG.c`, `gtrans.c` | product of links along lines |
| C55 | Givens*, AxialModel | `givens.c` | per rotation maximality of quaternions |
| C56 | Residual*, AxialModel | `MAG.c` residual fixing | slice-wise gauge functions |
| C57 | Clover* | `clover.c` | covariance of the leaves, traces, Cauchy-Schwarz |
| C58 | Fft*, Qtop* | `Qslab.c` | convolution theorem for the transform sums, permutation of the slab sites; interleavings of the race |
| C59 | Fft*, Qtop* | `Qmoments.c` | slices, powers by induction, int range |
| C60 | Fft*, Qtop* | `Qcorr.c` | convolution theorem |
| C61 | Fft*, Static* | `POLY.c` static potential | convolution theorem per matrix element, cyclic shift of time, gauge covariance of lines |
| C62 | Hyp* | `4D_fast.c`, `ND_generic_HYP.c`, `HYP.c` | level by level along the code, index tables by case analysis, reuse of the sliding window theorem of C34 |
| C63 | Fft*, Gluon* | `cuts.c` (gluon propagator), `glueprop.c`, `pspace_landau.c` | transform as defining sums, half-link phases, Cauchy-Schwarz, mirror images of the momentum list |
| C64 | Fft*, Gluon*, Inst* | `3Dcuts.c` (instantaneous propagators, both builds) | transform per time slice as defining sums, mirror images of the momentum list, phases cancel between p and -p |
| C65 | Fft*, Gluon*, Cfg* | `config_gluons.c` (both builds) | autocorrelation theorem, sums over pairs of slices, recursion over source coordinates, small-step model of the threads sharing a loop variable |
| C66 | Fft*, U1* | `SUNCxU1_config.c`, `gen_p_sq_feyn`, `read_and_U1` | mirror images of the modes, transform as defining sums, loop invariant over the half of the sites that is symmetrised |
| C67 | U1* | `U1_obs.c`, `U1_top.c` | loops against sums over pairs of directions; truncation to int; cube fluxes by case analysis of directions |
| C68 | Landau*, Fft* | `FACG.c`, `lin_derivs.c`, `gftests.c` (theta_test_lin), `CG.c`, `line_search.c` (Landau part), `gen_p_sq` | the accelerated direction as a real symmetric positive kernel (mirror images of the modes, orthogonality of the waves); orbits composed over the loop; Gram-Schmidt with positive coefficients; the parabola of C49 |
| C69 | Landau* | `FACG.c` (FACG, FASD), `Landau.c`, `GF_wrap_landau` | induction over iterations and restarts with fuel; witnesses on an SU(2) field of two sites |
| C70 | Report*, Landau* | `gftests.c` (const_time, gauge_functional, the maximum of theta_test_lin), as printed by `Landau.c` and `OBS_wrap.c` | divergence summed over a slice: space terms cancel by reindexing, time telescopes; tests and writes of the maximum as interleaved steps with an invariant |
| C71 | Adapt* | `adaptive_flow.c`, with `av_plaquette_th` and the list of `update_meas_list` | step, plaquette and energy as parameters; induction over tries, fine measurements and adaptive steps with fuel; invariant: each entry belongs to steps of its total length |
| C72 | Copies*, Landau*, Report* | `luxury_copy_fast` of `Landau.c` | invariant over the copies: best so far among those that count; orbits of C68 composed; witnesses: constant fields 1 and -1 |
| C73 | Check* | `is_unitary`, `check_links` | entries of the product by index arithmetic; running column sums; the count as the length of a filtered list, invariant under permutations |
| C74 | Balls* | `link_path`, `GLUball_lattice`, `GLU_balls` of `balls.c` | the array is the product along the steps so far, with the lemmas on paths of C57; gauge covariance of paths; witnesses: unit fields and a change of sign at one site |
| C75 | Bpst*, Exp* | `Asing`, `instanton_config` of `BPST_config.c` | closed forms with the angle of `carg`; integrals as differences of a primitive (arctangent); the exponential of C35; witness: bounds on angles at the corner of the 2^4 lattice |
| C76 | Steps* | `compute_Qsusc_step` of `Qsusc.c`, with `write_moments` | smearing and measurements as parameters; induction over the measurements |
| C77 | Log*, Exp* | `exact_log_slow` of `exactQ.c` for NC = 2 | the matrix as cos + i f Q; the exponential of a traceless hermitian matrix and its uniqueness from C35; monotone cosine for the refutation |

Anything that turns out false of the code as written is proved false (`..._refuted`, with
a concrete witness), next to the strongest true version.  A theorem named `..._partial`
proves part of its property; the missing part is said in the manifest and in a comment.

## Trusted base

* The Coq 8.16.1 kernel (including `vm_compute`).
* The reading of the C code: the model is transcribed by hand from the cited lines; the
  code was not compiled or run.
* The exact-arithmetic idealisation of floating point described above.
* The axioms listed below, all of them from Coq's standard library (its real numbers,
  functional extensionality, excluded middle).  No axiom is added by this development, and no
  library outside the standard library contributes one.

### Axioms of each theorem

Output of `Print Assumptions` (also printed by the build below each theorem):
D = `ClassicalDedekindReals.sig_forall_dec`, N = `ClassicalDedekindReals.sig_not_dec`,
F = `FunctionalExtensionality.functional_extensionality_dep`, K = `Classical_Prop.classic`;
"none" = closed under the global context.

| property | axioms: theorems |
|----|----|
| C01 | none: C01_coords_of_site, C01_site_of_coords, C01_volume, C01_large_lattice_refuted |
| C02 | none: C02_neighbor_step, C02_back_step, C02_inverse, C02_commute, C02_period |
| C03 | none: C03_hirep_order, C03_hirep_permutation |
| C04 | none: C04_momconv_partial, C04_even_extents, C04_momconv_refuted |
| C05 | none: C05_spacing, C05_compose, C05_inverse, C05_zero, C05_unit, C05_rsq_min, C05_far_separation_refuted |
| C06 | none: C06_partition, C06_single_site, C06_not_neighbours_partial, C06_race_refuted, C06_link_schedule, C06_landau_schedule, C06_coulomb_schedule |
| C07 | none: C07_swap16_reverses, C07_swap32_reverses, C07_swap64_reverses, C07_arrays, C07_involution |
| C08 | none: C08_crc32, C08_pieces |
| C09 | none: C09_stream_partial, C09_history, C09_second_file_refuted, C09_large_file_refuted |
| C10 | none: C10_writer_checksums, C10_schedule_independent, C10_reader_checksums, C10_strict_refuted |
| C11 | DFKN: C11_site_layout, C11_site_roundtrip, C11_top_rows, C11_small_exactly, C11_small_refuted, C11_small_many_colours; none: C11_write_read_partial, C11_file_bytes, C11_short_file, C11_cheap_writer_refuted |
| C12 | none: C12_round_trip, C12_dims, C12_odd_refuted |
| C13 | none: C13_round_trip_partial, C13_header, C13_SU2_refuted, C13_little_refuted |
| C14 | none: C14_padding, C14_written, C14_binary_written, C14_skip_one, C14_sequence, C14_twelve_records |
| C15 | none: C15_round_trip_partial, C15_accepted, C15_number_zero_refuted, C15_label_refuted |
| C16 | none: C16_accepted_partial, C16_NERSC_refuted, C16_checksum_refuted |
| C17 | none: C17_resume_partial, C17_mismatch, C17_truncated, C17_KISS_refuted |
| C18 | none: C18_in_bounds, C18_unit_interval, C18_XOR_below_one_refuted, C18_XOR_table, C18_MWC_4096_one_entry, C18_MWC_1038_two_entries, C18_MWC_4096_table_refuted |
| C19 | none: C19_streams, C19_own_seed |
| C20 | D: C20_parallel_fails, C20_parallel_refuted; DF: C20_dandc, C20_kahan, C20_average, C20_variance, C20_parallel_partial, C20_variance_one_refuted |
| C21 | DF: C21_pder, C21_derivative, C21_in_range, C21_nodes, C21_cubic, C21_beyond, C21_beyond_refuted |
| C22 | DF: C22_multab, C22_multabdag, C22_multab_dag, C22_multab_dagdag_partial, C22_multab_dagdag_refuted, C22_multab_atomic_left, C22_multab_atomic_right, C22_mat_mult_vec_partial, C22_mat_mult_vec_refuted |
| C23 | DF: C23_su3, C23_su2, C23_general_NC |
| C24 | DF: C24_trace, C24_trace_ab, C24_trace_ab_dag, C24_trace_abc, C24_Re_trace_abc_dag_suNC, C24_trace_ab_herm_partial, C24_trace_prod_herm_partial, C24_trace_ab_herm_refuted, C24_trace_prod_herm_refuted, C24_trace_ab_herm_short |
| C25 | DF: C25_det, C25_det_multiplicative, C25_cofactor_transpose, C25_inverse_partial, C25_inverse_2_partial, C25_inverse_2_refuted |
| C26 | DFN: C26_reunit_group, C26_reunit_fixes_group, C26_reunit_frame |
| C27 | DF: C27_multiply, C27_multiply_dag, C27_rotate_partial, C27_rotate_2_refuted, C27_group; none: C27_each_pair_once, C27_only_pairs |
| C28 | DFN: C28_overrelax, C28_defined, C28_zero_staple_refuted |
| C29 | DFKN: C29_generate_partial, C29_heatbath_partial, C29_give_up_refuted |
| C30 | DF: C30_plaquettes, C30_polyakov, C30_face, C30_loop, C30_average, C30_range, C30_unit, C30_t_plaq_refuted; none: C30_loop_starts, C30_planes |
| C31 | DF: C31_transform, C31_compose, C31_inverse, C31_slices |
| C32 | DFN: C32_gauge_transformation, C32_observables, C32_defined, C32_undefined_refuted |
| C33 | DF: C33_staples, C33_staples_covariant_partial; DFKN: C33_stout_partial, C33_stout_covariant_partial; DFN: C33_ape_group, C33_ape_su2, C33_ape_su3_refuted |
| C34 | DFKN: C34_smear4D, C34_RK3step; none: C34_window, C34_window_improved_flow, C34_smear3D, C34_smear4D_improved_fails, C34_smear4D_improved_refuted |
| C35 | DF: C35_unique; DFKN: C35_su3, C35_su3_exact, C35_su3_short, C35_su3_short_same, C35_su2_partial, C35_su2_short_partial, C35_su2_refuted |
| C36 | DF: C36_hermitian_proj_partial, C36_hermitian_proj_2_refuted, C36_result_hermitian_traceless, C36_packed_same_partial, C36_antihermitian_proj_partial, C36_trf_antihermitian_proj_partial, C36_antihermitian_short_partial, C36_antihermitian_short_refuted, C36_pack_rebuild_hermitian, C36_pack_rebuild_antihermitian |
| C37 | DFKN: C37_su3_roundtrip, C37_su3_exactly, C37_degenerate_refuted, C37_su2_roundtrip, C37_eight_numbers; DFN: C37_only_eight_numbers |
| C38 | DF: C38_matrix_power, C38_negative_power_refuted |
| C39 | DFKN: C39_psq_cut, C39_hypercubic_cut, C39_cylinder_cut_partial, C39_conical_cut, C39_cylinder_refuted; none: C39_list, C39_config, C39_repeat, C39_big_endian_refuted |
| C40 | DFKN: C40_mirror, C40_odd, C40_middle, C40_even_refuted; none: C40_any_cut |
| C41 | none: C41_after_crash, C41_complete_partial, C41_refuted, C41_empty |
| C42 | none: C42_triplets_partial, C42_conserve, C42_even_squares, C42_extra_cell, C42_count_refuted, C42_odd_refuted, C42_extents_refuted, C42_missing |
| C43 | none: C43_big_endian_output, C43_other_sizes |
| C44 | none: C44_refuses, C44_success_partial, C44_failure, C44_overwrites_refuted, C44_full_refuted, C44_no_output_refuted, C44_null_refuted |
| C45 | none: C45_restart_partial, C45_saves_inert, C45_number_refuted, C45_buffer_refuted, C45_interval_refuted |
| C46 | D: C46_maximum_partial; DF: C46_sums, C46_maximum_one_thread, C46_maximum_refuted |
| C47 | DFN: C47_su3, C47_general_partial, C47_symmetry, C47_su2_is_half, C47_su2_refuted, C47_generators_refuted |
| C48 | DF: C48_result, C48_first_zero_partial, C48_refuted |
| C49 | DF: C49_parabola, C49_minimum, C49_range, C49_concave_refuted |
| C50 | none: C50_layout_independent, C50_settings, C50_success_iff, C50_missing_fails, C50_located, C50_unrelated_refuted, C50_malformed_refuted, C50_silent_refuted, C50_empty_line_refuted, C50_blank_refuted, C50_twice_refuted |
| C51 | none: C51_answers_partial, C51_fresh, C51_history_refuted |
| C52 | none: C52_scidac_round_trip, C52_ildg_round_trip, C52_stays_inside, C52_mismatch, C52_colours, C52_ildg_five_dims_refuted, C52_ildg_large_refuted, C52_sumb_refuted, C52_outside_refuted, C52_reject_refuted, C52_malformed_refuted |
| C53 | DF: C53_order, C53_correction_refuted; DFKN: C53_bracket, C53_t0, C53_cubic, C53_root_partial, C53_missed_refuted, C53_root_refuted, C53_last_unused, C53_last_refuted; DFN: C53_quadratic |
| C54 | DFN: C54_mag, C54_mag_observables, C54_mag_complete, C54_axial |
| C55 | DFN: C55_projection, C55_fixes_group, C55_improves, C55_su2_maximum, C55_defined_refuted, C55_maximum_refuted |
| C56 | DFN: C56_gauge, C56_temporal, C56_decrease_refuted |
| C57 | DF: C57_energy_and_charge, C57_density, C57_threads, C57_measurement, C57_gauge_invariant, C57_vacuum, C57_bound, C57_zero_energy, C57_plaquette, C57_weights, C57_dropped, C57_many_colours_refuted |
| C58 | DF: C58_one_thread, C58_race_loses, C58_threads_refuted; DFN: C58_slab_values, C58_all_directions, C58_full_slab, C58_gauge_invariant |
| C59 | DFN: C59_moments_partial, C59_zeroth_moment_refuted, C59_tenth_moment_refuted, C59_long_lattice_undefined, C59_defined_refuted; none: C59_slices_used |
| C60 | DFN: C60_correlator, C60_temporal_fftw, C60_temporal_direct, C60_temporal_refuted, C60_sum_rule, C60_gauge_invariant |
| C61 | DFN: C61_correlators, C61_correlators_direct, C61_builds_agree_refuted, C61_builds_agree_partial, C61_slice_gauge, C61_closed_gauge |
| C62 | DF: C62_weights, C62_weights_not_four, C62_weights_refuted; DFKN: C62_fast, C62_recursive, C62_fast_is_recursive, C62_spatial, C62_covariant, C62_spatial_covariant, C62_su2, C62_su2_spatial |
| C63 | DFKN: C63_propagator_partial, C63_positive, C63_landau_partial, C63_global_gauge, C63_psq_cut, C63_odd_refuted, C63_edge_refuted, C63_large_refuted |
| C64 | DFKN: C64_instantaneous_partial, C64_positive, C64_global_gauge, C64_psq_cut, C64_no_fftw_refuted, C64_edge_refuted |
| C65 | D: C65_threads_in_turn, C65_threads_bounds_refuted; DF: C65_symmetric, C65_largest_at_zero, C65_sum, C65_global_gauge, C65_threads_refuted; DFN: C65_fftw_partial, C65_direct, C65_direct_sparse, C65_builds_spatial, C65_fftw_too_large, C65_builds_agree_refuted, C65_spacing_zero_refuted |
| C66 | DFN: C66_field_partial, C66_slices_partial, C66_links_partial, C66_uncharged_partial, C66_odd_undefined, C66_odd_refuted, C66_three_refuted, C66_build_refuted |
| C67 | DF: C67_counts_partial, C67_small; DFKN: C67_sheet_refuted, C67_monopoles_refuted; DFN: C67_averages, C67_gauge_invariant, C67_compact |
| C68 | DF: C68_measured_partial, C68_tested, C68_products_partial, C68_products_refuted; DFN: C68_ascent_partial, C68_step, C68_run, C68_step_exact, C68_line_search, C68_conjugate_partial, C68_start_partial, C68_measured_refuted, C68_continuation_refuted |
| C69 | D: C69_count_refuted; DFN: C69_conjugate_gradient, C69_reported_partial, C69_descent_partial, C69_unreadable_refuted, C69_descent_refuted; none: C69_failure |
| C70 | DF: C70_functional, C70_maximum_partial, C70_maximum_refuted; DFN: C70_constant, C70_detects, C70_value, C70_su2_partial, C70_su2_refuted, C70_one_slice_refuted |
| C71 | DF: C71_plaquette_partial, C71_plaquette_refuted; DFKN: C71_step, C71_times, C71_failure_refuted, C71_limit_refuted |
| C72 | DF: C72_chosen; DFN: C72_orbit, C72_unset_refuted, C72_failure_refuted |
| C73 | DFN: C73_matrix, C73_links, C73_determinant_refuted |
| C74 | D: C74_refused; DF: C74_loop, C74_invariant_partial, C74_printed, C74_closed_refuted, C74_average_refuted; none: C74_closed |
| C75 | DFKN: C75_link_partial, C75_profile_refuted |
| C76 | none: C76_measurements_partial, C76_failure, C76_count_refuted |
| C77 | DFKN: C77_log_partial, C77_no_result, C77_small_angles, C77_minus_one_refuted, C77_small_refuted |

## Not modelled

* SSE kernels (`*_SSE.c`), single precision builds, rounding errors, performance.
* The internals of FFTW; where a Fourier transform occurs its defining sum is used.
* The logarithm definitions of the gauge field (`taylor_logs.c`, the log derivatives), the MLG
  fields, the Pade exponential for NC > 3, the flow step inside the adaptive Wilson flow, `evalues.c`.
* Gauge fixing: the Coulomb driver and `CFACG.c`, the exact exponential in the Landau step
  (`exp_exact`), smeared preconditioning.  The linear Landau steps, conjugate
  gradient, steepest descent, restarts and what they report are modelled (C68 to C70); that the
  maximisation converges is not a property of the code alone.
* MILC headers, the command line, allocation failures (except where a property is about them),
  file errors other than those named with the property.
