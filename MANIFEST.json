{"claims": [
{"property": "C01", "status": "proved", "theorems": ["C01_partition"], "note": ""},
{"property": "C02", "status": "proved", "theorems": ["C02_worker_count"], "note": ""},
{"property": "C03", "status": "proved", "theorems": ["C03_frame", "C03_reads", "C03_call_safe"], "note": "every transducer, any arithmetic"},
{"property": "C04", "status": "proved", "theorems": ["C04_columns", "C04_schedule_independent", "C04_not_stopped", "C04_completes"], "note": ""},
{"property": "C05", "status": "proved", "theorems": ["C05_ignore_warn", "C05_attenuated"], "note": "any arithmetic, every single-element transducer"},
{"property": "C06", "status": "proved", "theorems": ["C06_stop", "C06_stop_any_medium"], "note": "Lossless (C06_stop) and in every medium (C06_stop_any_medium)."},
{"property": "C07", "status": "proved", "theorems": ["C07_code", "C07_code_any"], "note": ""},
{"property": "C08", "status": "partial", "theorems": ["C08_status_partial", "C08_stopped_partial", "C08_single_worker_refuted", "C08_single_worker"], "note": "holds for two or more workers (except dreamsphere); false for one worker C08_single_worker: with one worker the status is none whatever happens."},
{"property": "C09", "status": "partial", "theorems": ["C09_sphere_refuted"], "note": "false of the code: dreamsphere drops warnings"},
{"property": "C10", "status": "partial", "theorems": ["C10_array_refuted", "C10_last_element_partial"], "note": "false of the code: the status of an array call is that of its last element (proved)"},
{"property": "C11", "status": "proved", "theorems": ["C11_rayleigh", "C11_rayleigh_stop", "C11_rect"], "note": "all seven single-element transducers, exact arithmetic"},
{"property": "C12", "status": "proved", "theorems": ["C12_terminates", "C12_rect_points", "C12_doubles", "C12_tiny_step_refuted"], "note": "C12_terminates, C12_rect_points: exact arithmetic, every positive step. C12_doubles: IEEE doubles and any libm, when the half extents are finite and at most 2^52 steps. C12_tiny_step_refuted: a positive step absorbed by rounding never returns, so that side condition is needed."},
{"property": "C13", "status": "partial", "theorems": ["C13_rect_stuck_refuted", "C13_rect_negative_refuted"], "note": "false of the code: non-positive steps are accepted and never return"},
{"property": "C14", "status": "proved", "theorems": ["C14_linear"], "note": "single-element transducers, exact arithmetic"},
{"property": "C15", "status": "partial", "theorems": ["C15_mirror_x", "C15_mirror_y", "C15_partial_step_refuted", "C15_disc_x_refuted"], "note": "proved for rectangles, lines and cylinders in both axes and for discs and spheres in y; false for discs in x (C15_disc_x_refuted) and for fractional step numbers"},
{"property": "C16", "status": "partial", "theorems": ["C16_shift_partial", "C16_odd_refuted"], "note": "proved for even shifts and whenever no arrival is exactly half way between samples; false for odd shifts of such ties because rint rounds halves to even"},
{"property": "C17", "status": "proved", "theorems": ["C17_superposition", "C17_superposition_stop", "C17_delays"], "note": "exact arithmetic, lossless; levels ignore/warn, and stop/parallel_stop when every arrival lies in the record"},
{"property": "C18", "status": "proved", "theorems": ["C18_one_element"], "note": "any arithmetic with x-0=x, IEEE doubles included"},
{"property": "C19", "status": "proved", "theorems": ["C19_focusing", "C19_symmetric", "C19_xplusy_refuted"], "note": "proved for x, y, xy; false for x+y"},
{"property": "C20", "status": "partial", "theorems": ["C20_steering_partial", "C20_negative_angle_refuted"], "note": "proved for angles in [0,180]; false for negative angles"},
{"property": "C21", "status": "partial", "theorems": ["C21_apodization", "C21_on_axis_refuted", "C21_nan_refuted"], "note": "proved when not all elements are on the axis; otherwise the weight is 0/0"},
{"property": "C22", "status": "partial", "theorems": ["C22_annular_partial", "C22_exact_partial", "C22_one_disc_partial", "C22_late_refuted", "C22_negative_delay_refuted", "C22_hann_refuted"], "note": "Proved what the code computes for every input on which each disc response is defined: weighted sum of (outer - inner) disc responses, moved by the focusing delay plus one sample. The English claim (no extra sample, all windows honoured, no write outside the buffer) is false of the code: refuted by concrete runs. C22_exact_partial: over the reals, with a written-out specification (SpecAnnuR) of ring radii, weights and focusing delays, the response is the documented one, one sample late."},
{"property": "C23", "status": "proved", "theorems": ["C23_zero_alpha", "C23_zero_alpha_array", "C23_response", "C23_response_array", "C23_linear", "C23_work_buffer", "C23_adds"], "note": "Exact arithmetic, exact inverse DFT (the FFT library itself is external): single elements and arrays. C23_work_buffer and C23_adds for any arithmetic and any inverse transform. That only samples 0..nt-1 of the column change is C03 (any attenuation plan)."},
{"property": "C24", "status": "partial", "theorems": ["C24_tfm", "C24_tfm_ends", "C24_tfm_stop", "C24_saft_partial", "C24_saft_refuted"], "note": "TFM: full claim proved over exact reals for every job, schedule and worker count (values, status, stop level). SAFT: the code adds the delay twice (2*(t+delay)); proved to be the delay-and-sum image with twice the delay, hence the claim for delay 0; the claim itself is refuted for a non-zero delay (finding)."},
{"property": "C25", "status": "partial", "theorems": ["C25_partial", "C25_refuted"], "note": "Proved for delay 0; refuted for non-zero delay because SAFT counts the delay twice."},
{"property": "C26", "status": "partial", "theorems": ["C26_square_partial", "C26_square_ends_partial", "C26_refuted", "C26_oob_refuted"], "note": "Proved for equal numbers of rows and columns in increasing order; refuted for different numbers (the code swaps num_rows and num_cols when it reads the stripe limits: wrong image, or a read outside the matrix)."},
{"property": "C27", "status": "partial", "theorems": ["C27_linear", "C27_safe_partial", "C27_scans_refuted"], "note": "Linearity proved in full. Reads inside the data proved when the data matrix has as many columns as the method uses; the gateways do not check that, and a matrix with too few columns makes the call read outside it (refuted)."},
{"property": "C28", "status": "proved", "theorems": ["C28_conv_sum", "C28_conv_cauchy"], "note": ""},
{"property": "C29", "status": "proved", "theorems": ["C29_fftconv_equals_conv"], "note": "exact transforms; scratch contents arbitrary"},
{"property": "C30", "status": "proved", "theorems": ["C30_conv_p", "C30_fftconv_p", "C30_refuted_unchecked"], "note": "the C++ entry FFTConvP::run has no argument check and reads outside B (C30_refuted_unchecked)"},
{"property": "C31", "status": "partial", "theorems": ["C31_ola_matrix_partial", "C31_ola_vector_partial", "C31_refuted_vector", "C31_refuted_block0", "C31_refuted_inplace_equ", "C31_refuted_inplace_sum"], "note": "proved for matrix B, and for vector B with one block per column or one column per worker; false of the code otherwise (out-of-bounds read), for block length 0 (out-of-bounds write) and for the in-place modes"},
{"property": "C32", "status": "partial", "theorems": ["C32_sum_fftconv_partial", "C32_refuted_scaling", "C32_refuted_neg", "C32_refuted_row_U"], "note": "false of the code: result is divided by the transform length, -= stores, a row U is read out of bounds; what it does compute is proved"},
{"property": "C33", "status": "partial", "theorems": ["C33_accepted_options_partial", "C33_unknown_rejected", "C33_matlab_nul_refuted", "C33_matlab_level_ignored_refuted", "C33_annular_strings_refuted"], "note": "Proved for all four front ends and eleven functions: a call that is not rejected had documented strings and uses the methods they name; unknown strings are rejected. False as stated: MATLAB cuts strings at NUL, MATLAB dreamrect/dreamcirc never read the level when a 7th argument is given, dream_arr_annu accepts undocumented strings. DAS method strings: C65."},
{"property": "C34", "status": "partial", "theorems": ["C34_gateway_safe_partial", "C34_empty_delay_refuted", "C34_empty_array_refuted", "C34_octave_scalar_ud_refuted", "C34_octave_range_refuted", "C34_matlab_string_refuted", "C34_python_one_dimensional_refuted"], "note": "Proved for argument lists of ordinary double matrices of consistent shape, non-empty delay and array, no scalar 'ud' vector in Octave, and (annular arrays) unsigned index builds. Refuted without each of these hypotheses."},
{"property": "C35", "status": "partial", "theorems": ["C35_julia_odd", "C35_octave_vector_partial", "C35_even_accepted_refuted", "C35_python_row_refuted"], "note": "True for Julia; refuted for Octave, MATLAB and Python (even counts accepted, Python uses one radius of a row vector)."},
{"property": "C36", "status": "proved", "theorems": ["C36_prefix", "C36_abort_prompt"], "note": ""},
{"property": "C37", "status": "partial", "theorems": ["C37_cpu", "C37_float_refuted", "C37_uni_partial", "C37_uni_saft_refuted"], "note": "das gateway: proved over all call histories. das_uni: proved except SAFT, where every repeated call rebuilds. C37_float_refuted: every single-precision call uses the empty double-precision pointer."},
{"property": "C38", "status": "partial", "theorems": ["C38_exact_partial", "C38_points", "C38_double_partial", "C38_beyond_refuted", "C38_missing_refuted"], "note": "Proved in exact arithmetic; refuted for IEEE doubles both ways (0:0.1:1.7 has a point beyond the end, 0:0.1:4.3 loses its last point). What is left in doubles (C38_double_partial): the count is exact unless (max-min)/pitch is within 2 eps (steps+1) of an integer, then at most one off; every point lies in [min,max] up to 8 eps (|min|+|max|+pitch); the last one is less than one pitch (and such a slack) from max."},
{"property": "C39", "status": "partial", "theorems": ["C39_uni_tfm", "C39_uni_saft_partial", "C39_uni_rca", "C39_saft_cast_refuted"], "note": "TFM and row-column kernels proved in full (also for different numbers of rows and columns); SAFT counts the delay twice and with an empty receive grid casts 0/0 to an integer."},
{"property": "C40", "status": "partial", "theorems": ["C40_gpu_cpu_partial", "C40_workgroup_refuted", "C40_delays_refuted"], "note": "Proved when the number of image points is a multiple of 64, for one delay, levels that do not stop; refuted otherwise (kernel not launched; only the first delay is used)."},
{"property": "C41", "status": "partial", "theorems": ["C41_accepted_shapes_partial", "C41_documented", "C41_completes", "C41_matlab_weights_refuted"], "note": "Documented calls: full. Accepted shapes: the weight vector length is not enforced in MATLAB (refuted); an empty delay is accepted. Annular arrays in signed-index front ends: the ring delays must not be earlier than one sample before zero (rings_in_time), because a negative index is an out-of-bounds write there (C22_negative_delay_refuted)."},
{"property": "C42", "status": "partial", "theorems": ["C42_window_parameter_partial", "C42_python_julia_ignored_refuted"], "note": "Octave and MATLAB proved; Python and Julia never read the parameter (refuted)."},
{"property": "C43", "status": "partial", "theorems": ["C43_stop_partial", "C43_one_worker_refuted", "C43_any_workers", "C43_any_medium"], "note": "Proved for more than one worker; with one worker the call fails with 'CTRL-C pressed!' instead (refuted). C43_any_workers: the exact outcome for every number of workers; C43_any_medium: the same with absorption."},
{"property": "C44", "status": "proved", "theorems": ["C44_single", "C44_single_stop", "C44_array", "C44_array_stop", "C44_annular_partial"], "note": "Composition of C33/C41 (parsing), C01-C04 (threads) and C11/C17 (exact responses). Annular arrays: C44_annular_partial, from the argument list to the returned matrix; partial only because the response is one sample late (C22)."},
{"property": "C45", "status": "partial", "theorems": ["C45_gpu_cpu_partial", "C45_completes", "C45_workgroup_refuted", "C45_ignored_refuted", "C45_delays_refuted", "C45_stop_refuted"], "note": "Proved for a multiple of 64 observation points, one delay, no absorption, levels that do not stop; refuted otherwise: uninitialised device memory is returned with status 0 when 64 does not divide the number of points, and absorption, error level and all delays but the first are ignored."},
{"property": "C46", "status": "proved", "theorems": ["C46_completes", "C46_schedule_independent", "C46_not_stopped", "C46_interrupted", "C46_workers"], "note": "Any arithmetic; all three functions."},
{"property": "C47", "status": "proved", "theorems": ["C47_circ_sir", "C47_bounds", "C47_unique", "C47_edge_refuted"], "note": "Exact real arithmetic. The excluded sample (arrival time of a point exactly above the edge) is shown to be 0/0."},
{"property": "C48", "status": "partial", "theorems": ["C48_rect_sir_partial", "C48_shortfall", "C48_inside_refuted", "C48_v_refuted"], "note": "Proved for unit velocity and points outside the aperture or on the line y=0; for points over the aperture the code gives the fourth sub-rectangle the wrong height (shortfall theorem gives the exact error; refuted by a concrete point), and the normal velocity is ignored (refuted). Excluded: the arrival-time sample of a point exactly above an edge line."},
{"property": "C49", "status": "partial", "theorems": ["C49_scirc_sir_partial", "C49_sir", "C49_negative_refuted"], "note": "Proved except for sampling intervals wholly before time 0 at a point on the disk itself (z = 0), where the code returns negative values (refuted)."},
{"property": "C50", "status": "partial", "theorems": ["C50_gpu_cpu_partial", "C50_workgroup_refuted", "C50_delays_refuted"], "note": "Proved in exact arithmetic for a single delay and a multiple of 64 points; the rest is refuted by the code."},
{"property": "C51", "status": "partial", "theorems": ["C46_workers", "C46_scirc_env_refuted"], "note": "Proved for circ_sir and rect_sir (third part of C46_workers); the code refutes it for scirc_sir, which never reads the variable."},
{"property": "C52", "status": "proved", "theorems": ["C52_whole_columns"], "note": "Octave and MATLAB; A and B different arrays, A a full double matrix."},
{"property": "C53", "status": "partial", "theorems": ["C53_refuted_other_blocks", "C53_rejected_partial", "C53_refuted_octave_temporary"], "note": "Refuted: the loop runs over all columns of A whatever k is, so any k1 > 1 or k2 < N reads or writes outside the arrays; lower bounds are checked on the wrong index; an Octave variable that is not a full double matrix is left unchanged. Proved: which calls are refused."},
{"property": "C54", "status": "partial", "theorems": ["C54_unknown_rejected", "C54_refuted_not_a_string", "C54_refuted_mode_ignored"], "note": "Unknown strings are refused; refuted: conv_p takes any non-string as '=', fftconv_p and fftconv_ola ignore the mode when a wisdom string follows."},
{"property": "C55", "status": "partial", "theorems": ["C55_new_matrix_partial", "C55_scalar_refuted", "C55_in_place", "C55_output_size", "C55_sizes"], "note": "Proved except for a new 1 x 1 result in Octave, where the property is refuted (C55_scalar_refuted): the threads write to a matrix that was freed when it was stored as a scalar."},
{"property": "C56", "status": "partial", "theorems": ["C56_conv_p_partial", "C56_refuted_fftconv_empty", "C56_refuted_octave_output"], "note": "Proved for conv_p with full matrices (Octave: result not a new 1 x 1 matrix); refuted for fftconv_p with empty operands and for Octave in-place outputs that are not full double matrices."},
{"property": "C57", "status": "partial", "theorems": ["C57_fftconv_p", "C57_conv_p_partial", "C57_refuted_conv_p"], "note": "fftconv_p: all modes; conv_p: '+=' and '-='; refuted for conv_p with '=': A becomes zero."},
{"property": "C58", "status": "partial", "theorems": ["C58_error_partial", "C58_stops", "C58_refuted_julia", "C58_refuted_octave_conv_p"], "note": "Proved for MATLAB and for Octave fftconv_p and fftconv_ola; refuted for Julia and for Octave conv_p, which print or ignore the interrupt and return a matrix with columns missing."},
{"property": "C59", "status": "proved", "theorems": ["C59_windows"], "note": "Exact arithmetic. Witness C59_ex."},
{"property": "C60", "status": "proved", "theorems": ["C60_response"], "note": "Exact arithmetic; the FFT is modelled as the exact DFT."},
{"property": "C61", "status": "partial", "theorems": ["C61_position_partial", "C61_refuted_one_late", "C61_refuted_wraps"], "note": "Proved: never early and at most one sample late. The nearest sample and leaving out arrivals outside the record are refuted by the code: whole travel times come one sample late, arrivals outside wrap around. Witness C61_ex."},
{"property": "C62", "status": "partial", "theorems": ["C62_refuted_off", "C62_refuted_ud", "C62_refuted_empty"], "note": "Refuted by the code: 'off' returns an unwritten (Octave) or zero (MATLAB) vector, 'ud' takes the first weight as the length, an empty argument is read outside before any check."},
{"property": "C63", "status": "proved", "theorems": ["C63_history"], "note": ""},
{"property": "C64", "status": "proved", "theorems": ["C64_call", "C64_tfm", "C64_saft_partial", "C64_rca_partial"], "note": "C64_call and C64_tfm are the statement.  C64_saft_partial (SAFT: the image for twice the delay, see C24) and C64_rca_partial (square row-column arrays, see C26) carry the results of C24 and C26 to the user."},
{"property": "C65", "status": "proved", "theorems": ["C65_options"], "note": "Documented strings are accepted: C64_call."},
{"property": "C66", "status": "partial", "theorems": ["C66_scalar_delay_refuted", "C64_call"], "note": "False in Octave, for every call: the pointer to a scalar delay is into a matrix that has been freed.  Holds in MATLAB, Python and Julia (C64_call)."},
{"property": "C67", "status": "partial", "theorems": ["C67_device_ignored_refuted", "C67_gpu_refused_refuted", "C67_cpu_partial", "C67_ten_arguments_partial"], "note": "Octave/MATLAB: holds with exactly ten arguments; with eleven the device is not read.  Python/Julia: 'gpu' - and nothing else - is refused, every other string means CPU."},
{"property": "C68", "status": "proved", "theorems": ["C68_history"], "note": "Any arithmetic; sessions from the fresh state; the contents of device memory are arbitrary."},
{"property": "C69", "status": "proved", "theorems": ["C69_tfm", "C69_rca", "C69_saft_partial"], "note": "Whole calls through the gateways in exact arithmetic, both precisions.  C69_saft_partial: SAFT gives the image for twice the delay, as the statement says (see C39).  What happens outside the limits: C70."},
{"property": "C70", "status": "partial", "theorems": ["C70_delays_refuted", "C70_workgroup_refuted", "C70_2GB_refuted", "C70_empty_gr_refuted", "C70_scalar_delay_refuted"], "note": "False in each part, for every such call: only the first delay is used; a number of image points that is not a multiple of 64 returns uninitialised device memory; 2-4 GB of data (or image) give no image because the byte count is a 32 bit int; an empty receive vector makes 0/0 be converted to an integer; Octave reads a scalar delay from freed memory.  C69 is the part that holds."},
{"property": "C71", "status": "partial", "theorems": ["C71_octave_partial", "C71_two_rows_refuted", "C71_four_rows_refuted"], "note": "Holds in Octave.  MATLAB tests the number of columns twice: two rows are read out of bounds, four rows are accepted and misread."},
{"property": "C72", "status": "partial", "theorems": ["C72_safe_partial", "C72_empty_delay_refuted", "C72_geometry_refuted"], "note": "Proved for ordinary double arguments with a non-empty delay. Refuted: an empty delay is accepted and read out of bounds; in Octave a range as rect_sir geometry is read after being freed, in MATLAB a string is read as doubles."},
{"property": "C73", "status": "partial", "theorems": ["C73_call", "C73_circ", "C73_rect_partial", "C73_scirc_partial"], "note": "circ_sir full (except the 0/0 point of C47). rect_sir: falls short over the aperture (C48) and ignores v. scirc_sir: converges except intervals before time 0 for z = 0 (C49)."},
{"property": "C74", "status": "partial", "theorems": ["C74_help_order_refuted", "C74_swapped_refuted"], "note": "Refuted in general: with any number of delays but two the call is rejected; with two points and two delays it is accepted with the delays taken for [dt nt] and conversely."},
{"property": "C75", "status": "partial", "theorems": ["C75_matlab", "C75_octave_partial", "C75_rect_ignores", "C75_octave_matrix_refuted"], "note": "MATLAB: proved (error or complete matrix). Octave: prints the message and returns the matrix, every column complete or zero; refuted by a concrete interrupted call. rect_sir does not react to CTRL-C."},
{"property": "C76", "status": "proved", "theorems": ["C76_wisdom", "C76_name_refused"], "note": "FFTW's acceptance of a string is a parameter (mc_import). The inverted strcmp in is_wisdom only has the effect that the literal string \"fftw_wisdom\" is refused without asking FFTW (C76_name_refused)."},
{"property": "C77", "status": "partial", "theorems": ["C77_new_matrix_partial", "C77_row_refuted"], "note": "Proved for K >= 2 and exact transforms; for K = 1 the property is refuted (U is read out of bounds)."},
{"property": "C78", "status": "partial", "theorems": ["C78_matlab_partial", "C78_octave_refuted"], "note": "MATLAB stores (K >= 2, exact transforms); refuted for Octave, which adds."},
{"property": "C79", "status": "partial", "theorems": ["C79_matlab_partial", "C79_octave_refuted"], "note": "MATLAB proved for all calls; refuted for Octave, which prints the message and returns the partial matrix."},
{"property": "C80", "status": "proved", "theorems": ["C80_refused", "C80_wisdom"], "note": ""},
{"property": "C81", "status": "partial", "theorems": ["C81_restored_partial", "C81_analytic", "C81_rejected", "C81_refuted_kept", "C81_refuted_early_exit"], "note": "Proved for copy_p, add_p, the convolution functions, circ_sir and scirc_sir when the call is not refused half-way, and for all calls refused by the first checks. Refuted: every accepted transducer call keeps SIGINT, das and rect_sir keep SIGABRT, and conv_p/fftconv_p/fftconv_ola/sum_fftconv keep all three when refused after the handlers were replaced."},
{"property": "C82", "status": "partial", "theorems": ["C82_stops_partial", "C82_window_refuted", "C82_ignored_refuted"], "note": "Proved while the workers run, for the functions that take SIGINT. Refuted: CTRL-C between installing the handler and the start of the computation is lost; das, das_uni, rect_sir, Python fftconv_p and the Octave/MATLAB annular array ignore it, and after a transducer call nobody receives it."},
{"property": "C83", "status": "partial", "theorems": ["C83_works_partial", "C83_lost_refuted"], "note": "Refuted: after one accepted transducer call no CTRL-C reaches the host for the rest of the session. Proved for sessions of the other functions without half-way refusals."},
{"property": "C84", "status": "partial", "theorems": ["C84_new_matrix_partial", "C84_vector_refuted", "C84_block_refused", "C84_zero_refuted", "C84_in_place_refuted", "C84_sum_refuted"], "note": "Proved for a new result matrix when B is a matrix, or the block is a whole column, or no worker has two columns. Refuted: vector B with a shorter block and a worker with two columns always reads outside A; block length 0 is accepted and writes outside a scratch array; in-place \"=\" adds to the old contents; in-place \"+=\" adds the contents of uninitialised memory. Exact arithmetic, exact DFT."},
{"property": "C85", "status": "proved", "theorems": ["C85_support", "C85_plane", "C85_support_array"], "note": "Exact arithmetic (EN); rounding in IEEE doubles is not covered. End to end through C44_single."},
{"property": "C86", "status": "proved", "theorems": ["C86_nonnegative", "C86_nonnegative_array", "C86_windows"], "note": "Exact arithmetic (EN); rounding in IEEE doubles is not covered. "},
{"property": "C87", "status": "proved", "theorems": ["C87_time_integral", "C87_time_integral_array"], "note": "Exact arithmetic (EN); rounding in IEEE doubles is not covered. "},
{"property": "C88", "status": "proved", "theorems": ["C88_similarity", "C88_similarity_array"], "note": "Exact arithmetic (EN); rounding in IEEE doubles is not covered. "},
{"property": "C89", "status": "proved", "theorems": ["C89_record_length", "C89_record_length_array"], "note": "Exact arithmetic (EN); rounding in IEEE doubles is not covered. Levels ignore and warn."},
{"property": "C90", "status": "proved", "theorems": ["C90_focus"], "note": "Exact arithmetic (EN); rounding in IEEE doubles is not covered. "},
{"property": "C91", "status": "proved", "theorems": ["C91_rayleigh_integral"], "note": "Exact arithmetic (EN); rounding in IEEE doubles is not covered. RInt is Coquelicot's Riemann integral (no axioms beyond Coq's Reals)."},
{"property": "C92", "status": "proved", "theorems": ["C92_element_order"], "note": "Exact arithmetic (EN); rounding in IEEE doubles is not covered. "},
{"property": "C93", "status": "proved", "theorems": ["C93_translation"], "note": "Exact arithmetic (EN); rounding in IEEE doubles is not covered. "},
{"property": "C94", "status": "proved", "theorems": ["C94_weights_linear"], "note": "Exact arithmetic (EN); rounding in IEEE doubles is not covered. "},
{"property": "C95", "status": "proved", "theorems": ["C95_focus", "C95_virtual_source"], "note": "Exact arithmetic; tan modelled as sin/cos."},
{"property": "C96", "status": "partial", "theorems": ["C96_formula_partial", "C96_refuted_sea", "C96_refuted_fresh"], "note": "The property is false of the code: three terms are misprinted (0.161674495909-8 for 0.161674495909e-8, S^3 for S^2, T P^3 for T P^2); C96_formula_partial gives the exact deviation for all arguments. FINDING: sea water of 35 ppt has a negative sound speed."},
{"property": "C97", "status": "proved", "theorems": ["C97_units", "C97_unknown", "C97_defaults"], "note": "Exact arithmetic."},
{"property": "C98", "status": "proved", "theorems": ["C98_conv_p_accuracy", "C98_in_place_accuracy"], "note": "IEEE binary64 arithmetic (the kernel's primitive floats, through Flocq's proofs about them), for every implementation of the transcendental functions. Octave 1 x 1 results are excluded (C55_scalar_refuted)."},
{"property": "C99", "status": "proved", "theorems": ["C99_flat_accuracy"], "note": "IEEE binary64 arithmetic (the kernel's primitive floats, through Flocq's proofs about them). The source points are the doubles the loops visit (double_points)."},
{"property": "C100", "status": "partial", "theorems": ["C100_das_partial", "C100_das_single", "C100_das_uni_partial", "C100_analytic_partial"], "note": "Missing: an empty delay is accepted by all of them (C72_empty_delay_refuted, C34_empty_delay_refuted); the class of the data matrix, of dt and of cp is not checked by das and that of the data not by das_uni; MATLAB das_uni does not check the rows of the image grid (C71); Python and Julia das do not look at the receive grid of SAFT; MATLAB rect_sir ignores its sixth argument; the shape checks after the class check of a single precision das call are not modelled."},
{"property": "C101", "status": "proved", "theorems": ["C101_inside", "C101_fresh_start", "C101_stop_level"], "note": "das_uni has no flag. Signal handling is modelled as in C81-C83."},
{"property": "C102", "status": "proved", "theorems": ["C102_exact_accuracy"], "note": "Error levels 'ignore' and 'warn', no attenuation. sqrt and the four operations are the IEEE 754 ones (PrimFloat); no libm function is called by these two."},
{"property": "C103", "status": "proved", "theorems": ["C103_sound_speed", "C103_sound_speed_array"], "note": "Exact arithmetic, no attenuation; the annular array is not included."},
{"property": "C104", "status": "proved", "theorems": ["C104_focal_point", "C104_xy", "C104_arr_focus_delays"], "note": "Exact arithmetic, no attenuation."},
{"property": "C105", "status": "partial", "theorems": ["C105_tfm", "C105_tfm_call", "C105_saft_partial", "C105_rca_partial", "C105_instant_refuted"], "note": "TFM complete. SAFT: for twice the delay (the code counts it twice, C24). RCA: as many rows as columns, in increasing order (C26 is false otherwise). Travel times that fall on a sampling instant are excluded and must be: C105_instant_refuted (51 mm in steel at 6000 m/s, 1 us sampling: the echo due at sample 17 is read at sample 16). CPU only; only IEEE operations and sqrt are used, no libm function."},
{"property": "C106", "status": "proved", "theorems": ["C106_calls", "C106_race_free", "C106_safe", "C106_columns", "C106_prefix", "C106_das", "C106_conv", "C106_fftconv", "C106_analytic", "C106_sum_fftconv", "C106_ola"], "note": "The fine-grained machine of ModelFine (one load or store per step) refines the column-granular machine of ModelSmp. conv_p and fftconv_p with the result separate from the inputs (C57 treats the aliased case); fftconv_ola as the code is, with its advancing input pointer (C31). copy_p and add_p remain at column granularity. Sequentially consistent memory: with no conflicting accesses C++ guarantees it."},
{"property": "C107", "status": "proved", "theorems": ["C107_progress", "C107_completes", "C107_abort"], "note": "The hypothesis that every column can be computed alone is met by all well formed calls of C12_terminates / C41_completes; C107_ex gives an instance."},
{"property": "C108", "status": "proved", "theorems": ["C108_field", "C108_convergence"], "note": "Exact arithmetic (NumR); the arrivals must lie inside the record and the point off the plane."},
{"property": "C109", "status": "proved", "theorems": ["C109_signal"], "note": "Composition of C108 with C55; in Octave the case of a 1 x 1 result is excluded (C55_scalar_refuted)."},
{"property": "C110", "status": "proved", "theorems": ["C110_cylinder", "C110_line", "C110_cylinder_convergence"], "note": "Exact arithmetic (NumR); the arrivals must lie inside the record."},
{"property": "C111", "status": "partial", "theorems": ["C111_sphere_disc_partial", "C111_projected_partial", "C111_projected_convergence_partial", "C111_bowl_integral_refuted", "C111_signal_partial"], "note": "Refuted by the code: dreamsphere weights every source with dx*dy, the area of its projection on the plane of the rim, not with the area of the bowl. What it does compute is proved: at every point off the sphere, concave or convex, the response converges (explicit error bound) to the integral of the spherical waves of the bowl weighted with the projected area (C111_projected_partial, C111_projected_convergence_partial; r < |Rc|). At the centre of curvature it integrates to the value for the flat disc (C111_sphere_disc_partial: pi r^2 in place of the area of the cap); for a hemisphere that is at most 7/10 (in the limit 1/2) of the Rayleigh integral however fine the grid. C111_signal_partial: the same for signals (C109)."},
{"property": "C112", "status": "proved", "theorems": ["C112_field", "C112_convergence", "C112_signal"], "note": "Exact arithmetic (NumR); the arrivals must lie inside the record; the signal theorem has the conditions of C55/C109 (exact FFT for fftconv_p, not a 1 x 1 result in Octave)."},
{"property": "C113", "status": "proved", "theorems": ["C113_field", "C113_convergence"], "note": "Exact arithmetic (NumR). The rings come one sample late (C22_late_refuted); that lateness is part of the error bound and vanishes with the sampling period. The record must have two samples to spare; no ring may fire early (annular_ok)."},
{"property": "C114", "status": "partial", "theorems": ["C114_one_disc_partial", "C114_ring_refuted"], "note": "Refuted by the code: a ring is the response of the outer disc minus that of the inner disc, sampled on two grids that do not coincide, so single samples are negative (exact arithmetic, all weights 1). Holds for arrays that are one disc."},
{"property": "C115", "status": "proved", "theorems": ["C115_single", "C115_array", "C115_single_stop", "C115_array_stop", "C115_annular_partial"], "note": "Exact arithmetic, exact inverse FFT; levels ignore/warn, and 'stop' when every arrival lies in the record (otherwise the call ends in an error: C43_any_medium). Coefficients of at most 2^-52 dB/(cm MHz) are treated as 0 by the code (C44). Annular arrays: C115_annular_partial, partial only because the response is one sample late (C22)."},
{"property": "C116", "status": "proved", "theorems": ["C116_damping", "C116_damping_array", "C116_point"], "note": "Exact arithmetic, exact inverse FFT; source strengths in absolute value. Bins 0 to below L/2 (the upper half is the conjugate)."},
{"property": "C117", "status": "proved", "theorems": ["C117_time_integral", "C117_time_integral_array"], "note": "Exact arithmetic, exact inverse FFT."},
{"property": "C118", "status": "partial", "theorems": ["C118_before_arrival_refuted"], "note": "Refuted by the code: the response is a circular inverse transform of the record length, so what is spread by the absorption wraps around. If what is left of the lowest frequency over the shortest way is below 1/(L-1) (for two samples: any absorption), every sample of the record is positive wherever the arrivals are."},
{"property": "C119", "status": "proved", "theorems": ["C119_mirror_single", "C119_mirrored_array", "C119_symmetric_array"], "note": "Exact arithmetic, levels ignore/warn. Discs only in y (in x their grid is not symmetric, C15_disc_x_refuted)."},
{"property": "C120", "status": "proved", "theorems": ["C120_axes_single", "C120_axes_array"], "note": "Exact arithmetic, levels ignore/warn."},
{"property": "C121", "status": "partial", "theorems": ["C121_shift_single_partial", "C121_shift_array_partial", "C121_odd_refuted"], "note": "Proved for even shifts and whenever no wave arrives exactly half way between two samples; false otherwise because std::rint rounds halves to even (C121_odd_refuted)."},
{"property": "C122", "status": "proved", "theorems": ["C122_turn_single", "C122_turn_array"], "note": "Exact arithmetic, exact inverse FFT, levels ignore/warn."},
{"property": "C123", "status": "proved", "theorems": ["C123_energy_single", "C123_energy_array", "C123_unit_energy", "C123_point"], "note": "Exact arithmetic, exact inverse FFT, levels ignore/warn."},
{"property": "C124", "status": "proved", "theorems": ["C124_mirror_single", "C124_axes_single", "C124_mirrored_array", "C124_axes_array", "C124_element_order", "C124_translation", "C124_weights_linear"], "note": "Exact arithmetic, exact inverse FFT, levels ignore/warn."},
{"property": "C125", "status": "proved", "theorems": ["C125_similarity_single", "C125_similarity_array"], "note": "Exact arithmetic, exact inverse FFT, levels ignore/warn."},
{"property": "C126", "status": "proved", "theorems": ["C126_weak_absorption_single", "C126_weak_absorption_array"], "note": "Exact arithmetic, exact inverse FFT, levels ignore/warn. The lossless call may use any inverse FFT."},
{"property": "C127", "status": "proved", "theorems": ["C127_array_accuracy"], "note": "Levels ignore/warn; lossless; the source points of an element are the doubles its loops visit (compared with the exact midpoints in C102 for dreamrect)."},
{"property": "C128", "status": "partial", "theorems": ["C128_lifetimes", "C128_returned", "C128_returns", "C128_call_leaks_refuted", "C128_session_leaks_refuted"], "note": "Proved: lifetimes, one start and one join per thread, no hang, thread data and work buffers given back. Refuted for the rest: the array of thread handles (new std::thread[nthreads]) is never deleted by any function, the two FFTW plans of an FFT object are never destroyed (~FFT() = default) and an Attenuation with its FFT object is built by every SIR call even with alpha = 0, and sum_fftconv returns before free(H) after CTRL-C; the leak grows by one call's worth with every call."},
{"property": "C129", "status": "partial", "theorems": ["C129_conv_p", "C129_fftconv_p", "C129_ola_matrix_partial", "C129_ola_vector_partial", "C129_sum_fftconv_partial", "C129_copy_p", "C129_analytic", "C129_das"], "note": "conv_p, copy_p/add_p (col_idx=[1 A_N]; any other col_idx is refused or goes outside the arrays, C53), das and the analytic functions in any arithmetic; fftconv_p, fftconv_ola and sum_fftconv with the exact transform. Partial because fftconv_ola is right only in the cases of C31 (a vector B with AN >= 2 and a short block reads outside A), and sum_fftconv returns the values of C32, the sum divided once too often by the transform length."},
{"property": "C130", "status": "partial", "theorems": ["C130_calls", "C130_columns", "C130_completes", "C130_das", "C130_analytic", "C130_conv_p", "C130_fftconv_p", "C130_ola_matrix_partial", "C130_ola_vector_partial", "C130_sum_fftconv_partial", "C130_copy_p"], "note": "Every theorem covers all schedules, all store orders (stores to one element keep theirs) and all delays of the flag. Loads executed ahead of program order are not in the model. Partial as C129 is: fftconv_ola in the cases of C31, sum_fftconv returns the values of C32."},
{"property": "C131", "status": "proved", "theorems": ["C131_sound_speed_single", "C131_sound_speed_array"], "note": "Exact arithmetic, exact inverse FFT, levels ignore/warn; annular arrays not included."},
{"property": "C132", "status": "proved", "theorems": ["C132_signal_single", "C132_signal_array", "C132_energy_single", "C132_energy_array"], "note": "Exact arithmetic, exact FFTs, levels ignore/warn; annular arrays not included; the second call returns a new matrix (not in place) and in Octave is not 1 x 1 (C55)."},
{"property": "C133", "status": "partial", "theorems": ["C133_tfm", "C133_rca", "C133_points", "C133_saft_partial"], "note": "TFM and row-column images complete; SAFT with the delay counted twice (as C39 finds; the claim holds there for delay 0). Elements and image points are the doubles the kernel computes: C133_points bounds their distance from the exact ones, and shows that their number is right, for grids of at most 2^30 points whose (hi - lo) / pitch is 0 or not within rounding of an integer (elsewhere the count can be one off: C38_beyond_refuted, C38_missing_refuted). Echoes exactly on a sampling instant are excluded (C105_instant_refuted). The kernel's native_sqrt is taken to be the correctly rounded square root; multiply-add is not contracted."},
{"property": "C134", "status": "partial", "theorems": ["C134_tfm", "C134_saft_partial", "C134_rca_partial"], "note": "TFM complete; SAFT with the delay counted twice (as C39 finds); row-column arrays with equal numbers of rows and columns in increasing order (as C26 finds on the CPU). One delay and a number of image points that is a multiple of 64 only: other calls go wrong (C40). The kernels' native_sqrt is taken to be the correctly rounded square root, which the OpenCL standard does not promise; multiply-add is not contracted."}
]}
