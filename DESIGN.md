# DREAM: formal model and proofs in Coq

Subject: frli8848/DREAM, pinned in /repo (C++).  All proofs live in
`rocq/theories`, logical name `Verif`, Coq 8.16.1.

## 1. Approach

* The C++ functions are written down one by one as Gallina functions
  (`Model*.v`), each with a comment citing file and lines.
* The code computes with `double`.  The model is parametric in a record `Num`
  of the operations the code uses.  Three kinds of statements follow:
  * **any `Num`**: proved without assuming anything about arithmetic (memory
    safety, locality, schedules, error handling, superposition as a fold, ...).
    They hold for IEEE doubles, for any libm, and for NaN inputs.
  * **`EN` (reals with an undefined value)**: "exact arithmetic" statements, round-half-even for
    `std::rint`, truncation for casts.
  * **`FN` (kernel binary64 floats)**: rounding-error theorems (C38, C98, C99,
    C102, C105, C127, C133, C134), and concrete witnesses (refutations) where the IEEE
    behaviour (NaN, absorption) matters; the libm functions are universally
    quantified.
* Undefined behaviour is an outcome (`UB`): every array access is checked, and
  floating point to integer conversions that do not fit are `UB UB_cast`.
* `while` loops carry a budget; exhausting it is the outcome `Diverge`, never
  a normal-looking value.  Termination theorems give a sufficient budget;
  non-termination theorems show `Diverge` for every budget.
* Threads: a small-step machine over a list of worker states, a shared output
  matrix and the shared `running` flag; a schedule is an arbitrary list of
  events (worker i steps | CTRL-C).  The computation of one observation point
  is one atomic step.  C106 proves that this loses nothing for the transducer
  functions, das, the analytic functions and the convolutions: ModelFine executes them one load or
  store at a time, and every such execution has the outcome of one of this
  machine's.
* A property false of the faithful model is proved `..._refuted` with a
  witness; a property of which only a part holds or is proved is named
  `..._partial`.

## 2. Files

`Model*.v` = the code, `Spec*.v` = the small independent vocabulary used in the
statements, `Proofs*.v` (and `BaseLemmas.v`) = lemmas, `Prop*.v` = the property
theorems with `Print Assumptions` and the non-vacuity examples.

| model file | code in /repo |
|---|---|
| `Base.v` | outcomes (`Ok`, `UB`, `Diverge`), the record `Num`, checked buffers, loops |
| `NumR.v`, `NumF.v` | the number systems: exact reals with undefined (`EN`), binary64 (`FN`, `FI`) |
| `ModelSir.v` | `src/dreamline,dreamrect,dreamrect_f,dreamcirc,dreamcirc_f,dreamsphere,dreamcylind.cc`, `src/attenuation.cc`, `include/attenuation.h`, error codes of `include/dream.h` |
| `ModelArr.v` | `src/arr_functions.cc`, `src/dream_arr_rect,_circ,_cylind,_annu.cc`, `serial` = one observation point of any of the eleven functions |
| `ModelSmp.v` | the threaded drivers of the same files: worker count, work split, flag, join, status |
| `ModelConv.v` | `extra_src/conv.cc`, `fftconv.cc`, `fftconv_p.cc`, the worker loops of `*_conv_p`, `*_fftconv_p`, `*_fftconv_ola`, `*_sum_fftconv` |
| `ModelDas.v` | `extra_src/das.cc`, `include/das.h`, `opencl/das*.cl`, `include/das_uni.h` and `opencl/das_uni*.cl` |
| `ModelAna.v` | `extra_src/circ_sir.cc`, `scirc_sir.cc`, `rect_sir.cc` |
| `ModelGpu.v` | `opencl/dreamrect.cl`, `dreamcirc.cl`, `rect_sir.cl` and the host code that launches them |
| `ModelGw.v` | argument parsing and calls of the eleven transducer functions in `oct/`, `mex/`, `python/src`, `julia/src` with `include/arg_parser*.h` |
| `ModelCgw.v` | gateways of conv_p, fftconv_p, fftconv_ola, copy_p, add_p (Octave, MATLAB, Julia, Python) |
| `ModelSgw.v` | gateways of sum_fftconv |
| `ModelDgw.v`, `ModelUgw.v` | gateways of das (four front ends) and das_uni (Octave, MATLAB), with the objects kept between calls |
| `ModelAgw.v` | gateways of circ_sir, scirc_sir, rect_sir |
| `ModelTools.v` | `oct_/mex_dream_apodwin.cc`, `oct_/mex_dream_att.cc` |
| `ModelSig.v` | signal handlers of all gateways, sessions |

Spec and theorem files carry the suffix of the model they are about
(`SpecRayleigh`, `SpecDft`, `SpecAtt`, `SpecAnnu`, `SpecSmp` belong to
`ModelSir`/`ModelArr`/`ModelSmp`).

## 3. Properties: what is modelled and how it is proved

| id | how |
|---|---|
| C01 | integer arithmetic on the work split; partition theorem for all No, n |
| C02 | decision logic of the worker count |
| C03 | every serial function, any `Num`: a frame lemma (`good`/`local`) by induction over loops |
| C04 | invariant over arbitrary schedules of the worker machine |
| C05-C07 | the sequence of source points visited is extracted as a list (enumeration lemma, any `Num`); the result is a fold over that list |
| C08 | invariant on per-worker error + join; refuted for a single worker |
| C09 | refuted for dreamsphere (join keeps only `out_of_bounds`) |
| C10 | refuted for arrays (element status overwritten by the next element) |
| C11 | real instance: loop = explicit double grid, sample = filtered sum |
| C12, C13 | explicit budget for positive steps (exact arithmetic), and for IEEE doubles when the half extents are finite and at most 2^52 steps (the grid coordinate is then rounded at most once per step and grows); `Diverge` for every budget for zero / negative / absorbed steps |
| C14-C16 | real instance: relational induction on the enumerated points |
| C17, C18 | fold over elements; one-element instance |
| C19-C21 | real analysis on focusing / steering / apodization |
| C22 | annular array superposition, one-sample offset and negative delays; over the reals against an independent description of rings, weights and focusing (SpecAnnuR), end to end through the gateway in C44_annular_partial |
| C23 | attenuation filter, DFT orthogonality |
| C24-C27 | DAS kernels vs a direct sum specification |
| C28-C32 | convolution kernels vs the Cauchy product; DFT convolution theorem; column/thread split; overlap-add |
| C33-C35 | argument parser decision logic |
| C36 | abort invariants over schedules |
| C37, C38 | plan reuse test; uniform grid counts (exact; in doubles with error bounds, PropUniF) |
| C39 | das_uni kernels vs the direct sum on the uniform grid |
| C40, C45, C50 | GPU and CPU jobs are compared in exact arithmetic; a job whose point count is not a multiple of 64 leaves device memory untouched |
| C41-C43 | gateway parser: documented calls reach the computation with the documented values; every outcome of a call is characterised |
| C44 | composition: parser, threads, exact responses, matrix returned to the user |
| C46, C51 | the worker machine instantiated with the analytic functions |
| C47-C49 | plane geometry: arc measure of a circle inside a disk / rectangle (arc length as a Riemann integral over angles), trapezoidal limit for the sampled disk |
| C52, C53 | block copy loop vs the block of the help text |
| C54-C58, C76 | convolution gateways: mode and wisdom parsing, in-place, aliasing, CTRL-C; results through C28-C31 |
| C59-C62 | dream_apodwin and dream_att against the array weights and the attenuation response |
| C63-C67 | das gateway: sessions (histories of calls), parsed jobs, strings, device |
| C68-C71 | das_uni gateway |
| C72-C75 | analytic gateways |
| C77-C80 | sum_fftconv gateway |
| C81-C83 | gateways as step lists with signals delivered at any point; sessions |
| C84 | complete calls of fftconv_ola: gateway unfolding, C31's column theorem for the worker that owns the column, bad-column theorem for the refutations |
| C85, C86, C89, C90 | consequences of C44 (returned matrix = discretised Rayleigh integral): the source points lie on the surface given in SpecPhys (plane, sphere, cylinder), hence travel-time bounds, signs and focusing |
| C87 | exchange of the sums over samples and source points |
| C88 | the source points of the scaled transducer are the scaled source points; definedness carries over |
| C91 | midpoint rule for Lipschitz functions of two variables (Coquelicot's RInt), 1/r is 1/z^2-Lipschitz |
| C92, C93, C94 | rearranging the sum over the elements in the superposition of C44_array |
| C95 | unfolding the script in exact arithmetic; the running maximum is an upper bound that is attained |
| C96 | polynomial identity with the formula of the cited paper; refuted by the misprinted terms |
| C97 | case analysis over the unit strings |
| C98 | standard model of rounding for binary64 (Flocq), induction over the accumulated terms, composed with the column theorem of C30 and the gateway |
| C99 | relative-error calculus for products, quotients and square roots (Flocq), pi enclosed by Machin's formula, half-sample margin for the rounding of the arrival time, invariant over the accumulated points, composed with the column theorem of the gateway |
| C100 | inversion of the parsers: every accepted call passed every check, stated as shapes of the argument list |
| C101 | the state inside a call as a function of the events so far; case analysis of the gateway scripts; induction over the events for the out-of-bounds stop |
| C102 | induction over the steps of the aperture loop in doubles: every rounded point stays within its share of the drift, and the loop ends at the same step because the side ends a quarter step away from a grid point; then C99 plus a perturbation bound for distance, arrival and strength |
| C103 | the specification of both calls (C44) and a change of variables in travel time, focusing delay and strength |
| C104 | triangle inequality around the element centre and the support theorem for arrays; C95 for the delays of arr_focus_delays |
| C105 | every travel time within 16 u of exact (ProofsRoundDas), so the truncated index is the exact one; a step-by-step simulation between the threaded run in doubles and the one in exact numbers (ProofsRoundDas2), the sum with the accumulated error (1+u)^m-1; then C24 / C26 / C64 for the exact run; the refutation by computation in PrimFloat |
| C106 | workers as programs (free monad of loads and stores) run by an interleaving machine; executing a program without interruption equals the serial function of ModelArr / ModelDas / ModelConv (x_point ...), its accesses stay inside the column (in_point ...); a simulation relation that delays every column's effect to its last access; conflict freedom from the disjoint columns |
| C107 | a rank of each worker (accesses left in its program on its own columns) that its own steps decrease and the others' steps do not change; abort by induction over the schedule |
| C108 | region rule: Riemann sums over a region given by a half-width that is only continuous (disc), bounded Lipschitz integrand, grid reaching the edge up to half a step; rounding of arrival times costs slope x dt/2 |
| C109 | the Cauchy product of the samples is the sum of C108 for the reversed pulse; composes the two gateway models; cylinders, lines, annular arrays and (C111) bowls by PropSignal from C110, C113, C111 and the same composition |
| C110 | the same rule for a patch parametrised by a rectangle (x, angle): distances are Lipschitz by the triangle inequality and chord <= arc; asin(dy/R) <= 2 dy/R |
| C111 | refuted: at the centre every source has the same distance, so the sum is the number of grid points; area of the disc by substitution y = r sin t; cap area by Archimedes |
| C112 | the samples of an array are the weighted sum of element responses started earlier by their delays (C44); sums exchanged, the signal shifted by the delay, then C108/C110 per element; finitely many elements, so a common step size exists |
| C113 | the samples are the discs moved by whole samples (C44_annular_partial); every source moved by the rounded delay plus one sample, total strength of a disc bounded by its number of grid points, then C108 per disc |
| C114 | refuted by a ring whose inner disc has one source that arrives alone; one disc: sum of nonnegative strengths |
| C115 | the attenuation object enters the kernels only through emit (serial_ext), C23 per point, C41 for the call. Level 'stop': PropAttStop. dream_arr_annu: C22_annular_partial with the attenuation object (PropAttAnnu). |
| C116 | DFT of the inverse DFT (orthogonality of sines and cosines), triangle inequality in the plane for the sum over sources and elements |
| C117 | bin 0 of the spectrum, which the code sets to 1 for every distance |
| C118 | refuted: lower bound 1 - (L-1) exp(-alpha f_1 r) for L times each sample of one absorbed pulse |
| C119 | permutation of the source points under the mirror image (C15), positions, windows and focusing depend on squares, steering changes by a constant |
| C120 | the grid of a rectangle is a product: permutation of rows and columns |
| C121 | rint commutes with even shifts, and with all shifts away from ties |
| C122 | the arrival only enters the phases: a shift of the arrival is a turn of the inverse DFT (2 pi periodicity, the Nyquist bin with cos (pi n)) |
| C123 | Parseval for the half spectrum, triangle inequality in every bin, damping decreases with the distance |
| C124 | C115 reduces both calls to sums over the same sources (ProofsSym bijections) |
| C125 | distance and sampling period enter the damping and phases only as r/dt |
| C126 | per frequency 1 - exp(-x) <= x and cos is 1-Lipschitz, summed over the half spectrum |
| C127 | relative error bounds through subtraction of element positions (exact product bounds with the distance dominating the coordinates), invariant carried over the elements, ProofsRel |
| C128 | small-step interleaving of the caller and the workers over a log of takings, uses and releases; invariant by induction on the schedule, decreasing measure for termination; refuted in part |
| C129 | programs of single loads and stores per column (ModelFine, ModelFine2, ModelFine3), run by the access-at-a-time machine; fine_completes/fine_done reduce to the per-column theorems C30-C33, C46, das_call_columns |
| C130 | per-worker lists of pending stores and late flag reads (ModelWeak); forward simulation by the access-at-a-time machine, which holds back the workers that have passed the cleared flag; then C106, C107, C129 |
| C131 | the attenuated pulse is unchanged when sampling period and coefficient are divided by s (PropAttSpeed); sources, arrivals and strengths as in C103; C115 gives both matrices |
| C132 | C115 gives the matrix, C55 its convolution; convolution is linear in the pulses (PropAttSig); sums from bin 0 of the DFT, energies from Young's inequality and C123 |
| C133 | relative error of each travel time (ProofsRoundDas), truncation is the same because the time is clear of the instants, error of the sum by induction over both loops (ProofsUniF2); count and points from C38_double_partial |
| C134 | the kernel's index arithmetic is the CPU's (ProofsClF), then the error argument of C105 for each work item (C40's loop over the groups of 64) |

## 4. Trusted base

* The Coq 8.16.1 kernel, including its virtual machine (`vm_compute` is used in
  examples and in refutations with concrete numbers) and its primitive 63-bit
  integers and binary64 floats.
* Coq's standard library, with these axioms (see section 6 for which theorem
  uses what): `ClassicalDedekindReals.sig_forall_dec`,
  `ClassicalDedekindReals.sig_not_dec`,
  `FunctionalExtensionality.functional_extensionality_dep`,
  `Classical_Prop.classic` (through the Reals library; Coquelicot, used in
  `ProofsArc*`, `ProofsTrap` and `ProofsScirc` for Riemann integrals, adds no
  axioms of its own), and the primitive types and operations `PrimFloat.*`,
  `PrimInt63.*`.  `C12_doubles` alone also uses the library's `FloatAxioms.*`
  (what the primitive operations compute, as IEEE 754 binary64); Flocq, used
  there, adds no axioms of its own.
* The reading of the C++ text: no code is extracted, compiled or run.  Every
  definition cites the lines it was read from.

No axioms, functors, module types or admitted proofs are added.

## 5. What is modelled, what is not

Modelled: the files of the table in section 2, function by function, with all
branches that a caller can reach, unless listed here.

Not modelled, or modelled by an abstraction:

* **Floating point**: theorems are stated either for every `Num` (no law of
  arithmetic is used) or for exact reals, or (C12_doubles, C98, C99, C102, C105) for IEEE
  binary64.  Rounding error bounds are proved for conv_p (C98), the flat
  single element transducers (C99, C102), das (C105) and the unfocused
  rectangular and circular element arrays (C127) only.
  Where IEEE behaviour decides a property (grids, NaN) a binary64 witness is
  given.  `FI` uses placeholder definitions of the transcendental functions
  that the witnesses do not depend on.
* **The FFT library** (FFTW, MATLAB's fft, `include/fft.h`,
  `include/fft_matlab_no_fftw.h`): a transform is a parameter; the theorems
  that need it assume it is the exact DFT (`exact_fft`), and that is the only
  thing assumed.  FFTW's verdict on a wisdom string is a parameter.
* **Threads**: interleavings of single loads and stores for the transducer
  functions, das, the analytic functions and all convolution and copy
  functions (ModelFine, ModelFine2, ModelFine3; C106, C107, C129), and the same
  with stores that reach the memory late and out of order and a stop flag that
  is read late (ModelWeak, C130).  copy_p and add_p with col_idx other than
  [1 A_N], and in-place conv_p (C57), at the granularity of one matrix column.
  Loads executed ahead of program order are not modelled.  The flag is atomic
  in the transducer functions, das and rect_sir (`std::atomic<bool>`), a
  `volatile int` (convolutions, copy) or plain `int` (circ_sir, scirc_sir)
  elsewhere: that accessing those from several threads is undefined in C++ is
  not modelled, only that the cleared flag may be seen late.
  `src/affinity.cc` (CPU pinning) is not modelled.
* **OpenCL**: host set-up is reduced to "launch of ceil-free n/64 work groups";
  device memory starts with arbitrary contents; the runtime never fails.
* **Host programs**: matrices are (storage class, rows, columns, doubles).
  Octave's scalars and ranges are temporaries whose data is freed when the
  gateway's copy dies (`Temp`), which is how octave_value behaves; a read or
  write through such a pointer is `UB`.  MATLAB's `mexErrMsgTxt` does not
  return.  Sparse, complex, integer and N-d arrays (N > 3) are `COther`-like
  values where the code distinguishes them and absent otherwise.
* **Allocation failure**: only in the conv gateways (outcome `CNoMemory`).
* **Integer overflow** of the index type: sizes are unbounded `Z`; overflow is
  modelled only where the code multiplies into `cl_int` (das_uni, C70).
  Floating point to integer conversions that do not fit an int are `UB_cast`.
* `m_files/plot_array.m` (drawing), `tests/`, build files: not modelled.
* The single-precision instance of das is covered by the same parametric
  functions (`Num`), its gateway path by C37_float_refuted.

Findings about the code that the refutation theorems establish are listed in
the notes of MANIFEST.json; the `_refuted` theorem names say which property
each one contradicts.

## 6. Print Assumptions

Output of `Print Assumptions` for every theorem listed in MANIFEST.json
(generated; the same output appears during the build).

Abbreviations: `classic` is Classical_Prop.classic, `sig_forall_dec` and `sig_not_dec` are in
ClassicalDedekindReals, `functional_extensionality_dep` in FunctionalExtensionality; "primitive
floats and integers" are PrimFloat.* and PrimInt63.* types and operations, and "FloatAxioms" the standard
library's FloatAxioms.* (their IEEE 754 meaning) together with its Uint63.* specifications of the integer
operations, used only by the theorems of the group that names them.

**Closed under the global context (no axioms)** (153):
`C01_partition`, `C02_worker_count`, `C03_frame`, `C03_reads`, `C03_call_safe`, `C04_columns`, `C04_schedule_independent`, `C04_not_stopped`, `C04_completes`, `C05_ignore_warn`, `C05_attenuated`, `C06_stop`, `C06_stop_any_medium`, `C07_code`, `C07_code_any`, `C08_status_partial`, `C08_stopped_partial`, `C08_single_worker`, `C13_rect_stuck_refuted`, `C18_one_element`, `C22_annular_partial`, `C22_hann_refuted`, `C23_work_buffer`, `C23_adds`, `C27_safe_partial`, `C28_conv_sum`, `C30_conv_p`, `C30_refuted_unchecked`, `C31_refuted_vector`, `C31_refuted_block0`, `C32_refuted_row_U`, `C33_accepted_options_partial`, `C33_unknown_rejected`, `C33_matlab_level_ignored_refuted`, `C34_gateway_safe_partial`, `C35_julia_odd`, `C35_octave_vector_partial`, `C36_prefix`, `C36_abort_prompt`, `C37_cpu`, `C37_float_refuted`, `C37_uni_partial`, `C37_uni_saft_refuted`, `C40_gpu_cpu_partial`, `C40_workgroup_refuted`, `C40_delays_refuted`, `C41_accepted_shapes_partial`, `C41_documented`, `C41_completes`, `C42_window_parameter_partial`, `C42_python_julia_ignored_refuted`, `C43_stop_partial`, `C43_any_workers`, `C43_any_medium`, `C45_gpu_cpu_partial`, `C45_completes`, `C45_workgroup_refuted`, `C45_ignored_refuted`, `C46_completes`, `C46_schedule_independent`, `C46_not_stopped`, `C46_interrupted`, `C46_workers`, `C48_v_refuted`, `C50_workgroup_refuted`, `C50_delays_refuted`, `C46_scirc_env_refuted`, `C54_unknown_rejected`, `C54_refuted_not_a_string`, `C54_refuted_mode_ignored`, `C55_scalar_refuted`, `C55_sizes`, `C56_conv_p_partial`, `C56_refuted_fftconv_empty`, `C58_error_partial`, `C62_refuted_off`, `C62_refuted_empty`, `C63_history`, `C64_call`, `C65_options`, `C66_scalar_delay_refuted`, `C67_device_ignored_refuted`, `C67_gpu_refused_refuted`, `C67_cpu_partial`, `C67_ten_arguments_partial`, `C68_history`, `C70_delays_refuted`, `C70_workgroup_refuted`, `C70_2GB_refuted`, `C70_scalar_delay_refuted`, `C71_octave_partial`, `C71_two_rows_refuted`, `C71_four_rows_refuted`, `C72_safe_partial`, `C73_call`, `C74_help_order_refuted`, `C74_swapped_refuted`, `C75_matlab`, `C75_octave_partial`, `C75_rect_ignores`, `C76_wisdom`, `C76_name_refused`, `C77_row_refuted`, `C79_matlab_partial`, `C80_refused`, `C80_wisdom`, `C81_restored_partial`, `C81_analytic`, `C81_rejected`, `C81_refuted_kept`, `C81_refuted_early_exit`, `C82_stops_partial`, `C82_window_refuted`, `C82_ignored_refuted`, `C83_works_partial`, `C83_lost_refuted`, `C100_das_partial`, `C100_das_single`, `C100_das_uni_partial`, `C100_analytic_partial`, `C101_inside`, `C101_fresh_start`, `C101_stop_level`, `C106_calls`, `C106_race_free`, `C106_safe`, `C106_columns`, `C106_prefix`, `C106_das`, `C106_conv`, `C106_fftconv`, `C106_analytic`, `C106_sum_fftconv`, `C106_ola`, `C107_progress`, `C107_completes`, `C107_abort`, `C128_lifetimes`, `C128_returned`, `C128_returns`, `C128_call_leaks_refuted`, `C128_session_leaks_refuted`, `C129_conv_p`, `C129_copy_p`, `C129_analytic`, `C129_das`, `C130_calls`, `C130_columns`, `C130_completes`, `C130_das`, `C130_analytic`, `C130_conv_p`, `C130_copy_p`.

**primitive floats and integers** (29):
`C08_single_worker_refuted`, `C09_sphere_refuted`, `C10_array_refuted`, `C12_tiny_step_refuted`, `C21_nan_refuted`, `C22_late_refuted`, `C22_negative_delay_refuted`, `C26_oob_refuted`, `C27_scans_refuted`, `C33_matlab_nul_refuted`, `C33_annular_strings_refuted`, `C34_empty_delay_refuted`, `C34_empty_array_refuted`, `C34_octave_scalar_ud_refuted`, `C34_octave_range_refuted`, `C34_matlab_string_refuted`, `C34_python_one_dimensional_refuted`, `C35_even_accepted_refuted`, `C35_python_row_refuted`, `C38_beyond_refuted`, `C38_missing_refuted`, `C39_saft_cast_refuted`, `C41_matlab_weights_refuted`, `C43_one_worker_refuted`, `C45_delays_refuted`, `C45_stop_refuted`, `C72_empty_delay_refuted`, `C72_geometry_refuted`, `C75_octave_matrix_refuted`.

**sig_forall_dec + sig_not_dec + classic + functional_extensionality_dep** (208):
`C10_last_element_partial`, `C11_rayleigh`, `C11_rayleigh_stop`, `C11_rect`, `C12_terminates`, `C12_rect_points`, `C13_rect_negative_refuted`, `C14_linear`, `C15_mirror_x`, `C15_mirror_y`, `C15_partial_step_refuted`, `C15_disc_x_refuted`, `C16_shift_partial`, `C16_odd_refuted`, `C17_superposition`, `C17_superposition_stop`, `C17_delays`, `C19_focusing`, `C19_symmetric`, `C19_xplusy_refuted`, `C20_steering_partial`, `C20_negative_angle_refuted`, `C21_apodization`, `C21_on_axis_refuted`, `C22_exact_partial`, `C22_one_disc_partial`, `C23_zero_alpha`, `C23_zero_alpha_array`, `C23_response`, `C23_response_array`, `C23_linear`, `C24_tfm`, `C24_tfm_ends`, `C24_tfm_stop`, `C24_saft_partial`, `C24_saft_refuted`, `C25_partial`, `C25_refuted`, `C26_square_partial`, `C26_square_ends_partial`, `C26_refuted`, `C27_linear`, `C28_conv_cauchy`, `C29_fftconv_equals_conv`, `C30_fftconv_p`, `C31_ola_matrix_partial`, `C31_ola_vector_partial`, `C31_refuted_inplace_equ`, `C31_refuted_inplace_sum`, `C32_sum_fftconv_partial`, `C32_refuted_scaling`, `C32_refuted_neg`, `C38_exact_partial`, `C38_points`, `C39_uni_tfm`, `C39_uni_saft_partial`, `C39_uni_rca`, `C44_single`, `C44_single_stop`, `C44_array`, `C44_array_stop`, `C44_annular_partial`, `C47_circ_sir`, `C47_edge_refuted`, `C48_rect_sir_partial`, `C48_shortfall`, `C48_inside_refuted`, `C49_scirc_sir_partial`, `C49_negative_refuted`, `C50_gpu_cpu_partial`, `C52_whole_columns`, `C53_refuted_other_blocks`, `C53_rejected_partial`, `C53_refuted_octave_temporary`, `C55_new_matrix_partial`, `C55_in_place`, `C55_output_size`, `C56_refuted_octave_output`, `C57_fftconv_p`, `C57_conv_p_partial`, `C57_refuted_conv_p`, `C58_stops`, `C58_refuted_julia`, `C58_refuted_octave_conv_p`, `C59_windows`, `C60_response`, `C61_refuted_one_late`, `C61_refuted_wraps`, `C62_refuted_ud`, `C64_tfm`, `C64_saft_partial`, `C64_rca_partial`, `C69_tfm`, `C69_rca`, `C69_saft_partial`, `C70_empty_gr_refuted`, `C73_circ`, `C73_rect_partial`, `C73_scirc_partial`, `C77_new_matrix_partial`, `C78_matlab_partial`, `C78_octave_refuted`, `C79_octave_refuted`, `C84_new_matrix_partial`, `C84_vector_refuted`, `C84_block_refused`, `C84_zero_refuted`, `C84_in_place_refuted`, `C84_sum_refuted`, `C85_support`, `C85_plane`, `C85_support_array`, `C86_nonnegative`, `C86_nonnegative_array`, `C87_time_integral`, `C87_time_integral_array`, `C88_similarity`, `C88_similarity_array`, `C89_record_length`, `C89_record_length_array`, `C90_focus`, `C91_rayleigh_integral`, `C92_element_order`, `C93_translation`, `C94_weights_linear`, `C95_focus`, `C95_virtual_source`, `C96_formula_partial`, `C96_refuted_sea`, `C96_refuted_fresh`, `C97_units`, `C97_unknown`, `C97_defaults`, `C103_sound_speed`, `C103_sound_speed_array`, `C104_focal_point`, `C104_arr_focus_delays`, `C108_field`, `C108_convergence`, `C109_signal`, `C109_cylinder`, `C109_line`, `C109_annular`, `C110_cylinder`, `C110_line`, `C110_cylinder_convergence`, `C111_sphere_disc_partial`, `C111_projected_partial`, `C111_signal_partial`, `C111_projected_convergence_partial`, `C111_bowl_integral_refuted`, `C112_field`, `C112_convergence`, `C112_signal`, `C113_field`, `C113_convergence`, `C114_one_disc_partial`, `C114_ring_refuted`, `C115_single`, `C115_array`, `C115_single_stop`, `C115_array_stop`, `C115_annular_partial`, `C116_damping`, `C116_damping_array`, `C116_point`, `C117_time_integral`, `C117_time_integral_array`, `C118_before_arrival_refuted`, `C119_mirror_single`, `C119_mirrored_array`, `C119_symmetric_array`, `C120_axes_single`, `C120_axes_array`, `C121_shift_single_partial`, `C121_shift_array_partial`, `C121_odd_refuted`, `C122_turn_single`, `C122_turn_array`, `C123_energy_single`, `C123_energy_array`, `C123_unit_energy`, `C123_point`, `C124_mirror_single`, `C124_axes_single`, `C124_mirrored_array`, `C124_axes_array`, `C124_element_order`, `C124_translation`, `C124_weights_linear`, `C125_similarity_single`, `C125_similarity_array`, `C126_weak_absorption_single`, `C126_weak_absorption_array`, `C131_sound_speed_single`, `C131_sound_speed_array`, `C132_signal_single`, `C132_signal_array`, `C132_energy_single`, `C132_energy_array`, `C129_fftconv_p`, `C129_ola_matrix_partial`, `C129_ola_vector_partial`, `C129_sum_fftconv_partial`, `C130_fftconv_p`, `C130_ola_matrix_partial`, `C130_ola_vector_partial`, `C130_sum_fftconv_partial`.

**primitive floats and integers + FloatAxioms + sig_forall_dec + sig_not_dec + classic + functional_extensionality_dep** (18):
`C12_doubles`, `C38_double_partial`, `C98_conv_p_accuracy`, `C98_in_place_accuracy`, `C99_flat_accuracy`, `C102_exact_accuracy`, `C105_tfm`, `C105_tfm_call`, `C105_saft_partial`, `C105_rca_partial`, `C127_array_accuracy`, `C133_tfm`, `C133_saft_partial`, `C133_rca`, `C133_points`, `C134_tfm`, `C134_saft_partial`, `C134_rca_partial`.

**sig_forall_dec + sig_not_dec + functional_extensionality_dep** (6):
`C47_bounds`, `C47_unique`, `C49_sir`, `C61_position_partial`, `C86_windows`, `C104_xy`.

**primitive floats and integers + sig_forall_dec + sig_not_dec + functional_extensionality_dep** (1):
`C105_instant_refuted`.
