{"id": "C01", "title": "Observation points are partitioned among threads", "statement": "For any number of observation points No >= 0 and any worker count n >= 1, the ranges of observation points given to the workers of a SIR call are consecutive, pairwise disjoint and cover every observation point exactly once (none lost, none computed twice).", "quantifier": "all No and all worker counts", "why_tests_cant": "The split is an integer division whose edge cases (No not a multiple of n, n > No) range over all pairs.", "anchors": ["src/dreamrect.cc: Rect::dreamrect", "extra_src/das.cc: DAS::das", "extra_src/fftconv_p.cc: FFTConvP::run"]}
{"id": "C02", "title": "Worker count is sane for every environment", "statement": "Whatever the machine's core count, the value of DREAM_NUM_THREADS and the number of observation points, a SIR call uses at least one worker, never more workers than observation points (when there are any) and never more than DREAM_NUM_THREADS when that is at least 1.", "quantifier": "all core counts, all environment values, all No", "why_tests_cant": "Depends on environment and machine; tests run on one machine.", "anchors": ["src/dreamrect.cc: Rect::dreamrect"]}
{"id": "C03", "title": "A SIR computation never touches memory outside its own impulse response", "statement": "For every transducer function, every geometry, sampling, delay and error level, computing the response of observation point n only ever writes samples 0..nt-1 of column n of the output matrix: no other column and no memory outside the output matrix is changed.", "quantifier": "all transducers, parameters, observation points, number semantics (incl. NaN/Inf)", "why_tests_cant": "Memory safety over all inputs; a test only sees chosen inputs.", "anchors": ["src/dreamrect.cc: dreamrect_serial", "src/dreamcirc.cc", "src/dreamcirc_f.cc", "src/dreamrect_f.cc", "src/dreamline.cc", "src/dreamsphere.cc", "src/dreamcylind.cc", "src/dream_arr_rect.cc", "src/dream_arr_circ.cc", "src/dream_arr_cylind.cc"]}
{"id": "C04", "title": "Results do not depend on the number of threads or the schedule", "statement": "If no out-of-bounds stop and no CTRL-C happens, the output matrix of a threaded SIR call is the same for every worker count and every interleaving of the workers: column n equals the single-point computation for observation point n.", "quantifier": "all worker counts, all interleavings, all inputs", "why_tests_cant": "Interleavings cannot be enumerated by tests.", "anchors": ["src/dreamrect.cc: Rect::dreamrect, smp_dream_rect"]}
{"id": "C05", "title": "Out-of-range samples are dropped, nothing else changes ('ignore'/'warn')", "statement": "With error level 'ignore' or 'warn' a call never stops early: every source point whose sample index falls in 0..nt-1 is accumulated and the others are exactly skipped, and the response is the same for both levels.", "quantifier": "all transducers, geometries, and sampling parameters", "why_tests_cant": "Requires all geometries and index values.", "anchors": ["src/dreamrect.cc: dreamrect_serial", "src/dream_error.cc: dream_out_of_bounds_err"]}
{"id": "C06", "title": "'stop' stops at the first out-of-range source point", "statement": "With error level 'stop' the point computation returns the out-of-bounds error if and only if some source point is out of range; when none is, the response is identical to 'ignore'; when one is, exactly the contributions before the first out-of-range point have been accumulated.", "quantifier": "all transducers, geometries, and sampling parameters", "why_tests_cant": "Quantifies over all inputs and over the position of the first offending point.", "anchors": ["src/dreamrect.cc: dreamrect_serial", "src/dream_error.cc"]}
{"id": "C07", "title": "Error level to error code mapping", "statement": "The status of a single-point computation is 0 iff no source point was out of range, and otherwise it is exactly the code of the requested error level (ignore, warn or stop).", "quantifier": "all error levels and inputs", "why_tests_cant": "Biconditional over all inputs.", "anchors": ["src/dream_error.cc: dream_out_of_bounds_err", "include/dream.h: SIRError"]}
{"id": "C08", "title": "The threaded call reports out-of-bounds conditions", "statement": "The status returned by a threaded call is non-zero whenever the response of at least one observation point had an out-of-range source point, no matter how many workers are used.", "quantifier": "all inputs, worker counts and interleavings", "why_tests_cant": "Depends on worker count and schedule.", "anchors": ["src/dreamrect.cc: Rect::dreamrect", "src/dreamcirc.cc", "src/dreamline.cc"]}
{"id": "C09", "title": "dreamsphere reports warnings", "statement": "dreamsphere returns a non-zero status when error level is 'warn' or 'ignore' and some observation point had out-of-range samples, as the other transducers do.", "quantifier": "all inputs and worker counts", "why_tests_cant": "Depends on all inputs and schedules.", "anchors": ["src/dreamsphere.cc: Sphere::dreamsphere"]}
{"id": "C10", "title": "Array functions report a warning raised by any element", "statement": "For array transducers the status of one observation point is non-zero whenever any element of the array had an out-of-range source point.", "quantifier": "all arrays, element positions and inputs", "why_tests_cant": "Quantifies over arrays and elements.", "anchors": ["src/dream_arr_rect.cc: dream_arr_rect_serial", "src/dream_arr_circ.cc", "src/dream_arr_cylind.cc"]}
{"id": "C11", "title": "dreamrect computes the discretised Rayleigh integral", "statement": "In exact arithmetic, sample k of dreamrect is the sum over the grid of source points x_i=-a/2+dx/2+i*dx, y_j=-b/2+dy/2+j*dy inside the aperture of 1000*v*dx*dy/(2*pi*r*dt) over those with round((1000 r/cp - delay)/dt)=k.", "quantifier": "all apertures, observation points, sampling parameters with positive steps", "why_tests_cant": "Functional correctness over all reals.", "anchors": ["src/dreamrect.cc: dreamrect_serial"]}
{"id": "C12", "title": "The SIR functions terminate for positive steps", "statement": "For every positive dx, dy (and cp, dt > 0) each transducer function terminates and visits the expected number of source points.", "quantifier": "all geometries and positive steps", "why_tests_cant": "Termination for all inputs.", "anchors": ["src/*.cc: *_serial"]}
{"id": "C13", "title": "Non-positive spatial steps", "statement": "The argument parser accepts any dx, dy; a user relies on a call returning (or failing) for every accepted argument.", "quantifier": "all accepted sampling arguments", "why_tests_cant": "Non-termination cannot be observed by tests.", "anchors": ["include/arg_parser.h: parse_sampling", "src/dreamrect.cc: dreamrect_serial"]}
{"id": "C14", "title": "Responses are linear in the source strength", "statement": "In exact arithmetic, multiplying the velocity v (or the element weight) by c multiplies every sample of the response by c and does not change the status.", "quantifier": "all transducers, inputs and factors c", "why_tests_cant": "Algebraic law over all inputs.", "anchors": ["src/*.cc: *_serial"]}
{"id": "C15", "title": "Mirror symmetry", "statement": "In exact arithmetic, when the aperture is an integral number of steps wide, mirroring the observation point in the x or y axis of a planar transducer gives the same impulse response.", "quantifier": "all observation points, apertures that are multiples of the step", "why_tests_cant": "Law over all reals.", "anchors": ["src/dreamrect.cc: dreamrect_serial"]}
{"id": "C16", "title": "A start delay only shifts the response", "statement": "In exact arithmetic, increasing the delay by k sample periods moves every sample of the response k positions towards the beginning (samples moved out of the window are dropped).", "quantifier": "all transducers, delays, integers k", "why_tests_cant": "Law over all inputs.", "anchors": ["src/*.cc: *_serial"]}
{"id": "C17", "title": "An array response is the superposition of its delayed, weighted elements", "statement": "For every array of rectangular, circular or cylindrical elements the response at a point is the sum over elements of weight * element response at the displaced point with delay reduced by the element's focusing and steering delays.", "quantifier": "all arrays (any number of elements), all focusing/steering/apodization settings", "why_tests_cant": "Quantifies over arrays of every size.", "anchors": ["src/dream_arr_rect.cc: dream_arr_rect_serial"]}
{"id": "C18", "title": "A one-element array at the origin is the single transducer", "statement": "dream_arr_rect/circ/cylind with one element at (0,0,0), no focusing, steering or apodization gives exactly the response of dreamrect/dreamcirc/dreamcylind.", "quantifier": "all parameters and observation points", "why_tests_cant": "Equality over all inputs.", "anchors": ["src/dream_arr_rect.cc", "src/dream_arr_circ.cc", "src/dream_arr_cylind.cc"]}
{"id": "C19", "title": "Focusing delays are causal and bounded", "statement": "In exact arithmetic for every element of an array the x, y and xy focusing delays are non-negative and at most the delay of an element at the array centre, elements with the same distance get the same delay, and the delays equalise time of flight to the focus.", "quantifier": "all arrays, elements, focal depths", "why_tests_cant": "Law over all arrays.", "anchors": ["src/arr_functions.cc: focusing, max_dim_arr"]}
{"id": "C20", "title": "Steering delays are causal and linear", "statement": "In exact arithmetic for every element and angle, the steering delay is x_max*|sin| + x*sin scaled to microseconds: it is non-negative and linear in the element position.", "quantifier": "all arrays and steering angles", "why_tests_cant": "Law over all arrays.", "anchors": ["src/arr_functions.cc: beamsteering"]}
{"id": "C21", "title": "Apodization weights", "statement": "In exact arithmetic, every apodization weight of every element lies in its documented range (triangle, Gauss, raised cosine, Hann, Hamming, simply supported, clamped), is maximal at the array centre and depends on the element only through its distance to the centre.", "quantifier": "all arrays, elements, parameters", "why_tests_cant": "Law over all arrays.", "anchors": ["src/arr_functions.cc: apodization"]}
{"id": "C22", "title": "An annular array is the delayed weighted sum of its rings", "statement": "The annular array response is the sum over rings of weight * (outer disc - inner disc) delayed by the ring's focusing delay; with one disc and no focusing it equals dreamcirc.", "quantifier": "all radii vectors and delays", "why_tests_cant": "Quantifies over arrays of every size.", "anchors": ["src/dream_arr_annu.cc: dream_arr_annu_serial, superpos_annular"]}
{"id": "C23", "title": "Zero attenuation agrees with the lossless path", "statement": "The attenuated computation adds a real response to samples 0..nt-1 only, is linear in the source strength, and for attenuation coefficient 0 adds exactly the lossless contribution.", "quantifier": "all lengths nt, sample indices, distances", "why_tests_cant": "Law over all lengths; relies on DFT orthogonality.", "anchors": ["src/attenuation.cc: Attenuation::att"]}
{"id": "C24", "title": "SAFT and TFM are delay-and-sum beamformers", "statement": "For every image point the value is the sum over (transmit, receive) pairs of the recorded A-scan at the sample of the round-trip time of flight plus the delay; samples outside the record are skipped.", "quantifier": "all arrays, data, image points", "why_tests_cant": "Functional correctness over all inputs.", "anchors": ["extra_src/das.cc: das_saft_serial, das_tfm_serial"]}
{"id": "C25", "title": "SAFT agrees with TFM in the pulse-echo case", "statement": "With a single element used as both transmitter and receiver SAFT and TFM form the same image for every delay.", "quantifier": "all data, delays, image points", "why_tests_cant": "Equality over all inputs.", "anchors": ["extra_src/das.cc"]}
{"id": "C26", "title": "Row-column DAS uses the true element stripes", "statement": "For every row-column array (any number of rows and columns) RCA beamforming uses the distance from the image point to each line element's own stripe.", "quantifier": "all row/column counts and positions", "why_tests_cant": "Quantifies over array shapes.", "anchors": ["extra_src/das.cc: das_rca_serial_coltx, das_rca_serial_rowtx"]}
{"id": "C27", "title": "DAS images are linear in the data and never read outside it", "statement": "In exact arithmetic the image is a linear function of the data, and every sample read lies inside the data matrix.", "quantifier": "all data, arrays, image points", "why_tests_cant": "All inputs.", "anchors": ["extra_src/das.cc"]}
{"id": "C28", "title": "Direct convolution is the Cauchy product", "statement": "conv of vectors of lengths n,m >= 1 has length n+m-1 and equals sum_i x[i]*y[k-i]; '=' replaces, '+=' adds to and '-=' subtracts from the output; nothing else is written.", "quantifier": "all lengths and data", "why_tests_cant": "All lengths and data.", "anchors": ["extra_src/conv.cc: conv"]}
{"id": "C29", "title": "FFT convolution equals direct convolution", "statement": "In exact arithmetic, FFT based convolution with FFT length >= n+m-1 returns the same n+m-1 values as direct convolution in all three output modes.", "quantifier": "all lengths and data", "why_tests_cant": "All lengths.", "anchors": ["extra_src/fftconv.cc: fftconv"]}
{"id": "C30", "title": "Threaded matrix convolution processes every column exactly once", "statement": "conv_p and fftconv_p (accepted by their argument checks) compute for every column j the convolution of A(:,j) with B(:,j) (or the vector B) and read/write only inside the matrices for every worker count.", "quantifier": "all matrix sizes and worker counts", "why_tests_cant": "All sizes.", "anchors": ["extra_src/fftconv_p.cc", "extra_src/oct_fftconv_p.cc", "extra_src/oct_conv_p.cc"]}
{"id": "C31", "title": "Overlap-add convolution equals direct convolution for every block length", "statement": "fftconv_ola(A,B,n) equals conv for every block length n >= 1, any number of columns and worker count, for B a vector or a matrix.", "quantifier": "all sizes, block lengths, worker counts", "why_tests_cant": "All sizes.", "anchors": ["extra_src/oct_fftconv_ola.cc"]}
{"id": "C32", "title": "add_fftconv / sum_fftconv accumulate the sum of convolutions", "statement": "The sum-of-convolutions primitive adds (or assigns, or subtracts) the sum over sources of H_l * u_l.", "quantifier": "all numbers of sources and lengths", "why_tests_cant": "All sizes.", "anchors": ["extra_src/fftconv.cc: add_fftconv", "extra_src/oct_sum_fftconv.cc"]}
{"id": "C33", "title": "Option strings are decoded exactly", "statement": "Each documented option string (error level, focusing, steering, apodization, DAS type) selects its own method, and every other string is rejected.", "quantifier": "all strings, all front ends, all eleven SIR functions", "why_tests_cant": "All strings.", "anchors": ["include/arg_parser.h"]}
{"id": "C34", "title": "A call through a front end makes no out-of-bounds access", "statement": "Whatever argument list the user passes to one of the eleven SIR functions in Octave, MATLAB, Python or Julia, the call (argument checks and parsing included) never reads or writes outside an argument, scratch or result array; in particular whenever the delay argument is accepted it has an entry for every observation point.", "quantifier": "all argument lists (any number, shape, type and values), all schedules, worker counts and contents of the allocated result", "why_tests_cant": "All argument lists and schedules.", "anchors": ["include/arg_parser.h", "include/arg_parser_python.h", "include/arg_parser_julia.h", "oct/oct_dreamrect.cc", "mex/mex_dreamrect.cc", "python/src/py_dreamrect.cc", "julia/src/jl_dreamrect.cc"]}
{"id": "C35", "title": "Annular radii vector is checked", "statement": "The annular array radii vector is accepted only if it has an odd number of elements (inner disc plus pairs of radii), so that all radii are used.", "quantifier": "all vector sizes", "why_tests_cant": "All sizes.", "anchors": ["include/arg_parser.h: check_array_annu"]}
{"id": "C36", "title": "Abort is prompt and leaves a prefix", "statement": "After CTRL-C (or an out-of-bounds stop) is noticed every worker finishes at most the observation point it is working on; finished columns hold the complete response, untouched columns are unmodified.", "quantifier": "all interleavings and abort times", "why_tests_cant": "All interleavings and times.", "anchors": ["src/dreamrect.cc: smp_dream_rect"]}
{"id": "C37", "title": "DAS plan reuse", "statement": "A DAS object is rebuilt iff one of the parameters that size its resources changed.", "quantifier": "all pairs of successive calls", "why_tests_cant": "All histories.", "anchors": ["include/das.h: das_setup_has_changed", "include/das_uni.h"]}
{"id": "C38", "title": "Uniform grids", "statement": "A uniform DAS grid min:pitch:max yields floor((max-min)/pitch)+1 points, all inside [min,max].", "quantifier": "all grids", "why_tests_cant": "All reals.", "anchors": ["include/das_uni.h"]}
{"id": "C39", "title": "das_uni is delay-and-sum on the uniform grid", "statement": "For every uniform-grid DAS call the value of image point (i,j,k) is the delay-and-sum value over the elements at min+n*pitch (SAFT, TFM) or over the distances to the row/column line elements (RCA), with the image stored y fastest, then z, then x.", "quantifier": "all grids, data, delays, image points", "why_tests_cant": "All grids and data.", "anchors": ["opencl/das_uni_double.cl", "include/das_uni.h"]}
{"id": "C40", "title": "GPU and CPU beamformers agree", "statement": "For every DAS job the GPU path returns the same image as the CPU path.", "quantifier": "all jobs, schedules and number types", "why_tests_cant": "All jobs; the tests use only convenient image sizes.", "anchors": ["opencl/cl_das.cc: cl_das", "opencl/das_double.cl", "extra_src/das.cc", "extra_src/oct_das.cc"]}
{"id": "C41", "title": "Accepted calls have documented shapes; documented calls compute what was asked", "statement": "A call of a SIR function that is not rejected had arguments of the documented number and shapes (observation points N x 3, geometry, sampling, material, delay of length 1 or N, focal and weight vectors with one entry per element). Conversely every call written as documented is accepted and each column of the returned matrix is the response computed for the transducer, parameters, observation point and start delay that the arguments name.", "quantifier": "all argument lists, four front ends, eleven functions, worker counts, schedules, initial contents of the result matrix", "why_tests_cant": "All argument lists and all thread interleavings.", "anchors": ["include/arg_parser.h", "oct/oct_dream_arr_rect.cc", "mex/mex_dream_arr_rect.cc", "python/src/py_dream_arr_rect.cc", "julia/src/jl_dream_arr_rect.cc"]}
{"id": "C42", "title": "The apodization window parameter reaches the computation", "statement": "For the array functions, the window parameter the user passes after the weight vector is the parameter of the Gaussian and raised-cosine windows used in the computation, in every front end.", "quantifier": "all array calls, all parameter values, four front ends", "why_tests_cant": "All calls.", "anchors": ["include/arg_parser.h: parse_apod_args", "include/arg_parser_python.h: parse_apod_args", "include/arg_parser_julia.h: parse_apod_args"]}
{"id": "C43", "title": "'stop' ends the call with the out-of-bounds error exactly when a point is out of bounds", "statement": "With error level 'stop' a lossless single-element call either returns the matrix, when every source point of every observation point arrives inside the record, or fails with the error 'SIR out-of-bounds!', otherwise; no interleaving of the workers changes which.", "quantifier": "all arguments, worker counts and schedules", "why_tests_cant": "All schedules.", "anchors": ["oct/oct_dreamrect.cc", "src/dreamrect.cc: Rect::dreamrect"]}
{"id": "C44", "title": "End to end: the returned matrix holds the discretised Rayleigh integral", "statement": "In exact arithmetic, a documented lossless call of any of the seven single-element functions or of the rectangular, circular and cylindrical array functions, from any front end, returns a matrix whose entry in row k and column n is sample k of the discretised Rayleigh integral (for arrays: the superposition of the delayed, weighted element integrals) at observation point n.", "quantifier": "all real parameters, observation points, delays, record lengths, front ends, worker counts, schedules and initial contents of the result", "why_tests_cant": "All real parameters and all schedules.", "anchors": ["oct/oct_dreamrect.cc", "src/dreamrect.cc", "src/dream_arr_rect.cc", "include/arg_parser.h"]}
{"id": "C45", "title": "GPU and CPU dreamrect/dreamcirc agree", "statement": "A dreamrect or dreamcirc call with device 'gpu' returns the same matrix and status as the same call with device 'cpu', for every accepted argument list: any number of observation points, one or many start delays, absorption, every error level, whatever order the device runs its work items in.", "quantifier": "all jobs, number systems, work item orders, previous device memory contents, worker counts and CPU schedules", "why_tests_cant": "device order and memory contents are arbitrary, and the failing cases depend on point counts (multiples of 64), delays, absorption and error level combinations", "anchors": ["opencl/dreamrect.cl:dreamrect", "opencl/dreamcirc.cl:dreamcirc", "opencl/cl_dreamrect.cc:Rect::cl_dreamrect", "opencl/cl_dreamcirc.cc:Circ::cl_dreamcirc", "oct/oct_dreamrect.cc", "oct/oct_dreamcirc.cc"]}
{"id": "C46", "title": "Analytic responses: safe, terminating and schedule independent", "statement": "For every argument accepted by circ_sir, scirc_sir and rect_sir and every worker count and schedule, the call accesses no memory outside its arrays, completes, and returns a matrix that depends only on the arguments; after CTRL-C every column is either finished (as in the uninterrupted call) or untouched. There is at least one worker and never more workers than observation points.", "quantifier": "all arguments, worker counts, schedules, interrupt times and prior memory contents", "why_tests_cant": "Schedules and interrupt points cannot be enumerated.", "anchors": ["extra_src/circ_sir.cc", "extra_src/scirc_sir.cc", "extra_src/rect_sir.cc: RectSir", "extra_src/oct_circ_sir.cc: smp_dream_circ_sir", "extra_src/oct_scirc_sir.cc: smp_process"]}
{"id": "C47", "title": "circ_sir is the exact impulse response of a disk", "statement": "Every sample returned by circ_sir is v*c/(2 pi) times the angle over which the circle of radius sqrt((c t)^2 - z^2) around the observation point's foot lies on the disk (zero before the arrival time), for every point with z >= 0, radius, delay and sampling; the only exception is the sample at exactly the arrival time of a point exactly above the edge. Samples lie between 0 and v*c.", "quantifier": "all observation points, radii, sampling intervals, delays, sample indices (exact arithmetic)", "why_tests_cant": "A statement about a continuum of geometries and times with a case split at every edge distance.", "anchors": ["extra_src/circ_sir.cc: circ_sir", "extra_src/oct_circ_sir.cc"]}
{"id": "C48", "title": "rect_sir is the exact impulse response of a rectangle", "statement": "Every sample returned by rect_sir is v*c/(2 pi) times the angle over which the circle of radius sqrt((c t)^2 - z^2) around the observation point's foot lies on the rectangle, for every point with z >= 0, size, delay and sampling.", "quantifier": "all observation points, sizes, normal velocities, sampling intervals, delays, sample indices (exact arithmetic)", "why_tests_cant": "A statement about a continuum of geometries and times with four position cases and four sub-rectangles.", "anchors": ["extra_src/rect_sir.cc: RectSir::rect_sir_serial"]}
{"id": "C49", "title": "scirc_sir is the sampled response of a disk", "statement": "As the number of integration steps grows, every sample returned by scirc_sir converges to the mean, over the sampling interval [t - dt/2, t + dt/2], of the exact impulse response of the disk at the observation point (z >= 0).", "quantifier": "all observation points, radii, sampling intervals, delays, velocities and samples (exact arithmetic)", "why_tests_cant": "A limit statement about a continuum of geometries, with sixteen branches for the position of the sampling interval.", "anchors": ["extra_src/scirc_sir.cc: scirc_sir, trapets_int, acos_acos"]}
{"id": "C50", "title": "rect_sir on the GPU agrees with the CPU", "statement": "rect_sir(..., 'gpu') returns the same matrix as on the CPU for every accepted call, whatever the device memory held and in whatever order the work items run.", "quantifier": "all accepted arguments, work item orders and prior device memory", "why_tests_cant": "Depends on device scheduling and memory contents; ranges over all geometries.", "anchors": ["opencl/rect_sir.cl", "opencl/cl_rect_sir.cc"]}
{"id": "C51", "title": "DREAM_NUM_THREADS bounds the workers of the analytic functions", "statement": "When DREAM_NUM_THREADS is at least 1, circ_sir, scirc_sir and rect_sir never use more workers than that.", "quantifier": "all core counts, environment values, numbers of observation points", "why_tests_cant": "Depends on environment and machine.", "anchors": ["extra_src/oct_circ_sir.cc", "extra_src/oct_scirc_sir.cc", "extra_src/rect_sir.cc"]}
{"id": "C52", "title": "copy_p and add_p on whole columns", "statement": "copy_p(A,r,[1 N],B) and add_p(A,r,[1 N],B), with N the number of columns of A, replace (increase) exactly rows r(1)..r(2) of A by the rows of B and leave every other element of A unchanged.", "quantifier": "all matrices A, B, row ranges within A, machines, worker counts and schedules", "why_tests_cant": "Ranges over all sizes and thread schedules.", "anchors": ["extra_src/oct_copy_p.cc", "extra_src/mex_copy_p.cc", "extra_src/oct_add_p.cc"]}
{"id": "C53", "title": "copy_p and add_p on any block", "statement": "For every block A(r1:r2,k1:k2) within A and every B with at least as many rows and exactly k2-k1+1 columns, copy_p and add_p change exactly that block; blocks that are not within A are refused.", "quantifier": "all matrices, row and column ranges, schedules", "why_tests_cant": "Memory safety and frame condition over all block positions.", "anchors": ["extra_src/oct_copy_p.cc", "extra_src/mex_copy_p.cc", "extra_src/oct_add_p.cc"]}
{"id": "C54", "title": "The mode argument of the convolution functions", "statement": "The mode argument of conv_p, fftconv_p and fftconv_ola accepts exactly '=', '+=', '-=' and selects that operation; every other value is refused.", "quantifier": "all strings and values given as mode, all other arguments", "why_tests_cant": "Ranges over all strings and argument lists.", "anchors": ["extra_src/oct_conv_p.cc", "extra_src/oct_fftconv_p.cc", "extra_src/oct_fftconv_ola.cc", "extra_src/mex_conv_p.cc"]}
{"id": "C55", "title": "conv_p and fftconv_p calls return the convolution", "statement": "A call of conv_p or fftconv_p from any front end with compatible non-empty arguments returns the (A_M+B_M-1) x A_N matrix of columnwise convolutions, or in place stores / adds / subtracts it; an output argument of another size and incompatible B are refused.", "quantifier": "all matrices, storage forms, front ends, modes, machines, uninterrupted schedules (exact arithmetic)", "why_tests_cant": "Ranges over all sizes, values and schedules.", "anchors": ["extra_src/oct_conv_p.cc", "extra_src/oct_fftconv_p.cc", "extra_src/mex_conv_p.cc", "extra_src/mex_fftconv_p.cc", "julia/src/jl_conv_p.cc", "julia/src/jl_fftconv_p.cc", "python/include/py_fftconv_p.hpp"]}
{"id": "C56", "title": "Convolution calls never access memory outside their arguments", "statement": "conv_p and fftconv_p called with matrices of any sizes, also empty ones, and any schedule return a result or an error without an access outside the matrices.", "quantifier": "all sizes, contents, further arguments and schedules", "why_tests_cant": "Memory safety over all sizes and schedules.", "anchors": ["extra_src/oct_conv_p.cc", "extra_src/conv.cc", "extra_src/fftconv.cc", "extra_src/oct_fftconv_p.cc"]}
{"id": "C57", "title": "In-place convolution where the output is the input", "statement": "conv_p(A,b,A,mode) and fftconv_p(A,b,A,mode) with a scalar b give what mode promises with A's old values.", "quantifier": "all A, b, modes, schedules", "why_tests_cant": "Aliasing semantics over all values and interleavings.", "anchors": ["extra_src/conv.cc: conv", "extra_src/fftconv.cc: fftconv", "extra_src/oct_conv_p.cc"]}
{"id": "C58", "title": "CTRL-C during a convolution call", "statement": "When CTRL-C is pressed during conv_p, fftconv_p or fftconv_ola the call ends with an error and never delivers a partial result as if it were complete; every column of an in-place output is then untouched or complete.", "quantifier": "all arguments, schedules and moments of CTRL-C", "why_tests_cant": "Ranges over all interleavings.", "anchors": ["extra_src/oct_conv_p.cc", "extra_src/oct_fftconv_p.cc", "extra_src/oct_fftconv_ola.cc", "julia/src/jl_conv_p.cc"]}
{"id": "C59", "title": "dream_apodwin returns the apodization weights of the array functions", "statement": "For each window 'triangle', 'gauss', 'raised', 'hann', 'hamming', 'simply' and 'clamped' and each length num >= 1, dream_apodwin(name,num,par) returns a num-element vector whose element n is exactly the weight the array functions give element n of a line array with elements at 1 - 2n/num, i.e. the named window at relative distance |1 - 2n/num|; no other property of the arguments matters.", "quantifier": "all window names but 'off' and 'ud', all lengths, all parameters, all ways of holding the arguments, Octave and MATLAB", "why_tests_cant": "The length and the window parameter range over unbounded sets.", "anchors": ["oct/oct_dream_apodwin.cc", "mex/mex_dream_apodwin.cc", "src/arr_functions.cc"]}
{"id": "C60", "title": "dream_att returns the attenuation response of a point source", "statement": "For every accepted call dream_att(Ro,s_par,delay,m_par) column n of the result is the sampled response of the power-law attenuating medium at the distance of observation point n from the origin, positioned at the sample index 1 + floor of the travel time in samples after the start delay; every sample of every column is written, whatever the fresh matrix held.", "quantifier": "all observation points, sampling intervals, record lengths, delays (one or one per point), sound speeds and attenuations whose index fits the integer type it is cast to; Octave and MATLAB", "why_tests_cant": "Ranges over all real arguments; the response is a transform over all frequencies.", "anchors": ["oct/oct_dream_att.cc", "mex/mex_dream_att.cc", "src/attenuation.cc"]}
{"id": "C61", "title": "dream_att places the response where the transducer functions do", "statement": "dream_att places the arrival at the sample nearest to the travel time, as the transducer functions do, and leaves out an arrival outside the record.", "quantifier": "all observation points, delays and record lengths", "why_tests_cant": "Ranges over all real travel times.", "anchors": ["oct/oct_dream_att.cc", "mex/mex_dream_att.cc", "src/dreamrect.cc"]}
{"id": "C62", "title": "dream_apodwin for 'off', 'ud' and empty arguments", "statement": "dream_apodwin('off',num,par) returns num ones, dream_apodwin('ud',w,par) returns the given weights, and an empty argument is refused without reading outside it.", "quantifier": "all lengths, weights and storage of the arguments, Octave and MATLAB", "why_tests_cant": "Depends on the content of fresh memory and on all weight vectors.", "anchors": ["oct/oct_dream_apodwin.cc", "mex/mex_dream_apodwin.cc"]}
{"id": "C63", "title": "Delay-and-sum calls do not depend on earlier calls", "statement": "What a (double precision) das call returns - image, warning, error, undefined behaviour - is the same whatever object earlier calls of any kind have left behind, on the CPU and on the GPU, in every front end.", "quantifier": "all arguments, all objects left behind, all schedules and worker counts, any arithmetic", "why_tests_cant": "Ranges over all call histories.", "anchors": ["extra_src/oct_das.cc", "extra_src/mex_das.cc", "python/include/py_das.hpp", "julia/include/jl_das.hpp", "include/das.h: das_setup_has_changed"]}
{"id": "C64", "title": "A documented das call computes the job the user described", "statement": "For every documented das call on the CPU, in all four front ends and with any legal set of optional arguments, the outcome is exactly that of the threaded computation on the user's matrices, sizes, delay(s), method and level; for TFM the returned image is the delay-and-sum image of every point, or, at level 'stop' when some sample lies outside the record, an error and no image.", "quantifier": "all jobs, all ways of passing the arguments (delay held as a matrix), all schedules and worker counts; exact arithmetic for the image", "why_tests_cant": "All inputs and interleavings.", "anchors": ["extra_src/oct_das.cc", "extra_src/mex_das.cc", "python/include/py_das.hpp", "julia/include/jl_das.hpp", "extra_src/das.cc"]}
{"id": "C65", "title": "The das method and level strings are decoded exactly", "statement": "Every das call that is accepted carries one of the five documented method strings and, if a level is given, one of the three level strings, and computes that method at that level; without a level argument the level is 'stop'.", "quantifier": "all argument lists, all front ends (MATLAB: strings without NUL)", "why_tests_cant": "All strings.", "anchors": ["include/arg_parser.h: parse_das_arg", "extra_src/oct_das.cc", "extra_src/mex_das.cc"]}
{"id": "C66", "title": "A scalar delay can be used in das", "statement": "A das call with an ordinary scalar delay reads only memory of its arguments.", "quantifier": "all documented calls with a scalar delay, all front ends", "why_tests_cant": "All inputs; the fault (freed memory) is invisible in most runs.", "anchors": ["extra_src/oct_das.cc: 322-331"]}
{"id": "C67", "title": "The device argument of das selects the device", "statement": "'cpu' computes on the CPU, 'gpu' on the GPU when DREAM was built with OpenCL, however many optional arguments follow.", "quantifier": "all documented calls, all front ends", "why_tests_cant": "Needs all combinations of optional arguments.", "anchors": ["extra_src/oct_das.cc: 381-400", "python/include/py_das.hpp: 146", "julia/include/jl_das.hpp"]}
{"id": "C68", "title": "das_uni calls are independent of the session", "statement": "After any sequence of das_uni calls (any sizes, methods, precisions, including calls that failed) the next call gives the user exactly what it would give in a fresh session.", "quantifier": "all histories of calls, all next calls, any arithmetic, Octave and MATLAB", "why_tests_cant": "Histories are unbounded; a stale device buffer shows up only for particular sequences.", "anchors": ["extra_src/oct_das_uni.cc: 361-497", "extra_src/mex_das_uni.cc: 243-372", "include/das_uni.h: das_setup_has_changed, init_opencl"]}
{"id": "C69", "title": "das_uni returns the delay-and-sum image", "statement": "A documented das_uni call (8 arguments, one precision, data of exactly the needed number of A-scans, buffers below 2 GB, a multiple of 64 image points, equal delays, a receive vector given) returns one value per image point: for TFM and row-column arrays the sum over all element pairs of the data sample at the travel time of the pair, for the image points of the box in the order y, z, x; for SAFT the same with the one-element travel time and the user's delay counted twice.", "quantifier": "all documented calls within those limits, all sessions before it", "why_tests_cant": "All grids, data and histories.", "anchors": ["extra_src/oct_das_uni.cc", "extra_src/mex_das_uni.cc", "opencl/cl_das_uni.cc", "opencl/das_uni_double.cl"]}
{"id": "C70", "title": "das_uni accepts every documented delay, image size, data size and receive vector", "statement": "das_uni computes the image for one delay or one per image point, for any number of image points, for data of any size that fits the device, and for SAFT with an empty receive vector.", "quantifier": "all documented calls", "why_tests_cant": "All inputs; wrong output looks like an image.", "anchors": ["extra_src/oct_das_uni.cc: 305-319", "opencl/cl_das_uni.cc: 145-171", "include/das_uni.h: 62-79, 283-310, 373-374"]}
{"id": "C71", "title": "das_uni rejects image grids that are not 3 x 3", "statement": "A call whose image grid argument is not a 3 x 3 matrix is rejected, without reading outside it.", "quantifier": "all argument lists, both front ends", "why_tests_cant": "All shapes; out-of-bounds reads are silent.", "anchors": ["extra_src/oct_das_uni.cc: 252-256", "extra_src/mex_das_uni.cc: 161-164"]}
{"id": "C72", "title": "Analytic functions never touch memory outside their arrays", "statement": "A call of circ_sir, scirc_sir or rect_sir with numeric arguments, whatever their sizes and values, either is rejected or runs without reading or writing outside an argument, the output matrix or its buffers.", "quantifier": "all argument lists, Octave and MATLAB, all worker counts and schedules, CPU and GPU", "why_tests_cant": "All shapes and values; out-of-bounds accesses are silent.", "anchors": ["extra_src/oct_circ_sir.cc: 231-430", "extra_src/oct_scirc_sir.cc: 236-447", "extra_src/oct_rect_sir.cc: 103-279", "extra_src/mex_circ_sir.cc: 175-345", "extra_src/mex_scirc_sir.cc", "extra_src/mex_rect_sir.cc: 40-135"]}
{"id": "C73", "title": "A documented call of an analytic function returns the analytic response", "statement": "A call with arguments as in the user manual returns an nt x No matrix whose column n is the analytic impulse response at observation point n, at the times it*dt + delay (for scirc_sir: its mean over the sampling interval in the limit of many integration steps), the same for every worker count and schedule.", "quantifier": "all documented argument lists of the three functions, Octave and MATLAB, all worker counts, environments, schedules", "why_tests_cant": "A statement about every geometry, observation point, time and schedule, against the mathematical definition of the response.", "anchors": ["extra_src/oct_circ_sir.cc: 231-430", "extra_src/oct_scirc_sir.cc: 236-447", "extra_src/oct_rect_sir.cc: 103-279", "extra_src/circ_sir.cc", "extra_src/scirc_sir.cc", "extra_src/rect_sir.cc", "userman/m_files/make_circsir_on_axis.m: 55"]}
{"id": "C74", "title": "The help texts give the argument order the functions accept", "statement": "A call of circ_sir or scirc_sir with its arguments in the order of the help text (Ro, geom_par, delay, s_par, m_par) computes the response for that delay and those sampling parameters.", "quantifier": "all argument lists that describe a call, both front ends", "why_tests_cant": "The mistake is silent only for two observation points with two delays; a test of other sizes sees a rejection.", "anchors": ["extra_src/oct_circ_sir.cc: 167", "extra_src/oct_circ_sir.cc: 270-300", "extra_src/oct_scirc_sir.cc: 165"]}
{"id": "C75", "title": "CTRL-C stops an analytic function and no partial matrix is returned", "statement": "When CTRL-C is pressed during circ_sir, scirc_sir or rect_sir the call stops with an error or, if it was already finished, returns the complete matrix; it never returns a matrix with some columns missing.", "quantifier": "all documented calls, all schedules with CTRL-C at any points, all worker counts", "why_tests_cant": "Depends on the instant of the interrupt relative to every worker.", "anchors": ["extra_src/oct_circ_sir.cc: 344-354, 423-427", "extra_src/mex_circ_sir.cc: 262-345", "extra_src/oct_rect_sir.cc: 227, 249-267", "extra_src/mex_rect_sir.cc: 113-131"]}
{"id": "C76", "title": "A wisdom string does not change the result of fftconv_p and fftconv_ola", "statement": "Giving fftconv_p or fftconv_ola an FFTW wisdom string that FFTW accepts returns the same result as the call without it (with an output argument: as with mode '='); a string FFTW does not accept is refused.", "quantifier": "all strings, operands, output arguments, Octave and MATLAB, all machines and schedules", "why_tests_cant": "Ranges over all strings and all calls.", "anchors": ["include/fft.h: is_wisdom, import_wisdom", "extra_src/oct_fftconv_p.cc: 320-416, 459-464", "extra_src/oct_fftconv_ola.cc: 435-529", "extra_src/mex_fftconv_p.cc: 279-343"]}
{"id": "C77", "title": "sum_fftconv returns the documented sum", "statement": "Y = sum_fftconv(H, U) with an M x N x L array H and a K x L matrix U returns the (M+K-1) x N matrix whose column n is the sum over l of the convolutions of H(:,n,l) and U(:,l), scaled as in the help text.", "quantifier": "all sizes, all real entries, all thread counts, all interleavings without CTRL-C, all previous memory contents", "why_tests_cant": "Sizes, thread counts and interleavings are unbounded; a one-row U reads memory outside the argument, which usually goes unnoticed.", "anchors": ["extra_src/oct_sum_fftconv.cc: DEFUN_DLD(sum_fftconv)", "extra_src/mex_sum_fftconv.cc: mexFunction", "extra_src/fftconv.cc: add_fftconv"]}
{"id": "C78", "title": "sum_fftconv in place stores the result", "statement": "sum_fftconv(H, U, Y) replaces the pre-allocated matrix Y by the result, whatever Y held.", "quantifier": "all sizes, entries and previous contents of Y, all thread counts and interleavings", "why_tests_cant": "Tests with Y = zeros cannot tell storing from adding; the property is about all previous contents.", "anchors": ["extra_src/oct_sum_fftconv.cc: DEFUN_DLD(sum_fftconv)", "extra_src/mex_sum_fftconv.cc: mexFunction", "extra_src/fftconv.cc: add_fftconv"]}
{"id": "C79", "title": "CTRL-C during sum_fftconv", "statement": "When CTRL-C is pressed during sum_fftconv the call ends with an error and does not return a matrix with columns missing.", "quantifier": "all arguments, all schedules and instants of the interrupt", "why_tests_cant": "The instant of the interrupt relative to the workers cannot be enumerated.", "anchors": ["extra_src/oct_sum_fftconv.cc: DEFUN_DLD(sum_fftconv)", "extra_src/mex_sum_fftconv.cc: mexFunction", "extra_src/fftconv.cc: add_fftconv"]}
{"id": "C80", "title": "sum_fftconv argument checks and wisdom", "statement": "sum_fftconv refuses a first argument that is not 3-D, a U whose number of columns is not L, an output argument of the wrong size and wrong argument counts; a valid wisdom string does not change the result and an invalid one is refused.", "quantifier": "all argument lists, all strings", "why_tests_cant": "The argument lists and strings are unbounded.", "anchors": ["extra_src/oct_sum_fftconv.cc: DEFUN_DLD(sum_fftconv)", "extra_src/mex_sum_fftconv.cc: mexFunction", "extra_src/fftconv.cc: add_fftconv"]}
{"id": "C81", "title": "A call leaves the process's signal handlers as it found them", "statement": "After a call of any library function has ended - with a result, with an error, or interrupted - every signal (CTRL-C, SIGABRT, SIGTERM) is handled by the host program exactly as before the call.", "quantifier": "every function and front end, every state of the handler table before the call, every course of the call with signals delivered at any point", "why_tests_cant": "signals can arrive between any two steps of a gateway and the call can end in many places; tests see the uninterrupted course only", "anchors": ["extra_src/oct_conv_p.cc", "oct/oct_dreamrect.cc", "python/src/py_dreamrect.cc", "extra_src/oct_das.cc", "extra_src/oct_circ_sir.cc"]}
{"id": "C82", "title": "CTRL-C during a call stops it", "statement": "CTRL-C pressed at any time during a call that has passed its argument checks either ends the call with an error or is received by the host program; it is never lost.", "quantifier": "every function, front end, session history and point in time at which CTRL-C is pressed", "why_tests_cant": "the points of time are unbounded, and the handler in force depends on the calls made before", "anchors": ["oct/oct_dreamrect.cc", "src/dreamrect.cc", "extra_src/das.cc", "extra_src/rect_sir.cc", "extra_src/oct_conv_p.cc"]}
{"id": "C83", "title": "After a call CTRL-C works again in the host program", "statement": "When no library function is running, CTRL-C is received by the host program, whatever library functions have been called before.", "quantifier": "every history of calls and signals", "why_tests_cant": "histories are unbounded; the effect appears only after the call under test has returned", "anchors": ["oct/oct_dreamrect.cc", "python/src/py_dreamrect.cc", "julia/src/jl_dreamrect.cc", "mex/mex_dreamrect.cc"]}
{"id": "C84", "title": "fftconv_ola: the block length does not change the result", "statement": "For every M x N matrix A, every B that is a vector of K samples or a K x N matrix, and every block length n from 1 to M, an uninterrupted call Y = fftconv_ola(A, B, n) returns the (M+K-1) x N matrix of the convolutions of the columns, the same for every n, number of threads and interleaving; with an output argument the mode = replaces it, += adds and -= subtracts; a block length outside 1..M is refused with an error.", "quantifier": "all matrices, vectors, block lengths, numbers of threads, interleavings, contents of fresh memory, Octave and MATLAB", "why_tests_cant": "block lengths, sizes, thread counts and uninitialised memory form an unbounded space; the faults found appear only for some combinations of block length, vector B and columns per worker", "anchors": ["extra_src/oct_fftconv_ola.cc: smp_dream_fftconv_ola", "extra_src/mex_fftconv_ola.cc", "extra_src/fftconv.cc"]}
{"id": "C85", "title": "No sound before the first or after the last arrival", "statement": "Let every point of the transducer surface be between lo and hi microseconds of travel (plus focusing delay) away from an observation point. Then sample k of its response is 0 whenever the sampling instant k dt, rounding of dt/2 included, counted from the start delay, lies before lo or after hi. In particular a plane transducer gives no sound before the time |z|/c.", "quantifier": "all front ends, single-element transducers, observation points, parameters with positive steps for which the response is defined, error levels ignore and warn, numbers of threads, interleavings and contents of fresh memory; exact arithmetic", "why_tests_cant": "it is a statement about all geometries and all samples of all responses; tests look at a few responses", "anchors": ["src/dreamrect.cc: DREAMRect::dreamrect_serial", "src/dreamcirc.cc", "src/dreamline.cc", "src/dreamsphere.cc", "src/dreamcylind.cc", "src/dreamrect_f.cc", "src/dreamcirc_f.cc", "oct/oct_dreamrect.cc"]}
{"id": "C86", "title": "Responses to a positive velocity are nowhere negative", "statement": "With a velocity that is not negative (and, for arrays, weights that are not negative, which holds for every window but raised cosine and user defined ones) no sample of any response is negative.", "quantifier": "all front ends, single-element transducers, observation points, parameters with positive steps for which the response is defined, error levels ignore and warn, numbers of threads, interleavings and contents of fresh memory; exact arithmetic; arrays of rectangular, circular or cylindrical elements", "why_tests_cant": "signs must hold for every sample of every geometry", "anchors": ["src/dreamrect.cc: DREAMRect::dreamrect_serial", "src/dreamcirc.cc", "src/dreamline.cc", "src/dreamsphere.cc", "src/dreamcylind.cc", "src/dreamrect_f.cc", "src/dreamcirc_f.cc", "oct/oct_dreamrect.cc", "src/dream_arr_rect.cc", "src/dream_arr_circ.cc", "src/dream_arr_cylind.cc", "src/arr_functions.cc", "oct/oct_dream_arr_rect.cc"]}
{"id": "C87", "title": "The time integral of a response does not depend on the sampling", "statement": "The sum of the samples times dt is the same for every sampling period, start delay and record length with which all arrivals fall into the record.", "quantifier": "all front ends, single-element transducers, observation points, parameters with positive steps for which the response is defined, error levels ignore and warn, numbers of threads, interleavings and contents of fresh memory; exact arithmetic; pairs of calls", "why_tests_cant": "relates two calls for every pair of sampling periods, delays and record lengths", "anchors": ["src/dreamrect.cc: DREAMRect::dreamrect_serial", "src/dreamcirc.cc", "src/dreamline.cc", "src/dreamsphere.cc", "src/dreamcylind.cc", "src/dreamrect_f.cc", "src/dreamcirc_f.cc", "oct/oct_dreamrect.cc"]}
{"id": "C88", "title": "Similarity", "statement": "A transducer s times as large, with spatial steps, sampling period and delays s times as large, has at s times the distance the same response, sample by sample, for every s > 0.", "quantifier": "all front ends, single-element transducers, observation points, parameters with positive steps for which the response is defined, error levels ignore and warn, numbers of threads, interleavings and contents of fresh memory; exact arithmetic; pairs of calls, scale factors", "why_tests_cant": "relates two calls for every scale factor and geometry", "anchors": ["src/dreamrect.cc: DREAMRect::dreamrect_serial", "src/dreamcirc.cc", "src/dreamline.cc", "src/dreamsphere.cc", "src/dreamcylind.cc", "src/dreamrect_f.cc", "src/dreamcirc_f.cc", "oct/oct_dreamrect.cc"]}
{"id": "C89", "title": "A longer record starts with the shorter one", "statement": "Two calls that differ only in the number of samples agree on the samples they share.", "quantifier": "all front ends, single-element transducers, observation points, parameters with positive steps for which the response is defined, error levels ignore and warn, numbers of threads, interleavings and contents of fresh memory; exact arithmetic; pairs of calls", "why_tests_cant": "relates two calls for every pair of record lengths", "anchors": ["src/dreamrect.cc: DREAMRect::dreamrect_serial", "src/dreamcirc.cc", "src/dreamline.cc", "src/dreamsphere.cc", "src/dreamcylind.cc", "src/dreamrect_f.cc", "src/dreamcirc_f.cc", "oct/oct_dreamrect.cc"]}
{"id": "C90", "title": "A transducer focused in both directions concentrates the wave at the focus", "statement": "With focusing method xy and focal distance F, at the point (0,0,F) every contribution falls into one and the same sample; all other samples are 0.", "quantifier": "all front ends, single-element transducers, observation points, parameters with positive steps for which the response is defined, error levels ignore and warn, numbers of threads, interleavings and contents of fresh memory; exact arithmetic", "why_tests_cant": "must hold for every aperture, focal distance and discretisation", "anchors": ["src/dreamrect_f.cc", "src/dreamcirc_f.cc"]}
{"id": "C91", "title": "The response of dreamrect converges to the Rayleigh integral", "statement": "For an aperture of a whole number of steps, a point with z not 0 and a record holding all arrivals, the time integral of the response differs from the surface integral of 1000 v/(2 pi r) over the plate by at most 1000 |v|/(2 pi) a b (dx+dy)/(2 z^2).", "quantifier": "all front ends, rectangles, observation points, parameters with positive steps for which the response is defined, error levels ignore and warn, numbers of threads, interleavings and contents of fresh memory; exact arithmetic", "why_tests_cant": "a convergence statement over all step sizes; a test can only sample a few", "anchors": ["src/dreamrect.cc: DREAMRect::dreamrect_serial"]}
{"id": "C92", "title": "The order of the array elements does not matter", "statement": "Listing the elements of an array in another order, each with its own user defined delay and weight, gives the same responses.", "quantifier": "all front ends, arrays of rectangular, circular or cylindrical elements, observation points, parameters with positive steps for which the response is defined, error levels ignore and warn, numbers of threads, interleavings and contents of fresh memory; exact arithmetic; permutations of the elements", "why_tests_cant": "all permutations of all arrays", "anchors": ["src/dream_arr_rect.cc", "src/dream_arr_circ.cc", "src/dream_arr_cylind.cc", "src/arr_functions.cc", "oct/oct_dream_arr_rect.cc"]}
{"id": "C93", "title": "Moving the array and the observation points together changes nothing", "statement": "For arrays without steering whose delays and weights are user defined or absent, adding the same vector to all element positions and all observation points gives the same responses.", "quantifier": "all front ends, arrays of rectangular, circular or cylindrical elements, observation points, parameters with positive steps for which the response is defined, error levels ignore and warn, numbers of threads, interleavings and contents of fresh memory; exact arithmetic; displacements", "why_tests_cant": "all displacements of all arrays", "anchors": ["src/dream_arr_rect.cc", "src/dream_arr_circ.cc", "src/dream_arr_cylind.cc", "src/arr_functions.cc", "oct/oct_dream_arr_rect.cc"]}
{"id": "C94", "title": "Array responses are linear in user defined weights", "statement": "With weights al w1 + be w2 the responses are al times those with w1 plus be times those with w2.", "quantifier": "all front ends, arrays of rectangular, circular or cylindrical elements, observation points, parameters with positive steps for which the response is defined, error levels ignore and warn, numbers of threads, interleavings and contents of fresh memory; exact arithmetic; weight vectors and factors", "why_tests_cant": "all weight vectors", "anchors": ["src/dream_arr_rect.cc", "src/dream_arr_circ.cc", "src/dream_arr_cylind.cc", "src/arr_functions.cc", "oct/oct_dream_arr_rect.cc"]}
{"id": "C95", "title": "arr_focus_delays focuses the array", "statement": "For a focal depth that is not negative the returned delays make the waves of all elements arrive at the focus at the same time; for a negative one the delays are the travel times from the virtual source behind the array, up to a common time. No delay is negative and at least one is 0.", "quantifier": "all element positions, sound speeds, focal depths and steering angles below 90 degrees; exact arithmetic", "why_tests_cant": "must hold for every array, focus and angle", "anchors": ["m_files/arr_focus_delays.m"]}
{"id": "C96", "title": "h2o_soundspeed returns the sound speed of Del Grosso's formula", "statement": "The returned value is Del Grosso's 1974 formula at the given temperature, pressure and salinity.", "quantifier": "all temperatures, pressures and salinities; exact arithmetic", "why_tests_cant": "a polynomial identity over all arguments; a test compares a few values", "anchors": ["m_files/h2o_soundspeed.m"]}
{"id": "C97", "title": "Pressure units and default arguments of h2o_soundspeed", "statement": "The pressure is converted from the named unit, whose letter case does not matter, with an error below one part in 10^4; an unknown unit is reported and taken as Pa; missing arguments stand for 0 ppt, Pa and 101325 Pa; without arguments nothing is returned.", "quantifier": "all pressures and all unit strings; exact arithmetic", "why_tests_cant": "all strings and all pressures", "anchors": ["m_files/h2o_soundspeed.m"]}
{"id": "C98", "title": "Accuracy of conv_p in double precision", "statement": "conv_p (new matrix, or in place with '=', '+=' or '-=') on matrices of finite doubles returns finite doubles, each of which differs from the exact convolution sample of those doubles (plus or minus the old element) by at most (N+1)*2^-52 times the sum of the absolute values of its terms plus N*2^-1074, where N is the length of the shorter vector, as long as that sum of absolute values is at most 2^1022 and N at most 2^50.", "quantifier": "all finite double matrices of conformable sizes, all worker counts, schedules, fresh memory contents, and all three modes", "why_tests_cant": "the bound has to hold for every choice of doubles and every length; a test compares a few random vectors with another rounded computation", "anchors": ["extra_src/conv.cc: conv", "extra_src/oct_conv_p.cc", "extra_src/mex_conv_p.cc", "julia/src/jl_conv_p.cc"]}
{"id": "C99", "title": "Accuracy of dreamrect, dreamcirc and dreamline in double precision", "statement": "dreamrect, dreamcirc and dreamline, called with doubles of ordinary size (dx, dy, dt, v, cp between 2^-100 and 2^100, everything else at most 2^100), error level 'ignore' or 'warn', no absorption and at most 2^50 source points, return finite doubles each of which is within (n+13)*2^-52, relatively, of the exact discretised Rayleigh integral over the n source points that the loops visit, provided no arrival time is within 6*2^-52*((travel time + |start delay|)/dt) of halfway between two samples, no source point is closer than 2^-100 mm, and sample numbers fit the index type.", "quantifier": "all front ends, all such arguments, any number of observation points, worker counts, schedules and contents of fresh memory, every implementation of the transcendental functions", "why_tests_cant": "the bound has to hold for every choice of doubles and every number of source points; a test compares a few responses with another rounded computation", "anchors": ["src/dreamrect.cc: Rect::dreamrect_serial", "src/dreamcirc.cc: Circ::dreamcirc_serial", "src/dreamline.cc: Line::dreamline_serial", "oct/oct_dreamrect.cc", "mex/mex_dreamrect.cc"]}
{"id": "C100", "title": "Malformed calls of das, das_uni and the analytic functions are refused", "statement": "A call of das, das_uni, circ_sir, scirc_sir or rect_sir that is not refused had the documented number of arguments, matrices with the documented number of rows and columns, one delay or one per point, numbers of one precision, and strings where strings are documented.", "quantifier": "all front ends, all argument lists (any sizes, classes and contents), all worker counts, schedules and histories", "why_tests_cant": "the checks must hold for every combination of sizes and classes of up to eleven arguments; tests try a few wrong calls", "anchors": ["extra_src/oct_das.cc", "extra_src/mex_das.cc", "python/include/py_das.hpp", "julia/include/jl_das.hpp", "extra_src/oct_das_uni.cc", "extra_src/mex_das_uni.cc", "extra_src/oct_circ_sir.cc", "extra_src/oct_scirc_sir.cc", "extra_src/oct_rect_sir.cc", "extra_src/mex_rect_sir.cc"]}
{"id": "C101", "title": "A call does not depend on how earlier calls ended", "statement": "After any history - calls interrupted by CTRL-C, stopped at an out-of-bounds sample, refused, or signals received while no function ran - a call that nothing disturbs computes with its running flag up and ends normally; a call of a transducer function or of das whose workers stop by themselves at level 'stop' ends with an error, whatever signals arrive.", "quantifier": "all four front ends, all functions, every process state (handlers, flags), every interleaving of signals with the steps of the call", "why_tests_cant": "the flags and handlers are process-wide state left behind by every earlier call; a test sees only a few histories", "anchors": ["src/dreamrect.cc: Rect::dreamrect, Rect::abort", "extra_src/das.cc", "extra_src/oct_conv_p.cc: sighandler", "extra_src/fftconv_p.cc", "oct/oct_dreamrect.cc"]}
{"id": "C102", "title": "dreamrect and dreamline compute the exact discretised Rayleigh integral up to a known rounding error", "statement": "If the sides of the rectangle (the line) are a whole number of steps, give or take a quarter of a step, the parameters have ordinary sizes and no arrival time is within the rounding error of halfway between two samples, then every sample that dreamrect (dreamline) returns in double precision is finite and differs from the discretised Rayleigh integral over the exact midpoints of the aperture by a relative error of at most (n+13) eps + 2 rho, n the number of source points and rho the accumulated drift of the aperture loops relative to the distance of the observation point.", "quantifier": "all four front ends, all parameters, observation points and delays of ordinary size, all apertures of up to 2^24 by 2^24 steps, all numbers of threads, schedules and contents of fresh memory", "why_tests_cant": "the aperture loops add the step again and again, so the error of the source points grows with their number; a test compares a few outputs with another rounded computation", "anchors": ["src/dreamrect.cc: dreamrect_serial", "src/dreamline.cc: dreamline_serial", "oct/oct_dreamrect.cc", "mex/mex_dreamrect.cc", "python/src/py_dreamrect.cc", "julia/src/jl_dreamrect.cc"]}
{"id": "C103", "title": "The sound speed only rescales time", "statement": "In a medium s times as fast, sampled with a period s times as short and with start delays and user defined delays s times as short, every sample of every response is exactly s times as large (single element transducers and arrays).", "quantifier": "all s > 0, all transducers but the annular array, all front ends, parameters, observation points, numbers of workers and schedules (exact arithmetic)", "why_tests_cant": "a relation between two calls with arbitrary real parameters", "anchors": ["src/dreamrect.cc", "src/dreamsphere.cc", "src/dreamcylind.cc", "src/dreamrect_f.cc", "src/dream_arr_rect.cc", "src/arr_functions.cc"]}
{"id": "C104", "title": "Array focusing concentrates the wave at the focus", "statement": "If the focusing and steering delays make the waves of the element centres meet at a point P at time T (which the method xy does at (0,0,F), and the delays of arr_focus_delays given as user defined delays do at the chosen depth and angle), then at P every sample further from T than the travel time over the radius of an element plus half a sample is 0.", "quantifier": "all arrays of rectangular, circular or cylindrical elements, all delays, points, start delays, front ends and schedules (exact arithmetic)", "why_tests_cant": "a statement about all element positions, sizes and focal points", "anchors": ["src/arr_functions.cc: focusing", "src/dream_arr_rect.cc", "src/dream_arr_circ.cc", "src/dream_arr_cylind.cc", "m_files/arr_focus_delays.m"]}
{"id": "C105", "title": "das images in double precision are the exact delay-and-sum images up to a known rounding error", "statement": "If every two-way travel time is clear of the sampling instants by 8 eps of itself, then das reads the same samples as exact arithmetic: every image value it returns in double precision is finite and differs from the exact delay-and-sum value by at most (number of A-scans) eps times the image of the absolute values of the data, the status and the decision to stop are those of exact arithmetic, and with level stop and a sample outside the record the call ends in an error.", "quantifier": "all four front ends, all data, element and image point positions, delays, sound speeds and sampling periods of ordinary size, all four methods, all numbers of threads, schedules and contents of fresh memory", "why_tests_cant": "the sample index is a truncated floating point number, so one rounding error in a travel time reads another sample; a test sees a few geometries only", "anchors": ["extra_src/das.cc: DAS::das_saft_serial, das_tfm_serial, das_rca_serial_coltx, das_rca_serial_rowtx, smp_das", "extra_src/oct_das.cc", "extra_src/mex_das.cc", "python/src/py_das.cc", "julia/src/jl_das.cc"]}
{"id": "C106", "title": "interleaving the single memory accesses of the workers changes nothing and no two workers ever touch the same element", "statement": "A transducer, delay-and-sum or convolution call whose workers execute one load or one store of the result array at a time, in any interleaving and with CTRL-C at any moment, never has two workers about to access the same element, never accesses memory outside the array, and when it returns the array, the status and the abort flag are those of a call whose workers compute whole columns one after the other; so every column of a completed call is the column computed alone, and every column of an aborted call is either untouched or complete.", "quantifier": "all transducers, observation points, attenuation settings, levels, das methods, conv_p and fftconv_p matrices and modes, all numbers of threads, all interleavings of single memory accesses and all times of CTRL-C", "why_tests_cant": "a data race shows only under particular interleavings of individual machine accesses, which no test controls", "anchors": ["src/dreamrect.cc: Rect::smp_dream_rect, dreamrect_serial", "src/dream_arr_rect.cc", "src/dream_arr_annu.cc", "src/attenuation.cc: Attenuation::att", "extra_src/das.cc: DAS::smp_das", "extra_src/conv.cc: Conv::conv", "extra_src/fftconv_p.cc", "extra_src/oct_conv_p.cc"]}
{"id": "C107", "title": "no worker waits for another: calls progress and abort promptly at the level of single memory accesses", "statement": "There is a number of steps, depending on the arguments only, after which a worker has finished whatever the other workers and CTRL-C do in between, so a call returns as soon as every worker has had that many steps; and once the call has been aborted, by CTRL-C or a stop error, no worker goes on to another observation point.", "quantifier": "all transducers, arguments, numbers of threads, interleavings of single memory accesses and times of CTRL-C", "why_tests_cant": "absence of blocking and starvation is a statement about all schedules", "anchors": ["src/dreamrect.cc: Rect::smp_dream_rect, abort", "src/dream_arr_rect.cc", "src/dream_arr_annu.cc", "src/attenuation.cc"]}
{"id": "C108", "title": "The response of a flat transducer converges to the exact field for every pulse", "statement": "For rectangular and circular transducers, focused or not, with sides that need not be whole numbers of steps, and for every bounded signal of bounded slope, summing the returned samples against the signal gives the integral over the transducer surface of the spherical waves (Rayleigh integral) up to an explicit error; with the steps and the sampling period small enough the error is below any tolerance.", "quantifier": "all front ends, plate and disc sizes, focusing methods, steps, sampling periods, velocities, sound speeds, delays, observation points off the plane of the transducer, pulses", "why_tests_cant": "a limit over all step sizes and all pulses", "anchors": ["src/dreamrect.cc: dreamrect_serial", "src/dreamrect_f.cc", "src/dreamcirc.cc: dreamcirc_serial", "src/dreamcirc_f.cc"]}
{"id": "C109", "title": "A simulated signal is the exact field", "statement": "Calling a transducer function and then conv_p or fftconv_p on the returned matrix and the samples of an excitation gives, for every observation point and every time of the record, the field of the vibrating surface (of the weighted and delayed rings) at that point and time up to an explicit error that vanishes with the steps and the sampling period.", "quantifier": "all front ends, flat, cylindrical, line and annular-array transducers, excitations of bounded slope, parameters, observation points, thread schedules of both calls", "why_tests_cant": "a statement about two calls and all pulses with a limit over the discretisation", "anchors": ["src/dreamrect.cc", "src/dreamcirc.cc", "include/conv.h", "include/fftconv.h", "extra_src/oct_conv_p.cc", "extra_src/oct_fftconv_p.cc", "src/dreamcylind.cc", "src/dreamline.cc", "src/dream_arr_annu.cc"]}
{"id": "C110", "title": "The responses of dreamcylind and dreamline converge to the exact field for every pulse", "statement": "For a cylindrical transducer (concave or convex) summing the returned samples against a bounded signal of bounded slope gives the integral over the cylinder surface of the spherical waves up to an explicit error that vanishes with the steps and the sampling period; dreamline gives the integral over the line, times the step dy as the width of the strip.", "quantifier": "all front ends, sizes, radii of curvature of either sign, steps, sampling periods, observation points off the cylinder / off the line, pulses", "why_tests_cant": "a limit over all step sizes and all pulses", "anchors": ["src/dreamcylind.cc: dreamcylind_serial, cylind_f, cylind_d", "src/dreamline.cc: dreamline_serial"]}
{"id": "C111", "title": "The response of dreamsphere integrates to the Rayleigh integral over the bowl", "statement": "The time integral of the response of a spherical bowl tends to the Rayleigh integral over the bowl as the steps go to 0.", "quantifier": "all front ends, bowls, steps, sampling periods", "why_tests_cant": "a limit over all step sizes", "anchors": ["src/dreamsphere.cc: dreamsphere_serial (ds = dx * dy)"]}
{"id": "C112", "title": "The response of an array converges to the exact field for every pulse", "statement": "For arrays of rectangular, circular or cylindrical elements, with any focusing, steering and apodization, summing the returned samples against a bounded signal of bounded slope gives the weighted sum over the elements of their surface integrals, each late by its focusing and steering delay, up to an explicit error that vanishes with the steps and the sampling period; and the response followed by conv_p or fftconv_p with the samples of an excitation gives the field of the array at every time of the record up to that error.", "quantifier": "all front ends, element shapes, arrays, focusing, steering and apodization, steps, sampling periods, observation points off the elements, pulses, thread schedules of both calls", "why_tests_cant": "a limit over all step sizes, all arrays and all pulses", "anchors": ["src/dream_arr_rect.cc, src/dream_arr_circ.cc, src/dream_arr_cylind.cc: *_serial", "src/arr_functions.cc: focusing, steering, apodization", "src/conv.cc, src/fftconv.cc"]}
{"id": "C113", "title": "The response of an annular array converges to the exact field for every pulse", "statement": "Summing the returned samples of dream_arr_annu against a bounded signal of bounded slope gives the weighted sum over the rings of their surface integrals, each late by its focusing delay, up to an explicit error that vanishes with the steps and the sampling period.", "quantifier": "all front ends, radii (with or without a centre disc), focusing, windows the function honours, steps, sampling periods, observation points off the plane, pulses, schedules", "why_tests_cant": "a limit over all step sizes, all arrays and all pulses", "anchors": ["src/dream_arr_annu.cc: dream_arr_annu_serial, superpos_annular, focusing_annular"]}
{"id": "C114", "title": "No sample of the response of an annular array is negative", "statement": "With a velocity and weights that are not negative no sample of the response of dream_arr_annu is negative.", "quantifier": "all front ends, radii, observation points, parameters", "why_tests_cant": "every geometry and grid step", "anchors": ["src/dream_arr_annu.cc: resp_annular (outer disc minus inner disc)"]}
{"id": "C115", "title": "In an absorbing medium the returned matrix holds the sum of the absorbed pulses", "statement": "A documented call of a transducer or array function with an absorption coefficient returns the matrix whose column n is the sum over the source points of the pulse each sends to observation point n: strength times the inverse DFT of the sampled Green's function (damping exp(-alpha f r), dispersion phase, arrival sample).", "quantifier": "all front ends, seven transducers and three kinds of arrays, absorption coefficients above 2^-52, geometries, observation points, delays, schedules and worker counts", "why_tests_cant": "every argument list, record length and schedule; needs an exact inverse transform as reference", "anchors": ["src/attenuation.cc: Attenuation::att", "src/dreamrect.cc: dreamrect_serial(Attenuation&...)", "src/dream_arr_rect.cc", "oct/oct_dreamrect.cc"]}
{"id": "C116", "title": "Absorption damps every frequency", "statement": "Bin k of the spectrum of a returned column is at most the sum of the source strengths times exp(-alpha f_k r0), r0 the distance of the nearest source point; for the point source of dream_att it is exactly exp(-alpha f_k r).", "quantifier": "all calls in absorbing media, all bins below the Nyquist frequency", "why_tests_cant": "every frequency, distance and geometry", "anchors": ["src/attenuation.cc: Attenuation::att", "oct/oct_dream_att.cc"]}
{"id": "C117", "title": "Absorption does not change the time integral of a response", "statement": "The samples of a column in an absorbing medium add up to the same as those of the lossless call with the same arguments.", "quantifier": "transducers and arrays, all pairs of calls that differ in the absorption coefficient, front end, schedule and worker count only", "why_tests_cant": "every geometry, record length and coefficient", "anchors": ["src/attenuation.cc: Attenuation::att (xc[0] = 1)"]}
{"id": "C118", "title": "In an absorbing medium there is no sound before the first arrival", "statement": "If no source point arrives before sample k, sample k of the response in an absorbing medium is 0.", "quantifier": "all absorption coefficients, record lengths and geometries", "why_tests_cant": "every coefficient and record length", "anchors": ["src/attenuation.cc: Attenuation::att (circular inverse transform of len nt)"]}
{"id": "C119", "title": "Mirrored transducers and arrays have mirrored fields", "statement": "When the elements are a whole number of steps wide: the response at the mirror image (in x or in y) of a point is that at the point, for a single transducer and for an array that is its own mirror image and not steered in that direction; and the mirrored array (positions mirrored, steered to the other side) has at the mirrored points the response of the array, with the start delay less the travel time of the steered wave along the array.", "quantifier": "both axes, all front ends, element shapes with that symmetry, arrays with any focusing, steering and apodization, observation points, delays, schedules", "why_tests_cant": "every array, angle and point", "anchors": ["src/dream_arr_rect.cc: dream_arr_rect_serial", "src/arr_functions.cc: focusing, beamsteering, apodization", "src/dreamrect.cc: dreamrect_serial"]}
{"id": "C120", "title": "The x and y axes are interchangeable", "statement": "Exchanging x and y in the size of a rectangular transducer or element, the steps, the element positions, the observation points, the focusing and the steering gives the same response.", "quantifier": "all front ends, rectangles plain and focused, arrays of rectangles with any focusing, steering and apodization, observation points, delays, schedules", "why_tests_cant": "every geometry and point; a swapped axis in one of the formulas shows only for some", "anchors": ["src/dreamrect.cc: dreamrect_serial", "src/dreamrect_f.cc: focus_delay_rect", "src/dream_arr_rect.cc: dream_arr_rect_serial", "src/arr_functions.cc"]}
{"id": "C121", "title": "A start delay of whole sampling periods shifts the matrix of a call", "statement": "Increasing the start delays of a call of a transducer or array function by j sampling periods moves every column of the returned matrix j samples towards the beginning.", "quantifier": "all front ends, transducers, arrays, delays, integers j, schedules", "why_tests_cant": "every geometry, delay and shift", "anchors": ["src/dreamrect.cc: dreamrect_serial", "src/dream_arr_rect.cc: dream_arr_rect_serial"]}
{"id": "C122", "title": "In an absorbing medium a start delay of whole sampling periods turns the record around", "statement": "Two calls in an absorbing medium whose start delays differ by j sampling periods, with every wave arriving inside the record in both, return the same columns turned around by j samples modulo the record length (j even, or no wave arriving exactly half way between two samples): what moves out at the beginning of the record comes back at its end.", "quantifier": "all front ends, transducers, arrays, absorption coefficients, record lengths, delays, integers j, schedules", "why_tests_cant": "every geometry, record length, coefficient and shift; the wrap around shows only in long tails", "anchors": ["src/attenuation.cc: Attenuation::att (phase of the arrival, circular inverse transform)", "src/dreamrect.cc: dreamrect_serial", "src/dream_arr_rect.cc: dream_arr_rect_serial"]}
{"id": "C123", "title": "The energy of a response in an absorbing medium is bounded by the absorption over the shortest way", "statement": "The energy of a column (the sum of the squares of its samples) in an absorbing medium is at most the squared sum of the strengths of the source points (of all elements) heard, times what is left of the energy of a unit pulse after the distance to the nearest source point, which is at most 1; for a point source (dream_att) and a record of odd length it is exactly that.", "quantifier": "all front ends, transducers, arrays with any focusing, steering and apodization, absorption coefficients, record lengths, points, delays, schedules", "why_tests_cant": "every geometry, record length and coefficient", "anchors": ["src/attenuation.cc: Attenuation::att", "src/dreamrect.cc: dreamrect_serial", "src/dream_arr_rect.cc: dream_arr_rect_serial", "oct/oct_dream_att.cc"]}
{"id": "C124", "title": "The symmetries of transducers and arrays hold in an absorbing medium", "statement": "In an absorbing medium as in a lossless one: a transducer with a whole number of source points gives the same columns at points mirrored in the x or y plane and, with the axes exchanged, at the points with x and y exchanged; a mirrored array at mirrored points, an array with its axes exchanged, an array whose elements are listed in another order, and an array moved together with its points return the same columns; and the columns are linear in user-defined element weights.", "quantifier": "all front ends, transducers, arrays with any focusing, steering and apodization, absorption coefficients, points, delays, schedules", "why_tests_cant": "every geometry, absorption coefficient, array and permutation", "anchors": ["src/attenuation.cc: Attenuation::att", "src/dreamrect.cc: dreamrect_serial", "src/dream_arr_rect.cc: dream_arr_rect_serial", "src/arr_functions.cc: focusing, beamsteering, apodization"]}
{"id": "C125", "title": "Similarity in an absorbing medium", "statement": "Scaling all lengths of a call (transducer, source spacing, observation points, element positions, focal length) and its sampling period and delays by one factor s > 0, in the same medium, returns the same columns: the absorption coefficient, given per length and frequency, needs no change.", "quantifier": "all front ends, transducers, arrays, factors s > 0, absorption coefficients, points, delays, schedules", "why_tests_cant": "every geometry, factor and coefficient", "anchors": ["src/attenuation.cc: Attenuation::att", "src/dreamrect.cc: dreamrect_serial", "src/dream_arr_rect.cc: dream_arr_rect_serial", "src/arr_functions.cc: focusing, beamsteering, apodization"]}
{"id": "C126", "title": "Weak absorption changes a response little", "statement": "Each sample of a column computed in a medium with absorption coefficient alpha differs from the same sample of the lossless call by at most alpha/(173.72 dt) (1 + 2/pi ln nt) times the sum, over the source points (of all elements) heard, of strength times distance: no absorption is the limit of weak absorption although the two are computed by different code.", "quantifier": "all front ends, transducers, arrays with any focusing, steering and apodization, absorption coefficients, record lengths, points, delays, schedules", "why_tests_cant": "every geometry, record length and coefficient, arbitrarily small ones included", "anchors": ["src/attenuation.cc: Attenuation::att", "src/dreamrect.cc: dreamrect_serial", "src/dream_arr_rect.cc: dream_arr_rect_serial", "src/arr_functions.cc: focusing, beamsteering, apodization"]}
{"id": "C127", "title": "Accuracy of dream_arr_rect and dream_arr_circ in double precision", "statement": "In IEEE double precision, in a lossless medium, every sample returned by dream_arr_rect and dream_arr_circ for an unsteered array without focusing or with user-defined delays, and without apodization or with positive user-defined weights, is finite and within (number of elements times source points per element + 19) units in the last place, relative, of the exact weighted sum over the elements of the discretised Rayleigh integrals at the element positions, with the element delays: no cancellation, loss of small elements or accumulation beyond the number of terms.", "quantifier": "all front ends, geometries, arrays of any size, points, delays, weights of ordinary magnitude (2^-100..2^100), records, schedules, contents of fresh memory; arrival times not within 9 eps of halfway between samples", "why_tests_cant": "every array, grid size and rounding", "anchors": ["src/dream_arr_rect.cc: dream_arr_rect_serial", "src/dream_arr_circ.cc: dream_arr_circ_serial", "src/arr_functions.cc: max_dim_arr, focusing, apodization"]}
{"id": "C128", "title": "Every call gives back what it takes", "statement": "A call holds the thread data, the FFT plans, the matrix table and the work buffers whenever one of its threads uses them, starts and joins each worker thread exactly once, always returns, and has, when it has returned (completed, interrupted by CTRL-C, or stopped at an out-of-bounds delay), given back everything it took, so that a session can make any number of calls.", "quantifier": "all functions, numbers of threads, numbers of observation points, schedules, places where workers stop; any sequence of calls", "why_tests_cant": "every schedule and every history of calls", "anchors": ["include/fft.h: FFT", "include/attenuation.h: Attenuation", "src/dreamrect.cc: Rect::dreamrect", "extra_src/das.cc: das", "extra_src/oct_sum_fftconv.cc: sum_fftconv", "extra_src/oct_fftconv_p.cc: fftconv_p"]}
{"id": "C129", "title": "Convolution, copying, delay-and-sum and analytic responses at single memory accesses", "statement": "However the single loads and stores of the worker threads interleave, a convolution, copy or add, delay-and-sum or analytic-response call makes no access outside its arrays, every worker finishes after a bounded number of its own steps, a completed call holds exactly the specified values (those of the same call with one thread), and an interrupted one holds whole computed columns and otherwise what was there before.", "quantifier": "all argument values the functions accept, numbers of threads, interleavings of single memory accesses, and CTRL-C instants", "why_tests_cant": "every interleaving of single memory accesses", "anchors": ["extra_src/conv.cc: conv", "extra_src/fftconv.cc: fftconv", "extra_src/oct_fftconv_ola.cc: fftconv_ola", "extra_src/oct_copy_p.cc: copy_p", "extra_src/oct_add_p.cc: add_p", "extra_src/oct_sum_fftconv.cc: sum_fftconv", "extra_src/das.cc: das", "extra_src/rect_sir.cc: rect_sir"]}
{"id": "C130", "title": "Delayed and reordered stores, and stop flags read late", "statement": "On a machine whose processors keep stores back and let them reach the memory later and in another order, and whose workers may see the cleared stop flag late, a call behaves as on one that does not: no access outside the arrays; once its workers have made a bounded number of steps the stores under way need only reach the memory for the call to return; and what it returns, the caller having joined the threads, is a result it can return when every store takes effect at once: the specified values if it was not interrupted, whole columns if it was.", "quantifier": "all argument values the functions accept, numbers of threads, interleavings, orders in which stores reach the memory, and delays of the stop flag", "why_tests_cant": "every interleaving and every order in which the memory receives the stores", "anchors": ["src/dreamrect.cc: Rect::dreamrect", "src/dreamrect.cc: Rect::smp_dream_rect", "extra_src/das.cc: das", "extra_src/oct_conv_p.cc: smp_dream_conv", "extra_src/fftconv_p.cc: smp_dream_fftconv", "extra_src/oct_fftconv_ola.cc: smp_dream_fftconv_ola", "extra_src/oct_sum_fftconv.cc: smp_dream_sum_fftconv", "extra_src/oct_copy_p.cc: smp_dream_copy_p", "extra_src/oct_circ_sir.cc: smp_dream_circ_sir"]}
{"id": "C131", "title": "The sound speed only rescales time in an absorbing medium", "statement": "In a medium s times as fast whose absorption coefficient (dB per cm and MHz) is s times as small, sampled with a period s times as short and with start delays and user defined delays s times as short, every sample of every response is exactly s times as large.", "quantifier": "all s > 0, front ends, single element transducers and arrays with any focusing, steering and apodization, absorption coefficients (above the threshold of the code in both media), points, delays, schedules (exact arithmetic)", "why_tests_cant": "a relation between two calls with arbitrary real parameters", "anchors": ["src/attenuation.cc: Attenuation::att", "src/dreamrect.cc: dreamrect_serial", "src/dream_arr_rect.cc: dream_arr_rect_serial", "src/arr_functions.cc: focusing, beamsteering"]}
{"id": "C132", "title": "Signals in an absorbing medium", "statement": "A matrix of responses computed in an absorbing medium, convolved with a sampled excitation by conv_p or fftconv_p, is at every observation point and sample of the longer record the sum over the source points (of all elements) heard of strength times the excitation as the medium passes it over the way from that point; its time integral is that of the excitation times the sum of the strengths, whatever the absorption; its energy is at most the squared sum of magnitudes of the excitation times the squared sum of strengths times the energy the medium leaves of a unit pulse over the shortest way.", "quantifier": "all front ends, single element transducers and arrays with any focusing, steering and apodization, absorption coefficients, excitations, record lengths, points, delays, schedules of both calls (exact arithmetic)", "why_tests_cant": "every excitation, geometry and coefficient, two calls in sequence, every schedule of each", "anchors": ["src/attenuation.cc: Attenuation::att", "src/dreamrect.cc: Rect::dreamrect", "include/conv.h: conv", "include/fftconv.h: fftconv"]}
{"id": "C133", "title": "das_uni images in double precision", "statement": "Every value of an image computed by the uniform-grid beamformer (das_uni) in double precision is a finite double within (number of A-scans) eps of the exact delay-and-sum value over the elements of the grid, relative to the image of the absolute values of the data (elements and image points being those of the exact grids up to rounding): for TFM, SAFT (delay counted once) and row-column arrays with any numbers of rows and columns.", "quantifier": "all data, grids, images, delays, sound speeds, sampling periods and elementary functions, for travel times that are not within rounding of a sampling instant and images that do not overflow", "why_tests_cant": "every rounding of every sum of any length over every grid", "anchors": ["opencl/das_uni_double.cl", "include/das_uni.h: DAS_UNI::cl_das_uni"]}
{"id": "C134", "title": "GPU das images in double precision", "statement": "Every value of a TFM, SAFT or row-column image computed on the GPU in double precision is a finite double within (number of A-scans) eps of the exact delay-and-sum value, relative to the image of the absolute values of the data.", "quantifier": "all data, element positions, image points, delays, sound speeds and sampling periods, all previous contents of the result buffer, for travel times that are not within rounding of a sampling instant and fit in 32 bits, and images that do not overflow", "why_tests_cant": "every rounding of every sum of any length, in every work item", "anchors": ["opencl/das_double.cl", "opencl/cl_das.cc: DAS::cl_das"]}
