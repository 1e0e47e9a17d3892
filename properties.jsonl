{"id": "C01", "title": "Scattering1D can always pad its input legally", "statement": "For every signal length N >= 1 and whatever temporal support is estimated for the low-pass filter, constructing a 1-D scattering object chooses a padded length that is a power of two with N <= N_padded <= 3N-2, and a left and a right padding that are non-negative, sum with N to N_padded, differ by at most one sample and are both strictly smaller than N. Construction therefore never raises the padding ValueErrors, and reflection padding of an input of length N is always defined.", "quantifier": "all signal lengths N >= 1 and all non-negative support estimates", "why_tests_cant": "The support estimate comes out of floating-point filter computations and N is unbounded; tests try a handful of lengths.", "anchors": ["kymatio/scattering1d/frontend/base_frontend.py:ScatteringBase1D.build", "kymatio/scattering1d/utils.py:compute_padding", "kymatio/scattering1d/backend/numpy_backend.py:NumpyBackend1D.pad"]}
{"id": "C02", "title": "compute_padding contract", "statement": "compute_padding(N, N_input) returns a pair exactly when N_input <= N and ceil((N-N_input)/2) < N_input; in every other case it raises ValueError. When it returns (l, r): l >= 0, r >= 0, l + N_input + r = N and l <= r <= l+1.", "quantifier": "all pairs of non-negative integers N, N_input", "why_tests_cant": "An exact characterisation of when the exception is raised quantifies over all integer pairs.", "anchors": ["kymatio/scattering1d/utils.py:compute_padding"]}
{"id": "C03", "title": "Border indices select exactly the subsampled instants inside the original signal", "statement": "For every resolution j up to max(log2_T, J), an index m of the signal subsampled by 2**j satisfies ind_start[j] <= m < ind_end[j] if and only if the instant m*2**j lies in [i0, i1). Equivalently both bounds are ceil(i/2**j): no instant of the original signal is dropped and no padding instant is kept; and both dictionaries have exactly the keys 0..max(log2_T,J).", "quantifier": "all 0 <= i0 <= i1, all log2_T, J >= 0, all resolutions and all indices", "why_tests_cant": "A test checks one random interval; the claim is for every interval and every scale.", "anchors": ["kymatio/scattering1d/utils.py:compute_border_indices"]}
{"id": "C04", "title": "Number of time samples returned by Scattering1D with local averaging", "statement": "With local averaging and an admissible stride s (a power of two dividing N_padded, at most 2**max(log2_T,J)), every returned path has the same number of time samples, equal to the number of multiples of s in [pad_left, pad_left+N); it is between floor(N/s) and ceil(N/s), and the unpadding slice never runs past the end of the padded subsampled array.", "quantifier": "all signal lengths, all support estimates, all admissible strides, all paths", "why_tests_cant": "Off-by-one errors at the borders appear only for particular residues of the padding modulo the stride.", "anchors": ["kymatio/scattering1d/frontend/base_frontend.py:ScatteringBase1D.scattering", "kymatio/scattering1d/utils.py:compute_border_indices", "kymatio/scattering1d/backend/numpy_backend.py:NumpyBackend1D.unpad"]}
{"id": "C05", "title": "Meaning of the T (and F) parameter", "statement": "T=None means local averaging with support 2**J; T=\"global\" means global averaging; T=0 means no averaging; 1 <= T <= N means local averaging with support T; any T > N and any T in (0,1) or negative is rejected with ValueError; no other outcome exists. The same table holds for the frequential parameter F with the number (J+1)*Q1 in place of N.", "quantifier": "all values of T (absent, the string, any number), all J and N", "why_tests_cant": "The input space is infinite and the branch order (T > N is tested before T == 0) matters for degenerate N.", "anchors": ["kymatio/scattering1d/utils.py:parse_T", "kymatio/scattering1d/frontend/base_frontend.py:ScatteringBase1D.average", "kymatio/scattering1d/frontend/base_frontend.py:ScatteringBase1D.T", "kymatio/scattering1d/frontend/base_frontend.py:TimeFrequencyScatteringBase.average_fr"]}
{"id": "C06", "title": "Meaning of the Q parameter", "statement": "An integer Q >= 1 or a 1-tuple (Q,) mean Q wavelets per octave at order one and one at order two; a pair (Q1,Q2) of numbers >= 1 is used as is; any entry below 1 raises ValueError; longer tuples raise NotImplementedError; anything else (float, list) raises ValueError. (The last step of the constructor only survives integers: a float entry >= 1 of the pair passes these checks and then raises TypeError in the filter-bank generator.)", "quantifier": "all values passed as Q", "why_tests_cant": "Infinite input space with mutually exclusive branches evaluated in a fixed order.", "anchors": ["kymatio/scattering1d/frontend/base_frontend.py:ScatteringBase1D.Q", "kymatio/scattering1d/filter_bank.py:anden_generator"]}
{"id": "C07", "title": "Stride validation and round trip", "statement": "The log2_stride/stride attributes: with no stride given, the stride is 2**floor(log2 T). A given stride is accepted if and only if it is an integer, a power of two (>= 1) and averaging is local, in which case stride returns exactly the value given; otherwise ValueError is raised.", "quantifier": "all stride values, all T modes, all J", "why_tests_cant": "Exact acceptance set over all integers; tests try 17 and \"noninteger\".", "anchors": ["kymatio/scattering1d/frontend/base_frontend.py:ScatteringBase1D.log2_stride", "kymatio/scattering1d/frontend/base_frontend.py:ScatteringBase1D.stride"]}
{"id": "C08", "title": "oversampling is equivalent to the stride documented in its deprecation message", "statement": "Building with oversampling=k and no stride behaves as building with stride=2**(log2_T-k) whenever 0 < k <= log2_T and averaging is local; passing both oversampling=k and that very stride must be accepted, and a conflicting stride must be rejected.", "quantifier": "all J, T, oversampling values and strides", "why_tests_cant": "Needs a relation between two constructor calls for all parameter values.", "anchors": ["kymatio/scattering1d/frontend/base_frontend.py:ScatteringBase1D.build", "kymatio/scattering1d/frontend/base_frontend.py:ScatteringBase1D.log2_stride"]}
{"id": "C09", "title": "The wavelet frequency generator always terminates with ordered, admissible frequencies", "statement": "For every J >= 0 and every integer Q >= 1 the filterbank generator stops; the centre frequencies it yields are strictly decreasing, lie strictly between 0 and 1/2, bandwidths are non-increasing and never below sigma0/2**J; each bandwidth equals the larger of the constant-Q bandwidth of its frequency and sigma0/2**J.", "quantifier": "all J >= 0, all integers Q >= 1 (exact real arithmetic)", "why_tests_cant": "A while loop over real quantities: termination and ordering for all (J,Q) cannot be enumerated.", "anchors": ["kymatio/scattering1d/filter_bank.py:anden_generator", "kymatio/scattering1d/filter_bank.py:compute_sigma_psi", "kymatio/scattering1d/filter_bank.py:compute_xi_max"]}
{"id": "C10", "title": "The scale attached to a wavelet is the maximal alias-free dyadic subsampling", "statement": "For xi and sigma > 0, alpha > 0, get_max_dyadic_subsampling returns the largest integer j such that min(|xi|+alpha*sigma, 1/2) <= 2**-(j+1); j is non-negative, and depends only on |xi| (so opposite spins share the same scale). The docstring states the strict inequality.", "quantifier": "all real xi, all sigma, alpha > 0", "why_tests_cant": "Boundary behaviour of floor(-log2 .) over a continuum.", "anchors": ["kymatio/scattering1d/filter_bank.py:get_max_dyadic_subsampling"]}
{"id": "C11", "title": "Construction never trips its own filterbank assertions", "statement": "For every J >= 0 and quality factors Q1, Q2 >= 1 accepted by the Q parameter, the two assertions checked at construction hold: each first-order wavelet satisfies xi < 0.5/2**j, and whenever j1 < j2 the first-order wavelet has the higher centre frequency (xi1 > xi2).", "quantifier": "all J >= 0, all integers Q1, Q2 >= 1 (exact real arithmetic)", "why_tests_cant": "An implication over all pairs of wavelets of two infinite families of filterbanks.", "anchors": ["kymatio/frontend/base_frontend.py:ScatteringBase._check_filterbanks", "kymatio/scattering1d/filter_bank.py:anden_generator", "kymatio/scattering1d/filter_bank.py:get_max_dyadic_subsampling"]}
{"id": "C12", "title": "Scales are bounded by J and sorted along the filterbank", "statement": "For every J, Q the scales j attached to the wavelets of a filterbank are non-decreasing along the filterbank, non-negative and at most max(J-1,0); consequently the first-order wavelets with j1 < j2 always form a prefix n1 = 0..n1_max-1 of the filterbank, which is what time-frequency scattering assumes when it labels rows by n1.", "quantifier": "all J >= 0, Q >= 1, all j2", "why_tests_cant": "Monotonicity over an unbounded real sequence.", "anchors": ["kymatio/scattering1d/filter_bank.py:anden_generator", "kymatio/scattering1d/filter_bank.py:get_max_dyadic_subsampling", "kymatio/scattering1d/core/timefrequency_scattering.py:time_scattering_widthfirst"]}
{"id": "C13", "title": "The frequency axis has room for every first-order wavelet", "statement": "For every J >= 0 and Q >= 1 the number of first-order wavelets is at least 1 when Q >= 2 or J >= 0, and at most (J+1)*Q, the value time-frequency scattering uses as the length of the frequency axis.", "quantifier": "all J >= 0, all integers Q >= 1 (exact real arithmetic)", "why_tests_cant": "Counts the iterations of a real-valued while loop for all parameters.", "anchors": ["kymatio/scattering1d/filter_bank.py:anden_generator", "kymatio/scattering1d/frontend/base_frontend.py:TimeFrequencyScatteringBase.build"]}
{"id": "C14", "title": "Scattering1D never indexes a missing filter resolution", "statement": "For a constructed Scattering1D object with local averaging and stride at most 2**log2_T, or with global or no averaging, calling scattering never raises IndexError: for every pair of wavelets that is traversed, the second-order filter and the low-pass filter have been tabulated at the resolution at which they are looked up.", "quantifier": "all J, Q1 >= Q2, T, strides, all pairs of wavelets", "why_tests_cant": "The tabulated levels depend on max/min expressions of several parameters; bugs #981 and #976 were exactly missed corners.", "anchors": ["kymatio/scattering1d/filter_bank.py:scattering_filter_factory", "kymatio/scattering1d/core/scattering1d.py:scattering1d"]}
{"id": "C15", "title": "Scattering1D is total on well-formed inputs and returns the documented shape", "statement": "For every accepted configuration with local averaging and every real array of shape batch+(N,), scattering returns without exception; with out_type=\"array\" the result has shape batch+(C,L) where C is the number of paths and L the common number of time samples.", "quantifier": "all batch shapes, all lengths, all filterbanks with admissible scales, all input values", "why_tests_cant": "Unbounded batch shapes and configurations; any single reshape or stack error breaks it.", "anchors": ["kymatio/scattering1d/frontend/base_frontend.py:ScatteringBase1D.scattering", "kymatio/scattering1d/core/scattering1d.py:scattering1d", "kymatio/backend/numpy_backend.py:NumpyBackend.reshape_input", "kymatio/backend/numpy_backend.py:NumpyBackend.reshape_output"]}
{"id": "C16", "title": "Which paths Scattering1D computes and in which order it returns them", "statement": "The returned list is: the zeroth-order path (), then (n1,) for every first-order wavelet in increasing n1, then, if max_order = 2, exactly the pairs (n1,n2) with j2 > j1 in lexicographic order. Path keys are pairwise distinct and every path carries the scales of its own wavelets.", "quantifier": "all filterbanks, all max_order in {1,2}, all averaging modes, all backends", "why_tests_cant": "The generator interleaves orders and a later sort reorders them; correctness is for every filterbank.", "anchors": ["kymatio/scattering1d/core/scattering1d.py:scattering1d", "kymatio/scattering1d/frontend/base_frontend.py:ScatteringBase1D.scattering"]}
{"id": "C17", "title": "The three output types of Scattering1D carry the same coefficients", "statement": "With the same input, out_type=\"dict\" maps exactly the keys of the list output to the same coefficients (no path is overwritten), and the k-th channel of out_type=\"array\" is the coefficient of the k-th element of out_type=\"list\".", "quantifier": "all inputs and configurations for which the call succeeds", "why_tests_cant": "Relates three executions for all inputs.", "anchors": ["kymatio/scattering1d/frontend/base_frontend.py:ScatteringBase1D.scattering", "kymatio/backend/numpy_backend.py:NumpyBackend.stack"]}
{"id": "C18", "title": "meta() describes the channels of the output in order", "statement": "When meta() returns, row k of meta()[\"key\"], [\"n\"], [\"order\"], [\"j\"], [\"xi\"], [\"sigma\"] describes the k-th channel of the array/list output of scattering for the same object: same key, the order equals the key length, and j, xi, sigma are those of the wavelets in the key, with NaN in the unused columns. And meta() returns whenever the object was constructed.", "quantifier": "all filterbanks and configurations", "why_tests_cant": "Alignment of two independently generated sequences for every configuration.", "anchors": ["kymatio/scattering1d/frontend/base_frontend.py:ScatteringBase1D.meta", "kymatio/scattering1d/frontend/base_frontend.py:ScatteringBase1D.scattering", "kymatio/frontend/base_frontend.py:ScatteringBase._DryBackend"]}
{"id": "C19", "title": "output_size() counts the channels", "statement": "When it returns, output_size() equals the number of channels produced by scattering, and output_size(detail=True) lists the number of channels per order, summing to it: 1, the number of first-order wavelets and the number of pairs with j1 < j2.", "quantifier": "all filterbanks and configurations", "why_tests_cant": "Counting argument over all filterbanks.", "anchors": ["kymatio/scattering1d/frontend/base_frontend.py:ScatteringBase1D.output_size"]}
{"id": "C20", "title": "max_order=1 returns a prefix of max_order=2", "statement": "For the same input and configuration, the list returned with max_order=1 is exactly the zeroth- and first-order part of the list returned with max_order=2, with the same coefficients.", "quantifier": "all inputs and configurations", "why_tests_cant": "Relational property over pairs of executions.", "anchors": ["kymatio/scattering1d/core/scattering1d.py:scattering1d", "kymatio/scattering1d/frontend/base_frontend.py:ScatteringBase1D.scattering"]}
{"id": "C21", "title": "An input of the wrong length is never silently transformed", "statement": "If the last axis of the input has a length different from the one the Scattering1D object was built for, scattering raises an exception and returns no coefficients, although the length is not checked explicitly.", "quantifier": "all wrong lengths, all configurations, all values", "why_tests_cant": "The rejection is an indirect consequence of filter sizes; must hold for every wrong length.", "anchors": ["kymatio/scattering1d/frontend/base_frontend.py:ScatteringBase1D._check_input", "kymatio/backend/numpy_backend.py:NumpyBackend.cdgmm", "kymatio/scattering1d/backend/numpy_backend.py:NumpyBackend1D.pad"]}
{"id": "C22", "title": "Batch elements are independent", "statement": "The coefficients returned at any multi-index of the batch axes are exactly those obtained by transforming that signal alone; reshaping the batch axes does not change them.", "quantifier": "all batch shapes, all signals, all configurations with local, global or no averaging", "why_tests_cant": "Cross-talk between batch entries through reshape, stack or broadcasting can only be excluded for all shapes by proof.", "anchors": ["kymatio/scattering1d/frontend/base_frontend.py:ScatteringBase1D.scattering", "kymatio/backend/numpy_backend.py:NumpyBackend.reshape_input", "kymatio/backend/numpy_backend.py:NumpyBackend.reshape_output", "kymatio/scattering1d/backend/numpy_backend.py:NumpyBackend1D.subsample_fourier"]}
{"id": "C23", "title": "Runtime argument checks of Scattering1D", "statement": "scattering raises ValueError if out_type is not one of array, dict, list, or if averaging is disabled (T=0) together with out_type=\"array\", or if the input has no axis; with a valid out_type and averaging enabled or out_type in {dict,list}, these checks pass.", "quantifier": "all out_type strings, all T, all input ranks", "why_tests_cant": "Exact acceptance set.", "anchors": ["kymatio/scattering1d/frontend/base_frontend.py:ScatteringBase1D._check_runtime_args", "kymatio/scattering1d/frontend/base_frontend.py:ScatteringBase1D._check_input"]}
{"id": "C24", "title": "Subsampling in the Fourier domain is decimation in time", "statement": "For every complex signal and every k dividing its length, the inverse DFT of subsample_fourier(x,k) at index u equals the inverse DFT of x at index u*k; if k does not divide the length an exception is raised.", "quantifier": "all lengths, all divisors k, all complex inputs", "why_tests_cant": "An algebraic identity over all signals and lengths.", "anchors": ["kymatio/scattering1d/backend/numpy_backend.py:NumpyBackend1D.subsample_fourier"]}
{"id": "C25", "title": "Zeroth-order coefficients are the low-passed signal sampled at the stride", "statement": "With local averaging the zeroth-order coefficient at time t is the real part of the circular convolution of the padded signal with the low-pass impulse response, evaluated at t*stride.", "quantifier": "all padded signals, all filters, all strides dividing the padded length", "why_tests_cant": "Numerical identity for all inputs.", "anchors": ["kymatio/scattering1d/core/scattering1d.py:scattering1d"]}
{"id": "C26", "title": "First-order coefficients implement |x*psi|*phi", "statement": "The first-order envelope is exactly |x * psi| (circular convolution of the padded signal with the wavelet) sampled every 2**k1 instants, and the first-order coefficient at time t is the real part of the circular convolution of that sampled envelope with the low-pass filter at the same resolution, evaluated at stride.", "quantifier": "all padded signals, all filterbanks, all strides", "why_tests_cant": "Numerical identity for all inputs and resolutions; wrong level or subsampling factor is a silent error.", "anchors": ["kymatio/scattering1d/core/scattering1d.py:scattering1d", "kymatio/scattering1d/backend/numpy_backend.py:NumpyBackend1D"]}
{"id": "C27", "title": "Second-order coefficients implement ||x*psi1|*psi2|*phi", "statement": "The second-order envelope is the modulus of the circular convolution of the (sampled) first-order envelope with the second wavelet at the same resolution, further sampled, and the second-order coefficient is the real part of its circular convolution with the low-pass at that resolution, at the stride.", "quantifier": "all padded signals, all filterbanks, all pairs j2>j1, all strides", "why_tests_cant": "As C26 with two cascaded resolutions.", "anchors": ["kymatio/scattering1d/core/scattering1d.py:scattering1d"]}
{"id": "C28", "title": "Tabulated filter resolutions are the filter sampled in time", "statement": "The filter tabulated at level l is the full-resolution filter whose impulse response is kept at multiples of 2**l and multiplied by 2**l; hence convolving a sampled envelope with it is the Riemann sum of the full-rate convolution. When no product of distinct aliases of the envelope's and the filter's spectra survives, no error is made: the result is the full-rate convolution kept at multiples of 2**l.", "quantifier": "all filters, all levels dividing the length", "why_tests_cant": "Identity for all filters (bug #984 was a wrong normalisation here).", "anchors": ["kymatio/scattering1d/filter_bank.py:scattering_filter_factory"]}
{"id": "C29", "title": "Scattering is positively homogeneous and orders >= 1 ignore the sign", "statement": "Multiplying the input by c >= 0 multiplies every coefficient by c; replacing x by -x negates the zeroth order and leaves all higher orders unchanged.", "quantifier": "all inputs, all c, all configurations", "why_tests_cant": "Relational property over a continuum of inputs.", "anchors": ["kymatio/scattering1d/core/scattering1d.py:scattering1d"]}
{"id": "C30", "title": "Covariance to translations by a multiple of the stride", "statement": "Circularly shifting the padded signal by d*2**s samples, 2**s being the output stride, circularly shifts every locally averaged coefficient by d samples, provided no intermediate subsampling exceeds the stride (which the code guarantees).", "quantifier": "all signals, all shifts, all filterbanks", "why_tests_cant": "Relational property over all signals and shifts.", "anchors": ["kymatio/scattering1d/core/scattering1d.py:scattering1d"]}
{"id": "C31", "title": "Wavelets have exactly zero mean, so constants only produce zeroth-order coefficients", "statement": "Every band-pass filter built by morlet_1d has value exactly 0 at frequency 0, at every tabulated level-0; hence every first- and second-order coefficient of a constant signal is exactly 0 and adding a constant to the padded signal changes only the zeroth order.", "quantifier": "all inputs of at least two samples (one sample: C111), all constants, all signals (exact real arithmetic)", "why_tests_cant": "Exact cancellation for a continuum of parameters.", "anchors": ["kymatio/scattering1d/filter_bank.py:morlet_1d", "kymatio/scattering1d/core/scattering1d.py:scattering1d"]}
{"id": "C32", "title": "Filters are L1-normalised and envelopes never exceed the input", "statement": "For an input of at least two samples each 1-D filter has impulse response of l1 norm exactly 1 (the low-pass filter always), hence the zeroth-order values and first-order envelopes are bounded by max|x|.", "quantifier": "all N, xi, sigma, all signals", "why_tests_cant": "Inequality for all inputs.", "anchors": ["kymatio/scattering1d/filter_bank.py:morlet_1d", "kymatio/scattering1d/filter_bank.py:gauss_1d"]}
{"id": "C33", "title": "Global averaging and no averaging", "statement": "With T=\"global\" each coefficient is the sum over time of the corresponding unaveraged path and has one time sample; with T=0 each order >= 1 coefficient is the non-negative modulus restricted to the original support at resolution 2**j of the last wavelet, and the zeroth order is the input itself, bit for bit, after unpadding.", "quantifier": "all signals and configurations", "why_tests_cant": "Relates different modes for all inputs.", "anchors": ["kymatio/scattering1d/frontend/base_frontend.py:ScatteringBase1D.scattering", "kymatio/scattering1d/backend/numpy_backend.py:NumpyBackend1D.average_global"]}
{"id": "C34", "title": "Reflection padding then unpadding is the identity", "statement": "Padding a signal and slicing it with the border indices at resolution 0 returns the signal; the padded samples are mirror images of the signal about its first and last samples. Each of the NumPy, PyTorch and TensorFlow backends raises ValueError for a padding at least as long as the signal, NumPy also for a negative one; every other padding is accepted (by PyTorch, for inputs with one or two axes before time). PyTorch's unpad raises RuntimeError unless the trailing axis has length 1.", "quantifier": "all signals, all paddings", "why_tests_cant": "For every signal and every padding amount.", "anchors": ["kymatio/scattering1d/backend/numpy_backend.py:NumpyBackend1D.pad", "kymatio/scattering1d/backend/numpy_backend.py:NumpyBackend1D.unpad", "kymatio/scattering1d/backend/torch_backend.py:TorchBackend1D.pad", "kymatio/scattering1d/backend/tensorflow_backend.py:TensorFlowBackend1D.pad"]}
{"id": "C35", "title": "Width-first and depth-first first orders agree", "statement": "The stack of first-order coefficients computed by the width-first time scattering used in JTFS equals, row by row, the first-order coefficients of Scattering1D with local averaging.", "quantifier": "all signals, filterbanks and strides", "why_tests_cant": "A unit test checks one impulse.", "anchors": ["kymatio/scattering1d/core/timefrequency_scattering.py:time_scattering_widthfirst", "kymatio/scattering1d/core/scattering1d.py:scattering1d"]}
{"id": "C36", "title": "JTFS path keys are unique and complete", "statement": "With format=\"joint\" the paths are (), (n_fr,) for every frequential filter of non-negative spin, and (n2,n_fr) for every n2 having some j1<j2 and every frequential filter; with format=\"time\" each such path is split into one path per n1 in range(0, n1_max, n1_stride); all keys are distinct so dictionary output loses nothing.", "quantifier": "all filterbanks, all formats, all averaging modes", "why_tests_cant": "Completeness and uniqueness for every filterbank.", "anchors": ["kymatio/scattering1d/core/timefrequency_scattering.py:joint_timefrequency_scattering", "kymatio/scattering1d/core/timefrequency_scattering.py:frequency_scattering", "kymatio/scattering1d/core/timefrequency_scattering.py:time_formatting"]}
{"id": "C37", "title": "JTFS frequential filter index n_fr identifies the filter", "statement": "The n_fr attached to a path is the index of its filter in the frequential filterbank, including for first-order paths that only traverse non-negative spins; spin equals the sign of that filter's centre frequency.", "quantifier": "all frequential filterbanks produced by spinning a positive filterbank", "why_tests_cant": "The code enumerates a filtered list; correct only because non-negative spins form a prefix.", "anchors": ["kymatio/scattering1d/core/timefrequency_scattering.py:frequency_scattering", "kymatio/scattering1d/filter_bank.py:spin", "kymatio/scattering1d/frontend/base_frontend.py:TimeFrequencyScatteringBase.meta"]}
{"id": "C38", "title": "JTFS frequency padding leaves the documented margin", "statement": "The padded number of frequency bins is a multiple of 2**J_fr and exceeds the number of first-order coefficients by at least the minimum padding 8*min(F,2**J_fr).", "quantifier": "all J, Q, J_fr, F", "why_tests_cant": "Integer rounding for all parameters.", "anchors": ["kymatio/scattering1d/frontend/base_frontend.py:TimeFrequencyScatteringBase.build"]}
{"id": "C39", "title": "JTFS meta() describes the channels of the output in order", "statement": "Row k of meta()[\"key\"], [\"n\"], [\"n_fr\"], [\"order\"] describes the k-th channel of the array output for the same object, for both formats.", "quantifier": "all filterbanks, both formats", "why_tests_cant": "Alignment of two generated sequences.", "anchors": ["kymatio/scattering1d/frontend/base_frontend.py:TimeFrequencyScatteringBase.meta", "kymatio/scattering1d/frontend/base_frontend.py:TimeFrequencyScatteringBase.scattering"]}
{"id": "C40", "title": "JTFS frequency unpadding and splitting lose no labelled row", "statement": "For every path the number of rows kept after frequency unpadding is at least the number of n1 labels attached to the path, and row i is the one computed at n1 = i*n1_stride; the extra row kept when n1_stride divides n1_max is never labelled.", "quantifier": "all n1_max, n1_stride, frequency-axis lengths", "why_tests_cant": "Off-by-one for all pairs (n1_max, stride).", "anchors": ["kymatio/scattering1d/core/timefrequency_scattering.py:time_formatting", "kymatio/scattering1d/backend/numpy_backend.py:NumpyBackend1D.unpad_frequency"]}
{"id": "C41", "title": "JTFS runs on its default configuration family", "statement": "With T and F at their defaults (stride 2**J, frequency stride 2**J_fr) and any filterbanks with admissible scales, JTFS succeeds in both formats and all output types, and all stacked arrays have equal shapes. For other strides the call succeeds or raises; it never returns rows under wrong labels.", "quantifier": "all filterbanks, all batch shapes, all formats and strides", "why_tests_cant": "Stride/scale combinations are unbounded; stack errors only arise for particular ones.", "anchors": ["kymatio/scattering1d/core/timefrequency_scattering.py:joint_timefrequency_scattering", "kymatio/scattering1d/core/timefrequency_scattering.py:jtfs_average_and_format", "kymatio/scattering1d/frontend/base_frontend.py:TimeFrequencyScatteringBase.scattering"]}
{"id": "C42", "title": "Scattering2D output size", "statement": "For every J and image size with 2**J <= min(M,N), every path has spatial size (M // 2**J) x (N // 2**J), after padding to a multiple of 2**J and removing one sample on each side; the padding on each side is at least 2**(J-1) (rounded) and at most 2**J.", "quantifier": "all M, N, J with 2**J <= M, N", "why_tests_cant": "Integer rounding for all sizes.", "anchors": ["kymatio/scattering2d/utils.py:compute_padding", "kymatio/scattering2d/frontend/base_frontend.py:ScatteringBase2D.build", "kymatio/scattering2d/backend/numpy_backend.py:NumpyBackend2D.unpad"]}
{"id": "C43", "title": "2-D reflection padding agrees across backends", "statement": "For every image and every padding produced by the 2-D frontend (including padding equal to the image size, which PyTorch and TensorFlow cannot reflect natively), the PyTorch/TensorFlow padding modules return the same padded image as NumPy's reflect mode, and never index out of range. On images of at least two rows and columns, the PyTorch and TensorFlow modules accept exactly the paddings less than the size on both sides of an axis, or equal to it before and at most equal after; any other (larger) padding is refused, where NumPy accepts any amount.", "quantifier": "all images with at least two rows and columns and all paddings the frontend produces; for the acceptance, all non-negative paddings", "why_tests_cant": "Edge case arises only when 2**J equals the size; equality is over all images.", "anchors": ["kymatio/scattering2d/backend/torch_backend.py:Pad", "kymatio/scattering2d/backend/tensorflow_backend.py:Pad", "kymatio/scattering2d/backend/numpy_backend.py:Pad"]}
{"id": "C44", "title": "Which paths Scattering2D computes and in which order", "statement": "Channels are: one zeroth-order, then L*J first-order paths in order of (j,theta), then if max_order=2 all pairs (n1,n2) with j1<j2 in lexicographic order; their number is 1 + L*J (+ L**2*J*(J-1)/2); keys are distinct and carry the scale and angle of their wavelets.", "quantifier": "all J, L, max_order", "why_tests_cant": "Counting and ordering for all J, L.", "anchors": ["kymatio/scattering2d/core/scattering2d.py:scattering2d", "kymatio/scattering2d/filter_bank.py:filter_bank"]}
{"id": "C45", "title": "Scattering2D never indexes a missing filter resolution", "statement": "For every J >= 1 every filter lookup made by scattering2d is at a tabulated resolution and the tabulated filter has the spatial size of the array it multiplies, so scattering never raises IndexError or a shape error on an image of the declared size.", "quantifier": "all J >= 1, L, M, N", "why_tests_cant": "Levels are given by min/max formulas of J and j.", "anchors": ["kymatio/scattering2d/core/scattering2d.py:scattering2d", "kymatio/scattering2d/filter_bank.py:filter_bank"]}
{"id": "C46", "title": "2-D Fourier subsampling is decimation, and filter periodisation is band-limited folding", "statement": "The inverse 2-D DFT of subsample_fourier(x,k) at (u,v) is that of x at (u*k,v*k); periodize_filter_fft(x,res) keeps, for every output frequency, only the copies of the input that lie outside the masked (aliasing) band.", "quantifier": "all sizes divisible by k, all arrays", "why_tests_cant": "Algebraic identity over all arrays.", "anchors": ["kymatio/scattering2d/backend/numpy_backend.py:NumpyBackend2D.subsample_fourier", "kymatio/scattering2d/filter_bank.py:periodize_filter_fft"]}
{"id": "C47", "title": "The 2-D Keras layer announces the right output shape", "statement": "compute_output_shape returns the shape of the tensor that the layer produces.", "quantifier": "all J, L, max_order, input sizes", "why_tests_cant": "Relates a formula with an enumeration for all parameters.", "anchors": ["kymatio/scattering2d/frontend/keras_frontend.py:ScatteringKeras2D.compute_output_shape"]}
{"id": "C48", "title": "The 1-D Keras layer honours its arguments and announces the right output shape", "statement": "The layer computes with the max_order and oversampling it was given, compute_output_shape returns the shape of the produced tensor, and get_config returns the constructor arguments.", "quantifier": "all constructor arguments", "why_tests_cant": "All argument combinations.", "anchors": ["kymatio/scattering1d/frontend/keras_frontend.py:ScatteringKeras1D"]}
{"id": "C49", "title": "HarmonicScattering3D path count and layout", "statement": "With max_order in {1,2} the output has shape batch+(P, L+1, number of integral powers) with P=(J+1) or (J+1)+J(J+1)/2, and entry (p, l) is the path p for degree l, first-order j ascending then pairs (j1,j2), j1<j2, lexicographic, for every l.", "quantifier": "all J, L, batch shapes, filters", "why_tests_cant": "The transposition from (l, path) to (path, l) and the final reshape must agree for all sizes.", "anchors": ["kymatio/scattering3d/core/scattering3d.py:scattering3d", "kymatio/scattering3d/backend/numpy_backend.py:NumpyBackend3D.stack"]}
{"id": "C50", "title": "Rotation-covariant modulus", "statement": "Folding modulus_rotation over the orders m gives sqrt(sum_m |x*psi_{j,l,m}|**2), independent of the order of summation, non-negative, and equal to the plain modulus when there is one component; torch, numpy and TensorFlow formulas coincide.", "quantifier": "all numbers of components and all complex values", "why_tests_cant": "Identity for unboundedly many components over reals.", "anchors": ["kymatio/scattering3d/backend/numpy_backend.py:NumpyBackend3D.modulus_rotation", "kymatio/scattering3d/backend/torch_backend.py:TorchBackend3D.modulus_rotation"]}
{"id": "C51", "title": "Filters of a PyTorch module follow the module through any history of moves", "statement": "After register_filters and any sequence of transformations applied by the module to all its buffers (device moves, dtype casts), load_filters makes every filter level point to the buffer registered for that very level of that very wavelet, transformed accordingly; no two filters share a buffer and no buffer is orphaned.", "quantifier": "all filterbanks, all histories of buffer transformations and calls", "why_tests_cant": "Arbitrary histories; the numbering in two separate loops must coincide.", "anchors": ["kymatio/scattering1d/frontend/torch_frontend.py:ScatteringTorch1D.register_filters", "kymatio/scattering1d/frontend/torch_frontend.py:ScatteringTorch1D.load_filters", "kymatio/scattering1d/frontend/torch_frontend.py:TimeFrequencyScatteringTorch.load_filters", "kymatio/scattering2d/frontend/torch_frontend.py:ScatteringTorch2D.load_filters"]}
{"id": "C52", "title": "The stable modulus has the right value and a finite (sub)gradient everywhere", "statement": "modulus returns sqrt(re**2+im**2); its backward pass returns the gradient of the modulus wherever it is differentiable (z != 0) scaled by the incoming gradient and exactly 0 at z = 0, never NaN.", "quantifier": "all complex numbers, all incoming gradients (exact real arithmetic)", "why_tests_cant": "Derivative statement over a continuum with a singular point.", "anchors": ["kymatio/backend/torch_backend.py:ModulusStable"]}
{"id": "C53", "title": "PyTorch and NumPy backends compute the same 1-D scattering transform", "statement": "Under the representation of complex numbers as trailing pairs, every 1-D PyTorch backend operation corresponds to the NumPy one, so the two frontends return the same coefficients, paths and exceptions on corresponding inputs.", "quantifier": "all inputs and configurations (exact real arithmetic)", "why_tests_cant": "Equivalence of two implementations on all inputs.", "anchors": ["kymatio/scattering1d/backend/torch_backend.py:TorchBackend1D", "kymatio/backend/torch_backend.py:TorchBackend", "kymatio/scattering1d/backend/numpy_backend.py:NumpyBackend1D"]}
{"id": "C54", "title": "Frontend dispatch", "statement": "Scattering1D/2D/HarmonicScattering3D/TimeFrequencyScattering with frontend=f (case-insensitive, default numpy) instantiates the class of that frontend exactly when f is one of the six known names and raises RuntimeError otherwise, forwarding all remaining arguments unchanged.", "quantifier": "all frontend strings and arguments", "why_tests_cant": "All strings.", "anchors": ["kymatio/frontend/entry.py:ScatteringEntry.__init__"]}
{"id": "C55", "title": "A backend is only accepted by its own frontend", "statement": "A backend given by name or as an object is accepted only if its name starts with the frontend name; all other combinations raise ImportError.", "quantifier": "all backend and frontend names", "why_tests_cant": "All strings; note prefixes such as torch / torch_skcuda.", "anchors": ["kymatio/frontend/base_frontend.py:ScatteringBase._instantiate_backend"]}
{"id": "C56", "title": "Cache directory resolution", "statement": "get_cache_dir uses the explicit base directory if given, else the environment variable KYMATIO_CACHE, else ~/kymatio_cache; after it returns, the directory exists; it never creates anything when create=False, raising ValueError if the directory is missing; calling it again returns the same path and changes nothing.", "quantifier": "all file-system states, all environments, all arguments", "why_tests_cant": "All histories of the file system.", "anchors": ["kymatio/caching.py:find_cache_base_dir", "kymatio/caching.py:get_cache_dir"]}
{"id": "C57", "title": "The scikit-learn transformer flattens without mixing samples", "statement": "predict on an array of flattened signals returns, for each sample, the flattened scattering coefficients of that sample, with the batch shape preserved.", "quantifier": "all batch shapes and signals", "why_tests_cant": "Reshape correctness for all shapes.", "anchors": ["kymatio/frontend/sklearn_frontend.py:ScatteringTransformerMixin.predict"]}
{"id": "C58", "title": "GPU kernels write every output element exactly once with the right value", "statement": "With the launch grids used by the code, the CUDA subsampling and modulus kernels assign every element of the output buffer exactly once, read only inside the input buffer, and compute the same mean as the PyTorch backend.", "quantifier": "all tensor sizes divisible by k", "why_tests_cant": "Grid rounding and integer index arithmetic for all sizes.", "anchors": ["kymatio/scattering1d/backend/torch_skcuda_backend.py:SubsampleFourier", "kymatio/scattering2d/backend/torch_skcuda_backend.py:SubsampleFourier", "kymatio/scattering1d/backend/torch_skcuda_backend.py:Modulus"]}
{"id": "C59", "title": "Invalid inputs raise the documented TypeError", "statement": "input_checks raises TypeError for None and for any object that is not an array of the backend, and accepts arrays.", "quantifier": "all kinds of input objects", "why_tests_cant": "All input kinds.", "anchors": ["kymatio/backend/numpy_backend.py:NumpyBackend.input_checks"]}
{"id": "C60", "title": "Non-zero weights are all taken into account in generate_weighted_sum_of_gaussians, up to the first zero", "statement": "The generated density is the sum of the Gaussians of all points before the first zero weight; if zero weights are only at the end of the list this is the full weighted sum.", "quantifier": "all lists of positions and weights", "why_tests_cant": "Unbounded lists with an early break.", "anchors": ["kymatio/scattering3d/utils.py:generate_weighted_sum_of_gaussians"]}
{"id": "C61", "title": "Second-order rows of JTFS carry the true first-order index", "statement": "In the second-order stack of n2, row i was computed from the i-th first-order wavelet, so the label n1=i attached to that row is the index of the wavelet in psi1_f (true because the scales j1 of a constructed filterbank do not decrease).", "quantifier": "all signals, backends, constructed filterbanks", "why_tests_cant": "Depends on an ordering property of every filterbank.", "anchors": ["kymatio/scattering1d/core/timefrequency_scattering.py:time_scattering_widthfirst", "kymatio/scattering1d/core/timefrequency_scattering.py:time_formatting", "kymatio/scattering1d/filter_bank.py:anden_generator"]}
{"id": "C62", "title": "JTFS 'order' is the scattering order", "statement": "The key \"order\" of every path listed by TimeFrequencyScattering.scattering is its scattering order (1 or 2), in both formats, and agrees with meta()[\"order\"].", "quantifier": "all filterbanks, both formats", "why_tests_cant": "Quantifies over all paths of all configurations.", "anchors": ["kymatio/scattering1d/core/timefrequency_scattering.py:time_formatting", "kymatio/scattering1d/core/timefrequency_scattering.py:jtfs_average_and_format", "kymatio/scattering1d/frontend/base_frontend.py:TimeFrequencyScatteringBase.meta"]}
{"id": "C63", "title": "JTFS unpads time at the resolution of the path", "statement": "With T=0 every first- or second-order path is unpadded with ind_start and ind_end taken at the resolution of its coefficients: log2_stride at order one, j2 at order two, in both formats.", "quantifier": "all filterbanks, formats, strides", "why_tests_cant": "Quantifies over all filterbanks and formats.", "anchors": ["kymatio/scattering1d/frontend/base_frontend.py:TimeFrequencyScatteringBase.scattering", "kymatio/scattering1d/core/timefrequency_scattering.py:time_scattering_widthfirst"]}
{"id": "C64", "title": "JTFS coefficients are the joint convolution formula", "statement": "Every coefficient returned by TimeFrequencyScattering in exact arithmetic equals the textbook expression: the zeroth order is the low-passed signal, and a path (n2, n_fr) or (n1, n2, n_fr) is the modulus of the two-dimensional convolution of the first-order scalogram (zero-padded over frequency, spun wavelet psi_fr) averaged in time and frequency and sampled at the strides, at the time sample start+tau.", "quantifier": "all signals, batch shapes, constructed objects, formats, strides, averaging modes", "why_tests_cant": "Exact equality with an independent formula for all inputs and configurations.", "anchors": ["kymatio/scattering1d/core/timefrequency_scattering.py:joint_timefrequency_scattering", "kymatio/scattering1d/core/timefrequency_scattering.py:frequency_scattering", "kymatio/scattering1d/core/timefrequency_scattering.py:time_averaging", "kymatio/scattering1d/core/timefrequency_scattering.py:frequency_averaging", "kymatio/scattering1d/frontend/base_frontend.py:TimeFrequencyScatteringBase.scattering"]}
{"id": "C65", "title": "Scattering2D coefficients are the convolution formula", "statement": "In exact arithmetic every coefficient of Scattering2D equals the textbook expression of the reflected image: S0 = low-pass, S1 = low-pass of |x * psi1|, S2 = low-pass of ||x * psi1| * psi2|, with the wavelets of the labels (j, theta), each stage sampled every 2**j pixels and the last every 2**J.", "quantifier": "all images, batch shapes, J, L, max_order, sizes, both values of pre_pad", "why_tests_cant": "Exact equality with an independent formula for all inputs; tests compare to stored arrays up to a tolerance.", "anchors": ["kymatio/scattering2d/core/scattering2d.py:scattering2d", "kymatio/scattering2d/filter_bank.py:filter_bank", "kymatio/scattering2d/backend/numpy_backend.py:NumpyBackend2D.subsample_fourier"]}
{"id": "C66", "title": "pre_pad=True on a padded image is the same transform", "statement": "For every frontend, an object with pre_pad=True applied to the reflected image gives what an object with pre_pad=False gives on the image.", "quantifier": "all images and arguments, each frontend", "why_tests_cant": "An equality of two configurations for every input.", "anchors": ["kymatio/scattering2d/frontend/base_frontend.py:ScatteringBase2D.build", "kymatio/scattering2d/frontend/tensorflow_frontend.py:ScatteringTensorFlow2D.__init__"]}
{"id": "C67", "title": "Scattering2D is blind to constants at positive orders", "statement": "Adding a constant to the image leaves every first- and second-order coefficient unchanged; a constant image has all of them equal to zero.", "quantifier": "all images, constants, J, L >= 1", "why_tests_cant": "Holds exactly only in exact arithmetic, for all images.", "anchors": ["kymatio/scattering2d/filter_bank.py:morlet_2d", "kymatio/scattering2d/core/scattering2d.py:scattering2d"]}
{"id": "C68", "title": "Scattering2D treats the images of a batch independently", "statement": "The coefficients of an image do not depend on the other images of the batch, on its place in it, or on how the batch axes are arranged.", "quantifier": "all batches and batch shapes", "why_tests_cant": "Quantifies over pairs of batches.", "anchors": ["kymatio/scattering2d/frontend/numpy_frontend.py:ScatteringNumPy2D.scattering", "kymatio/scattering2d/core/scattering2d.py:scattering2d"]}
{"id": "C69", "title": "Scattering2D is homogeneous", "statement": "Multiplying the image by c multiplies the zeroth order by c and the others by |c|.", "quantifier": "all images and real c", "why_tests_cant": "All images and constants.", "anchors": ["kymatio/scattering2d/core/scattering2d.py:scattering2d", "kymatio/scattering2d/backend/numpy_backend.py:NumpyBackend2D.modulus"]}
{"id": "C70", "title": "TensorFlow Scattering2D gives the results of NumPy", "statement": "On every image of the declared size (no pre_pad) both frontends return the same output, for both output types.", "quantifier": "all images, batch shapes and arguments", "why_tests_cant": "Cross-backend equality for all inputs.", "anchors": ["kymatio/scattering2d/frontend/tensorflow_frontend.py:ScatteringTensorFlow2D.scattering", "kymatio/scattering2d/backend/tensorflow_backend.py:TensorFlowBackend2D"]}
{"id": "C71", "title": "Scattering2D is covariant with translations by 2**J", "statement": "With pre_pad=True, moving the padded image circularly by (2**J*d, 2**J*e) moves every coefficient by (d, e) samples wherever both samples are kept.", "quantifier": "all images, d, e, J, L", "why_tests_cant": "All images and translations.", "anchors": ["kymatio/scattering2d/core/scattering2d.py:scattering2d"]}
{"id": "C72", "title": "2-D filters are rotated Morlet wavelets of zero mean", "statement": "gabor_2d is the rotated anisotropic Gaussian times a wave, periodised; every wavelet of the bank is a Gabor filter minus a multiple of its envelope, of zero sum, and is tabulated as the real part of its Fourier transform, zero at frequency zero; the low-pass is positive there.", "quantifier": "all sizes, J, L >= 1, scales and angles", "why_tests_cant": "A statement about real functions for all sizes and parameters.", "anchors": ["kymatio/scattering2d/filter_bank.py:gabor_2d", "kymatio/scattering2d/filter_bank.py:morlet_2d", "kymatio/scattering2d/filter_bank.py:filter_bank"]}
{"id": "C73", "title": "HarmonicScattering3D coefficients are the convolution formula", "statement": "In exact arithmetic every coefficient equals the sum over the voxels of u**q, where u is sqrt(sum_m |x * psi_{l,m,j}|**2) (or |x * psi_{l,-l,j}| without rotation covariance), and for a second-order path the same operation applied to u of the first scale; psi is the inverse Fourier transform of the tabulated solid harmonic.", "quantifier": "all volumes, batch shapes, sizes, J, L, sigma_0, powers, both rotation_covariant values", "why_tests_cant": "Exact equality with an independent formula for all inputs; tests compare to stored arrays up to a tolerance.", "anchors": ["kymatio/scattering3d/core/scattering3d.py:scattering3d", "kymatio/scattering3d/filter_bank.py:solid_harmonic_filter_bank", "kymatio/scattering3d/backend/numpy_backend.py:NumpyBackend3D.compute_integrals"]}
{"id": "C74", "title": "HarmonicScattering3D is invariant to circular translations", "statement": "Translating each volume of the batch circularly (each by its own amount) leaves the output exactly unchanged, whatever the filters.", "quantifier": "all volumes, translations, filters and arguments", "why_tests_cant": "Exact invariance for all translations; tests try a few with a tolerance.", "anchors": ["kymatio/scattering3d/core/scattering3d.py:scattering3d", "kymatio/scattering3d/backend/numpy_backend.py:NumpyBackend3D.compute_integrals"]}
{"id": "C75", "title": "HarmonicScattering3D scales as |k|**q and is non-negative", "statement": "Multiplying the volume by a real k multiplies the coefficients of power q by |k|**q; every coefficient is real and >= 0.", "quantifier": "all volumes, k, powers q >= 0", "why_tests_cant": "All volumes and constants.", "anchors": ["kymatio/scattering3d/core/scattering3d.py:scattering3d", "kymatio/scattering3d/backend/numpy_backend.py:NumpyBackend3D.compute_integrals", "kymatio/scattering3d/backend/numpy_backend.py:NumpyBackend3D.modulus_rotation"]}
{"id": "C76", "title": "HarmonicScattering3D treats volumes independently, and TensorFlow agrees with NumPy", "statement": "The coefficients of a volume do not depend on the rest of the batch, its place or the batch axes; TensorFlow (which multiplies real and imaginary parts apart) gives the output of NumPy.", "quantifier": "all batches, filters and arguments", "why_tests_cant": "Pairs of batches; cross-backend equality for all inputs.", "anchors": ["kymatio/scattering3d/frontend/numpy_frontend.py:HarmonicScatteringNumPy3D.scattering", "kymatio/scattering3d/frontend/tensorflow_frontend.py:HarmonicScatteringTensorFlow3D.scattering", "kymatio/scattering3d/backend/tensorflow_backend.py:TensorFlowBackend3D.cdgmm3d"]}
{"id": "C77", "title": "3-D filters have their origin at index [0,0,0]", "statement": "As documented (ifftshifted such that the origin is at [0, 0, 0]), at index [0,0,0] the Gaussians and the wavelets of degree 0 are 1 and the wavelets of degree l >= 1 vanish; hence a constant volume k gives M*N*O*|k|**q in degree 0 and 0 in higher degrees.", "quantifier": "all sizes M, N, O, J, L, sigma_0", "why_tests_cant": "Depends on the parity of the sizes; tests use even sizes.", "anchors": ["kymatio/scattering3d/filter_bank.py:solid_harmonic_3d", "kymatio/scattering3d/filter_bank.py:gaussian_3d"]}
{"id": "C78", "title": "3-D frontends reject undocumented max_order and method", "statement": "max_order \"must be either 1 or 2\" and only method=\"integral\" is available: other values raise an exception.", "quantifier": "all values of the two arguments, each frontend", "why_tests_cant": "Tests try one bad method on one backend.", "anchors": ["kymatio/scattering3d/frontend/base_frontend.py:ScatteringBase3D", "kymatio/scattering3d/frontend/numpy_frontend.py:HarmonicScatteringNumPy3D.scattering", "kymatio/scattering3d/frontend/tensorflow_frontend.py:HarmonicScatteringTensorFlow3D.scattering"]}
{"id": "C79", "title": "When HarmonicScattering3D succeeds", "statement": "For J, L >= 0 construction succeeds exactly for positive sizes and sigma_0 != 0; a call succeeds exactly on real arrays whose last three sizes are the declared ones and that hold at least one volume; wrong sizes or fewer than three axes raise RuntimeError, another type TypeError.", "quantifier": "all arguments and arrays", "why_tests_cant": "Equivalences over all inputs.", "anchors": ["kymatio/scattering3d/frontend/base_frontend.py:ScatteringBase3D.create_filters", "kymatio/scattering3d/frontend/numpy_frontend.py:HarmonicScatteringNumPy3D.scattering"]}
{"id": "C80", "title": "get_3d_angles returns spherical coordinates", "statement": "For every point, with r its norm: r sin(polar) cos(azimuthal) = x, r sin(polar) sin(azimuthal) = y, r cos(polar) = -z (the polar angle is measured from the negative z axis), polar in [0, pi], azimuthal in [-pi, pi], including the origin and the axes.", "quantifier": "all real points", "why_tests_cant": "A statement on all real points, with case splits in arctan2.", "anchors": ["kymatio/scattering3d/utils.py:get_3d_angles"]}
{"id": "C81", "title": "PyTorch and NumPy compute the same joint time-frequency scattering", "statement": "For every configuration, after any sequence of casts and earlier calls, TimeFrequencyScattering in PyTorch accepts the constructor arguments that NumPy accepts, returns whenever NumPy returns, raises whenever NumPy raises, and gives the same coefficients, paths, keys and container in exact arithmetic.", "quantifier": "all constructor arguments, formats, output types, batches, signals and histories of casts and calls", "why_tests_cant": "Equality of two implementations for all inputs and configurations; tests run one backend at a time on a few configurations with tolerances.", "anchors": ["kymatio/scattering1d/frontend/torch_frontend.py:TimeFrequencyScatteringTorch", "kymatio/scattering1d/frontend/base_frontend.py:TimeFrequencyScatteringBase.scattering", "kymatio/scattering1d/core/timefrequency_scattering.py:joint_timefrequency_scattering", "kymatio/scattering1d/backend/torch_backend.py:TorchBackend1D"]}
{"id": "C82", "title": "TensorFlow, JAX and NumPy compute the same 1-D and joint time-frequency scattering", "statement": "For every configuration, Scattering1D and TimeFrequencyScattering in TensorFlow and in JAX accept the constructor arguments that NumPy accepts, return whenever NumPy returns, and give the same coefficients, paths, keys and container in exact arithmetic. Conversely, on a signal without an empty axis they return only where NumPy returns, so they raise on every signal on which NumPy raises.", "quantifier": "all constructor arguments, formats, output types, precisions, batches and signals", "why_tests_cant": "Equality of implementations for all inputs, precisions and configurations; tests run one backend at a time on a few single-precision configurations with tolerances.", "anchors": ["kymatio/scattering1d/frontend/tensorflow_frontend.py:ScatteringTensorFlow1D", "kymatio/scattering1d/frontend/jax_frontend.py:ScatteringJax1D", "kymatio/scattering1d/backend/tensorflow_backend.py:TensorFlowBackend1D", "kymatio/scattering1d/backend/jax_backend.py:JaxBackend1D", "kymatio/backend/tensorflow_backend.py:TensorFlowBackend", "kymatio/backend/torch_backend.py:TorchBackend.cdgmm"]}
{"id": "C83", "title": "PyTorch and NumPy compute the same 2-D scattering", "statement": "For every configuration accepted by the constructor, for every sequence of casts and calls of the PyTorch module, Scattering2D in PyTorch returns on a tensor what Scattering2D in NumPy returns on the array of the same numbers (coefficients, shapes, scales, angles and filter indices, in exact arithmetic), and raises when NumPy raises.", "quantifier": "all J, L, image sizes, max_order, pre_pad, out_type, batches, tensors and module histories", "why_tests_cant": "Equality of two implementations (different padding, periodisation, layout of complex numbers and filter storage) for all inputs and sizes; the tests compare one stored example per backend within tolerances.", "anchors": ["kymatio/scattering2d/backend/torch_backend.py:TorchBackend2D", "kymatio/scattering2d/backend/torch_backend.py:Pad", "kymatio/scattering2d/frontend/torch_frontend.py:ScatteringTorch2D", "kymatio/scattering2d/core/scattering2d.py:scattering2d"]}
{"id": "C84", "title": "PyTorch and NumPy compute the same 3-D scattering", "statement": "For every configuration accepted by the constructor and every sequence of casts and calls of the PyTorch module, HarmonicScattering3D in PyTorch returns on a tensor what HarmonicScattering3D in NumPy returns on the array of the same numbers (in exact arithmetic), and raises when NumPy raises.", "quantifier": "all J, L, sizes, sigma_0, max_order, rotation_covariant, method, integral_powers, batches, tensors and module histories", "why_tests_cant": "Equality of two implementations (pairs of reals, packed filter tensors and buffers against complex arrays and lists) for all inputs and sizes; the tests compare one stored example per backend within tolerances.", "anchors": ["kymatio/scattering3d/backend/torch_backend.py:TorchBackend3D", "kymatio/scattering3d/frontend/torch_frontend.py:HarmonicScatteringTorch3D", "kymatio/scattering3d/frontend/numpy_frontend.py:HarmonicScatteringNumPy3D", "kymatio/scattering3d/core/scattering3d.py:scattering3d"]}
{"id": "C85", "title": "Scattering1D is stable in the supremum norm", "statement": "Two signals that differ by at most D at every instant have coefficients that differ by at most D times the product of the l1 norms of the impulse responses met along the path (each sampled at the resolution at which it is applied; times the number of summed instants for T='global'). At stride 1 with local averaging, and up to order 1 with T=0, the constant is exactly 1 (inputs of at least two samples): the transform does not increase distances.", "quantifier": "every constructed object, every batch shape, every pair of signals, every path, instant and averaging mode", "why_tests_cant": "the bound quantifies over all pairs of real signals; a test can only try some of them", "anchors": ["kymatio/scattering1d/core/scattering1d.py:1-109", "kymatio/scattering1d/filter_bank.py:160-240", "kymatio/scattering1d/frontend/base_frontend.py:85-150"]}
{"id": "C86", "title": "A signal read backwards gives coefficients read backwards", "statement": "For real signals: reversing the padded signal around instant 0 reverses every locally averaged coefficient (the filters are real in the Fourier domain at every resolution). For the whole transform with stride 1 and equal paddings (any even length), S(x[N-1-t]) = S(x)[N-1-t] for every path.", "quantifier": "every constructed object with local averaging, every real batch, every path and instant", "why_tests_cant": "symmetry over all signals and all filterbanks, exact, beyond the tolerance of numerical tests", "anchors": ["kymatio/scattering1d/core/scattering1d.py:1-109", "kymatio/scattering1d/filter_bank.py:160-240"]}
{"id": "C87", "title": "TimeFrequencyScattering treats the signals of a batch independently", "statement": "Transforming a batch of signals with TimeFrequencyScattering and picking signal i out of every path (or out of the array) gives exactly what transforming signal i alone gives, with the same labels; and reshaping the batch axes reshapes the result without changing any coefficient.", "quantifier": "all constructed objects, batch shapes, signals, formats and output types for which a call returns", "why_tests_cant": "Batch axes are folded into one axis, transposed with the frequency axis and unfolded again; tests look at a few shapes.", "anchors": ["kymatio/scattering1d/frontend/base_frontend.py:584-648", "kymatio/scattering1d/core/timefrequency_scattering.py:1-330"]}
{"id": "C88", "title": "Joint time-frequency scattering is homogeneous", "statement": "Multiplying the signals by a real number k multiplies the zeroth-order coefficients by k and every first- and second-order coefficient by |k|; keys, labels and shapes do not change. With output type array and k >= 0 the array is multiplied by k.", "quantifier": "every constructed object, both formats, every averaging mode, every batch and every real k", "why_tests_cant": "a statement about all signals and all real factors, exact, for all configurations", "anchors": ["kymatio/scattering1d/core/timefrequency_scattering.py:1-330", "kymatio/scattering1d/frontend/base_frontend.py:584-648"]}
{"id": "C89", "title": "Joint time-frequency scattering is stable in the supremum norm", "statement": "Two signals that differ by at most D at every instant have joint time-frequency coefficients that differ by at most D times an explicit constant: the largest product of l1 norms of the temporal filters over the rows that are filtered along frequency, times the l1 norm of the frequential filter, times the gains of the averages over time and frequency.", "quantifier": "every constructed object, both formats, every averaging mode over time and frequency, every pair of batches, every path and sample", "why_tests_cant": "the bound quantifies over all pairs of real signals", "anchors": ["kymatio/scattering1d/core/timefrequency_scattering.py:1-330", "kymatio/scattering1d/frontend/base_frontend.py:584-648"]}
{"id": "C90", "title": "Scattering2D is stable in the supremum norm", "statement": "Two images that differ by at most D at every pixel have 2-D scattering coefficients that differ by at most D times an explicit constant of the path: the product of the l1 norms of the impulse responses of the filters on the path, each on the grid on which it is applied.", "quantifier": "every valid size, scale J, number of angles L, pre_pad setting, every batch shape, every pair of images, every path and output pixel", "why_tests_cant": "the bound quantifies over all pairs of real images and over all sizes", "anchors": ["kymatio/scattering2d/core/scattering2d.py:scattering2d", "kymatio/scattering2d/backend/numpy_backend.py:NumpyBackend2D.subsample_fourier", "kymatio/scattering2d/backend/numpy_backend.py:NumpyBackend2D.modulus"]}
{"id": "C91", "title": "HarmonicScattering3D is stable in the supremum norm", "statement": "Two volumes that differ by at most E at every voxel have integral coefficients of power q that differ, for 0 < q <= 1, by at most V*(E*g)^q and, for q >= 1 and volumes bounded by K, by at most V*q*(K*g)^(q-1)*E*g. Here V is the number of voxels and g is the gain of the path: for each wavelet modulus on it, the Euclidean norm over the orders m of the l1 norms of the impulse responses (or the one norm when rotation_covariant is False).", "quantifier": "every valid size, J, L, list of positive powers, rotation_covariant setting, every batch shape, every pair of volumes, every path of first and second order", "why_tests_cant": "the bound quantifies over all pairs of real volumes, all real powers and all sizes", "anchors": ["kymatio/scattering3d/core/scattering3d.py:scattering3d", "kymatio/scattering3d/backend/numpy_backend.py:NumpyBackend3D.modulus_rotation", "kymatio/scattering3d/backend/numpy_backend.py:NumpyBackend3D.compute_integrals"]}
{"id": "C92", "title": "Joint time-frequency scattering ignores the mean of the signal beyond order 0", "statement": "Adding a constant to a signal (another constant for each signal of a batch) changes no coefficient of orders 1 and 2, and adds to the order-0 coefficients that constant times a positive number that depends on neither the signal nor the time. A constant signal has zero coefficients on every path of orders 1 and 2.", "quantifier": "every constructed object for two samples or more, both formats, every averaging mode over time and frequency, every batch of signals, every family of constants", "why_tests_cant": "quantifies over all signals, all constants and all objects", "anchors": ["kymatio/scattering1d/core/timefrequency_scattering.py:1-330", "kymatio/scattering1d/filter_bank.py:morlet_1d", "kymatio/scattering1d/frontend/base_frontend.py:584-648"]}
{"id": "C93", "title": "Solid harmonic wavelets are normalised to unit mass", "statement": "In space (fourier=False) the wavelet of degree l and width sigma satisfies: along every direction the integral over r of 4 pi r^2 sqrt(sum_m |psi_lm(r u)|^2) is 1, so that its rotation-covariant modulus has mass one over the whole space. In the Fourier domain sqrt(sum_m |psi_lm(w)|^2) depends only on |w| and equals sqrt(pi/2)/mu_l (sigma|w|)^l exp(-(sigma|w|)^2/2), mu_l being the integral of r^(l+2) exp(-r^2/2) over the half-line. The Gaussian filters are J+2 complex arrays whose entries are exp(-(sigma_0 2^j |w|)^2/2) at the frequencies of the voxels.", "quantifier": "every degree l, every width, every direction or frequency, every family of functions that satisfies the addition theorem of spherical harmonics; every valid size for the Gaussian filters", "why_tests_cant": "an improper integral over a continuous variable, for unboundedly many degrees and real widths", "anchors": ["kymatio/scattering3d/filter_bank.py:solid_harmonic_3d", "kymatio/scattering3d/filter_bank.py:gaussian_3d", "kymatio/scattering3d/filter_bank.py:gaussian_filter_bank", "kymatio/scattering3d/utils.py:double_factorial"]}
{"id": "C94", "title": "Arguments that TimeFrequencyScattering refuses", "statement": "TimeFrequencyScattering propagates the error of its Scattering1D part; otherwise a Q_fr with an entry below 1, a float or a list raises ValueError, a tuple of length other than 1 raises NotImplementedError, and F outside {0} and [1, (J+1)*Q1] raises ValueError, all at construction. On a constructed object an unknown out_type or format, out_type='array' with T=0, and out_type='array', format='joint' with F=0 raise ValueError on every input with every backend. A stride_fr that is not a power of two, or that comes with F=0 or F='global', is accepted by the constructor but meta() and every call on a well-formed input raise ValueError, and no call ever returns a result. A 1-tuple Q_fr holding a float >= 1 passes the check on Q_fr and raises TypeError in the filter-bank generator.", "quantifier": "all parameters, all inputs, all backends", "why_tests_cant": "Argument spaces (tuples of any length, rationals) are infinite and the checks are spread over the constructor, properties and the call; tests try a handful of bad values.", "anchors": ["kymatio/scattering1d/frontend/base_frontend.py:TimeFrequencyScatteringBase.build", "kymatio/scattering1d/frontend/base_frontend.py:TimeFrequencyScatteringBase._check_runtime_args", "kymatio/scattering1d/frontend/base_frontend.py:TimeFrequencyScatteringBase.log2_stride_fr", "kymatio/scattering1d/utils.py:parse_T"]}
{"id": "C95", "title": "compute_temporal_support bounds the truncation error, and the padding covers it", "statement": "For filters given in Fourier by rows of length n, compute_temporal_support returns the smallest N such that for all signals x and all filters h, ||x*h - x*h_[-N,N]||_inf <= eps ||x||_inf (n/2 if there is none), as its docstring says. In Scattering1D the value is computed without error, lies between 0 and N_input/2, and the signal is padded by at least three times this support on each side unless the padded length is the largest power of two that reflection allows.", "quantifier": "all lengths, numbers of filters, criteria, real frequency responses, signals; all configurations", "why_tests_cant": "The inequality is quantified over all signals and filters; a test can only try some, and the off-by-one and factor-two effects are far below the tolerances used in tests.", "anchors": ["kymatio/scattering1d/filter_bank.py:compute_temporal_support", "kymatio/scattering1d/frontend/base_frontend.py:ScatteringBase1D.build"]}
{"id": "C96", "title": "Subsampling by a factor that does not divide the size is refused", "statement": "subsample_fourier returns an array with the same batch axes and sizes n/k when k divides the sizes, and raises an exception otherwise, on all backends; in 2-D the input may have any number of axes from three on, as its docstring says.", "quantifier": "all batch shapes, sizes and factors", "why_tests_cant": "Sizes and factors are unbounded; the tests only subsample by divisors.", "anchors": ["kymatio/scattering1d/backend/torch_backend.py:TorchBackend1D.subsample_fourier", "kymatio/scattering2d/backend/numpy_backend.py:NumpyBackend2D.subsample_fourier", "kymatio/scattering2d/backend/torch_backend.py:TorchBackend2D.subsample_fourier", "kymatio/scattering1d/backend/torch_skcuda_backend.py:SubsampleFourier", "kymatio/scattering2d/backend/torch_skcuda_backend.py:SubsampleFourier"]}
{"id": "C97", "title": "The cuBLAS product of the CUDA backends is the product of the PyTorch backend", "statement": "cdgmm of the torch_skcuda backends returns, for every pair of contiguous tensors of equal type, the tensor C with C[b, m] = A[b, m] * B[m] that the PyTorch backend returns: every entry of the output is written exactly once; it refuses the same pairs of tensors with the same exceptions.", "quantifier": "all batch shapes, filter shapes, values, both precisions", "why_tests_cant": "Memory that is left uninitialised looks right whenever the allocator returns the right leftovers; sizes and values are unbounded and no GPU is used in the tests.", "anchors": ["kymatio/backend/torch_skcuda_backend.py:TorchSkcudaBackend.cdgmm", "kymatio/scattering3d/backend/torch_skcuda_backend.py:TorchSkcudaBackend3D.cdgmm3d"]}
{"id": "C98", "title": "The 1-D wavelets cover the frequency axis", "statement": "Take the pairs (xi, sigma) yielded by anden_generator and the Gabor responses exp(-(w-xi)^2/(2 sigma^2)). Each peaks at 1. Two adjacent filters of the geometric part meet at exactly r_psi, for every Q >= 1 and every r_psi in (0,1), so at every frequency between two such centres one of them is at least r_psi. The docstring claims more: that adjacent wavelets meet at r_psi everywhere and that the bank covers all of [pi/2^J, pi]. When the largest bandwidth exceeds sigma0/2^J, some response is at least 1/5 on [pi/2^J, 2 pi xi_max]. The stronger claim fails in three ways: below the elbow adjacent wavelets meet under r_psi (Q >= 2); at the Nyquist frequency no wavelet reaches r_psi; and when the largest bandwidth does not exceed sigma0/2^J the progression starts at sigma instead of a frequency and nothing in [pi/2^J, pi] is covered.", "quantifier": "all J >= 0, Q >= 1, all r in (0,1) for the meeting point, all real frequencies w", "why_tests_cant": "Tests look at a few (J, Q) and at sampled filters; the meeting level is a statement on a continuum of frequencies and on every bank.", "anchors": ["kymatio/scattering1d/filter_bank.py:105-139 compute_sigma_psi", "kymatio/scattering1d/filter_bank.py:219-303 compute_xi_max, anden_generator"]}
{"id": "C99", "title": "Three periods are enough to sample every Morlet filter of non-negative frequency", "statement": "adaptive_choice_P returns the least positive integer P such that the Gaussian of bandwidth sigma is at most 1e-7 at 1-P; the Gabor term of every centre in [0,1] is then at most 1e-7 at both ends of [1-P, P]. P is never 1, so the P == 1 branch of morlet_1d is dead. For every filter of every wavelet family and every low-pass filter of support T >= 1 it is 2, so the cap at 5 never acts; the three periods summed then differ by at most 3e-7 from the sum over any larger number of periods. The premise 0 <= xi <= 1 fails for the negative frequencies of spin: those filters are not below 1e-7 at 1-P.", "quantifier": "all sigma > 0; all J, Q; all lengths N, samples i and numbers of further periods", "why_tests_cant": "The number of further periods is unbounded and the bound concerns real numbers, not a tolerance on one filter.", "anchors": ["kymatio/scattering1d/filter_bank.py:6-48 adaptive_choice_P", "kymatio/scattering1d/filter_bank.py:51-98 morlet_1d", "kymatio/scattering1d/filter_bank.py:306-311 spin"]}
{"id": "C100", "title": "Transposing the image transposes the coefficients of Scattering2D and permutes the orientations", "statement": "For an even L and real images, the transform of the transposed images by the object built for the transposed shape has, for every path with scales js and angles ts, the path with the same scales and angles (L/2 - 2 - t) mod L, and its coefficient is the transpose of the original one.", "quantifier": "every J >= 1, even L, M, N >= 2**J, every batch of real images, every path, both values of pre_pad", "why_tests_cant": "An exact symmetry over all images, shapes and paths of a transform computed in floating point with a tolerance.", "anchors": ["kymatio/scattering2d/filter_bank.py:filter_bank", "kymatio/scattering2d/filter_bank.py:gabor_2d", "kymatio/scattering2d/core/scattering2d.py:scattering2d"]}
{"id": "C101", "title": "HarmonicScattering3D with rotation_covariant=True does not depend on the order of the axes of the volumes", "statement": "If the function used for the spherical harmonics satisfies the addition theorem, the transform of volumes whose axes were exchanged (first two, last two, or all three turned cyclically, which is a rotation by 120 degrees), by the object built with the same arguments for the exchanged shape, returns exactly the array returned for the original volumes.", "quantifier": "every J, L, sigma_0, max_order, integral powers and shape (M, N, O) allowed, cubic or not; every batch of real volumes; NumPy and TensorFlow entry points", "why_tests_cant": "Covariance is an exact identity over all volumes, shapes and degrees; the tests compare floating-point outputs on one rotated volume with a tolerance.", "anchors": ["kymatio/scattering3d/filter_bank.py:solid_harmonic_filter_bank", "kymatio/scattering3d/utils.py:get_3d_angles", "kymatio/scattering3d/core/scattering3d.py:scattering3d", "kymatio/scattering3d/backend/numpy_backend.py:modulus_rotation"]}
{"id": "C102", "title": "When Scattering2D succeeds and what it raises otherwise", "statement": "The constructor succeeds exactly when J >= 0 and both sizes are at least 2**J; a smaller image size raises RuntimeError and a negative J raises TypeError. An object that was built transforms every array of real numbers whose last two axes have the expected size (any batch axes, even empty ones) when out_type is 'array' or 'list', and nothing else: other shapes and other out_type raise RuntimeError, other dtypes raise TypeError.", "quantifier": "every integer J, M, N, L, max_order, every out_type and pre_pad; every shape, dtype and contents of the input; NumPy and TensorFlow", "why_tests_cant": "The exact set of accepted arguments and inputs is infinite; tests try a few bad ones.", "anchors": ["kymatio/scattering2d/frontend/base_frontend.py:ScatteringBase2D.build", "kymatio/scattering2d/frontend/numpy_frontend.py:ScatteringNumPy2D.scattering", "kymatio/scattering2d/frontend/tensorflow_frontend.py:ScatteringTensorFlow2D.scattering", "kymatio/scattering2d/filter_bank.py:filter_bank"]}
{"id": "C103", "title": "Scattering1D is stable in the mean square", "statement": "For two signals the squared distance of the coefficients of a path, summed over time, is at most 3 times the squared gain of the path (the product of the l1 norms of C85, times the number of summed instants for T=global) times the squared distance of the signals; in particular the energy of the coefficients of a path is at most 3 times its squared gain times the energy of the signal. At stride 1 with local averaging, and up to order 1 with T=0, the gain is 1 (inputs of at least two samples). The factor 3 is the number of times reflection padding can repeat a sample.", "quantifier": "every constructed object, every batch shape, every pair of signals, every path and averaging mode", "why_tests_cant": "the bound quantifies over all pairs of real signals; a test can only try some of them", "anchors": ["kymatio/scattering1d/core/scattering1d.py:1-109", "kymatio/scattering1d/backend/numpy_backend.py:1-120", "kymatio/scattering1d/frontend/base_frontend.py:85-150"]}
{"id": "C104", "title": "Exponents computed through the floating-point logarithm", "statement": "The padded length, the exponent of the stride, floor(log2 T) and the subsampling of a wavelet are computed by rounding a double-precision log2. For a faithfully rounded log2: the padding exponent and the power-of-two test of the stride are exact for all sizes up to 2**45; floor(log2 T) is floor of the exact logarithm for every double T in [1, 2**45); get_max_dyadic_subsampling returns the largest j with omega_0 <= 2**-(j+1).", "quantifier": "every faithful rounding of log2, every size, margin, stride, T and upper frequency in double precision", "why_tests_cant": "a test samples a few sizes on one libm; the claim is over all doubles and all faithful implementations", "anchors": ["kymatio/scattering1d/frontend/base_frontend.py:89-91", "kymatio/scattering1d/frontend/base_frontend.py:256-274", "kymatio/scattering1d/frontend/base_frontend.py:737-755", "kymatio/scattering1d/filter_bank.py:199-233"]}
{"id": "C105", "title": "Scattering2D is stable in the mean square", "statement": "For two images the squared distance of the coefficients of a path, summed over the pixels, is at most c_M c_N times the squared gain of the path (C90) times the squared distance of the images, where c = 1 for pre_pad=True, c = 3 when the padding is shorter than the axis and c = 5 when it is as long (size 2**J): the number of times reflection can repeat a pixel along the axis.", "quantifier": "every accepted configuration with J >= 1, every batch shape, every pair of images, every path", "why_tests_cant": "the bound quantifies over all pairs of real images; a test can only try some of them", "anchors": ["kymatio/scattering2d/core/scattering2d.py:1-91", "kymatio/scattering2d/backend/numpy_backend.py:1-120", "kymatio/scattering2d/utils.py:1-24"]}
{"id": "C106", "title": "Joint time-frequency scattering is stable in the mean square", "statement": "For two signals the squared distance of the coefficients of a path, summed over its time samples and (in format 'joint') over its rows, is at most 3 times an explicit gain times the squared distance of the signals; in particular the energy of the coefficients of a path is at most 3 times that gain times the energy of the signal. The gain is the sum over the rows of the squared products of the l1 norms of the temporal filters, times the squared l1 norm of the frequential filter, times the gains of the averages (squared l1 norm of the low-pass filter, or number of summed samples for 'global'). The factor 3 is the number of times reflection padding can repeat a sample.", "quantifier": "every constructed object, both formats, every averaging mode over time and frequency, every pair of batches, every path", "why_tests_cant": "the bound quantifies over all pairs of real signals; a test can only try some of them", "anchors": ["kymatio/scattering1d/core/timefrequency_scattering.py:1-330", "kymatio/scattering1d/frontend/base_frontend.py:584-648", "kymatio/scattering1d/backend/numpy_backend.py:1-120"]}
{"id": "C107", "title": "Scattering1D is invariant to translations shorter than T", "statement": "With local averaging and a stride of at most T, circularly shifting the padded signal by tau samples changes the coefficients of a path by a sequence whose energy is at most (2/5 |tau|/T)**2 times the squared gain of the wavelets of the path times the energy of the padded signal. tau is a whole number of samples at the resolution at which the path meets the low-pass filter (2**min(j, log2_stride), j its last scale). At stride 1 this holds of every path and every tau, with gain 1: the relative change is at most 2/5 |tau|/T.", "quantifier": "every constructed object with stride <= T, every batch shape, every signal, every path, every shift that is a multiple of the resolution of the path", "why_tests_cant": "the bound quantifies over all signals and shifts and over all scales T; a test tries a few signals with a loose tolerance", "anchors": ["kymatio/scattering1d/core/scattering1d.py:1-109", "kymatio/scattering1d/filter_bank.py:40-103", "kymatio/scattering1d/filter_bank.py:392-402"]}
{"id": "C108", "title": "Scattering2D hardly moves under translations short before 2**J", "statement": "With pre_pad=True, moving the padded image circularly by (d, e) pixels changes the coefficients of a path by an image whose energy is at most (3 (|d| + |e|) / 2**J)**2 times the squared gain of the wavelets of the path times the energy of the image, provided d and e are multiples of 2**j, j the scale of the last wavelet of the path (any d and e at order zero, where the gain is 1).", "quantifier": "every J, L, max_order, image size, batch shape, image, path, and every translation by multiples of the grid step of the path", "why_tests_cant": "the bound quantifies over all images, translations and scales; a test tries a few images with a loose tolerance", "anchors": ["kymatio/scattering2d/core/scattering2d.py:1-91", "kymatio/scattering2d/filter_bank.py:5-174"]}
{"id": "C109", "title": "The JAX frontends compute the 2-D and 3-D transforms of NumPy", "statement": "ScatteringJax2D, constructed and called with the same arguments and array as ScatteringNumPy2D, has the same outcome: the same coefficients in the same container or the same exception. HarmonicScatteringJax3D returns what HarmonicScatteringNumPy3D returns, with the same outcome altogether for accepted arguments and an array that is not empty; for other arguments it may raise TypeError where NumPy raises ValueError.", "quantifier": "every J, shape, L, max_order, pre_pad, out_type, sigma_0, method, integral_powers and every array, whatever its shape and element type", "why_tests_cant": "Tests compare the frontends on a few arrays and do not compare exceptions; jax.numpy raises TypeError where NumPy reshape raises ValueError, and only a proof shows that the 2-D transform never gets there.", "anchors": ["kymatio/scattering2d/frontend/jax_frontend.py:5-24", "kymatio/scattering2d/backend/jax_backend.py:5-18", "kymatio/scattering3d/frontend/jax_frontend.py:6-28", "kymatio/scattering3d/backend/jax_backend.py:5-18", "kymatio/backend/jax_backend.py:7-16"]}
{"id": "C110", "title": "Joint scattering follows the translations of its input", "statement": "Shifting the padded signal circularly by d strides 2**log2_stride moves every row of joint time-frequency coefficients by d samples (by d 2**(log2_stride - j2) samples for an unaveraged second-order path, which is sampled every 2**j2), whatever the frequential filter, spin and format; with T='global' the coefficients do not change at all. Keys, scales and all other labels of the paths stay the same, in the same order.", "quantifier": "every constructed object that accepts a batch, all three averaging modes in time and in frequency, both formats, every padded batch and every integer d", "why_tests_cant": "The claim quantifies over all padded signals, shifts and filterbanks; a test moves a few signals and compares with a tolerance.", "anchors": ["kymatio/scattering1d/core/timefrequency_scattering.py:6-81", "kymatio/scattering1d/core/timefrequency_scattering.py:395-444", "kymatio/scattering1d/frontend/base_frontend.py:584-633"]}
{"id": "C111", "title": "No wavelet of Scattering1D or TimeFrequencyScattering is divided by zero", "statement": "morlet_1d divides every filter by the l1 norm of its impulse response without checking it. For every constructed Scattering1D object that sum is positive for every first- and second-order wavelet: the correction that removes the mean never cancels the filter, whose response at the Nyquist frequency stays strictly positive. The same holds for every wavelet along the log-frequency axis of a constructed TimeFrequencyScattering object, of either spin: there are at least eight frequency bins, and a quarter of the sampling frequency away from zero, on the side of the spin, the response is strictly positive.", "quantifier": "every constructed object, every wavelet of every bank", "why_tests_cant": "the filter is a difference of Gaussians evaluated at parameters ranging over every J, Q, T and length; a test samples a few of them", "anchors": ["kymatio/scattering1d/filter_bank.py:51-98", "kymatio/scattering1d/filter_bank.py:142-240", "kymatio/scattering1d/frontend/base_frontend.py:559-582"]}
{"id": "C112", "title": "Turning the image by a half-turn turns the 2-D coefficients", "statement": "With pre_pad=True, let x1 be the image x0 turned by a half-turn: pixel (u, v) of x1 is pixel (-u mod M, -v mod N) of x0, M and N being the padded sizes. Then Scattering2D returns the same paths for both images, and sample (u, v) of each coefficient array of x1 is sample (m - u, n - v) of the same array of x0, for 1 <= u < m and 1 <= v < n, with m x n the size of the outputs. No orientation is exchanged: each angle theta keeps its index.", "quantifier": "all scattering objects with J >= 1 and 2^J <= M, N, all numbers of orientations, all batches of real images, all paths", "why_tests_cant": "a test compares a few images with a tolerance; the exact symmetry relies on every filter, at every resolution, being real in the Fourier domain, and on the grids at each level being aligned with pixel 0", "anchors": ["kymatio/scattering2d/core/scattering2d.py:1-91", "kymatio/scattering2d/filter_bank.py:7-178", "kymatio/scattering2d/backend/numpy_backend.py:1-102"]}
{"id": "C113", "title": "HarmonicScattering3D does not tell a volume from its mirror image", "statement": "With rotation_covariant=True, a real volume x0 and the volume x1 read backwards along its three axes from any voxel (d, e, g), x1[i,j,k] = x0[(d-i) mod M, (e-j) mod N, (g-k) mod O] (x0[::-1, ::-1, ::-1] is one of them), have exactly the same coefficients at both orders. The transform is therefore blind to chirality.", "quantifier": "all accepted parameters (J, L, sigma_0, integral powers, max_order), all sizes, odd or even, all batches of real volumes, all offsets; NumPy and TensorFlow", "why_tests_cant": "a test compares two molecules with a tolerance; the exact equality relies on the sum over m of the components being symmetric between two frequencies, for every degree and at every pair of frequencies, including those at -N/2 where the filters themselves are not symmetric", "anchors": ["kymatio/scattering3d/core/scattering3d.py:1-75", "kymatio/scattering3d/filter_bank.py:8-184", "kymatio/scattering3d/backend/numpy_backend.py:1-77"]}
{"id": "C114", "title": "The double factorial that normalises the solid harmonics of even degree is exact", "statement": "double_factorial(i) returns i!! for every non-negative integer i, so that solid_harmonic_3d divides the wavelets of every even degree l by the constant 2*pi*sqrt(l+1/2)*(l+1)!! that gives them unit mass.", "quantifier": "all integers i and all even degrees l", "why_tests_cant": "numpy.prod multiplies 64-bit integers and wraps around silently; tests use degrees below 5 and compare no normalisation for large degrees.", "anchors": ["kymatio/scattering3d/utils.py:double_factorial", "kymatio/scattering3d/filter_bank.py:solid_harmonic_3d"]}
{"id": "C115", "title": "Joint scattering of a signal read backwards: orders 0 and 1", "statement": "Reading the padded real signals backwards (sample n becomes sample -n modulo the padded length) reads every zeroth- and first-order row of joint time-frequency coefficients backwards, whatever the frequential filter and format; with T='global' those coefficients do not change. Keys, scales and all other labels of all paths stay the same, in the same order. (The claim stops at the first order: at second order reversal exchanges the spins, and the frequential filters of opposite spin are not exact mirrors of each other because they are periodised over an asymmetric range.)", "quantifier": "every constructed object that accepts a batch, all three averaging modes in time and in frequency, both formats, every padded batch of real signals", "why_tests_cant": "The claim quantifies over all real padded signals and filterbanks; a test reverses a few signals and compares with a tolerance.", "anchors": ["kymatio/scattering1d/core/timefrequency_scattering.py:6-81", "kymatio/scattering1d/core/timefrequency_scattering.py:395-444", "kymatio/scattering1d/filter_bank.py:12-150"]}
{"id": "C116", "title": "Centre of the 3-D filters, in space and in the Fourier domain", "statement": "As documented (\"ifftshifted such that the origin is at the point [0, 0, 0]\"), for both values of the fourier argument the Gaussian filters and the wavelets of degree 0 take their largest value, 1 in the Fourier domain and 1/((2 pi)**1.5 sigma**3) in space, at index [0, 0, 0] and only there, and the wavelets of higher degree vanish there. What holds: with every size at least 2 all this is true of index [M mod 2, N mod 2, O mod 2], hence of [0, 0, 0] exactly when the three sizes are even; an axis of a single point has coordinate -1 and the filters then never reach their peak value.", "quantifier": "all sizes, J, L, positive sigma_0, both domains, every voxel, any function for the spherical harmonics", "why_tests_cant": "Tests use one even size and compare the values with a formula on the same grid; the parity of the sizes and the spatial domain are never exercised.", "anchors": ["kymatio/scattering3d/filter_bank.py:43-109", "kymatio/scattering3d/filter_bank.py:8-40", "kymatio/scattering3d/filter_bank.py:111-184"]}
{"id": "C117", "title": "HarmonicScattering3D in the mean square: power 2 is a weighted power spectrum", "statement": "A first-order coefficient of integral power 2 equals the sum over the frequencies of |x^|^2 times the energy of the wavelets of its degree and scale there (summed over the orders m, or m = -l alone when rotation_covariant is False), divided by the number of voxels. So volumes with the same power spectrum have the same such coefficients. If the energy of the wavelets of degree l and scale j is at most G_j at every frequency, and g is the product of the G_j along a path of order 1 or 2, then coefficients of power 1 of two volumes differ by at most sqrt(V g) times the Euclidean distance of the volumes, and those of power 2 by at most g times that distance times the sum of the Euclidean norms of the volumes.", "quantifier": "every valid size, J, L, sigma_0, max_order, rotation_covariant setting, every function in place of sph_harm, every batch shape, every pair of volumes, every path of first and second order", "why_tests_cant": "an identity and two bounds over all pairs of real volumes, of every size; a test can only try some of them", "anchors": ["kymatio/scattering3d/core/scattering3d.py:scattering3d", "kymatio/scattering3d/backend/numpy_backend.py:NumpyBackend3D.modulus_rotation", "kymatio/scattering3d/backend/numpy_backend.py:NumpyBackend3D.compute_integrals", "kymatio/scattering3d/filter_bank.py:solid_harmonic_filter_bank"]}
{"id": "C118", "title": "HarmonicScattering3D never expands mean-square distances, whatever the degree and the scale", "statement": "For sigma_0 > 0, if the spherical harmonics of each degree l in 1..L satisfy the addition theorem at equal arguments (the sum over m of |Y_l^m|^2 is (2l+1)/(4 pi)), then at every frequency the energy of the wavelets of a degree and scale is at most 1: the normalization of the filters never amplifies. So for every path of order 1 or 2, every degree and either rotation_covariant setting, coefficients of power 1 of two volumes of V voxels differ by at most sqrt(V) times the Euclidean distance of the volumes, and those of power 2 by at most that distance times the sum of the Euclidean norms of the volumes; the constants depend on no parameter of the transform. Neither constant can be lowered: for even sizes both bounds are equalities on constant volumes of the same sign, at degree 0 on every path. In particular a coefficient of power 2 is at most the energy of the volume, and one of power 1 at most the square root of V times that energy.", "quantifier": "every valid size, J, L, sigma_0 > 0, max_order and rotation_covariant setting, every batch shape, every pair of volumes, every path index, degree and integral power equal to 1 or 2", "why_tests_cant": "the bound is uniform over all degrees, scales, sizes and pairs of real volumes; it rests on comparing the peak of x^l exp(-x) with a Gaussian moment for every l", "anchors": ["kymatio/scattering3d/filter_bank.py:solid_harmonic_filter_bank", "kymatio/scattering3d/filter_bank.py:solid_harmonic_3d", "kymatio/scattering3d/core/scattering3d.py:scattering3d", "kymatio/scattering3d/backend/numpy_backend.py:NumpyBackend3D.compute_integrals"]}
{"id": "C119", "title": "Joint scattering hardly moves under translations much shorter than T", "statement": "With local averaging in time over T and a stride of at most T, shifting the padded signal circularly by s samples (a multiple of the stride) moves the joint time-frequency coefficients of each path by at most 2/5 |s|/T times the Euclidean norm of the padded signal, times the gain of the filters of the path other than the final low-pass over time (the distance is the Euclidean one, over all rows and times of the path); the zeroth-order coefficients by at most 2/5 |s|/T times the norm. The labels of the paths do not change.", "quantifier": "every constructed object with local time averaging that accepts a batch, all averaging modes in frequency, both formats, every padded batch and every integer number of strides", "why_tests_cant": "the bound quantifies over all signals, translations and filterbanks and says how fast the error decreases with T; a test measures the change for one signal", "anchors": ["kymatio/scattering1d/core/timefrequency_scattering.py:6-81", "kymatio/scattering1d/core/timefrequency_scattering.py:395-444", "kymatio/scattering1d/filter_bank.py:scattering_filter_factory"]}
{"id": "C120", "title": "At degrees above 0, HarmonicScattering3D is blind to the mean of the volumes", "statement": "Solid harmonics of degree l >= 1 have zero mean, so adding a constant to a volume changes none of its coefficients of degree l >= 1, on any path of order 1 or 2 and for any integral power.", "quantifier": "every valid parameter, every batch, every constant (one per volume), every path, degree l >= 1 and power", "why_tests_cant": "the claim is about all volumes, constants, sizes and degrees; the tests use one random or Gaussian volume of even size", "anchors": ["kymatio/scattering3d/filter_bank.py:solid_harmonic_filter_bank", "kymatio/scattering3d/filter_bank.py:solid_harmonic_3d", "kymatio/scattering3d/core/scattering3d.py:scattering3d"]}
{"id": "C121", "title": "Frequency padding appends zeros and refuses negative amounts", "statement": "pad_frequency(x, p) of the NumPy, PyTorch and TensorFlow backends keeps every sample of the frequency axis and appends p zeros to it; a negative p raises.", "quantifier": "every shape, every array and every amount p", "why_tests_cant": "the claim is about all arrays and amounts, including the negative ones the joint transform asks for when the frequency filters are shorter than the number of wavelets; the tests pad one array by one positive amount", "anchors": ["kymatio/scattering1d/backend/numpy_backend.py:NumpyBackend1D.pad_frequency", "kymatio/scattering1d/backend/torch_backend.py:TorchBackend1D.pad_frequency", "kymatio/scattering1d/backend/tensorflow_backend.py:TensorFlowBackend1D.pad_frequency"]}
{"id": "C122", "title": "Exchanging time and frequency transposes every matrix and is its own inverse", "statement": "swap_time_frequency of the NumPy, PyTorch and TensorFlow backends returns, for an array of matrices (with PyTorch, of matrices of real or complex cells), the array of the transposed matrices; applied twice it returns the array it was given.", "quantifier": "every shape, every array, every cell size", "why_tests_cant": "the claim is about all shapes and arrays; the tests swap one random array", "anchors": ["kymatio/scattering1d/backend/numpy_backend.py:NumpyBackend1D.swap_time_frequency", "kymatio/scattering1d/backend/torch_backend.py:TorchBackend1D.swap_time_frequency", "kymatio/scattering1d/backend/tensorflow_backend.py:TensorFlowBackend1D.swap_time_frequency"]}
{"id": "C123", "title": "Frequency unpadding keeps the first rows of the frequency axis; splitting yields its rows in order", "statement": "unpad_frequency(x, n1_max, n1_stride) keeps the first 1 + n1_max // n1_stride rows of the frequency axis (all of them if there are fewer), in the NumPy, PyTorch and TensorFlow backends, whatever the leading axes and in particular on the shape (batch, frequency, time, 1) documented for PyTorch; split_frequency_axis returns one array per row, in order.", "quantifier": "every n1_max >= 0, n1_stride >= 1, shape and array", "why_tests_cant": "the claim is about all shapes and strides; the tests unpad one array of four axes per backend and look at the shape only", "anchors": ["kymatio/scattering1d/backend/numpy_backend.py:NumpyBackend1D.unpad_frequency", "kymatio/scattering1d/backend/torch_backend.py:TorchBackend1D.unpad_frequency", "kymatio/scattering1d/backend/tensorflow_backend.py:TensorFlowBackend1D.unpad_frequency", "kymatio/scattering1d/backend/numpy_backend.py:NumpyBackend1D.split_frequency_axis", "kymatio/scattering1d/backend/torch_backend.py:TorchBackend1D.split_frequency_axis", "kymatio/scattering1d/backend/tensorflow_backend.py:TensorFlowBackend1D.split_frequency_axis"]}
{"id": "C124", "title": "Flattening the batch axes is undone by restoring them", "statement": "reshape_input(x, signal_shape) of the NumPy, PyTorch and TensorFlow backends merges the batch axes into one, inserts a channel axis and leaves the data in place; reshape_output with the original batch shape and as many kept axes as the signal has returns x. An array whose number of entries is not a multiple of the size of a signal is refused.", "quantifier": "every batch shape, every signal shape without a zero, every array", "why_tests_cant": "the claim is about all shapes; the tests flatten and restore one batch of 3 by 5 signals of size 16 per dimension", "anchors": ["kymatio/backend/numpy_backend.py:NumpyBackend.reshape_input", "kymatio/backend/numpy_backend.py:NumpyBackend.reshape_output", "kymatio/backend/torch_backend.py:TorchBackend.reshape_input", "kymatio/backend/torch_backend.py:TorchBackend.reshape_output", "kymatio/backend/tensorflow_backend.py:TensorFlowBackend.reshape_input", "kymatio/backend/tensorflow_backend.py:TensorFlowBackend.reshape_output"]}
{"id": "C125", "title": "cdgmm multiplies every signal of a batch by the filter", "statement": "cdgmm(A, B) of the NumPy, TensorFlow and PyTorch backends returns C of the shape of A with C[b, m] = A[b, m] * B[m] for a complex A ending with the axes of B and a real or complex B (PyTorch: of the same precision, TypeError otherwise); with NumPy and TensorFlow it raises TypeError when A is not complex, RuntimeError when A does not end with the axes of B, and TypeError when B is neither real nor complex.", "quantifier": "every batch shape, every filter shape with at least one axis, all arrays", "why_tests_cant": "the claim is about all shapes and arrays; the tests multiply a few random arrays of fixed sizes", "anchors": ["kymatio/backend/numpy_backend.py:NumpyBackend.cdgmm", "kymatio/backend/tensorflow_backend.py:TensorFlowBackend", "kymatio/backend/torch_backend.py:TorchBackend.cdgmm"]}
{"id": "C126", "title": "stack puts each array at its own position of a new axis", "statement": "stack(arrays, dim) of the NumPy, PyTorch and TensorFlow backends returns an array with one more axis, of length the number of arrays, at position dim (counted from the end of the result when negative), such that fixing that axis at k gives back array k; an empty list and arrays of unequal shapes are refused, by TensorFlow also arrays of unequal dtypes.", "quantifier": "every list of arrays of one dtype, every shape, every position", "why_tests_cant": "the claim is about all shapes, positions and numbers of arrays; the tests stack three arrays of fixed size along the default axis", "anchors": ["kymatio/backend/numpy_backend.py:NumpyBackend.stack", "kymatio/backend/torch_backend.py:TorchBackend.stack", "kymatio/backend/tensorflow_backend.py:TensorFlowBackend.stack"]}
{"id": "C127", "title": "average_global averages over time", "statement": "average_global(x) of the NumPy, PyTorch and TensorFlow backends returns, for each real signal, one sample equal to the average of the signal over time.", "quantifier": "every batch shape, every length, every real array", "why_tests_cant": "the claim is about all arrays; no test looks at the value of average_global", "anchors": ["kymatio/scattering1d/backend/numpy_backend.py:NumpyBackend1D.average_global", "kymatio/scattering1d/backend/torch_backend.py:TorchBackend1D.average_global", "kymatio/scattering1d/backend/tensorflow_backend.py:TensorFlowBackend1D.average_global"]}
{"id": "C128", "title": "The global zeroth order is the sum of the signal", "statement": "With T=\"global\", the zeroth-order coefficient of Scattering1D is the sum of the N samples of the input signal.", "quantifier": "every constructed object, every batch shape, every real signal", "why_tests_cant": "the claim is about all signals; the existing tests of T=\"global\" use the zero signal and look only at the shape", "anchors": ["kymatio/scattering1d/frontend/base_frontend.py:ScatteringBase1D.scattering", "kymatio/scattering1d/backend/numpy_backend.py:NumpyBackend1D.average_global", "kymatio/scattering1d/backend/numpy_backend.py:NumpyBackend1D.pad"]}
