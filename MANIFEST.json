{
 "claims": [
  {
   "property": "C01",
   "status": "proved",
   "theorems": [
    "C01_padding_always_legal"
   ],
   "note": ""
  },
  {
   "property": "C02",
   "status": "proved",
   "theorems": [
    "C02_compute_padding_contract"
   ],
   "note": ""
  },
  {
   "property": "C03",
   "status": "proved",
   "theorems": [
    "C03_border_indices"
   ],
   "note": ""
  },
  {
   "property": "C04",
   "status": "proved",
   "theorems": [
    "C04_time_samples"
   ],
   "note": ""
  },
  {
   "property": "C05",
   "status": "proved",
   "theorems": [
    "C05_T_table",
    "C05_time",
    "C05_time_rejected",
    "C05_frequency"
   ],
   "note": ""
  },
  {
   "property": "C06",
   "status": "proved",
   "theorems": [
    "C06_Q_table",
    "C06_float_entry_refuted"
   ],
   "note": "The Q property accepts any pair of numbers >= 1; the constructor then raises TypeError on a float entry."
  },
  {
   "property": "C07",
   "status": "proved",
   "theorems": [
    "C07_stride"
   ],
   "note": ""
  },
  {
   "property": "C08",
   "status": "partial",
   "theorems": [
    "C08_oversampling_equivalent_partial",
    "C08_both_refuted"
   ],
   "note": "Equivalence proved without an explicit stride; passing both is refuted: the compatibility test compares with 2**(log2_T-oversampling-1)."
  },
  {
   "property": "C09",
   "status": "proved",
   "theorems": [
    "C09_generator"
   ],
   "note": ""
  },
  {
   "property": "C10",
   "status": "proved",
   "theorems": [
    "C10_scale",
    "C10_docstring_strict_refuted"
   ],
   "note": "The strict inequality of the docstring is refuted at the boundary; the non-strict one is proved."
  },
  {
   "property": "C100",
   "status": "partial",
   "theorems": [
    "C100_transposition_partial"
   ],
   "note": "Every path has its partner, and the coefficients are transposes of each other at orders 0 and 1 and at order 2 when j1 = 0 or theta2 <= L/2 - 2. Missing: order 2 with j1 >= 1 and theta2 > L/2 - 2, where the partner filter is the opposite orientation and the filters periodised by periodize_filter_fft keep the frequency -m/2 but not +m/2, so the two are not exact mirror images of each other."
  },
  {
   "property": "C101",
   "status": "proved",
   "theorems": [
    "C101_first_axes",
    "C101_last_axes",
    "C101_rotation"
   ],
   "note": "Any order of the axes is reached by the first two. The addition theorem of the spherical harmonics is a hypothesis on the function sph_harm of SciPy, which is a parameter of the model; the instance proves it for the harmonics of degrees 0 and 1. Real arithmetic."
  },
  {
   "property": "C102",
   "status": "partial",
   "theorems": [
    "C102_constructor",
    "C102_call",
    "C102_errors",
    "C102_zero_scale_refuted"
   ],
   "note": "The constructor is characterised for all arguments and the calls for J >= 1 (TensorFlow: without pre_pad, see C66). Objects built with J = 0 raise IndexError on every valid input: their low-pass filter has no level (refuted)."
  },
  {
   "property": "C103",
   "status": "proved",
   "theorems": [
    "C103_mean_square",
    "C103_energy",
    "C103_unit_gain"
   ],
   "note": "Real arithmetic. The constant 3 is for reflection padding on both sides; the gain is that of C85."
  },
  {
   "property": "C104",
   "status": "partial",
   "theorems": [
    "C104_padding",
    "C104_stride",
    "C104_log2_T_partial",
    "C104_log2_T_refuted",
    "C104_subsampling_partial",
    "C104_subsampling_refuted"
   ],
   "note": "Padding and stride exact up to 2**45. floor(log2 T) is exact for integers and for T not within a factor 1-2**-46 of the next power of two, at most one too large otherwise, and one too large for T = 512(1-2**-53) with rounding to nearest (refuted). The subsampling is maximal and alias-free up to a relative error of 2**-45; the strict bound of the docstring fails for an upper frequency of 2**-9(1+2**-52) (refuted). The doubles are those of Flocq."
  },
  {
   "property": "C105",
   "status": "proved",
   "theorems": [
    "C105_mean_square"
   ],
   "note": "Real arithmetic. The gain is that of C90."
  },
  {
   "property": "C106",
   "status": "proved",
   "theorems": [
    "C106_mean_square",
    "C106_energy"
   ],
   "note": "Real arithmetic. The constant 3 is for reflection padding on both sides."
  },
  {
   "property": "C107",
   "status": "proved",
   "theorems": [
    "C107_translation",
    "C107_unit_gain"
   ],
   "note": "Real arithmetic; the shift is circular and acts on the padded signal."
  },
  {
   "property": "C108",
   "status": "proved",
   "theorems": [
    "C108_translation"
   ],
   "note": "Real arithmetic; the translation is circular and acts on the padded image. It must be a multiple of the step of the grid on which the path meets the low-pass filter."
  },
  {
   "property": "C109",
   "status": "proved",
   "theorems": [
    "C109_jax_2d",
    "C109_jax_3d",
    "C109_jax_3d_accepted"
   ],
   "note": "Real arithmetic; jax.numpy is modelled as NumPy with TypeError for an impossible reshape. An empty batch in 3-D is left out of the part about exceptions."
  },
  {
   "property": "C11",
   "status": "partial",
   "theorems": [
    "C11_assertions_partial",
    "C11_second_assertion_refuted"
   ],
   "note": "Proved for Q1 >= Q2; refuted for Q=(1,8), where the constructor raises AssertionError."
  },
  {
   "property": "C110",
   "status": "proved",
   "theorems": [
    "C110_translation"
   ],
   "note": "Real arithmetic. The shift is circular and acts on the padded batch, before the padding is removed from the coefficients."
  },
  {
   "property": "C111",
   "status": "partial",
   "theorems": [
    "C111_divisor_partial",
    "C111_frequential",
    "C111_single_sample_refuted"
   ],
   "note": "Proved for every input of at least two samples and for every frequential wavelet. Refuted for one sample: the padded length is 1, the only frequency is zero, and the wavelets are 0/0."
  },
  {
   "property": "C112",
   "status": "proved",
   "theorems": [
    "C112_half_turn"
   ],
   "note": "Any J >= 1, any L, max_order 1 or 2, any batch of padded real images (pre_pad=True, where the statement is exact: the circular half-turn of the padded image). The filters are those of the model, real in the Fourier domain."
  },
  {
   "property": "C113",
   "status": "proved",
   "theorems": [
    "C113_mirror"
   ],
   "note": "NumPy and TensorFlow, any J, L, sigma_0, integral powers and max_order, any batch of real volumes, any centre of the reversal. As for C101, the only fact used about scipy.special.sph_harm is the addition theorem of spherical harmonics, stated as a hypothesis (and proved for degrees 0 and 1 in the instance)."
  },
  {
   "property": "C114",
   "status": "partial",
   "theorems": [
    "C114_double_factorial_partial",
    "C114_normalisation",
    "C114_normalisation_refuted"
   ],
   "note": "Right exactly for i <= 33, hence for even degrees up to 32. From degree 34 on the product of 64-bit integers wraps around and the wavelets have at least 24 times the mass they should have. 64-bit integers modelled as residues modulo 2**64; the rest of the constant is in real arithmetic."
  },
  {
   "property": "C115",
   "status": "proved",
   "theorems": [
    "C115_reversal"
   ],
   "note": "Real arithmetic. The reversal is circular, around sample 0, and acts on the padded batch, before the padding is removed from the coefficients. Second-order paths are outside the claim."
  },
  {
   "property": "C116",
   "status": "partial",
   "theorems": [
    "C116_gaussian_centre",
    "C116_wavelets",
    "C116_documented_partial",
    "C116_single_refuted"
   ],
   "note": "The centre is at [M mod 2, N mod 2, O mod 2], so the documented place is right exactly for even sizes; a size of 1 leaves no centre. Real arithmetic."
  },
  {
   "property": "C117",
   "status": "proved",
   "theorems": [
    "C117_energy",
    "C117_power_spectrum",
    "C117_mean_square"
   ],
   "note": "Real arithmetic. The bounds G_j are parameters: any upper bounds of the energy of the wavelets, such as its maximum over the finitely many frequencies."
  },
  {
   "property": "C118",
   "status": "proved",
   "theorems": [
    "C118_contraction",
    "C118_sharp",
    "C118_bound"
   ],
   "note": "Real arithmetic, the double factorial included (in 64-bit integers it is exact up to degree 32 only, see C114). The addition theorem of sph_harm at equal arguments is a hypothesis on the function standing for scipy.special.sph_harm; sigma_0 > 0."
  },
  {
   "property": "C119",
   "status": "proved",
   "theorems": [
    "C119_translation"
   ],
   "note": "Real arithmetic. Local averaging in time with a stride of at most T; circular translations of the padded batch by multiples of the stride. The gain of each path is explicit (jtfs_short_gain). At a stride of 4 and T = 16 the instance has 2/5 |s|/T = 1/10."
  },
  {
   "property": "C12",
   "status": "proved",
   "theorems": [
    "C12_scales_sorted_bounded"
   ],
   "note": ""
  },
  {
   "property": "C120",
   "status": "partial",
   "theorems": [
    "C120_adding_partial",
    "C120_odd_refuted"
   ],
   "note": "Holds when the three sizes are even. As soon as one size is odd the frequency grid misses 0 at index 0 (see C77), and every first-order coefficient of a non-zero constant volume is positive at every degree (sigma_0 > 0, rotation_covariant=True, addition theorem of sph_harm as a hypothesis). Real arithmetic."
  },
  {
   "property": "C121",
   "status": "partial",
   "theorems": [
    "C121_zeros_partial",
    "C121_negative",
    "C121_torch_refuted"
   ],
   "note": "NumPy and TensorFlow: the whole claim (TensorFlow raises InvalidArgumentError, modelled as RuntimeError). PyTorch appends zeros for p >= 0, but a negative p silently drops the last rows."
  },
  {
   "property": "C122",
   "status": "proved",
   "theorems": [
    "C122_swap"
   ],
   "note": "Values are compared entry by entry on the row-major data; PyTorch returns a contiguous tensor."
  },
  {
   "property": "C123",
   "status": "partial",
   "theorems": [
    "C123_unpad_partial",
    "C123_docstring_refuted",
    "C123_rank_refuted",
    "C123_split"
   ],
   "note": "NumPy: any leading axes. PyTorch and TensorFlow slice the third axis, which is the frequency axis for the two leading axes the joint transform uses; on the documented PyTorch shape the time axis is cut instead, and fewer than four axes raise IndexError. split_frequency_axis: the whole claim."
  },
  {
   "property": "C124",
   "status": "proved",
   "theorems": [
    "C124_round_trip",
    "C124_refused"
   ],
   "note": "The exception of tf.reshape is modelled as RuntimeError."
  },
  {
   "property": "C125",
   "status": "proved",
   "theorems": [
    "C125_product",
    "C125_errors",
    "C125_torch"
   ],
   "note": "Real arithmetic. PyTorch: contiguous tensors; its refusals and the CUDA versions are in C97."
  },
  {
   "property": "C126",
   "status": "proved",
   "theorems": [
    "C126_stack",
    "C126_refused",
    "C126_tensorflow"
   ],
   "note": "Arrays of one dtype: the NumPy and PyTorch models give the result the dtype of the first array."
  },
  {
   "property": "C127",
   "status": "partial",
   "theorems": [
    "C127_sum_partial",
    "C127_average_refuted"
   ],
   "note": "The three backends return the sum over time, in one sample: the average times the number of samples. So the factor depends on the resolution of the path. Real arithmetic."
  },
  {
   "property": "C128",
   "status": "partial",
   "theorems": [
    "C128_zeroth_partial",
    "C128_sum_refuted"
   ],
   "note": "The average is taken before unpadding, so the sum also counts the reflected samples: for a constant c it is c times the padded length. NumPy frontend, real arithmetic."
  },
  {
   "property": "C13",
   "status": "proved",
   "theorems": [
    "C13_number_of_wavelets"
   ],
   "note": ""
  },
  {
   "property": "C14",
   "status": "proved",
   "theorems": [
    "C14_lookups"
   ],
   "note": ""
  },
  {
   "property": "C15",
   "status": "partial",
   "theorems": [
    "C15_total_partial",
    "C15_large_stride_refuted"
   ],
   "note": "Proved for Q1 >= Q2 and stride <= 2**log2_T; refuted for strides larger than T (J>=5, T=2, stride=2**J: every call raises)."
  },
  {
   "property": "C16",
   "status": "proved",
   "theorems": [
    "C16_path_set_and_order"
   ],
   "note": ""
  },
  {
   "property": "C17",
   "status": "proved",
   "theorems": [
    "C17_output_types_agree",
    "C17_numpy_channels"
   ],
   "note": "Array output is the backend stack of the sorted coefficients; channel k of the NumPy stack is element k."
  },
  {
   "property": "C18",
   "status": "partial",
   "theorems": [
    "C18_meta_alignment_partial",
    "C18_meta_returns",
    "C18_meta_total_partial",
    "C18_meta_total_refuted"
   ],
   "note": "Alignment whenever meta() returns, and exactly when it returns: max_order=1 or no second-order path starts from a wavelet with j1 > log2(T), in particular log2(T) >= J-2. Otherwise IndexError, for instance J>=5 and T=2."
  },
  {
   "property": "C19",
   "status": "proved",
   "theorems": [
    "C19_output_size_counts"
   ],
   "note": ""
  },
  {
   "property": "C20",
   "status": "proved",
   "theorems": [
    "C20_max_order_prefix"
   ],
   "note": ""
  },
  {
   "property": "C21",
   "status": "proved",
   "theorems": [
    "C21_wrong_length_raises"
   ],
   "note": ""
  },
  {
   "property": "C22",
   "status": "proved",
   "theorems": [
    "C22_batch_independence"
   ],
   "note": ""
  },
  {
   "property": "C23",
   "status": "proved",
   "theorems": [
    "C23_runtime_checks"
   ],
   "note": ""
  },
  {
   "property": "C24",
   "status": "proved",
   "theorems": [
    "C24_subsample_is_decimation"
   ],
   "note": ""
  },
  {
   "property": "C25",
   "status": "proved",
   "theorems": [
    "C25_zeroth_order",
    "scattering1d_is_convolution"
   ],
   "note": "The low-pass is tabulated in the Fourier domain by folding an odd number of periods, so its impulse response is not exactly real; irfft keeps the real part, hence Re in the statement."
  },
  {
   "property": "C26",
   "status": "proved",
   "theorems": [
    "C26_first_order",
    "scattering1d_is_convolution"
   ],
   "note": "The low-pass is tabulated in the Fourier domain by folding an odd number of periods, so its impulse response is not exactly real; irfft keeps the real part, hence Re in the statement."
  },
  {
   "property": "C27",
   "status": "proved",
   "theorems": [
    "C27_second_order",
    "scattering1d_is_convolution"
   ],
   "note": "The low-pass is tabulated in the Fourier domain by folding an odd number of periods, so its impulse response is not exactly real; irfft keeps the real part, hence Re in the statement."
  },
  {
   "property": "C28",
   "status": "proved",
   "theorems": [
    "C28_levels_are_sampled"
   ],
   "note": ""
  },
  {
   "property": "C29",
   "status": "proved",
   "theorems": [
    "C29_homogeneous"
   ],
   "note": "For every real factor c, including negative ones: the coefficients of c*x are |c| times those of x at orders 1 and 2 and c times at order 0."
  },
  {
   "property": "C30",
   "status": "proved",
   "theorems": [
    "C30_translation"
   ],
   "note": "Stated for the core transform on the padded signal: rotating the padded signal by a multiple of the stride rotates the local averages by the quotient."
  },
  {
   "property": "C31",
   "status": "proved",
   "theorems": [
    "C31_zero_mean"
   ],
   "note": "For at least two samples; with one sample the code divides by zero (C111)."
  },
  {
   "property": "C32",
   "status": "proved",
   "theorems": [
    "C32_l1_normalised"
   ],
   "note": "For at least two samples; with one sample the code divides by zero (C111)."
  },
  {
   "property": "C33",
   "status": "proved",
   "theorems": [
    "C33_global",
    "C33_no_averaging"
   ],
   "note": ""
  },
  {
   "property": "C34",
   "status": "proved",
   "theorems": [
    "C34_pad_unpad",
    "C34_accepted",
    "C34_samples",
    "C34_mirrored",
    "C34_unpad_others"
   ],
   "note": "C34_accepted covers shapes and refusals, C34_mirrored the values, for NumPy, PyTorch and TensorFlow in reflect mode, the only mode used on the time axis."
  },
  {
   "property": "C35",
   "status": "proved",
   "theorems": [
    "C35_widthfirst_depthfirst",
    "C35_rows"
   ],
   "note": "For every backend; row by row for the NumPy backend."
  },
  {
   "property": "C36",
   "status": "proved",
   "theorems": [
    "C36_path_keys",
    "C36_output_types",
    "constructed_jtfs_ok"
   ],
   "note": "For every backend; jtfs_ok holds of every constructed object."
  },
  {
   "property": "C37",
   "status": "proved",
   "theorems": [
    "C37_filter_applied",
    "C37_n_fr_identifies",
    "C37_constructed_bank"
   ],
   "note": ""
  },
  {
   "property": "C38",
   "status": "partial",
   "theorems": [
    "C38_padding_partial",
    "C38_margin_refuted",
    "C38_room_needed",
    "C38_no_room_refuted"
   ],
   "note": "Multiple of 2**J_fr holds; the margin can fall short by less than 2**J_fr because of a floor division; the claim as stated is refuted. When F is much shorter than 2**J_fr there can be fewer bins than wavelets (F=1, Q=1, J=16, J_fr=4 and an infinite family): the constructor returns, and every call in NumPy, JAX and TensorFlow raises."
  },
  {
   "property": "C39",
   "status": "partial",
   "theorems": [
    "C39_joint_meta_partial",
    "C39_time_meta_partial",
    "C39_alignment_refuted"
   ],
   "note": "Joint format: all rows but \"key\" are aligned with array output. Time format: meta() is sorted, the output is not. Refuted as stated."
  },
  {
   "property": "C40",
   "status": "partial",
   "theorems": [
    "C40_rows_and_labels_partial",
    "C40_time_labels_partial",
    "C40_lowpass_rows_refuted"
   ],
   "note": "Row r is at bin r*n1_stride except for spin-0 paths with a frequency stride below 2**J_fr, whose labels are r*2**J_fr; that case is refuted."
  },
  {
   "property": "C41",
   "status": "partial",
   "theorems": [
    "C41_default_configurations_partial",
    "C40_lowpass_rows_refuted"
   ],
   "note": "The first sentence is proved for T and F at their defaults; strides default or 2**k with k from the largest wavelet scale to J. The second sentence is refuted: with stride_fr=1 the spin-0 rows carry wrong labels."
  },
  {
   "property": "C42",
   "status": "proved",
   "theorems": [
    "C42_padding",
    "C42_output_size"
   ],
   "note": ""
  },
  {
   "property": "C43",
   "status": "proved",
   "theorems": [
    "C43_reflect",
    "C43_padding_agrees",
    "C43_accepted",
    "C43_numpy_any",
    "C43_uneven_refuted"
   ],
   "note": "C43_accepted and C43_numpy_any say which paddings each module accepts; those of the frontends are among them. C43_uneven_refuted: a full padding before an axis with a shorter one after it, which the frontends never ask for, is padded wrongly. The exception of tf.pad is left open."
  },
  {
   "property": "C44",
   "status": "proved",
   "theorems": [
    "C44_paths",
    "C44_channels"
   ],
   "note": ""
  },
  {
   "property": "C45",
   "status": "proved",
   "theorems": [
    "C45_total",
    "C45_J0"
   ],
   "note": "For J = 0 every call raises IndexError (C45_J0)."
  },
  {
   "property": "C46",
   "status": "proved",
   "theorems": [
    "C46_subsample_is_decimation",
    "C46_periodize_keeps_one_copy"
   ],
   "note": ""
  },
  {
   "property": "C47",
   "status": "partial",
   "theorems": [
    "C47_keras_shape_partial",
    "C47_max_order_refuted",
    "C47_rank_refuted",
    "C47_pre_pad_refuted"
   ],
   "note": "True for inputs (batch, M, N), max_order=2 and pre_pad=False; refuted for max_order=1, more batch axes and pre_pad=True."
  },
  {
   "property": "C48",
   "status": "partial",
   "theorems": [
    "C48_call_partial",
    "C48_output_shape_partial",
    "C48_output_shape_refuted",
    "C48_rank_refuted",
    "C48_oversampling_refuted",
    "C48_max_order_refuted",
    "C48_output_shape_error_refuted",
    "C48_get_config_refuted"
   ],
   "note": "The call agrees with NumPy for the default max_order and oversampling, and the announced shape is right for floor(log2 T)=J and inputs (batch, N). max_order and oversampling are ignored, the announced shape is wrong for shorter T and for more batch axes, it raises IndexError for T=2 and J>=5, and get_config always raises."
  },
  {
   "property": "C49",
   "status": "proved",
   "theorems": [
    "C49_paths",
    "C49_layout"
   ],
   "note": ""
  },
  {
   "property": "C50",
   "status": "proved",
   "theorems": [
    "C50_rotation_fold",
    "C50_torch"
   ],
   "note": ""
  },
  {
   "property": "C51",
   "status": "proved",
   "theorems": [
    "C51_filters_follow_1d",
    "C51_module_is_image_1d",
    "C51_filters_follow_joint",
    "C51_module_is_image_joint",
    "C51_filters_follow_2d",
    "C51_filters_follow_3d"
   ],
   "note": "any sequence of moves (in place or replacing) and calls; torch.nn.Module buffers modelled as a name-to-object store"
  },
  {
   "property": "C52",
   "status": "proved",
   "theorems": [
    "C52_modulus_value",
    "C52_modulus_gradient",
    "C52_modulus_subgradient"
   ],
   "note": "over the reals; division by zero modelled as a non-finite value"
  },
  {
   "property": "C53",
   "status": "partial",
   "theorems": [
    "C53_operations",
    "C53_constructor",
    "C53_same_transform_partial",
    "C53_dtype",
    "C53_exceptions_refuted",
    "C53_contiguity_refuted"
   ],
   "note": "Same coefficients whenever NumPy returns, after any casts and calls; exceptions differ in class on shape errors, other dtypes raise TypeError and non-contiguous tensors are rejected."
  },
  {
   "property": "C54",
   "status": "partial",
   "theorems": [
    "C54_dispatch_partial",
    "C54_unknown_frontend",
    "C54_keras_refuted"
   ],
   "note": "Holds for the five frontends numpy, sklearn, torch, tensorflow, jax and for Keras 1-D and 2-D; Keras has no 3-D class (ImportError) and no joint class (AttributeError)."
  },
  {
   "property": "C55",
   "status": "proved",
   "theorems": [
    "C55_backend_of_frontend",
    "C55_accepted_names"
   ],
   "note": "all backend names and objects; an object without a name attribute raises AttributeError"
  },
  {
   "property": "C56",
   "status": "partial",
   "theorems": [
    "C56_base",
    "C56_no_create",
    "C56_only_adds_directories",
    "C56_exists_partial",
    "C56_creates",
    "C56_file_refuted",
    "C56_dot_refuted"
   ],
   "note": "A path that is an existing file is returned as if it were a directory; base a/../f/. with a missing and f a file is returned although that path does not exist (a later call with create=False raises ValueError)."
  },
  {
   "property": "C57",
   "status": "partial",
   "theorems": [
    "C57_predict_1d_partial",
    "C57_predict_2d_partial",
    "C57_predict_3d_partial",
    "C57_predict_jtfs_partial",
    "C57_empty_refuted",
    "C57_output_type_1d_refuted",
    "C57_output_type_2d_refuted",
    "C57_pre_pad_refuted"
   ],
   "note": "All four transformers (1-D: with averaging), batches with at least one sample; an empty batch raises, output types list and dict always raise AttributeError, and images with pre_pad=True always raise (self.shape is the size without padding)."
  },
  {
   "property": "C58",
   "status": "partial",
   "theorems": [
    "C58_modulus",
    "C58_subsample_1d_partial",
    "C58_subsample_2d_partial",
    "C58_overflow_refuted",
    "C58_grid_refuted",
    "C58_five_axes_refuted",
    "C58_subsample_2d_refuted"
   ],
   "note": "Holds for the modulus; for 1-D subsampling of at most 65535 signals with (k-1)*T < 2**31; for 2-D subsampling exactly when height and width take the same number of blocks of 32. Outside these the kernel overflows, is not launched, or leaves cells unwritten."
  },
  {
   "property": "C59",
   "status": "partial",
   "theorems": [
    "C59_input_checks_partial",
    "C59_type_error_refuted"
   ],
   "note": "None raises TypeError everywhere; other non-arrays raise NameError (NumPy), AttributeError (torch) or are accepted (JAX)."
  },
  {
   "property": "C60",
   "status": "proved",
   "theorems": [
    "C60_up_to_first_zero",
    "C60_full_sum"
   ],
   "note": ""
  },
  {
   "property": "C61",
   "status": "proved",
   "theorems": [
    "C61_row_labels",
    "C61_constructed"
   ],
   "note": ""
  },
  {
   "property": "C62",
   "status": "partial",
   "theorems": [
    "C62_order_partial",
    "C62_order_refuted"
   ],
   "note": "True in the joint format; one less than the order in the time format."
  },
  {
   "property": "C63",
   "status": "partial",
   "theorems": [
    "C63_unpadding_partial",
    "C63_unpadding_refuted",
    "C63_time_samples_partial",
    "C63_time_format_refuted"
   ],
   "note": "True in the joint format, and in the time format except at order one with T=0, where the array at log2_stride is cut with the bounds of resolution 0 (refuted, in general and on one object)."
  },
  {
   "property": "C64",
   "status": "proved",
   "theorems": [
    "C64_joint_coefficients",
    "C64_time_coefficients",
    "C64_zeroth_order"
   ],
   "note": ""
  },
  {
   "property": "C65",
   "status": "proved",
   "theorems": [
    "C65_values"
   ],
   "note": ""
  },
  {
   "property": "C66",
   "status": "partial",
   "theorems": [
    "C66_pre_pad_partial",
    "C66_tensorflow_refuted",
    "C47_pre_pad_refuted"
   ],
   "note": "True with NumPy; TensorFlow raises TypeError and Keras RuntimeError on every call."
  },
  {
   "property": "C67",
   "status": "proved",
   "theorems": [
    "C67_adding_a_constant",
    "C67_constant_image"
   ],
   "note": ""
  },
  {
   "property": "C68",
   "status": "proved",
   "theorems": [
    "C68_batch"
   ],
   "note": ""
  },
  {
   "property": "C69",
   "status": "proved",
   "theorems": [
    "C69_scaling"
   ],
   "note": ""
  },
  {
   "property": "C70",
   "status": "proved",
   "theorems": [
    "C70_tensorflow"
   ],
   "note": ""
  },
  {
   "property": "C71",
   "status": "proved",
   "theorems": [
    "C71_translation"
   ],
   "note": ""
  },
  {
   "property": "C72",
   "status": "proved",
   "theorems": [
    "C72_gabor",
    "C72_filters"
   ],
   "note": ""
  },
  {
   "property": "C73",
   "status": "proved",
   "theorems": [
    "C73_first_order",
    "C73_second_order",
    "C73_rpow"
   ],
   "note": "scipy.special.sph_harm is an arbitrary function in the model."
  },
  {
   "property": "C74",
   "status": "proved",
   "theorems": [
    "C74_translation_invariance"
   ],
   "note": ""
  },
  {
   "property": "C75",
   "status": "proved",
   "theorems": [
    "C75_homogeneity",
    "C75_nonneg"
   ],
   "note": ""
  },
  {
   "property": "C76",
   "status": "proved",
   "theorems": [
    "C76_batch_independence",
    "C76_tensorflow"
   ],
   "note": ""
  },
  {
   "property": "C77",
   "status": "partial",
   "theorems": [
    "C77_origin_partial",
    "C77_odd_refuted",
    "C77_constant"
   ],
   "note": "True for even sizes; for odd sizes index 0 holds frequency -1 instead of 0 and the filters are below one there."
  },
  {
   "property": "C78",
   "status": "partial",
   "theorems": [
    "C78_method_partial",
    "C78_method_refuted",
    "C78_order_refuted"
   ],
   "note": "TensorFlow rejects other methods; NumPy ignores method, and every max_order other than 2 silently gives the first order."
  },
  {
   "property": "C79",
   "status": "proved",
   "theorems": [
    "C79_constructor",
    "C79_call",
    "C79_errors"
   ],
   "note": ""
  },
  {
   "property": "C80",
   "status": "proved",
   "theorems": [
    "C80_angles"
   ],
   "note": ""
  },
  {
   "property": "C81",
   "status": "partial",
   "theorems": [
    "C81_constructor",
    "C81_same_transform_partial",
    "C81_exceptions_partial",
    "C81_room",
    "C81_joint_global_refuted"
   ],
   "note": "Same coefficients whenever NumPy returns, except T=global with format joint, where torch raises RuntimeError. Torch raises whenever NumPy raises (RuntimeError may stand for ValueError) if the padded frequency axis has room for the wavelets, which holds when 8 F >= 2**J_fr, in particular by default; otherwise torch crops what numpy.pad refuses."
  },
  {
   "property": "C82",
   "status": "partial",
   "theorems": [
    "C82_tensorflow_1d_partial",
    "C82_jax_1d",
    "C82_tensorflow_joint_partial",
    "C82_jax_joint",
    "C82_double_refuted",
    "C82_tensorflow_1d_converse",
    "C82_tensorflow_joint_converse",
    "C82_tensorflow_1d_raises",
    "C82_tensorflow_joint_raises"
   ],
   "note": "JAX: the claim as stated, and the exceptions too (TypeError may stand for ValueError). TensorFlow: same coefficients, paths and container whenever NumPy returns, except double precision with T=global and an array output, where it raises RuntimeError. Conversely, on signals without an empty axis TensorFlow returns only where NumPy does, with the same result, so at single precision both raise on the same signals (which exception is not compared)."
  },
  {
   "property": "C83",
   "status": "partial",
   "theorems": [
    "C83_operations",
    "C83_constructor",
    "C83_same_transform_partial",
    "C83_dtype",
    "C83_contiguity_refuted"
   ],
   "note": "Proved with exceptions for contiguous tensors of the dtype of the module, every accepted configuration (J=0 included) and every history of casts and calls. Tensors of another dtype raise TypeError and non-contiguous ones RuntimeError where NumPy returns."
  },
  {
   "property": "C84",
   "status": "partial",
   "theorems": [
    "C84_operations",
    "C84_constructor",
    "C84_gaussian_buffer",
    "C84_same_transform_partial",
    "C84_dtype",
    "C84_method_refuted",
    "C84_powers_refuted"
   ],
   "note": "Proved with exceptions (ValueError may become RuntimeError) for method=integral, at least one integral power and tensors of the dtype of the module, contiguous or not; the output is always single precision. Another method: NumPy returns and torch raises ValueError. No power: NumPy raises ValueError and torch returns an empty tensor. Another dtype: TypeError."
  },
  {
   "property": "C85",
   "status": "proved",
   "theorems": [
    "C85_lipschitz",
    "C85_nonexpansive"
   ],
   "note": "Real arithmetic; the unit constant needs at least two samples (C111)."
  },
  {
   "property": "C86",
   "status": "proved",
   "theorems": [
    "C86_reversal",
    "C86_signal"
   ],
   "note": "Real arithmetic."
  },
  {
   "property": "C87",
   "status": "proved",
   "theorems": [
    "C87_batch_independence",
    "C87_array_independence"
   ],
   "note": "Real arithmetic; batches with at least one signal."
  },
  {
   "property": "C88",
   "status": "proved",
   "theorems": [
    "C88_homogeneous",
    "C88_array"
   ],
   "note": "Real arithmetic; batches with at least one signal."
  },
  {
   "property": "C89",
   "status": "proved",
   "theorems": [
    "C89_lipschitz"
   ],
   "note": "Real arithmetic; batches with at least one signal."
  },
  {
   "property": "C90",
   "status": "proved",
   "theorems": [
    "C90_lipschitz"
   ],
   "note": "Real arithmetic; out_type list."
  },
  {
   "property": "C91",
   "status": "proved",
   "theorems": [
    "C91_stability"
   ],
   "note": "Real arithmetic."
  },
  {
   "property": "C92",
   "status": "proved",
   "theorems": [
    "C92_mean_removed",
    "C92_constant_signal"
   ],
   "note": "Real arithmetic; two samples or more, batches with at least one signal."
  },
  {
   "property": "C93",
   "status": "proved",
   "theorems": [
    "C93_unit_mass",
    "C93_fourier_energy",
    "C93_gaussians"
   ],
   "note": "Real arithmetic; scipy.special.sph_harm is a parameter, assumed to satisfy the addition theorem at equal arguments."
  },
  {
   "property": "C94",
   "status": "proved",
   "theorems": [
    "C94_constructor_errors",
    "C94_call_errors",
    "C94_meta_error",
    "C94_float_Q_fr"
   ],
   "note": "Q_fr is an int, a float, a tuple or a list of numbers."
  },
  {
   "property": "C95",
   "status": "partial",
   "theorems": [
    "C95_support_spec",
    "C95_truncation_partial",
    "C95_smallest_refuted",
    "C95_bound_refuted",
    "C95_padding",
    "support1d_nonneg"
   ],
   "note": "What is returned: one more than the first index k at which the mass of every filter on [k, n/2) is at most eps. The error is then at most 2*eps plus the mass at the middle of the support, which the code does not count. The docstring is refuted: N is not the smallest (the identity filter gives 2) and the error can exceed eps (symmetric decreasing filters of every even length >= 12). support1d is the value that build computes; it satisfies the hypothesis 0 <= support of the other theorems."
  },
  {
   "property": "C96",
   "status": "partial",
   "theorems": [
    "C96_torch_1d",
    "C96_torch_2d",
    "C96_numpy_2d_partial",
    "C96_numpy_2d_refuted",
    "C96_numpy_2d_axes_refuted",
    "C96_cuda_1d_refuted",
    "C96_cuda_2d_refuted"
   ],
   "note": "PyTorch refuses (1-D NumPy: C24). 2-D NumPy lets reshape infer the number of images, so it accepts sizes that only fit together and mixes images; it drops an axis of a four-axis input. The CUDA versions accept every factor; the 1-D kernel then writes beyond its output for batches of more than k signals."
  },
  {
   "property": "C97",
   "status": "partial",
   "theorems": [
    "C97_single",
    "C97_real_filter",
    "C97_errors",
    "C97_double_refuted"
   ],
   "note": "Proved in single precision and for real filters. In double precision with a complex filter cublasCdgmm, the single precision routine, is called all the same: half of the output is never written, the other half holds products of halves of the inputs (refuted for all shapes)."
  },
  {
   "property": "C98",
   "status": "partial",
   "theorems": [
    "C98_meet",
    "C98_coverage_partial",
    "C98_low_frequency_refuted",
    "C98_nyquist_refuted",
    "C98_start_refuted"
   ],
   "note": "Adjacent filters of the geometric part meet at r_psi (every r in (0,1)); at least r_psi is reached there and at least 1/5 on [pi/2^J, 2 pi xi_max]. The docstring claims r_psi everywhere on [pi/2^J, pi]: refuted below the elbow for every Q >= 2, at Nyquist for every bank, and on the whole range when the largest bandwidth is at most sigma0/2^J (J=2, Q=8). Statements concern the Gabor term in real arithmetic, without the kappa correction and the l1 normalisation."
  },
  {
   "property": "C99",
   "status": "partial",
   "theorems": [
    "C99_periods",
    "C99_three_periods",
    "C99_periodised",
    "C99_spin_refuted"
   ],
   "note": "Proved for centres in [0,1] as the docstring assumes. The frequential wavelets of negative frequency break that premise: their response at 1-P exceeds 1e-6 for Q_fr = 1 (refuted)."
  }
 ]
}