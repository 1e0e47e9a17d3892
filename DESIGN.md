# Formal model of kymatio in Rocq: design

Source: /repo (kymatio at the pinned commit), read as text, never run. Coq 8.16.1 with the standard library, Coquelicot and (for C104 only) Flocq.
Build: `coq_makefile -f _CoqProject -o Makefile && make -j4` in /verif/rocq.

## Approach

* The code is modelled function by function as total Gallina functions. Exceptions are values of an
  error monad `res A = Ok a | Err e`; generators become `res (list path)` (an exception raised while
  the generator is being consumed aborts the caller, as in the code, because every caller consumes
  the whole generator).
* The backend is a Coq *record*, like the Python `backend` argument. The core functions are
  polymorphic in it, so that the properties on paths, order, keys and metadata are proved for every
  backend. Instances: the dry backend of `meta()`, the NumPy backend over an arbitrary scalar type
  (shape statements) and over Coquelicot complex numbers (numerical statements), PyTorch with a trailing
  real/imaginary axis over R, TensorFlow with a recorded precision, JAX.
* Configuration integers are in Z (so that a dropped `max(.,0)` is visible); T and F are rationals;
  the filter banks are in R and C. Floating-point rounding is not modelled, except in
  Float1d, which models the double-precision computation of log2(T) and of the scales with Flocq (C104).
* Statements are about objects returned by the constructor models (`Scattering1D support p out = Ok s`, ...) and about the runs of
  those objects, so that hypotheses such as "the filters have such lengths" are proved of the constructor and not assumed.
* Properties violated by the code: the full statement is kept in properties.jsonl, a `_partial` theorem says what holds and a
  `_refuted` theorem exhibits a witness, usually an infinite family of configurations.
* Each theorem `Cnn_...` in a file `Prop*.v` is followed by `Print Assumptions`; beside it, an `Example ..._instance` shows a
  concrete configuration meeting the hypotheses.

## What is modelled

| Python | Coq | simplifications |
|---|---|---|
| scattering1d/utils.py, frontend/base_frontend.py:ScatteringBase1D (build, parse T/Q/stride/oversampling, checks, scattering, meta, output_size) | Utils1d, Frontend1d, Factory1d, Construct1d | warnings dropped; `support` (the estimated temporal support used for padding) is an arbitrary non-negative function; Support1d models compute_temporal_support itself and `support1d_nonneg` proves that it is one |
| scattering1d/filter_bank.py | FilterBank1d, Factory1d | exact real arithmetic; loops `while True` by fuel with a proof that the fuel suffices; the truncation P_max of periodised Gaussians is kept |
| scattering1d/core/scattering1d.py | Core1d | generators as lists |
| scattering1d/core/timefrequency_scattering.py, TimeFrequencyScatteringBase | Jtfs, JtfsFront, JtfsConstruct, JtfsFmt | as above |
| scattering1d/backend/numpy_backend.py, backend/numpy_backend.py | NdArray, Backend, ComplexOps, Dft | arrays are a dtype kind (real, complex, other), a shape and row-major entries |
| scattering1d/backend/torch_backend.py, backend/torch_backend.py (with ModulusStable) | Torch1d, TorchGrad | one device; contiguity is a flag that under-approximates |
| scattering1d/frontend/torch_frontend.py | TorchModule, TorchFront | torch.nn.Module = ordered store of named tensor objects |
| scattering2d/backend/torch_backend.py, scattering2d/frontend/torch_frontend.py | Torch2d | exact arithmetic, one device; the pads of torch.nn.ReflectionPad2d are indexed as in its documentation |
| scattering3d/backend/torch_backend.py, scattering3d/frontend/torch_frontend.py | Torch3d | exact arithmetic, one device; modulus_rotation with a module of the same shape (no broadcasting) |
| scattering1d/backend/tensorflow_backend.py, jax_backend.py and their frontends | Tf1d, TfFront | eager mode; precision (single or double) recorded, rounding not modelled; exceptions of TensorFlow mapped to RuntimeError |
| scattering2d and scattering3d backend/jax_backend.py and frontend/jax_frontend.py | Jax2d3d, JaxUpto | jax.numpy is NumPy, with TypeError where NumPy's reshape raises ValueError; no `jit` |
| scattering1d/frontend/keras_frontend.py, scattering2d/frontend/keras_frontend.py | Keras1d, Frontend2d | the Keras base class is reduced to: build, cast to float32, call |
| scattering2d: core, filter_bank, utils, NumPy/TensorFlow backends and frontends | Core2d, FilterBank2d, Backend2d, Pad2d, Frontend2d, Conv2d, Dft2 | exact real arithmetic |
| scattering3d: core, filter_bank, utils, NumPy/TensorFlow/PyTorch modulus, frontends | Core3d, FilterBank3d (fourier=True), SpaceBank3d (both domains), Factorial64, Backend3d, Frontend3d, Dft3 | double_factorial is a natural number in FilterBank3d and a 64-bit integer in Factorial64 (C114); scipy.special.sph_harm is an arbitrary function (the theorems on rotations assume of it the addition theorem, as a hypothesis); gaussian_3d and solid_harmonic_3d are modelled both in Fourier and in space (`fourier=False`) |
| backend/torch_skcuda_backend.py (cdgmm with cuBLAS) | CudaBlas | memory is a sequence of 8-byte cells, one single-precision complex number each; a double-precision complex number takes two, of meaningless contents; an empty complex filter (on which `view(-1, 0)` raises in PyTorch) is not distinguished |
| torch_skcuda_backend.py (1-D, 2-D kernels and launches) | Cuda | 32-bit signed overflow and out-of-range access are undefined behaviour; threads in any order |
| frontend/entry.py, frontend/base_frontend.py:_instantiate_backend, input_checks | Frontends | ASCII strings; imports are an arbitrary predicate |
| frontend/sklearn_frontend.py | Sklearn | `predict`/`transform` |
| caching.py | Caching | POSIX paths without symbolic links; one process |

## What is not modelled

* Floating-point rounding, overflow and underflow (except in Float1d, see above); timing and memory.
* Documentation generation (`_document`), deprecation and user warnings, `__all__` exports.
* `tf.function` tracing and JAX `jit`; gradients other than that of ModulusStable.
* Examples, benchmarks and tests.
* Aliasing of NumPy arrays (no modelled function mutates its argument except where the model says so).

## Properties and theorems

* **C01** (proved) Scattering1D can always pad its input legally. Theorems: `C01_padding_always_legal`.
* **C02** (proved) compute_padding contract. Theorems: `C02_compute_padding_contract`.
* **C03** (proved) Border indices select exactly the subsampled instants inside the original signal. Theorems: `C03_border_indices`.
* **C04** (proved) Number of time samples returned by Scattering1D with local averaging. Theorems: `C04_time_samples`.
* **C05** (proved) Meaning of the T (and F) parameter. Theorems: `C05_T_table`, `C05_time`, `C05_time_rejected`, `C05_frequency`.
* **C06** (proved) Meaning of the Q parameter. Theorems: `C06_Q_table`, `C06_float_entry_refuted`. The Q property accepts any pair of numbers >= 1; the constructor then raises TypeError on a float entry.
* **C07** (proved) Stride validation and round trip. Theorems: `C07_stride`.
* **C08** (partial) oversampling is equivalent to the stride documented in its deprecation message. Theorems: `C08_oversampling_equivalent_partial`, `C08_both_refuted`. Equivalence proved without an explicit stride; passing both is refuted: the compatibility test compares with 2**(log2_T-oversampling-1).
* **C09** (proved) The wavelet frequency generator always terminates with ordered, admissible frequencies. Theorems: `C09_generator`.
* **C10** (proved) The scale attached to a wavelet is the maximal alias-free dyadic subsampling. Theorems: `C10_scale`, `C10_docstring_strict_refuted`. The strict inequality of the docstring is refuted at the boundary; the non-strict one is proved.
* **C11** (partial) Construction never trips its own filterbank assertions. Theorems: `C11_assertions_partial`, `C11_second_assertion_refuted`. Proved for Q1 >= Q2; refuted for Q=(1,8), where the constructor raises AssertionError.
* **C12** (proved) Scales are bounded by J and sorted along the filterbank. Theorems: `C12_scales_sorted_bounded`.
* **C13** (proved) The frequency axis has room for every first-order wavelet. Theorems: `C13_number_of_wavelets`.
* **C14** (proved) Scattering1D never indexes a missing filter resolution. Theorems: `C14_lookups`.
* **C15** (partial) Scattering1D is total on well-formed inputs and returns the documented shape. Theorems: `C15_total_partial`, `C15_large_stride_refuted`. Proved for Q1 >= Q2 and stride <= 2**log2_T; refuted for strides larger than T (J>=5, T=2, stride=2**J: every call raises).
* **C16** (proved) Which paths Scattering1D computes and in which order it returns them. Theorems: `C16_path_set_and_order`.
* **C17** (proved) The three output types of Scattering1D carry the same coefficients. Theorems: `C17_output_types_agree`, `C17_numpy_channels`. Array output is the backend stack of the sorted coefficients; channel k of the NumPy stack is element k.
* **C18** (partial) meta() describes the channels of the output in order. Theorems: `C18_meta_alignment_partial`, `C18_meta_returns`, `C18_meta_total_partial`, `C18_meta_total_refuted`. Alignment whenever meta() returns, and exactly when it returns: max_order=1 or no second-order path starts from a wavelet with j1 > log2(T), in particular log2(T) >= J-2. Otherwise IndexError, for instance J>=5 and T=2.
* **C19** (proved) output_size() counts the channels. Theorems: `C19_output_size_counts`.
* **C20** (proved) max_order=1 returns a prefix of max_order=2. Theorems: `C20_max_order_prefix`.
* **C21** (proved) An input of the wrong length is never silently transformed. Theorems: `C21_wrong_length_raises`.
* **C22** (proved) Batch elements are independent. Theorems: `C22_batch_independence`.
* **C23** (proved) Runtime argument checks of Scattering1D. Theorems: `C23_runtime_checks`.
* **C24** (proved) Subsampling in the Fourier domain is decimation in time. Theorems: `C24_subsample_is_decimation`.
* **C25** (proved) Zeroth-order coefficients are the low-passed signal sampled at the stride. Theorems: `C25_zeroth_order`, `scattering1d_is_convolution`. The low-pass is tabulated in the Fourier domain by folding an odd number of periods, so its impulse response is not exactly real; irfft keeps the real part, hence Re in the statement.
* **C26** (proved) First-order coefficients implement |x*psi|*phi. Theorems: `C26_first_order`, `scattering1d_is_convolution`. The low-pass is tabulated in the Fourier domain by folding an odd number of periods, so its impulse response is not exactly real; irfft keeps the real part, hence Re in the statement.
* **C27** (proved) Second-order coefficients implement ||x*psi1|*psi2|*phi. Theorems: `C27_second_order`, `scattering1d_is_convolution`. The low-pass is tabulated in the Fourier domain by folding an odd number of periods, so its impulse response is not exactly real; irfft keeps the real part, hence Re in the statement.
* **C28** (proved) Tabulated filter resolutions are the filter sampled in time. Theorems: `C28_levels_are_sampled`.
* **C29** (proved) Scattering is positively homogeneous and orders >= 1 ignore the sign. Theorems: `C29_homogeneous`. For every real factor c, including negative ones: the coefficients of c*x are |c| times those of x at orders 1 and 2 and c times at order 0.
* **C30** (proved) Covariance to translations by a multiple of the stride. Theorems: `C30_translation`. Stated for the core transform on the padded signal: rotating the padded signal by a multiple of the stride rotates the local averages by the quotient.
* **C31** (proved) Wavelets have exactly zero mean, so constants only produce zeroth-order coefficients. Theorems: `C31_zero_mean`. For at least two samples; with one sample the code divides by zero (C111).
* **C32** (proved) Filters are L1-normalised and envelopes never exceed the input. Theorems: `C32_l1_normalised`. For at least two samples; with one sample the code divides by zero (C111).
* **C33** (proved) Global averaging and no averaging. Theorems: `C33_global`, `C33_no_averaging`.
* **C34** (proved) Reflection padding then unpadding is the identity. Theorems: `C34_pad_unpad`, `C34_accepted`, `C34_samples`, `C34_mirrored`, `C34_unpad_others`. C34_accepted covers shapes and refusals, C34_mirrored the values, for NumPy, PyTorch and TensorFlow in reflect mode, the only mode used on the time axis.
* **C35** (proved) Width-first and depth-first first orders agree. Theorems: `C35_widthfirst_depthfirst`, `C35_rows`. For every backend; row by row for the NumPy backend.
* **C36** (proved) JTFS path keys are unique and complete. Theorems: `C36_path_keys`, `C36_output_types`, `constructed_jtfs_ok`. For every backend; jtfs_ok holds of every constructed object.
* **C37** (proved) JTFS frequential filter index n_fr identifies the filter. Theorems: `C37_filter_applied`, `C37_n_fr_identifies`, `C37_constructed_bank`.
* **C38** (partial) JTFS frequency padding leaves the documented margin. Theorems: `C38_padding_partial`, `C38_margin_refuted`, `C38_room_needed`, `C38_no_room_refuted`. Multiple of 2**J_fr holds; the margin can fall short by less than 2**J_fr because of a floor division; the claim as stated is refuted. When F is much shorter than 2**J_fr there can be fewer bins than wavelets (F=1, Q=1, J=16, J_fr=4 and an infinite family): the constructor returns, and every call in NumPy, JAX and TensorFlow raises.
* **C39** (partial) JTFS meta() describes the channels of the output in order. Theorems: `C39_joint_meta_partial`, `C39_time_meta_partial`, `C39_alignment_refuted`. Joint format: all rows but "key" are aligned with array output. Time format: meta() is sorted, the output is not. Refuted as stated.
* **C40** (partial) JTFS frequency unpadding and splitting lose no labelled row. Theorems: `C40_rows_and_labels_partial`, `C40_time_labels_partial`, `C40_lowpass_rows_refuted`. Row r is at bin r*n1_stride except for spin-0 paths with a frequency stride below 2**J_fr, whose labels are r*2**J_fr; that case is refuted.
* **C41** (partial) JTFS runs on its default configuration family. Theorems: `C41_default_configurations_partial`, `C40_lowpass_rows_refuted`. The first sentence is proved for T and F at their defaults; strides default or 2**k with k from the largest wavelet scale to J. The second sentence is refuted: with stride_fr=1 the spin-0 rows carry wrong labels.
* **C42** (proved) Scattering2D output size. Theorems: `C42_padding`, `C42_output_size`.
* **C43** (proved) 2-D reflection padding agrees across backends. Theorems: `C43_reflect`, `C43_padding_agrees`, `C43_accepted`, `C43_numpy_any`, `C43_uneven_refuted`. C43_accepted and C43_numpy_any say which paddings each module accepts; those of the frontends are among them. C43_uneven_refuted: a full padding before an axis with a shorter one after it, which the frontends never ask for, is padded wrongly. The exception of tf.pad is left open.
* **C44** (proved) Which paths Scattering2D computes and in which order. Theorems: `C44_paths`, `C44_channels`.
* **C45** (proved) Scattering2D never indexes a missing filter resolution. Theorems: `C45_total`, `C45_J0`. For J = 0 every call raises IndexError (C45_J0).
* **C46** (proved) 2-D Fourier subsampling is decimation, and filter periodisation is band-limited folding. Theorems: `C46_subsample_is_decimation`, `C46_periodize_keeps_one_copy`.
* **C47** (partial) The 2-D Keras layer announces the right output shape. Theorems: `C47_keras_shape_partial`, `C47_max_order_refuted`, `C47_rank_refuted`, `C47_pre_pad_refuted`. True for inputs (batch, M, N), max_order=2 and pre_pad=False; refuted for max_order=1, more batch axes and pre_pad=True.
* **C48** (partial) The 1-D Keras layer honours its arguments and announces the right output shape. Theorems: `C48_call_partial`, `C48_output_shape_partial`, `C48_output_shape_refuted`, `C48_rank_refuted`, `C48_oversampling_refuted`, `C48_max_order_refuted`, `C48_output_shape_error_refuted`, `C48_get_config_refuted`. The call agrees with NumPy for the default max_order and oversampling, and the announced shape is right for floor(log2 T)=J and inputs (batch, N). max_order and oversampling are ignored, the announced shape is wrong for shorter T and for more batch axes, it raises IndexError for T=2 and J>=5, and get_config always raises.
* **C49** (proved) HarmonicScattering3D path count and layout. Theorems: `C49_paths`, `C49_layout`.
* **C50** (proved) Rotation-covariant modulus. Theorems: `C50_rotation_fold`, `C50_torch`.
* **C51** (proved) Filters of a PyTorch module follow the module through any history of moves. Theorems: `C51_filters_follow_1d`, `C51_module_is_image_1d`, `C51_filters_follow_joint`, `C51_module_is_image_joint`, `C51_filters_follow_2d`, `C51_filters_follow_3d`. any sequence of moves (in place or replacing) and calls; torch.nn.Module buffers modelled as a name-to-object store.
* **C52** (proved) The stable modulus has the right value and a finite (sub)gradient everywhere. Theorems: `C52_modulus_value`, `C52_modulus_gradient`, `C52_modulus_subgradient`. over the reals; division by zero modelled as a non-finite value.
* **C53** (partial) PyTorch and NumPy backends compute the same 1-D scattering transform. Theorems: `C53_operations`, `C53_constructor`, `C53_same_transform_partial`, `C53_dtype`, `C53_exceptions_refuted`, `C53_contiguity_refuted`. Same coefficients whenever NumPy returns, after any casts and calls; exceptions differ in class on shape errors, other dtypes raise TypeError and non-contiguous tensors are rejected.
* **C54** (partial) Frontend dispatch. Theorems: `C54_dispatch_partial`, `C54_unknown_frontend`, `C54_keras_refuted`. Holds for the five frontends numpy, sklearn, torch, tensorflow, jax and for Keras 1-D and 2-D; Keras has no 3-D class (ImportError) and no joint class (AttributeError).
* **C55** (proved) A backend is only accepted by its own frontend. Theorems: `C55_backend_of_frontend`, `C55_accepted_names`. all backend names and objects; an object without a name attribute raises AttributeError.
* **C56** (partial) Cache directory resolution. Theorems: `C56_base`, `C56_no_create`, `C56_only_adds_directories`, `C56_exists_partial`, `C56_creates`, `C56_file_refuted`, `C56_dot_refuted`. A path that is an existing file is returned as if it were a directory; base a/../f/. with a missing and f a file is returned although that path does not exist (a later call with create=False raises ValueError).
* **C57** (partial) The scikit-learn transformer flattens without mixing samples. Theorems: `C57_predict_1d_partial`, `C57_predict_2d_partial`, `C57_predict_3d_partial`, `C57_predict_jtfs_partial`, `C57_empty_refuted`, `C57_output_type_1d_refuted`, `C57_output_type_2d_refuted`, `C57_pre_pad_refuted`. All four transformers (1-D: with averaging), batches with at least one sample; an empty batch raises, output types list and dict always raise AttributeError, and images with pre_pad=True always raise (self.shape is the size without padding).
* **C58** (partial) GPU kernels write every output element exactly once with the right value. Theorems: `C58_modulus`, `C58_subsample_1d_partial`, `C58_subsample_2d_partial`, `C58_overflow_refuted`, `C58_grid_refuted`, `C58_five_axes_refuted`, `C58_subsample_2d_refuted`. Holds for the modulus; for 1-D subsampling of at most 65535 signals with (k-1)*T < 2**31; for 2-D subsampling exactly when height and width take the same number of blocks of 32. Outside these the kernel overflows, is not launched, or leaves cells unwritten.
* **C59** (partial) Invalid inputs raise the documented TypeError. Theorems: `C59_input_checks_partial`, `C59_type_error_refuted`. None raises TypeError everywhere; other non-arrays raise NameError (NumPy), AttributeError (torch) or are accepted (JAX).
* **C60** (proved) Non-zero weights are all taken into account in generate_weighted_sum_of_gaussians, up to the first zero. Theorems: `C60_up_to_first_zero`, `C60_full_sum`.
* **C61** (proved) Second-order rows of JTFS carry the true first-order index. Theorems: `C61_row_labels`, `C61_constructed`.
* **C62** (partial) JTFS 'order' is the scattering order. Theorems: `C62_order_partial`, `C62_order_refuted`. True in the joint format; one less than the order in the time format.
* **C63** (partial) JTFS unpads time at the resolution of the path. Theorems: `C63_unpadding_partial`, `C63_unpadding_refuted`, `C63_time_samples_partial`, `C63_time_format_refuted`. True in the joint format, and in the time format except at order one with T=0, where the array at log2_stride is cut with the bounds of resolution 0 (refuted, in general and on one object).
* **C64** (proved) JTFS coefficients are the joint convolution formula. Theorems: `C64_joint_coefficients`, `C64_time_coefficients`, `C64_zeroth_order`.
* **C65** (proved) Scattering2D coefficients are the convolution formula. Theorems: `C65_values`.
* **C66** (partial) pre_pad=True on a padded image is the same transform. Theorems: `C66_pre_pad_partial`, `C66_tensorflow_refuted`, `C47_pre_pad_refuted`. True with NumPy; TensorFlow raises TypeError and Keras RuntimeError on every call.
* **C67** (proved) Scattering2D is blind to constants at positive orders. Theorems: `C67_adding_a_constant`, `C67_constant_image`.
* **C68** (proved) Scattering2D treats the images of a batch independently. Theorems: `C68_batch`.
* **C69** (proved) Scattering2D is homogeneous. Theorems: `C69_scaling`.
* **C70** (proved) TensorFlow Scattering2D gives the results of NumPy. Theorems: `C70_tensorflow`.
* **C71** (proved) Scattering2D is covariant with translations by 2**J. Theorems: `C71_translation`.
* **C72** (proved) 2-D filters are rotated Morlet wavelets of zero mean. Theorems: `C72_gabor`, `C72_filters`.
* **C73** (proved) HarmonicScattering3D coefficients are the convolution formula. Theorems: `C73_first_order`, `C73_second_order`, `C73_rpow`. scipy.special.sph_harm is an arbitrary function in the model.
* **C74** (proved) HarmonicScattering3D is invariant to circular translations. Theorems: `C74_translation_invariance`.
* **C75** (proved) HarmonicScattering3D scales as |k|**q and is non-negative. Theorems: `C75_homogeneity`, `C75_nonneg`.
* **C76** (proved) HarmonicScattering3D treats volumes independently, and TensorFlow agrees with NumPy. Theorems: `C76_batch_independence`, `C76_tensorflow`.
* **C77** (partial) 3-D filters have their origin at index [0,0,0]. Theorems: `C77_origin_partial`, `C77_odd_refuted`, `C77_constant`. True for even sizes; for odd sizes index 0 holds frequency -1 instead of 0 and the filters are below one there.
* **C78** (partial) 3-D frontends reject undocumented max_order and method. Theorems: `C78_method_partial`, `C78_method_refuted`, `C78_order_refuted`. TensorFlow rejects other methods; NumPy ignores method, and every max_order other than 2 silently gives the first order.
* **C79** (proved) When HarmonicScattering3D succeeds. Theorems: `C79_constructor`, `C79_call`, `C79_errors`.
* **C80** (proved) get_3d_angles returns spherical coordinates. Theorems: `C80_angles`.
* **C81** (partial) PyTorch and NumPy compute the same joint time-frequency scattering. Theorems: `C81_constructor`, `C81_same_transform_partial`, `C81_exceptions_partial`, `C81_room`, `C81_joint_global_refuted`. Same coefficients whenever NumPy returns, except T=global with format joint, where torch raises RuntimeError. Torch raises whenever NumPy raises (RuntimeError may stand for ValueError) if the padded frequency axis has room for the wavelets, which holds when 8 F >= 2**J_fr, in particular by default; otherwise torch crops what numpy.pad refuses.
* **C82** (partial) TensorFlow, JAX and NumPy compute the same 1-D and joint time-frequency scattering. Theorems: `C82_tensorflow_1d_partial`, `C82_jax_1d`, `C82_tensorflow_joint_partial`, `C82_jax_joint`, `C82_double_refuted`, `C82_tensorflow_1d_converse`, `C82_tensorflow_joint_converse`, `C82_tensorflow_1d_raises`, `C82_tensorflow_joint_raises`. JAX: the claim as stated, and the exceptions too (TypeError may stand for ValueError). TensorFlow: same coefficients, paths and container whenever NumPy returns, except double precision with T=global and an array output, where it raises RuntimeError. Conversely, on signals without an empty axis TensorFlow returns only where NumPy does, with the same result, so at single precision both raise on the same signals (which exception is not compared).
* **C83** (partial) PyTorch and NumPy compute the same 2-D scattering. Theorems: `C83_operations`, `C83_constructor`, `C83_same_transform_partial`, `C83_dtype`, `C83_contiguity_refuted`. Proved with exceptions for contiguous tensors of the dtype of the module, every accepted configuration (J=0 included) and every history of casts and calls. Tensors of another dtype raise TypeError and non-contiguous ones RuntimeError where NumPy returns.
* **C84** (partial) PyTorch and NumPy compute the same 3-D scattering. Theorems: `C84_operations`, `C84_constructor`, `C84_gaussian_buffer`, `C84_same_transform_partial`, `C84_dtype`, `C84_method_refuted`, `C84_powers_refuted`. Proved with exceptions (ValueError may become RuntimeError) for method=integral, at least one integral power and tensors of the dtype of the module, contiguous or not; the output is always single precision. Another method: NumPy returns and torch raises ValueError. No power: NumPy raises ValueError and torch returns an empty tensor. Another dtype: TypeError.
* **C85** (proved) Scattering1D is stable in the supremum norm. Theorems: `C85_lipschitz`, `C85_nonexpansive`. Real arithmetic; the unit constant needs at least two samples (C111).
* **C86** (proved) A signal read backwards gives coefficients read backwards. Theorems: `C86_reversal`, `C86_signal`. Real arithmetic.
* **C87** (proved) TimeFrequencyScattering treats the signals of a batch independently. Theorems: `C87_batch_independence`, `C87_array_independence`. Real arithmetic; batches with at least one signal.
* **C88** (proved) Joint time-frequency scattering is homogeneous. Theorems: `C88_homogeneous`, `C88_array`. Real arithmetic; batches with at least one signal.
* **C89** (proved) Joint time-frequency scattering is stable in the supremum norm. Theorems: `C89_lipschitz`. Real arithmetic; batches with at least one signal.
* **C90** (proved) Scattering2D is stable in the supremum norm. Theorems: `C90_lipschitz`. Real arithmetic; out_type list.
* **C91** (proved) HarmonicScattering3D is stable in the supremum norm. Theorems: `C91_stability`. Real arithmetic.
* **C92** (proved) Joint time-frequency scattering ignores the mean of the signal beyond order 0. Theorems: `C92_mean_removed`, `C92_constant_signal`. Real arithmetic; two samples or more, batches with at least one signal.
* **C93** (proved) Solid harmonic wavelets are normalised to unit mass. Theorems: `C93_unit_mass`, `C93_fourier_energy`, `C93_gaussians`. Real arithmetic; scipy.special.sph_harm is a parameter, assumed to satisfy the addition theorem at equal arguments.
* **C94** (proved) Arguments that TimeFrequencyScattering refuses. Theorems: `C94_constructor_errors`, `C94_call_errors`, `C94_meta_error`, `C94_float_Q_fr`. Q_fr is an int, a float, a tuple or a list of numbers.
* **C95** (partial) compute_temporal_support bounds the truncation error, and the padding covers it. Theorems: `C95_support_spec`, `C95_truncation_partial`, `C95_smallest_refuted`, `C95_bound_refuted`, `C95_padding`, `support1d_nonneg`. What is returned: one more than the first index k at which the mass of every filter on [k, n/2) is at most eps. The error is then at most 2*eps plus the mass at the middle of the support, which the code does not count. The docstring is refuted: N is not the smallest (the identity filter gives 2) and the error can exceed eps (symmetric decreasing filters of every even length >= 12). support1d is the value that build computes; it satisfies the hypothesis 0 <= support of the other theorems.
* **C96** (partial) Subsampling by a factor that does not divide the size is refused. Theorems: `C96_torch_1d`, `C96_torch_2d`, `C96_numpy_2d_partial`, `C96_numpy_2d_refuted`, `C96_numpy_2d_axes_refuted`, `C96_cuda_1d_refuted`, `C96_cuda_2d_refuted`. PyTorch refuses (1-D NumPy: C24). 2-D NumPy lets reshape infer the number of images, so it accepts sizes that only fit together and mixes images; it drops an axis of a four-axis input. The CUDA versions accept every factor; the 1-D kernel then writes beyond its output for batches of more than k signals.
* **C97** (partial) The cuBLAS product of the CUDA backends is the product of the PyTorch backend. Theorems: `C97_single`, `C97_real_filter`, `C97_errors`, `C97_double_refuted`. Proved in single precision and for real filters. In double precision with a complex filter cublasCdgmm, the single precision routine, is called all the same: half of the output is never written, the other half holds products of halves of the inputs (refuted for all shapes).
* **C98** (partial) The 1-D wavelets cover the frequency axis. Theorems: `C98_meet`, `C98_coverage_partial`, `C98_low_frequency_refuted`, `C98_nyquist_refuted`, `C98_start_refuted`. Adjacent filters of the geometric part meet at r_psi (every r in (0,1)); at least r_psi is reached there and at least 1/5 on [pi/2^J, 2 pi xi_max]. The docstring claims r_psi everywhere on [pi/2^J, pi]: refuted below the elbow for every Q >= 2, at Nyquist for every bank, and on the whole range when the largest bandwidth is at most sigma0/2^J (J=2, Q=8). Statements concern the Gabor term in real arithmetic, without the kappa correction and the l1 normalisation.
* **C99** (partial) Three periods are enough to sample every Morlet filter of non-negative frequency. Theorems: `C99_periods`, `C99_three_periods`, `C99_periodised`, `C99_spin_refuted`. Proved for centres in [0,1] as the docstring assumes. The frequential wavelets of negative frequency break that premise: their response at 1-P exceeds 1e-6 for Q_fr = 1 (refuted).
* **C100** (partial) Transposing the image transposes the coefficients of Scattering2D and permutes the orientations. Theorems: `C100_transposition_partial`. Every path has its partner, and the coefficients are transposes of each other at orders 0 and 1 and at order 2 when j1 = 0 or theta2 <= L/2 - 2. Missing: order 2 with j1 >= 1 and theta2 > L/2 - 2, where the partner filter is the opposite orientation and the filters periodised by periodize_filter_fft keep the frequency -m/2 but not +m/2, so the two are not exact mirror images of each other.
* **C101** (proved) HarmonicScattering3D with rotation_covariant=True does not depend on the order of the axes of the volumes. Theorems: `C101_first_axes`, `C101_last_axes`, `C101_rotation`. Any order of the axes is reached by the first two. The addition theorem of the spherical harmonics is a hypothesis on the function sph_harm of SciPy, which is a parameter of the model; the instance proves it for the harmonics of degrees 0 and 1. Real arithmetic.
* **C102** (partial) When Scattering2D succeeds and what it raises otherwise. Theorems: `C102_constructor`, `C102_call`, `C102_errors`, `C102_zero_scale_refuted`. The constructor is characterised for all arguments and the calls for J >= 1 (TensorFlow: without pre_pad, see C66). Objects built with J = 0 raise IndexError on every valid input: their low-pass filter has no level (refuted).
* **C103** (proved) Scattering1D is stable in the mean square. Theorems: `C103_mean_square`, `C103_energy`, `C103_unit_gain`. Real arithmetic. The constant 3 is for reflection padding on both sides; the gain is that of C85.
* **C104** (partial) Exponents computed through the floating-point logarithm. Theorems: `C104_padding`, `C104_stride`, `C104_log2_T_partial`, `C104_log2_T_refuted`, `C104_subsampling_partial`, `C104_subsampling_refuted`. Padding and stride exact up to 2**45. floor(log2 T) is exact for integers and for T not within a factor 1-2**-46 of the next power of two, at most one too large otherwise, and one too large for T = 512(1-2**-53) with rounding to nearest (refuted). The subsampling is maximal and alias-free up to a relative error of 2**-45; the strict bound of the docstring fails for an upper frequency of 2**-9(1+2**-52) (refuted). The doubles are those of Flocq.
* **C105** (proved) Scattering2D is stable in the mean square. Theorems: `C105_mean_square`. Real arithmetic. The gain is that of C90.
* **C106** (proved) Joint time-frequency scattering is stable in the mean square. Theorems: `C106_mean_square`, `C106_energy`. Real arithmetic. The constant 3 is for reflection padding on both sides.
* **C107** (proved) Scattering1D is invariant to translations shorter than T. Theorems: `C107_translation`, `C107_unit_gain`. Real arithmetic; the shift is circular and acts on the padded signal.
* **C108** (proved) Scattering2D hardly moves under translations short before 2**J. Theorems: `C108_translation`. Real arithmetic; the translation is circular and acts on the padded image. It must be a multiple of the step of the grid on which the path meets the low-pass filter.
* **C109** (proved) The JAX frontends compute the 2-D and 3-D transforms of NumPy. Theorems: `C109_jax_2d`, `C109_jax_3d`, `C109_jax_3d_accepted`. Real arithmetic; jax.numpy is modelled as NumPy with TypeError for an impossible reshape. An empty batch in 3-D is left out of the part about exceptions.
* **C110** (proved) Joint scattering follows the translations of its input. Theorems: `C110_translation`. Real arithmetic. The shift is circular and acts on the padded batch, before the padding is removed from the coefficients.
* **C111** (partial) No wavelet of Scattering1D or TimeFrequencyScattering is divided by zero. Theorems: `C111_divisor_partial`, `C111_frequential`, `C111_single_sample_refuted`. Proved for every input of at least two samples and for every frequential wavelet. Refuted for one sample: the padded length is 1, the only frequency is zero, and the wavelets are 0/0.
* **C112** (proved) Turning the image by a half-turn turns the 2-D coefficients. Theorems: `C112_half_turn`. Any J >= 1, any L, max_order 1 or 2, any batch of padded real images (pre_pad=True, where the statement is exact: the circular half-turn of the padded image). The filters are those of the model, real in the Fourier domain.
* **C113** (proved) HarmonicScattering3D does not tell a volume from its mirror image. Theorems: `C113_mirror`. NumPy and TensorFlow, any J, L, sigma_0, integral powers and max_order, any batch of real volumes, any centre of the reversal. As for C101, the only fact used about scipy.special.sph_harm is the addition theorem of spherical harmonics, stated as a hypothesis (and proved for degrees 0 and 1 in the instance).
* **C114** (partial) The double factorial that normalises the solid harmonics of even degree is exact. Theorems: `C114_double_factorial_partial`, `C114_normalisation`, `C114_normalisation_refuted`. Right exactly for i <= 33, hence for even degrees up to 32. From degree 34 on the product of 64-bit integers wraps around and the wavelets have at least 24 times the mass they should have. 64-bit integers modelled as residues modulo 2**64; the rest of the constant is in real arithmetic.
* **C115** (proved) Joint scattering of a signal read backwards: orders 0 and 1. Theorems: `C115_reversal`. Real arithmetic. The reversal is circular, around sample 0, and acts on the padded batch, before the padding is removed from the coefficients. Second-order paths are outside the claim.
* **C116** (partial) Centre of the 3-D filters, in space and in the Fourier domain. Theorems: `C116_gaussian_centre`, `C116_wavelets`, `C116_documented_partial`, `C116_single_refuted`. The centre is at [M mod 2, N mod 2, O mod 2], so the documented place is right exactly for even sizes; a size of 1 leaves no centre. Real arithmetic.
* **C117** (proved) HarmonicScattering3D in the mean square: power 2 is a weighted power spectrum. Theorems: `C117_energy`, `C117_power_spectrum`, `C117_mean_square`. Real arithmetic. The bounds G_j are parameters: any upper bounds of the energy of the wavelets, such as its maximum over the finitely many frequencies.
* **C118** (proved) HarmonicScattering3D never expands mean-square distances, whatever the degree and the scale. Theorems: `C118_contraction`, `C118_sharp`, `C118_bound`. Real arithmetic, the double factorial included (in 64-bit integers it is exact up to degree 32 only, see C114). The addition theorem of sph_harm at equal arguments is a hypothesis on the function standing for scipy.special.sph_harm; sigma_0 > 0.
* **C119** (proved) Joint scattering hardly moves under translations much shorter than T. Theorems: `C119_translation`. Real arithmetic. Local averaging in time with a stride of at most T; circular translations of the padded batch by multiples of the stride. The gain of each path is explicit (jtfs_short_gain). At a stride of 4 and T = 16 the instance has 2/5 |s|/T = 1/10.
* **C120** (partial) At degrees above 0, HarmonicScattering3D is blind to the mean of the volumes. Theorems: `C120_adding_partial`, `C120_odd_refuted`. Holds when the three sizes are even. As soon as one size is odd the frequency grid misses 0 at index 0 (see C77), and every first-order coefficient of a non-zero constant volume is positive at every degree (sigma_0 > 0, rotation_covariant=True, addition theorem of sph_harm as a hypothesis). Real arithmetic.
* **C121** (partial) Frequency padding appends zeros and refuses negative amounts. Theorems: `C121_zeros_partial`, `C121_negative`, `C121_torch_refuted`. NumPy and TensorFlow: the whole claim (TensorFlow raises InvalidArgumentError, modelled as RuntimeError). PyTorch appends zeros for p >= 0, but a negative p silently drops the last rows.
* **C122** (proved) Exchanging time and frequency transposes every matrix and is its own inverse. Theorems: `C122_swap`. Values are compared entry by entry on the row-major data; PyTorch returns a contiguous tensor.
* **C123** (partial) Frequency unpadding keeps the first rows of the frequency axis; splitting yields its rows in order. Theorems: `C123_unpad_partial`, `C123_docstring_refuted`, `C123_rank_refuted`, `C123_split`. NumPy: any leading axes. PyTorch and TensorFlow slice the third axis, which is the frequency axis for the two leading axes the joint transform uses; on the documented PyTorch shape the time axis is cut instead, and fewer than four axes raise IndexError. split_frequency_axis: the whole claim.
* **C124** (proved) Flattening the batch axes is undone by restoring them. Theorems: `C124_round_trip`, `C124_refused`. The exception of tf.reshape is modelled as RuntimeError.
* **C125** (proved) cdgmm multiplies every signal of a batch by the filter. Theorems: `C125_product`, `C125_errors`, `C125_torch`. Real arithmetic. PyTorch: contiguous tensors; its refusals and the CUDA versions are in C97.
* **C126** (proved) stack puts each array at its own position of a new axis. Theorems: `C126_stack`, `C126_refused`, `C126_tensorflow`. Arrays of one dtype: the NumPy and PyTorch models give the result the dtype of the first array.
* **C127** (partial) average_global averages over time. Theorems: `C127_sum_partial`, `C127_average_refuted`. The three backends return the sum over time, in one sample: the average times the number of samples. So the factor depends on the resolution of the path. Real arithmetic.
* **C128** (partial) The global zeroth order is the sum of the signal. Theorems: `C128_zeroth_partial`, `C128_sum_refuted`. The average is taken before unpadding, so the sum also counts the reflected samples: for a constant c it is c times the padded length. NumPy frontend, real arithmetic.

## Mutation testing

/verif/seeded/LOG.jsonl has one line per attempt: the definition edited in a scratch copy, the edit, the claim it should break, the
theorems or lemmas that stopped compiling (make -k), and the theorems tightened when the edit was not noticed.

## Trusted base

1. The Coq 8.16.1 kernel.
2. The axioms of the standard library listed by `Print Assumptions`, for each theorem named in MANIFEST.json, as follows. No other axioms, no
   section-less variables, no admitted proofs.

   * Closed under the global context (62 theorems): C01_padding_always_legal, C02_compute_padding_contract, C03_border_indices, C05_T_table, C06_Q_table, C07_stride, C08_oversampling_equivalent_partial, C08_both_refuted, C114_double_factorial_partial, C123_rank_refuted, C124_round_trip, C124_refused, C126_refused, C16_path_set_and_order, C17_output_types_agree, C18_meta_alignment_partial, C19_output_size_counts, C20_max_order_prefix, C23_runtime_checks, C35_widthfirst_depthfirst, C35_rows, C36_path_keys, C36_output_types, C37_filter_applied, C37_n_fr_identifies, C39_joint_meta_partial, C39_time_meta_partial, C39_alignment_refuted, C42_padding, C43_reflect, C43_padding_agrees, C43_accepted, C43_numpy_any, C43_uneven_refuted, C48_get_config_refuted, C49_paths, C51_filters_follow_1d, C51_module_is_image_1d, C51_filters_follow_joint, C51_module_is_image_joint, C51_filters_follow_2d, C51_filters_follow_3d, C54_dispatch_partial, C54_unknown_frontend, C54_keras_refuted, C55_backend_of_frontend, C55_accepted_names, C56_base, C56_no_create, C56_only_adds_directories, C56_exists_partial, C56_creates, C56_file_refuted, C56_dot_refuted, C57_empty_refuted, C59_input_checks_partial, C59_type_error_refuted, C61_row_labels, C62_order_partial, C62_order_refuted, C63_unpadding_partial, C63_unpadding_refuted.
   * `ClassicalDedekindReals.sig_forall_dec` (8 theorems): C123_unpad_partial, C123_docstring_refuted, C123_split, C126_stack, C126_tensorflow, C97_real_filter, C97_errors, C97_double_refuted.
   * `ClassicalDedekindReals.sig_forall_dec`, `FunctionalExtensionality.functional_extensionality_dep` (8 theorems): C121_torch_refuted, C125_torch, C58_overflow_refuted, C58_grid_refuted, C96_torch_1d, C96_torch_2d, C96_cuda_1d_refuted, C96_cuda_2d_refuted.
   * `ClassicalDedekindReals.sig_forall_dec`, `ClassicalDedekindReals.sig_not_dec`, `FunctionalExtensionality.functional_extensionality_dep` (74 theorems): C100_transposition_partial, C102_constructor, C102_call, C102_errors, C102_zero_scale_refuted, C105_mean_square, C109_jax_2d, C112_half_turn, C121_zeros_partial, C121_negative, C122_swap, C125_product, C125_errors, C127_sum_partial, C127_average_refuted, C24_subsample_is_decimation, scattering1d_is_convolution, scattering1d_is_convolution, scattering1d_is_convolution, C34_accepted, C34_samples, C34_mirrored, C34_unpad_others, C38_room_needed, C42_output_size, C44_paths, C44_channels, C45_total, C45_J0, C46_subsample_is_decimation, C46_periodize_keeps_one_copy, C47_keras_shape_partial, C47_max_order_refuted, C47_rank_refuted, C47_pre_pad_refuted, C50_torch, C52_modulus_value, C52_modulus_gradient, C52_modulus_subgradient, C53_operations, C57_predict_2d_partial, C57_output_type_2d_refuted, C57_pre_pad_refuted, C58_modulus, C58_subsample_1d_partial, C58_subsample_2d_partial, C58_five_axes_refuted, C58_subsample_2d_refuted, C65_values, C66_pre_pad_partial, C66_tensorflow_refuted, C47_pre_pad_refuted, C67_adding_a_constant, C67_constant_image, C68_batch, C69_scaling, C70_tensorflow, C71_translation, C72_gabor, C72_filters, C83_operations, C83_constructor, C83_same_transform_partial, C83_dtype, C83_contiguity_refuted, C90_lipschitz, C95_support_spec, C95_truncation_partial, C95_smallest_refuted, C95_bound_refuted, C96_numpy_2d_partial, C96_numpy_2d_refuted, C96_numpy_2d_axes_refuted, C97_single.
   * `ClassicalDedekindReals.sig_forall_dec`, `ClassicalDedekindReals.sig_not_dec`, `Classical_Prop.classic`, `FunctionalExtensionality.functional_extensionality_dep` (179 theorems): C04_time_samples, C05_time, C05_time_rejected, C05_frequency, C06_float_entry_refuted, C09_generator, C10_scale, C10_docstring_strict_refuted, C101_first_axes, C101_last_axes, C101_rotation, C103_mean_square, C103_energy, C103_unit_gain, C104_padding, C104_stride, C104_log2_T_partial, C104_log2_T_refuted, C104_subsampling_partial, C104_subsampling_refuted, C106_mean_square, C106_energy, C107_translation, C107_unit_gain, C108_translation, C109_jax_3d, C109_jax_3d_accepted, C11_assertions_partial, C11_second_assertion_refuted, C110_translation, C111_divisor_partial, C111_frequential, C111_single_sample_refuted, C113_mirror, C114_normalisation, C114_normalisation_refuted, C115_reversal, C116_gaussian_centre, C116_wavelets, C116_documented_partial, C116_single_refuted, C117_energy, C117_power_spectrum, C117_mean_square, C118_contraction, C118_sharp, C118_bound, C119_translation, C12_scales_sorted_bounded, C120_adding_partial, C120_odd_refuted, C128_zeroth_partial, C128_sum_refuted, C13_number_of_wavelets, C14_lookups, C15_total_partial, C15_large_stride_refuted, C17_numpy_channels, C18_meta_returns, C18_meta_total_partial, C18_meta_total_refuted, C21_wrong_length_raises, C22_batch_independence, C25_zeroth_order, C26_first_order, C27_second_order, C28_levels_are_sampled, C29_homogeneous, C30_translation, C31_zero_mean, C32_l1_normalised, C33_global, C33_no_averaging, C34_pad_unpad, constructed_jtfs_ok, C37_constructed_bank, C38_padding_partial, C38_margin_refuted, C38_no_room_refuted, C40_rows_and_labels_partial, C40_time_labels_partial, C40_lowpass_rows_refuted, C41_default_configurations_partial, C40_lowpass_rows_refuted, C48_call_partial, C48_output_shape_partial, C48_output_shape_refuted, C48_rank_refuted, C48_oversampling_refuted, C48_max_order_refuted, C48_output_shape_error_refuted, C49_layout, C50_rotation_fold, C53_constructor, C53_same_transform_partial, C53_dtype, C53_exceptions_refuted, C53_contiguity_refuted, C57_predict_1d_partial, C57_predict_3d_partial, C57_predict_jtfs_partial, C57_output_type_1d_refuted, C60_up_to_first_zero, C60_full_sum, C61_constructed, C63_time_samples_partial, C63_time_format_refuted, C64_joint_coefficients, C64_time_coefficients, C64_zeroth_order, C73_first_order, C73_second_order, C73_rpow, C74_translation_invariance, C75_homogeneity, C75_nonneg, C76_batch_independence, C76_tensorflow, C77_origin_partial, C77_odd_refuted, C77_constant, C78_method_partial, C78_method_refuted, C78_order_refuted, C79_constructor, C79_call, C79_errors, C80_angles, C81_constructor, C81_same_transform_partial, C81_exceptions_partial, C81_room, C81_joint_global_refuted, C82_tensorflow_1d_partial, C82_jax_1d, C82_tensorflow_joint_partial, C82_jax_joint, C82_double_refuted, C82_tensorflow_1d_converse, C82_tensorflow_joint_converse, C82_tensorflow_1d_raises, C82_tensorflow_joint_raises, C84_operations, C84_constructor, C84_gaussian_buffer, C84_same_transform_partial, C84_dtype, C84_method_refuted, C84_powers_refuted, C85_lipschitz, C85_nonexpansive, C86_reversal, C86_signal, C87_batch_independence, C87_array_independence, C88_homogeneous, C88_array, C89_lipschitz, C91_stability, C92_mean_removed, C92_constant_signal, C93_unit_mass, C93_fourier_energy, C93_gaussians, C94_constructor_errors, C94_call_errors, C94_meta_error, C94_float_Q_fr, C95_padding, support1d_nonneg, C98_meet, C98_coverage_partial, C98_low_frequency_refuted, C98_nyquist_refuted, C98_start_refuted, C99_periods, C99_three_periods, C99_periodised, C99_spin_refuted.

3. The faithfulness of the model to the text of /repo: every definition cites the file and lines it models and says what is simplified.
   Library calls (numpy, scipy.fft, torch, tensorflow, cupy, os) are modelled after their documentation.
