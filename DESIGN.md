# A Rocq model of VMML/vmmlib

vmmlib is a header-only C++ template library for small dense linear algebra
(`Vector<M,T>`, `Matrix<M,N,T>`, `Quaternion<T>`, `AABB<T>`, `Frustum<T>`,
`FrustumCuller<T>`, ray/sphere intersection, QR, low-pass filter).  The model
lives in `rocq/theories`; the code is read as text from `/repo`, never run.

## 1. How the code is modelled

**Outcomes.**  Every modelled function returns `res A`:

| outcome  | meaning |
|----------|---------|
| `Ok a`   | normal return |
| `Throw`  | a C++ exception: `VMMLIB_ERROR` (exception.hpp:88-101 with `VMMLIB_THROW_EXCEPTIONS`), `at()` bounds error, ... |
| `UB`     | undefined behaviour: out-of-bounds array access, signed overflow, integer division by zero |
| `NonFin` | only in the real-number instance: the floating-point operation would yield inf/NaN (x/0, sqrt of a negative number) |

Because `UB` and `NonFin` are distinct outcomes, each theorem of the form
`exists r, f args = Ok r /\ ...` also says that no undefined behaviour, no
exception and no division by zero happens.

**Storage.**  `Vector<M,T>::array` is a `list T` of length M,
`Matrix<M,N,T>::array` is a `list T` of length M*N in column-major order.  Reads
and writes (`rd`, `wr`) are bounds-checked against the *list*; leaving it is
`UB`, so "never reads or writes out of bounds" is a consequence of `Ok`.
Member functions that mutate `*this` become functions returning the new
contents.  Aliasing matters (`v.cross(v,b)`, `m.multiply(m,n)`, `v += v`): where
an operand can be the object being written, the operand is an `arg`, either
`Val l` (another object) or `Self` (read through the current contents of
`*this`).  Constructors that leave memory uninitialised take the garbage
contents as an argument, over which theorems quantify.

**Build configuration.**  `VMMLIB_SAFE_ACCESSORS` (on iff `VMMLIB_DEBUG`,
vmmlib_config.hpp) is a boolean `safe` over which theorems quantify.

**Scalars.**  `Class Scalar T` packages the operations the templates use on
`T`.  Instances: `R` (exact arithmetic; division by zero and negative square
roots are `NonFin`), IEEE binary64 (`Flocq.IEEE754`, round to nearest even, all
special values), binary32 (`InstF32`), fixed-width signed integers (overflow is poison = UB) and
unsigned integers (wrap-around), and unbounded `Z`.  Shape/indexing theorems are
proved once for *every* instance (they say in which order which scalar
operations are performed on which cells), the algebraic/geometric laws for `R`,
comparisons/bit patterns for binary64.  The distance between exact and rounded
arithmetic is bounded where we prove it (C81, C116, C122, C124, C126-C130, C134-C143) and is otherwise outside the
theorems: an R-theorem says the *algorithm* is right, not that its float
execution has no rounding error.

**Spec.**  `Spec.v` holds a small, separate vocabulary (finite sums, matrix
product, Laplace determinant, Hamilton product, Rodrigues, membership...) that
does not mention the model; `repV n l f` / `repM M N l f` ("the array `l` is an
n-vector / M x N column-major matrix with cells `f`") connect arrays to
mathematical functions.

## 2. Files (rocq/theories, in build order in `_CoqProject`)

* `Base.v` – outcome monad `res`, loops (`for_`, `forr`), storage (`rd`, `wr`), build configuration.
* `Scalar.v`, `InstR.v`, `InstZ.v`, `InstF.v`, `InstF32.v` – the scalar class and its instances.
* `M*.v` – the model, function by function, each definition citing file:lines:
  `MVector` (vector.hpp), `MMatrix`, `MMatrix2` (matrix.hpp, matrix_functors.hpp,
  matrix_traits.hpp, vector_traits.hpp), `MQuaternion` (quaternion.hpp), `MAabb` (aabb.hpp),
  `MFrustum` (frustum.hpp, frustum_culler.hpp, intersection.hpp), `MMisc` (lowpass_filter.hpp,
  math.hpp, qr_decomposition.hpp), `MNum` (quantization, p_norm, integer conversions),
  `MIo` (streams, raw files), `MAlias` (calls whose output is an input), `MExtra`
  (static constants, CSV, remaining accessors and overloads), `MIndex` (size_t index wrap-around),
  `MFloat`, `MFloat2`, `MFilter`, `MCullF`, `MViewF`, `MDouble`, `MQSetF`, `MNormalF`, `MVecRotF`, `MDistF`, `MQuantF`, `MPersp`, `MSlerpF`, `MPlaneF`, `MDctF` (float code that computes in double; the filter with its float factor
  and double weight).
* `Spec.v` .. `Spec13.v` – specification vocabulary.  `Spec`, `Spec2`-`Spec8`, `Spec10`-`Spec13` do not
  mention the model; `Spec9` only names the size conventions used by C112.
* `L*.v` – lemmas and proofs.
* `LExpr.v`, `LExprF.v`, `LDet.v` – expressions over + - *, their rounding error by
  induction, and the expressions that det(), get_cofactors() and inverse() compute
  (found by running the model on symbolic cells); `Spec11` the permanent.
* `PPartial.v` – what remains true of properties the code violates (`_partial`).
* `P*.v` – the property theorems (`Cnn_...`), each followed by `Print Assumptions` and with a
  concrete `Example Cnn_hypotheses_met` (or an instance inside the statement of a refutation).

`tools/mkmanifest.py` regenerates `MANIFEST.json` from the theorem names,
`tools/assumptions.py` regenerates the list in section 3.

## 3. Trusted base

* Coq 8.16.1 kernel (and `coqchk`).
* The reading of the C++ code: the definitions in `M*.v` against the cited lines.
* libm: `sin, cos, tan, atan2, pow, sqrt` are the exact real functions in the R
  instance; `sqrt` is correctly rounded in binary64.  `rand()` is an arbitrary
  sequence of integers in `[0, RAND_MAX]`.  Files and streams are byte/char
  lists; the operating system is not modelled.
* Flocq is used as a library of definitions and proved theorems; it adds no axiom of its own.
* Axioms: only the standard library's.  What `Print Assumptions` lists, for every
  theorem named in MANIFEST.json (generated by `tools/assumptions.py`):

<!-- ASSUMPTIONS -->
* no axioms ("Closed under the global context") (128 theorems): C01_cells, C02_histories, C02_last_write_wins, C03_fills, C03_identity_diag, C04_assign, C04_resize, C05_set, C06_rows_columns, C06_sub_matrix, C07_transpose, C08_product, C09_multiply_unaliased_partial, C101_byte_text_partial, C101_byte_vector_refuted, C101_lossy_text_refuted, C103_equals_default_int_refuted, C103_equals_int_partial, C104_setEmpty_integers_partial, C104_setEmpty_integers_refuted, C105_center_integers_partial, C105_center_integers_refuted, C109_frustum_construction, C109_short_array, C10_elementwise, C112_calls_return_matrix, C112_calls_return_rest, C112_calls_return_vector, C113_checked_get_sub_matrix, C113_checked_indices, C114_set_sub_matrix_partial, C114_throwing_set_sub_matrix_refuted, C115_failed_stream, C115_matrix_bad_text, C115_vector_bad_text, C11_negate_refuted, C126_box_text, C126_columns_align, C126_csv_path, C126_csv_text, C126_frustum_text, C126_int_field, C126_matrix_text, C126_printed_vector_is_not_readable, C126_quaternion_text, C126_vector_text, C126_visibility_text, C131_raw_read_partial_element, C131_raw_roundtrip_any_size_refuted, C132_version_order, C132_version_trichotomy, C133_forwarding, C133_iterator_cells, C133_iterator_loop, C133_vector_iterators, C14_minor_cells, C15_mat_vec, C21_tensor_nonsquare_refuted, C21_tensor_square_partial, C22_direct_sum, C22_khatri_rao, C22_kronecker, C23_sum_rows_columns, C28_no_file, C28_raw_read_any_file, C28_raw_roundtrip, C29_path, C29_raw_name_partial, C29_raw_name_refuted, C30_int_matrix, C30_matrix_stream, C30_vector_stream, C31_convolve_rectangular_refuted, C34_equality, C35_vector_assign_elementwise, C35_vector_division, C35_vector_elementwise, C35_vector_int_overflow, C38_cross_components, C39_cross_aliasing_refuted, C42_less_is_lexicographic, C42_less_strict_weak_order, C42_less_total, C44_eq_int, C46_find_min_max, C47_find_abs_max_refuted, C48_clamp_general, C49_to_homogeneous, C50_access, C50_copies, C50_fill, C50_set_components, C64_merge_history_min_max, C64_merge_history_smallest_enclosing, C64_merge_order_irrelevant, C64_setEmpty, C65_isIn_monotone, C65_set_and_get, C67_division, C67_scalar_operators, C80_traits_out_of_range_refuted, C80_traits_square_partial, C80_traits_transposed_refuted, C80_vector_traits, C82_format_after, C82_format_kept_partial, C82_format_refuted, C82_other_classes, C83_checks_only_throw_matrix, C83_checks_only_throw_quaternion_box_frustum, C83_checks_only_throw_vector, C83_unchecked_out_of_range_row, C84_clamp_own_elements, C84_inverse4_separate_objects, C84_inverse_in_place_ignores_first_cell, C84_transpose_in_place_refuted, C86_vector_accessors, C87_static_constants, C88_csv_read_refuted, C88_csv_write_partial, C91_vector_nnz, C94_kronecker_transpose, C96_signed_matrices, C96_signed_vectors, C96_unsigned_matrices, C96_unsigned_vectors, C98_bracket_partial, C98_bracket_row_check_refuted.
* `ClassicalDedekindReals.sig_forall_dec` (2 theorems): C27_width64_refuted, C77_lowpass_empty_window.
* `ClassicalDedekindReals.sig_forall_dec`, `FunctionalExtensionality.functional_extensionality_dep` (7 theorems): C142_half_spaces_of_the_frustum, C143_half_spaces_of_the_box, C148_growth, C152_exact_blend_is_mean, C156_half_spaces_of_the_frustum, C157_half_spaces_of_the_box, C170_growth.
* `ClassicalDedekindReals.sig_forall_dec`, `ClassicalDedekindReals.sig_not_dec`, `FunctionalExtensionality.functional_extensionality_dep` (151 theorems): C07_transpose_product, C08_product_laws, C09_mul_assign_self_refuted, C09_multiply_aliased_refuted, C100_far_outside_refuted, C100_quantize_clamps_partial, C100_width64_refuted, C106_vector_operators_refuted, C107_corner_distance_partial, C107_corner_distance_refuted, C108_set_random, C10_vector_space, C110_helpers, C111_ortho_world_culling, C111_perspective_world_culling, C11_negate_partial, C12_det, C12_det_laws, C13_inverse, C13_inverse_unique, C14_cofactors_adjugate, C14_minor, C15_linear, C16_homogeneous_transform, C17_rotate, C18_rotate_axis, C18_rotate_axis_laws, C19_pre_rotate_partial, C19_pre_rotate_refuted, C20_create_apply, C20_scale_translation_members, C21_tensor_3_to_4_partial, C21_tensor_transposed_refuted, C22_symmetric_covariance, C23_columnwise_sum, C23_sum_elements, C24_get_abs, C24_get_min, C25_nnz, C25_threshold, C26_outside_clamped, C26_quantize_range, C26_unsigned_roundtrip, C27_signed_offset_refuted, C27_signed_roundtrip_partial, C27_signed_truncation_refuted, C31_convolve_square_partial, C31_convolve_unchecked_refuted, C32_dct_orthonormal, C33_default_limit_refuted, C33_is_positive_definite_partial, C34_equals_tolerance, C34_inverted_rows_columns, C36_dot_length_distance_values, C36_euclidean_laws, C36_homogeneous, C37_normalize, C38_cross, C39_cross_aliasing_partial, C40_compute_normal, C41_rotate, C41_rotate_laws, C45_equals, C46_find_min_max_real, C47_find_abs_max_partial, C48_clamp, C49_from_homogeneous, C51_compute_plane_partial, C51_compute_plane_refuted, C52_plane, C53_sphere, C54_manhattan_norm, C54_predicates, C55_reciprocal_sqrt, C56_set_random_perturb, C57_algebra, C57_operator_mul_is_Hamilton_product, C58_conjugate, C58_inverse, C59_comparisons, C59_normalize, C59_scalar_operations, C60_rotation_matrix_acts_as_conjugation, C60_rotation_matrix_homomorphism, C60_rotation_matrix_orthogonal, C61_from_rotation_matrix_partial, C61_from_rotation_matrix_refuted, C63_vector_operators, C65_center_and_size, C65_isIn, C65_unit_box, C66_isEmpty_partial, C66_isEmpty_refuted, C66_new_box_is_empty, C67_center, C67_comparison, C68_degenerate, C68_perspective_formula, C68_perspective_maps_frustum_onto_cube, C69_degenerate, C69_ortho_maps_box_onto_cube, C70_adjust_back_restores, C70_adjust_near_history, C70_adjust_near_keeps_pyramid, C70_jitter, C70_near_zero, C71_set_perspective_partial, C71_set_perspective_wrong_window_refuted, C72_degenerate_face, C72_perspective_culling, C72_sphere_culling_exact, C72_sphere_culling_sound, C73_box_culling_sound, C73_perspective_culling, C74_corner_culling_sound, C75_parameter_is_distance, C75_ray_sphere, C76_qr_decomposition, C76_qr_dependent, C77_lowpass_blend, C77_lowpass_bounds, C77_lowpass_constant, C77_lowpass_forgets, C78_pythag, C78_sign, C78_squared, C83_checks_only_throw_misc_num_io, C84_covariance_in_place_refuted, C84_inverse2_in_place_refuted, C84_inverse_in_place_refuted, C84_threshold_own_element_refuted, C85_matrix_to_quaternion, C85_one_rotation, C86_frustum_accessors, C87_frame, C89_normal_refuted, C90_empty_range, C90_scale_to_refuted, C90_scale_to_symmetric_partial, C92_inverse_laws, C93_frobenius_laws, C93_frobenius_orthogonal, C94_kronecker_laws, C94_kronecker_norm_identity, C95_qr_special_inputs, C95_qr_unique, C97_signed_determinant, C97_unsigned_determinant, C97_unsigned_laws, C99_get_max_partial, C99_get_max_refuted.
* `ClassicalDedekindReals.sig_forall_dec`, `ClassicalDedekindReals.sig_not_dec`, `Classical_Prop.classic`, `FunctionalExtensionality.functional_extensionality_dep` (273 theorems): C102_inverted_rows_nonzero_partial, C102_inverted_rows_zero_refuted, C103_equals_nan_refuted, C116_length_error, C116_normalize_error, C117_normalize_every_finite_vector_refuted, C118_distance_symmetric, C118_dot_commutes, C118_product_transpose, C118_sums_commute, C119_cross_antisymmetric, C119_cross_with_itself, C119_negated_operand, C120_identity, C120_infinite_cells, C121_length_monotone, C121_length_never_nan, C122_float_cross_antisymmetric, C122_float_cross_with_itself, C122_float_distance_symmetric, C122_float_dot_commutes, C122_float_dot_error, C122_float_finite_means_no_overflow, C122_float_identity, C122_float_infinite_cells, C122_float_length_error, C122_float_length_monotone, C122_float_length_never_nan, C122_float_matrix_product_error, C122_float_negated_operand, C122_float_normalize_error, C122_float_product_transpose, C122_float_sums_commute, C123_normalize_as_in_float, C123_reciprocal_rounds_once, C123_widening_is_exact, C124_float_norm_error, C125_box_culling_in_double, C125_sphere_culling_in_double, C125_sphere_points_in_double, C127_identity_refuted, C127_length_of_product, C127_product_error, C128_chain_error, C128_unit_drift, C129_rotation_matrix_error, C130_box_culling_end_to_end, C130_setup_planes_in_double, C130_sphere_culling_end_to_end, C134_equals_itself, C134_matrix_equals, C134_vector_equals, C135_isIn, C135_scaling_keeps_points, C136_center_partial, C136_overflow_and_nan_refuted, C137_matrices_accurate, C138_distance_error, C138_distance_to_itself, C139_cross_error, C140_ray_sphere_double, C141_default_tolerance, C141_double_limits, C141_float_limits, C142_camera_box_culling, C142_camera_sphere_culling, C143_ortho_box_culling, C143_ortho_matrix_accurate, C143_ortho_sphere_culling, C144_set_random_double, C144_set_random_float, C145_float_convolve, C145_float_frobenius_norm, C145_float_sum_elements, C146_cofactors_double, C146_det_double, C146_det_float, C147_inverse_double, C147_inverse_float, C148_matrix_chain, C148_vector_chain, C149_qr_backward_error, C149_qr_unit_columns, C150_qr_orthogonal_refuted, C150_qr_orthogonality_partial, C151_affine_double, C151_homogeneous_double, C152_filter_double, C152_filter_float, C152_filter_vector_double, C152_filter_vector_float, C153_box_culling_in_float, C153_sphere_culling_in_float, C153_sphere_points_in_float, C154_box_culling_end_to_end, C154_setup_planes_in_float, C154_sphere_culling_end_to_end, C155_matrices_accurate, C156_camera_box_culling, C156_camera_sphere_culling, C157_ortho_box_culling, C157_ortho_matrix_accurate, C157_ortho_sphere_culling, C158_out_parameter_overwritten, C159_equals_itself, C159_matrix_equals, C159_vector_equals, C160_isIn, C160_scaling_keeps_points, C161_center_partial, C161_overflow_and_nan_refuted, C162_elementwise, C162_matrix_product, C162_operations, C162_quaternion_length, C162_quaternion_literals, C162_ray_sphere, C162_vectors, C163_is_akin_partial, C163_is_akin_refuted, C164_distance_error, C164_distance_to_itself, C165_cross_error, C166_ray_sphere_float, C167_identity_loses_small_components, C167_length_of_product, C167_product_error, C168_chain_error, C168_unit_drift, C169_rotation_matrix_error, C170_matrix_chain, C170_vector_chain, C171_columns_may_not_be_orthogonal, C171_qr_backward_error, C171_qr_orthogonality, C171_qr_unit_columns, C172_affine_float, C172_homogeneous_float, C173_rotate, C174_no_overflow, C174_orthonormal, C174_rotation_chain, C175_rotate, C176_no_overflow, C176_orthonormal, C176_rotation_chain, C177_inverse, C177_inverse_product, C177_normalize, C178_inverse, C178_inverse_product, C178_normalize, C179_from_rotation_matrix, C179_half_turns, C179_round_trip, C180_from_rotation_matrix, C180_half_turns, C180_round_trip, C181_clamp, C181_find_min_max, C181_matrix_extrema, C182_merge_history, C182_merge_point, C183_clamp, C183_find_min_max, C183_matrix_extrema, C184_merge_history, C184_merge_point, C185_reciprocal, C185_reciprocal_twice, C185_sqrt, C186_reciprocal, C186_reciprocal_twice, C186_sqrt, C187_compute_normal_error, C188_coincident_vertices, C188_collinear_vertices_refuted, C189_compute_normal_error, C190_coincident_vertices, C190_collinear_vertices_refuted, C191_vec_rotate, C192_float_vec_rotate, C193_distance_to_plane, C193_project_onto_plane, C194_distance_to_sphere, C194_project_centre, C194_project_onto_sphere, C195_distance_to_plane, C195_project_onto_plane, C196_distance_to_sphere, C196_project_centre, C196_project_onto_sphere, C197_constant_refuted, C197_order, C197_point_range_refuted, C197_quantize, C197_unsigned_roundtrip, C198_signed_roundtrip, C199_constant_refuted, C199_order, C199_point_range_refuted, C199_quantize, C199_unsigned_roundtrip, C200_signed_roundtrip, C201_adjust_near_history, C201_same_near, C202_set_perspective, C203_adjust_near_history, C203_same_near, C204_set_perspective, C205_slerp, C206_slerp, C207_compute_plane_error, C207_culler_planes, C208_compute_plane_error, C208_culler_planes, C209_columnwise_sum, C209_convolve, C209_norms, C209_product, C209_sum_elements, C210_columnwise_sum, C210_product, C211_set_dct, C211_set_dct_float, C212_perspective_box_culling, C212_perspective_sphere_culling, C213_perspective_box_culling, C213_perspective_sphere_culling, C214_orthonormal, C214_rotations_from_both_sides, C215_orthonormal, C215_rotations_from_both_sides, C216_corner_box_culling, C216_corner_sphere_culling, C217_corner_box_culling, C217_corner_sphere_culling, C218_world_box_culling, C218_world_sphere_culling, C219_world_box_culling, C219_world_sphere_culling, C220_transformation_histories, C221_transformation_histories, C222_eye_box_culling, C222_eye_sphere_culling, C223_eye_box_culling, C223_eye_sphere_culling, C224_screen_position, C225_screen_position, C226_undo_history, C227_undo_history, C228_last_row_kept, C229_last_row_kept, C230_no_division, C231_no_division, C232_moved_points, C233_moved_points, C234_distances_kept, C235_distances_kept, C236_box_of_moved_points, C237_box_of_moved_points, C42_scalar_orders, C43_less_with_nan_partial, C43_less_with_nan_refuted, C44_eq_bits_f64, C44_zero_and_nan, C62_slerp, C79_p_norm_partial, C79_p_norm_refuted, C81_dot_error, C81_finite_means_no_overflow, C81_matrix_product_error, C85_axis_angle_laws.
<!-- /ASSUMPTIONS -->

(The checker's list of "library axioms" is longer because it also counts the
opaque module fields of the Reals library and of ssreflect's `under` tactic;
no theorem here depends on more than the list above.)

## 4. Which code is modelled

Every function body in these headers is modelled, with these exceptions:

* vector.hpp, matrix.hpp: `rbegin/rend` do not compile when instantiated.  Loops from `begin()` to
  `end()` are modelled as index loops, which C133 justifies.
* quaternion.hpp: `rotate`, `rotate_x/y/z` (840-880) call `invert()`, which does not exist;
  `set(begin,end)` forwards to Vector.
* aabb.hpp: the sphere constructor and `isIn( sphere )` (137-163) call `getCenter()` and
  `getRadius()` of Vector<4>, which do not exist, so they cannot be instantiated.
* exception.hpp, enable_if.hpp: message texts, overload selection.
* float (binary32): C122-C124, C144-C147, C152-C157, C159-C172, C175, C176, C178, C180, C183, C184, C186, C189, C190, C192, C195, C196, C199, C200, C203, C204, C206, C208, C210, C211, C213, C215, C217, C219, C221, C223, C225, C227 (`InstF32`, `MFloat`, `MFloat2`, `MFilter`, `MCullF`, `MViewF`, `MDouble`, `MQSetF`); elsewhere float and mixed-type
  instantiations are covered by the theorems that quantify over every `Scalar`.
* Simplifications are stated in the comment of each definition.  The main ones: conversions
  between element types are an abstract function; `memcpy/memcmp` work on elements (for
  binary64 on bit patterns); accumulation in `double` inside float code is done in the element type; the float versions are modelled separately in
  `MFloat`, `MFloat2`, `MFilter`, `MCullF`, `MViewF`, `MDouble`, `MQSetF`, `MNormalF`, `MVecRotF`, `MDistF`, `MQuantF`, `MPersp`, `MSlerpF`, `MPlaneF`, `MDctF` (C122-C124, C144-C147, C152-C157, C159-C172, C175, C176, C178, C180, C183, C184, C186, C189, C190, C192, C195, C196, C199, C200, C203, C204, C206, C208, C210, C211, C213, C215, C217, C219, C221, C223).

Not expressible: compile-time questions, performance, text of exceptions.

### Findings in the code (each proved where a property id is given)

inverse() of 3x3/4x4 writes its output even when it fails; `m.inverse( m )` is wrong (C84);
`transpose_to`, `symmetric_covariance`, `threshold` are wrong in place (C84); products with an
aliased destination are wrong (C09, C39); `negate()` ignores the matrix (C11); `pre_rotate_*`
rotate the other way (C19); `tensor` is transposed and out of bounds for M != N (C21); integer
quantization of signed and 64-bit targets (C27, C100), `quantize` of a constant matrix (C197, C199); `write_to_raw` appends `.raw`,
`read_from_raw` does not (C29), reads garbage for large matrices of 12-byte elements (C131), leaks its buffer when the file cannot be opened and does not
notice short files; `convolve` only works for square matrices (C31); `is_positive_definite`'s
default limit accepts everything (C33); `operator<` with NaN (C43); `find_abs_max_index` returns
the smallest (C47); `reciprocal_safe` yields infinity for subnormal components (C185); `get_min` of infinities (C181); `compute_normal` of three collinear points can be a unit vector (C188, C190); `compute_plane` normalises four components (C51, C107); `Quaternion::set(M)`
near w = 0 (C61); AABB `isEmpty` compares the wrong component (C66), `setEmpty`/`getCenter` for
integers (C104, C105); `set_perspective` ignores the near plane (C71); `p_norm` without absolute
value (C79); traits transposed (C80); `operator<<` leaves `right` set (C82); static constants of
Vector<2> read out of range, of Vector<4> have w = 0 (C87); `read_csv_file` reads nothing (C88);
`Quaternion::normal` ignores its arguments (C89); `scale_to` wrong for asymmetric ranges (C90);
`m[row][col]` accepts row == M (C98); `get_max` starts from 0 (C99); byte-sized elements and
low-precision text in streams (C101); quaternion/vector operators mix up components (C106);
`set_sub_matrix` throws midway (C114); `normalize()` fails for very large or small doubles (C117);
double `IDENTITY * q` loses components below 2^-54 of the largest (C127); LowpassFilter with M = 0; `Quaternion::set` is declared (w,x,y,z) but defined (x,y,z,w);
`Quaternion::normalize` returns 1/length;
the QR decomposition is called stabilized but projects the original columns and loses orthogonality (C150);
`Quaternion<double>::is_akin` calls `fabsf` and so compares in float (C163).

## 5. Property by property

See the table below: **how** = what is modelled and how it is proved.  A
property marked *refuted* is false of the code; the model proves the negation on
a concrete witness (`..._refuted`) and, beside it, the strongest true variant.

| id | how |
|----|-----|
| C01 | `at/operator()/operator[]` on column-major lists; index arithmetic, all shapes, both accessor modes |
| C02 | induction over the write sequence, refinement to a function update map |
| C03 | 2-D loop fill lemma |
| C04 | 2-D loops with min bounds after `zero` |
| C05 | loop over iterator; overrun modelled as UB |
| C06 | copy loops; read-after-write, frame |
| C07 | transpose loops; product theorem from C08 |
| C08 | triple loop = ordered sum, all scalars; algebra over R by finite-sum lemmas |
| C09 | refuted for aliased operands (`arg`), proved otherwise |
| C10 | element-wise loops incl. `Self` operand |
| C11 | refuted (`negate` multiplies a default-constructed matrix) |
| C12 | explicit formulas = Laplace expansion, `ring` |
| C13 | `field`, case split on tolerance, all three sizes |
| C14 | minor index arithmetic with size_t wrap, Laplace spec |
| C15, C16 | loop = ordered sum; R algebra |
| C17 | unfolding + `nra`/`ring` with sin^2+cos^2=1 |
| C18 | in-place row loops = product with rotation |
| C19 | refuted: it is multiplication with the inverse rotation |
| C20 | loops, `ring` |
| C21 | refuted (transposed; out-of-bounds for M != N), square transposed statement proved |
| C22 | nested loops with offsets |
| C23 | loops and sums |
| C24 | std::min_element etc. folds; get_max refuted |
| C25 | loops and counting |
| C26, C27 | integer rounding analysis; signed refuted |
| C28 | byte-list file, chunk loop |
| C29 | refuted: strings differ |
| C30 | token-stream model with abstract print/parse round trip; uint8_t refuted |
| C31 | index clamping; non-square refuted, square proved |
| C32 | cosine orthogonality over R |
| C33 | refuted with a concrete matrix |
| C34 | loops with early exit |
| C35 | element-wise loops, int poison |
| C36 | Cauchy-Schwarz over R for every n |
| C37 | R, sqrt |
| C38 | `ring` |
| C39 | refuted for alias |
| C40 | cross + normalize |
| C41 | Rodrigues |
| C42 | lexicographic loop; induction |
| C43 | refuted, binary64 NaN |
| C44 | memcmp as bits equality |
| C45 | loop; integer default tolerance refuted |
| C46 | std algorithms as folds |
| C47 | refuted |
| C48 | loop |
| C49 | loops + R |
| C50 | list surgery |
| C51 | refuted; points-on-plane part proved |
| C52, C53 | R geometry, Cauchy-Schwarz |
| C54, C55 | loops |
| C56 | rand oracle as a stream |
| C57-C63 | quaternion algebra, `ring`/`field`/trig; C61, C63 refuted in the stated branches |
| C64-C67 | induction over merge histories; C66 refuted |
| C68-C71 | frustum matrices; C71 refuted |
| C72-C74 | plane extraction, half-space arguments |
| C75 | quadratic equation |
| C76 | induction over columns of Gram-Schmidt |
| C77 | ring buffer history, induction |
| C78-C80 | direct; C79, C80 refuted |
| C81 | Flocq relative-error composition by induction on the dimension |
| C82 | stream flags as a record, `setf` as bitwise or; refuted, exact flags afterwards proved |
| C83 | relational proof over every modelled function that uses a checked accessor: unchecked result = checked result unless it throws |
| C84 | in-place variants modelled separately (`MAlias`), exact results computed; refuted where wrong |
| C85 | vector, matrix and quaternion rotation against one specification `axis_angleR` |
| C86, C87 | direct; static constants of every M |
| C88 | file contents as strings; reading refuted |
| C89, C90 | exact results; refuted |
| C91 | counting |
| C92-C94 | algebra over R from C08/C12/C13 and finite sums |
| C95 | uniqueness of QR from C76 by induction over columns |
| C96, C97 | homomorphism theorem (`LHom`): a program run with machine integers follows the run over Z unless an operation overflows |
| C98-C107 | the false variants split off from C01, C24, C26, C30, C34, C45, C64, C67, C63, C74; each refuted with the exact behaviour |
| C108 | random oracle, affine image |
| C109, C110 | direct |
| C111 | plane extraction composed with an arbitrary invertible view matrix |
| C112 | one lemma per modelled function (322), collected in three theorems: no throw, no UB on well-sized arguments |
| C113 | exact condition on indices, including size_t wrap-around in `offset + size` |
| C114 | refuted; contents left behind computed for every offset |
| C115 | extraction from a token stream that fails at the k-th number |
| C116 | Flocq: relative errors of sum of squares, sqrt, reciprocal, product composed; overflow and underflow excluded from the range hypotheses |
| C117 | refuted by evaluating the binary64 model |
| C118-C121 | doubles mapped to the numbers they denote (`Spec10`, `LExt`): every operation is a function of these numbers, whose laws are proved from the symmetry and monotonicity of rounding; bit-level commutativity from Flocq's definitions |
| C122 | second instance of the model, binary32 (`InstF32`); the proofs of C81, C116, C118-C121 carried over with precision 24 and exponent bound 128 |
| C123 | float/double conversions (`MFloat`); Flocq's theorem that division at precision 53 >= 2*24 followed by rounding to 24 bits is correctly rounded, plus the special values and overflow |
| C124 | mixed model of norm() (`MFloat.vecf_norm`); error of a double sum of non-negative numbers by induction |
| C125 | binary64 instance; running error of n.c+d and of the box extent (`LErr`), then the exact-real geometry of C39/C40 |
| C126 | `MIo`/`MExtra`/`MPrint` output operators; the text by induction over elements and rows |
| C127 | binary64 instance of the quaternion product; per-operation error analysis (`LErr`), exact real product as reference; identity refuted by evaluation |
| C128 | induction over the factors with a relative error budget |
| C129 | binary64 instance of `get_rotation_matrix`; reference matrix characterised by v -> q v q* |
| C130 | binary64 instance of `fc_setup` (row sums, normalisation with `len_rel`), then perturbation of the plane in the C125 margins |
| C131 | chunk loop of `MIo.raw_loop` with wrapping subtraction; induction over the elements, refuted for 12-byte elements |
| C132 | `MMisc2.version_*`; case analysis, linear arithmetic |
| C133 | `MMisc2.runs`: runs of the iterator loop; induction over the distance to end() |
| C134 | `vec_equals`, `mat_equals` at binary64; rounding is monotone and exact at the tolerance itself, so the comparison cannot be flipped below it |
| C135 | `box_isIn`, `box_mul`/`box_add`/`box_sub` at binary64; monotonicity of rounding including overflow |
| C136 | `box_getCenter` at binary64; monotonicity for the containment, error bounds for the accuracy, counterexamples computed |
| C137 | `fr_compute_matrix`, `fr_compute_ortho_matrix` at binary64 against the same functions over R; forward error analysis |
| C138 | `vec_distance`, `vec_squared_distance` at binary64; relative errors through the sum |
| C139 | `vec_cross` at binary64; forward error analysis |
| C140 | `ray_make`, `ray_test_sphere` at binary64 against the exact sphere; forward error analysis of every intermediate quantity, case analysis on the exact configuration |
| C141 | `smax`, `slowest`, `seps` of `F64Scalar` and `F32Scalar`; structure of the floating-point formats |
| C142 | `fr_compute_matrix`, `fc_setup`, `fc_test_sphere`, `fc_test_aabb` at binary64 against exact half-spaces (`C142_half_spaces_of_the_frustum` ties them to the frustum); perturbation of half-spaces by the cell errors of C137, plane errors of C130 and test errors of C125 added up |
| C143 | `fr_compute_ortho_matrix` and the culler at binary64, same method |
| C144 | the double computed for a draw is a composition of monotone roundings; loops by invariant; float: narrowing of that double (PRandF) |
| C145 | error of a double sum of signed terms by induction, exactness of sums of multiples, reuse of C124 for the norm, products and narrowing for the convolution (PMixed) |
| C146 | the model run on symbolic cells gives the expression (LDet); error bound of an expression by induction on it (LExpr, LExprF); exact value and sum of terms by ring (PDetF) |
| C147 | the same for the adjugate and the determinant inside inverse(), then the reciprocal and the scaling (PInvF, PInvF32) |
| C148 | induction on the chain generalised over the bound of the accumulated left factor; each step is the inner product bound (Spec12, PChain) |
| C149 | the loops' recurrences over binary64 (invariant over columns), finiteness propagated backwards from Q and R, then a residual bound by induction over the subtractions (PQrF) |
| C150 | *refuted* by the Lauchli matrix with 2^-30, evaluated in the kernel (PQrF); with a bound K on the ratio of the length of column c of A to R_cc the loss of orthogonality is bounded for all sizes, by induction over the columns (PQrO) |
| C151 | loop specification over binary64, row bound from the inner product bound, quotient perturbation over R (Spec12, PHomF) |
| C152 | model of the filter with its real types (MFilter); state after any history by induction, weight error by induction over the powers, blend error by induction over the window (PFilter) |
| C153 | binary32 instance, `fcf_test_aabb` with both overloads of fabs (MCullF); running error of n.c+d and of the extent with the okf32 calculus (PCullF), then the exact-real geometry of C39/C40 |
| C154 | `fcf_setup` with the double reciprocal (MCullF); error of the length and the quotient, then perturbation of the plane in the C153 margins (PCullF2) |
| C155 | `frf_compute_matrix`, `frf_compute_ortho_matrix` (MViewF: double quotients narrowed to float) against the real instance; forward error analysis (PFrustumF32) |
| C156 | MViewF and MCullF against the exact half-spaces of the frustum (`C156_half_spaces_of_the_frustum`); perturbation of half-spaces by the cell errors of C155, plane errors of C154 and test errors of C153 added up (PViewF32) |
| C157 | `frf_compute_ortho_matrix` and the float culler, same method (PViewO32) |
| C158 | `fr_compute_matrix_into` and friends on an arbitrary 16-element list, every Scalar; case analysis on the 16 cells and the six parameters (PTarget) |
| C159 | `vec_equals`, `mat_equals` on F32Scalar; loop invariants over all sizes, rounding of one difference bounded by Flocq (PEqF32) |
| C160 | `box_isIn`, `box_mul`, `box_add`, `box_sub` on F32Scalar; monotone rounding with overflow, case analysis on infinities (PAabbF32) |
| C161 | `box_getCenter` on F32Scalar; midpoint rounding bounds for edges up to the largest float; counterexample beyond (PAabbF32) |
| C162 | `F32WideScalar` (MDouble): every operation in double and rounded back; innocuous double rounding of + - * / sqrt proved from Flocq's Double_rounding, then congruence through the loops (PDouble) |
| C163 | `qd_is_akin` (MDouble): difference in double, fabsf in float; error of the narrowing bounded, counterexamples by computation (PAkin) |
| C164 | `vec_distance`, `vec_squared_distance` on F32Scalar; error of the differences exact to 2^-24, then the sum and root bounds of C122 (PDistF32) |
| C165 | `vec_cross` on F32Scalar; three roundings per component, triangle inequality (PDistF32) |
| C166 | port of C140 to float: Ray constructor with double `sqrt`/reciprocal (MDouble.rayf_make), then error propagation through the quadratic; PRayF32 |
| C167 | Quaternion of float with its double literal 0.5 (MDouble.qf_mul) shown equal to the exactly halved float scheme, then the error analysis of C127; PQuatF32 |
| C168 | induction over the factors with the norm error of C167; PQuatF32 |
| C169 | per-cell error analysis of MDouble.qf_get_rotation_matrix against the cells of v -> q v q*; PQuatF32 |
| C170 | induction over the factors, invariant = error against the real chain and the chain of absolute values; PChainF32 |
| C171 | port of C149/C150 to float: run of the Gram-Schmidt loops as recurrences, error per subtraction and division, length of the columns; counterexample to orthogonality by computation; PQrF32; induction over the columns for the orthogonality bound; PQrO32 |
| C172 | port of C151 to float: rows as rounded sums, error of the quotient; PHomF32 |
| C173 | mat_rotate run symbolically on double cells; error of each cell from the operations (LErr) and the trig accuracy (LRot), axis normalisation error; witness: sin and cos rounded to a grid; PRotF |
| C174 | one step = a row times an axis rotation with row error at most K times its length (LRot.row_two); induction over the sequence; exact rotations preserve scalar products; PRotF |
| C175 | port of C173 to float; PRotF32 |
| C176 | port of C174 to float; PRotF32 |
| C177 | q_abs equals vec_length of 4 components (bit for bit, the leading 0 + is exact), so C116; reciprocal and product errors; inverse from sum_rel; product from C127's machinery; PQuatN |
| C178 | port of C177 to float; product via qf_mul; PQuatN32 |
| C179 | error of pivot sum, sqrt, the two quotients and the products (LQSet: real estimates with E = e + 4u); four branches from one lemma; round trip from C129 after scaling to length 1; PQSet. Not covered: 4w^2 between 9.8e-6 and 1.02e-5 |
| C180 | separate model qf_set_matrix (MQSetF) with the double literals; same real estimates; PQSetF. Not covered: w^2 below 100(e + 4/2^24) but 4w^2 above 6e-6 |
| C181 | loop invariants over the order of the extended reals (least_of/greatest_of ignore NaN), PNan |
| C182 | fold over the merge history, PNan |
| C183 | as C181 with binary32, PNan32 |
| C184 | as C182 with binary32, PNan32 |
| C185 | Flocq's Bdiv_correct/Bsqrt_correct; the double after 2^-1024 from the format; PRecip |
| C186 | as C185 with binary32, PRecip32 |
| C187 | PNormal.v over vec_compute_normal(_into); real core in LNormal.v (Cauchy for the products, direction is Lipschitz, triangle inequalities), edges by rel1_minus, cross product by cross_comp (C139), normalisation by C116. |
| C188 | PNormal.v: equal products have equal roundings, so the cross product of equal or null edges is exactly zero and normalize leaves it; the collinear counterexample is computed on bit patterns. |
| C189 | PNormal32.v over vecf_compute_normal(_into) of MNormalF.v (reciprocal in double), same real core with the float unit roundoff. |
| C190 | PNormal32.v, as C188. |
| C191 | PVecRot.v over vec_rotate: axis by normalize3 (C116), cells as in C173 (LRot.v, LVecRot.v), rows of three products, length of the error vector; rodrigues_dot for the length. |
| C192 | PVecRot32.v over vecf_rotate of MVecRotF.v, same real core with the float unit roundoff. |
| C193 | PDist.v over vec_dist_plane and vec_project_plane; real core LDist.v (plane_err, plane_comp), Cauchy for the sum of the absolute products. |
| C194 | PDist.v over vec_dist_sphere and vec_project_sphere; LDist.v: sqrt_abs bounds the root of a sum whose squares may underflow, so no lower bound on the distance; dir_comp and normalize3 (C116) for the direction; the centre by the exact zero products of C188. |
| C195 | PDist32.v, as C193 with the float roundoff. |
| C196 | PDist32.v over vec_dist_sphere and vecf_project_sphere of MDistF.v, as C194. |
| C197 | PQuantF.v over matD_quantize_to, matD_quantize, matD_dequantize of MQuantF.v; real core LQuant.v (q_val: the scaled value is within 7 u r; d_val: the way back within 8.1 u A); order by monotone rounding step by step; range from C181. |
| C198 | PQuantF.v, near_I: both branches of the truncation and the clamp at 2^(b-1)-1. |
| C199 | PQuantF32.v over the matF functions of MQuantF.v, as C197. |
| C200 | PQuantF32.v, as C198. |
| C201 | PAdjust.v over fr_adjust_near of MFrustum.v at F64Scalar; invariant: edge = first edge * near / first near * F with F between (1-u)^2k and (1+u)^2k; induction over the list of calls. |
| C202 | PPersp.v over fr_set_perspective of MFrustum.v at F64Scalar with f64_pi of MPersp.v; the tangent is a parameter with an accuracy hypothesis (met by a correctly rounded one: rounded_tan_good); conditioning of tan up to 60 degrees in LPersp.v. |
| C203 | PAdjust32.v, as C201. |
| C204 | PPersp32.v over frF_set_perspective of MPersp.v; reuses half_tan of PPersp.v for the double part. |
| C205 | PSlerpF.v over q_slerp of MQuaternion.v at F64Scalar with sin and atan2 as parameters (accuracy hypotheses met by correctly rounded functions: rounded_sin_good, rounded_atan2_good); LSlerp.v has the real analysis: conditioning of sin and of sin(b t)/sin t, what a combination with slightly wrong coefficients costs, and the error of the linear branch. |
| C206 | PSlerpF32.v over qf_slerp of MSlerpF.v (mixed float and double, as the literals of the code make it); the same real core. |
| C207 | PPlaneF.v over vec_compute_plane of MVector.v and fc_setup_corners of MFrustum.v at F64Scalar; LPlane.v: perturbed cross product, 1-Lipschitz homogeneous length, the constant term. |
| C208 | PPlaneF32.v over vecf_compute_plane and fcf_setup_corners of MPlaneF.v, as C207. |
| C209 | PSumsF.v over mat_sum_elements, mat_columnwise_sum, mat_frobenius, mat_convolve (MMatrix.v), vec_norm, vec_product (MVector.v) at F64Scalar: running error of ordered sums and products. |
| C210 | PSumsF32.v, the same definitions at F32Scalar. |
| C211 | PDctF.v over matd_set_dct and matf_set_dct of MDctF.v: error of angle, cosine and weight; perturbation of the exact orthonormal basis (C32). |
| C212 | PPerspCull.v: C202 composed with C142; LPerspCull.v: tilted half-spaces. |
| C213 | PPerspCull32.v: C204 composed with C156. |
| C214 | PMoveF.v, specification in Spec14.v: every step is an isometry of the Frobenius norm (rows for rotate, columns for pre_rotate), error by induction over the history. |
| C215 | PMoveF32.v: as C214. |
| C216 | PCornerF.v, specification in Spec15.v: C207 (error of each plane) composed with C125 (verdict for given planes). |
| C217 | PCornerF32.v: C208 composed with C153. |
| C218 | PWorldF.v, specification in Spec16.v, real-number part in LWorld.v: error of each cell of the product, of each face (pert), of the signed distance (world_total), then C130 and C125. |
| C219 | PWorldF32.v: the same with C154 and C153. |
| C220 | PEditF.v, specification in Spec17.v, real part in LEdit.v: each exact call is Lipschitz with its factor, each computed call errs by K times that; induction over the history. |
| C221 | PEditF32.v: the same for float. |
| C222 | PEyeF.v, specification in Spec18.v, real part in LEye.v: C220 bounds the view matrix, a face of the product moves by at most 2 e times the product of the norms, C218 culls with the computed product. |
| C223 | PEyeF32.v: the same for float, from C221 and C219. |
| C224 | PScreenF.v, specification in Spec19.v, real part in LScreen.v: C220 bounds the view matrix, the cells of the product are compared with the exact product, C151 transforms the point, and the perturbed quotient is bounded. |
| C225 | PScreenF32.v: the same for float, from C221 and C172. |
| C226 | PUndoF.v, real part in LUndo.v: C220 bounds V, C147 inverts it, and W - Y = W (X - V) Y compares the exact inverses W of V and Y of the exact effect X. |
| C227 | PUndoF32.v: the same for float, from C221 and C147. |
| C228 | PAffF.v: products with an exact zero and sums of exact zeros do not round; induction on the history from its end, with C220 for the finiteness of every intermediate matrix. |
| C229 | PAffF32.v: the same for float, from C221. |
| C230 | PAffF.v: the divisor is the sum of products with exact zeros plus exactly 1, and division by 1 does not round; the remaining sums are the same up to the order of the factors. |
| C231 | PAffF32.v: the same for float. |
| C232 | Spec20.v, PRigidF.v, real part in LRigid.v: C220 bounds the matrix, C228 makes w exactly 1, C151 bounds the homogeneous product. |
| C233 | PRigidF32.v: the same for float, from C221, C229 and C172. |
| C234 | PRigidF.v: rotations from either side, set_translation and scale_translation keep the 3x3 block length-preserving (induction on the history), then C232 for both points and the triangle inequality. |
| C235 | PRigidF32.v: the same for float. |
| C236 | PBoxF.v: C232 for every point, C182 for the history of merges; finite results exclude the empty-box case of C182. |
| C237 | PBoxF32.v: the same for float, from C233 and C184. |
