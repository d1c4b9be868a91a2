{
 "claims": [
  {
   "property": "C01",
   "status": "proved",
   "theorems": [
    "C01_cells"
   ],
   "note": ""
  },
  {
   "property": "C02",
   "status": "proved",
   "theorems": [
    "C02_histories",
    "C02_last_write_wins"
   ],
   "note": ""
  },
  {
   "property": "C03",
   "status": "proved",
   "theorems": [
    "C03_fills",
    "C03_identity_diag"
   ],
   "note": ""
  },
  {
   "property": "C04",
   "status": "proved",
   "theorems": [
    "C04_resize",
    "C04_assign"
   ],
   "note": ""
  },
  {
   "property": "C05",
   "status": "proved",
   "theorems": [
    "C05_set"
   ],
   "note": ""
  },
  {
   "property": "C06",
   "status": "proved",
   "theorems": [
    "C06_rows_columns",
    "C06_sub_matrix"
   ],
   "note": ""
  },
  {
   "property": "C07",
   "status": "proved",
   "theorems": [
    "C07_transpose",
    "C07_transpose_product"
   ],
   "note": ""
  },
  {
   "property": "C08",
   "status": "proved",
   "theorems": [
    "C08_product",
    "C08_product_laws"
   ],
   "note": ""
  },
  {
   "property": "C09",
   "status": "partial",
   "theorems": [
    "C09_multiply_unaliased_partial",
    "C09_multiply_aliased_refuted",
    "C09_mul_assign_self_refuted"
   ],
   "note": "False of the code when the destination is an operand (m.multiply( m, x ), m.multiply( x, m ), m *= m): C09_multiply_aliased_refuted computes the wrong cell for every size and operand.  The _partial theorem proves the product for distinct objects, for any element type."
  },
  {
   "property": "C10",
   "status": "proved",
   "theorems": [
    "C10_elementwise",
    "C10_vector_space"
   ],
   "note": ""
  },
  {
   "property": "C11",
   "status": "partial",
   "theorems": [
    "C11_negate_refuted",
    "C11_negate_partial"
   ],
   "note": "False of the code: negate() negates a default-constructed matrix, so the result is minus the identity (or zero) whatever m is; C11_negate_partial characterises exactly the matrices for which the claim holds."
  },
  {
   "property": "C12",
   "status": "proved",
   "theorems": [
    "C12_det",
    "C12_det_laws"
   ],
   "note": ""
  },
  {
   "property": "C13",
   "status": "proved",
   "theorems": [
    "C13_inverse",
    "C13_inverse_unique"
   ],
   "note": ""
  },
  {
   "property": "C14",
   "status": "proved",
   "theorems": [
    "C14_minor",
    "C14_minor_cells",
    "C14_cofactors_adjugate"
   ],
   "note": ""
  },
  {
   "property": "C15",
   "status": "proved",
   "theorems": [
    "C15_mat_vec",
    "C15_linear"
   ],
   "note": ""
  },
  {
   "property": "C16",
   "status": "proved",
   "theorems": [
    "C16_homogeneous_transform"
   ],
   "note": ""
  },
  {
   "property": "C17",
   "status": "proved",
   "theorems": [
    "C17_rotate"
   ],
   "note": ""
  },
  {
   "property": "C18",
   "status": "proved",
   "theorems": [
    "C18_rotate_axis",
    "C18_rotate_axis_laws"
   ],
   "note": ""
  },
  {
   "property": "C19",
   "status": "partial",
   "theorems": [
    "C19_pre_rotate_partial",
    "C19_pre_rotate_refuted"
   ],
   "note": "False of the code: pre_rotate_x/y/z( a ) multiply by the rotation of angle -a from the left (C19_pre_rotate_partial proves exactly that for every matrix and angle; C19_pre_rotate_refuted shows it differs from R(a) whenever sin a <> 0)."
  },
  {
   "property": "C20",
   "status": "proved",
   "theorems": [
    "C20_scale_translation_members",
    "C20_create_apply"
   ],
   "note": ""
  },
  {
   "property": "C21",
   "status": "partial",
   "theorems": [
    "C21_tensor_square_partial",
    "C21_tensor_nonsquare_refuted",
    "C21_tensor_transposed_refuted",
    "C21_tensor_3_to_4_partial"
   ],
   "note": "False of the code: tensor(u,v) stores u(j)*v(i) in cell (i,j) (C21_tensor_transposed_refuted says exactly when that is still right) and reads outside a vector whenever M <> N (C21_tensor_nonsquare_refuted).  The _partial theorems prove what is computed for square matrices and for the 4x4 overload."
  },
  {
   "property": "C22",
   "status": "proved",
   "theorems": [
    "C22_direct_sum",
    "C22_kronecker",
    "C22_khatri_rao",
    "C22_symmetric_covariance"
   ],
   "note": ""
  },
  {
   "property": "C23",
   "status": "proved",
   "theorems": [
    "C23_sum_elements",
    "C23_columnwise_sum",
    "C23_sum_rows_columns"
   ],
   "note": ""
  },
  {
   "property": "C24",
   "status": "proved",
   "theorems": [
    "C24_get_min",
    "C24_get_abs"
   ],
   "note": ""
  },
  {
   "property": "C25",
   "status": "proved",
   "theorems": [
    "C25_nnz",
    "C25_threshold"
   ],
   "note": ""
  },
  {
   "property": "C26",
   "status": "proved",
   "theorems": [
    "C26_unsigned_roundtrip",
    "C26_outside_clamped",
    "C26_quantize_range"
   ],
   "note": "Unsigned targets of up to 63 bits; see C100 for wider ones.  An empty range divides by zero."
  },
  {
   "property": "C27",
   "status": "partial",
   "theorems": [
    "C27_signed_roundtrip_partial",
    "C27_signed_offset_refuted",
    "C27_signed_truncation_refuted",
    "C27_width64_refuted"
   ],
   "note": "False of the code: the offset of the range is never used for signed targets (range [10,20] maps 20 to 127 and back to 10), truncation towards zero is off by up to 1.5 steps for negative cells, and 64-bit targets overflow.  The _partial theorem proves 1.5 steps (half a step for non-negative cells) for all cells with |x| <= (max-min)/2."
  },
  {
   "property": "C28",
   "status": "proved",
   "theorems": [
    "C28_raw_roundtrip",
    "C28_raw_read_any_file",
    "C28_no_file"
   ],
   "note": ""
  },
  {
   "property": "C29",
   "status": "partial",
   "theorems": [
    "C29_raw_name_partial",
    "C29_raw_name_refuted",
    "C29_path"
   ],
   "note": "False of the code for every file name that does not end in raw (C29_raw_name_refuted: nothing is read back); for names that do, the paths agree and the round trip is proved end to end."
  },
  {
   "property": "C30",
   "status": "proved",
   "theorems": [
    "C30_vector_stream",
    "C30_matrix_stream",
    "C30_int_matrix"
   ],
   "note": "Every element type whose text is readable back, with decimal integers as instance.  See C101 for the others."
  },
  {
   "property": "C31",
   "status": "partial",
   "theorems": [
    "C31_convolve_square_partial",
    "C31_convolve_rectangular_refuted",
    "C31_convolve_unchecked_refuted"
   ],
   "note": "Proved for square matrices with square kernels (C31_convolve_square_partial).  False otherwise: rows and columns are exchanged, so every rectangular matrix or kernel throws with safe accessors and, for more rows than columns, is accessed out of bounds without them."
  },
  {
   "property": "C32",
   "status": "proved",
   "theorems": [
    "C32_dct_orthonormal"
   ],
   "note": ""
  },
  {
   "property": "C33",
   "status": "partial",
   "theorems": [
    "C33_is_positive_definite_partial",
    "C33_default_limit_refuted"
   ],
   "note": "False of the code with the default limit -1e12 (C33_default_limit_refuted).  C33_is_positive_definite_partial proves what the function decides for every limit, that no positive definite matrix is rejected for limit <= 0 and that acceptance with limit > 0 implies positive definiteness (Sylvester's criterion is proved).  Only 3x3 compiles."
  },
  {
   "property": "C34",
   "status": "proved",
   "theorems": [
    "C34_equality",
    "C34_equals_tolerance",
    "C34_inverted_rows_columns"
   ],
   "note": "Over the reals; == and equals for every element type.  See C102 for doubles."
  },
  {
   "property": "C35",
   "status": "proved",
   "theorems": [
    "C35_vector_elementwise",
    "C35_vector_assign_elementwise",
    "C35_vector_division",
    "C35_vector_int_overflow"
   ],
   "note": ""
  },
  {
   "property": "C36",
   "status": "proved",
   "theorems": [
    "C36_dot_length_distance_values",
    "C36_euclidean_laws",
    "C36_homogeneous"
   ],
   "note": ""
  },
  {
   "property": "C37",
   "status": "proved",
   "theorems": [
    "C37_normalize"
   ],
   "note": ""
  },
  {
   "property": "C38",
   "status": "proved",
   "theorems": [
    "C38_cross",
    "C38_cross_components"
   ],
   "note": ""
  },
  {
   "property": "C39",
   "status": "partial",
   "theorems": [
    "C39_cross_aliasing_refuted",
    "C39_cross_aliasing_partial"
   ],
   "note": "False of the code: cross( a, b ) with an aliased operand computes a different vector (witness for every non-degenerate case in C39_cross_aliasing_refuted); the _partial theorem proves which aliasings are safe."
  },
  {
   "property": "C40",
   "status": "proved",
   "theorems": [
    "C40_compute_normal"
   ],
   "note": ""
  },
  {
   "property": "C41",
   "status": "proved",
   "theorems": [
    "C41_rotate",
    "C41_rotate_laws"
   ],
   "note": ""
  },
  {
   "property": "C42",
   "status": "proved",
   "theorems": [
    "C42_less_is_lexicographic",
    "C42_less_strict_weak_order",
    "C42_scalar_orders",
    "C42_less_total"
   ],
   "note": ""
  },
  {
   "property": "C43",
   "status": "partial",
   "theorems": [
    "C43_less_with_nan_refuted",
    "C43_less_with_nan_partial"
   ],
   "note": "False of the code for NaN components (C43_less_with_nan_refuted gives IEEE binary64 witnesses); without NaN it is proved."
  },
  {
   "property": "C44",
   "status": "proved",
   "theorems": [
    "C44_eq_bits_f64",
    "C44_zero_and_nan",
    "C44_eq_int"
   ],
   "note": ""
  },
  {
   "property": "C45",
   "status": "proved",
   "theorems": [
    "C45_equals"
   ],
   "note": ""
  },
  {
   "property": "C46",
   "status": "proved",
   "theorems": [
    "C46_find_min_max",
    "C46_find_min_max_real"
   ],
   "note": ""
  },
  {
   "property": "C47",
   "status": "partial",
   "theorems": [
    "C47_find_abs_max_refuted",
    "C47_find_abs_max_partial"
   ],
   "note": "False of the code: find_abs_max_index uses max_element with abs_greater and returns the index of the smallest absolute value (vector.hpp:1496-1501). Proved instead (_partial): it returns the first index of smallest absolute value, hence the right answer exactly when all absolute values are equal."
  },
  {
   "property": "C48",
   "status": "proved",
   "theorems": [
    "C48_clamp",
    "C48_clamp_general"
   ],
   "note": ""
  },
  {
   "property": "C49",
   "status": "proved",
   "theorems": [
    "C49_to_homogeneous",
    "C49_from_homogeneous"
   ],
   "note": ""
  },
  {
   "property": "C50",
   "status": "proved",
   "theorems": [
    "C50_fill",
    "C50_set_components",
    "C50_copies",
    "C50_access"
   ],
   "note": ""
  },
  {
   "property": "C51",
   "status": "partial",
   "theorems": [
    "C51_compute_plane_refuted",
    "C51_compute_plane_partial"
   ],
   "note": "False of the code: compute_plane normalises the 4-vector including the homogeneous 1, so the normal is always shorter than 1; the _partial theorem proves that the plane contains the three points and that the normal has the right direction."
  },
  {
   "property": "C52",
   "status": "proved",
   "theorems": [
    "C52_plane"
   ],
   "note": ""
  },
  {
   "property": "C53",
   "status": "proved",
   "theorems": [
    "C53_sphere"
   ],
   "note": ""
  },
  {
   "property": "C54",
   "status": "proved",
   "theorems": [
    "C54_predicates",
    "C54_manhattan_norm"
   ],
   "note": ""
  },
  {
   "property": "C55",
   "status": "proved",
   "theorems": [
    "C55_reciprocal_sqrt"
   ],
   "note": ""
  },
  {
   "property": "C56",
   "status": "proved",
   "theorems": [
    "C56_set_random_perturb"
   ],
   "note": ""
  },
  {
   "property": "C57",
   "status": "proved",
   "theorems": [
    "C57_operator_mul_is_Hamilton_product",
    "C57_algebra"
   ],
   "note": ""
  },
  {
   "property": "C58",
   "status": "proved",
   "theorems": [
    "C58_conjugate",
    "C58_inverse"
   ],
   "note": ""
  },
  {
   "property": "C59",
   "status": "proved",
   "theorems": [
    "C59_normalize",
    "C59_scalar_operations",
    "C59_comparisons"
   ],
   "note": ""
  },
  {
   "property": "C60",
   "status": "proved",
   "theorems": [
    "C60_rotation_matrix_acts_as_conjugation",
    "C60_rotation_matrix_orthogonal",
    "C60_rotation_matrix_homomorphism"
   ],
   "note": ""
  },
  {
   "property": "C61",
   "status": "partial",
   "theorems": [
    "C61_from_rotation_matrix_partial",
    "C61_from_rotation_matrix_refuted"
   ],
   "note": "Refuted in part: for unit quaternions with 0 < 4w^2 <= 1e-5 whose y component does not dominate, set(M) returns the conjugate up to sign (the inverse rotation). Proved for all other unit quaternions."
  },
  {
   "property": "C62",
   "status": "proved",
   "theorems": [
    "C62_slerp"
   ],
   "note": ""
  },
  {
   "property": "C63",
   "status": "proved",
   "theorems": [
    "C63_vector_operators"
   ],
   "note": ""
  },
  {
   "property": "C64",
   "status": "proved",
   "theorems": [
    "C64_merge_history_min_max",
    "C64_merge_history_smallest_enclosing",
    "C64_merge_order_irrelevant",
    "C64_setEmpty"
   ],
   "note": ""
  },
  {
   "property": "C65",
   "status": "proved",
   "theorems": [
    "C65_isIn",
    "C65_isIn_monotone",
    "C65_center_and_size",
    "C65_set_and_get",
    "C65_unit_box"
   ],
   "note": ""
  },
  {
   "property": "C66",
   "status": "partial",
   "theorems": [
    "C66_isEmpty_partial",
    "C66_new_box_is_empty",
    "C66_isEmpty_refuted"
   ],
   "note": "Refuted: the third comparison uses _max.x(). Proved for boxes with equal upper x and z, and for new/emptied boxes."
  },
  {
   "property": "C67",
   "status": "proved",
   "theorems": [
    "C67_scalar_operators",
    "C67_division",
    "C67_center",
    "C67_comparison"
   ],
   "note": ""
  },
  {
   "property": "C68",
   "status": "proved",
   "theorems": [
    "C68_perspective_formula",
    "C68_perspective_maps_frustum_onto_cube",
    "C68_degenerate"
   ],
   "note": ""
  },
  {
   "property": "C69",
   "status": "proved",
   "theorems": [
    "C69_ortho_maps_box_onto_cube",
    "C69_degenerate"
   ],
   "note": ""
  },
  {
   "property": "C70",
   "status": "proved",
   "theorems": [
    "C70_adjust_near_keeps_pyramid",
    "C70_adjust_near_history",
    "C70_adjust_back_restores",
    "C70_near_zero",
    "C70_jitter"
   ],
   "note": ""
  },
  {
   "property": "C71",
   "status": "partial",
   "theorems": [
    "C71_set_perspective_wrong_window_refuted",
    "C71_set_perspective_partial"
   ],
   "note": "Refuted: top is tan(fovy/2)/2 whatever the near plane is, so the requested angle holds only for near = 1/2. The partial theorem gives what holds (centred window, aspect ratio, depth range, exact condition for the angle)."
  },
  {
   "property": "C72",
   "status": "proved",
   "theorems": [
    "C72_sphere_culling_sound",
    "C72_sphere_culling_exact",
    "C72_degenerate_face",
    "C72_perspective_culling"
   ],
   "note": ""
  },
  {
   "property": "C73",
   "status": "proved",
   "theorems": [
    "C73_box_culling_sound",
    "C73_perspective_culling"
   ],
   "note": ""
  },
  {
   "property": "C74",
   "status": "proved",
   "theorems": [
    "C74_corner_culling_sound"
   ],
   "note": ""
  },
  {
   "property": "C75",
   "status": "proved",
   "theorems": [
    "C75_ray_sphere",
    "C75_parameter_is_distance"
   ],
   "note": ""
  },
  {
   "property": "C76",
   "status": "proved",
   "theorems": [
    "C76_qr_decomposition",
    "C76_qr_dependent"
   ],
   "note": ""
  },
  {
   "property": "C77",
   "status": "proved",
   "theorems": [
    "C77_lowpass_blend",
    "C77_lowpass_forgets",
    "C77_lowpass_bounds",
    "C77_lowpass_constant",
    "C77_lowpass_empty_window"
   ],
   "note": ""
  },
  {
   "property": "C78",
   "status": "proved",
   "theorems": [
    "C78_squared",
    "C78_pythag",
    "C78_sign"
   ],
   "note": ""
  },
  {
   "property": "C79",
   "status": "partial",
   "theorems": [
    "C79_p_norm_partial",
    "C79_p_norm_refuted"
   ],
   "note": "False of the code for negative cells with odd or fractional p (no absolute value is taken); proved for non-negative cells or even p."
  },
  {
   "property": "C80",
   "status": "partial",
   "theorems": [
    "C80_traits_square_partial",
    "C80_traits_transposed_refuted",
    "C80_traits_out_of_range_refuted",
    "C80_vector_traits"
   ],
   "note": "False of the code: the matrix traits exchange row and column (refuted for every non-symmetric entry and for non-square matrices).  The _partial theorem proves what they address for square matrices; the vector traits are right (C80_vector_traits)."
  },
  {
   "property": "C81",
   "status": "proved",
   "theorems": [
    "C81_dot_error",
    "C81_matrix_product_error",
    "C81_finite_means_no_overflow"
   ],
   "note": ""
  },
  {
   "property": "C82",
   "status": "partial",
   "theorems": [
    "C82_format_after",
    "C82_format_kept_partial",
    "C82_format_refuted",
    "C82_other_classes"
   ],
   "note": "False of the code unless the stream was already right-adjusted: the flags are restored with setf( flags ), which only adds bits."
  },
  {
   "property": "C83",
   "status": "proved",
   "theorems": [
    "C83_checks_only_throw_vector",
    "C83_checks_only_throw_matrix",
    "C83_checks_only_throw_quaternion_box_frustum",
    "C83_checks_only_throw_misc_num_io",
    "C83_unchecked_out_of_range_row"
   ],
   "note": ""
  },
  {
   "property": "C84",
   "status": "partial",
   "theorems": [
    "C84_transpose_in_place_refuted",
    "C84_covariance_in_place_refuted",
    "C84_inverse2_in_place_refuted",
    "C84_inverse4_separate_objects",
    "C84_inverse_in_place_ignores_first_cell",
    "C84_inverse_in_place_refuted",
    "C84_clamp_own_elements",
    "C84_threshold_own_element_refuted"
   ],
   "note": "False of the code for transpose_to, symmetric_covariance, inverse and threshold: the exact in-place results are proved and the refuted theorems say precisely when they are right; clamp with its own elements is proved harmless."
  },
  {
   "property": "C85",
   "status": "proved",
   "theorems": [
    "C85_one_rotation",
    "C85_axis_angle_laws",
    "C85_matrix_to_quaternion"
   ],
   "note": ""
  },
  {
   "property": "C86",
   "status": "proved",
   "theorems": [
    "C86_vector_accessors",
    "C86_frustum_accessors"
   ],
   "note": ""
  },
  {
   "property": "C87",
   "status": "proved",
   "theorems": [
    "C87_static_constants",
    "C87_frame"
   ],
   "note": ""
  },
  {
   "property": "C88",
   "status": "partial",
   "theorems": [
    "C88_csv_read_refuted",
    "C88_csv_write_partial"
   ],
   "note": "False of the code: read_csv_file opens the file and never reads it (the matrix is unchanged).  The _partial theorem proves the path and the contents of the written file."
  },
  {
   "property": "C89",
   "status": "partial",
   "theorems": [
    "C89_normal_refuted"
   ],
   "note": "False of the code: the cross products computed by normal() are discarded, so the four-argument form only normalises *this and the three-argument form always returns the identity, whatever the arguments."
  },
  {
   "property": "C90",
   "status": "partial",
   "theorems": [
    "C90_scale_to_symmetric_partial",
    "C90_scale_to_refuted",
    "C90_empty_range"
   ],
   "note": "False of the code: the offset is half the width of the range, not its lower end, so only ranges symmetric about zero are mapped onto [0, MAX] (_partial); the _refuted theorem gives the exact error for every other range."
  },
  {
   "property": "C91",
   "status": "proved",
   "theorems": [
    "C91_vector_nnz"
   ],
   "note": ""
  },
  {
   "property": "C92",
   "status": "proved",
   "theorems": [
    "C92_inverse_laws"
   ],
   "note": ""
  },
  {
   "property": "C93",
   "status": "proved",
   "theorems": [
    "C93_frobenius_laws",
    "C93_frobenius_orthogonal"
   ],
   "note": ""
  },
  {
   "property": "C94",
   "status": "proved",
   "theorems": [
    "C94_kronecker_laws",
    "C94_kronecker_transpose",
    "C94_kronecker_norm_identity"
   ],
   "note": ""
  },
  {
   "property": "C95",
   "status": "proved",
   "theorems": [
    "C95_qr_unique",
    "C95_qr_special_inputs"
   ],
   "note": ""
  },
  {
   "property": "C96",
   "status": "proved",
   "theorems": [
    "C96_unsigned_vectors",
    "C96_unsigned_matrices",
    "C96_signed_vectors",
    "C96_signed_matrices"
   ],
   "note": ""
  },
  {
   "property": "C97",
   "status": "proved",
   "theorems": [
    "C97_unsigned_laws",
    "C97_unsigned_determinant",
    "C97_signed_determinant"
   ],
   "note": ""
  },
  {
   "property": "C98",
   "status": "partial",
   "theorems": [
    "C98_bracket_row_check_refuted",
    "C98_bracket_partial"
   ],
   "note": "False of the code: the row proxy tests > instead of >= (matrix.hpp:401-444), so row == M is accepted and addresses the next column or memory past the end.  In-range m[row][col] is covered by C01. Proved instead (_partial): with safe accessors every row beyond M and every column out of range throws; row == M is the only miss."
  },
  {
   "property": "C99",
   "status": "partial",
   "theorems": [
    "C99_get_max_partial",
    "C99_get_max_refuted"
   ],
   "note": "False of the code for all-negative matrices: the search starts from 0 (C99_get_max_refuted: 0 is returned).  The _partial theorem proves the claim when some cell is >= 0."
  },
  {
   "property": "C100",
   "status": "partial",
   "theorems": [
    "C100_width64_refuted",
    "C100_far_outside_refuted",
    "C100_quantize_clamps_partial"
   ],
   "note": "False of the code: long( max ) is -1 for 64-bit targets, so everything is quantized to the maximum; and the conversion of a far-away scaled cell to long is undefined behaviour. Proved instead (_partial): for targets of at most 63 bits the call clamps to the range and is within half a step inside it, whenever the scaled cells plus one half fit a long."
  },
  {
   "property": "C101",
   "status": "partial",
   "theorems": [
    "C101_lossy_text_refuted",
    "C101_byte_vector_refuted",
    "C101_byte_text_partial"
   ],
   "note": "False of the code: any text form shared by two values loses one of them (default precision), and uint8_t cells are written as characters, blanks being skipped when read. Proved instead (_partial): bytes that are not blanks survive the text format."
  },
  {
   "property": "C102",
   "status": "partial",
   "theorems": [
    "C102_inverted_rows_zero_refuted",
    "C102_inverted_rows_nonzero_partial"
   ],
   "note": "False of the code when a row contains a zero. Proved instead (_partial): finite doubles with no zero cell in the left matrix are compared as rows/columns up to sign."
  },
  {
   "property": "C103",
   "status": "partial",
   "theorems": [
    "C103_equals_default_int_refuted",
    "C103_equals_nan_refuted",
    "C103_equals_int_partial"
   ],
   "note": "False of the code: the default tolerance of an integer type is 0 with a strict comparison, so no non-empty integer vector equals itself, and a NaN compares equal to everything because only 'difference >= tolerance' is tested. Proved instead (_partial): with a positive tolerance, signed vectors with representable differences and unsigned ones with u >= v componentwise compare correctly."
  },
  {
   "property": "C104",
   "status": "partial",
   "theorems": [
    "C104_setEmpty_integers_refuted",
    "C104_setEmpty_integers_partial"
   ],
   "note": "False of the code: -max() is not the smallest signed integer and is 1 for unsigned types. Proved instead (_partial): after setEmpty() the box collects points and boxes like a new one as long as no upper corner has the least value (zero for unsigned types)."
  },
  {
   "property": "C105",
   "status": "partial",
   "theorems": [
    "C105_center_integers_refuted",
    "C105_center_integers_partial"
   ],
   "note": "False of the code: 0.5f is converted to 0 and the lower corner is returned, for every box. Proved instead (_partial): the result is the midpoint rounded down exactly for boxes with edges of length at most 1."
  },
  {
   "property": "C106",
   "status": "partial",
   "theorems": [
    "C106_vector_operators_refuted"
   ],
   "note": "False of the code: operator+= adds z to y, operator- and operator* return the scalar part first; the theorem gives the exact result and exactly when it is right."
  },
  {
   "property": "C107",
   "status": "partial",
   "theorems": [
    "C107_corner_distance_refuted",
    "C107_corner_distance_partial"
   ],
   "note": "False of the code: compute_plane normalises the homogeneous 4-vector, so the stored normals are shorter than 1 and a ball strictly inside the frustum can be reported as not fully visible. Proved instead (_partial): a plane's value is the Euclidean distance times a constant factor strictly between 0 and 1."
  },
  {
   "property": "C108",
   "status": "proved",
   "theorems": [
    "C108_set_random"
   ],
   "note": ""
  },
  {
   "property": "C109",
   "status": "proved",
   "theorems": [
    "C109_frustum_construction",
    "C109_short_array"
   ],
   "note": ""
  },
  {
   "property": "C110",
   "status": "proved",
   "theorems": [
    "C110_helpers"
   ],
   "note": ""
  },
  {
   "property": "C111",
   "status": "proved",
   "theorems": [
    "C111_perspective_world_culling",
    "C111_ortho_world_culling"
   ],
   "note": ""
  },
  {
   "property": "C112",
   "status": "proved",
   "theorems": [
    "C112_calls_return_vector",
    "C112_calls_return_matrix",
    "C112_calls_return_rest"
   ],
   "note": "322 per-function lemmas collected in three theorems. For division and square root the element type must deliver a value (true of IEEE doubles, shown); sizes and index ranges are the only other hypotheses. Not covered: calls whose own definition is UB for other reasons, kept out and treated in C98, C87, C28, C100 etc."
  },
  {
   "property": "C113",
   "status": "proved",
   "theorems": [
    "C113_checked_indices",
    "C113_checked_get_sub_matrix"
   ],
   "note": "Exact: returns iff the index fits, throws otherwise. m[r][c] (C98) and get_sub_vector (assert only) are the accessors that do not check."
  },
  {
   "property": "C114",
   "status": "partial",
   "theorems": [
    "C114_set_sub_matrix_partial",
    "C114_throwing_set_sub_matrix_refuted"
   ],
   "note": "False of the code: rows written before the offending one stay written. The partial theorem gives the exact contents left behind for every offset."
  },
  {
   "property": "C115",
   "status": "proved",
   "theorems": [
    "C115_vector_bad_text",
    "C115_matrix_bad_text",
    "C115_failed_stream"
   ],
   "note": "The element at which extraction fails may change (operator>> stores 0 or a limit there); nothing is claimed about it."
  },
  {
   "property": "C116",
   "status": "proved",
   "theorems": [
    "C116_length_error",
    "C116_normalize_error"
   ],
   "note": "Proved with Flocq's binary64 semantics of the model's own vec_length / vec_normalize (round-to-nearest-even at every step), for all components in the stated range."
  },
  {
   "property": "C117",
   "status": "partial",
   "theorems": [
    "C117_normalize_every_finite_vector_refuted"
   ],
   "note": "Refuted: two concrete vectors, evaluated on the model with Flocq's binary64; C116 gives the range where normalize() does work."
  },
  {
   "property": "C118",
   "status": "proved",
   "theorems": [
    "C118_dot_commutes",
    "C118_distance_symmetric",
    "C118_sums_commute",
    "C118_product_transpose"
   ],
   "note": "All bit patterns; 'same' identifies all NaNs because the model does not fix NaN payloads."
  },
  {
   "property": "C119",
   "status": "proved",
   "theorems": [
    "C119_negated_operand",
    "C119_cross_antisymmetric",
    "C119_cross_with_itself"
   ],
   "note": "Signs of zero are ignored where the claim is 'exactly minus' (0 - 0 is +0 in both orders)."
  },
  {
   "property": "C120",
   "status": "proved",
   "theorems": [
    "C120_identity",
    "C120_infinite_cells"
   ],
   "note": "The second theorem is the exact behaviour for non-finite cells."
  },
  {
   "property": "C121",
   "status": "proved",
   "theorems": [
    "C121_length_never_nan",
    "C121_length_monotone"
   ],
   "note": "Follows the rounding of every step (Flocq binary64, round to nearest even)."
  },
  {
   "property": "C122",
   "status": "proved",
   "theorems": [
    "C122_float_dot_error",
    "C122_float_matrix_product_error",
    "C122_float_finite_means_no_overflow",
    "C122_float_length_error",
    "C122_float_dot_commutes",
    "C122_float_distance_symmetric",
    "C122_float_sums_commute",
    "C122_float_product_transpose",
    "C122_float_negated_operand",
    "C122_float_cross_antisymmetric",
    "C122_float_cross_with_itself",
    "C122_float_length_never_nan",
    "C122_float_length_monotone",
    "C122_float_identity",
    "C122_float_infinite_cells",
    "C122_float_normalize_error"
   ],
   "note": "Binary32 instance of the model (InstF32); operations on two floats are float operations (FLT_EVAL_METHOD 0)."
  },
  {
   "property": "C123",
   "status": "proved",
   "theorems": [
    "C123_reciprocal_rounds_once",
    "C123_widening_is_exact",
    "C123_normalize_as_in_float"
   ],
   "note": "Conversions modelled with Flocq's binary_normalize; innocuous double rounding from Flocq's Double_rounding."
  },
  {
   "property": "C124",
   "status": "proved",
   "theorems": [
    "C124_float_norm_error"
   ],
   "note": "Mixed float/double model of norm() (MFloat)."
  },
  {
   "property": "C125",
   "status": "proved",
   "theorems": [
    "C125_sphere_culling_in_double",
    "C125_sphere_points_in_double",
    "C125_box_culling_in_double"
   ],
   "note": "Binary64 model; per-operation error analysis (LErr), no overflow below 2^400."
  },
  {
   "property": "C126",
   "status": "proved",
   "theorems": [
    "C126_vector_text",
    "C126_matrix_text",
    "C126_frustum_text",
    "C126_quaternion_text",
    "C126_box_text",
    "C126_columns_align",
    "C126_int_field",
    "C126_printed_vector_is_not_readable",
    "C126_visibility_text",
    "C126_csv_text",
    "C126_csv_path"
   ],
   "note": "The formatting of one number is a parameter (any function of format and number), concrete for ints."
  },
  {
   "property": "C127",
   "status": "partial",
   "theorems": [
    "C127_product_error",
    "C127_length_of_product",
    "C127_identity_refuted"
   ],
   "note": "Binary64 model of the eight-multiplication product; the identity claim is false (x = 2^-60 is lost), refuted by computation."
  },
  {
   "property": "C128",
   "status": "proved",
   "theorems": [
    "C128_chain_error",
    "C128_unit_drift"
   ],
   "note": "Induction over the list of factors on top of C127."
  },
  {
   "property": "C129",
   "status": "proved",
   "theorems": [
    "C129_rotation_matrix_error"
   ],
   "note": "Binary64 model, per-operation error analysis."
  },
  {
   "property": "C130",
   "status": "proved",
   "theorems": [
    "C130_setup_planes_in_double",
    "C130_sphere_culling_end_to_end",
    "C130_box_culling_end_to_end"
   ],
   "note": "Binary64 model of setup composed with C125; exact clip faces of the matrix as reference."
  },
  {
   "property": "C131",
   "status": "partial",
   "theorems": [
    "C131_raw_read_partial_element",
    "C131_raw_roundtrip_any_size_refuted"
   ],
   "note": "Found by a surviving mutant of the len_read subtraction (r625)."
  },
  {
   "property": "C132",
   "status": "proved",
   "theorems": [
    "C132_version_order",
    "C132_version_trichotomy"
   ],
   "note": "Macro arguments are numbers (the macros do not parenthesise them)."
  },
  {
   "property": "C133",
   "status": "proved",
   "theorems": [
    "C133_iterator_loop",
    "C133_iterator_cells",
    "C133_vector_iterators",
    "C133_forwarding"
   ],
   "note": "Iterator loops as an inductive relation, proved equal to the index loops the model uses."
  },
  {
   "property": "C134",
   "status": "proved",
   "theorems": [
    "C134_vector_equals",
    "C134_matrix_equals",
    "C134_equals_itself"
   ],
   "note": "Includes differences that overflow: the comparison is then still right."
  },
  {
   "property": "C135",
   "status": "proved",
   "theorems": [
    "C135_isIn",
    "C135_scaling_keeps_points"
   ],
   "note": ""
  },
  {
   "property": "C136",
   "status": "partial",
   "theorems": [
    "C136_center_partial",
    "C136_overflow_and_nan_refuted"
   ],
   "note": "Proved for boxes whose edges do not overflow (C136_center_partial); refuted for the box of all finite points and for NaN points."
  },
  {
   "property": "C137",
   "status": "proved",
   "theorems": [
    "C137_matrices_accurate"
   ],
   "note": "The range excludes overflow in the differences and products; near4 is the relative bound with one subnormal rounding."
  },
  {
   "property": "C138",
   "status": "proved",
   "theorems": [
    "C138_distance_error",
    "C138_distance_to_itself"
   ],
   "note": ""
  },
  {
   "property": "C139",
   "status": "proved",
   "theorems": [
    "C139_cross_error"
   ],
   "note": ""
  },
  {
   "property": "C140",
   "status": "proved",
   "theorems": [
    "C140_ray_sphere_double"
   ],
   "note": "Near tangency (inside the margin) no claim is made: the exact and rounded decision may differ there."
  },
  {
   "property": "C141",
   "status": "proved",
   "theorems": [
    "C141_double_limits",
    "C141_float_limits",
    "C141_default_tolerance"
   ],
   "note": "Added after a mutant that doubled epsilon() survived."
  },
  {
   "property": "C142",
   "status": "proved",
   "theorems": [
    "C142_half_spaces_of_the_frustum",
    "C142_camera_sphere_culling",
    "C142_camera_box_culling"
   ],
   "note": "Margins are in distance units; for the side planes the factor is 1 + max(|left|,|right|)/near, for the far plane far/near."
  },
  {
   "property": "C143",
   "status": "proved",
   "theorems": [
    "C143_half_spaces_of_the_box",
    "C143_ortho_matrix_accurate",
    "C143_ortho_sphere_culling",
    "C143_ortho_box_culling"
   ],
   "note": "Covers near = 0 and near < 0, which C137 leaves out."
  },
  {
   "property": "C144",
   "status": "proved",
   "theorems": [
    "C144_set_random_double",
    "C144_set_random_float"
   ],
   "note": "int to double conversion, three double roundings and (for float) the narrowing are modelled (MFloat2)."
  },
  {
   "property": "C145",
   "status": "proved",
   "theorems": [
    "C145_float_sum_elements",
    "C145_float_frobenius_norm",
    "C145_float_convolve"
   ],
   "note": "Mixed-precision model MFloat2: float products, double sums, narrowing at the store."
  },
  {
   "property": "C146",
   "status": "proved",
   "theorems": [
    "C146_det_double",
    "C146_det_float",
    "C146_cofactors_double"
   ],
   "note": "Rounding is analysed on the expressions the code computes, obtained by running the model on symbolic cells."
  },
  {
   "property": "C147",
   "status": "proved",
   "theorems": [
    "C147_inverse_double",
    "C147_inverse_float"
   ],
   "note": "Both the accept/reject decision and the accuracy of the accepted result, in double and float."
  },
  {
   "property": "C148",
   "status": "proved",
   "theorems": [
    "C148_matrix_chain",
    "C148_vector_chain",
    "C148_growth"
   ],
   "note": "Any size and any length; finite final cells imply finite cells throughout."
  },
  {
   "property": "C149",
   "status": "proved",
   "theorems": [
    "C149_qr_backward_error",
    "C149_qr_unit_columns"
   ],
   "note": "Residual and column lengths for every shape and every condition number."
  },
  {
   "property": "C150",
   "status": "partial",
   "theorems": [
    "C150_qr_orthogonal_refuted",
    "C150_qr_orthogonality_partial"
   ],
   "note": "False: the code projects the original column (classical Gram-Schmidt) although its header says stabilized; for a 4x3 matrix with independent columns two columns of Q enclose 60 degrees. Proved instead: if |A_c| <= K R_cc for every column c <= j then |Q_k . Q_j| <= (8M + 5N^2 + 18) K (2NK)^(j-1) 2^-52 for all k < j."
  },
  {
   "property": "C151",
   "status": "proved",
   "theorems": [
    "C151_homogeneous_double",
    "C151_affine_double"
   ],
   "note": "General projective and affine matrices of any dimension."
  },
  {
   "property": "C152",
   "status": "proved",
   "theorems": [
    "C152_filter_double",
    "C152_filter_float",
    "C152_filter_vector_double",
    "C152_filter_vector_float",
    "C152_exact_blend_is_mean"
   ],
   "note": "The float factor, the double weight and the conversions of each value type are modelled (MFilter)."
  },
  {
   "property": "C153",
   "status": "proved",
   "theorems": [
    "C153_sphere_culling_in_float",
    "C153_sphere_points_in_float",
    "C153_box_culling_in_float"
   ],
   "note": "The float overload set is modelled explicitly (MCullF: wide = true for ::fabs(double))."
  },
  {
   "property": "C154",
   "status": "proved",
   "theorems": [
    "C154_setup_planes_in_float",
    "C154_sphere_culling_end_to_end",
    "C154_box_culling_end_to_end"
   ],
   "note": "1.0 / length is a double quotient rounded to float (MFloat.recip_via_double)."
  },
  {
   "property": "C155",
   "status": "proved",
   "theorems": [
    "C155_matrices_accurate"
   ],
   "note": "The double literals of frustum.hpp:276-334 make those quotients double (MViewF)."
  },
  {
   "property": "C156",
   "status": "proved",
   "theorems": [
    "C156_half_spaces_of_the_frustum",
    "C156_camera_sphere_culling",
    "C156_camera_box_culling"
   ],
   "note": "Built on C153, C154 and C155."
  },
  {
   "property": "C157",
   "status": "proved",
   "theorems": [
    "C157_half_spaces_of_the_box",
    "C157_ortho_matrix_accurate",
    "C157_ortho_sphere_culling",
    "C157_ortho_box_culling"
   ],
   "note": "Built on C153, C154 and C155."
  },
  {
   "property": "C158",
   "status": "proved",
   "theorems": [
    "C158_out_parameter_overwritten"
   ],
   "note": ""
  },
  {
   "property": "C159",
   "status": "proved",
   "theorems": [
    "C159_vector_equals",
    "C159_matrix_equals",
    "C159_equals_itself"
   ],
   "note": ""
  },
  {
   "property": "C160",
   "status": "proved",
   "theorems": [
    "C160_isIn",
    "C160_scaling_keeps_points"
   ],
   "note": ""
  },
  {
   "property": "C161",
   "status": "partial",
   "theorems": [
    "C161_center_partial",
    "C161_overflow_and_nan_refuted"
   ],
   "note": "Proved for edges that do not exceed the largest float; refuted beyond (the centre of the box of all floats is infinite and not in the box), and isIn accepts NaN points."
  },
  {
   "property": "C162",
   "status": "proved",
   "theorems": [
    "C162_operations",
    "C162_vectors",
    "C162_elementwise",
    "C162_matrix_product",
    "C162_quaternion_length",
    "C162_ray_sphere",
    "C162_quaternion_literals"
   ],
   "note": ""
  },
  {
   "property": "C163",
   "status": "partial",
   "theorems": [
    "C163_is_akin_partial",
    "C163_is_akin_refuted"
   ],
   "note": "Refuted as stated for Quaternion<double> because is_akin calls fabsf; proved up to 2^-23 relative plus 2^-149 for delta up to 2^127."
  },
  {
   "property": "C164",
   "status": "proved",
   "theorems": [
    "C164_distance_error",
    "C164_distance_to_itself"
   ],
   "note": ""
  },
  {
   "property": "C165",
   "status": "proved",
   "theorems": [
    "C165_cross_error"
   ],
   "note": ""
  },
  {
   "property": "C166",
   "status": "proved",
   "theorems": [
    "C166_ray_sphere_float"
   ],
   "note": ""
  },
  {
   "property": "C167",
   "status": "proved",
   "theorems": [
    "C167_product_error",
    "C167_length_of_product",
    "C167_identity_loses_small_components"
   ],
   "note": ""
  },
  {
   "property": "C168",
   "status": "proved",
   "theorems": [
    "C168_chain_error",
    "C168_unit_drift"
   ],
   "note": ""
  },
  {
   "property": "C169",
   "status": "proved",
   "theorems": [
    "C169_rotation_matrix_error"
   ],
   "note": ""
  },
  {
   "property": "C170",
   "status": "proved",
   "theorems": [
    "C170_matrix_chain",
    "C170_vector_chain",
    "C170_growth"
   ],
   "note": ""
  },
  {
   "property": "C171",
   "status": "proved",
   "theorems": [
    "C171_qr_backward_error",
    "C171_qr_unit_columns",
    "C171_columns_may_not_be_orthogonal",
    "C171_qr_orthogonality"
   ],
   "note": ""
  },
  {
   "property": "C172",
   "status": "proved",
   "theorems": [
    "C172_homogeneous_float",
    "C172_affine_float"
   ],
   "note": ""
  },
  {
   "property": "C173",
   "status": "proved",
   "theorems": [
    "C173_rotate"
   ],
   "note": ""
  },
  {
   "property": "C174",
   "status": "proved",
   "theorems": [
    "C174_rotation_chain",
    "C174_no_overflow",
    "C174_orthonormal"
   ],
   "note": ""
  },
  {
   "property": "C175",
   "status": "proved",
   "theorems": [
    "C175_rotate"
   ],
   "note": ""
  },
  {
   "property": "C176",
   "status": "proved",
   "theorems": [
    "C176_rotation_chain",
    "C176_no_overflow",
    "C176_orthonormal"
   ],
   "note": ""
  },
  {
   "property": "C177",
   "status": "proved",
   "theorems": [
    "C177_normalize",
    "C177_inverse",
    "C177_inverse_product"
   ],
   "note": ""
  },
  {
   "property": "C178",
   "status": "proved",
   "theorems": [
    "C178_normalize",
    "C178_inverse",
    "C178_inverse_product"
   ],
   "note": ""
  },
  {
   "property": "C179",
   "status": "proved",
   "theorems": [
    "C179_from_rotation_matrix",
    "C179_half_turns",
    "C179_round_trip"
   ],
   "note": ""
  },
  {
   "property": "C180",
   "status": "proved",
   "theorems": [
    "C180_from_rotation_matrix",
    "C180_half_turns",
    "C180_round_trip"
   ],
   "note": ""
  },
  {
   "property": "C181",
   "status": "proved",
   "theorems": [
    "C181_find_min_max",
    "C181_matrix_extrema",
    "C181_clamp"
   ],
   "note": ""
  },
  {
   "property": "C182",
   "status": "proved",
   "theorems": [
    "C182_merge_history",
    "C182_merge_point"
   ],
   "note": ""
  },
  {
   "property": "C183",
   "status": "proved",
   "theorems": [
    "C183_find_min_max",
    "C183_matrix_extrema",
    "C183_clamp"
   ],
   "note": ""
  },
  {
   "property": "C184",
   "status": "proved",
   "theorems": [
    "C184_merge_history",
    "C184_merge_point"
   ],
   "note": ""
  },
  {
   "property": "C185",
   "status": "proved",
   "theorems": [
    "C185_reciprocal",
    "C185_reciprocal_twice",
    "C185_sqrt"
   ],
   "note": ""
  },
  {
   "property": "C186",
   "status": "proved",
   "theorems": [
    "C186_reciprocal",
    "C186_reciprocal_twice",
    "C186_sqrt"
   ],
   "note": ""
  },
  {
   "property": "C187",
   "status": "proved",
   "theorems": [
    "C187_compute_normal_error"
   ],
   "note": ""
  },
  {
   "property": "C188",
   "status": "partial",
   "theorems": [
    "C188_coincident_vertices",
    "C188_collinear_vertices_refuted"
   ],
   "note": "The claim that every triangle of zero area gives the null vector, as over the reals (C40), is false in floating point; proved for coincident vertices, refuted for collinear ones by a concrete triangle."
  },
  {
   "property": "C189",
   "status": "proved",
   "theorems": [
    "C189_compute_normal_error"
   ],
   "note": ""
  },
  {
   "property": "C190",
   "status": "partial",
   "theorems": [
    "C190_coincident_vertices",
    "C190_collinear_vertices_refuted"
   ],
   "note": "The claim that every triangle of zero area gives the null vector, as over the reals (C40), is false in floating point; proved for coincident vertices, refuted for collinear ones by a concrete triangle."
  },
  {
   "property": "C191",
   "status": "proved",
   "theorems": [
    "C191_vec_rotate"
   ],
   "note": ""
  },
  {
   "property": "C192",
   "status": "proved",
   "theorems": [
    "C192_float_vec_rotate"
   ],
   "note": ""
  },
  {
   "property": "C193",
   "status": "proved",
   "theorems": [
    "C193_distance_to_plane",
    "C193_project_onto_plane"
   ],
   "note": ""
  },
  {
   "property": "C194",
   "status": "proved",
   "theorems": [
    "C194_distance_to_sphere",
    "C194_project_onto_sphere",
    "C194_project_centre"
   ],
   "note": ""
  },
  {
   "property": "C195",
   "status": "proved",
   "theorems": [
    "C195_distance_to_plane",
    "C195_project_onto_plane"
   ],
   "note": ""
  },
  {
   "property": "C196",
   "status": "proved",
   "theorems": [
    "C196_distance_to_sphere",
    "C196_project_onto_sphere",
    "C196_project_centre"
   ],
   "note": ""
  },
  {
   "property": "C197",
   "status": "partial",
   "theorems": [
    "C197_unsigned_roundtrip",
    "C197_order",
    "C197_quantize",
    "C197_point_range_refuted",
    "C197_constant_refuted"
   ],
   "note": "Round trip, order and range are proved; C197_constant_refuted and C197_point_range_refuted show the degenerate range (constant matrix) is undefined behaviour."
  },
  {
   "property": "C198",
   "status": "proved",
   "theorems": [
    "C198_signed_roundtrip"
   ],
   "note": ""
  },
  {
   "property": "C199",
   "status": "partial",
   "theorems": [
    "C199_unsigned_roundtrip",
    "C199_order",
    "C199_quantize",
    "C199_point_range_refuted",
    "C199_constant_refuted"
   ],
   "note": "Round trip, order and range are proved; C199_constant_refuted and C199_point_range_refuted show the degenerate range (constant matrix) is undefined behaviour."
  },
  {
   "property": "C200",
   "status": "proved",
   "theorems": [
    "C200_signed_roundtrip"
   ],
   "note": ""
  },
  {
   "property": "C201",
   "status": "proved",
   "theorems": [
    "C201_adjust_near_history",
    "C201_same_near"
   ],
   "note": ""
  },
  {
   "property": "C202",
   "status": "proved",
   "theorems": [
    "C202_set_perspective"
   ],
   "note": ""
  },
  {
   "property": "C203",
   "status": "proved",
   "theorems": [
    "C203_adjust_near_history",
    "C203_same_near"
   ],
   "note": ""
  },
  {
   "property": "C204",
   "status": "proved",
   "theorems": [
    "C204_set_perspective"
   ],
   "note": ""
  },
  {
   "property": "C205",
   "status": "proved",
   "theorems": [
    "C205_slerp"
   ],
   "note": ""
  },
  {
   "property": "C206",
   "status": "proved",
   "theorems": [
    "C206_slerp"
   ],
   "note": ""
  },
  {
   "property": "C207",
   "status": "proved",
   "theorems": [
    "C207_compute_plane_error",
    "C207_culler_planes"
   ],
   "note": ""
  },
  {
   "property": "C208",
   "status": "proved",
   "theorems": [
    "C208_compute_plane_error",
    "C208_culler_planes"
   ],
   "note": ""
  },
  {
   "property": "C209",
   "status": "proved",
   "theorems": [
    "C209_sum_elements",
    "C209_columnwise_sum",
    "C209_norms",
    "C209_product",
    "C209_convolve"
   ],
   "note": ""
  },
  {
   "property": "C210",
   "status": "proved",
   "theorems": [
    "C210_columnwise_sum",
    "C210_product"
   ],
   "note": ""
  },
  {
   "property": "C211",
   "status": "proved",
   "theorems": [
    "C211_set_dct",
    "C211_set_dct_float"
   ],
   "note": ""
  },
  {
   "property": "C212",
   "status": "proved",
   "theorems": [
    "C212_perspective_sphere_culling",
    "C212_perspective_box_culling"
   ],
   "note": ""
  },
  {
   "property": "C213",
   "status": "proved",
   "theorems": [
    "C213_perspective_sphere_culling",
    "C213_perspective_box_culling"
   ],
   "note": ""
  },
  {
   "property": "C214",
   "status": "proved",
   "theorems": [
    "C214_rotations_from_both_sides",
    "C214_orthonormal"
   ],
   "note": ""
  },
  {
   "property": "C215",
   "status": "proved",
   "theorems": [
    "C215_rotations_from_both_sides",
    "C215_orthonormal"
   ],
   "note": ""
  },
  {
   "property": "C216",
   "status": "proved",
   "theorems": [
    "C216_corner_sphere_culling",
    "C216_corner_box_culling"
   ],
   "note": ""
  },
  {
   "property": "C217",
   "status": "proved",
   "theorems": [
    "C217_corner_sphere_culling",
    "C217_corner_box_culling"
   ],
   "note": ""
  },
  {
   "property": "C218",
   "status": "proved",
   "theorems": [
    "C218_world_sphere_culling",
    "C218_world_box_culling"
   ],
   "note": ""
  },
  {
   "property": "C219",
   "status": "proved",
   "theorems": [
    "C219_world_sphere_culling",
    "C219_world_box_culling"
   ],
   "note": ""
  },
  {
   "property": "C220",
   "status": "proved",
   "theorems": [
    "C220_transformation_histories"
   ],
   "note": ""
  },
  {
   "property": "C221",
   "status": "proved",
   "theorems": [
    "C221_transformation_histories"
   ],
   "note": ""
  },
  {
   "property": "C222",
   "status": "proved",
   "theorems": [
    "C222_eye_sphere_culling",
    "C222_eye_box_culling"
   ],
   "note": ""
  },
  {
   "property": "C223",
   "status": "proved",
   "theorems": [
    "C223_eye_sphere_culling",
    "C223_eye_box_culling"
   ],
   "note": ""
  },
  {
   "property": "C224",
   "status": "proved",
   "theorems": [
    "C224_screen_position"
   ],
   "note": ""
  },
  {
   "property": "C225",
   "status": "proved",
   "theorems": [
    "C225_screen_position"
   ],
   "note": ""
  },
  {
   "property": "C226",
   "status": "proved",
   "theorems": [
    "C226_undo_history"
   ],
   "note": ""
  },
  {
   "property": "C227",
   "status": "proved",
   "theorems": [
    "C227_undo_history"
   ],
   "note": ""
  },
  {
   "property": "C228",
   "status": "proved",
   "theorems": [
    "C228_last_row_kept"
   ],
   "note": ""
  },
  {
   "property": "C229",
   "status": "proved",
   "theorems": [
    "C229_last_row_kept"
   ],
   "note": ""
  },
  {
   "property": "C230",
   "status": "proved",
   "theorems": [
    "C230_no_division"
   ],
   "note": ""
  },
  {
   "property": "C231",
   "status": "proved",
   "theorems": [
    "C231_no_division"
   ],
   "note": ""
  },
  {
   "property": "C232",
   "status": "proved",
   "theorems": [
    "C232_moved_points"
   ],
   "note": ""
  },
  {
   "property": "C233",
   "status": "proved",
   "theorems": [
    "C233_moved_points"
   ],
   "note": ""
  },
  {
   "property": "C234",
   "status": "proved",
   "theorems": [
    "C234_distances_kept"
   ],
   "note": ""
  },
  {
   "property": "C235",
   "status": "proved",
   "theorems": [
    "C235_distances_kept"
   ],
   "note": ""
  },
  {
   "property": "C236",
   "status": "proved",
   "theorems": [
    "C236_box_of_moved_points"
   ],
   "note": ""
  },
  {
   "property": "C237",
   "status": "proved",
   "theorems": [
    "C237_box_of_moved_points"
   ],
   "note": ""
  }
 ]
}