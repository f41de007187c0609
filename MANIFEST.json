{
 "claims": [
  {
   "property": "C01",
   "status": "proved",
   "theorems": [
    "C01_vector_module_laws",
    "C01_vector_componentwise"
   ],
   "note": ""
  },
  {
   "property": "C02",
   "status": "proved",
   "theorems": [
    "C02_matrix_in_place",
    "C02_matrix_normalize_mut",
    "C02_vector_in_place",
    "C02_vector_normalize_mut"
   ],
   "note": ""
  },
  {
   "property": "C03",
   "status": "proved",
   "theorems": [
    "C03_dot_bilinear_symmetric",
    "C03_dot_positive_definite",
    "C03_cauchy_schwarz"
   ],
   "note": ""
  },
  {
   "property": "C04",
   "status": "proved",
   "theorems": [
    "C04_triple_product_determinant",
    "C04_cross_product_laws",
    "C04_triple_product"
   ],
   "note": ""
  },
  {
   "property": "C05",
   "status": "proved",
   "theorems": [
    "C05_point_homogeneous",
    "C05_point_from_homogeneous_value",
    "C05_point_extend_contract",
    "C05_vector_homogeneous",
    "C05_extend_contract"
   ],
   "note": ""
  },
  {
   "property": "C06",
   "status": "proved",
   "theorems": [
    "C06_matrix_lerp",
    "C06_matrix_lerp_between",
    "C06_vector_lerp",
    "C06_vector_lerp_between"
   ],
   "note": ""
  },
  {
   "property": "C07",
   "status": "proved",
   "theorems": [
    "C07_point_distance",
    "C07_norm_axioms",
    "C07_distance_axioms"
   ],
   "note": ""
  },
  {
   "property": "C08",
   "status": "proved",
   "theorems": [
    "C08_l1_norm_axioms",
    "C08_linf_norm_axioms",
    "C08_norm_values",
    "C08_norms_ordered",
    "C08_metric_distances"
   ],
   "note": ""
  },
  {
   "property": "C09",
   "status": "partial",
   "theorems": [
    "C09_lp_norm_partial",
    "C09_lp_norm_1_2",
    "C09_lp_norm_refuted"
   ],
   "note": "Proved for 1 <= p < 2^31 (C09_lp_norm_partial, C09_lp_norm_1_2). REFUTED for larger u32 values by C09_lp_norm_refuted: `p as i32` wraps to a negative exponent."
  },
  {
   "property": "C10",
   "status": "proved",
   "theorems": [
    "C10_complex_normalize",
    "C10_quaternion_normalize",
    "C10_normalize",
    "C10_try_normalize"
   ],
   "note": ""
  },
  {
   "property": "C11",
   "status": "proved",
   "theorems": [
    "C11_project",
    "C11_reflect"
   ],
   "note": ""
  },
  {
   "property": "C12",
   "status": "proved",
   "theorems": [
    "C12_complex_try_cast",
    "C12_matrix_try_cast",
    "C12_quaternion_try_cast",
    "C12_vector_try_cast"
   ],
   "note": ""
  },
  {
   "property": "C13",
   "status": "proved",
   "theorems": [
    "C13_matrix_map",
    "C13_map",
    "C13_component_mul",
    "C13_component_min_max"
   ],
   "note": ""
  },
  {
   "property": "C14",
   "status": "proved",
   "theorems": [
    "C14_matrix_is_zero",
    "C14_matrix_is_identity",
    "C14_matrix_is_diagonal_is_symmetric",
    "C14_vector_is_zero"
   ],
   "note": ""
  },
  {
   "property": "C15",
   "status": "proved",
   "theorems": [
    "C15_point_affine_laws",
    "C15_point_in_place"
   ],
   "note": ""
  },
  {
   "property": "C16",
   "status": "proved",
   "theorems": [
    "C16_matrix_additive_laws",
    "C16_matrix_multiplicative_laws",
    "C16_matrix_entries"
   ],
   "note": ""
  },
  {
   "property": "C17",
   "status": "proved",
   "theorems": [
    "C17_transpose",
    "C17_transpose_mut",
    "C17_transpose_adjoint"
   ],
   "note": ""
  },
  {
   "property": "C18",
   "status": "proved",
   "theorems": [
    "C18_fused_products",
    "C18_component_mul"
   ],
   "note": ""
  },
  {
   "property": "C19",
   "status": "proved",
   "theorems": [
    "C19_layout",
    "C19_from_rows_is_transposed_from_columns",
    "C19_out_of_range_panics"
   ],
   "note": ""
  },
  {
   "property": "C20",
   "status": "proved",
   "theorems": [
    "C20_swap_rows",
    "C20_swap_columns",
    "C20_swap_elements"
   ],
   "note": ""
  },
  {
   "property": "C21",
   "status": "proved",
   "theorems": [
    "C21_determinant_laplace",
    "C21_determinant_multiplicative",
    "C21_determinant_transpose_identity_scale",
    "C21_determinant_alternating",
    "C21_determinant_column_linear"
   ],
   "note": ""
  },
  {
   "property": "C22",
   "status": "proved",
   "theorems": [
    "C22_inverse_none_iff_singular",
    "C22_inverse_two_sided",
    "C22_inverse_complete",
    "C22_inverse_of_product"
   ],
   "note": ""
  },
  {
   "property": "C23",
   "status": "proved",
   "theorems": [
    "C23_trace",
    "C23_trace_identity_real"
   ],
   "note": ""
  },
  {
   "property": "C24",
   "status": "partial",
   "theorems": [
    "C24_diagonal_refuted",
    "C24_diagonal_partial"
   ],
   "note": "REFUTED by C24_diagonal_refuted: `diagonal` has result type Vector4 for every N; it panics for N > 4 and pads with zeros for N < 4. C24_diagonal_partial states what does hold for every N."
  },
  {
   "property": "C25",
   "status": "proved",
   "theorems": [
    "C25_embedding",
    "C25_embedding_determinant"
   ],
   "note": ""
  },
  {
   "property": "C26",
   "status": "proved",
   "theorems": [
    "C26_matrix_norm_axioms",
    "C26_matrix_norms_submultiplicative",
    "C26_matrix_norms_are",
    "C26_matrix_metric"
   ],
   "note": ""
  },
  {
   "property": "C27",
   "status": "proved",
   "theorems": [
    "C27_scale_translation_action",
    "C27_scale_translation_composition"
   ],
   "note": ""
  },
  {
   "property": "C28",
   "status": "proved",
   "theorems": [
    "C28_coordinate_shears_2d",
    "C28_coordinate_shears_3d",
    "C28_coordinate_shears_determinant",
    "C28_coordinate_shears_compose",
    "C28_general_shear_action",
    "C28_general_shear_laws"
   ],
   "note": ""
  },
  {
   "property": "C29",
   "status": "proved",
   "theorems": [
    "C29_reflection_action",
    "C29_reflection_involution_determinant",
    "C29_reflection_isometry",
    "C29_affine_reflection_fixes_mirror"
   ],
   "note": ""
  },
  {
   "property": "C30",
   "status": "proved",
   "theorems": [
    "C30_ring_laws",
    "C30_division_inverts_multiplication",
    "C30_division_real",
    "C30_conjugation_and_modulus",
    "C30_modulus_real"
   ],
   "note": ""
  },
  {
   "property": "C31",
   "status": "proved",
   "theorems": [
    "C31_mul_assign",
    "C31_div_assign"
   ],
   "note": ""
  },
  {
   "property": "C32",
   "status": "partial",
   "theorems": [
    "C32_scalar_complex_partial",
    "C32_scalar_sub_refuted"
   ],
   "note": "REFUTED by C32_scalar_sub_refuted: scalar - Complex keeps the sign of the imaginary part (complex.rs 2896). C32_scalar_complex_partial proves the other operators and gives the exact value of scalar - Complex (the conjugate of the right answer)."
  },
  {
   "property": "C33",
   "status": "proved",
   "theorems": [
    "C33_powu"
   ],
   "note": ""
  },
  {
   "property": "C34",
   "status": "partial",
   "theorems": [
    "C34_powi_partial",
    "C34_powi_negative_refuted"
   ],
   "note": "REFUTED by C34_powi_negative_refuted: 2^-3 gives 1/2. C34_powi_partial proves n >= 0 completely and gives the exact result for every negative exponent -(2^k m), m odd: the odd part m is ignored."
  },
  {
   "property": "C35",
   "status": "proved",
   "theorems": [
    "C35_exponential",
    "C35_logarithm",
    "C35_polar",
    "C35_powers"
   ],
   "note": ""
  },
  {
   "property": "C36",
   "status": "proved",
   "theorems": [
    "C36_roots"
   ],
   "note": ""
  },
  {
   "property": "C37",
   "status": "proved",
   "theorems": [
    "C37_exponential_definitions",
    "C37_pythagoras",
    "C37_tangents",
    "C37_inverse_functions",
    "C37_inverse_tangents"
   ],
   "note": ""
  },
  {
   "property": "C38",
   "status": "partial",
   "theorems": [
    "C38_try_inverse",
    "C38_is_invertible_partial",
    "C38_is_invertible_refuted"
   ],
   "note": "try_inverse proved. The is_invertible equivalence is REFUTED by C38_is_invertible_refuted for every positive threshold; C38_is_invertible_partial proves the direction that holds."
  },
  {
   "property": "C39",
   "status": "proved",
   "theorems": [
    "C39_hamilton_product",
    "C39_algebra",
    "C39_units",
    "C39_conjugate_norm",
    "C39_assign_ops",
    "C39_commute_iff",
    "C39_norm"
   ],
   "note": ""
  },
  {
   "property": "C40",
   "status": "proved",
   "theorems": [
    "C40_inverse",
    "C40_division",
    "C40_inverse_product"
   ],
   "note": ""
  },
  {
   "property": "C41",
   "status": "partial",
   "theorems": [
    "C41_is_invertible_partial",
    "C41_is_invertible_refuted"
   ],
   "note": "REFUTED by C41_is_invertible_refuted: at |q| = eps is_invertible_eps says true and try_inverse_eps gives None (inverse panics), for every eps >= 0, including the zero quaternion at eps = 0. C41_is_invertible_partial proves that this sphere is the only disagreement."
  },
  {
   "property": "C42",
   "status": "proved",
   "theorems": [
    "C42_to_matrix_action",
    "C42_to_matrix_rotation",
    "C42_to_matrix_variants",
    "C42_double_cover"
   ],
   "note": ""
  },
  {
   "property": "C43",
   "status": "proved",
   "theorems": [
    "C43_from_matrix",
    "C43_from_to_matrix",
    "C43_euler_of_quaternion",
    "C43_rotation3_quaternion"
   ],
   "note": ""
  },
  {
   "property": "C44",
   "status": "proved",
   "theorems": [
    "C44_axis_angle",
    "C44_elementary"
   ],
   "note": ""
  },
  {
   "property": "C45",
   "status": "partial",
   "theorems": [
    "C45_exp_norm",
    "C45_exp_ln_partial",
    "C45_exp_ln_refuted",
    "C45_ln_exp",
    "C45_powers"
   ],
   "note": "REFUTED by C45_exp_ln_refuted: ln drops the sign of negative reals, so exp(ln(-x)) = x. C45_exp_ln_partial proves exp(ln q) = q and powf(1) = q for every quaternion off the negative real axis; exp norm laws, ln(exp q) and power laws are proved without restriction to examples."
  },
  {
   "property": "C46",
   "status": "proved",
   "theorems": [
    "C46_sqrt",
    "C46_sqrt_threshold"
   ],
   "note": ""
  },
  {
   "property": "C47",
   "status": "partial",
   "theorems": [
    "C47_slerp_partial",
    "C47_slerp_speed",
    "C47_slerp_start_refuted",
    "C47_nlerp"
   ],
   "note": "slerp(q1,q2,0) = q1 is REFUTED by C47_slerp_start_refuted: for negative dot product slerp negates q1, so the result at 0 is -q1 (same rotation). Everything else is proved: unit results, exact end, constant speed along the shorter arc, nlerp."
  },
  {
   "property": "C48",
   "status": "partial",
   "theorems": [
    "C48_polar_partial",
    "C48_polar_refuted",
    "C48_from_polar",
    "C48_polar_real"
   ],
   "note": "REFUTED by C48_polar_refuted for every quaternion with non-zero vector part: polar_decomposition returns the half angle that from_polar_decomposition halves again. C48_polar_partial gives the exact value of the decomposition and how it relates to q."
  },
  {
   "property": "C49",
   "status": "proved",
   "theorems": [
    "C49_inner_outer",
    "C49_project_reject"
   ],
   "note": ""
  },
  {
   "property": "C50",
   "status": "proved",
   "theorems": [
    "C50_slice",
    "C50_slice_all",
    "C50_identities",
    "C50_real"
   ],
   "note": ""
  },
  {
   "property": "C51",
   "status": "proved",
   "theorems": [
    "C51_quaternion_rotation_between_axis",
    "C51_quaternion_rotation_between",
    "C51_quaternion_rotation_between_exact",
    "C51_matrix_rotation_between_axis",
    "C51_matrix_rotation_between",
    "C51_matrix_rotation_between_exact"
   ],
   "note": ""
  },
  {
   "property": "C52",
   "status": "partial",
   "theorems": [
    "C52_rotation_between_2d_partial",
    "C52_rotation_between_2d_refuted"
   ],
   "note": "REFUTED by C52_rotation_between_2d_refuted: Matrix2x2::rotation_between_axis always turns counter-clockwise (acos of the dot product). C52_rotation_between_2d_partial characterises exactly when it is right."
  },
  {
   "property": "C53",
   "status": "proved",
   "theorems": [
    "C53_rotation2_between_axis",
    "C53_rotation2_between",
    "C53_rotation3_between"
   ],
   "note": ""
  },
  {
   "property": "C54",
   "status": "proved",
   "theorems": [
    "C54_normalize",
    "C54_normalize_signed",
    "C54_units"
   ],
   "note": ""
  },
  {
   "property": "C55",
   "status": "proved",
   "theorems": [
    "C55_opposite",
    "C55_bisect"
   ],
   "note": ""
  },
  {
   "property": "C56",
   "status": "proved",
   "theorems": [
    "C56_conversions",
    "C56_trigonometry_independent_of_unit",
    "C56_trigonometric_identities",
    "C56_normalization_commutes",
    "C56_turn_fractions"
   ],
   "note": ""
  },
  {
   "property": "C57",
   "status": "proved",
   "theorems": [
    "C57_rotation_2d",
    "C57_rotation_2d_complete"
   ],
   "note": ""
  },
  {
   "property": "C58",
   "status": "proved",
   "theorems": [
    "C58_rotation_3d",
    "C58_rotation_3d_elementary",
    "C58_rotation_isometry"
   ],
   "note": ""
  },
  {
   "property": "C59",
   "status": "proved",
   "theorems": [
    "C59_euler_to_matrix"
   ],
   "note": ""
  },
  {
   "property": "C60",
   "status": "proved",
   "theorems": [
    "C60_euler_extraction",
    "C60_euler_roundtrip",
    "C60_euler_range",
    "C60_rotation3_euler"
   ],
   "note": ""
  },
  {
   "property": "C61",
   "status": "proved",
   "theorems": [
    "C61_quaternion_look",
    "C61_look_to_lh",
    "C61_look_to_rh",
    "C61_look_at_3x3",
    "C61_look_4x4",
    "C61_look_at_4x4"
   ],
   "note": ""
  },
  {
   "property": "C62",
   "status": "partial",
   "theorems": [
    "C62_look_inv_partial",
    "C62_look_inv_refuted"
   ],
   "note": "REFUTED by C62_look_inv_refuted: the translation column of the _inv matrices is wrong. C62_look_inv_partial proves what they compute and when they are inverses."
  },
  {
   "property": "C63",
   "status": "partial",
   "theorems": [
    "C63_look_isometry",
    "C63_look_inverse_partial",
    "C63_look_inverse_refuted"
   ],
   "note": "REFUTED by C63_look_inverse_refuted: Isometry3/Similarity3 look_*_inv use the translation -R^T eye instead of eye. C63_look_inverse_partial proves what they compute and exactly when they are inverses; C63_look_isometry proves the forward versions completely."
  },
  {
   "property": "C64",
   "status": "proved",
   "theorems": [
    "C64_translations",
    "C64_translation_matrix"
   ],
   "note": ""
  },
  {
   "property": "C65",
   "status": "proved",
   "theorems": [
    "C65_scales",
    "C65_scale_inverse"
   ],
   "note": ""
  },
  {
   "property": "C66",
   "status": "proved",
   "theorems": [
    "C66_reflections",
    "C66_reflection_distance",
    "C66_reflection_matrix"
   ],
   "note": ""
  },
  {
   "property": "C67",
   "status": "proved",
   "theorems": [
    "C67_shears",
    "C67_shear_identity",
    "C67_shear_inverse_iff",
    "C67_shear_constructors"
   ],
   "note": ""
  },
  {
   "property": "C68",
   "status": "partial",
   "theorems": [
    "C68_shear_matrix_partial",
    "C68_shear_vector_refuted"
   ],
   "note": "Points proved. Vectors REFUTED by C68_shear_vector_refuted: apply_vector subtracts the shear origin, so even the zero vector moves. C68_shear_matrix_partial proves that vectors agree exactly when factor * (origin . normal) = 0."
  },
  {
   "property": "C69",
   "status": "proved",
   "theorems": [
    "C69_rotations",
    "C69_rotation_constructors"
   ],
   "note": ""
  },
  {
   "property": "C70",
   "status": "proved",
   "theorems": [
    "C70_rotation2_angle",
    "C70_rotation3_euler_theorem",
    "C70_rotation3_angle",
    "C70_rotation3_axis",
    "C70_rotation3_axis_angle_roundtrip"
   ],
   "note": ""
  },
  {
   "property": "C71",
   "status": "proved",
   "theorems": [
    "C71_isometry_composition",
    "C71_isometry_group"
   ],
   "note": ""
  },
  {
   "property": "C72",
   "status": "proved",
   "theorems": [
    "C72_mixed_products",
    "C72_mixed_products_on_points"
   ],
   "note": ""
  },
  {
   "property": "C73",
   "status": "partial",
   "theorems": [
    "C73_isometry_approx_eq_partial",
    "C73_isometry_approx_eq_refuted"
   ],
   "note": "REFUTED by C73_isometry_approx_eq_refuted: Isometry abs_diff_all_eq ignores the translation. C73_isometry_approx_eq_partial proves the exact meaning of all four comparisons."
  },
  {
   "property": "C74",
   "status": "proved",
   "theorems": [
    "C74_similarity_composition",
    "C74_similarity_inverse"
   ],
   "note": ""
  },
  {
   "property": "C75",
   "status": "partial",
   "theorems": [
    "C75_transform_points",
    "C75_transform_inverse_points",
    "C75_transform_vectors_partial",
    "C75_transform_vectors_refuted"
   ],
   "note": "Points and inverses on points proved completely. Vectors REFUTED for projective matrices by C75_transform_vectors_refuted (the weight is dropped); C75_transform_vectors_partial proves them when the weight stays zero, in particular for affine matrices."
  },
  {
   "property": "C76",
   "status": "proved",
   "theorems": [
    "C76_affine_matrices",
    "C76_representation",
    "C76_products",
    "C76_transforms"
   ],
   "note": ""
  },
  {
   "property": "C77",
   "status": "proved",
   "theorems": [
    "C77_perspective_frustum",
    "C77_perspective_bijection",
    "C77_perspective_corners",
    "C77_perspective_depth"
   ],
   "note": ""
  },
  {
   "property": "C78",
   "status": "partial",
   "theorems": [
    "C78_perspective_params_partial",
    "C78_perspective_params_refuted"
   ],
   "note": "near, far and aspect_ratio proved for every non-degenerate frustum over any field; right/left proved for left <> 0 and top/bottom for bottom <> 0 (C78_perspective_params_partial). REFUTED for left = 0 / bottom = 0 by C78_perspective_params_refuted: in binary64 right() and top() are NaN (ratio = right/left = infinity)."
  },
  {
   "property": "C79",
   "status": "partial",
   "theorems": [
    "C79_project_point_partial",
    "C79_project_point_refuted"
   ],
   "note": "REFUTED by C79_project_point_refuted: project_point uses entry c3r1 (always 0) instead of c2r1. C79_project_point_partial gives the exact error, proves agreement exactly when top = bottom, and proves project_vector and to_transform correct."
  },
  {
   "property": "C80",
   "status": "partial",
   "theorems": [
    "C80_unproject_partial",
    "C80_unproject_refuted"
   ],
   "note": "REFUTED by C80_unproject_refuted for top <> bottom (consequence of C79). C80_unproject_partial proves that unproject inverts the matrix projection on both sides, inverts project_vector always, and project_point when top = bottom."
  },
  {
   "property": "C81",
   "status": "partial",
   "theorems": [
    "C81_vfov_partial",
    "C81_from_vfov_partial",
    "C81_from_vfov_refuted"
   ],
   "note": "REFUTED by C81_from_vfov_refuted: fields of view above a right angle read back as vfov - PI. C81_vfov_partial and C81_from_vfov_partial give the exact result for every frustum and every 0 < vfov < PI."
  },
  {
   "property": "C82",
   "status": "proved",
   "theorems": [
    "C82_perspective_vfov"
   ],
   "note": ""
  },
  {
   "property": "C83",
   "status": "proved",
   "theorems": [
    "C83_orthographic"
   ],
   "note": ""
  },
  {
   "property": "C84",
   "status": "partial",
   "theorems": [
    "C84_orthographic_params_partial",
    "C84_orthographic_params_refuted"
   ],
   "note": "REFUTED by C84_orthographic_params_refuted: in binary64 far, right, top are NaN when near, left, bottom are 0. C84_orthographic_params_partial proves the getters for non-zero near, left, bottom."
  },
  {
   "property": "C85",
   "status": "partial",
   "theorems": [
    "C85_orthographic_unproject_partial",
    "C85_orthographic_unproject_refuted"
   ],
   "note": "REFUTED by C85_orthographic_unproject_refuted for near = 0 (NaN in binary64). C85_orthographic_unproject_partial proves both inverses for non-zero near, left, bottom."
  },
  {
   "property": "C86",
   "status": "proved",
   "theorems": [
    "C86_unit_vector",
    "C86_unit_complex",
    "C86_unit_quaternion"
   ],
   "note": ""
  },
  {
   "property": "C87",
   "status": "partial",
   "theorems": [
    "C87_float_clamp",
    "C87_int_clamp",
    "C87_int_copysign_partial",
    "C87_int_copysign_refuted"
   ],
   "note": "Clamp proved. Integer copysign proved for every value except the minimum (C87_int_copysign_partial); REFUTED there by C87_int_copysign_refuted: abs overflows although the result is representable."
  },
  {
   "property": "C88",
   "status": "proved",
   "theorems": [
    "C88_commutative_scalars",
    "C88_float_scalars",
    "C88_float_vectors",
    "C88_float_matrices",
    "C88_identity_is_exact",
    "C88_boundary"
   ],
   "note": ""
  },
  {
   "property": "C89",
   "status": "proved",
   "theorems": [
    "C89_scalar_ring",
    "C89_vector_laws",
    "C89_matrix_laws",
    "C89_determinant_quaternion_laws",
    "C89_reduction",
    "C89_exact_when_it_fits"
   ],
   "note": ""
  },
  {
   "property": "C90",
   "status": "proved",
   "theorems": [
    "C90_complex_comparison_componentwise",
    "C90_matrix_comparison_entrywise",
    "C90_vector_abs_diff",
    "C90_matrix_abs_diff",
    "C90_quaternion_approx",
    "C90_vector_comparison_componentwise"
   ],
   "note": ""
  },
  {
   "property": "C91",
   "status": "proved",
   "theorems": [
    "C91_swizzles_return_spelled_components",
    "C91_swizzles_complete"
   ],
   "note": ""
  },
  {
   "property": "C92",
   "status": "proved",
   "theorems": [
    "C92_cross_matrix"
   ],
   "note": ""
  },
  {
   "property": "C93",
   "status": "partial",
   "theorems": [
    "C93_is_invertible_refuted",
    "C93_is_invertible_partial"
   ],
   "note": "REFUTED by C93_is_invertible_refuted: a matrix with a tiny non-zero determinant is reported singular although try_inverse inverts it. C93_is_invertible_partial proves the true direction and characterises the disagreement."
  },
  {
   "property": "C94",
   "status": "partial",
   "theorems": [
    "C94_inverse_trig_partial",
    "C94_inverse_hyperbolic_partial",
    "C94_inverse_real_cut",
    "C94_acos_refuted"
   ],
   "note": "Right-inverse property proved on the stated domains (C94_inverse_trig_partial, C94_inverse_hyperbolic_partial). REFUTED elsewhere: acos on pure quaternions off the x axis (C94_acos_refuted), acos/asin/atan divide by zero on real quaternions and acosh/atanh return the wrong branch on their real cuts (C94_inverse_real_cut)."
  },
  {
   "property": "C95",
   "status": "proved",
   "theorems": [
    "C95_arg"
   ],
   "note": ""
  },
  {
   "property": "C96",
   "status": "proved",
   "theorems": [
    "C96_dot_error",
    "C96_matrix_vector_error",
    "C96_matrix_product_error",
    "C96_finite_result_has_finite_operands",
    "C96_f64_up_to_four"
   ],
   "note": ""
  },
  {
   "property": "C97",
   "status": "partial",
   "theorems": [
    "C97_norm_error",
    "C97_norm_f64_partial",
    "C97_normalize_f64_partial",
    "C97_any_format_partial",
    "C97_normalize_refuted"
   ],
   "note": "REFUTED by C97_normalize_refuted: a finite non-zero f64 vector of length 2^-600 normalises to (inf, NaN, NaN) and one of length 2^600 to the zero vector, because norm squares the components without scaling. C97_norm_error holds for every format and dimension; C97_norm_f64_partial and C97_normalize_f64_partial give accuracy and finiteness for lengths between 2^-400 and 2^500; C97_any_format_partial does the same for every format of at least 24 bits (for f32: lengths between 2^-48 and 2^48)."
  },
  {
   "property": "C98",
   "status": "proved",
   "theorems": [
    "C98_per_component_tolerances",
    "C98_all_components",
    "C98_detects_every_difference",
    "C98_reflexive_symmetric"
   ],
   "note": ""
  },
  {
   "property": "C99",
   "status": "proved",
   "theorems": [
    "C99_complex_in_place",
    "C99_scalar_division",
    "C99_half",
    "C99_complex_map"
   ],
   "note": ""
  },
  {
   "property": "C100",
   "status": "proved",
   "theorems": [
    "C100_complex_predicates",
    "C100_quaternion_predicates"
   ],
   "note": ""
  },
  {
   "property": "C101",
   "status": "proved",
   "theorems": [
    "C101_standard_basis",
    "C101_diagonal_matrices",
    "C101_numbers_and_transforms",
    "C101_zero_euler_angles"
   ],
   "note": ""
  },
  {
   "property": "C102",
   "status": "proved",
   "theorems": [
    "C102_complex_metric",
    "C102_quaternion_metric",
    "C102_point_metric",
    "C102_matrix_distance"
   ],
   "note": ""
  },
  {
   "property": "C103",
   "status": "proved",
   "theorems": [
    "C103_isometry_constructors",
    "C103_isometry2_constructors",
    "C103_similarity_constructors"
   ],
   "note": ""
  },
  {
   "property": "C104",
   "status": "proved",
   "theorems": [
    "C104_viewing_similarities",
    "C104_viewing_quaternions",
    "C104_look_at_is_look_to"
   ],
   "note": ""
  },
  {
   "property": "C105",
   "status": "proved",
   "theorems": [
    "C105_shear_composition",
    "C105_transform_inverse_vector",
    "C105_rotation_between"
   ],
   "note": ""
  },
  {
   "property": "C106",
   "status": "proved",
   "theorems": [
    "C106_projection_axes"
   ],
   "note": ""
  },
  {
   "property": "C107",
   "status": "partial",
   "theorems": [
    "C107_exactly_one",
    "C107_nan_propagates",
    "C107_is_infinite_partial",
    "C107_is_infinite_refuted"
   ],
   "note": "REFUTED by C107_is_infinite_refuted: an infinite real part with a NaN imaginary part is not reported as infinite. C107_is_infinite_partial proves the claim without NaN parts; C107_exactly_one and C107_nan_propagates hold for all values."
  },
  {
   "property": "C108",
   "status": "proved",
   "theorems": [
    "C108_dot_exact",
    "C108_matrix_product_exact",
    "C108_determinant_exact",
    "C108_try_inverse_exact",
    "C108_products_exact"
   ],
   "note": ""
  },
  {
   "property": "C109",
   "status": "proved",
   "theorems": [
    "C109_complex_product",
    "C109_cross_product",
    "C109_quaternion_product",
    "C109_determinants"
   ],
   "note": ""
  },
  {
   "property": "C110",
   "status": "partial",
   "theorems": [
    "C110_division_partial",
    "C110_inverse_partial",
    "C110_division_refuted"
   ],
   "note": "REFUTED by C110_division_refuted: z / z is NaN and inverse returns None or 0 when the squared modulus overflows or underflows. C110_division_partial and C110_inverse_partial prove accuracy when the scales stay away from the thresholds, for formats with at least 47 bits (f64)."
  },
  {
   "property": "C111",
   "status": "partial",
   "theorems": [
    "C111_inverse2_partial",
    "C111_inverse3_partial",
    "C111_inverse4_partial",
    "C111_singular2",
    "C111_inverse_refuted"
   ],
   "note": "REFUTED by C111_inverse_refuted: a singular 3x3 matrix with integer entries is inverted, diag(2^-600, 2^-600) is rejected, a singular 2x2 matrix with large entries gives NaN. C111_inverse2/3/4_partial prove accuracy when the determinant is not small relative to the entries; C111_singular2 proves detection of singular 2x2 matrices."
  },
  {
   "property": "C112",
   "status": "partial",
   "theorems": [
    "C112_float_signum",
    "C112_float_copysign_partial",
    "C112_float_copysign_refuted",
    "C112_integer_signum",
    "C112_integer_copysign_partial",
    "C112_integer_copysign_refuted"
   ],
   "note": "REFUTED by C112_integer_copysign_refuted (sign 0) and C112_float_copysign_refuted (NaN sign): the documented formula signum(s)*|x| differs from the code. The partial theorems prove it for all other signs; C112_float_signum and C112_integer_signum hold for all values."
  },
  {
   "property": "C113",
   "status": "proved",
   "theorems": [
    "C113_componentwise",
    "C113_assign",
    "C113_integer_law",
    "C113_integer_panics",
    "C113_float_remainder",
    "C113_float_special",
    "C113_field_division"
   ],
   "note": ""
  },
  {
   "property": "C114",
   "status": "partial",
   "theorems": [
    "C114_text_partial",
    "C114_never_panics_refuted",
    "C114_injective",
    "C114_transform_injective",
    "C114_dimension",
    "C114_transform_text",
    "C114_single_line_refuted"
   ],
   "note": "REFUTED by C114_never_panics_refuted (types with a zero dimension panic) and C114_single_line_refuted (the text of a quaternion ends with a newline). C114_text_partial and C114_transform_text give the layout for dimensions at least 1; C114_injective, C114_transform_injective and C114_dimension prove that the text determines the value."
  },
  {
   "property": "C115",
   "status": "partial",
   "theorems": [
    "C115_conjugation",
    "C115_parity",
    "C115_inverse_partial",
    "C115_inverse_finite",
    "C115_inverse_finite_refuted",
    "C115_infinite_arguments",
    "C115_refuted",
    "C115_infinite_values"
   ],
   "note": "REFUTED by C115_refuted (asinh is not odd: asinh(2^60) is finite and asinh(-2^60) is -infinity; atanh(2 + 0i) = atanh(2 - 0i); acos(inf + 0i) = acos(inf - 0i)). C115_conjugation and C115_parity prove the symmetries of all the other functions for all arguments, with atanh and atan odd everywhere; C115_inverse_partial proves conjugation of atanh and atan off their cuts and of acosh, asinh, acos, asin at non-finite arguments. C115_inverse_finite proves conjugation of acosh off its cut and of asinh in the right half-plane at finite arguments; C115_inverse_finite_refuted disproves the rest (asinh in the left half-plane, acos and asin on the imaginary axis)."
  },
  {
   "property": "C116",
   "status": "partial",
   "theorems": [
    "C116_normalize_partial",
    "C116_normalize_refuted",
    "C116_normalize_signed",
    "C116_signed_range_refuted",
    "C116_special",
    "C116_opposite_bisect"
   ],
   "note": "REFUTED by C116_normalize_refuted (a tiny negative angle is normalized to the full turn itself, outside the documented range, and normalize is then not idempotent) and C116_signed_range_refuted (normalize_signed returns the half turn, the documented range excludes it). C116_normalize_partial gives the closed range and accuracy; C116_normalize_signed gives the range (-T/2, T/2], accuracy and idempotence."
  },
  {
   "property": "C117",
   "status": "partial",
   "theorems": [
    "C117_accuracy",
    "C117_endpoints_partial",
    "C117_endpoints_refuted"
   ],
   "note": "REFUTED by C117_endpoints_refuted: lerp(2^60, 1, 1) is 0 in f64, and lerp(u, v, 0) is NaN when v - u overflows. C117_accuracy bounds the error for all arguments; C117_endpoints_partial proves the endpoints without overflow (start) and for components within a factor 2 (end)."
  },
  {
   "property": "C118",
   "status": "partial",
   "theorems": [
    "C118_finite",
    "C118_real_axis",
    "C118_overflow_refuted"
   ],
   "note": "REFUTED by C118_overflow_refuted: exp(x + 0i) has a NaN part for large x, tanh of a large real is NaN, ln and sqrt are infinite or zero when the squared norm overflows or underflows. C118_finite and C118_real_axis prove the property when the intermediate values do not overflow."
  },
  {
   "property": "C119",
   "status": "proved",
   "theorems": [
    "C119_range",
    "C119_range_kinds",
    "C119_split",
    "C119_nested",
    "C119_write",
    "C119_complex",
    "C119_quaternion"
   ],
   "note": ""
  },
  {
   "property": "C120",
   "status": "proved",
   "theorems": [
    "C120_matrix_array",
    "C120_matrix_write",
    "C120_columns",
    "C120_quaternion_view",
    "C120_coordinates",
    "C120_coordinates_write",
    "C120_pointers"
   ],
   "note": ""
  },
  {
   "property": "C121",
   "status": "proved",
   "theorems": [
    "C121_never_wrong",
    "C121_never_wrong_products",
    "C121_agrees_with_release",
    "C121_componentwise_panics_iff",
    "C121_dot_panics_iff",
    "C121_matrix_product_panics_iff",
    "C121_unsigned_dot",
    "C121_no_panic"
   ],
   "note": ""
  },
  {
   "property": "C122",
   "status": "proved",
   "theorems": [
    "C122_quaternion_products",
    "C122_complex_products",
    "C122_matrix_products"
   ],
   "note": ""
  },
  {
   "property": "C123",
   "status": "partial",
   "theorems": [
    "C123_exact_projection",
    "C123_perspective_accuracy",
    "C123_orthographic_accuracy",
    "C123_orthographic_order",
    "C123_perspective_order_refuted",
    "C123_perspective_order_partial"
   ],
   "note": "REFUTED by C123_perspective_order_refuted: in f64 with planes at 1 and 2 two neighbouring distances get depths in the wrong order. C123_perspective_accuracy (22 u, 16 u, 72 u), C123_orthographic_accuracy, C123_orthographic_order (never reversed) and C123_perspective_order_partial (order kept when the exact depths differ by more than 144 u) prove the rest."
  },
  {
   "property": "C124",
   "status": "proved",
   "theorems": [
    "C124_axis_angle_matrix",
    "C124_axis_angle_quaternion",
    "C124_quaternion_matrix",
    "C124_axis_angle_quaternion_matrix",
    "C124_coordinate_angles",
    "C124_euler"
   ],
   "note": ""
  },
  {
   "property": "C125",
   "status": "proved",
   "theorems": [
    "C125_apply",
    "C125_round_trip",
    "C125_distances",
    "C125_composition",
    "C125_similarity",
    "C125_turn_about_axis",
    "C125_turn_by_quaternion"
   ],
   "note": ""
  },
  {
   "property": "C126",
   "status": "partial",
   "theorems": [
    "C126_plane_rotation_between_refuted",
    "C126_ln",
    "C126_slerp",
    "C126_rotation_between",
    "C126_angle_coordinate",
    "C126_angle_partial",
    "C126_euler_partial",
    "C126_matrix_rotation_between_refuted",
    "C126_half_turn_refuted",
    "C126_angle_refuted",
    "C126_euler_refuted"
   ],
   "note": "REFUTED in f64 by C126_matrix_rotation_between_refuted (Matrix3x3::rotation_between of two nearly parallel vectors is NaN), C126_half_turn_refuted (Rotation3::angle of a half turn about normalize(0,1,1)), C126_plane_rotation_between_refuted (Matrix2x2::rotation_between((3,4), (3,4))), C126_angle_refuted (angle of r^-1 r) and C126_euler_refuted (euler_angles of a rotation made from a quaternion). C126_ln, C126_slerp, C126_rotation_between (quaternion and Rotation3, all finite vectors) and C126_angle_coordinate prove the property for the other functions; C126_angle_partial proves it, with the accuracy, for from_axis_angle away from half turns, C126_euler_partial for rotations made from Euler angles."
  },
  {
   "property": "C127",
   "status": "partial",
   "theorems": [
    "C127_frame",
    "C127_look_to_partial",
    "C127_look_at_partial",
    "C127_orthonormal_partial",
    "C127_look_to_4x4_partial",
    "C127_look_at_4x4_partial",
    "C127_nan_refuted",
    "C127_orthonormal_refuted"
   ],
   "note": "REFUTED in f64 by C127_nan_refuted (direction (7,6,0) and an up vector one unit in the last place away from it: the first row is NaN) and C127_orthonormal_refuted (direction (6,5,4), all entries finite, but the first and third rows have inner product 0.68): up is crossed with the already rounded direction, which for nearly parallel vectors leaves only rounding errors. C127_look_to_partial, C127_look_at_partial, C127_look_to_4x4_partial and C127_look_at_4x4_partial prove an error of 273u/s (281u/s times the length of the eye for the translation) as long as the sine s of the angle is at least 1024u; C127_orthonormal_partial shows that the rows are unit vectors and the second row is at right angles to the others whatever s is; C127_frame shows that the frame compared with is the documented one."
  },
  {
   "property": "C128",
   "status": "proved",
   "theorems": [
    "C128_mirror",
    "C128_shadow",
    "C128_reflect",
    "C128_distances",
    "C128_reflect_any_normal",
    "C128_project",
    "C128_quaternion_project_reject"
   ],
   "note": "Any format with at least 24 bits and up to four dimensions. C128_mirror and C128_shadow show that the exact mirror image and projection of the specification are the geometric ones; C128_reflect and C128_distances bound Reflection (with the error d of the stored normal), C128_reflect_any_normal bounds Vector::reflect, C128_project and C128_quaternion_project_reject bound the projections and the remaining inner product."
  },
  {
   "property": "C129",
   "status": "partial",
   "theorems": [
    "C129_exact_inverse",
    "C129_inverse_partial",
    "C129_division_partial",
    "C129_small_not_invertible",
    "C129_inverse_refuted"
   ],
   "note": "REFUTED in f64 by C129_inverse_refuted: 2^-60 has no inverse because of the threshold (machine epsilon for the norm), and 2^600 gets the inverse 0 because the squared norm overflows. C129_inverse_partial and C129_division_partial prove errors of 10u and 42u (relative), products within 42u of 1 and recovery of the dividend to 74u for every length at least twice the machine epsilon with a square in range; C129_small_not_invertible shows that nothing below half the machine epsilon is inverted; C129_exact_inverse shows that the specification is the two-sided inverse."
  },
  {
   "property": "C130",
   "status": "proved",
   "theorems": [
    "C130_translation",
    "C130_translation_grid",
    "C130_translation_products",
    "C130_scale",
    "C130_axis_shear",
    "C130_axis_constructors",
    "C130_shear",
    "C130_not_exact"
   ],
   "note": "Per coordinate in every format for translations, scales and axis shears; shears along any direction in formats of at least 24 bits and up to four dimensions. C130_not_exact records that the round trips are not exact."
  },
  {
   "property": "C131",
   "status": "proved",
   "theorems": [
    "C131_from_matrix",
    "C131_rotation_matrix",
    "C131_round_trip",
    "C131_look_to",
    "C131_look_at"
   ],
   "note": "Formats of at least 24 bits. The look_* theorems need an angle between direction and up whose sine is at least 2^19 units of roundoff (see C127 for what happens otherwise)."
  },
  {
   "property": "C132",
   "status": "proved",
   "theorems": [
    "C132_great_circle",
    "C132_nlerp",
    "C132_slerp",
    "C132_slerp_apart",
    "C132_sharp"
   ],
   "note": "Formats of at least 24 bits with 2 prec + 31 <= emax. C132_sharp shows that the square root of d in the bound for nearly equal quaternions is needed; it is the price of recovering the angle from the rounded cosine."
  },
  {
   "property": "C133",
   "status": "proved",
   "theorems": [
    "C133_constants",
    "C133_to_radians",
    "C133_to_degrees",
    "C133_round_trip",
    "C133_not_exact",
    "C133_named_angles",
    "C133_order",
    "C133_sine_cosine",
    "C133_straight_angle",
    "C133_inverse_ranges",
    "C133_inverse_accuracy",
    "C133_reciprocals"
   ],
   "note": "Pi enters through twenty digits proved with Machin's formula. C133_not_exact records that round trips are not exact, not even for the sixth of a turn."
  },
  {
   "property": "C134",
   "status": "proved",
   "theorems": [
    "C134_exponential",
    "C134_hyperbolic",
    "C134_trigonometric",
    "C134_tangents",
    "C134_polar",
    "C134_square_root",
    "C134_cube_root",
    "C134_power"
   ],
   "note": "The library's error is a hypothesis at exactly the arguments the code passes to it; C134_example shows it met by the correctly rounded library. The inverse trigonometric and hyperbolic functions are not covered."
  },
  {
   "property": "C135",
   "status": "proved",
   "theorems": [
    "C135_exact",
    "C135_quaternion",
    "C135_rotation",
    "C135_matrix",
    "C135_nearly_parallel"
   ],
   "note": "The library's absolute error is a hypothesis; C135_example shows it met by the correctly rounded library. The domain excludes nearly opposite vectors, for which see C136."
  },
  {
   "property": "C136",
   "status": "partial",
   "theorems": [
    "C136_image_partial",
    "C136_nearly_opposite_refuted",
    "C136_small_angle"
   ],
   "note": "REFUTED by C136_nearly_opposite_refuted: for two nearly opposite vectors in f64 the returned rotation misses the second direction by 2/5 whatever the library. C136_image_partial is the claim for all other vectors; C136_small_angle shows that the square root of the roundoff cannot be improved."
  },
  {
   "property": "C137",
   "status": "proved",
   "theorems": [
    "C137_euler",
    "C137_euler_round_trip",
    "C137_axis_angle",
    "C137_axis_angle_round_trip",
    "C137_plane_angle",
    "C137_plane_between"
   ],
   "note": "The library's absolute error is a hypothesis; C137_example shows it met by the correctly rounded library."
  },
  {
   "property": "C138",
   "status": "partial",
   "theorems": [
    "C138_rebuild_partial",
    "C138_gimbal_lock_refuted"
   ],
   "note": "REFUTED by C138_gimbal_lock_refuted: at gimbal lock the branch meant for it is not taken, because the computed cosine of the second angle is not exactly 0, and the rebuilt matrix has an entry off by at least 3/4. C138_rebuild_partial is the claim with the bound 12d + 12e/cos b + 8u away from gimbal lock."
  },
  {
   "property": "C139",
   "status": "proved",
   "theorems": [
    "C139_exponential",
    "C139_hyperbolic",
    "C139_trigonometric"
   ],
   "note": "The library's relative error at the arguments used is a hypothesis; C139_example shows it met by the correctly rounded library."
  },
  {
   "property": "C140",
   "status": "partial",
   "theorems": [
    "C140_square_root_partial",
    "C140_square_root_refuted",
    "C140_square_root_axis_refuted",
    "C140_logarithm_partial",
    "C140_logarithm_refuted",
    "C140_angle_partial",
    "C140_angle_refuted",
    "C140_tangent_refuted",
    "C140_hyperbolic_tangent_refuted"
   ],
   "note": "REFUTED by C140_square_root_refuted (NaN and infinity for -1 + 2^-27 i), C140_square_root_axis_refuted (i returned for a root along j), C140_logarithm_refuted (1 + 2^-27 i), C140_angle_refuted (2^-60 + 2^-60 i), C140_tangent_refuted (600 i) and C140_hyperbolic_tangent_refuted (600 + i). The partial theorems bound the errors of sqrt, ln and arg away from these regions. C142 bounds those of tan and tanh."
  },
  {
   "property": "C141",
   "status": "proved",
   "theorems": [
    "C141_inverse",
    "C141_shear",
    "C141_orthographic",
    "C141_scale",
    "C141_from_angle",
    "C141_comparison",
    "C141_distance"
   ],
   "note": "inverse panics: modelled as None."
  },
  {
   "property": "C142",
   "status": "proved",
   "theorems": [
    "C142_power",
    "C142_tangent",
    "C142_hyperbolic_tangent",
    "C142_real"
   ],
   "note": "The library's relative error at the arguments used is a hypothesis; C142_example shows it met by the correctly rounded library. Beyond the stated ranges tan and tanh overflow, see C140."
  },
  {
   "property": "C143",
   "status": "partial",
   "theorems": [
    "C143_perspective_refuted",
    "C143_orthographic_refuted",
    "C143_sides_refuted",
    "C143_perspective_planes_partial",
    "C143_orthographic_planes_partial",
    "C143_perspective_unproject_partial",
    "C143_orthographic_unproject_partial",
    "C143_perspective_round_trip_partial",
    "C143_orthographic_round_trip_partial"
   ],
   "note": "REFUTED by C143_perspective_refuted, C143_orthographic_refuted and C143_sides_refuted (NaN when the ratio of the planes exceeds 2^prec). What is true is proved for ratios up to 2^prec / 2048."
  },
  {
   "property": "C144",
   "status": "partial",
   "theorems": [
    "C144_cancellation_refuted",
    "C144_branch_refuted",
    "C144_small_refuted",
    "C144_acosh_partial",
    "C144_asinh_partial",
    "C144_atanh_partial",
    "C144_acos_partial",
    "C144_asin_partial",
    "C144_atan_partial"
   ],
   "note": "REFUTED by C144_cancellation_refuted (asinh, acos infinite or NaN in half of the plane), C144_branch_refuted (acos(-2) in f32 has real part -PI) and C144_small_refuted. What is true is proved: acosh, atanh and atan away from branch points, asinh, acos and asin in the half plane without cancellation."
  },
  {
   "property": "C145",
   "status": "partial",
   "theorems": [
    "C145_wide_refuted",
    "C145_matrix",
    "C145_vfov_partial"
   ],
   "note": "REFUTED by C145_wide_refuted: a field of view above a right angle comes back less PI (the float version of C81). What is true is proved: the entries, the aspect ratio, the planes, and the field of view whenever the computed tangent of its half is at most 1."
  },
  {
   "property": "C146",
   "status": "partial",
   "theorems": [
    "C146_nan_refuted",
    "C146_linf_exact_partial",
    "C146_linf_drops_nan_partial",
    "C146_l1",
    "C146_distance",
    "C146_matrix_partial",
    "C146_extremes",
    "C146_clamp"
   ],
   "note": "REFUTED by C146_nan_refuted: linf_norm and the matrix norms drop NaN components (the maximum of a number and a NaN is the number), so a vector of NaNs has norm 0 and distance 0 from everything. Everything else is proved, with the exact behaviour on NaNs."
  },
  {
   "property": "C147",
   "status": "partial",
   "theorems": [
    "C147_positive",
    "C147_negative_refuted",
    "C147_negative_partial",
    "C147_overflow_refuted",
    "C147_special"
   ],
   "note": "REFUTED by C147_negative_refuted (2^-3 gives 1/2, the float version of C34) and C147_overflow_refuted (an overflowing power has a NaN part). What is true is proved: positive exponents, and the exact behaviour for negative ones."
  },
  {
   "property": "C148",
   "status": "partial",
   "theorems": [
    "C148_accuracy64",
    "C148_accuracy32",
    "C148_range_refuted",
    "C148_wrap_refuted",
    "C148_special64",
    "C148_special32",
    "C148_library"
   ],
   "note": "REFUTED by C148_range_refuted (infinity or 0 for norms 2^600 and 2^-600 with p = 2) and C148_wrap_refuted (p >= 2^31 wraps around). What is true is proved: the error bound when the powers are in range and p < 2^31, NaN, zero vectors, overflow."
  },
  {
   "property": "C149",
   "status": "partial",
   "theorems": [
    "C149_polar",
    "C149_exp2",
    "C149_log",
    "C149_log2_log10",
    "C149_exp_of_ln",
    "C149_powc_partial",
    "C149_powc_zero_exponent",
    "C149_powc_zero_base_refuted"
   ],
   "note": "REFUTED by C149_powc_zero_base_refuted: 0.powc(2) is NaN, not 0. What is true is proved: error bounds for from_angle, the polar form, exp2, log, log2, log10, exp(ln z), and for powc when the base is not 0 (C149_powc_partial)."
  },
  {
   "property": "C150",
   "status": "partial",
   "theorems": [
    "C150_differences",
    "C150_tolerances",
    "C150_all_tolerances",
    "C150_failure_is_shown",
    "C150_all_failure_is_shown",
    "C150_abs_diff_partial",
    "C150_isometry_refuted"
   ],
   "note": "REFUTED by C150_isometry_refuted: abs_diff_all_eq of isometries passes although its report shows a translation out of tolerance. What is true is proved: the reports are componentwise for every type, and every other comparison fails exactly when its report shows a failing component."
  },
  {
   "property": "C151",
   "status": "proved",
   "theorems": [
    "C151_inner_commutes",
    "C151_inner",
    "C151_outer",
    "C151_outer_self",
    "C151_overflow"
   ],
   "note": ""
  },
  {
   "property": "C152",
   "status": "partial",
   "theorems": [
    "C152_decomposition_partial",
    "C152_real",
    "C152_from",
    "C152_round_trip_partial",
    "C152_range_refuted"
   ],
   "note": "REFUTED by C152_range_refuted: norm_squared underflows or overflows, so a nonzero quaternion is decomposed as zero, a finite one has an infinite norm, or the axis is lost. Proved in the strongest range: vector part at least 2^-k and length at most 2^k with 2 k + 31 <= emax."
  },
  {
   "property": "C153",
   "status": "proved",
   "theorems": [
    "C153_vector",
    "C153_point",
    "C153_affine",
    "C153_homogeneous",
    "C153_cancelled_weight"
   ],
   "note": ""
  },
  {
   "property": "C154",
   "status": "proved",
   "theorems": [
    "C154_isometry",
    "C154_rotation",
    "C154_translation",
    "C154_scale",
    "C154_orthographic",
    "C154_cross_matrix",
    "C154_similarity_differs"
   ],
   "note": ""
  },
  {
   "property": "C155",
   "status": "proved",
   "theorems": [
    "C155_reflection3",
    "C155_reflection2",
    "C155_shear3",
    "C155_shear2",
    "C155_similarity"
   ],
   "note": ""
  },
  {
   "property": "C156",
   "status": "proved",
   "theorems": [
    "C156_transposed",
    "C156_distance_symmetric",
    "C156_trace_error",
    "C156_inner_product_error",
    "C156_norm_squared",
    "C156_triple",
    "C156_differs"
   ],
   "note": ""
  },
  {
   "property": "C157",
   "status": "proved",
   "theorems": [
    "C157_composition",
    "C157_inverse",
    "C157_exact"
   ],
   "note": ""
  },
  {
   "property": "C158",
   "status": "partial",
   "theorems": [
    "C158_rotation_partial",
    "C158_isometry_partial",
    "C158_isometry_inverse_partial",
    "C158_inverse_refuted"
   ],
   "note": "REFUTED by C158_inverse_refuted: the translation of the 4x4 and isometry inverses is wrong (the bug of C62 and C63), so going there and back misses by the size of the eye. Proved: the 3x3 inverses, the forward isometries and similarities, and what the wrong inverses compute."
  },
  {
   "property": "C159",
   "status": "proved",
   "theorems": [
    "C159_coordinate_shears",
    "C159_shear3",
    "C159_shear2",
    "C159_reflection3",
    "C159_reflection2",
    "C159_reflect_twice",
    "C159_symmetric"
   ],
   "note": ""
  },
  {
   "property": "C160",
   "status": "proved",
   "theorems": [
    "C160_mixed"
   ],
   "note": ""
  },
  {
   "property": "C161",
   "status": "proved",
   "theorems": [
    "C161_product"
   ],
   "note": ""
  },
  {
   "property": "C162",
   "status": "proved",
   "theorems": [
    "C162_inverse2",
    "C162_inverse3"
   ],
   "note": ""
  },
  {
   "property": "C163",
   "status": "proved",
   "theorems": [
    "C163_vector_is_point",
    "C163_perspective_vector",
    "C163_orthographic_vector"
   ],
   "note": ""
  },
  {
   "property": "C164",
   "status": "proved",
   "theorems": [
    "C164_apply",
    "C164_products",
    "C164_affine"
   ],
   "note": ""
  },
  {
   "property": "C165",
   "status": "proved",
   "theorems": [
    "C165_back",
    "C165_signs",
    "C165_inverse1"
   ],
   "note": ""
  },
  {
   "property": "C166",
   "status": "proved",
   "theorems": [
    "C166_matrices",
    "C166_cross",
    "C166_quaternions"
   ],
   "note": ""
  },
  {
   "property": "C167",
   "status": "partial",
   "theorems": [
    "C167_signs",
    "C167_equal_columns",
    "C167_refuted"
   ],
   "note": "REFUTED by C167_refuted for transposition, exchanged and equal columns of 3x3 and 4x4 matrices; the sign law for all sizes and all laws for 2x2 are proved (C167_signs, C167_equal_columns)."
  },
  {
   "property": "C168",
   "status": "partial",
   "theorems": [
    "C168_self",
    "C168_refuted"
   ],
   "note": "REFUTED by C168_refuted for multiples of a vector and for orthogonality; proved for equal arguments (C168_self)."
  }
 ]
}