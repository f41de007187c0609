{
 "C24": {
  "status": "partial",
  "note": "REFUTED by C24_diagonal_refuted: `diagonal` has result type Vector4 for every N; it panics for N > 4 and pads with zeros for N < 4. C24_diagonal_partial states what does hold for every N."
 },
 "C32": {
  "status": "partial",
  "note": "REFUTED by C32_scalar_sub_refuted: scalar - Complex keeps the sign of the imaginary part (complex.rs 2896). C32_scalar_complex_partial proves the other operators and gives the exact value of scalar - Complex (the conjugate of the right answer)."
 },
 "C34": {
  "status": "partial",
  "note": "REFUTED by C34_powi_negative_refuted: 2^-3 gives 1/2. C34_powi_partial proves n >= 0 completely and gives the exact result for every negative exponent -(2^k m), m odd: the odd part m is ignored."
 },
 "C38": {
  "status": "partial",
  "note": "try_inverse proved. The is_invertible equivalence is REFUTED by C38_is_invertible_refuted for every positive threshold; C38_is_invertible_partial proves the direction that holds."
 },
 "C09": {
  "status": "partial",
  "note": "Proved for 1 <= p < 2^31 (C09_lp_norm_partial, C09_lp_norm_1_2). REFUTED for larger u32 values by C09_lp_norm_refuted: `p as i32` wraps to a negative exponent."
 },
 "C87": {
  "status": "partial",
  "note": "Clamp proved. Integer copysign proved for every value except the minimum (C87_int_copysign_partial); REFUTED there by C87_int_copysign_refuted: abs overflows although the result is representable."
 },
 "C41": {
  "status": "partial",
  "note": "REFUTED by C41_is_invertible_refuted: at |q| = eps is_invertible_eps says true and try_inverse_eps gives None (inverse panics), for every eps >= 0, including the zero quaternion at eps = 0. C41_is_invertible_partial proves that this sphere is the only disagreement."
 },
 "C45": {
  "status": "partial",
  "note": "REFUTED by C45_exp_ln_refuted: ln drops the sign of negative reals, so exp(ln(-x)) = x. C45_exp_ln_partial proves exp(ln q) = q and powf(1) = q for every quaternion off the negative real axis; exp norm laws, ln(exp q) and power laws are proved without restriction to examples."
 },
 "C47": {
  "status": "partial",
  "note": "slerp(q1,q2,0) = q1 is REFUTED by C47_slerp_start_refuted: for negative dot product slerp negates q1, so the result at 0 is -q1 (same rotation). Everything else is proved: unit results, exact end, constant speed along the shorter arc, nlerp."
 },
 "C48": {
  "status": "partial",
  "note": "REFUTED by C48_polar_refuted for every quaternion with non-zero vector part: polar_decomposition returns the half angle that from_polar_decomposition halves again. C48_polar_partial gives the exact value of the decomposition and how it relates to q."
 },
 "C52": {
  "status": "partial",
  "note": "REFUTED by C52_rotation_between_2d_refuted: Matrix2x2::rotation_between_axis always turns counter-clockwise (acos of the dot product). C52_rotation_between_2d_partial characterises exactly when it is right."
 },
 "C62": {
  "status": "partial",
  "note": "REFUTED by C62_look_inv_refuted: the translation column of the _inv matrices is wrong. C62_look_inv_partial proves what they compute and when they are inverses."
 },
 "C94": {
  "status": "partial",
  "note": "Right-inverse property proved on the stated domains (C94_inverse_trig_partial, C94_inverse_hyperbolic_partial). REFUTED elsewhere: acos on pure quaternions off the x axis (C94_acos_refuted), acos/asin/atan divide by zero on real quaternions and acosh/atanh return the wrong branch on their real cuts (C94_inverse_real_cut)."
 },
 "C63": {
  "status": "partial",
  "note": "REFUTED by C63_look_inverse_refuted: Isometry3/Similarity3 look_*_inv use the translation -R^T eye instead of eye. C63_look_inverse_partial proves what they compute and exactly when they are inverses; C63_look_isometry proves the forward versions completely."
 },
 "C68": {
  "status": "partial",
  "note": "Points proved. Vectors REFUTED by C68_shear_vector_refuted: apply_vector subtracts the shear origin, so even the zero vector moves. C68_shear_matrix_partial proves that vectors agree exactly when factor * (origin . normal) = 0."
 },
 "C73": {
  "status": "partial",
  "note": "REFUTED by C73_isometry_approx_eq_refuted: Isometry abs_diff_all_eq ignores the translation. C73_isometry_approx_eq_partial proves the exact meaning of all four comparisons."
 },
 "C75": {
  "status": "partial",
  "note": "Points and inverses on points proved completely. Vectors REFUTED for projective matrices by C75_transform_vectors_refuted (the weight is dropped); C75_transform_vectors_partial proves them when the weight stays zero, in particular for affine matrices."
 },
 "C78": {
  "status": "partial",
  "note": "near, far and aspect_ratio proved for every non-degenerate frustum over any field; right/left proved for left <> 0 and top/bottom for bottom <> 0 (C78_perspective_params_partial). REFUTED for left = 0 / bottom = 0 by C78_perspective_params_refuted: in binary64 right() and top() are NaN (ratio = right/left = infinity)."
 },
 "C79": {
  "status": "partial",
  "note": "REFUTED by C79_project_point_refuted: project_point uses entry c3r1 (always 0) instead of c2r1. C79_project_point_partial gives the exact error, proves agreement exactly when top = bottom, and proves project_vector and to_transform correct."
 },
 "C80": {
  "status": "partial",
  "note": "REFUTED by C80_unproject_refuted for top <> bottom (consequence of C79). C80_unproject_partial proves that unproject inverts the matrix projection on both sides, inverts project_vector always, and project_point when top = bottom."
 },
 "C81": {
  "status": "partial",
  "note": "REFUTED by C81_from_vfov_refuted: fields of view above a right angle read back as vfov - PI. C81_vfov_partial and C81_from_vfov_partial give the exact result for every frustum and every 0 < vfov < PI."
 },
 "C84": {
  "status": "partial",
  "note": "REFUTED by C84_orthographic_params_refuted: in binary64 far, right, top are NaN when near, left, bottom are 0. C84_orthographic_params_partial proves the getters for non-zero near, left, bottom."
 },
 "C85": {
  "status": "partial",
  "note": "REFUTED by C85_orthographic_unproject_refuted for near = 0 (NaN in binary64). C85_orthographic_unproject_partial proves both inverses for non-zero near, left, bottom."
 },
 "C97": {
  "status": "partial",
  "note": "REFUTED by C97_normalize_refuted: a finite non-zero f64 vector of length 2^-600 normalises to (inf, NaN, NaN) and one of length 2^600 to the zero vector, because norm squares the components without scaling. C97_norm_error holds for every format and dimension; C97_norm_f64_partial and C97_normalize_f64_partial give accuracy and finiteness for lengths between 2^-400 and 2^500; C97_any_format_partial does the same for every format of at least 24 bits (for f32: lengths between 2^-48 and 2^48)."
 },
 "C93": {
  "status": "partial",
  "note": "REFUTED by C93_is_invertible_refuted: a matrix with a tiny non-zero determinant is reported singular although try_inverse inverts it. C93_is_invertible_partial proves the true direction and characterises the disagreement."
 },
 "C107": {
  "status": "partial",
  "note": "REFUTED by C107_is_infinite_refuted: an infinite real part with a NaN imaginary part is not reported as infinite. C107_is_infinite_partial proves the claim without NaN parts; C107_exactly_one and C107_nan_propagates hold for all values."
 },
 "C110": {
  "status": "partial",
  "note": "REFUTED by C110_division_refuted: z / z is NaN and inverse returns None or 0 when the squared modulus overflows or underflows. C110_division_partial and C110_inverse_partial prove accuracy when the scales stay away from the thresholds, for formats with at least 47 bits (f64)."
 },
 "C111": {
  "status": "partial",
  "note": "REFUTED by C111_inverse_refuted: a singular 3x3 matrix with integer entries is inverted, diag(2^-600, 2^-600) is rejected, a singular 2x2 matrix with large entries gives NaN. C111_inverse2/3/4_partial prove accuracy when the determinant is not small relative to the entries; C111_singular2 proves detection of singular 2x2 matrices."
 },
 "C112": {
  "status": "partial",
  "note": "REFUTED by C112_integer_copysign_refuted (sign 0) and C112_float_copysign_refuted (NaN sign): the documented formula signum(s)*|x| differs from the code. The partial theorems prove it for all other signs; C112_float_signum and C112_integer_signum hold for all values."
 },
 "C114": {
  "status": "partial",
  "note": "REFUTED by C114_never_panics_refuted (types with a zero dimension panic) and C114_single_line_refuted (the text of a quaternion ends with a newline). C114_text_partial and C114_transform_text give the layout for dimensions at least 1; C114_injective, C114_transform_injective and C114_dimension prove that the text determines the value."
 },
 "C116": {
  "status": "partial",
  "note": "REFUTED by C116_normalize_refuted (a tiny negative angle is normalized to the full turn itself, outside the documented range, and normalize is then not idempotent) and C116_signed_range_refuted (normalize_signed returns the half turn, the documented range excludes it). C116_normalize_partial gives the closed range and accuracy; C116_normalize_signed gives the range (-T/2, T/2], accuracy and idempotence."
 },
 "C117": {
  "status": "partial",
  "note": "REFUTED by C117_endpoints_refuted: lerp(2^60, 1, 1) is 0 in f64, and lerp(u, v, 0) is NaN when v - u overflows. C117_accuracy bounds the error for all arguments; C117_endpoints_partial proves the endpoints without overflow (start) and for components within a factor 2 (end)."
 },
 "C115": {
  "status": "partial",
  "note": "REFUTED by C115_refuted (asinh is not odd: asinh(2^60) is finite and asinh(-2^60) is -infinity; atanh(2 + 0i) = atanh(2 - 0i); acos(inf + 0i) = acos(inf - 0i)). C115_conjugation and C115_parity prove the symmetries of all the other functions for all arguments, with atanh and atan odd everywhere; C115_inverse_partial proves conjugation of atanh and atan off their cuts and of acosh, asinh, acos, asin at non-finite arguments. C115_inverse_finite proves conjugation of acosh off its cut and of asinh in the right half-plane at finite arguments; C115_inverse_finite_refuted disproves the rest (asinh in the left half-plane, acos and asin on the imaginary axis)."
 },
 "C118": {
  "status": "partial",
  "note": "REFUTED by C118_overflow_refuted: exp(x + 0i) has a NaN part for large x, tanh of a large real is NaN, ln and sqrt are infinite or zero when the squared norm overflows or underflows. C118_finite and C118_real_axis prove the property when the intermediate values do not overflow."
 },
 "C123": {
  "status": "partial",
  "note": "REFUTED by C123_perspective_order_refuted: in f64 with planes at 1 and 2 two neighbouring distances get depths in the wrong order. C123_perspective_accuracy (22 u, 16 u, 72 u), C123_orthographic_accuracy, C123_orthographic_order (never reversed) and C123_perspective_order_partial (order kept when the exact depths differ by more than 144 u) prove the rest."
 },
 "C126": {
  "status": "partial",
  "note": "REFUTED in f64 by C126_matrix_rotation_between_refuted (Matrix3x3::rotation_between of two nearly parallel vectors is NaN), C126_half_turn_refuted (Rotation3::angle of a half turn about normalize(0,1,1)), C126_plane_rotation_between_refuted (Matrix2x2::rotation_between((3,4), (3,4))), C126_angle_refuted (angle of r^-1 r) and C126_euler_refuted (euler_angles of a rotation made from a quaternion). C126_ln, C126_slerp, C126_rotation_between (quaternion and Rotation3, all finite vectors) and C126_angle_coordinate prove the property for the other functions; C126_angle_partial proves it, with the accuracy, for from_axis_angle away from half turns, C126_euler_partial for rotations made from Euler angles."
 },
 "C127": {
  "status": "partial",
  "note": "REFUTED in f64 by C127_nan_refuted (direction (7,6,0) and an up vector one unit in the last place away from it: the first row is NaN) and C127_orthonormal_refuted (direction (6,5,4), all entries finite, but the first and third rows have inner product 0.68): up is crossed with the already rounded direction, which for nearly parallel vectors leaves only rounding errors. C127_look_to_partial, C127_look_at_partial, C127_look_to_4x4_partial and C127_look_at_4x4_partial prove an error of 273u/s (281u/s times the length of the eye for the translation) as long as the sine s of the angle is at least 1024u; C127_orthonormal_partial shows that the rows are unit vectors and the second row is at right angles to the others whatever s is; C127_frame shows that the frame compared with is the documented one."
 },
 "C128": {
  "status": "proved",
  "note": "Any format with at least 24 bits and up to four dimensions. C128_mirror and C128_shadow show that the exact mirror image and projection of the specification are the geometric ones; C128_reflect and C128_distances bound Reflection (with the error d of the stored normal), C128_reflect_any_normal bounds Vector::reflect, C128_project and C128_quaternion_project_reject bound the projections and the remaining inner product."
 },
 "C129": {
  "status": "partial",
  "note": "REFUTED in f64 by C129_inverse_refuted: 2^-60 has no inverse because of the threshold (machine epsilon for the norm), and 2^600 gets the inverse 0 because the squared norm overflows. C129_inverse_partial and C129_division_partial prove errors of 10u and 42u (relative), products within 42u of 1 and recovery of the dividend to 74u for every length at least twice the machine epsilon with a square in range; C129_small_not_invertible shows that nothing below half the machine epsilon is inverted; C129_exact_inverse shows that the specification is the two-sided inverse."
 },
 "C130": {
  "status": "proved",
  "note": "Per coordinate in every format for translations, scales and axis shears; shears along any direction in formats of at least 24 bits and up to four dimensions. C130_not_exact records that the round trips are not exact."
 },
 "C131": {
  "status": "proved",
  "note": "Formats of at least 24 bits. The look_* theorems need an angle between direction and up whose sine is at least 2^19 units of roundoff (see C127 for what happens otherwise)."
 },
 "C132": {
  "status": "proved",
  "note": "Formats of at least 24 bits with 2 prec + 31 <= emax. C132_sharp shows that the square root of d in the bound for nearly equal quaternions is needed; it is the price of recovering the angle from the rounded cosine."
 },
 "C133": {
  "status": "proved",
  "note": "Pi enters through twenty digits proved with Machin's formula. C133_not_exact records that round trips are not exact, not even for the sixth of a turn."
 },
 "C134": {
  "status": "proved",
  "note": "The library's error is a hypothesis at exactly the arguments the code passes to it; C134_example shows it met by the correctly rounded library. The inverse trigonometric and hyperbolic functions are not covered."
 },
 "C135": {
  "status": "proved",
  "note": "The library's absolute error is a hypothesis; C135_example shows it met by the correctly rounded library. The domain excludes nearly opposite vectors, for which see C136."
 },
 "C136": {
  "status": "partial",
  "note": "REFUTED by C136_nearly_opposite_refuted: for two nearly opposite vectors in f64 the returned rotation misses the second direction by 2/5 whatever the library. C136_image_partial is the claim for all other vectors; C136_small_angle shows that the square root of the roundoff cannot be improved."
 },
 "C137": {
  "status": "proved",
  "note": "The library's absolute error is a hypothesis; C137_example shows it met by the correctly rounded library."
 },
 "C138": {
  "status": "partial",
  "note": "REFUTED by C138_gimbal_lock_refuted: at gimbal lock the branch meant for it is not taken, because the computed cosine of the second angle is not exactly 0, and the rebuilt matrix has an entry off by at least 3/4. C138_rebuild_partial is the claim with the bound 12d + 12e/cos b + 8u away from gimbal lock."
 },
 "C139": {
  "status": "proved",
  "note": "The library's relative error at the arguments used is a hypothesis; C139_example shows it met by the correctly rounded library."
 },
 "C140": {
  "status": "partial",
  "note": "REFUTED by C140_square_root_refuted (NaN and infinity for -1 + 2^-27 i), C140_square_root_axis_refuted (i returned for a root along j), C140_logarithm_refuted (1 + 2^-27 i), C140_angle_refuted (2^-60 + 2^-60 i), C140_tangent_refuted (600 i) and C140_hyperbolic_tangent_refuted (600 + i). The partial theorems bound the errors of sqrt, ln and arg away from these regions. C142 bounds those of tan and tanh."
 },
 "C141": {
  "status": "proved",
  "note": "inverse panics: modelled as None."
 },
 "C142": {
  "status": "proved",
  "note": "The library's relative error at the arguments used is a hypothesis; C142_example shows it met by the correctly rounded library. Beyond the stated ranges tan and tanh overflow, see C140."
 },
 "C143": {
  "status": "partial",
  "note": "REFUTED by C143_perspective_refuted, C143_orthographic_refuted and C143_sides_refuted (NaN when the ratio of the planes exceeds 2^prec). What is true is proved for ratios up to 2^prec / 2048."
 },
 "C144": {
  "status": "partial",
  "note": "REFUTED by C144_cancellation_refuted (asinh, acos infinite or NaN in half of the plane), C144_branch_refuted (acos(-2) in f32 has real part -PI) and C144_small_refuted. What is true is proved: acosh, atanh and atan away from branch points, asinh, acos and asin in the half plane without cancellation."
 },
 "C145": {
  "status": "partial",
  "note": "REFUTED by C145_wide_refuted: a field of view above a right angle comes back less PI (the float version of C81). What is true is proved: the entries, the aspect ratio, the planes, and the field of view whenever the computed tangent of its half is at most 1."
 },
 "C146": {
  "status": "partial",
  "note": "REFUTED by C146_nan_refuted: linf_norm and the matrix norms drop NaN components (the maximum of a number and a NaN is the number), so a vector of NaNs has norm 0 and distance 0 from everything. Everything else is proved, with the exact behaviour on NaNs."
 },
 "C147": {
  "status": "partial",
  "note": "REFUTED by C147_negative_refuted (2^-3 gives 1/2, the float version of C34) and C147_overflow_refuted (an overflowing power has a NaN part). What is true is proved: positive exponents, and the exact behaviour for negative ones."
 },
 "C148": {
  "status": "partial",
  "note": "REFUTED by C148_range_refuted (infinity or 0 for norms 2^600 and 2^-600 with p = 2) and C148_wrap_refuted (p >= 2^31 wraps around). What is true is proved: the error bound when the powers are in range and p < 2^31, NaN, zero vectors, overflow."
 },
 "C149": {
  "status": "partial",
  "note": "REFUTED by C149_powc_zero_base_refuted: 0.powc(2) is NaN, not 0. What is true is proved: error bounds for from_angle, the polar form, exp2, log, log2, log10, exp(ln z), and for powc when the base is not 0 (C149_powc_partial)."
 },
 "C150": {
  "status": "partial",
  "note": "REFUTED by C150_isometry_refuted: abs_diff_all_eq of isometries passes although its report shows a translation out of tolerance. What is true is proved: the reports are componentwise for every type, and every other comparison fails exactly when its report shows a failing component."
 },
 "C151": {
  "status": "proved",
  "note": ""
 },
 "C152": {
  "status": "partial",
  "note": "REFUTED by C152_range_refuted: norm_squared underflows or overflows, so a nonzero quaternion is decomposed as zero, a finite one has an infinite norm, or the axis is lost. Proved in the strongest range: vector part at least 2^-k and length at most 2^k with 2 k + 31 <= emax."
 },
 "C153": {
  "status": "proved",
  "note": ""
 },
 "C154": {
  "status": "proved",
  "note": ""
 },
 "C155": {
  "status": "proved",
  "note": ""
 },
 "C156": {
  "status": "proved",
  "note": ""
 },
 "C157": {
  "status": "proved",
  "note": ""
 },
 "C158": {
  "status": "partial",
  "note": "REFUTED by C158_inverse_refuted: the translation of the 4x4 and isometry inverses is wrong (the bug of C62 and C63), so going there and back misses by the size of the eye. Proved: the 3x3 inverses, the forward isometries and similarities, and what the wrong inverses compute."
 },
 "C159": {
  "status": "proved",
  "note": ""
 },
 "C160": {
  "status": "proved",
  "note": ""
 },
 "C161": {
  "status": "proved",
  "note": ""
 },
 "C162": {
  "status": "proved",
  "note": ""
 },
 "C163": {
  "status": "proved",
  "note": ""
 },
 "C164": {
  "status": "proved",
  "note": ""
 },
 "C165": {
  "status": "proved",
  "note": ""
 },
 "C166": {
  "status": "proved",
  "note": ""
 },
 "C167": {
  "status": "partial",
  "note": "REFUTED by C167_refuted for transposition, exchanged and equal columns of 3x3 and 4x4 matrices; the sign law for all sizes and all laws for 2x2 are proved (C167_signs, C167_equal_columns)."
 },
 "C168": {
  "status": "partial",
  "note": "REFUTED by C168_refuted for multiples of a vector and for orthogonality; proved for equal arguments (C168_self)."
 }
}