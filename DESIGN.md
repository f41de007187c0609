# Formal model of cglinalg in Coq

Source: `/repo` (crates `cglinalg_numeric`, `cglinalg_trigonometry`, `cglinalg_core`,
`cglinalg_transform`).  The Coq development lives in `rocq/theories`.  The Rust code was read as
text and never built or run; the only link between model and code is the reading recorded in the
comment above each definition.

## 1. Modelling decisions

* **Scalars.**  The library is generic over a scalar type `S`.  The model is generic too: a type
  class `Num S` packs the operations (`0 1 + - * neg`), `NumDiv S` adds division and the test
  `is_zero`.  Theorems say which laws they need (`RingLaws`, `FieldLaws`, or only commutativity of
  `+`/`*` for the laws that survive rounding).  Instances: `Z` (unbounded integers), integers modulo
  `2^w` (wrapping machine integers), `Qc` (exact rationals, used to run examples), `R` (ideal reals),
  IEEE-754 binary floats from Flocq (only for the laws that need no ring axioms and for findings
  about NaN).
* **Floating point.**  Functions over `SimdScalarFloat` that use `sqrt`, `sin`, `atan2`, ... are
  modelled over Coq's reals `R`.  Rounding, NaN, infinities and signed zero are *not* modelled
  there.  Where the Rust code divides by something that may be zero, the theorems carry the explicit
  hypothesis that it is not zero, or the model returns `option`; no theorem relies on `x / 0` having
  a value.
* **Arrays and const generics.**  `Vector<S, N>` is `vec S N` (nested pairs, `N : nat` arbitrary),
  `Matrix<S, R, C>` is a `vec` of `C` columns, each a `vec S R` (the code stores `data[c][r]`).
  `for i in 0..N` loops with in-place element assignment are folds over `seq 0 N` using an array
  update function, exactly as in the code.
* **Panics.**  Functions that can panic (`unwrap`, out-of-range index, `usize` underflow) return
  `option`, `None` meaning panic; functions whose Rust type is already `Option` keep that type.
* **Mutation.**  `&mut self` methods are functions returning the new value (and the return value).
* **Comparisons.**  The scalar comparisons `relative_eq`/`ulps_eq` are code of the external crate
  approx_cmp; the model takes them as a parameter and models how composite types combine them.
  `abs_diff_eq` on reals is `|x - y| <= tolerance`.
* **Thresholds.**  Constants such as `S::default_epsilon()` are an explicit parameter (`_eps` in the
  name); theorems hold for every non-negative (or positive, as stated) threshold.

Files: `Base.v`, `Scalar.v` (infrastructure); `M*.v` (models, no proofs); `Spec.v` (independent
specifications); `L*.v` (lemmas and proofs); `P*.v` (the property theorems, each closed by `exact`,
with `Print Assumptions` and examples).

## 2. Plan per property

| Property | Model and method |
|---|---|
| C01, C02, C06, C13 | loops of vector.rs as folds; extensionality over indices, ring laws per component, any N |
| C03, C07, C08 | sums by induction on N; Cauchy-Schwarz from the non-negativity of sum (a_i t - b_i)^2; over R |
| C09 | Lp norm with `Rpower`; p=1,2 and homogeneity first, Minkowski by convexity of x^p |
| C04, C21, C22, C25, C92 | fixed dimensions: destruct components, `ring`/`field`; spec = Laplace expansion on functions of indices |
| C05, C12, C14, C15 | induction over N, boolean reflection |
| C10, C11, C86 | over R with sqrt; explicit non-zero hypotheses |
| C16-C20, C23, C24, C26 | sums over `seq 0 N`, exchange of summation; loop invariants for in-place transpose and swaps |
| C27-C29 | matrix constructors as loops/tables; action on homogeneous coordinates |
| C30-C34, C38 | Complex over any commutative ring/field; loop invariants for powu/powi |
| C35-C37 | Complex over R; atan2 defined from `atan` as in IEEE (quadrants), correctness lemma sin/cos of atan2 |
| C39-C43, C49, C51 | Quaternion over ring/R; polynomial identities, case analysis on branches |
| C44, C57-C60 | sin/cos over R with sin^2+cos^2=1 |
| C45-C48, C50 | Quaternion functions over R |
| C52, C53, C61-C63 | R; refutation by explicit witness where the code disagrees with its documentation |
| C54-C56 | truncated remainder on R (`up`-based); uniqueness by integrality |
| C64-C76 | records of vectors/matrices, any N; reuse of matrix laws |
| C77-C85 | Perspective3/Orthographic3 over R with `field`; refutations by witness |
| C87 | Z and R |
| C88 | laws with only commutativity hypotheses; instance from Flocq binary64 |
| C89 | instance Z/2^w of RingLaws |
| C90, C91 | fold of booleans; table of swizzles checked against a parser of the method name |

| C93, C98 | comparisons with an abstract scalar comparison, so they hold for every one |
| C94, C95 | quaternions on the complex slice through the argument; C37 transported along the slice |
| C96, C97 | Flocq: relative error (1+d) per operation plus absolute underflow term, induction over N |
| C99-C106 | the remaining public methods: same models, small specifications |
| C107, C112 | case analysis on the kinds of floats; wrap-around integers |
| C108 | predicate `fint x z` (finite float with integer value z) preserved by the operations while the values fit the mantissa |
| C109-C111 | error calculus `fapp x r b e` (value near r, bounded by b, error e units): one rule per operation, then linear arithmetic |
| C113 | scalar operator as a partial function lifted through the loops; fmod defined exactly by integer arithmetic on mantissas |
| C114 | loops produce strings; prefix-code lemmas give injectivity |
| C115 | branch by branch over zeros, infinities, NaN; symmetry of rounded sums and products; the real functions are a parameter `libm` with the requirements of `SpecLibm.v`, met by the correctly rounded library (`LLibmP.v`); finite arguments of acosh and asinh also need `libm_signs` (`SpecLibmS.v`), the counterexample for asinh `libm_rounded` (`LComplexLP.v`, `LTrigB.v`, `LComplexMP.v`) |
| C116 | exact float remainder of C113, one rounded addition; range by monotonicity of rounding |
| C117 | error calculus of C109; Sterbenz for the end point |
| C118 | monotonicity of rounding; the rounded square root of a rounded square is exact (`LSqrtSq.v`) |
| C119 | a slice is a list; `nth_error` of `firstn`/`skipn` against checked indexing of the array |
| C120 | an object is the list of its scalars in address order; reading back the memory of an object at its own type is the identity, and `nth_error` of the concatenated columns is the column-major entry |
| C121 | the library functions at the scalar type "integer or panic"; a relation between returned values and exact integers (or wrapped ones) is preserved by every operation, panics are characterised by induction over the sum, absence of panics by interval bounds |
| C122 | one-step error bounds of C109 and multiplicativity of the length give a recurrence; (1 + x)^k is bounded by induction; for matrices each row is a vector and exact orthonormal factors keep its length |
| C123 | error calculus of C109 at the scales of the frustum (distance, width, far plane); order by monotonicity of rounding; witness by computation in Flocq |
| C124 | error calculus of C109 for the formulas, perturbation bounds over the reals for the inputs, half-angle identities to compare the quaternion with Rodrigues' formula |
| C125 | one step of matrix times vector, addition, scaling and division bounded in Euclidean length (orthonormal matrices keep lengths), then composed; C124 supplies the error of the rotation |
| C126 | magnitudes bounded by powers of two through each formula; a rounded square root of a rounded sum of squares is not below any of the components (ln); 1 - c^2 stays positive below 1 (slerp); exact bounds of the trace by monotonicity of rounding, with the tie 1 + u rounding to 1 (angle); witnesses by computation in f64 for the refuted parts; the correctly rounded library meets the requirements |
| C127 | perturbation bounds for directions and cross products over the reals (the error of the x-axis grows like 1/sine of the angle); the norm in any format (C97); orthogonality of the computed axes from the error of the cross product alone; witnesses by computation in f64 |
| C128 | inner products bounded in Euclidean length (Cauchy-Schwarz on absolute values), one step of scaling and subtraction as in C125; the exact mirror image is an isometry and an involution, so errors of two applications add up; the quotient of two inner products has a relative error |
| C129 | squared norm and division bounded relative to the length; the product of two approximations from C109; the length is multiplicative, so errors carry over to products; witnesses by computation in f64 |
| C130 | rounding to nearest is at least as near as the argument itself, so undoing costs at most twice the error of the first step; exactness on a common grid and for powers of two from the format of the floats; a sum of zeros and one number is that number (axis shears); shears along any direction as in C128; witnesses by computation in f64 |
| C131 | the four squares 4w^2, 4x^2, 4y^2, 4z^2 add up to 4, so the branch the float comparisons take has a component at least about 1/2 whatever rounding does; sums, root and quotients bounded step by step; existence of the unit quaternion from C43; back to the matrix with C124; viewing frames from C127 are rotations |
| C132 | the weights sin(t a)/sin a, as functions of the cosine, have slope at most 4 (mean value theorem), so an error of the cosine costs little; the square of a float cosine c close to 1 is within (1 - c)^2 of the float 2c - 1, which bounds the relative error of the computed sine by sqrt u; segment and arc differ by 9 (1 - cos); the three branches put together |
| C133 | pi to twenty digits by Machin's formula; the four factors are literals within u/3 of pi/180 and 180/pi; one rounded multiplication by such a factor; monotone rounding for order and ranges; sin z >= 0.999 z near zero for the straight angle |
| C134 | products of two values known up to relative errors, one rounding each; cosh a + cos b loses the factor k; norm by the bound of C97; roots by the bound for square and cube roots and the angle divided by two or three, with double and triple angle formulas for the exact root; powf by the shift of exp |
| C135 | directions by the bound of C97, cross product within 52u, so the axis within 116 u/s by normalisation; dot product within 80u, its arc cosine by the Lipschitz bound of acos away from 1 or -1 in terms of s; half angle through sine and cosine, matrices by the sandwich perturbation bounds of C124; nearly parallel vectors: cosine near 1, so the angle is at most a multiple of sqrt(u) on every branch |
| C136 | refuted: witness computed in f64 up to the axis, the rest for an arbitrary accurate library; positive part from C135 by the linearity of the rotation |
| C137 | a perturbed point of the plane has an angle within 2e/rho up to full turns (polar_pert, from the mean value bound of atan), arc sine and arc cosine by their Lipschitz bounds away from 1 and -1, the axis from the antisymmetric part of the matrix, normalised by C97; the plane's rotation_between from the rounded dot and cross products |
| C138 | positive part: the extracted angles of C137 fed to the bound of C124; refuted by an exact permutation matrix: atan2 of two zeros is a zero, while the rebuilt entry should be 1; the correctly rounded arc sine of 1 is computed from 20 digits of PI |
| C139 | the rounded norm is within 4u of the exact one (C97), the functions are Lipschitz with the stated factors, the direction of the vector part times the quotient g(n)/n loses a few roundings (large_branch), and below the threshold g(n) itself is below the bound (small_branch); a zero vector part gives an exact zero |
| C140 | positive parts: the root is written with r + s, whose relative error is 4u kappa if r <= kappa (r + s); the logarithm's arc cosine by acos_pert; the argument by atan2_near. Refuted by computed f64 witnesses, the library staying arbitrary |
| C141 | from the theorems about the wrapped operations (C22, C35, C83, C90); the float distance from exact subtraction errors and C97 |
| C142 | powf: pow_parts bounds the scaled logarithm by C140's ln_close, then the exponential of a perturbed vector (len_diff, sin_dir); tan: numerator and denominator are sums of positive terms, so every step is relative (mul_gen, div_gen); tanh: the denominator's cos is perturbed absolutely, hence the division by D and its root |
| C143 | errors as factors exp(t) with a bound on t (`by_exp`, `ml` in LUnpF), so products and quotients add up; the cancelling sums 1 - c22 and 1 + c20 cost the ratio of the planes, hence depth_range and side_range; w of the unprojected point is near / d with an absolute error 52 u / N, so 1 / w has error d^2 / N; the round trip adds C123 |
| C144 | reals first (LInvA, LInvB): length `nm`, square root and argument under perturbation, the formulas are exact inverses; then each float step is an `off`set relative to the length (LInvC): root_near_off, log_near_off; acosh is cancellation-free (half-angle form); asinh and acos need Re z >= 0 (Im z >= 0) so the sum z + sqrt does not cancel, and kappa = (1 + abs z^2) / abs(1 +- z^2); asin and atan by turning the plane; the counterexamples by evaluation with only the special values of the library (LInvH), acos(-2) with PI to 20 digits (LInvI) |
| C145 | errors as factors again: c = near / (tan * near) is the cotangent up to two roundings; arctangents keep relative errors (`by_atan`, concavity); the rounded 2c / (c^2 - 1) is the exact one of a c' within 5 u of c (`cot_half`), so no case distinction near a right angle; c >= 1 exactly when the computed tangent is at most 1 (LFovB `c_above`, `c_below` by the spacing of floats); denominator 0 gives +inf and a right angle |
| C146 | the order of the floats that are not NaN by cases (LNormFA `le`), under which a rounded sum of floats without a sign is at least each term; loops as `maxn` and `sumn` with their specifications by induction; the first addition, to zero, is exact, so a sum of n terms has n - 1 roundings; equality of the distances because subtraction is odd up to the sign of zero |
| C147 | errors of complex products relative to the product of the moduli: 2 sqrt 2 u and the underflow term, rounded up to 3 u (LPowFA `prod_rl`); `ap x j` (x approximates the j-th power up to (1 + 3 u)^(j - 1)) is kept by every product of the loops, whose invariants are those of C33 and C34 with exponents in place of values |
| C148 | a perturbation of the sum and of the exponent 1/p is carried through exp and ln (LLpFA `root_near`); the sum is C146's `sumn_err`; 1/p in f64 and its rounding to f32; a correctly rounded library built with `cr` of SpecCR.v shows that the requirements can be met |
| C149 | C134's error analysis of polar products, with a radius of relative error a and an angle of absolute error h (LCplxG `polar_parts`, `exp_parts`); the product of the exponent and the logarithm is a sum of two products (`dot_near`) |
| C150 | the component lists of C98's specification, combined position by position (`zip2`, `zip3`); failures by induction on the lists (LReport `fail4`, `fail2`) |
| C151 | the component errors of the product (C109) with one addition and one halving; scalar parts of pq and qp are equal floats since multiplication of floats commutes (LQInOut) |
| C152 | norm and normalization by C97, the norm of the vector part of the unit quaternion with an absolute error (tiny vectors by monotonicity, LQPolF `norm_tiny`), atan2 by LAngF `atan2_near`, products by LQFunF `prod_abs` |
| C153 | rounded sums of at most four products (LFloatVec), the quotient of two approximate values (LTfF `quot_near`), exact weight for affine matrices (LTfP `zero_sum`) |
| C154 | a row of the product is the transform's own sum with zero terms added, and division by the exact weight 1 changes nothing (LSame `affine_point`, `affine_vector`, `sum_one`) |
| C155 | a row of each matrix is bounded entry by entry with the `fapp` calculus and combined by LSame `affine_point` (LAffM `row2`, `row3`) |
| C156 | a nested accumulation is flattened into one sum (LTraceF `flat_loop`, `flat_sum`) so that LFloat `dot_err_bound` applies; the bitwise equalities hold because the loops run in the same order and products commute |
| C157 | relative errors in Euclidean norm: LSimF `mul_step` (an approximate vector times an approximate scale) added to the step lemmas of LRigidF |
| C158 | a real matrix with the exact frame as rows is orthonormal (C127), so the float matrix is near an orthonormal one and the step lemmas of LRigidF apply (LViewF `round_trip`, `view_apply`) |
| C159 | rows of the matrices bounded by the calculus of C155 (LAffM `row2`, `row3`); the coordinate shears by a sum with two entries that are not zero (LLinFP `sum_two`); symmetry because doubling is exact (LCplxFP `double_exact`) |
| C160 | step lemmas of LRigidF as for C157: each product is near an exact isometry (LMixFP `rot_vec`, `iso_app`) |
| C161 | entries of the product by the dot product bound of C153, its last row by sums of zeros (LTfMulP `last_row`), then C153 for the product matrix |
| C162 | entries of the inverse by C111, their size by the cofactor formula (LTfInv `inv_size3`, `inv_size4`), the exact solution by `solve_real`, then C153 for the inverse matrix |
| C163 | zero terms of the sums drop out exactly (LSame `sum_two`), 1 / -z is -1 / z bit for bit (LProjVP `one_div_neg`), then C123 for the frustum and for the frustum with exchanged sides |
| C164 | all but one or two terms of each sum are zero and drop out exactly (LSame `sum_one`, LLinFP `sum_two`) |
| C165 | C130's bound for a product divided back (LTrScF `scale_back`) componentwise; symmetry of rounding (LComplexFP `round_aux_neg`) for the signs |
| C166 | componentwise: products commute and rounding is symmetric (LComplexFP, LComplexIP `feqv_add_neg`, `feqv_sub_swap`), the terms are added in the same order on both sides |
| C167 | products of negated factors (LComplexFP `fmul_neg_l/r`) through the chain of sums; witnesses computed |
| C168 | a finite float minus itself is zero (Flocq `Bminus_correct`), zero times finite is zero; witnesses computed |

## 3. What is modelled, file by file

| Coq file | Rust file(s) | Modelled |
|---|---|---|
| `MVector.v` | core/vector.rs | arithmetic and assignment operators, dot, cross, triple, norms (l1, l2, linf), distances, normalize family, lerp, project, reflect, component_mul/min/max, extend/contract/homogeneous, unit vectors, try_cast, map, is_zero, Vector4 to Vector3 |
| `MPoint.v` | core/point.rs | affine operators and assignments, homogeneous conversions, extend/contract, norms, distances |
| `MMatrix.v` | core/matrix.rs | constructors, indexing, rows/columns, swaps, transpose(+_mut), arithmetic and assignments, dot/tr_mul/tr_dot, products, determinant, try_inverse, trace, diagonal, predicates, norms, normalize family, scale/translation/shear/reflection matrices, embeddings, cross_matrix, try_cast |
| `MRot.v` | core/matrix.rs, core/euler.rs, core/matrix_euler.rs | rotations from angles and axes, look_*, rotation_between*, Euler angles |
| `MComplex.v` | core/complex.rs | all arithmetic, mixed scalar operators, assignments statement by statement, powu/powi loops, exp/log/roots/powers, trigonometric and hyperbolic functions and inverses (finite branches), polar form, normalize |
| `MQuat.v` | core/quaternion.rs | all arithmetic, inverse/division, matrices(+_mut), from_matrix, axis-angle, exp/ln/powf/sqrt, slerp/nlerp/lerp, polar form, trigonometric and hyperbolic functions and inverses, look_*, rotation_between* |
| `MAngle.v` | trigonometry/lib.rs | conversions, trigonometric functions in both units, normalize(+_signed), opposite, bisect, turn fractions |
| `MMisc.v` | core/unit.rs, numeric/lib.rs, swizzles of vector.rs/point.rs | Unit constructors, clamp, copysign, lp_norm, abs_diff_eq, all swizzle methods |
| `MTransform.v` | transform/{translation,scale,rotation,reflection,shear,isometry,isometry_ops,similarity,transform}.rs | constructors, apply, inverse (+_mut), inverse_apply, composition, matrices, extraction of angle/axis/Euler angles, viewing isometries, comparisons |
| `MProjection.v` | transform/projection.rs, core/matrix.rs | perspective, perspective_vfov, orthographic: constructors, getters, project/unproject |
| `MApprox.v` | the `RelativeEq`/`UlpsEq` impls of all types | how the comparison of a composite type is built from the scalar one; matrix is_invertible |
| `MInt.v` | numeric/lib.rs (integer impls) | machine integers of any width with wrap-around |
| `MRem.v` | `Div`, `Rem`, `DivAssign`, `RemAssign` by a scalar of all types | the loops with a scalar operation that may panic; integer quotient and remainder with their panics, exact float remainder |
| `MSign.v` | numeric/lib.rs, core/complex.rs | signum, abs, copysign and sign predicates of floats and integers; is_finite, is_nan, is_infinite of complex numbers |
| `MDisplay.v` | the `Display` impls of all types | text built statement by statement, panics for zero dimensions; the outer format parameters are ignored as in the code |
| `MAngleF.v` | trigonometry/lib.rs | normalize(+_signed), opposite, bisect with rounding |
| `MComplexF.v` | complex.rs | norm, arg, from_polar_decomposition, cis, exp, ln, sqrt, cbrt, powf and the twelve trigonometric and hyperbolic functions over floats with all branches for zeros, infinities and NaN; the real functions are a parameter |
| `MView.v` | vector.rs, point.rs, matrix.rs, complex.rs, quaternion.rs, coordinates.rs | indexing by ranges, `AsRef`/`AsMut`, `as_slice`, `as_ptr`, `Deref` to named coordinates and `ViewSV`, `len`, `is_empty`, `shape`; memory is a list of scalars, layouts are those of `repr(C)` structs and arrays |
| `MChecked.v` | numeric/lib.rs (integer impls) | integers of any width in builds with overflow checks; a panic is `None` and propagates to the result |
| `MRotF.v` | core/matrix.rs, core/quaternion.rs, core/euler.rs | the constructors of rotations from angles over any scalar type, with the sine and cosine of the scalar type as parameters (`MRot.v` and `MQuat.v` are the instances over the reals, `c124_reals`) |
| `MArcF.v` | core/quaternion.rs, core/matrix.rs, transform/rotation.rs | ln, nlerp, slerp, rotation_between, the angle and the Euler angles of a rotation over floats; the functions of the standard library are parameters |
| `MLookF.v` | core/matrix.rs | look_to and look_at of Matrix3x3 and Matrix4x4 over floats (the `_inv` versions are in `MViewF.v`) |
| `MRefF.v` | core/vector.rs | `reflect` over floats (C128; `Reflection`, `project` and `reject` are the generic functions of `MTransform.v`, `MVector.v` and `MQuat.v` at the float scalars) |
| `MQInvF.v` | core/quaternion.rs | `try_inverse`, `is_invertible`, `div_left`, `div_right` over floats |
| `MAngF.v` | transform/rotation.rs, core/matrix.rs | `Rotation3::axis`, `axis_angle`, `Rotation2::angle`, `from_angle`, `rotation_between`, `rotation_between_axis`, `Matrix2x2::rotation_between`, `rotation_between_axis` over floats |
| `MQFunF.v` | core/quaternion.rs | `arg`, `exp`, `powf`, `sqrt`, `cos`, `sin`, `tan`, `cosh`, `sinh`, `tanh` over floats |
| `MFov.v` | core/matrix.rs, transform/projection.rs | `from_perspective_vfov`, `from_vfov`, `vfov` over floats; the tangent and the arctangent are parameters |
| `MNormF.v` | core/vector.rs, core/matrix.rs, numeric/lib.rs | `l1_norm`, `linf_norm` and their distances, `component_min`, `component_max`, the matrix norms and the scalar `max`, `min`, `clamp` over floats; `max` and `min` are the standard library's (NaN operands dropped), the choice between zeros of opposite sign is a parameter |
| `MPowF.v` | core/complex.rs | `powi` over floats with its test for NaN (`powu` is generic and in `MComplex.v`) |
| `MLpF.v` | core/vector.rs | `lp_norm` over floats; `powi` and `powf` of the platform are parameters |
| `MCplxG.v` | core/complex.rs | `from_angle`, `polar_decomposition`, `exp2`, `log`, `log2`, `log10`, `powc` over floats; `exp2`, `log` and the constants `ln_2`, `ln_10` of the platform are parameters |
| `MReport.v` | core, transform, trigonometry | the `debug_*` helpers of the Assert traits of approx_cmp for all composite types; the helpers of scalars are parameters, those of arrays are taken to work position by position |
| `MQPolF.v` | core/quaternion.rs, core/unit.rs | `polar_decomposition`, `from_polar_decomposition` over floats, with the library's functions as parameters |
| `MViewF.v` | core/matrix.rs, transform/isometry.rs, rotation.rs, similarity.rs | the `_inv` viewing matrices (3x3, 4x4) and isometries, the viewing isometries and similarities over floats |
| `MDegF.v` | conversions between degrees and radians, named fractions of a turn, trigonometric functions in degrees and reciprocals over floats; the library functions are parameters |
| `MQMatF.v` | core/quaternion.rs | `from_matrix` and `look_to_*`, `look_at_*` over floats |
| `MFloat.v`, `MFloatVec.v` | numeric/lib.rs (f32/f64 impls), vector.rs | IEEE binary32/64 arithmetic (Flocq), norm and normalize |

Not modelled: addresses, aliasing and provenance of pointers, the casts to tuples (the layout of a Rust tuple is
not specified, so `AsRef<(S, S)>` and its kin rest on an unstated assumption; `Deref` of vectors and quaternions goes
through a pointer to the first element only), `Debug`, hashing, serde, the scalar comparisons and
scalar `debug_*` helpers of the external crate approx_cmp (parameters), SIMD, rounding inside transcendental functions
(they are exact real functions here), signed zeros and infinities outside `MFloat*.v`, `MAngleF.v`, `MComplexF.v`, `MQFunF.v`, `MFov.v`, `MNormF.v`, `MPowF.v`, `MLpF.v`, `MCplxG.v`, `MQPolF.v`, `MSign.v` and `MRem.v`, overflow panics
of debug builds in functions other than those of `MChecked.v`, `copysign`, `clamp`, `/` and `%`.

## 4. Findings: where the code does not do what its documentation says

Each is a theorem `..._refuted` with an explicit witness about the model; the property is recorded as
`partial` in MANIFEST.json and the strongest true version is proved beside it.

| Property | Place | Finding |
|---|---|---|
| C09 | vector.rs 657-665 | `lp_norm(p)` casts `p` to `i32`; from 2^31 on the exponent is negative |
| C24 | matrix.rs 1367 | `diagonal` always returns a `Vector4`: zero padding for N < 4, panic for N > 4 |
| C32 | complex.rs 2896 | `scalar - Complex` does not negate the imaginary part |
| C34 | complex.rs 1304-1345 | `powi` with a negative exponent ignores the odd part of the exponent (2^-3 gives 1/2) |
| C38, C41, C93 | complex.rs 1214, quaternion.rs 1599, matrix.rs 2670... | `is_invertible` and `try_inverse` disagree (at the threshold; for tiny determinants) |
| C45 | quaternion.rs 1878-1899 | `ln` of a negative real drops the sign, so exp(ln(-x)) = x |
| C47 | quaternion.rs 2843 | `slerp(p, q, 0)` is -p when the dot product is negative (same rotation) |
| C48 | quaternion.rs 3055-3112 | `polar_decomposition` returns the half angle, which `from_polar_decomposition` halves again |
| C52 | matrix.rs 3235 | `Matrix2x2::rotation_between_axis` always turns counterclockwise |
| C62 | matrix.rs 7488-7659 | `Matrix4x4::look_*_inv` have a wrong translation column |
| C63 | isometry.rs 1600-1774, similarity.rs | the same for `Isometry3`/`Similarity3::look_*_inv` |
| C67, C68 | shear.rs 324, 697 | `Shear::apply_vector` depends on the origin (moves the zero vector); inverse needs direction orthogonal to normal |
| C73 | isometry.rs 1837 | `Isometry::abs_diff_all_eq` ignores the translation |
| C75 | transform.rs 310 | `apply_vector` drops the weight, so it is not functorial for projective matrices |
| C78, C84, C85 | projection.rs | parameter getters give NaN when left/bottom (perspective) or near/left/bottom (orthographic) are 0 |
| C79, C80 | projection.rs 1919 | `Perspective3::project_point` uses entry c3r1 instead of c2r1 |
| C81 | projection.rs 825 | `vfov()` of a field of view above a right angle is vfov - pi |
| C87 | numeric/lib.rs 1527 | integer `copysign` overflows on the minimum although the result is representable |
| C94 | quaternion.rs 3189-3369 | `acos`/`asin`/`atan` of a real quaternion divide by zero; wrong branch of `acos` on some pure quaternions |
| C97 | vector.rs 572, 1498 | `normalize` of a finite f64 vector can be NaN (length 2^-600) or zero (length 2^600) |
| C107 | complex.rs 687 | `is_infinite` is false for an infinite part next to a NaN part |
| C110 | complex.rs Div, inverse | division squares the modulus without scaling: z / z is NaN for large z, inverse of a small z is None |
| C111 | matrix.rs try_inverse | in f64 a singular integer 3x3 matrix is inverted, diag(2^-600) is rejected, a singular 2x2 matrix gives NaNs |
| C112 | numeric/lib.rs copysign | integer `copysign(x, 0)` is |x| and float `copysign(x, NaN)` a number, unlike the documented signum(s)*|x| |
| C114 | matrix.rs 1538, vector.rs 1193, quaternion.rs 3950 | `Display` of types with a zero dimension underflows; the text of a quaternion ends with a newline |
| C115 | complex.rs 1764, 1853, 1465 | `asinh(-2^60)` is -infinity (cancellation in z + sqrt(1 + z^2)) although `asinh(2^60)` is finite; `atanh(2 - 0i)` and `atanh(2 + 0i)` are equal, so one is on the wrong side of the cut; `acos(inf - 0i)` has imaginary part -infinity; off every cut, `asinh(-2^60 + 3 2^32 i)` equals `asinh` of the conjugate, and `acos(-2^60 i)`, `asin(2^60 i)` have infinite imaginary parts while their conjugates are finite (all by cancellation) |
| C116 | trigonometry/lib.rs 413, 441 | `normalize` of a tiny negative angle is the full turn itself; `normalize_signed` returns the half turn that its documented range excludes |
| C117 | vector.rs 841, matrix.rs 1103, quaternion.rs 2775 | `lerp(u, v, 1)` can be far from v (2^60, 1 gives 0); `lerp(u, v, 0)` is NaN when v - u overflows |
| C118 | complex.rs 919, 961, 1128, 1810 | `exp(x + 0i)` has a NaN imaginary part once exp(x) overflows; `tanh` of a large real is NaN instead of 1; `ln` and `sqrt` of finite numbers are infinite, NaN or zero when the squared norm overflows or underflows |
| C123 | projection.rs 1919 | perspective depth in f64 is not monotone: with planes at 1 and 2, of two neighbouring distances the nearer gets the larger depth (product by a rounded reciprocal instead of a quotient) |
| C126 | matrix.rs 5249, rotation.rs 978, 1837 | no clamping before `acos` and `asin`: in f64 `Matrix3x3::rotation_between((1,3,1), (1+2^-27,3,1))` is a matrix of NaNs (`Quaternion::rotation_between` tests the range and is fine), `angle()` of the half turn about normalize(0,1,1) is NaN, `(r.inverse() * r).angle()` is NaN for r from the quaternion 3+i+j+2k, `euler_angles()` of the rotation from 1+3i+j+3k is NaN |
| C127 | matrix.rs 4888, 4940, 7262, 7328 | `up` is crossed with the already normalised (rounded) direction: for nearly parallel vectors only rounding errors are left. In f64 `look_to_lh((7,6,0), (7+2^-50,6,0))` has a first row of NaNs, and `look_to_lh((6,5,4), (6,5+2^-50,4))` is finite with first and third rows at an inner product of 0.68 |
| C129 | quaternion.rs 1569-1576 | the inverse uses the squared norm: in f64 a quaternion of length 2^600 gets the inverse 0, and one of length 2^-60 none, although 2^-600 and 2^60 are representable |
| C130 | shear.rs 324-410 | coordinates that an axis shear keeps are computed as y + 0 * displacement: if the displacement overflows they become NaN, in f64 already for the finite `from_shear_xy(2^600)` at the finite point (1, 2^600). Not a bug but worth knowing: translating 1 by 2^54 and back gives 0, scaling 6 by 0.1 and back gives more than 6 |
| C132 | quaternion.rs `slerp` | for quaternions closer than about the square root of the unit roundoff the rounded cosine is 1 and the first one is returned whatever the amount, so `slerp(p, q, 1)` is not `q` (`C132_sharp`) |
| C133 | trigonometry lib.rs 752-769, 361 | `Degrees::from(Radians::full_turn_div_6())` is not `Degrees::full_turn_div_6()` in f64 and f32 (it is not 60), and Degrees(3) in f64 does not survive the way to radians and back; sin(Degrees 180) has opposite signs in f64 and f32 (`C133_not_exact`, `C133_straight_angle`) |
| C136 | quaternion.rs 2365-2400 | the cross product of the normalised vectors is accepted as soon as its norm exceeds epsilon, where it is made of rounding errors: in f64 for (7, 13, 8) and (-(7*2^49 + 3), -13*2^49, -2^52), opposite up to rounding, a rotation is returned that misses the second direction by 2/5 (`C136_nearly_opposite_refuted`); for angles below about 2^-27 the identity is returned (`C136_small_angle`) |
| C138 | rotation.rs 1837-1853 | the gimbal-lock branch of `euler_angles` is guarded by `cos(asin x) == 0`, which rounding never reaches: for the exact f64 rotation with columns (0,1,0), (0,0,1), (1,0,0) the angles returned are (-0, pi/2, -0), and `from_euler_angles` of them is a different rotation (`C138_gimbal_lock_refuted`). The bound of C137 grows with 1/cos b on approach |
| C140 | quaternion.rs 2115-2127 | `sqrt` divides by `norm + s`, which cancels close to the negative real axis: in f64 sqrt(-1 + 2^-27 i) has scalar part NaN and x component infinite (`C140_square_root_refuted`), and sqrt(-1 + 2^-60 j) is i (`C140_square_root_axis_refuted`) |
| C140 | quaternion.rs 1878-1903 | `ln` takes the arc cosine of s/norm, which loses every angle below 2^-26: ln(1 + 2^-27 i) has no vector part (`C140_logarithm_refuted`); atan2 of the vector part's norm and s would keep it |
| C140 | quaternion.rs 1681-1693 | `arg` compares the scalar part with the absolute threshold eps although atan2 needs no such test: arg(2^-60 + 2^-60 i) is pi/2 instead of pi/4 (`C140_angle_refuted`) |
| C140 | quaternion.rs 3322-3344 | `tan` squares sinh of the norm, which overflows from a norm of about 355 on: tan(600 i) has NaN components, the exact value is i tanh 600 (`C140_tangent_refuted`) |
| C140 | quaternion.rs 3576-3597 | `tanh` squares sinh of the scalar part, which overflows from about 355 on: tanh(600 + i) has scalar part NaN (infinity over infinity), the exact value is 1 up to 2^-1700 (`C140_hyperbolic_tangent_refuted`) |
| C143 | projection.rs 877-950, 995-1070, 1116-1540, 2041-2078, 3009-3182, 3210-3579, 3970-3999 | planes are recovered from c22 (c20, c32, c30) through (1 - c) / (-c - 1): when far / near (or right / left) reaches 2^25 in f32 (2^54 in f64) the denominator is 0 and near() (far(), right()) and unproject_point are NaN (`C143_perspective_refuted`, `C143_orthographic_refuted`, `C143_sides_refuted`); below that far() loses about far / near units in the last place, e.g. far() = 1000.0000000000227 for planes 1 and 1000 in f64 |
| C144 | complex.rs 1764-1793, 1465-1511 | asinh(-2^27) in f64 (-2^12 in f32) is -inf (exact about -19.4) and acos(-2^27 i) has a NaN real part: z + sqrt(1 + z^2) cancels to 0 (`C144_cancellation_refuted`) |
| C144 | complex.rs 1465-1511 | acos(-2) in f32 has real part -PI instead of PI: the rounded PI exceeds PI, so sqrt(-3 + 0i) has a negative real part (`C144_branch_refuted`) |
| C144 | complex.rs 1764-1793, 1853-1884 | asinh(2^-60) = atanh(2^-60) = 0 and atanh(2^600) is NaN in f64 (`C144_small_refuted`) |
| C145 | projection.rs 825-832 | a field of view above a right angle comes back less PI (2 radians as -1.14); at a right angle the answer flips from PI/2 to -PI/2 if the library tangent of PI/4 is one unit above 1 (`C145_wide_refuted`, last clause of `C145_vfov_partial`) |
| C146 | vector.rs 541-549, matrix.rs 1743-1785 | `linf_norm` and the matrix norms drop NaN: a vector of NaNs has norm 0, its L-infinity distance to every vector is 0, and a matrix with a NaN entry has ordinary norms, while `l1_norm` of a vector keeps the NaN (`C146_nan_refuted`). `clamp` with the bounds in the wrong order does not panic, unlike the standard library's |
| C147 | complex.rs 1304-1345, 1257-1285 | in floats too the odd part of a negative exponent is ignored (2^-3 is 1/2, `C147_negative_refuted`); (2^600 + 0 i)^3 is infinity + NaN i (`C147_overflow_refuted`) |
| C126 | matrix.rs 3235 | `Matrix2x2::rotation_between_axis` takes sqrt(1 - cos^2) without clamping: in f64 `rotation_between((3,4), (3,4))` is a matrix of NaNs (`C126_plane_rotation_between_refuted`); `Rotation2::rotation_between` has no such case (`C137_plane_between`) |
| C148 | vector.rs 657-665 | with p = 2 the norm of (2^600) is infinite and the norm of (2^-600) is 0, because the powers overflow or underflow (`C148_range_refuted`); for p >= 2^31 the exponent wraps around and the norm of (2) is 0 (`C148_wrap_refuted`); p = 0 gives infinity for every vector with two or more components (`C148_special64`) |
| C149 | complex.rs 1416-1422 | `0.powc(2 + 0i)` is NaN in both parts, although 0^2 = 0 and `powf` handles it: ln 0 = -inf + 0i is multiplied by 2 + 0i, which contains 0 * inf (`C149_powc_zero_base_refuted`) |
| C150 | isometry.rs 1837-1842, 1892-1905 | `assert_abs_diff_all_eq!` of isometries passes although its own report would show a translation out of tolerance (`C150_isometry_refuted`; the cause is C73) |
| C151 | quaternion.rs 2245-2251, 2291-2297 | `inner` and `outer` add before halving, so they overflow where the result is representable: `inner` of 2^1023 and 1 is infinite (`C151_overflow`) |
| C152 | quaternion.rs 3055-3073, unit.rs 178-196 | `polar_decomposition` compares `norm_squared` with zero, which underflows and overflows: 2^-600 is decomposed as (0, 0, None), 2^600 has an infinite norm, and 1 + 2^-600 i has no axis (`C152_range_refuted`) |
| C153 | transform.rs 361-363 | `apply_point` unwraps `from_homogeneous`: when the weight cancels in floats to zero although its exact value is 1, it panics (`C153_cancelled_weight`) |
| C154 | similarity.rs 1015-1027 | `to_affine_matrix` of a similarity scales the rotation instead of the point, so matrix and `apply_point` round differently: 12.6 against 12.599999999999998 (`C154_similarity_differs`) |
| C156 | matrix.rs 892-903 | `a.dot(&b)` adds row by row, `(a^T b).trace()` column by column; with the entries 2^53, 1, 1, 1 the first is 2^53 and the second 2^53 + 2 (`C156_differs`) |
| C158 | matrix.rs 7488-7659, isometry.rs 1639-1774 | the wrong translations of C62 and C63 in f64: with the eye (1, 0, 0) looking along x the way there and back moves the eye to a point with first coordinate 0, and the product of the two 4x4 matrices has an entry -1 instead of 0 |
| C168 | In `f64` the cross product of `[3, 7, 1] * 0.1` and `[3, 7, 1]` is not zero, and `u.triple(&w, &u)` is not zero for `u = [0.1, 0.2, 0.3]`, `w = [3, 7, 1]`; only literally equal arguments of `cross` give zero. |
| C167 | The determinant of a 3x3 or 4x4 float matrix with two equal columns need not be zero: columns of six-digit integers give 16 in `f64`, and `try_inverse` returns a matrix. Transposing a 3x3 or 4x4 matrix can change the determinant in the last place. 2x2 matrices have neither problem. |

Observed while reading, without a theorem: `AsRef<(S, S)>` and similar casts rely on the layout of tuples, which Rust leaves unspecified.
Debug builds can panic in a dot product whose value is representable (`C121_dot_example`), where release builds return the right value.

## 5. Trusted base

* Coq 8.16.1's kernel (and its compiler to `.vo`).
* The axioms that `Print Assumptions` lists for each theorem, all from Coq's standard library; the
  complete list per theorem is in section 6.
* The faithfulness of the model: the reading of the Rust code recorded above each definition, including
  that the float functions `sqrt, sin, ...` are taken as exact real functions outside `MFloat*.v`, and that
  Flocq's `binary_float` operations describe Rust's `f32`/`f64` arithmetic.
* The English statements in `properties.jsonl` versus the Coq statements in `P*.v`.

The theorems were tested against wrong programs (`tools/mutants.py`, `tools/mutate.py`): each entry edits
one definition of the model like a plausible bug, and `seeded/LOG.jsonl` records which theorems then fail.

## 6. Assumptions of each theorem

<!-- assumptions -->

Generated by `tools/assumptions.py` from the built theories.

**Closed under the global context (no axioms)** (194 theorems):

`C01_vector_componentwise`, `C01_vector_module_laws`, `C02_matrix_in_place`, `C02_vector_in_place`, `C03_dot_bilinear_symmetric`, `C04_cross_product_laws`, `C04_triple_product`, `C04_triple_product_determinant`, `C05_extend_contract`, `C05_point_extend_contract`, `C05_point_from_homogeneous_value`, `C05_point_homogeneous`, `C05_vector_homogeneous`, `C06_matrix_lerp`, `C06_vector_lerp`, `C12_complex_try_cast`, `C12_matrix_try_cast`, `C12_quaternion_try_cast`, `C12_vector_try_cast`, `C13_component_mul`, `C13_map`, `C13_matrix_map`, `C14_matrix_is_diagonal_is_symmetric`, `C14_matrix_is_identity`, `C14_matrix_is_zero`, `C14_vector_is_zero`, `C15_point_affine_laws`, `C15_point_in_place`, `C16_matrix_additive_laws`, `C16_matrix_entries`, `C16_matrix_multiplicative_laws`, `C17_transpose`, `C17_transpose_adjoint`, `C17_transpose_mut`, `C18_component_mul`, `C18_fused_products`, `C19_from_rows_is_transposed_from_columns`, `C19_layout`, `C19_out_of_range_panics`, `C20_swap_columns`, `C20_swap_elements`, `C20_swap_rows`, `C21_determinant_alternating`, `C21_determinant_column_linear`, `C21_determinant_laplace`, `C21_determinant_multiplicative`, `C21_determinant_transpose_identity_scale`, `C22_inverse_complete`, `C22_inverse_none_iff_singular`, `C22_inverse_of_product`, `C22_inverse_two_sided`, `C23_trace`, `C24_diagonal_partial`, `C24_diagonal_refuted`, `C25_embedding`, `C25_embedding_determinant`, `C27_scale_translation_action`, `C27_scale_translation_composition`, `C28_coordinate_shears_2d`, `C28_coordinate_shears_3d`, `C28_coordinate_shears_compose`, `C28_coordinate_shears_determinant`, `C28_general_shear_action`, `C28_general_shear_laws`, `C29_affine_reflection_fixes_mirror`, `C29_reflection_action`, `C29_reflection_involution_determinant`, `C29_reflection_isometry`, `C30_conjugation_and_modulus`, `C30_division_inverts_multiplication`, `C30_ring_laws`, `C31_div_assign`, `C31_mul_assign`, `C32_scalar_complex_partial`, `C32_scalar_sub_refuted`, `C33_powu`, `C34_powi_negative_refuted`, `C34_powi_partial`, `C39_algebra`, `C39_assign_ops`, `C39_commute_iff`, `C39_conjugate_norm`, `C39_hamilton_product`, `C39_units`, `C42_to_matrix_action`, `C42_to_matrix_variants`, `C49_inner_outer`, `C49_project_reject`, `C64_translation_matrix`, `C64_translations`, `C65_scale_inverse`, `C65_scales`, `C66_reflections`, `C67_shear_constructors`, `C67_shear_identity`, `C67_shears`, `C71_isometry_composition`, `C72_mixed_products`, `C72_mixed_products_on_points`, `C74_similarity_composition`, `C75_transform_inverse_points`, `C75_transform_points`, `C75_transform_vectors_partial`, `C75_transform_vectors_refuted`, `C76_affine_matrices`, `C76_products`, `C76_representation`, `C76_transforms`, `C78_perspective_params_partial`, `C79_project_point_partial`, `C80_unproject_partial`, `C84_orthographic_params_partial`, `C85_orthographic_unproject_partial`, `C87_int_clamp`, `C87_int_copysign_partial`, `C87_int_copysign_refuted`, `C88_commutative_scalars`, `C89_determinant_quaternion_laws`, `C89_exact_when_it_fits`, `C89_matrix_laws`, `C89_reduction`, `C89_scalar_ring`, `C89_vector_laws`, `C90_complex_comparison_componentwise`, `C90_matrix_comparison_entrywise`, `C90_vector_comparison_componentwise`, `C91_swizzles_complete`, `C91_swizzles_return_spelled_components`, `C92_cross_matrix`, `C93_is_invertible_partial`, `C93_is_invertible_refuted`, `C98_all_components`, `C98_detects_every_difference`, `C98_per_component_tolerances`, `C98_reflexive_symmetric`, `C99_complex_in_place`, `C99_complex_map`, `C99_half`, `C99_scalar_division`, `C100_complex_predicates`, `C100_quaternion_predicates`, `C101_diagonal_matrices`, `C101_numbers_and_transforms`, `C101_standard_basis`, `C103_similarity_constructors`, `C105_transform_inverse_vector`, `C107_exactly_one`, `C107_is_infinite_partial`, `C107_is_infinite_refuted`, `C112_integer_copysign_partial`, `C112_integer_copysign_refuted`, `C112_integer_signum`, `C113_assign`, `C113_componentwise`, `C113_field_division`, `C113_integer_law`, `C113_integer_panics`, `C114_dimension`, `C114_injective`, `C114_never_panics_refuted`, `C114_single_line_refuted`, `C114_text_partial`, `C114_transform_injective`, `C114_transform_text`, `C119_complex`, `C119_nested`, `C119_quaternion`, `C119_range`, `C119_range_kinds`, `C119_split`, `C119_write`, `C120_columns`, `C120_coordinates`, `C120_coordinates_write`, `C120_matrix_array`, `C120_matrix_write`, `C120_pointers`, `C120_quaternion_view`, `C121_agrees_with_release`, `C121_componentwise_panics_iff`, `C121_dot_panics_iff`, `C121_matrix_product_panics_iff`, `C121_never_wrong`, `C121_never_wrong_products`, `C121_no_panic`, `C121_unsigned_dot`, `C141_inverse`, `C141_orthographic`, `C141_shear`, `C150_all_failure_is_shown`, `C150_all_tolerances`, `C150_differences`, `C150_failure_is_shown`, `C150_tolerances`.

**Axioms `ClassicalDedekindReals.sig_forall_dec`, `FunctionalExtensionality.functional_extensionality_dep`** (38 theorems):

`C03_dot_positive_definite`, `C06_matrix_lerp_between`, `C06_vector_lerp_between`, `C08_l1_norm_axioms`, `C08_linf_norm_axioms`, `C08_metric_distances`, `C08_norm_values`, `C11_project`, `C13_component_min_max`, `C23_trace_identity_real`, `C30_division_real`, `C38_is_invertible_partial`, `C38_is_invertible_refuted`, `C38_try_inverse`, `C54_normalize`, `C54_normalize_signed`, `C55_bisect`, `C55_opposite`, `C56_turn_fractions`, `C66_reflection_matrix`, `C73_isometry_approx_eq_partial`, `C73_isometry_approx_eq_refuted`, `C77_perspective_bijection`, `C77_perspective_corners`, `C77_perspective_depth`, `C77_perspective_frustum`, `C79_project_point_refuted`, `C80_unproject_refuted`, `C83_orthographic`, `C87_float_clamp`, `C90_matrix_abs_diff`, `C90_quaternion_approx`, `C90_vector_abs_diff`, `C106_projection_axes`, `C123_exact_projection`, `C141_comparison`, `C150_abs_diff_partial`, `C150_isometry_refuted`.

**Axioms `ClassicalDedekindReals.sig_forall_dec`, `ClassicalDedekindReals.sig_not_dec`, `FunctionalExtensionality.functional_extensionality_dep`** (88 theorems):

`C02_matrix_normalize_mut`, `C02_vector_normalize_mut`, `C03_cauchy_schwarz`, `C07_distance_axioms`, `C07_norm_axioms`, `C07_point_distance`, `C08_norms_ordered`, `C10_complex_normalize`, `C10_normalize`, `C10_quaternion_normalize`, `C10_try_normalize`, `C11_reflect`, `C26_matrix_metric`, `C26_matrix_norm_axioms`, `C26_matrix_norms_are`, `C26_matrix_norms_submultiplicative`, `C30_modulus_real`, `C35_exponential`, `C37_exponential_definitions`, `C37_pythagoras`, `C37_tangents`, `C39_norm`, `C40_division`, `C40_inverse`, `C40_inverse_product`, `C41_is_invertible_partial`, `C41_is_invertible_refuted`, `C42_double_cover`, `C42_to_matrix_rotation`, `C43_from_matrix`, `C43_from_to_matrix`, `C43_rotation3_quaternion`, `C44_axis_angle`, `C44_elementary`, `C45_exp_norm`, `C47_nlerp`, `C48_from_polar`, `C50_identities`, `C50_real`, `C50_slice`, `C50_slice_all`, `C54_units`, `C56_conversions`, `C56_normalization_commutes`, `C56_trigonometric_identities`, `C57_rotation_2d`, `C58_rotation_3d`, `C58_rotation_3d_elementary`, `C58_rotation_isometry`, `C59_euler_to_matrix`, `C61_look_4x4`, `C61_look_at_3x3`, `C61_look_at_4x4`, `C61_look_to_lh`, `C61_look_to_rh`, `C61_quaternion_look`, `C62_look_inv_partial`, `C62_look_inv_refuted`, `C63_look_inverse_partial`, `C63_look_inverse_refuted`, `C63_look_isometry`, `C66_reflection_distance`, `C67_shear_inverse_iff`, `C68_shear_matrix_partial`, `C68_shear_vector_refuted`, `C69_rotations`, `C71_isometry_group`, `C74_similarity_inverse`, `C82_perspective_vfov`, `C86_unit_complex`, `C86_unit_quaternion`, `C86_unit_vector`, `C101_zero_euler_angles`, `C102_complex_metric`, `C102_matrix_distance`, `C102_point_metric`, `C102_quaternion_metric`, `C103_isometry2_constructors`, `C103_isometry_constructors`, `C104_look_at_is_look_to`, `C104_viewing_quaternions`, `C104_viewing_similarities`, `C105_shear_composition`, `C127_frame`, `C128_mirror`, `C128_shadow`, `C129_exact_inverse`, `C141_scale`.

**Axioms `ClassicalDedekindReals.sig_forall_dec`, `ClassicalDedekindReals.sig_not_dec`, `Classical_Prop.classic`, `FunctionalExtensionality.functional_extensionality_dep`** (353 theorems):

`C09_lp_norm_1_2`, `C09_lp_norm_partial`, `C09_lp_norm_refuted`, `C35_logarithm`, `C35_polar`, `C35_powers`, `C36_roots`, `C37_inverse_functions`, `C37_inverse_tangents`, `C43_euler_of_quaternion`, `C45_exp_ln_partial`, `C45_exp_ln_refuted`, `C45_ln_exp`, `C45_powers`, `C46_sqrt`, `C46_sqrt_threshold`, `C47_slerp_partial`, `C47_slerp_speed`, `C47_slerp_start_refuted`, `C48_polar_partial`, `C48_polar_real`, `C48_polar_refuted`, `C51_matrix_rotation_between`, `C51_matrix_rotation_between_axis`, `C51_matrix_rotation_between_exact`, `C51_quaternion_rotation_between`, `C51_quaternion_rotation_between_axis`, `C51_quaternion_rotation_between_exact`, `C52_rotation_between_2d_partial`, `C52_rotation_between_2d_refuted`, `C53_rotation2_between`, `C53_rotation2_between_axis`, `C53_rotation3_between`, `C56_trigonometry_independent_of_unit`, `C57_rotation_2d_complete`, `C60_euler_extraction`, `C60_euler_range`, `C60_euler_roundtrip`, `C60_rotation3_euler`, `C69_rotation_constructors`, `C70_rotation2_angle`, `C70_rotation3_angle`, `C70_rotation3_axis`, `C70_rotation3_axis_angle_roundtrip`, `C70_rotation3_euler_theorem`, `C78_perspective_params_refuted`, `C81_from_vfov_partial`, `C81_from_vfov_refuted`, `C81_vfov_partial`, `C84_orthographic_params_refuted`, `C85_orthographic_unproject_refuted`, `C88_boundary`, `C88_float_matrices`, `C88_float_scalars`, `C88_float_vectors`, `C88_identity_is_exact`, `C94_acos_refuted`, `C94_inverse_hyperbolic_partial`, `C94_inverse_real_cut`, `C94_inverse_trig_partial`, `C95_arg`, `C96_dot_error`, `C96_f64_up_to_four`, `C96_finite_result_has_finite_operands`, `C96_matrix_product_error`, `C96_matrix_vector_error`, `C97_any_format_partial`, `C97_norm_error`, `C97_norm_f64_partial`, `C97_normalize_f64_partial`, `C97_normalize_refuted`, `C105_rotation_between`, `C107_nan_propagates`, `C108_determinant_exact`, `C108_dot_exact`, `C108_matrix_product_exact`, `C108_products_exact`, `C108_try_inverse_exact`, `C109_complex_product`, `C109_cross_product`, `C109_determinants`, `C109_quaternion_product`, `C110_division_partial`, `C110_division_refuted`, `C110_inverse_partial`, `C111_inverse2_partial`, `C111_inverse3_partial`, `C111_inverse4_partial`, `C111_inverse_refuted`, `C111_singular2`, `C112_float_copysign_partial`, `C112_float_copysign_refuted`, `C112_float_signum`, `C113_float_remainder`, `C113_float_special`, `C115_conjugation`, `C115_infinite_arguments`, `C115_infinite_values`, `C115_inverse_finite`, `C115_inverse_finite_refuted`, `C115_inverse_partial`, `C115_parity`, `C115_refuted`, `C116_normalize_partial`, `C116_normalize_refuted`, `C116_normalize_signed`, `C116_opposite_bisect`, `C116_signed_range_refuted`, `C116_special`, `C117_accuracy`, `C117_endpoints_partial`, `C117_endpoints_refuted`, `C118_finite`, `C118_overflow_refuted`, `C118_real_axis`, `C122_complex_products`, `C122_matrix_products`, `C122_quaternion_products`, `C123_orthographic_accuracy`, `C123_orthographic_order`, `C123_perspective_accuracy`, `C123_perspective_order_partial`, `C123_perspective_order_refuted`, `C124_axis_angle_matrix`, `C124_axis_angle_quaternion`, `C124_axis_angle_quaternion_matrix`, `C124_coordinate_angles`, `C124_euler`, `C124_quaternion_matrix`, `C125_apply`, `C125_composition`, `C125_distances`, `C125_round_trip`, `C125_similarity`, `C125_turn_about_axis`, `C125_turn_by_quaternion`, `C126_angle_coordinate`, `C126_angle_partial`, `C126_angle_refuted`, `C126_euler_partial`, `C126_euler_refuted`, `C126_half_turn_refuted`, `C126_ln`, `C126_matrix_rotation_between_refuted`, `C126_plane_rotation_between_refuted`, `C126_rotation_between`, `C126_slerp`, `C127_look_at_4x4_partial`, `C127_look_at_partial`, `C127_look_to_4x4_partial`, `C127_look_to_partial`, `C127_nan_refuted`, `C127_orthonormal_partial`, `C127_orthonormal_refuted`, `C128_distances`, `C128_project`, `C128_quaternion_project_reject`, `C128_reflect`, `C128_reflect_any_normal`, `C129_division_partial`, `C129_inverse_partial`, `C129_inverse_refuted`, `C129_small_not_invertible`, `C130_axis_constructors`, `C130_axis_shear`, `C130_not_exact`, `C130_scale`, `C130_shear`, `C130_translation`, `C130_translation_grid`, `C130_translation_products`, `C131_from_matrix`, `C131_look_at`, `C131_look_to`, `C131_rotation_matrix`, `C131_round_trip`, `C132_great_circle`, `C132_nlerp`, `C132_sharp`, `C132_slerp`, `C132_slerp_apart`, `C133_constants`, `C133_inverse_accuracy`, `C133_inverse_ranges`, `C133_named_angles`, `C133_not_exact`, `C133_order`, `C133_reciprocals`, `C133_round_trip`, `C133_sine_cosine`, `C133_straight_angle`, `C133_to_degrees`, `C133_to_radians`, `C134_cube_root`, `C134_exponential`, `C134_hyperbolic`, `C134_polar`, `C134_power`, `C134_square_root`, `C134_tangents`, `C134_trigonometric`, `C135_exact`, `C135_matrix`, `C135_nearly_parallel`, `C135_quaternion`, `C135_rotation`, `C136_image_partial`, `C136_nearly_opposite_refuted`, `C136_small_angle`, `C137_axis_angle`, `C137_axis_angle_round_trip`, `C137_euler`, `C137_euler_round_trip`, `C137_plane_angle`, `C137_plane_between`, `C138_gimbal_lock_refuted`, `C138_rebuild_partial`, `C139_exponential`, `C139_hyperbolic`, `C139_trigonometric`, `C140_angle_partial`, `C140_angle_refuted`, `C140_hyperbolic_tangent_refuted`, `C140_logarithm_partial`, `C140_logarithm_refuted`, `C140_square_root_axis_refuted`, `C140_square_root_partial`, `C140_square_root_refuted`, `C140_tangent_refuted`, `C141_distance`, `C141_from_angle`, `C142_hyperbolic_tangent`, `C142_power`, `C142_real`, `C142_tangent`, `C143_orthographic_planes_partial`, `C143_orthographic_refuted`, `C143_orthographic_round_trip_partial`, `C143_orthographic_unproject_partial`, `C143_perspective_planes_partial`, `C143_perspective_refuted`, `C143_perspective_round_trip_partial`, `C143_perspective_unproject_partial`, `C143_sides_refuted`, `C144_acos_partial`, `C144_acosh_partial`, `C144_asin_partial`, `C144_asinh_partial`, `C144_atan_partial`, `C144_atanh_partial`, `C144_branch_refuted`, `C144_cancellation_refuted`, `C144_small_refuted`, `C145_matrix`, `C145_vfov_partial`, `C145_wide_refuted`, `C146_clamp`, `C146_distance`, `C146_extremes`, `C146_l1`, `C146_linf_drops_nan_partial`, `C146_linf_exact_partial`, `C146_matrix_partial`, `C146_nan_refuted`, `C147_negative_partial`, `C147_negative_refuted`, `C147_overflow_refuted`, `C147_positive`, `C147_special`, `C148_accuracy32`, `C148_accuracy64`, `C148_library`, `C148_range_refuted`, `C148_special32`, `C148_special64`, `C148_wrap_refuted`, `C149_exp2`, `C149_exp_of_ln`, `C149_log`, `C149_log2_log10`, `C149_polar`, `C149_powc_partial`, `C149_powc_zero_base_refuted`, `C149_powc_zero_exponent`, `C151_inner`, `C151_inner_commutes`, `C151_outer`, `C151_outer_self`, `C151_overflow`, `C152_decomposition_partial`, `C152_from`, `C152_range_refuted`, `C152_real`, `C152_round_trip_partial`, `C153_affine`, `C153_cancelled_weight`, `C153_homogeneous`, `C153_point`, `C153_vector`, `C154_cross_matrix`, `C154_isometry`, `C154_orthographic`, `C154_rotation`, `C154_scale`, `C154_similarity_differs`, `C154_translation`, `C155_reflection2`, `C155_reflection3`, `C155_shear2`, `C155_shear3`, `C155_similarity`, `C156_differs`, `C156_distance_symmetric`, `C156_inner_product_error`, `C156_norm_squared`, `C156_trace_error`, `C156_transposed`, `C156_triple`, `C157_composition`, `C157_exact`, `C157_inverse`, `C158_inverse_refuted`, `C158_isometry_inverse_partial`, `C158_isometry_partial`, `C158_rotation_partial`, `C159_coordinate_shears`, `C159_reflect_twice`, `C159_reflection2`, `C159_reflection3`, `C159_shear2`, `C159_shear3`, `C159_symmetric`, `C160_mixed`, `C161_product`, `C162_inverse2`, `C162_inverse3`, `C163_orthographic_vector`, `C163_perspective_vector`, `C163_vector_is_point`, `C164_affine`, `C164_apply`, `C164_products`, `C165_back`, `C165_inverse1`, `C165_signs`, `C166_cross`, `C166_matrices`, `C166_quaternions`, `C167_equal_columns`, `C167_refuted`, `C167_signs`, `C168_refuted`, `C168_self`.
