{"id": "C01", "title": "Vector arithmetic obeys the module laws", "statement": "For vectors of the same dimension: addition is associative and commutative with the zero vector as unit and negation as inverse; subtraction is addition of the negation; scalar multiplication distributes over vector and scalar addition, is associative with scalar multiplication and has unit one; scalar*vector equals vector*scalar.", "quantifier": "every dimension N, every commutative ring of scalars (integers, wrapping integers, reals), all vectors and scalars", "why_tests_cant": "Tests fix the dimension at 1 to 4 and a few literal vectors; the claim is for every const-generic dimension and every component value.", "anchors": ["crates/cglinalg_core/src/vector.rs: Add, Sub, Neg, Mul<S>, zero", "crates/cglinalg_core/src/vector.rs: impl_vector_scalar ops"]}
{"id": "C02", "title": "In-place operators agree with the value-returning ones", "statement": "For vectors, points and matrices, `a op= b` leaves in `a` exactly the value `a op b`; `neg_mut`, `component_mul_assign`, `normalize_mut`, `conjugate_mut`, `transpose_mut` leave exactly what the non-mutating method returns, and `normalize_mut` also returns the norm before the call.", "quantifier": "every dimension, all operands", "why_tests_cant": "Tests fix the dimension at 1 to 4 and a few literal vectors; the claim is for every const-generic dimension and every component value.", "anchors": ["crates/cglinalg_core/src/vector.rs: AddAssign, SubAssign, MulAssign, DivAssign, neg_mut, component_mul_assign, normalize_mut", "crates/cglinalg_core/src/matrix.rs: *Assign, neg_mut", "crates/cglinalg_core/src/point.rs: *Assign", "crates/cglinalg_core/src/quaternion.rs: *Assign, conjugate_mut"]}
{"id": "C03", "title": "Dot product is a symmetric positive-definite bilinear form", "statement": "The dot product is the sum of componentwise products; it is symmetric and linear in each argument, `v.dot(v)` equals `norm_squared`, is non-negative for real scalars and is zero only for the zero vector; the Cauchy-Schwarz inequality |u.v| <= |u||v| holds.", "quantifier": "every dimension, all vectors", "why_tests_cant": "Tests fix the dimension at 1 to 4 and a few literal vectors; the claim is for every const-generic dimension and every component value.", "anchors": ["crates/cglinalg_core/src/vector.rs: dot, norm_squared, norm"]}
{"id": "C04", "title": "Cross product and scalar triple product laws", "statement": "The 3D cross product is anticommutative, bilinear, orthogonal to both operands, satisfies the Jacobi identity, the Lagrange identity |a x b|^2 = |a|^2|b|^2 - (a.b)^2 and a x (b x c) = b(a.c) - c(a.b); the triple product is invariant under cyclic permutation and equals the determinant of the matrix with those columns.", "quantifier": "all triples of 3D vectors over any commutative ring", "why_tests_cant": "Tests evaluate the identity at a handful of literal values; an identity that holds at those points can still fail elsewhere (sign, swapped term, special case).", "anchors": ["crates/cglinalg_core/src/vector.rs: cross, triple", "crates/cglinalg_core/src/matrix.rs: Matrix3x3::determinant"]}
{"id": "C05", "title": "Homogeneous coordinates round-trip", "statement": "`Vector::from_homogeneous(v.to_homogeneous()) = Some(v)`, `Point::from_homogeneous(p.to_homogeneous()) = Some(p)`; vector conversion returns None exactly when the last coordinate is non-zero and point conversion returns None exactly when the last coordinate is zero; scaling homogeneous point coordinates by a non-zero factor does not change the point; extend then contract is the identity.", "quantifier": "every dimension, all vectors and points, all non-zero weights", "why_tests_cant": "Tests fix the dimension at 1 to 4 and a few literal vectors; the claim is for every const-generic dimension and every component value.", "anchors": ["crates/cglinalg_core/src/vector.rs: extend, contract, to_homogeneous, from_homogeneous", "crates/cglinalg_core/src/point.rs: to_homogeneous, from_homogeneous"]}
{"id": "C06", "title": "Linear interpolation is affine and hits its endpoints", "statement": "`a.lerp(b, 0) = a`, `a.lerp(b, 1) = b`, `a.lerp(a, t) = a`, and componentwise lerp(a,b,t) = (1-t)a + t b; for 0<=t<=1 and real scalars every component stays between the components of a and b. Holds for vectors, matrices and quaternions.", "quantifier": "every dimension, all endpoints and amounts", "why_tests_cant": "Tests fix the dimension at 1 to 4 and a few literal vectors; the claim is for every const-generic dimension and every component value.", "anchors": ["crates/cglinalg_core/src/vector.rs: lerp", "crates/cglinalg_core/src/matrix.rs: lerp", "crates/cglinalg_core/src/quaternion.rs: lerp"]}
{"id": "C07", "title": "Euclidean norm and distance are a norm and a metric", "statement": "`norm` is non-negative, zero exactly on the zero vector, absolutely homogeneous and satisfies the triangle inequality; `metric_distance`/`distance` is symmetric, zero exactly on equal arguments and satisfies the triangle inequality; squared versions are the squares.", "quantifier": "every dimension, all real vectors and points", "why_tests_cant": "Tests fix the dimension at 1 to 4 and a few literal vectors; the claim is for every const-generic dimension and every component value.", "anchors": ["crates/cglinalg_core/src/vector.rs: norm, norm_squared, metric_distance, metric_distance_squared, L2Norm", "crates/cglinalg_core/src/point.rs: norm, metric_distance"]}
{"id": "C08", "title": "L1 and L-infinity norms are norms, and the norms are ordered", "statement": "`l1_norm` and `linf_norm` satisfy the norm axioms, the distances of the corresponding norm objects (`metric_distance`) are metrics, and linf <= l2 <= l1 <= N*linf for every vector.", "quantifier": "every dimension, all real vectors", "why_tests_cant": "Tests fix the dimension at 1 to 4 and a few literal vectors; the claim is for every const-generic dimension and every component value.", "anchors": ["crates/cglinalg_core/src/vector.rs: l1_norm, linf_norm, L1Norm, LinfNorm, Norm::metric_distance"]}
{"id": "C09", "title": "Lp norms", "statement": "For p >= 1, `lp_norm(p)` is non-negative, zero exactly on the zero vector, absolutely homogeneous, agrees with l1_norm at p=1 and norm at p=2, and satisfies the triangle inequality (Minkowski).", "quantifier": "every dimension, every p >= 1, all real vectors", "why_tests_cant": "Tests fix the dimension at 1 to 4 and a few literal vectors; the claim is for every const-generic dimension and every component value.", "anchors": ["crates/cglinalg_core/src/vector.rs: lp_norm, LpNorm"]}
{"id": "C10", "title": "Normalization", "statement": "For a non-zero vector, `normalize` has norm one and `v = normalize(v) * norm(v)`; `try_normalize(t)` is None exactly when norm <= t and otherwise equals `normalize`; normalizing twice is the same as once.", "quantifier": "every dimension, all real vectors and thresholds", "why_tests_cant": "Tests fix the dimension at 1 to 4 and a few literal vectors; the claim is for every const-generic dimension and every component value.", "anchors": ["crates/cglinalg_core/src/vector.rs: impl Normed for Vector (normalize, try_normalize, normalize_mut, try_normalize_mut)"]}
{"id": "C11", "title": "Projection and reflection of vectors", "statement": "`v.project(w)` is parallel to w and v - project is orthogonal to w (w non-zero); `v.reflect(n)` preserves the norm, is an involution, negates the component along n and fixes the component orthogonal to n.", "quantifier": "every dimension, all vectors, all non-zero directions", "why_tests_cant": "Tests fix the dimension at 1 to 4 and a few literal vectors; the claim is for every const-generic dimension and every component value.", "anchors": ["crates/cglinalg_core/src/vector.rs: project, reflect"]}
{"id": "C12", "title": "Casting is all-or-nothing", "statement": "`try_cast` on vectors, points, matrices, quaternions succeeds exactly when every component converts and then holds the converted components in the same order; it returns None exactly when some component fails; `cast` panics exactly when try_cast is None.", "quantifier": "every dimension, every partial scalar conversion, all inputs", "why_tests_cant": "Tests fix the dimension at 1 to 4 and a few literal vectors; the claim is for every const-generic dimension and every component value.", "anchors": ["crates/cglinalg_core/src/vector.rs: try_cast, cast", "crates/cglinalg_core/src/point.rs: try_cast", "crates/cglinalg_core/src/matrix.rs: try_cast", "crates/cglinalg_core/src/quaternion.rs: try_cast"]}
{"id": "C13", "title": "Componentwise maps and min/max", "statement": "`map(f)` applies f to each component in place and composes; `component_min`/`component_max` are commutative, associative, idempotent, mutually absorbing, and bound their arguments componentwise; `component_mul` is commutative, associative, distributes over addition.", "quantifier": "every dimension, every function, all vectors", "why_tests_cant": "Tests fix the dimension at 1 to 4 and a few literal vectors; the claim is for every const-generic dimension and every component value.", "anchors": ["crates/cglinalg_core/src/vector.rs: map, component_mul, component_min, component_max", "crates/cglinalg_core/src/matrix.rs: map, component_mul"]}
{"id": "C14", "title": "Exact predicates decide what they say", "statement": "`is_zero` is true exactly for the all-zero value and `is_identity`, `is_diagonal`, `is_symmetric` (for exact scalars) are true exactly when the entries say so.", "quantifier": "every dimension, all values", "why_tests_cant": "Tests fix the dimension at 1 to 4 and a few literal vectors; the claim is for every const-generic dimension and every component value.", "anchors": ["crates/cglinalg_core/src/vector.rs: is_zero", "crates/cglinalg_core/src/matrix.rs: is_zero, is_identity, is_diagonal, is_symmetric"]}
{"id": "C15", "title": "Points form an affine space over vectors", "statement": "p + (q - p) = q, (p + u) + v = p + (u + v), p + 0 = p, p - v = p + (-v), (p + v) - p = v, (p - q) + (q - r) = p - r; to_vector/from_vector are mutually inverse.", "quantifier": "every dimension, all points and vectors over any commutative ring", "why_tests_cant": "Tests fix the dimension at 1 to 4 and a few literal vectors; the claim is for every const-generic dimension and every component value.", "anchors": ["crates/cglinalg_core/src/point.rs: Add, Sub, to_vector, from_vector, origin"]}
{"id": "C16", "title": "Matrix arithmetic obeys the ring and module laws", "statement": "Matrix multiplication is associative for all compatible shapes, distributes over addition on both sides, has the identity as two-sided unit, commutes with scalar multiplication; addition is an abelian group; (A*B)*v = A*(B*v).", "quantifier": "every shape, every commutative ring, all matrices", "why_tests_cant": "Tests cover at most 4x4 (some rectangular) literals; associativity for arbitrary const-generic shapes needs summation-exchange by induction.", "anchors": ["crates/cglinalg_core/src/matrix.rs: Mul, Add, Sub, Neg, identity, zero, dot_array_col"]}
{"id": "C17", "title": "Transposition", "statement": "transpose is an involution, is linear, reverses products ((AB)^T = B^T A^T), entry (r,c) of the transpose is entry (c,r); the in-place `transpose_mut` (nested swap loop) produces exactly the transpose for every square size.", "quantifier": "every shape, all matrices", "why_tests_cant": "Tests fix the dimension at 1 to 4 and a few literal vectors; the claim is for every const-generic dimension and every component value.", "anchors": ["crates/cglinalg_core/src/matrix.rs: transpose, transpose_mut, swap"]}
{"id": "C18", "title": "Fused products equal their definitions", "statement": "`tr_mul(A,B) = A^T * B`, `tr_dot(A,B) = (A^T).dot(B)`, `dot(A,B)` = sum of entrywise products = trace(A^T B); matrix*vector equals the matrix product with the one-column matrix, and the k-th column of A*B is A * (k-th column of B); component_mul is the entrywise product and dot(A,B) is the sum of its entries.", "quantifier": "every shape, all matrices", "why_tests_cant": "Tests fix the dimension at 1 to 4 and a few literal vectors; the claim is for every const-generic dimension and every component value.", "anchors": ["crates/cglinalg_core/src/matrix.rs: tr_mul, tr_dot, dot, Mul<Vector>, component_mul"]}
{"id": "C19", "title": "Constructors, indexing and layout agree", "statement": "from_columns/column, from_rows/row, indexing by column and by (column,row), and conversion from a flat array (column-major) all agree on which entry is where; from_rows is the transpose of from_columns; out-of-range indexing panics.", "quantifier": "every shape, all entries", "why_tests_cant": "Tests fix the dimension at 1 to 4 and a few literal vectors; the claim is for every const-generic dimension and every component value.", "anchors": ["crates/cglinalg_core/src/matrix.rs: from_columns, from_rows, row, column, Index, From<[S; RC]>"]}
{"id": "C20", "title": "Row, column and element swaps", "statement": "swap_rows(a,b), swap_columns(a,b) and swap(x,y) exchange exactly the two named rows/columns/entries, leave everything else unchanged, are involutions, and panic exactly when an index is out of range.", "quantifier": "every shape, all matrices, all index pairs (including equal)", "why_tests_cant": "Tests fix the dimension at 1 to 4 and a few literal vectors; the claim is for every const-generic dimension and every component value.", "anchors": ["crates/cglinalg_core/src/matrix.rs: swap_rows, swap_columns, swap"]}
{"id": "C21", "title": "Determinants of 1x1 to 4x4 matrices", "statement": "`determinant` equals the Laplace expansion, is multiplicative, invariant under transposition, alternating in the columns, one on the identity, and zero when two columns coincide.", "quantifier": "all matrices over any commutative ring", "why_tests_cant": "Tests evaluate the identity at a handful of literal values; an identity that holds at those points can still fail elsewhere (sign, swapped term, special case).", "anchors": ["crates/cglinalg_core/src/matrix.rs: Matrix1x1::determinant, Matrix2x2::determinant, Matrix3x3::determinant, Matrix4x4::determinant"]}
{"id": "C22", "title": "Matrix inversion is correct and total on invertible matrices", "statement": "For 1x1 to 4x4 matrices over a field, `try_inverse` returns None exactly when the determinant is zero and otherwise returns the unique two-sided inverse; inverse of a product is the reversed product of inverses; `inverse` panics exactly when the determinant is zero.", "quantifier": "all matrices over any field", "why_tests_cant": "Tests evaluate the identity at a handful of literal values; an identity that holds at those points can still fail elsewhere (sign, swapped term, special case).", "anchors": ["crates/cglinalg_core/src/matrix.rs: try_inverse, inverse (1x1, 2x2, 3x3, 4x4)"]}
{"id": "C23", "title": "Trace", "statement": "trace is linear, trace(A^T)=trace(A), trace(AB)=trace(BA) for all square sizes, and trace(identity)=N.", "quantifier": "every size, all matrices", "why_tests_cant": "Tests fix the dimension at 1 to 4 and a few literal vectors; the claim is for every const-generic dimension and every component value.", "anchors": ["crates/cglinalg_core/src/matrix.rs: trace"]}
{"id": "C24", "title": "`diagonal` returns the N diagonal entries of an NxN matrix", "statement": "For every N, `diagonal()` of an NxN matrix returns a vector with exactly the N diagonal entries, and `from_diagonal(d).diagonal() = d`.", "quantifier": "every N, all matrices", "why_tests_cant": "The only tests use N=4, the one size at which the hard-coded return type is right.", "anchors": ["crates/cglinalg_core/src/matrix.rs: diagonal, from_diagonal"]}
{"id": "C25", "title": "Embedding smaller matrices into larger ones is a homomorphism", "statement": "Converting an MxM matrix to an NxN matrix (M<N) keeps the block, pads with the identity, maps identity to identity and products to products, and preserves the determinant.", "quantifier": "all matrices over any commutative ring", "why_tests_cant": "Tests evaluate the identity at a handful of literal values; an identity that holds at those points can still fail elsewhere (sign, swapped term, special case).", "anchors": ["crates/cglinalg_core/src/matrix.rs: From<Matrix2x2> for Matrix3x3, From<Matrix2x2> for Matrix4x4, From<Matrix3x3> for Matrix4x4"]}
{"id": "C26", "title": "Matrix norms", "statement": "`norm` (Frobenius), `l1_norm` (maximum column sum) and `linf_norm` (maximum row sum) satisfy the norm axioms, are submultiplicative, and l1_norm(A) = linf_norm(A^T).", "quantifier": "every shape, all real matrices", "why_tests_cant": "Tests fix the dimension at 1 to 4 and a few literal vectors; the claim is for every const-generic dimension and every component value.", "anchors": ["crates/cglinalg_core/src/matrix.rs: norm_squared, norm, l1_norm, linf_norm"]}
{"id": "C27", "title": "Scale, translation and shear matrices act as named", "statement": "from_scale / from_nonuniform_scale / from_affine_* / from_affine_translation act on vectors (last coordinate 0) and points (last coordinate 1) as scaling and translation; composition of two is the matrix of the composed parameters; their inverses are the matrices with inverse parameters.", "quantifier": "every dimension, all parameters and arguments", "why_tests_cant": "Tests fix the dimension at 1 to 4 and a few literal vectors; the claim is for every const-generic dimension and every component value.", "anchors": ["crates/cglinalg_core/src/matrix.rs: from_scale, from_nonuniform_scale, from_affine_scale, from_affine_nonuniform_scale, from_affine_translation"]}
{"id": "C28", "title": "Shear matrices", "statement": "Every coordinate shear constructor adds the stated multiple of one coordinate to another and changes nothing else, has determinant one, and composing two shears of the same kind adds the factors; the general from_shear/from_affine_shear (direction orthogonal to normal) fixes the shear plane, has determinant one and composes additively.", "quantifier": "all shear factors, directions, normals, origins and arguments", "why_tests_cant": "Tests evaluate the identity at a handful of literal values; an identity that holds at those points can still fail elsewhere (sign, swapped term, special case).", "anchors": ["crates/cglinalg_core/src/matrix.rs: from_shear_*, from_shear, from_affine_shear_*, from_affine_shear"]}
{"id": "C29", "title": "Reflection matrices", "statement": "from_reflection/from_affine_reflection are involutions with determinant -1, fix every point of the mirror, negate the normal, and preserve distances.", "quantifier": "all unit normals, biases, and arguments in 2D and 3D", "why_tests_cant": "Tests evaluate the identity at a handful of literal values; an identity that holds at those points can still fail elsewhere (sign, swapped term, special case).", "anchors": ["crates/cglinalg_core/src/matrix.rs: from_reflection, from_affine_reflection"]}
{"id": "C30", "title": "Complex numbers form a field with modulus", "statement": "Complex + and * are commutative, associative, distributive, i*i=-1; division inverts multiplication for non-zero divisors; conjugation is an automorphism; modulus is multiplicative and z*conj(z)=modulus_squared.", "quantifier": "all complex numbers over any commutative ring/field", "why_tests_cant": "Tests evaluate the identity at a handful of literal values; an identity that holds at those points can still fail elsewhere (sign, swapped term, special case).", "anchors": ["crates/cglinalg_core/src/complex.rs: Add, Sub, Mul, Div, conjugate, modulus_squared, modulus, squared, cubed"]}
{"id": "C31", "title": "Complex compound assignment updates both parts consistently", "statement": "`z *= w` and `z /= w`, which update the two parts one after the other in place, leave exactly z*w and z/w.", "quantifier": "all complex operands", "why_tests_cant": "Tests evaluate the identity at a handful of literal values; an identity that holds at those points can still fail elsewhere (sign, swapped term, special case).", "anchors": ["crates/cglinalg_core/src/complex.rs: MulAssign, DivAssign, AddAssign, SubAssign"]}
{"id": "C32", "title": "Scalar-complex mixed operators embed the reals", "statement": "For a real scalar a and complex z, `a + z`, `a - z`, `a * z`, `a / z` equal the complex operation applied to a + 0i.", "quantifier": "all scalars and complex numbers", "why_tests_cant": "Tests compare against hand-written expected values that may repeat the code's mistake, at single points.", "anchors": ["crates/cglinalg_core/src/complex.rs: impl_scalar_complex_add_ops, impl_scalar_complex_sub_ops, impl_scalar_complex_mul_ops, impl_scalar_complex_div_ops"]}
{"id": "C33", "title": "Unsigned complex powers", "statement": "`powu(n)` equals the n-fold product for every n (square-and-multiply loop), hence powu(m+n)=powu(m)*powu(n).", "quantifier": "every exponent, every complex number", "why_tests_cant": "Tests use a few exponents; the loop's correctness over all bit patterns is an induction.", "anchors": ["crates/cglinalg_core/src/complex.rs: powu"]}
{"id": "C34", "title": "Signed complex powers", "statement": "`powi(n)` equals the n-fold product for n>=0 and the inverse of the |n|-fold product for n<0 and non-zero base.", "quantifier": "every i32 exponent, every non-zero complex number", "why_tests_cant": "Tests use one positive and one negative power of two; the failing negative exponents are the others.", "anchors": ["crates/cglinalg_core/src/complex.rs: powi"]}
{"id": "C35", "title": "Complex exponential, logarithm and polar form", "statement": "exp(z+w)=exp(z)exp(w), |exp z| = exp(re z); exp(ln z)=z for every non-zero z; from_polar(modulus, arg) = z; arg lies in (-pi, pi] and the polar decomposition of from_polar(r,theta) for r>0 and theta in (-pi,pi] is (r,theta).", "quantifier": "all complex numbers with real parts", "why_tests_cant": "Tests evaluate the identity at a handful of literal values; an identity that holds at those points can still fail elsewhere (sign, swapped term, special case).", "anchors": ["crates/cglinalg_core/src/complex.rs: exp, ln, arg, polar_decomposition, from_polar_decomposition, cis, from_angle"]}
{"id": "C36", "title": "Complex roots", "statement": "sqrt(z)^2 = z and sqrt has non-negative real part; cbrt(z)^3 = z.", "quantifier": "all complex numbers", "why_tests_cant": "Tests evaluate the identity at a handful of literal values; an identity that holds at those points can still fail elsewhere (sign, swapped term, special case).", "anchors": ["crates/cglinalg_core/src/complex.rs: sqrt, cbrt"]}
{"id": "C37", "title": "Complex trigonometric and hyperbolic functions", "statement": "cos, sin, cosh, sinh agree with their exponential definitions; cos^2+sin^2=1; cosh^2-sinh^2=1; tan=sin/cos and tanh=sinh/cosh where defined; cos(acos z)=z, sin(asin z)=z, cosh(acosh z)=z, sinh(asinh z)=z, and tan(atan z)=z, tanh(atanh z)=z off the poles.", "quantifier": "all complex numbers (outside stated poles)", "why_tests_cant": "Tests evaluate the identity at a handful of literal values; an identity that holds at those points can still fail elsewhere (sign, swapped term, special case).", "anchors": ["crates/cglinalg_core/src/complex.rs: cos, sin, tan, cosh, sinh, tanh, acos, asin, atan, acosh, asinh, atanh"]}
{"id": "C38", "title": "Complex inversion", "statement": "`try_inverse` is None exactly for zero and otherwise the multiplicative inverse; `is_invertible` is true exactly when try_inverse succeeds.", "quantifier": "all complex numbers", "why_tests_cant": "Tests evaluate the identity at a handful of literal values; an identity that holds at those points can still fail elsewhere (sign, swapped term, special case).", "anchors": ["crates/cglinalg_core/src/complex.rs: try_inverse, inverse, is_invertible"]}
{"id": "C39", "title": "Quaternion algebra", "statement": "Quaternion addition and multiplication satisfy the laws of an associative unital algebra with i^2=j^2=k^2=ijk=-1; conjugation is an involutive anti-automorphism; norm_squared is multiplicative and equals q*conj(q); squared = q*q; commutativity fails exactly on non-parallel vector parts.", "quantifier": "all quaternions over any commutative ring", "why_tests_cant": "Tests evaluate the identity at a handful of literal values; an identity that holds at those points can still fail elsewhere (sign, swapped term, special case).", "anchors": ["crates/cglinalg_core/src/quaternion.rs: Add, Sub, Mul, conjugate, norm_squared, squared"]}
{"id": "C40", "title": "Quaternion inverse and division", "statement": "Whenever try_inverse returns Some(r), q*r=r*q=1; it is None exactly when |q| <= eps; div_left/div_right return the unique solutions of left*x=q and x*right=q; (pq)^-1=q^-1 p^-1.", "quantifier": "all quaternions", "why_tests_cant": "Tests evaluate the identity at a handful of literal values; an identity that holds at those points can still fail elsewhere (sign, swapped term, special case).", "anchors": ["crates/cglinalg_core/src/quaternion.rs: try_inverse, inverse, div_left, div_right"]}
{"id": "C41", "title": "Quaternion `is_invertible` agrees with `try_inverse`", "statement": "For every quaternion and tolerance, is_invertible_eps(eps) is true exactly when try_inverse_eps(eps) returns Some (so inverse does not panic on quaternions reported invertible).", "quantifier": "all quaternions and tolerances", "why_tests_cant": "The disagreement is on the measure-zero boundary |q|=eps.", "anchors": ["crates/cglinalg_core/src/quaternion.rs: is_invertible_eps, try_inverse_eps, inverse"]}
{"id": "C42", "title": "Unit quaternions act as rotations", "statement": "For every non-zero q, to_matrix(q) is orthogonal with determinant one, to_matrix(q)*v is the vector part of q*v*q^-1, to_matrix(pq)=to_matrix(p)*to_matrix(q), to_matrix(-q)=to_matrix(q), to_matrix(conj q)=transpose; to_matrix_mut and to_affine_matrix agree with it.", "quantifier": "all non-zero quaternions, all vectors", "why_tests_cant": "Tests evaluate the identity at a handful of literal values; an identity that holds at those points can still fail elsewhere (sign, swapped term, special case).", "anchors": ["crates/cglinalg_core/src/quaternion.rs: to_matrix, to_matrix_mut, to_affine_matrix, to_affine_matrix_mut"]}
{"id": "C43", "title": "Rotation matrix to quaternion and back", "statement": "For every rotation matrix m (orthogonal, determinant one), from_matrix(m) is a unit quaternion with to_matrix(from_matrix(m)) = m; for every unit quaternion q, from_matrix(to_matrix(q)) is q or -q. All four branches of the algorithm.", "quantifier": "all rotation matrices / all unit quaternions", "why_tests_cant": "Tests hit a few rotations per branch; the square roots and divisions must be well defined on the entire branch region.", "anchors": ["crates/cglinalg_core/src/quaternion.rs: from_matrix, to_matrix"]}
{"id": "C44", "title": "Axis-angle constructions agree across types", "statement": "Quaternion::from_axis_angle(axis,t) is a unit quaternion whose matrix is Matrix3x3::from_axis_angle(axis,t); same-axis compositions add angles for both; from_angle_x/y/z are from_axis_angle about the unit axes.", "quantifier": "all unit axes, all angles", "why_tests_cant": "Tests evaluate the identity at a handful of literal values; an identity that holds at those points can still fail elsewhere (sign, swapped term, special case).", "anchors": ["crates/cglinalg_core/src/quaternion.rs: from_axis_angle", "crates/cglinalg_core/src/matrix.rs: Matrix3x3::from_axis_angle, from_angle_x, from_angle_y, from_angle_z"]}
{"id": "C45", "title": "Quaternion exponential and logarithm", "statement": "exp(ln q) = q for every non-zero quaternion q; |exp q| = exp(scalar q); exp of a pure quaternion is a unit quaternion; powf(1)=q.", "quantifier": "all non-zero quaternions", "why_tests_cant": "Failure is confined to the negative real axis.", "anchors": ["crates/cglinalg_core/src/quaternion.rs: exp, ln, powf"]}
{"id": "C46", "title": "Quaternion square root", "statement": "`sqrt(q)` squared is q for every quaternion, including negative reals and zero.", "quantifier": "all quaternions", "why_tests_cant": "Tests evaluate the identity at a handful of literal values; an identity that holds at those points can still fail elsewhere (sign, swapped term, special case).", "anchors": ["crates/cglinalg_core/src/quaternion.rs: sqrt, sqrt_eps"]}
{"id": "C47", "title": "Quaternion interpolation", "statement": "slerp and nlerp of unit quaternions return unit quaternions (where defined), slerp(q1,q2,0) = q1 and slerp(q1,q2,1) = +-q2, slerp takes the shorter arc and moves at constant angular speed: dot(q1, slerp(q1,q2,t)) = cos(t*theta).", "quantifier": "all pairs of unit quaternions, all amounts", "why_tests_cant": "Tests evaluate the identity at a handful of literal values; an identity that holds at those points can still fail elsewhere (sign, swapped term, special case).", "anchors": ["crates/cglinalg_core/src/quaternion.rs: slerp, slerp_eps, nlerp, lerp"]}
{"id": "C48", "title": "Quaternion polar form round-trips", "statement": "Feeding the result (norm, angle, axis) of polar_decomposition to from_polar_decomposition gives back the quaternion.", "quantifier": "all quaternions with non-zero vector part", "why_tests_cant": "The unit tests test the two directions separately, each with its own angle convention.", "anchors": ["crates/cglinalg_core/src/quaternion.rs: polar_decomposition, from_polar_decomposition"]}
{"id": "C49", "title": "Quaternion products, projections and rejections", "statement": "inner(p,q) = (pq+qp)/2, outer(p,q) = (pq-qp)/2, their sum is p*q; project + reject = q, reject is orthogonal to the other argument.", "quantifier": "all quaternions", "why_tests_cant": "Tests evaluate the identity at a handful of literal values; an identity that holds at those points can still fail elsewhere (sign, swapped term, special case).", "anchors": ["crates/cglinalg_core/src/quaternion.rs: inner, outer, project, reject"]}
{"id": "C50", "title": "Quaternion trigonometric and hyperbolic functions", "statement": "cos^2+sin^2=1, cosh^2-sinh^2=1, tan*cos=sin, tanh*cosh=sinh; cos/sin/cosh/sinh agree with the exponential series restricted to the complex slice of q.", "quantifier": "all quaternions", "why_tests_cant": "Tests evaluate the identity at a handful of literal values; an identity that holds at those points can still fail elsewhere (sign, swapped term, special case).", "anchors": ["crates/cglinalg_core/src/quaternion.rs: cos, sin, tan, cosh, sinh, tanh"]}
{"id": "C51", "title": "Shortest rotation between two vectors", "statement": "Quaternion::rotation_between(v1,v2) (and the 3D matrix/rotation versions) maps the direction of v1 to the direction of v2 and its axis is orthogonal to both, for non-zero non-antiparallel vectors.", "quantifier": "all such pairs of 3D vectors", "why_tests_cant": "Tests evaluate the identity at a handful of literal values; an identity that holds at those points can still fail elsewhere (sign, swapped term, special case).", "anchors": ["crates/cglinalg_core/src/quaternion.rs: rotation_between, rotation_between_axis", "crates/cglinalg_core/src/matrix.rs: Matrix3x3::rotation_between", "crates/cglinalg_transform/src/rotation.rs: Rotation3::rotation_between"]}
{"id": "C52", "title": "2D rotation between vectors (matrix)", "statement": "Matrix2x2::rotation_between_axis(v1,v2) maps the unit vector v1 to the unit vector v2.", "quantifier": "all pairs of unit 2D vectors", "why_tests_cant": "The tests use pairs in counter-clockwise order only.", "anchors": ["crates/cglinalg_core/src/matrix.rs: Matrix2x2::rotation_between, rotation_between_axis"]}
{"id": "C53", "title": "2D rotation between vectors (Rotation2)", "statement": "Rotation2::rotation_between_axis(v1,v2) maps v1 to v2 for all unit vectors and rotation_between does so for directions of non-zero vectors.", "quantifier": "all pairs of 2D vectors", "why_tests_cant": "Tests evaluate the identity at a handful of literal values; an identity that holds at those points can still fail elsewhere (sign, swapped term, special case).", "anchors": ["crates/cglinalg_transform/src/rotation.rs: Rotation2::rotation_between_axis, rotation_between"]}
{"id": "C54", "title": "Angle normalization", "statement": "`normalize` returns the unique angle in [0, full turn) congruent to the input modulo a full turn; `normalize_signed` the unique one in (-half, half]; both idempotent.", "quantifier": "all real angles in radians or degrees", "why_tests_cant": "Tests sample angles; the truncated remainder's sign cases need all inputs.", "anchors": ["crates/cglinalg_trigonometry/src/lib.rs: normalize, normalize_signed"]}
{"id": "C55", "title": "Opposite angle and bisector", "statement": "`opposite` differs from the angle by half a turn modulo a full turn and is an involution on normalized angles; `bisect` is congruent to the midpoint.", "quantifier": "all angles", "why_tests_cant": "Tests evaluate the identity at a handful of literal values; an identity that holds at those points can still fail elsewhere (sign, swapped term, special case).", "anchors": ["crates/cglinalg_trigonometry/src/lib.rs: opposite, bisect"]}
{"id": "C56", "title": "Degree/radian conversion", "statement": "Conversions are mutually inverse, additive, send 180 degrees to pi; trigonometric functions of an angle do not depend on the unit; normalization commutes with conversion; the turn fractions multiply back to a full turn.", "quantifier": "all angles", "why_tests_cant": "Tests evaluate the identity at a handful of literal values; an identity that holds at those points can still fail elsewhere (sign, swapped term, special case).", "anchors": ["crates/cglinalg_trigonometry/src/lib.rs: From<Degrees> for Radians, From<Radians> for Degrees, full_turn_div_*"]}
{"id": "C57", "title": "2D rotation matrices", "statement": "from_angle(t) is orthogonal with determinant one, from_angle(s)*from_angle(t)=from_angle(s+t), preserves norms, and its transpose is from_angle(-t).", "quantifier": "all angles", "why_tests_cant": "Tests evaluate the identity at a handful of literal values; an identity that holds at those points can still fail elsewhere (sign, swapped term, special case).", "anchors": ["crates/cglinalg_core/src/matrix.rs: Matrix2x2::from_angle", "crates/cglinalg_transform/src/rotation.rs: Rotation2::from_angle, angle"]}
{"id": "C58", "title": "3D rotation matrices", "statement": "from_axis_angle(axis,t) is orthogonal with determinant one, fixes the axis, equals Rodrigues' formula, has trace 1+2cos t, and is 2pi-periodic.", "quantifier": "all unit axes, angles", "why_tests_cant": "Tests evaluate the identity at a handful of literal values; an identity that holds at those points can still fail elsewhere (sign, swapped term, special case).", "anchors": ["crates/cglinalg_core/src/matrix.rs: Matrix3x3::from_axis_angle, from_affine_axis_angle"]}
{"id": "C59", "title": "Euler angles to matrix", "statement": "Euler::to_matrix equals the documented product of the elementary rotations about x, y and z, and hence is a rotation matrix; the affine version embeds it.", "quantifier": "all angle triples", "why_tests_cant": "Tests evaluate the identity at a handful of literal values; an identity that holds at those points can still fail elsewhere (sign, swapped term, special case).", "anchors": ["crates/cglinalg_core/src/euler.rs: to_matrix, to_affine_matrix", "crates/cglinalg_transform/src/rotation.rs: from_euler_angles"]}
{"id": "C60", "title": "Euler angle extraction", "statement": "For every rotation matrix m, Euler::from_matrix(m).to_matrix() = m, including gimbal lock; and angles in the principal range round-trip when not in gimbal lock.", "quantifier": "all rotation matrices", "why_tests_cant": "Gimbal lock is a measure-zero set with a special branch.", "anchors": ["crates/cglinalg_core/src/euler.rs: from_matrix", "crates/cglinalg_transform/src/rotation.rs: euler_angles"]}
{"id": "C61", "title": "Viewing rotations look where they are told", "statement": "look_to_lh/rh (3x3) are rotations mapping the normalized direction to +z / -z and the up vector into the y-z half-plane y>0; the 4x4 look_to/look_at additionally map the eye to the origin; the 3x3 _inv versions are the inverses.", "quantifier": "all eyes, non-parallel direction and up", "why_tests_cant": "Tests evaluate the identity at a handful of literal values; an identity that holds at those points can still fail elsewhere (sign, swapped term, special case).", "anchors": ["crates/cglinalg_core/src/matrix.rs: look_to_lh, look_to_rh, look_at_lh, look_at_rh, look_to_lh_inv, look_to_rh_inv"]}
{"id": "C62", "title": "4x4 look_*_inv are the inverses of look_*", "statement": "Matrix4x4::look_to_lh_inv(eye,dir,up) * look_to_lh(eye,dir,up) = identity and it maps the origin to the eye (likewise rh and look_at).", "quantifier": "all eyes, non-parallel direction and up", "why_tests_cant": "The doc tests assert the (wrong) matrix entries literally and only test directions, not points.", "anchors": ["crates/cglinalg_core/src/matrix.rs: Matrix4x4::look_to_lh_inv, look_to_rh_inv, look_at_lh_inv, look_at_rh_inv"]}
{"id": "C63", "title": "Isometry look_*_inv are the inverses of look_*", "statement": "Isometry3::look_to_lh_inv(eye,dir,up) is the inverse isometry of look_to_lh(eye,dir,up) (likewise rh, look_at; and for Similarity3).", "quantifier": "all eyes, non-parallel direction and up", "why_tests_cant": "Tests use axis-aligned or symmetric inputs.", "anchors": ["crates/cglinalg_transform/src/isometry.rs: look_to_lh_inv, look_to_rh_inv, look_at_lh_inv, look_at_rh_inv", "crates/cglinalg_transform/src/similarity.rs: look_*_inv"]}
{"id": "C64", "title": "Translations", "statement": "Translation composition adds vectors, inverse undoes application on points, vectors are unaffected, between_points(p,q) maps p to q, and all forms (apply_*, inverse_apply_*, operators, to_affine_matrix) agree.", "quantifier": "every dimension, all arguments", "why_tests_cant": "Tests fix the dimension at 1 to 4 and a few literal vectors; the claim is for every const-generic dimension and every component value.", "anchors": ["crates/cglinalg_transform/src/translation.rs: Translation"]}
{"id": "C65", "title": "Scales", "statement": "Scale composition multiplies factors; for non-zero factors inverse undoes application and inverse_apply_* agrees with inverse().apply_*; to_matrix / to_affine_matrix agree with application.", "quantifier": "every dimension, all arguments", "why_tests_cant": "Tests fix the dimension at 1 to 4 and a few literal vectors; the claim is for every const-generic dimension and every component value.", "anchors": ["crates/cglinalg_transform/src/scale.rs: Scale"]}
{"id": "C66", "title": "Reflections", "statement": "Applying a reflection twice is the identity on points and vectors, it preserves distances, fixes the mirror plane through the bias point, and agrees with its affine matrix (2D and 3D).", "quantifier": "every dimension, all unit normals and biases", "why_tests_cant": "Tests fix the dimension at 1 to 4 and a few literal vectors; the claim is for every const-generic dimension and every component value.", "anchors": ["crates/cglinalg_transform/src/reflection.rs: Reflection"]}
{"id": "C67", "title": "Shears and their inverses", "statement": "For shear direction orthogonal to the normal, inverse_apply_point undoes apply_point, inverse() agrees with inverse_apply_*, points of the shear plane are fixed, and identity fixes everything; without orthogonality the inverse is not an inverse.", "quantifier": "every dimension, all factors, origins, orthogonal direction/normal pairs", "why_tests_cant": "Tests fix the dimension at 1 to 4 and a few literal vectors; the claim is for every const-generic dimension and every component value.", "anchors": ["crates/cglinalg_transform/src/shear.rs: Shear"]}
{"id": "C68", "title": "Shear application agrees with its matrix", "statement": "to_transform().apply_point = apply_point and to_transform().apply_vector = apply_vector for every 2D/3D shear.", "quantifier": "all shears built by the public constructors, all arguments", "why_tests_cant": "Tests use shears whose plane passes through the origin when checking vectors.", "anchors": ["crates/cglinalg_transform/src/shear.rs: apply_vector, apply_point, to_affine_matrix, to_transform"]}
{"id": "C69", "title": "Rotations as group action", "statement": "Rotation composition applies right then left, inverse (transpose) undoes application, apply_point/apply_vector agree, norms and dot products are preserved, inverse_mut equals inverse.", "quantifier": "every dimension, all orthogonal matrices", "why_tests_cant": "Tests fix the dimension at 1 to 4 and a few literal vectors; the claim is for every const-generic dimension and every component value.", "anchors": ["crates/cglinalg_transform/src/rotation.rs: Rotation"]}
{"id": "C70", "title": "Rotation angle/axis extraction", "statement": "Rotation2::angle recovers the angle modulo a full turn; Rotation3::angle is the rotation angle in [0,pi]; Rotation3::axis is invariant under the rotation, and axis_angle rebuilds the rotation when 0 < angle < pi.", "quantifier": "all rotations", "why_tests_cant": "Tests evaluate the identity at a handful of literal values; an identity that holds at those points can still fail elsewhere (sign, swapped term, special case).", "anchors": ["crates/cglinalg_transform/src/rotation.rs: angle, axis, axis_angle"]}
{"id": "C71", "title": "Isometries form a group acting on points", "statement": "Isometry composition is associative with identity and inverse, (f*g)(p)=f(g(p)) on points and vectors, inverse and inverse_apply_* undo application, distances are preserved, inverse_mut equals inverse.", "quantifier": "every dimension, all isometries with orthogonal rotation part", "why_tests_cant": "Tests fix the dimension at 1 to 4 and a few literal vectors; the claim is for every const-generic dimension and every component value.", "anchors": ["crates/cglinalg_transform/src/isometry.rs: Isometry"]}
{"id": "C72", "title": "Mixed rotation/translation/isometry products", "statement": "Every mixed operator (Rotation*Translation, Translation*Rotation, Isometry*Translation, Translation*Isometry, Isometry*Rotation, Rotation*Isometry) equals the composition of the corresponding isometries and of the maps on points.", "quantifier": "every dimension, all operands", "why_tests_cant": "Tests fix the dimension at 1 to 4 and a few literal vectors; the claim is for every const-generic dimension and every component value.", "anchors": ["crates/cglinalg_transform/src/isometry_ops.rs: all impls"]}
{"id": "C73", "title": "Approximate equality of isometries looks at the whole isometry", "statement": "Two isometries that compare equal within tolerance agree within tolerance in rotation and translation.", "quantifier": "all isometries and tolerances", "why_tests_cant": "A test that only compares equal or rotation-different isometries passes.", "anchors": ["crates/cglinalg_transform/src/isometry.rs: AbsDiffAllEq for Isometry"]}
{"id": "C74", "title": "Similarities form a group acting on points", "statement": "Similarity composition is the composition of maps, associative, with identity; for non-zero scale inverse and inverse_apply_* undo application; distances scale by |scale|.", "quantifier": "every dimension, all similarities", "why_tests_cant": "Tests fix the dimension at 1 to 4 and a few literal vectors; the claim is for every const-generic dimension and every component value.", "anchors": ["crates/cglinalg_transform/src/similarity.rs: Similarity"]}
{"id": "C75", "title": "General transforms", "statement": "Transform composition is composition of maps on vectors always and on points where the homogeneous weight is non-zero; apply_point panics exactly when the weight is zero; inverse_apply_* undo application for invertible matrices.", "quantifier": "all 3x3/4x4 homogeneous matrices", "why_tests_cant": "Tests evaluate the identity at a handful of literal values; an identity that holds at those points can still fail elsewhere (sign, swapped term, special case).", "anchors": ["crates/cglinalg_transform/src/transform.rs: Transform"]}
{"id": "C76", "title": "Affine matrices represent the same map", "statement": "For translations, scales, rotations, isometries, similarities, reflections: applying the affine matrix to homogeneous coordinates gives the homogeneous coordinates of the applied point/vector; to_affine_matrix maps products to products.", "quantifier": "every dimension, all arguments", "why_tests_cant": "Tests fix the dimension at 1 to 4 and a few literal vectors; the claim is for every const-generic dimension and every component value.", "anchors": ["crates/cglinalg_transform/src/translation.rs: to_affine_matrix", "crates/cglinalg_transform/src/scale.rs: to_affine_matrix", "crates/cglinalg_transform/src/rotation.rs: to_affine_matrix", "crates/cglinalg_transform/src/isometry.rs: to_affine_matrix", "crates/cglinalg_transform/src/similarity.rs: to_affine_matrix", "crates/cglinalg_transform/src/reflection.rs: to_affine_matrix"]}
{"id": "C77", "title": "Perspective projection maps the frustum to the canonical cube", "statement": "from_perspective(left,right,bottom,top,near,far) maps every point of the view frustum into [-1,1]^3, its eight corners to the cube corners, and points of the near/far plane to depth -1/+1; depth is monotone in distance.", "quantifier": "all frustum parameters with non-degenerate sizes and 0<near<far", "why_tests_cant": "Tests evaluate the identity at a handful of literal values; an identity that holds at those points can still fail elsewhere (sign, swapped term, special case).", "anchors": ["crates/cglinalg_core/src/matrix.rs: from_perspective", "crates/cglinalg_transform/src/projection.rs: Perspective3"]}
{"id": "C78", "title": "Perspective parameters can be read back", "statement": "near, far, left, right, bottom, top and aspect_ratio of a Perspective3 return the constructor's parameters.", "quantifier": "all non-degenerate frusta", "why_tests_cant": "Tests evaluate the identity at a handful of literal values; an identity that holds at those points can still fail elsewhere (sign, swapped term, special case).", "anchors": ["crates/cglinalg_transform/src/projection.rs: Perspective3::near, far, left, right, bottom, top, aspect_ratio"]}
{"id": "C79", "title": "Perspective project_point agrees with its matrix", "statement": "Perspective3::project_point(p) equals the perspective-divided product of its matrix with p in homogeneous coordinates, for every point not on the camera plane.", "quantifier": "all frusta including asymmetric ones, all points", "why_tests_cant": "Tests use vertically symmetric frusta.", "anchors": ["crates/cglinalg_transform/src/projection.rs: Perspective3::project_point, project_vector"]}
{"id": "C80", "title": "Perspective unprojection inverts projection", "statement": "unproject_point(project_point(p)) = p for all points in front of the camera.", "quantifier": "all frusta including asymmetric ones, all points", "why_tests_cant": "Tests use vertically symmetric frusta.", "anchors": ["crates/cglinalg_transform/src/projection.rs: unproject_point, unproject_vector"]}
{"id": "C81", "title": "Vertical field of view can be read back", "statement": "Perspective3::from_vfov(vfov, ...).vfov() = vfov for every 0 < vfov < pi.", "quantifier": "all fields of view, aspect ratios and planes", "why_tests_cant": "Tests use fields of view below 90 degrees.", "anchors": ["crates/cglinalg_transform/src/projection.rs: vfov, from_vfov"]}
{"id": "C82", "title": "vfov constructor is the symmetric frustum", "statement": "from_perspective_vfov(vfov, aspect, near, far) equals from_perspective with left=right=aspect*near*tan(vfov/2), bottom=top=near*tan(vfov/2), and aspect_ratio() returns aspect.", "quantifier": "all parameters", "why_tests_cant": "Tests evaluate the identity at a handful of literal values; an identity that holds at those points can still fail elsewhere (sign, swapped term, special case).", "anchors": ["crates/cglinalg_core/src/matrix.rs: from_perspective_vfov", "crates/cglinalg_transform/src/projection.rs: from_vfov, aspect_ratio"]}
{"id": "C83", "title": "Orthographic projection maps the box to the canonical cube", "statement": "from_orthographic maps each point of the view box into [-1,1]^3 affinely, corners to corners; project_point equals the matrix product.", "quantifier": "all non-degenerate boxes, all points", "why_tests_cant": "Tests evaluate the identity at a handful of literal values; an identity that holds at those points can still fail elsewhere (sign, swapped term, special case).", "anchors": ["crates/cglinalg_core/src/matrix.rs: from_orthographic", "crates/cglinalg_transform/src/projection.rs: Orthographic3::project_point, project_vector"]}
{"id": "C84", "title": "Orthographic parameters can be read back", "statement": "near, far, left, right, bottom, top of an Orthographic3 return the constructor's parameters for every non-degenerate box, including boxes with a parameter equal to zero.", "quantifier": "all non-degenerate boxes", "why_tests_cant": "The failing boxes are those with near=0, left=0 or bottom=0.", "anchors": ["crates/cglinalg_transform/src/projection.rs: Orthographic3::near, far, left, right, bottom, top"]}
{"id": "C85", "title": "Orthographic unprojection inverts projection", "statement": "unproject_point(project_point(p)) = p for every non-degenerate box and point.", "quantifier": "all boxes, all points", "why_tests_cant": "Tests evaluate the identity at a handful of literal values; an identity that holds at those points can still fail elsewhere (sign, swapped term, special case).", "anchors": ["crates/cglinalg_transform/src/projection.rs: Orthographic3::unproject_point, unproject_vector"]}
{"id": "C86", "title": "Unit wrapper guarantees norm one", "statement": "from_value and try_from_value return a wrapper whose value has norm one and points in the input's direction; try_from_value fails exactly when norm <= threshold (for threshold >= 0); the returned norm is the input's norm.", "quantifier": "all non-zero vectors/quaternions/complex numbers, all thresholds", "why_tests_cant": "Tests evaluate the identity at a handful of literal values; an identity that holds at those points can still fail elsewhere (sign, swapped term, special case).", "anchors": ["crates/cglinalg_core/src/unit.rs: from_value, try_from_value, from_value_with_norm, try_from_value_with_norm"]}
{"id": "C87", "title": "Scalar helper functions", "statement": "clamp returns the nearest value of the interval (integers panic when min>max, floats do not); integer copysign has the magnitude of the first and sign of the second argument; float clamp is idempotent and monotone for min<=max.", "quantifier": "all scalars", "why_tests_cant": "Tests evaluate the identity at a handful of literal values; an identity that holds at those points can still fail elsewhere (sign, swapped term, special case).", "anchors": ["crates/cglinalg_numeric/src/lib.rs: clamp, copysign"]}
{"id": "C88", "title": "Algebraic laws that survive rounding", "statement": "Laws that only permute exact operations hold for any scalar arithmetic with commutative + and *, including IEEE floats: vector addition and component_mul commute, dot is symmetric, in-place equals by-value, transpose is exact, scalar*v = v*scalar.", "quantifier": "every dimension, any scalar type with commutative operations, in particular IEEE-754 binary64 values", "why_tests_cant": "Sampling floats cannot cover 2^64 operand pairs per component.", "anchors": ["crates/cglinalg_core/src/vector.rs: Add, dot, component_mul", "crates/cglinalg_core/src/matrix.rs: transpose, Add"]}
{"id": "C89", "title": "Wrapping integer scalars obey the same laws", "statement": "In builds without overflow checks, vectors/matrices/quaternions of N-bit integers satisfy the ring laws exactly (arithmetic modulo 2^N), so C01, C16, C39 and determinant multiplicativity hold for them.", "quantifier": "every width, every dimension, all values", "why_tests_cant": "Tests fix the dimension at 1 to 4 and a few literal vectors; the claim is for every const-generic dimension and every component value.", "anchors": ["crates/cglinalg_core/src/vector.rs: Add, Mul<S>", "crates/cglinalg_core/src/matrix.rs: Mul", "crates/cglinalg_core/src/quaternion.rs: Mul"]}
{"id": "C90", "title": "Approximate comparison of composite values is componentwise", "statement": "abs_diff comparisons of vectors/matrices are reflexive for non-negative tolerance, symmetric, monotone in the tolerance and hold exactly when they hold for every component.", "quantifier": "every dimension, all values and tolerances", "why_tests_cant": "Tests fix the dimension at 1 to 4 and a few literal vectors; the claim is for every const-generic dimension and every component value.", "anchors": ["crates/cglinalg_core/src/vector.rs: AbsDiffEq", "crates/cglinalg_core/src/matrix.rs: AbsDiffEq"]}
{"id": "C91", "title": "Swizzles pick the named components", "statement": "Every swizzle method returns the components spelled by its name, in that order.", "quantifier": "all vectors, every swizzle method", "why_tests_cant": "Dozens of methods, tests sample values; a transposed letter in one method is easy to miss.", "anchors": ["crates/cglinalg_core/src/vector.rs: swizzle methods"]}
{"id": "C92", "title": "Cross-product matrix", "statement": "cross_matrix(v) * w = v x w, it is antisymmetric, and its square is v v^T - |v|^2 I.", "quantifier": "all 3D vectors", "why_tests_cant": "Tests evaluate the identity at a handful of literal values; an identity that holds at those points can still fail elsewhere (sign, swapped term, special case).", "anchors": ["crates/cglinalg_core/src/matrix.rs: Matrix3x3::cross_matrix"]}
{"id": "C93", "title": "Matrix is_invertible agrees with try_inverse", "statement": "For 1x1 to 4x4 matrices, is_invertible(m) is true exactly when try_inverse(m) returns Some.", "quantifier": "all square matrices of dimension 1 to 4 over any field, any approximate zero test", "why_tests_cant": "The two functions use different zero tests (ulps comparison against exact zero), so they disagree only on matrices whose determinant is tiny but non-zero, which sampled tests never hit.", "anchors": ["crates/cglinalg_core/src/matrix.rs: is_invertible, try_inverse"]}
{"id": "C94", "title": "Quaternion inverse trigonometric and hyperbolic functions", "statement": "acos, asin, atan, acosh, asinh and atanh of a quaternion are right inverses of cos, sin, tan, cosh, sinh and tanh wherever the value is in their range.", "quantifier": "all quaternions", "why_tests_cant": "Tests check a few literal quaternions; branch cuts, real and pure quaternions are a continuum of special cases.", "anchors": ["crates/cglinalg_core/src/quaternion.rs: acos, asin, atan, acosh, asinh, atanh"]}
{"id": "C95", "title": "Quaternion argument", "statement": "arg_eps(q) is the angle t in [0, pi] with |q| cos t = scalar part and |q| sin t = norm of the vector part whenever the scalar part exceeds the tolerance, and pi/2 otherwise.", "quantifier": "all quaternions and tolerances", "why_tests_cant": "Correct quadrant for all sign combinations and all magnitudes is a statement about a continuum of inputs.", "anchors": ["crates/cglinalg_core/src/quaternion.rs: arg, arg_eps"]}
{"id": "C96", "title": "Rounding error of dot and matrix products", "statement": "If dot, a component of matrix*vector or an entry of matrix*matrix comes out finite, it differs from the exact sum of products of the stored values by at most ((1+u)^(n+1)-1) times the sum of the absolute products plus n*eta*(1+u)^n, with u the unit roundoff and eta half the smallest positive float; and a finite result implies that every operand and intermediate product was finite.", "quantifier": "every float format (f32 and f64 included), every dimension, all operands with a finite result", "why_tests_cant": "Tests compare a few results against tolerances chosen by hand; the worst case over all operands, cancellation and subnormals included, cannot be sampled.", "anchors": ["crates/cglinalg_core/src/vector.rs: dot, norm_squared", "crates/cglinalg_core/src/matrix.rs: dot_array_col, Mul"]}
{"id": "C97", "title": "Norm and normalize of float vectors", "statement": "For float vectors norm is accurate to a few units of roundoff and normalize of a finite non-zero vector is a finite vector whose components are accurate to a few units of roundoff and whose length is one up to rounding.", "quantifier": "all finite non-zero vectors; the error bound of norm for every float format and dimension", "why_tests_cant": "Tests normalise a handful of vectors of moderate length; overflow and underflow of the squares, and the worst rounding case, are never sampled.", "anchors": ["crates/cglinalg_core/src/vector.rs: norm, normalize, try_normalize"]}
{"id": "C98", "title": "Relative and ulps comparisons of composite values", "statement": "relative_eq/ulps_eq (and their _all versions) of vectors, points, matrices, quaternions, complex numbers, Euler angles, reflections, shears, isometries and similarities hold exactly when the scalar comparison holds for every scalar component with the tolerance of that component; no component is skipped, so with an exact scalar comparison only equal values compare equal; reflexivity and symmetry carry over from the scalar comparison.", "quantifier": "all values, tolerances, dimensions and scalar comparisons", "why_tests_cant": "Whether a comparison skips a field shows only on values that differ in that field alone; all fields of all types and all tolerances cannot be enumerated.", "anchors": ["crates/cglinalg_core/src/vector.rs: RelativeEq, UlpsEq", "crates/cglinalg_transform/src: RelativeEq, UlpsEq, RelativeAllEq, UlpsAllEq"]}
{"id": "C99", "title": "In-place and convenience operators of complex numbers and quaternions", "statement": "The assignment operators of complex numbers and quaternions give the same value as the by-value operators; scalar operands act as real numbers; squared and cubed are the binomial expansions; dividing by a non-zero scalar undoes multiplying by it; half added to itself is the whole; map acts on both parts and respects composition.", "quantifier": "all complex numbers and quaternions over any commutative ring (field for division)", "why_tests_cant": "Tests compare a few literals; a field that is read after being overwritten, or a missing part, shows only on general values.", "anchors": ["crates/cglinalg_core/src/complex.rs: AddAssign, SubAssign, MulAssign, DivAssign, squared, cubed, unscale, map", "crates/cglinalg_core/src/quaternion.rs: DivAssign, half"]}
{"id": "C100", "title": "Classification predicates of complex numbers and quaternions", "statement": "is_zero, is_real, is_imaginary, is_identity and is_pure hold exactly for the values they name: is_real exactly for values fixed by conjugation (quaternions: that commute with all others), is_pure/is_imaginary exactly for values negated by conjugation, is_identity exactly for the unit of multiplication.", "quantifier": "all complex numbers and quaternions over any field (with 1+1 not zero for the conjugation characterisations)", "why_tests_cant": "An exact characterisation quantifies over all values; tests give a few positive and negative instances.", "anchors": ["crates/cglinalg_core/src/complex.rs: is_zero, is_real, is_imaginary", "crates/cglinalg_core/src/quaternion.rs: is_zero, is_identity, is_pure, is_real"]}
{"id": "C101", "title": "Basis vectors and elementary constructors", "statement": "The unit vectors are the standard basis and the dot product with them reads the component; from_diagonal scales each coordinate by its own entry, from_diagonal_value all by the same; from_fill fills every entry; Translation::new and Scale::new act on coordinates; zero Euler angles give the identity matrix.", "quantifier": "all dimensions and scalars", "why_tests_cant": "Constructors are tested on single values; that entries land in the right place for every dimension is a universal statement.", "anchors": ["crates/cglinalg_core/src/vector.rs: unit_x, unit_y, unit_z, unit_w", "crates/cglinalg_core/src/matrix.rs: from_fill, from_diagonal, from_diagonal_value", "crates/cglinalg_transform/src/translation.rs: new", "crates/cglinalg_transform/src/scale.rs: new"]}
{"id": "C102", "title": "Distances of complex numbers, quaternions, points and matrices", "statement": "metric_distance is a metric (non-negative, zero exactly for equal values, symmetric, triangle inequality) and its square is metric_distance_squared; l1_norm is a norm, bounded below by the Euclidean norm and above by sqrt(2) times it for complex numbers; the norm of a point is its distance from the origin.", "quantifier": "all real-valued arguments, all dimensions", "why_tests_cant": "Metric axioms quantify over pairs and triples of values.", "anchors": ["crates/cglinalg_core/src/complex.rs: metric_distance, l1_norm", "crates/cglinalg_core/src/quaternion.rs: metric_distance, metric_distance_squared, l1_norm", "crates/cglinalg_core/src/point.rs: norm, metric_distance", "crates/cglinalg_core/src/matrix.rs: metric_distance, metric_distance_squared"]}
{"id": "C103", "title": "Constructors of isometries and similarities", "statement": "Isometry3::from_axis_angle_translation applied to a point is Rodrigues' rotation followed by the translation, and preserves distances; from_axis_angle and from_angle_x/y/z are its special cases; Isometry2::from_angle(_translation) rotates counter-clockwise then translates; the from_* constructors of similarities scale, then rotate, then translate.", "quantifier": "all unit axes, angles, translations, scales and points", "why_tests_cant": "The order of the parts and the sense of rotation matter for every argument; tests use a few angles.", "anchors": ["crates/cglinalg_transform/src/isometry.rs: from_axis_angle_translation, from_axis_angle, from_angle, from_angle_translation, from_angle_x, from_angle_y, from_angle_z", "crates/cglinalg_transform/src/similarity.rs: from_parts, from_rotation, from_scale, from_translation"]}
{"id": "C104", "title": "look_at of similarities, isometries and quaternions", "statement": "The viewing similarity and isometry send the eye to the origin and the target to (0, 0, d) (left-handed) or (0, 0, -d) (right-handed) with d the distance of eye and target; the viewing quaternion turns the viewing direction onto the positive/negative z-axis and its inverse turns it back; look_at is look_to with direction target - eye.", "quantifier": "all eyes, targets and up vectors with up not parallel to the viewing direction", "why_tests_cant": "Tests check one camera; the statement is about every camera.", "anchors": ["crates/cglinalg_transform/src/similarity.rs: look_at_lh, look_at_rh, look_to_lh, look_to_rh", "crates/cglinalg_core/src/quaternion.rs: look_at_lh, look_at_rh, look_at_lh_inv, look_at_rh_inv"]}
{"id": "C105", "title": "Composed shears, inverse transforms of vectors, rotations between vectors in 3D", "statement": "The product of two shears applies the right one first; Transform3::inverse_apply_vector undoes apply_vector when the weight stays zero and fails exactly for singular matrices; Rotation3/Isometry3::rotation_between turn the direction of the first vector onto the direction of the second, give the identity for (nearly) parallel and None for (nearly) opposite vectors.", "quantifier": "all shears, transforms and vectors longer than the threshold", "why_tests_cant": "Composition order and threshold cases are universal statements; tests use single values.", "anchors": ["crates/cglinalg_transform/src/shear.rs: Mul", "crates/cglinalg_transform/src/transform.rs: inverse_apply_vector", "crates/cglinalg_transform/src/rotation.rs: rotation_between", "crates/cglinalg_transform/src/isometry.rs: rotation_between"]}
{"id": "C106", "title": "Axes and clip bounds of projections", "statement": "The clip-space bounds reported by the projections are exactly the images of the lower and upper corner of the view frustum/box; points along the gaze direction inside the frustum lie in front of the camera; right x up = depth in view space.", "quantifier": "all valid projection parameters", "why_tests_cant": "Relates reported constants to the matrices for every parameter set.", "anchors": ["crates/cglinalg_transform/src/projection.rs: view_space_unit_right, clip_space_ndc_bounds and the other axes"]}
{"id": "C107", "title": "Classification of complex floats", "statement": "Every complex float is exactly one of is_finite, is_nan, is_infinite; is_infinite holds iff at least one part is infinite; a NaN part is never lost by +, -, *, negation or conjugation.", "quantifier": "every complex number over every IEEE format, NaN and infinities included", "why_tests_cant": "The classes of all pairs of floats, special values included, cannot be enumerated by tests; a gap between the classes shows only on mixed NaN/infinity values.", "anchors": ["crates/cglinalg_core/src/complex.rs: is_finite, is_nan, is_infinite, Add, Sub, Mul, Neg, conjugate"]}
{"id": "C108", "title": "Float arithmetic on integer-valued data is exact", "statement": "When components are integers stored as floats and the sizes fit the mantissa, dot products, matrix products, matrix-vector products, determinants, complex, cross and quaternion products are exact, and try_inverse returns None exactly for singular matrices.", "quantifier": "every IEEE format, every dimension for dot and matrix products, all integer-valued inputs with the stated bound", "why_tests_cant": "Exactness depends on no intermediate value being rounded, for every input up to the bound.", "anchors": ["crates/cglinalg_core/src/vector.rs: dot, cross", "crates/cglinalg_core/src/matrix.rs: Mul, determinant, try_inverse", "crates/cglinalg_core/src/complex.rs: Mul", "crates/cglinalg_core/src/quaternion.rs: Mul"]}
{"id": "C109", "title": "Accuracy of products and determinants in floats", "statement": "For bounded float arguments away from the overflow and underflow thresholds, complex, cross and quaternion products and the 2x2, 3x3, 4x4 determinants do not overflow and differ from the exact real value by at most a stated small number of units roundoff relative to the size of the arguments.", "quantifier": "every IEEE format with at least 24 bits, all bounded inputs", "why_tests_cant": "An error bound quantifies over all roundings; tests compare a few values with a tolerance.", "anchors": ["crates/cglinalg_core/src/complex.rs: Mul", "crates/cglinalg_core/src/vector.rs: cross", "crates/cglinalg_core/src/quaternion.rs: Mul", "crates/cglinalg_core/src/matrix.rs: determinant"]}
{"id": "C110", "title": "Complex division and inverse in floats", "statement": "The quotient of two finite complex floats (non-zero divisor) and the inverse of a non-zero complex float whose exact result is representable are finite and accurate to a few units roundoff.", "quantifier": "every IEEE format with at least 47 bits; all finite arguments", "why_tests_cant": "The failing inputs are those whose squared modulus overflows or underflows; tests use moderate numbers.", "anchors": ["crates/cglinalg_core/src/complex.rs: Div, inverse"]}
{"id": "C111", "title": "Matrix inverses in floats", "statement": "try_inverse of 2x2, 3x3, 4x4 float matrices succeeds exactly for the non-singular ones and its entries differ from the exact inverse by a bound in units roundoff that depends on the size of the determinant relative to the entries.", "quantifier": "every IEEE format with at least 24 bits; all float matrices", "why_tests_cant": "Accuracy and singularity detection depend on rounding in every entry; tests only cover a handful of well-conditioned matrices.", "anchors": ["crates/cglinalg_core/src/matrix.rs: try_inverse, determinant"]}
{"id": "C112", "title": "Sign functions of the scalar traits", "statement": "signum, abs, copysign, is_sign_positive and is_sign_negative satisfy the documented laws: signum(x)*|x| = x, |x| = signum(x)*x, copysign(x, s) = signum(s)*|x|, for every float (zeros, infinities, NaN) and every integer of every width.", "quantifier": "every IEEE format, every integer width, all values", "why_tests_cant": "Laws over special values and extreme integers; tests check a table of values.", "anchors": ["crates/cglinalg_numeric/src/lib.rs: signum, abs, copysign, is_sign_positive, is_sign_negative"]}
{"id": "C113", "title": "Division and remainder by a scalar", "statement": "x / s, x % s and their assigning forms act componentwise on vectors, points, matrices, complex numbers and quaternions and panic exactly when the scalar operation panics on some component; for integers u = (u/s)*s + u%s; for floats the remainder is exact; over fields division undoes multiplication.", "quantifier": "every dimension, scalar operation and argument; every integer width; every IEEE format", "why_tests_cant": "Panics on a single component and exactness of fmod are universal statements.", "anchors": ["crates/cglinalg_core/src/vector.rs: Div, Rem, DivAssign, RemAssign", "crates/cglinalg_core/src/point.rs: the same", "crates/cglinalg_core/src/matrix.rs: the same", "crates/cglinalg_core/src/complex.rs: the same", "crates/cglinalg_core/src/quaternion.rs: the same"]}
{"id": "C114", "title": "The displayed text determines the value", "statement": "Display of every type never panics, gives the documented layout (name, dimension, components separated by commas, matrices column by column) on one line, and values with the same text are equal provided this holds for the scalars.", "quantifier": "every dimension, every scalar type and formatting of scalars", "why_tests_cant": "Injectivity of the text and absence of panics are claims about all dimensions and values.", "anchors": ["crates/cglinalg_core/src/vector.rs: Display", "crates/cglinalg_core/src/matrix.rs: Display", "crates/cglinalg_core/src/point.rs: Display", "crates/cglinalg_core/src/complex.rs: Display", "crates/cglinalg_core/src/quaternion.rs: Display", "crates/cglinalg_core/src/euler.rs: Display", "crates/cglinalg_trigonometry/src/lib.rs: Display", "crates/cglinalg_transform/src: Display"]}
{"id": "C115", "title": "Symmetries of complex functions in floats", "statement": "exp, ln, sqrt, cbrt, powf, sin, cos, tan, sinh, cosh, tanh and their inverses commute with conjugation, sin, tan, sinh, tanh, asin, atan, asinh, atanh are odd and cos, cosh even, for finite and for infinite and NaN arguments, up to the sign of zeros; infinite arguments of the inverse functions give the limits of the C standard.", "quantifier": "every IEEE format, every library of real functions with exact parity, every complex number including NaN and infinities", "why_tests_cant": "Every pair of floats including all special values, and all conforming implementations of the real functions.", "anchors": ["crates/cglinalg_core/src/complex.rs: exp, ln, sqrt, cbrt, powf, cos, acos, sin, asin, tan, atan, cosh, acosh, sinh, asinh, tanh, atanh"]}
{"id": "C116", "title": "Angle normalization in floats", "statement": "normalize returns a finite angle in [0, full turn) congruent to its argument up to one rounding and is idempotent; normalize_signed the same in [-half turn, half turn); opposite and bisect are accurate modulo a full turn; NaN and infinite angles give NaN.", "quantifier": "every IEEE format, every positive full turn, every angle", "why_tests_cant": "The failures occur only for angles near a multiple of the full turn, among 2^64 values.", "anchors": ["crates/cglinalg_trigonometry/src/lib.rs: normalize, normalize_signed, opposite, bisect"]}
{"id": "C117", "title": "Linear interpolation in floats", "statement": "lerp of vectors, matrices and quaternions is accurate to a few units roundoff of the larger argument; lerp(u, v, 0) = u and lerp(u, v, 1) = v.", "quantifier": "every IEEE format with at least 24 bits, every dimension, all arguments without overflow", "why_tests_cant": "Rounding error bounds and endpoint identities range over all floats.", "anchors": ["crates/cglinalg_core/src/vector.rs: lerp", "crates/cglinalg_core/src/matrix.rs: lerp", "crates/cglinalg_core/src/quaternion.rs: lerp"]}
{"id": "C118", "title": "Overflow in complex functions", "statement": "Complex functions of finite floats are finite when the exact result is in range, and agree with the real functions on the real axis.", "quantifier": "every IEEE format, every library of real functions with the usual special values, every finite argument", "why_tests_cant": "The failures depend on intermediate overflow and underflow over the full exponent range.", "anchors": ["crates/cglinalg_core/src/complex.rs: norm, exp, ln, sqrt, cosh, sinh, tanh, cos, sin, from_polar_decomposition, cis"]}
{"id": "C119", "title": "Indexing by ranges", "statement": "v[a..b], v[..b], v[a..] and v[..] of vectors, points, complex numbers and quaternions panic exactly when the range is reversed or ends past the last component, otherwise give exactly the named components in order, and assigning through such a slice changes exactly one component.", "quantifier": "every dimension, every element type, every range and index", "why_tests_cant": "Tests try a few ranges of vectors of length at most 4; the boundary cases range over all pairs of bounds.", "anchors": ["crates/cglinalg_core/src/vector.rs: Index/IndexMut of ranges", "crates/cglinalg_core/src/point.rs: Index/IndexMut of ranges", "crates/cglinalg_core/src/complex.rs: Index/IndexMut", "crates/cglinalg_core/src/quaternion.rs: Index/IndexMut"]}
{"id": "C120", "title": "Memory views", "statement": "The views obtained by pointer casts (a matrix as a flat array or as columns, a vector as a one-column array, a quaternion as scalar and vector, named coordinates) show the components in storage order, and writing through a mutable view changes exactly the corresponding component. as_ptr panics exactly for empty objects.", "quantifier": "every shape, every element type, every index", "why_tests_cant": "The views are unsafe casts whose correctness depends on the layout for every shape.", "anchors": ["crates/cglinalg_core/src/matrix.rs: AsRef, AsMut, as_slice, as_ptr, len, shape", "crates/cglinalg_core/src/vector.rs: AsRef<[[S; N]; 1]>, as_ptr", "crates/cglinalg_core/src/complex.rs: AsRef", "crates/cglinalg_core/src/quaternion.rs: AsRef, Deref, DerefMut", "crates/cglinalg_core/src/coordinates.rs: impl_coords_deref"]}
{"id": "C121", "title": "Integer overflow in debug builds", "statement": "On machine integers in a build with overflow checks, every sum, difference, scaling, dot product, cross product, matrix product, trace, determinant, complex product and quaternion product that returns is exact and equals the release build's result; it panics exactly when an intermediate value leaves the type (for unsigned dot products: when the result does), and never when the entries are below explicit bounds.", "quantifier": "every width and signedness, every dimension, all entries", "why_tests_cant": "Whether an intermediate value overflows depends on the order of evaluation and on the whole range of entries; tests use small numbers.", "anchors": ["crates/cglinalg_core/src/vector.rs: Add, Sub, Neg, Mul, dot, cross", "crates/cglinalg_core/src/matrix.rs: Add, Sub, Mul, trace, determinant", "crates/cglinalg_core/src/complex.rs: Mul", "crates/cglinalg_core/src/quaternion.rs: Mul", "crates/cglinalg_numeric/src/lib.rs: impls for integer types"]}
{"id": "C122", "title": "Long products do not drift", "statement": "Composing k float quaternions, complex numbers or rotation matrices from left to right accumulates an error at most proportional to k: while the accumulated bound is below 1/4 nothing overflows, the result is within c*k*u of the exact product, and its length (for matrices: the inner products of its rows) stays within an explicit linear bound of that of a rotation.", "quantifier": "every binary float format with at least 24 bits, every number of factors, all entries", "why_tests_cant": "A test composes a fixed number of fixed rotations; the rate of growth over all factors and all lengths of product is not observable.", "anchors": ["crates/cglinalg_core/src/quaternion.rs: Mul", "crates/cglinalg_core/src/complex.rs: Mul", "crates/cglinalg_core/src/matrix.rs: Mul"]}
{"id": "C123", "title": "Projections in floats: accuracy and depth order", "statement": "Projecting a float point inside the frustum or box gives coordinates within a fixed number of units roundoff of the exact ones, and of two points the nearer one never gets the larger depth.", "quantifier": "every binary float format with at least 24 bits, all planes and points (far at least twice near for the accuracy)", "why_tests_cant": "Tests compare a few projected points with a tolerance; the order of neighbouring floats and the worst error over all frusta are not visible there.", "anchors": ["crates/cglinalg_transform/src/projection.rs: Perspective3::project_point, Orthographic3::project_point", "crates/cglinalg_core/src/matrix.rs: from_perspective, from_orthographic"]}
{"id": "C124", "title": "Rotation constructors are accurate in floats", "statement": "When the axis is a unit vector up to d and the scalar's sine and cosine are correct up to d, the matrices and quaternions built by from_angle*, from_axis_angle and EulerAngles::to_matrix have every entry within a small multiple of d plus a few units of roundoff of the exact rotation, Quaternion::to_matrix is within 80 units of roundoff of v -> q v q^-1 for every non-degenerate quaternion (unit or not), and building the matrix through the quaternion agrees with building it directly.", "quantifier": "every binary float format with at least 24 bits, all axes, all angles, all quaternions whose squared length neither overflows nor underflows, any sine and cosine functions with error at most d", "why_tests_cant": "Tests compare a few rotations with a hand-picked tolerance; they cannot bound the error over all axes, angles and quaternion lengths, nor separate the error of the library's formulas from that of the sine.", "anchors": ["crates/cglinalg_core/src/matrix.rs: Matrix2x2::from_angle, Matrix3x3::from_angle_x/y/z, Matrix3x3::from_axis_angle", "crates/cglinalg_core/src/quaternion.rs: from_axis_angle, to_matrix", "crates/cglinalg_core/src/euler.rs: to_matrix"]}
{"id": "C125", "title": "Rigid motions and similarities are accurate in floats", "statement": "For isometries and similarities in up to four dimensions whose rotation is within d of an orthonormal matrix, and points and translations of length at most V: the image of a point is within (4d + 21u)V of the exact rigid motion; applying and undoing the motion (by inverse_apply_point or through inverse) returns to the point up to (9d + 46u)V resp. (17d + 82u)V; distances are preserved up to (8d + 42u)V; the product of two isometries and their successive application agree with the exact composite; nothing overflows. In particular a point turned by from_axis_angle is within a fixed multiple of (d + u)V of the exact rotation.", "quantifier": "every binary float format with at least 24 bits, every dimension up to 4, all rotations, translations, scales and points in the stated range", "why_tests_cant": "Tests check round trips of a few isometries with a tolerance chosen by hand; how the error scales with the size of the coordinates and with the quality of the rotation matrix needs all inputs.", "anchors": ["crates/cglinalg_transform/src/isometry.rs: apply_point, apply_vector, inverse, inverse_apply_point, Mul", "crates/cglinalg_transform/src/similarity.rs: apply_point, inverse_apply_point", "crates/cglinalg_transform/src/rotation.rs: apply_point"]}
{"id": "C126", "title": "Recovering an angle from rounded data gives a number", "statement": "For finite arguments in f32 or f64 the functions that recover an angle never fall into the NaN of an arc cosine or arc sine whose argument has been rounded past 1: Quaternion::ln of every quaternion, slerp of unit quaternions for every amount in [0, 1], rotation_between of every two vectors (as a quaternion, as Rotation3, as Matrix3x3 and, in the plane, as Matrix2x2), Rotation3::angle of rotations built from an axis and an angle or as r^-1 r, and euler_angles of every rotation. The angle recovered from from_axis_angle is accurate: its cosine is within a fixed multiple of the rounding errors of the cosine of the original angle.", "quantifier": "every binary float format with at least 24 bits, all finite vectors, quaternions, axes and angles, every standard library whose sine, cosine and arc functions meet the stated requirements", "why_tests_cant": "Whether a rounded dot product or trace exceeds 1 depends on the last bit of particular inputs; tests with a few axes and angles happen to land on either side.", "anchors": ["crates/cglinalg_core/src/quaternion.rs: ln, slerp, rotation_between, rotation_between_axis", "crates/cglinalg_core/src/matrix.rs: Matrix3x3::rotation_between", "crates/cglinalg_transform/src/rotation.rs: Rotation3::angle, euler_angles, rotation_between, from_axis_angle, from_quaternion, from_euler_angles", "crates/cglinalg_core/src/matrix.rs: Matrix2x2::rotation_between (3183-3189), rotation_between_axis (3235-3240)"]}
{"id": "C127", "title": "Viewing matrices in floats show the frame of the observer", "statement": "For every finite direction and up vector that are not parallel (in a range of lengths free of overflow), look_to_lh / look_to_rh / look_at_lh / look_at_rh of Matrix3x3 and Matrix4x4 return finite matrices whose rows are, up to a fixed multiple of the rounding error, the exact orthonormal frame of the observer: third row along (rh: against) the direction, first row at right angles to up, second row completing a right-handed frame; the 4x4 matrices take the eye to the origin up to that error relative to the length of the eye, with an exact last row.", "quantifier": "every binary float format with at least 24 bits, all finite directions, up vectors, eyes and targets of length between 2^-k and 2^k", "why_tests_cant": "Tests look along a few axes with an orthogonal up vector; how the error grows as up approaches the direction, and whether a matrix is NaN or skewed close to it, needs all inputs.", "anchors": ["crates/cglinalg_core/src/matrix.rs: Matrix3x3::look_to_lh, look_to_rh, look_at_lh, look_at_rh (4888-5046)", "crates/cglinalg_core/src/matrix.rs: Matrix4x4::look_to_lh, look_to_rh, look_at_lh, look_at_rh (7262-7450)"]}
{"id": "C128", "title": "Reflections and projections are accurate in floats", "statement": "For every finite vector or point of length at most V, Reflection::apply_vector / apply_point return finite results within a fixed multiple of (the error of the normal + the rounding error) times V of the exact mirror image, applying the reflection twice gives back the argument, and distances are kept up to that error; Vector::reflect is that accurate for a normal of any length; Vector::project, Quaternion::project and Quaternion::reject are within a fixed multiple of the rounding error of the orthogonal projection and of what is left, and the rest is at right angles to the line up to that error.", "quantifier": "every binary float format with at least 24 bits, up to four dimensions, all finite arguments in a range of lengths whose squares neither overflow nor underflow", "why_tests_cant": "Tests compare a few reflections and projections with a tolerance chosen by hand; a bound on the error, and its dependence on how far the stored normal is from unit length, needs all inputs.", "anchors": ["crates/cglinalg_transform/src/reflection.rs: apply_vector, apply_point, inverse_apply_vector, inverse_apply_point (313-537)", "crates/cglinalg_core/src/vector.rs: project, reflect (869-898)", "crates/cglinalg_core/src/quaternion.rs: project, reject (2962-3004)"]}
{"id": "C129", "title": "Quaternion inverse and division in floats", "statement": "For every finite non-zero quaternion whose inverse is representable, try_inverse returns a quaternion within a fixed multiple of the rounding error of the exact inverse, its product with the quaternion from either side is 1 up to the rounding error, and div_left / div_right return the exact quotients up to a fixed multiple of the rounding error, so that multiplying back gives the dividend up to the rounding error.", "quantifier": "every binary float format with at least 24 bits, all finite quaternions", "why_tests_cant": "Tests invert a few quaternions with small integer components; how large the error can be and for which lengths there is no inverse or a zero one needs all inputs.", "anchors": ["crates/cglinalg_core/src/quaternion.rs: try_inverse, is_invertible (1564-1607)", "crates/cglinalg_core/src/quaternion.rs: div_left, div_right (2162-2199)"]}
{"id": "C130", "title": "Translations, scales and shears in floats", "statement": "For finite arguments away from overflow, Translation::apply_point, Scale::apply_point / apply_vector and Shear::apply_point / apply_vector return the exact image up to rounding, and inverse_apply_* or the inverse transform bring the argument back up to a fixed multiple of the rounding error of the image; translations on a common grid and scales by powers of two are exact, axis shears keep the other coordinates exactly, products of translations commute exactly.", "quantifier": "every binary float format (at least 24 bits and up to four dimensions for shears along any direction), every dimension, all finite arguments in range", "why_tests_cant": "Tests use values for which every step is exact or compare with a tolerance; that the round trip is within two units of roundoff of the image, and no better, is a statement about all floats.", "anchors": ["crates/cglinalg_transform/src/translation.rs: apply_point, inverse_apply_point, inverse, Mul (232-386, 757)", "crates/cglinalg_transform/src/scale.rs: apply_vector, apply_point, inverse, inverse_apply_vector, inverse_apply_point (166-227, 393-506)", "crates/cglinalg_transform/src/shear.rs: apply_vector, apply_point, inverse_apply_vector, inverse_apply_point, from_shear_xy .. from_shear_zy (324-786, 1268-1840)"]}
{"id": "C131", "title": "Rotation matrices and quaternions convert back and forth in floats", "statement": "Quaternion::from_matrix applied to a float matrix whose entries are within e of a rotation matrix returns, in whichever branch, a quaternion within 15 (e + unit roundoff) of one of the two unit quaternions of that rotation, with length close to one; converting back with to_matrix gives the rotation up to a fixed multiple of e and the roundoff; from_matrix(to_matrix(q)) is q / |q| or its negative up to rounding; the look_to and look_at constructors of quaternions are close to the turn into the frame of the observer.", "quantifier": "every binary float format of at least 24 bits, every rotation, every matrix within 1/1024 of it, every finite quaternion in range", "why_tests_cant": "Tests check one matrix per branch with a tolerance; near the borders of the branches rounding decides which branch is taken, and that no choice loses accuracy (no division by a small square root) is a statement about all matrices near all rotations.", "anchors": ["crates/cglinalg_core/src/quaternion.rs: from_matrix (1136-1175), to_matrix (1235), look_to_lh, look_to_rh, look_at_lh, look_at_rh (2436-2620)"]}
{"id": "C132", "title": "Accuracy of nlerp and slerp of quaternions in floats", "statement": "For float quaternions within d of unit quaternions P and Q and an amount t in [0, 1], nlerp returns (1-t) P + t Q divided by its length s up to 36 d / s, and slerp returns the point at the fraction t of the shorter great circle arc from P or -P to Q up to 12 sqrt(d) + 5 threshold^2, in whichever branch it ends; when |P . Q| is at most 1 - k the error is at most 232 d + 22 u / k. The order sqrt(d) for nearly equal quaternions cannot be improved.", "quantifier": "every binary float format of at least 24 bits with enough range, all unit quaternions P, Q, all amounts in [0, 1], all thresholds up to 1/2, every sin and acos with relative error d", "why_tests_cant": "Tests interpolate between a few quaternions far apart; slerp divides by a sine that cancels for nearly equal quaternions, and how much accuracy is lost there, at the switch to nlerp and at the clamp of the cosine, is a statement about all pairs.", "anchors": ["crates/cglinalg_core/src/quaternion.rs: nlerp (2786-2788), slerp (2843-2906)"]}
{"id": "C133", "title": "Degrees and radians in floats", "statement": "Converting degrees to radians or back in f64 or f32 is off by at most one and a half roundings, a round trip by 3.1 roundings, and both keep the order; degrees never overflow. 360, 180, 90 and 45 degrees convert exactly to the named fractions of a turn and back, but round trips are not exact in general: 3 degrees (f64), 15 degrees (f32) and 60 degrees (both) do not come back. Degrees::sin and cos add the conversion error to that of the library, sin(180 degrees) and cos(90 degrees) are never zero, positive in f64 and negative in f32. asin, acos, atan, atan2 in degrees stay exactly within 90 or 180 degrees. csc, sec and cot at most double the relative error and are infinite where the function is zero.", "quantifier": "all finite f64 and f32 angles (up to 2^1016 and 2^120 for radians to degrees), every library of real functions with the stated error", "why_tests_cant": "Tests convert a few angles with a tolerance; that the error bound holds for all magnitudes, that the order is kept and that ranges are met exactly depends on how 180/pi rounds and on monotone rounding.", "anchors": ["crates/cglinalg_trigonometry/src/lib.rs: From<Degrees> for Radians (752-759), From<Radians> for Degrees (762-769), full_turn (1636, 1693), full_turn_div_2 to 8 (308-395), Degrees sin/cos (1698-1709), asin/acos/atan/atan2 (1713-1729), csc/cot/sec (526-572)"]}
{"id": "C134", "title": "Accuracy of complex functions in floats", "statement": "If the library's real functions have relative error at most d at the arguments they are called with, then in any binary float format the parts of the complex exp, cos, sin, cosh, sinh and from_polar have relative error at most 4d, those of tan and tanh at most 12 d k where k measures how much cosh + cos in the denominator cancels; norm is off by at most 8 roundings; ln has the real part off by d |ln r| plus ten roundings and the imaginary part by d |phi|; sqrt and cbrt are within 21 d of the modulus of the root from the exact square root with nonnegative real part and the exact cube root with argument within pi/3; powf has a relative error of 6d + 33 d |e| (1 + |ln r|). None of them overflows in the stated ranges.", "quantifier": "all formats (precision at least 24 for the functions using the norm), all libraries, all finite complex numbers whose results are in range", "why_tests_cant": "Tests compare a few values with a tolerance; the bound for every argument rests on the propagation of the library's error through each formula, and on which branch (root, sign of sine terms) the formula selects.", "anchors": ["crates/cglinalg_core/src/complex.rs: exp (919-924), ln (961-966), sqrt (1128-1135), cbrt (1160-1166), powf (1367-1369), cos (1439-1444), sin (1528-1535), tan (1580-1587), cosh (1632-1653), sinh (1726-1743), tanh (1810-1832)"]}
{"id": "C135", "title": "Accuracy of rotation_between in floats", "statement": "If the library's arc cosine, sine and cosine have absolute error at most d, then for finite vectors v and w of lengths between 2^-k and 2^k whose angle has sine s with s^2 >= 512 u (u the unit roundoff), Quaternion::rotation_between returns a quaternion whose components are within 6d + 350 u/s of the exact one, and the matrices of Rotation3::rotation_between and Matrix3x3::rotation_between have entries within 72d + 4280 u/s and 16d + 943 u/s of the exact rotation about the common normal; they take the direction of v to that of w up to 7/4 of these bounds. If the vectors point the same way and s^2 is smaller than that, the quaternion is within 30 sqrt(u) + 4d of the identity and the two directions differ by at most 23 sqrt(u).", "quantifier": "all formats with precision at least 24, all libraries with d at most 1/256, all k with 2k + 31 <= emax, all finite vectors with the stated lengths and angle", "why_tests_cant": "Tests try a few pairs of vectors at comfortable angles; the loss of accuracy by 1/s and the absence of spurious branches (range checks of the cosine, threshold on the cross product) concern every pair of vectors.", "anchors": ["crates/cglinalg_core/src/quaternion.rs: rotation_between (2328-2334), rotation_between_axis (2365-2400)", "crates/cglinalg_transform/src/rotation.rs: rotation_between (1566-1568)", "crates/cglinalg_core/src/matrix.rs: Matrix3x3::rotation_between (5249-5270)"]}
{"id": "C136", "title": "A rotation returned by rotation_between takes one direction to the other", "statement": "Whenever rotation_between returns a rotation for two finite nonzero vectors of moderate length, it takes the direction of the first to the direction of the second up to a small multiple of the square root of the unit roundoff; pairs for which no axis can be found give None.", "quantifier": "all formats with precision at least 24, all accurate libraries, all finite vectors of moderate lengths", "why_tests_cant": "The failures need vectors that are opposite up to a few units in the last place, where the cross product consists of rounding errors but still passes the threshold; random tests do not meet them.", "anchors": ["crates/cglinalg_core/src/quaternion.rs: rotation_between_axis (2365-2400)", "crates/cglinalg_core/src/unit.rs: Unit::try_from_value (178-224)"]}
{"id": "C137", "title": "Accuracy of angles and axes recovered from rotations in floats", "statement": "If the library's arc functions, atan2, sine and cosine have absolute error at most d, and the entries of a float matrix are within e of an exact rotation, then euler_angles returns the Euler angles a, b, c within d + 2e/cos b (the outer two up to a full turn, and exactly the given ones away from the cut at half a turn) whenever 8e <= cos^2 b; Rotation3::axis_angle returns the axis within (7/2 e + 18u)/sin t and the angle within d + (2e + 13u)/sin t whenever 64(e + u) <= sin^2 t; Rotation2::angle returns the angle within d + 2e. Consequently the angles given to from_euler_angles, from_axis_angle and from_angle are recovered up to a few rounding errors divided by the sine or cosine that measures the distance from degeneracy. Rotation2::rotation_between has entries within 2d + 120u of the rotation that takes one direction to the other, for all finite vectors of moderate length without exception.", "quantifier": "all formats with precision at least 24, all libraries with d at most 1/64, all rotations, all float matrices near them, all finite angles and vectors in the stated ranges", "why_tests_cant": "Tests recover a few angles with a tolerance; how the error grows towards gimbal lock and half turns, and that there is no other bad region (signs, quadrants, cuts of atan2), concerns every rotation and every library.", "anchors": ["crates/cglinalg_transform/src/rotation.rs: euler_angles (1837-1853), axis (1029-1037), angle (978-985), axis_angle (1064-1066)", "crates/cglinalg_transform/src/rotation.rs: Rotation2::angle (857-859), from_angle (884-891), rotation_between_axis (916-923), rotation_between (947-953)"]}
{"id": "C138", "title": "Rebuilding a rotation from its extracted Euler angles gives it back", "statement": "For every float rotation r, from_euler_angles applied to euler_angles(r) is r up to a small multiple of the rounding errors; in particular at gimbal lock, where the angles are not unique but the code has a separate branch to choose them.", "quantifier": "all formats with precision at least 24, all accurate libraries, all float matrices close to rotations", "why_tests_cant": "The branch for gimbal lock depends on a floating-point equality that no test exercises with rounded inputs; near it the error depends on the distance from the degenerate position.", "anchors": ["crates/cglinalg_transform/src/rotation.rs: euler_angles (1837-1853), from_euler_angles"]}
{"id": "C139", "title": "Accuracy of the exponential, trigonometric and hyperbolic functions of quaternions in floats", "statement": "For a float quaternion q = s + v with n = |v|, if the library's real functions have relative error at most d at the arguments the code passes, then every component of exp(q) is within (5/2 d + 12un + 19u) e^s + tiny of the exact e^s cos n + e^s sin n v/n; cosh(q) and sinh(q) are within (5/2 d + 12un + 19u) cosh s + tiny of cosh s cos n + sinh s sin n v/n and sinh s cos n + cosh s sin n v/n; cos(q) and sin(q) are within (11/4 d + 24un + 19u) cosh n + tiny of cos s cosh n - sin s sinh n v/n and sin s cosh n + cos s sinh n v/n. For exp this includes the branch taken for short vector parts; the result is finite up to a factor 2^7 from overflow.", "quantifier": "all formats with precision at least 24, all libraries with d at most 1/18, all finite quaternions in the stated ranges, including a vector part that is zero", "why_tests_cant": "Tests evaluate a few quaternions of moderate size; the error of the norm is amplified by the functions, the division by the norm could lose accuracy for short vector parts, and the library is not fixed.", "anchors": ["crates/cglinalg_core/src/quaternion.rs: exp (1793-1811)", "crates/cglinalg_core/src/quaternion.rs: cos (3146-3163), sin (3228-3245), cosh (3411-3428), sinh (3487-3504)"]}
{"id": "C140", "title": "Accuracy of the square root, logarithm, argument and tangents of quaternions in floats", "statement": "For every float quaternion whose exact square root, logarithm, argument, tangent or hyperbolic tangent exists and is of moderate size, the computed value is finite and close to it: sqrt to the root with positive scalar part, ln to log|q| + angle times the direction of the vector part, arg to the angle between q and the positive real axis, tan to sin times the inverse of cos, tanh to sinh times the inverse of cosh.", "quantifier": "all formats with precision at least 24, all accurate libraries, all finite quaternions", "why_tests_cant": "The inputs that lose all accuracy are within 2^-26 of the real axis or have large vector parts, and random tests do not reach them; that there are no others is a statement about every quaternion.", "anchors": ["crates/cglinalg_core/src/quaternion.rs: arg (1681-1693), ln (1878-1903), sqrt (2092-2130), tan (3322-3344), tanh (3576-3597)"]}
{"id": "C141", "title": "Convenience forms agree with the operations they stand for", "statement": "inverse of a 1x1 to 4x4 matrix returns w exactly when m w = 1 and panics for all other matrices; Shear::from_shear is the shear p + factor (p . normal) direction through the origin, on points and on vectors; the transform of an orthographic projection maps points and vectors as project_point and project_vector, never panicking; Vector::scale and unscale by a non-zero factor undo each other, act componentwise and multiply the norm by |s|; Complex::from_angle is on the unit circle, turns sums into products and arg recovers angles in (-pi, pi]; abs_diff_eq of quaternions with a quaternion of tolerances compares every component with its own; metric_distance of float vectors has relative error at most 10u.", "quantifier": "all dimensions, all matrices, points, vectors and parameters over any field (the reals for norms, angles and tolerances); for metric_distance all formats with precision at least 24 and all finite vectors of up to 4 components whose distance is between 2^-k and 2^k", "why_tests_cant": "Each form delegates to another function; a test with a symmetric or unit example does not notice swapped arguments, a lost factor or a missing panic.", "anchors": ["crates/cglinalg_core/src/matrix.rs: inverse (2696, 3337, 5443, 7823)", "crates/cglinalg_transform/src/shear.rs: from_shear (919)", "crates/cglinalg_transform/src/projection.rs: to_transform (4118)", "crates/cglinalg_core/src/vector.rs: scale, unscale (1478-1490), metric_distance (592-594)", "crates/cglinalg_core/src/quaternion.rs: AbsDiffEq (4405-4593)"]}
{"id": "C142", "title": "Accuracy of powers and tangents of quaternions in floats", "statement": "For a float quaternion q = r (cos theta + sin theta w) away from the real axis, powf(q, t) is within a bound of order |t| (d (2 + |ln r|) + u/sin theta) r^t of r^t (cos(t theta) + sin(t theta) w) in every component; tan(q) has relative error of order d + u(1 + |v|) in every component of the exact tan(q), also where tan(q) is large; tanh(q) has an error of the same order divided by the closeness to the poles of tanh; on real quaternions tan and tanh are the library's functions.", "quantifier": "all formats with precision at least 24 and enough exponent range, all libraries with relative error d at the arguments used, all finite quaternions within the stated ranges, all finite exponents for which the bound is below 1/16", "why_tests_cant": "powf chains ln, a scaling and exp, so the errors of the angle and of the logarithm are multiplied by the exponent; the tangents divide by sums that can be small. No list of inputs shows a bound for all of them.", "anchors": ["crates/cglinalg_core/src/quaternion.rs: powf (1924-1927), tan (3322-3344), tanh (3576-3597)"]}
{"id": "C143", "title": "Getting planes and points back from a projection in floats", "statement": "In floats, reading the planes back from a perspective or orthographic projection (near, far, left, right, bottom, top) and unprojecting points gives the original planes and the exact preimages up to errors of a modest multiple of u; in particular project_point followed by unproject_point returns every point of the view volume up to such an error (growing with the square of the distance for a perspective).", "quantifier": "all formats with precision at least 24, all finite positive planes with far >= 2 near, all float points in the view volume", "why_tests_cant": "the code recovers the planes from ratios such as (-c22 + 1) / (-c22 - 1), which cancel more and more as the ratio of the planes grows until a division by zero gives NaN; tests with ordinary planes pass with small errors, and the bound over all planes and points is not a matter of samples.", "anchors": ["crates/cglinalg_transform/src/projection.rs: near (877-950), far (995-1070), right, left, top, bottom (1116-1540), unproject_point (2041-2078) of Perspective3; near, far (3009-3182), right, left, top, bottom (3210-3579), unproject_point (3970-3999) of Orthographic3"]}
{"id": "C144", "title": "Accuracy of inverse complex functions in floats", "statement": "In floats, acosh, asinh, atanh, acos, asin and atan of a complex number return the principal value of the inverse function up to a modest multiple of the accuracy d of the real library functions they use: the result is within such an error of an exact X + iY with cosh(X + iY) = z (sinh, tanh, cos, sin, tan respectively) in the principal strip.", "quantifier": "all formats with precision at least 24, all finite arguments away from the branch points, every library of real functions with relative error d at the points used", "why_tests_cant": "the textbook formulas ln(z + sqrt(1 + z^2)) and -i ln(i sqrt(1 - z^2) + z) cancel completely in one half plane and lose the branch near the cut, while tests at small arguments in the other half plane pass; an error bound over the plane and over all libraries cannot be sampled.", "anchors": ["crates/cglinalg_core/src/complex.rs: acosh (1674-1709), asinh (1764-1793), atanh (1853-1884), acos (1465-1511), asin (1556-1563), atan (1608-1615), ln (961-966), sqrt (1128-1135)"]}
{"id": "C145", "title": "Field of view of a perspective projection in floats", "statement": "In floats, Perspective3::from_vfov(vfov, aspect, near, far) has the entries of the exact projection up to a few units of roundoff and the error of the library tangent, and vfov(), aspect_ratio(), near_z() and far_z() read back the arguments with small relative errors.", "quantifier": "all formats with precision at least 24, all finite fields of view below pi, aspect ratios and planes of moderate size, every library tangent and arctangent with relative error d", "why_tests_cant": "an error bound over all floats and all libraries cannot be sampled; at a right angle the answer depends on whether the last bit of the library tangent is above 1, and the denominator may be zero or negative.", "anchors": ["crates/cglinalg_core/src/matrix.rs: from_perspective_vfov (7179-7213)", "crates/cglinalg_transform/src/projection.rs: from_vfov (591-598), aspect_ratio (633-666), vfov (689-832), near_z, far_z"]}
{"id": "C146", "title": "Norms, componentwise extremes and clamping in floats", "statement": "In floats, linf_norm of a vector is exact, l1_norm of a vector and l1_norm and linf_norm of a matrix have only the rounding errors of their sums, l1_norm is never below linf_norm, the L1 and L-infinity distances are symmetric and vanish only between equal vectors, and all of them are NaN when a component is NaN; component_min and component_max are exact, and clamp stays between its bounds.", "quantifier": "all float formats, all sizes, all vectors and matrices, every choice between zeros of opposite sign", "why_tests_cant": "The bounds hold for every size and every float, overflow, infinities and signed zeros included; the standard library leaves the sign of a zero maximum open, so a test sees only one choice; and the loss of a NaN needs a NaN in the tested data.", "anchors": ["crates/cglinalg_core/src/vector.rs:500-508", "crates/cglinalg_core/src/vector.rs:541-549", "crates/cglinalg_core/src/vector.rs:692-754", "crates/cglinalg_core/src/vector.rs:921-960", "crates/cglinalg_core/src/matrix.rs:1743-1785", "crates/cglinalg_numeric/src/lib.rs:1600-1617"]}
{"id": "C147", "title": "Integer powers of complex numbers in floats", "statement": "In floats, powu(n) and powi(n) of a complex number have an error of a few n units of roundoff relative to the modulus of the exact power, negative exponents included, as long as nothing overflows or underflows; on overflow the result is infinite.", "quantifier": "all formats with precision at least 24, all finite complex numbers whose modulus and power are in the normal range, all exponents n with 12 n u <= 1 (in f64 every u32)", "why_tests_cant": "The bound is for every exponent and number; tests compare a few small powers with tolerances that hide the growth of the error.", "anchors": ["crates/cglinalg_core/src/complex.rs:1257-1285", "crates/cglinalg_core/src/complex.rs:1304-1345", "crates/cglinalg_core/src/complex.rs:2721-2732"]}
{"id": "C148", "title": "Lp norms in floats", "statement": "In f32 and f64, lp_norm(p) of a vector is finite and has an error of a few units of roundoff whenever the norm itself is in range, for every p >= 1; the norm of a vector with a NaN component is NaN, and it is zero exactly for zero vectors.", "quantifier": "all dimensions, all f32 and f64 vectors, all u32 exponents, all libraries with the stated accuracy of powi and powf", "why_tests_cant": "The error depends on the logarithm of the sum of powers and on p; tests use p up to 5 and components near 1, where neither overflow of the powers nor the wrap-around of p can be seen.", "anchors": ["crates/cglinalg_core/src/vector.rs:657-665", "crates/cglinalg_numeric/src/lib.rs:31-37"]}
{"id": "C149", "title": "Other bases, complex exponents and the polar form of complex numbers in floats", "statement": "In floats, from_angle, polar_decomposition followed by from_polar_decomposition, exp2, log, log2, log10, exp(ln z) and powc of complex numbers agree with their real definitions up to a few units of roundoff times the condition number, whenever the result is in range; powc with exponent 0 is 1 and powc of 0 with an exponent of positive real part is 0.", "quantifier": "all float formats with at least 24 bits, all complex numbers and exponents in range, all libraries with the stated accuracy", "why_tests_cant": "Tests compare a few values near 1 up to 1e-10; the error depends on the logarithm of the modulus and on the size of the exponent, and powc of zero is not tested.", "anchors": ["crates/cglinalg_core/src/complex.rs:870-894", "crates/cglinalg_core/src/complex.rs:989-1063", "crates/cglinalg_core/src/complex.rs:1416-1422"]}
{"id": "C150", "title": "A failed approximate assertion reports the differences of the right components", "statement": "For every composite type, the debug helpers of the approximate assertions report, component by component, the scalar difference and the scalar tolerance of exactly that component, and an approximate comparison fails if and only if its report shows a component whose difference exceeds its tolerance.", "quantifier": "all sizes, all values and tolerances, all scalar comparisons and scalar debug helpers", "why_tests_cant": "The helpers only run when an assertion fails, so a passing test suite never executes them; their bodies are repeated three times for each of 17 types.", "anchors": ["crates/cglinalg_core/src/vector.rs:1240-1460", "crates/cglinalg_core/src/matrix.rs:8968-9199", "crates/cglinalg_transform/src/isometry.rs:1832-2194", "crates/cglinalg_transform/src/similarity.rs:1899-2330", "crates/cglinalg_transform/src/shear.rs:2104-2620"]}
{"id": "C151", "title": "Inner and outer products of quaternions in floats", "statement": "For finite quaternions p and q of lengths at most P and N, with P N away from overflow and underflow, `inner` computes (ps qs - pv.qv, ps qv + qs pv) and `outer` computes (0, pv x qv), each component within 18 units roundoff relative to P N. `inner` commutes exactly for all inputs; the scalar part of `outer` is exactly zero, swapping its arguments exactly negates its value, and `outer` of a quaternion with itself is exactly zero.", "quantifier": "all float formats with at least 24 bits, all finite quaternions with P N between 2^(31-emax) and 2^(emax-31); all floats for commutativity", "why_tests_cant": "Exact zeros and exact antisymmetry depend on the order of roundings in two different products; sampling with tolerances cannot distinguish exact from approximate.", "anchors": ["crates/cglinalg_core/src/quaternion.rs:2245-2251", "crates/cglinalg_core/src/quaternion.rs:2291-2297", "crates/cglinalg_core/src/quaternion.rs:4131-4143"]}
{"id": "C152", "title": "Polar decomposition of quaternions in floats", "statement": "For every finite nonzero quaternion q with a nonzero vector part, `polar_decomposition` returns |q| within 8 units roundoff, the half angle theta with |q| cos theta = |s| and |q| sin theta = |v| within d + 60 units roundoff, where d is the error of the library's functions, and the axis v/|v| within 12 units roundoff per component; a real quaternion gives the angle 0 and no axis. `from_polar_decomposition` of the norm, twice that angle and the axis gives back (|s|, v) within (5 d + 120 u) |q|.", "quantifier": "all float formats with at least 24 bits and 2 prec + 33 <= emax, all finite quaternions, all libraries with absolute error at most d <= 1/64", "why_tests_cant": "The error passes through a normalization, a norm of a possibly tiny vector, atan2 and sin/cos; a sampled check at 1e-8 cannot bound it, and the failures sit at the ends of the exponent range.", "anchors": ["crates/cglinalg_core/src/quaternion.rs:3055-3073", "crates/cglinalg_core/src/quaternion.rs:3105-3113", "crates/cglinalg_core/src/unit.rs:178-224"]}
{"id": "C153", "title": "General transforms and homogeneous coordinates in floats", "statement": "For finite matrices and arguments in dimensions up to 3, `apply_vector` computes each component within 8 units roundoff relative to the sum of the magnitudes of its products. `apply_point` computes h_i/h_n within 12 u kappa (1 + |h_i/h_n|), where kappa bounds the row sums over |h_n| and 64 u kappa <= 1; for a matrix with last row 0 ... 0 1 it never panics and each component is within 8 units roundoff of the affine image. `from_homogeneous` returns the correctly rounded quotients, None for a zero weight, and inverts `to_homogeneous` exactly.", "quantifier": "all float formats with at least 24 bits, all dimensions up to 3, all finite matrices, vectors and points with row sums between 2^(31-emax) and 2^(emax-31)", "why_tests_cant": "The error depends on the conditioning of the weight; the tests use small integers, for which every operation is exact.", "anchors": ["crates/cglinalg_transform/src/transform.rs:310-312", "crates/cglinalg_transform/src/transform.rs:361-363", "crates/cglinalg_core/src/point.rs:461-463", "crates/cglinalg_core/src/point.rs:530-542"]}
{"id": "C154", "title": "Affine matrices act exactly as the transforms they come from in floats", "statement": "For a translation, scale, rotation, isometry or orthographic projection, applying `to_transform()` to a finite point never panics and gives the same floats as applying the transform itself (identical for isometries, otherwise up to the sign of zero), and the same for vectors; `cross_matrix(v) * w` and `v.cross(w)` are the same floats up to the sign of zero.", "quantifier": "all float formats, every dimension, all transforms (with any float entries, except finite translations for vectors), all finite points and vectors", "why_tests_cant": "That no bit of the result differs is a statement about the order of all roundings; tests compare a few integers, for which nothing is rounded.", "anchors": ["crates/cglinalg_transform/src/isometry.rs:751-760", "crates/cglinalg_transform/src/translation.rs:555-563", "crates/cglinalg_transform/src/scale.rs:561", "crates/cglinalg_transform/src/rotation.rs:568", "crates/cglinalg_transform/src/transform.rs:310-312", "crates/cglinalg_transform/src/transform.rs:361-363", "crates/cglinalg_core/src/matrix.rs:4622-4628"]}
{"id": "C155", "title": "Accuracy of reflection, shear and similarity matrices in floats", "statement": "Applying `to_transform()` of a reflection to a point never panics and lands within 92 units of roundoff (relative to the largest coordinate) of p - 2 ((p - bias) . n) n, for vectors within 49; the matrix `from_affine_shear` lands within 55 units of p + s ((p - origin) . normal) direction relative to max(1,|s|) times the largest coordinate; a similarity in 2D or 3D within 17 of scale * (R p) + translation.", "quantifier": "all float formats with at least 24 bits of precision, all finite inputs bounded away from overflow and underflow, directions and normals with entries at most 1", "why_tests_cant": "The bounds are over all floats and formats; tests use axis-aligned normals for which nothing is rounded.", "anchors": ["crates/cglinalg_core/src/matrix.rs:4314-4342", "crates/cglinalg_core/src/matrix.rs:4489-4511", "crates/cglinalg_core/src/matrix.rs:6110-6147", "crates/cglinalg_core/src/matrix.rs:6249-6280", "crates/cglinalg_transform/src/reflection.rs:746-750", "crates/cglinalg_transform/src/reflection.rs:842-846", "crates/cglinalg_transform/src/similarity.rs:1015-1027", "crates/cglinalg_transform/src/transform.rs:361-363"]}
{"id": "C156", "title": "Traces, inner products and products with a transpose in floats", "statement": "In floats `a.tr_mul(&b)` equals `a.transpose() * b`, `a.tr_dot(&e)` equals `a.dot(&e.transpose())`, `dot` and the squared and plain distances are symmetric in their arguments and `trace` ignores transposition, all bit for bit; a finite `trace` is within ((1+u)^n - 1) of the exact one relative to the sum of the magnitudes, a finite `dot` of r x c matrices within ((1+u)^(rc+1) - 1) plus an underflow term, and `triple` within 31 units of roundoff of the determinant relative to the product of the largest components.", "quantifier": "all float formats (at least 24 bits for the triple product), all shapes, all matrices and vectors, including infinite and NaN entries for the bitwise equalities", "why_tests_cant": "Equality of all bits for all entries, and error bounds over all shapes, cannot be sampled; tests use small integers, which are never rounded.", "anchors": ["crates/cglinalg_core/src/matrix.rs:892-903", "crates/cglinalg_core/src/matrix.rs:948-968", "crates/cglinalg_core/src/matrix.rs:1009-1022", "crates/cglinalg_core/src/matrix.rs:1400-1408", "crates/cglinalg_core/src/matrix.rs:1662-1664", "crates/cglinalg_core/src/matrix.rs:1715-1717", "crates/cglinalg_core/src/vector.rs:2242-2244", "crates/cglinalg_core/src/point.rs:298"]}
{"id": "C157", "title": "Composing and inverting similarities in floats", "statement": "For float similarities whose rotation matrices are within d of orthonormal ones, applying `f * g` to a point lands within (32 d + 125 u) V of the exact composite similarity, and `f.inverse()` takes `f.apply_point(p)` back to within (17 d + 93 u) V / |scale| of p; a similarity made from an isometry acts exactly as the isometry, `Similarity * Isometry` equals the product with the similarity made from it, and `Translation * Rotation` acts exactly as rotation followed by translation.", "quantifier": "all float formats with at least 24 bits of precision, all dimensions up to four, all similarities and points away from overflow and underflow; the exact statements for all floats", "why_tests_cant": "Bounds over all rotations, scales and translations in every format; tests check a handful of similarities with a fixed tolerance of 1e-8.", "anchors": ["crates/cglinalg_transform/src/similarity.rs:653-657", "crates/cglinalg_transform/src/similarity.rs:580", "crates/cglinalg_transform/src/similarity.rs:859", "crates/cglinalg_transform/src/similarity.rs:1244-1250", "crates/cglinalg_transform/src/similarity.rs:1312-1317", "crates/cglinalg_transform/src/isometry_ops.rs:81"]}
{"id": "C158", "title": "Inverse viewing transforms and viewing isometries in floats", "statement": "In floats `look_*_inv` undoes `look_*` for Matrix3x3, Matrix4x4 and Isometry3: going to the coordinates of the observer and back returns every vector v within 2500 u/s |v|, where s is the sine of the angle of direction and up; `Isometry3::look_*` and `Similarity3::look_*` give the coordinates of p - eye in the exact frame within 2250 u/s times the lengths involved.", "quantifier": "all float formats with at least 24 bits, all eyes, targets, directions and up vectors in the ordinary range with s >= 16384 u, both handednesses, look_to and look_at, all points", "why_tests_cant": "The bound holds over all viewing positions and grows with 1/s; tests look along a few directions with the eye often at the origin, where the wrong translation of the inverse does not show.", "anchors": ["crates/cglinalg_core/src/matrix.rs:5083-5222", "crates/cglinalg_core/src/matrix.rs:7488-7663", "crates/cglinalg_transform/src/isometry.rs:1440-1781", "crates/cglinalg_transform/src/rotation.rs:1264-1542", "crates/cglinalg_transform/src/similarity.rs:1488-1643"]}
{"id": "C159", "title": "Linear reflection and shear matrices in floats", "statement": "In floats, `Matrix::from_reflection(n) * v` is within 49 u P of v - 2 (v.n) n, doing it twice returns v to within 1000 u P for a normal of squared length within 16 u of one, and the matrix is exactly symmetric; `Matrix::from_shear(s, d, n) * v` is within 31 u S P of v + s (v.n) d; every coordinate shear (2x2, 3x3, affine 3x3 and 4x4) computes exactly `v[a] + s * v[b]` with the roundings of that expression and leaves the other coordinates alone, up to the sign of zeros.", "quantifier": "all float formats with at least 24 bits of precision, all normals and directions with components of at most one, all vectors away from overflow and underflow; coordinate shears: all formats, all finite vectors, all s including infinities and NaN", "why_tests_cant": "Bounds over all normals, directions and vectors in every format, and bit-level identities for all finite inputs; tests use a handful of axis-aligned values.", "anchors": ["crates/cglinalg_core/src/matrix.rs:2787-2848", "crates/cglinalg_core/src/matrix.rs:3003-3014", "crates/cglinalg_core/src/matrix.rs:3063-3077", "crates/cglinalg_core/src/matrix.rs:3449-3808", "crates/cglinalg_core/src/matrix.rs:3965-3985", "crates/cglinalg_core/src/matrix.rs:4537-4558", "crates/cglinalg_core/src/matrix.rs:5602-5948"]}
{"id": "C160", "title": "Products of isometries with rotations and translations in floats", "statement": "For float rotations whose matrices are within d of orthonormal ones and translations and points of length at most V, the isometries `r * t`, `f * t`, `t * f`, `f * r`, `r * f` (r rotation, t translation, f isometry) move a point to within (8d + 39u) V, (8d + 43u) V, (4d + 24u) V, (28d + 97u) V and (32d + 115u) V of the exact composite of the two motions in the order written.", "quantifier": "all float formats with at least 24 bits of precision, all dimensions up to four, all isometries, rotations, translations and points away from overflow and underflow", "why_tests_cant": "Bounds over all rotations and translations in every format; tests check a handful of products with a fixed tolerance of 1e-8.", "anchors": ["crates/cglinalg_transform/src/isometry_ops.rs:21", "crates/cglinalg_transform/src/isometry_ops.rs:130", "crates/cglinalg_transform/src/isometry_ops.rs:193", "crates/cglinalg_transform/src/isometry_ops.rs:250", "crates/cglinalg_transform/src/isometry_ops.rs:310"]}
{"id": "C161", "title": "Products of affine transforms in floats", "statement": "For affine float transforms f and g (last row 0, ..., 0, 1) with entries of at most F and G, the last row of `f * g` is again exactly 0, ..., 0, 1, `(f * g).apply_point(p)` always succeeds and `(f * g).apply_point(p)` and `(f * g).apply_vector(v)` are within 264 u F G P of f applied to g applied to the argument in exact arithmetic, for coordinates of at most P.", "quantifier": "all float formats with at least 24 bits of precision, all dimensions up to three, all affine transforms, points and vectors away from overflow", "why_tests_cant": "Bounds over all affine matrices and points in every format; tests multiply a handful of transforms and compare with a fixed tolerance.", "anchors": ["crates/cglinalg_transform/src/transform.rs:540-557", "crates/cglinalg_transform/src/transform.rs:310-312", "crates/cglinalg_transform/src/transform.rs:361-363"]}
{"id": "C162", "title": "Inverting affine transforms in floats", "statement": "For an affine float transform f (last row 0, ..., 0, 1) with entries of at most M and |det f| of at least M^(n+1) / D, `inverse_apply_vector(v)` returns a vector within c1 X of the exact solution of f x = v, and `inverse_apply_point(p)` returns a point, without panicking, whose coordinates are within c2 X (1 + |x_i|) of the exact solution x of f x = p, where X = D^2 u P / M, P bounds the coordinates, c1 = 495, c2 = 1704 in the plane and c1 = 13698, c2 = 37424 in space.", "quantifier": "all float formats with at least 24 bits of precision, all affine transforms of the plane and of space with D^2 at most 2^(prec - 32) resp. 2^(prec - 38), all vectors and points away from overflow (and with X below 1/2048 resp. 1/40000 for points)", "why_tests_cant": "Bounds over all invertible matrices and all arguments in every format; tests invert a handful of well conditioned transforms with a fixed tolerance.", "anchors": ["crates/cglinalg_transform/src/transform.rs:643-735", "crates/cglinalg_transform/src/transform.rs:763-860", "crates/cglinalg_transform/src/transform.rs:361-363"]}
{"id": "C163", "title": "Projecting vectors in floats", "statement": "For float planes and coordinates, `Perspective3::project_vector` agrees with `project_point` in the first and third coordinate up to the sign of zero, whenever the depth is not zero; inside the frustum all three coordinates are within 22 u, 22 u and 72 u of the exact projection, also for asymmetric frusta. `Orthographic3::project_vector` is within 9 u, 9 u and 25 u of scaling by 2/(right+left), 2/(top+bottom) and -2/(far-near).", "quantifier": "all float formats (for the bounds: with at least 24 bits of precision), all finite planes of moderate size with far at least twice near, all points of the frustum and all vectors no larger than the box", "why_tests_cant": "Bounds and bitwise agreement over all planes and points of every format; tests project a few points with symmetric planes.", "anchors": ["crates/cglinalg_transform/src/projection.rs:1979-1984", "crates/cglinalg_transform/src/projection.rs:1919-1926", "crates/cglinalg_transform/src/projection.rs:3936-3942"]}
{"id": "C164", "title": "Diagonal, scale and translation matrices in floats", "statement": "In floats, up to the sign of zero: `from_diagonal(d) * v` and `from_nonuniform_scale(d) * v` have the components d_i * v_i and `from_diagonal_value(a) * v`, `from_scale(a) * v` the components a * v_i, each rounded once; `from_diagonal(d) * m` multiplies row i by d_i, `m * from_diagonal(e)` column j by e_j; `from_affine_translation(s) * from_affine_translation(t)` is `from_affine_translation(t + s)`; a translation times a scale has the columns of both without rounding, and a scale times a translation has the rounded translation s_i * t_i.", "quantifier": "all float formats, all dimensions, all finite vectors and matrices (diagonals arbitrary)", "why_tests_cant": "Exact agreement for every format, dimension and value, including overflow in the diagonal; tests use small integers.", "anchors": ["crates/cglinalg_core/src/matrix.rs:2081-2143", "crates/cglinalg_core/src/matrix.rs:2243-2251", "crates/cglinalg_core/src/matrix.rs:2382-2390", "crates/cglinalg_core/src/matrix.rs:2539-2547", "crates/cglinalg_core/src/matrix.rs:8633-8818"]}
{"id": "C165", "title": "Scaling by a scalar and dividing by it in floats", "statement": "For floats, `(x * s) / s` is within 2 u |x_i| of x_i in every component, and equal to it where the product is exact, for vectors, matrices, quaternions and complex numbers x; bit for bit `(-x) / s = -(x / s) = x / (-s)`, `x / 1 = x` and `x /= s` is `x / s`; `Matrix1x1::try_inverse` is None exactly for zero of either sign and otherwise returns the reciprocal with relative error at most u.", "quantifier": "all float formats, all dimensions, all values (for the bounds: products that are zero or neither overflow nor underflow)", "why_tests_cant": "Bounds and bitwise laws over all floats of every format; tests divide a few integers.", "anchors": ["crates/cglinalg_core/src/vector.rs:1608-1649", "crates/cglinalg_core/src/vector.rs:1862-1873", "crates/cglinalg_core/src/matrix.rs:8477-8513", "crates/cglinalg_core/src/matrix.rs:8897-8910", "crates/cglinalg_core/src/matrix.rs:2644-2653", "crates/cglinalg_core/src/quaternion.rs:4238-4250", "crates/cglinalg_core/src/complex.rs:2549-2560"]}
{"id": "C166", "title": "Transposition, conjugation and signs of products in floats", "statement": "In floats, for all values including infinities and NaN: `(a * b).transpose()` is `b.transpose() * a.transpose()` and `(-a) * (-b)` is `a * b` bit for bit for matrices of all shapes; `(-a) * b` and `a * (-b)` are `-(a * b)` up to the sign of zero, also for matrix times vector, the cross product and quaternions; `v.cross(&u)` is `-u.cross(&v)` and `(p * q).conjugate()` is `q.conjugate() * p.conjugate()` up to the sign of zero; `norm_squared` of a quaternion ignores conjugation and negation bit for bit.", "quantifier": "all float formats, all shapes, all values", "why_tests_cant": "Bitwise laws over all floats of every format; they depend on the order in which the code adds its terms.", "anchors": ["crates/cglinalg_core/src/matrix.rs:8633-8818", "crates/cglinalg_core/src/matrix.rs:720-730", "crates/cglinalg_core/src/vector.rs:2186-2192", "crates/cglinalg_core/src/quaternion.rs:4131-4143"]}
{"id": "C167", "title": "Signs, transposition and equal columns of determinants in floats", "statement": "In floats the determinant keeps the laws that only concern signs and the order of factors: negating a matrix multiplies it by (-1)^n, transposing a matrix keeps it, exchanging two columns changes its sign, and a matrix with two equal columns has determinant zero and is refused by `try_inverse`.", "quantifier": "all float formats, all values", "why_tests_cant": "Laws over all floats; the counterexamples for 3x3 and 4x4 need particular roundings.", "anchors": ["crates/cglinalg_core/src/matrix.rs:3097-3099", "crates/cglinalg_core/src/matrix.rs:4580-4587", "crates/cglinalg_core/src/matrix.rs:6303-6328", "crates/cglinalg_core/src/matrix.rs:5348-5369"]}
{"id": "C168", "title": "Parallel arguments of cross and triple products in floats", "statement": "In floats the cross product of parallel vectors is zero and the cross product is orthogonal to its arguments, so `u.cross(&u)` and `u.triple(&u, &w)`, `u.triple(&w, &u)`, `w.triple(&u, &u)` are zero.", "quantifier": "all float formats, all vectors", "why_tests_cant": "The law holds for equal arguments only and fails for particular roundings otherwise.", "anchors": ["crates/cglinalg_core/src/vector.rs:2186-2192", "crates/cglinalg_core/src/vector.rs:2242-2244"]}
