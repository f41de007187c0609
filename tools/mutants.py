"""The wrong programs used by mutate.py: one realistic bug per entry.

M(definition, old, new, properties, claim): inside that definition of the model replace old by new; the
theorems of each listed property must then fail, because the claim is false of the edited code."""
import glob, os, re

mutants = []
_files = {}
for _f in glob.glob(os.path.join(os.path.dirname(os.path.abspath(__file__)), '../rocq/theories/M*.v')):
    for _n in re.findall(r'^\s*(?:#\[[^\]]*\]\s*)?(?:Definition|Fixpoint|Record|Instance)\s+(\w+)', open(_f).read(), re.M):
        _files.setdefault(_n, os.path.basename(_f)[:-2])

def M(d, old, new, props, claim, **kw):
    k = sum(1 for m in mutants if m['def'] == d) + 1
    mutants.append(dict(id='%s-%d' % (d, k), file=kw.pop('file', None) or _files[d], **{'def': d}, old=old, new=new,
                        props=props.split(), claim=claim, **kw))

# --- vectors -----------------------------------------------------------------------------------------
M('vdot', 'acc + vat', 'acc - vat', 'C03 C96', 'dot(u, v) is the sum of the products of the components')
M('vdot', 'vat u i * vat v i', 'vat u i * vat u i', 'C03', 'dot is bilinear and symmetric')
M('vdot', 'for_range n', 'for_range (n - 1)', 'C03', 'dot includes the last component')
M('vcmul', 'vat u i * vat v i', 'vat u i + vat v i', 'C13', 'component_mul multiplies componentwise')
M('vcmul_assign', 'vat r i * vat v i', 'vat r i * vat r i', 'C02', 'component_mul_assign agrees with component_mul')
M('vneg_mut', '(- vat r i)', '(vat r i)', 'C02', 'neg_mut negates')
M('vadd', 'vat u i + vat v i', 'vat u i - vat v i', 'C01', 'addition is componentwise and commutative')
M('vadd', 'for_range n', 'for_range (n - 1)', 'C01', 'addition covers every component')
M('vsub', 'vat u i - vat v i', 'vat v i - vat u i', 'C01', 'u - v is componentwise')
M('vneg', '(- vat u i)', '(vat u i)', 'C01', 'u + (-u) = 0')
M('vmul_s', 'vat u i * a', 'vat u i + a', 'C01', 'scalar multiplication distributes')
M('s_mul_v', 'a * vat u i', 'a * a', 'C01', 'a * u scales every component')
M('vadd_assign', 'vat r i + vat v i', 'vat r 0 + vat v i', 'C02', 'add_assign equals add')
M('vsub_assign', 'vat r i - vat v i', 'vat v i - vat r i', 'C02', 'sub_assign equals sub')
M('vmul_assign', 'vat r i * a', 'vat r i * a * a', 'C02', 'mul_assign equals mul')
M('vdiv_assign', 'vat r i / a', 'a / vat r i', 'C02', 'div_assign equals div')
M('vdiv_s', 'vat u i / a', 'a / vat u i', 'C113 C74', 'division by a scalar undoes multiplication')
M('vdist_squared', 'vsub u v', 'vadd u v', 'C07', 'the distance of a vector to itself is zero')
M('vlerp', 'vsub v u', 'vsub u v', 'C06', 'lerp at 1 is the end point')
M('vextend', ') n last', ') 0%nat last', 'C05', 'extend appends the component at the end')
M('vto_homogeneous', 'vextend u 0', 'vextend u 1', 'C05', 'the weight of a homogeneous vector is zero')
M('vcontract', 'S n - 1', 'S n - 2', 'C05', 'contract keeps all but the last component')
M('vcross', 'vat u 2 * vat v 0 - vat u 0 * vat v 2', 'vat u 0 * vat v 2 - vat u 2 * vat v 0', 'C04', 'the cross product is orthogonal to its factors (sign of y)')
M('vcross', 'vat u 1 * vat v 2', 'vat u 1 * vat v 1', 'C04', 'the cross product is orthogonal to its factors')
M('vtriple', 'vcross u o1', 'vcross o1 u', 'C04', 'the triple product is the determinant of the three columns')
M('vis_zero', 'andb acc (nis0', 'orb acc (nis0', 'C14', 'is_zero is true only of the zero vector')
M('vis_zero', 'for_range n', 'for_range (n - 1)', 'C14', 'is_zero looks at every component')
M('vfrom_homogeneous', 'if nis0', 'if negb (nis0', 'C05', 'from_homogeneous of a vector with zero weight succeeds', skip=True)
M('vfrom_homogeneous', 'S n - 1', 'S n - 2', 'C05', 'from_homogeneous tests the weight')
M('vproject', 'vnorm_squared o', 'vnorm_squared u', 'C11', 'the projection lies on the other vector and leaves an orthogonal rest')
M('vtry_cast', '| None => None', '| None => Some data', 'C12', 'a failing component makes the whole cast fail')
M('vl1_norm', 'Rabs (vat u i)', 'vat u i', 'C08', 'the l1 norm is non-negative')
M('vlinf_norm', 'Rmax acc (Rabs (vat u i))', 'Rmin acc (Rabs (vat u i))', 'C08', 'linf is the largest magnitude')
M('vlinf_norm', 'Rabs (vat u i)', 'vat u i', 'C08', 'linf is the largest magnitude')
M('vnorm', 'sqrt (vnorm_squared u)', 'vnorm_squared u', 'C07', 'the norm is absolutely homogeneous')
M('vdist', 'vsub u v', 'vadd u v', 'C07', 'd(u, u) = 0')
M('norm_metric_distance', 'vsub rhs lhs', 'vadd rhs lhs', 'C08', 'the distances of the norm objects vanish on the diagonal')
M('vcmin', 'Rmin', 'Rmax', 'C13', 'component_min is the smaller component')
M('vcmax', '(Rmax (vat u i) (vat v i))', '(Rmax (vat u i) (vat u i))', 'C13', 'component_max is the larger component')
M('vnormalize', '1 / vnorm u', 'vnorm u', 'C10', 'normalize gives norm one')
M('vnormalize_mut', '(vnormalize u, norm)', '(vnormalize u, 1)', 'C02', 'normalize_mut returns the old norm')
M('vtry_normalize', 'Rle_dec norm threshold', 'Rlt_dec norm threshold', 'C10', 'try_normalize rejects norms up to and including the threshold')
M('vtry_normalize', 'None else Some (vnormalize u)', 'None else Some u', 'C10', 'a Some result has norm one')
M('vtry_normalize_mut', 'then (u, None)', 'then (vzero n, None)', 'C02', 'a rejected vector is left unchanged')
M('vreflect', 'let two := 1 + 1', 'let two := 1', 'C11', 'reflection reverses the normal component')
M('vreflect', 'vnormalize normal', 'normal', 'C11', 'reflection works for normals of any length')
M('v3_from_v4', '(vat v 2)', '(vat v 3)', 'C101', 'truncation keeps x, y, z')
M('v3_unit_y', 'v3 0 1 0', 'v3 0 0 1', 'C101', 'unit_y is the second basis vector')
M('v4_unit_w', 'v4 0 0 0 1', 'v4 0 0 1 0', 'C101', 'unit_w is the fourth basis vector')
# --- points ------------------------------------------------------------------------------------------
M('pto_homogeneous', 'vextend p 1', 'vextend p 0', 'C05', 'the weight of a homogeneous point is one')
M('pfrom_homogeneous', 'vat v i / vat v n', 'vat v i', 'C05', 'from_homogeneous divides by the weight')
M('pfrom_homogeneous', 'negb (nis0 (vat v n))', 'nis0 (vat v n)', 'C05', 'a point at infinity gives None')
M('pextend', 'vset r i (vat p i)', 'vset r i (vat p 0)', 'C05', 'extend keeps the coordinates')
M('pcontract', 'for_range n', 'for_range (n - 1)', 'C05', 'contract keeps all but the last coordinate')
M('padd', 'vadd p v', 'vadd p p', 'C15', '(p + v) - p = v')
M('psub', 'vsub p v', 'vsub v p', 'C15', 'p - v translates backwards')
M('pdiff', 'vsub p q', 'vsub q p', 'C15', 'p + (q - p) = q')
M('psub_assign', 'vsub_assign p v', 'vadd_assign p v', 'C15', 'sub_assign equals sub')
M('pmul_assign', 'vmul_assign p s', 'p', 'C15', 'mul_assign equals mul')
M('pnorm', 'vnorm p', 'vl1_norm p', 'C102', 'the norm of a point is the distance to the origin')
M('pdist', 'vdist p q', 'vdist p p', 'C07 C102', 'distinct points have positive distance')
M('pdist_squared', 'vdist_squared p q', 'vnorm_squared p', 'C102', 'squared distance is the square of the distance')
# --- matrices ----------------------------------------------------------------------------------------
M('mindex', 'vindex col i', 'vindex col j', 'C19', 'index (column, row) reads that entry')
M('mfrom_rows', 'mset_d d data j i', 'mset_d d data i j', 'C19', 'from_rows is the transpose of from_columns')
M('mfrom_flat', 'j * r + i', 'i * c + j', 'C19', 'flat arrays are read column by column')
M('mmap', 'mget_d da m j i', 'mget_d da m i j', 'C13', 'map acts entrywise')
M('mrow', 'vset data j x', 'vset data i x', 'C19', 'row i has the entries of row i')
M('vswap', 'vset (vset v a xb) b xa', 'vset (vset v a xb) b xb', 'C20', 'swap exchanges two entries')
M('mswap_rows', 'row_a row_b with', 'row_a row_a with', 'C20', 'swap_rows exchanges two rows')
M('mswap_columns', 'vswap m col_a col_b', 'vswap m col_a col_a', 'C20', 'swap_columns exchanges two columns')
M('mswap', 'mset_d d m1 (fst b) (snd b) element_a', 'mset_d d m1 (fst b) (snd b) element_b', 'C20', 'swap exchanges two entries')
M('mtranspose_mut', '(i, j) (j, i)', '(i, j) (i, j)', 'C17', 'transpose_mut equals transpose')
M('mtranspose_mut', 'for_range_opt i (', 'for_range_opt n (', 'C17', 'transpose_mut equals transpose (each pair is swapped once)')
M('mtry_cast', '| None => None', '| None => Some data', 'C12', 'a failing entry makes the whole cast fail')
M('mcmp_all', 'andb acc', 'orb acc', 'C90', 'matrix comparison is the conjunction over the entries')
M('mcmp_all', 'mget_d db t j i', 'mget_d db t j j', 'C90', 'each entry uses its own tolerance')
M('mis_diagonal', 'andb (eq0 (mget_d d m i j)) (eq0 (mget_d d m j i))', 'eq0 (mget_d d m i j)', 'C14', 'is_diagonal checks both triangles')
M('mis_symmetric', 'for_range i (fun', 'for_range (i - 1) (fun', 'C14', 'is_symmetric checks every pair')
M('mtranspose', 'mset acc i j (mget m j i)', 'mset acc i j (mget m i j)', 'C17', 'transpose exchanges rows and columns')
M('mcmul', 'mget a j i * mget b j i', 'mget a j i + mget b j i', 'C18', 'component_mul multiplies entrywise')
M('mdot', 'mget a j i * mget b j i', 'mget a j i * mget b i j', 'C18', 'dot is the sum of the products of corresponding entries')
M('mtr_mul', 'mget a j1 i * mget b j2 i', 'mget a j1 i * mget b j1 i', 'C18', 'tr_mul is transpose times matrix')
M('mtr_dot', 'mget a r c * mget b c r', 'mget a r c * mget b r c', 'C18', 'tr_dot is the dot of the transpose')
M('madd', 'mget a j i + mget b j i', 'mget a j i + mget a j i', 'C16', 'addition is commutative')
M('msub', 'mget a j i - mget b j i', 'mget b j i - mget a j i', 'C16', 'A - B is entrywise')
M('mneg', '- mget a j i', 'mget a j i', 'C16', 'A + (-A) = 0')
M('mmul_s', 'mget a j i * s', 'mget a j i + s', 'C16', 'scalar multiplication distributes')
M('s_mul_m', 's * mget a j i', 's + mget a j i', 'C16', 's * A scales')
M('mneg_mut', '- x', 'x', 'C02', 'neg_mut negates')
M('madd_assign', 'x + mget b j i', 'x + mget b i j', 'C02', 'add_assign equals add')
M('msub_assign', 'x - mget b j i', 'mget b j i - x', 'C02', 'sub_assign equals sub')
M('mmul_assign', 'x * s', 'x', 'C02', 'mul_assign equals mul')
M('mdiv_assign', 'x / s', 's / x', 'C02', 'div_assign equals div')
M('dot_array_col', 'mget arr k i', 'mget arr i k', 'C16', 'the product uses rows of the left factor')
M('dot_array_col', 'for_range c', 'for_range (c - 1)', 'C16', 'the product sums over all columns')
M('mmulv', 'dot_array_col m v i', 'dot_array_col m v 0%nat', 'C16', 'component i of M v uses row i')
M('mmul', 'mset acc j i (dot', 'mset acc i j (dot', 'C16 C122', 'entries of the product are stored at (column, row)')
M('mlerp', 'msub b a', 'msub a b', 'C06', 'lerp at 1 is the end point')
M('midentity', 'mset acc i i 1', 'mset acc i 0%nat 1', 'C16', 'I A = A')
M('mfrom_diagonal', '(vat d i)', '(vat d 0)', 'C101', 'from_diagonal puts component i at (i, i)')
M('mfrom_diagonal_value', 'mset acc i i a', 'mset acc 0%nat i a', 'C101', 'from_diagonal_value is a multiple of the identity')
M('mdiagonal', 'mget m i i', 'mget m i 0', 'C24', 'component i is the diagonal entry i')
M('mtrace', 'acc + mget m i i', 'acc + mget m 0 i', 'C23', 'the trace is the sum of the diagonal')
M('mdist_squared', 'msub a b', 'madd a b', 'C102', 'the distance of a matrix to itself is zero')
M('mfrom_scale', 'mset acc i i s', 'mset acc i 0%nat s', 'C27', 'from_scale scales every coordinate')
M('mfrom_nonuniform_scale', '(vat s i)', '(vat s 0)', 'C27', 'each coordinate has its own factor')
M('mfrom_affine_scale', 'S n - 1', 'S n', 'C27', 'an affine scale keeps the weight')
M('mfrom_affine_nonuniform_scale', 'S n - 1', 'S n', 'C27', 'an affine scale keeps the weight')
M('mfrom_affine_translation', 'mset acc (S n - 1) i', 'mset acc i (S n - 1)', 'C27', 'translations are in the last column')
M('membed', '(midentity n)', '(mzero n n)', 'C25', 'embedding maps the identity to the identity')
M('membed', 'mset acc j i (mget m j i)', 'mset acc j i (mget m i j)', 'C25', 'embedding is multiplicative')
M('m2det', '- mget m 0 1 * mget m 1 0', '+ mget m 0 1 * mget m 1 0', 'C21', 'det is multiplicative')
M('m3det', 'mget m 1 0 * mget m 0 2 * mget m 2 1 +', 'mget m 1 0 * mget m 0 2 * mget m 1 2 +', 'C21', 'det is the Laplace expansion')
M('m4det', 'mget m 1 0 * mget m 3 1 * mget m 0 3 * mget m 2 2 +', 'mget m 1 0 * mget m 3 1 * mget m 0 3 * mget m 2 2 -', 'C21', 'det is the Laplace expansion (one sign)')
M('m4det', 'mget m 3 0 * mget m 1 1 * mget m 0 2 * mget m 2 3', 'mget m 3 0 * mget m 1 1 * mget m 0 2 * mget m 2 2', 'C21', 'det is the Laplace expansion (one index)')
M('m2shear_xy', 'm2new 1 0 s 1', 'm2new 1 s 0 1', 'C28', 'shear_xy shifts x by a multiple of y')
M('m2from_shear', '(s * vat direction 1 * vat normal 0)', '(s * vat direction 0 * vat normal 1)', 'C28', 'the general shear shifts along direction by the normal component')
M('m3shear_yz', 'm3new 1 0 0  0 1 0  0 s 1', 'm3new 1 0 0  0 1 s  0 0 1', 'C28', 'shear_yz shifts y by a multiple of z')
M('m3from_shear', '(1 + s * vat direction 2 * vat normal 2)', '(1 + s * vat direction 2 * vat normal 1)', 'C28', 'the general shear shifts along direction by the normal component')
M('m3from_affine_shear', '(- s * vdot origin normal)', '(s * vdot origin normal)', 'C28 C68', 'the affine shear fixes its origin')
M('m4affine_shear_zx', 'm4new 1 0 s 0', 'm4new 1 s 0 0', 'C28', 'affine shear_zx shifts z by a multiple of x')
M('m4from_affine_shear', '(vat translation 2) 1', '(vat translation 1) 1', 'C28 C68', 'the affine shear fixes its origin')
M('m2from_reflection', 'let two := 1 + 1', 'let two := 1', 'C29', 'a reflection is an involution')
M('m3from_reflection', '(- two * vat n 2 * vat n 0)', '(two * vat n 2 * vat n 0)', 'C29', 'a reflection reverses the normal')
M('m3from_affine_reflection', '(vat n 0 * vat bias 0 + vat n 1 * vat bias 1)', '(vat n 0 * vat bias 0 - vat n 1 * vat bias 1)', 'C29 C66', 'an affine reflection fixes its mirror', first=True)
M('m4from_affine_reflection', '(two * vat n 2 * (vat n', '(two * vat n 1 * (vat n', 'C29 C66', 'an affine reflection fixes its mirror')
M('m3cross_matrix', 'm3new 0 (vat v 2) (- vat v 1)', 'm3new 0 (- vat v 2) (- vat v 1)', 'C92', 'cross_matrix(v) w = v x w')
M('mis_zero', 'andb acc', 'orb acc', 'C14', 'is_zero is true only of the zero matrix')
M('mis_identity', 'andb (nis0 (mget m i j)) (nis0 (mget m j i))', 'nis0 (mget m j i)', 'C14', 'is_identity checks both triangles')
M('mis_identity', 'is_one (mget m i i)', 'is_one (mget m 0 i)', 'C14', 'is_identity checks the diagonal')
M('mdiv_s', 'mget a j i / s', 's / mget a j i', 'C113 C02', 'division by a scalar is entrywise')
M('m2try_inverse', '(det_inv * - mget m 0 1)', '(det_inv * mget m 0 1)', 'C22', 'M M^-1 = I')
M('m3try_inverse', 'mget m 0 2 * mget m 2 1 - mget m 0 1 * mget m 2 2', 'mget m 0 1 * mget m 2 2 - mget m 0 2 * mget m 2 1', 'C22', 'M M^-1 = I (one cofactor sign)')
M('m4try_inverse', '- mget m 2 0 * mget m 1 1 * mget m 0 2', '+ mget m 2 0 * mget m 1 1 * mget m 0 2', 'C22', 'M M^-1 = I (one cofactor term)')
M('m4try_inverse', 'if nis0 det then None', 'if nis0 (mget m 0 0) then None', 'C22', 'None exactly when the determinant is zero')
M('ml1_norm', 'Rmax result (vl1_norm (mcol m j))', 'result + vl1_norm (mcol m j)', 'C26', 'the l1 norm is the largest column sum')
M('mlinf_norm', 'Rabs (mget m j i)', 'Rabs (mget m i j)', 'C26', 'the linf norm is the largest row sum')
M('mnorm', 'sqrt (mnorm_squared m)', 'mnorm_squared m', 'C26', 'the Frobenius norm is homogeneous')
M('mnormalize', '1 / mnorm m', '1 / mnorm_squared m', 'C26', 'normalize gives norm one')
M('mtry_normalize_mut', 'then (m, None)', 'then (mzero r c, None)', 'C02', 'a rejected matrix is left unchanged')
M('m3is_invertible', 'negb (near0 (m3det m))', 'near0 (m3det m)', 'C93', 'is_invertible is true exactly when the determinant is not near zero')
# --- complex numbers ---------------------------------------------------------------------------------
M('cmap', '(op (im z))', '(op (re z))', 'C99', 'map acts on both parts')
M('ctry_cast', 'mkC a b', 'mkC b a', 'C12', 'a successful cast converts both parts')
M('ccmp', 'andb', 'orb', 'C90', 'comparison is the conjunction over the parts')
M('ccmp_all', '(im z) (im w) t', '(im z) (im z) t', 'C90', 'comparison looks at both imaginary parts')
M('cmodulus_squared', 're z * re z + im z * im z', 're z * re z - im z * im z', 'C30', '|z|^2 is multiplicative and positive')
M('cconj', '(- im z)', '(im z)', 'C30', 'z conj(z) = |z|^2')
M('cmul', 're z * im w + im z * re w', 're z * im w - im z * re w', 'C30 C122', 'multiplication is commutative')
M('cdiv', 'im z * re w - re z * im w', 're z * im w - im z * re w', 'C30', '(z / w) w = z')
M('cscale', '(im z * s)', '(im z)', 'C99', 'scale multiplies both parts')
M('cmul_assign', 'im z + a * im w', 'im z + re z * im w', 'C31', 'mul_assign equals mul (uses the updated real part)')
M('cdiv_assign', 'im z - a * im w', 'im z - re z * im w', 'C31', 'div_assign equals div (uses the updated real part)')
M('cdiv_assign', '(re z / n) (im z)', '(re z) (im z)', 'C31', 'div_assign equals div')
M('csub_assign_s', 're z - s', 're z + s', 'C99', 'sub_assign of a scalar equals sub')
M('s_add_c', '(s + re z) (im z)', '(s + re z) (s + im z)', 'C32', 's + z embeds the real s')
M('s_mul_c', '(s * im z)', '(im z)', 'C32', 's z embeds the real s')
M('s_div_c', '(- (s * im z)) / den', '(s * im z) / den', 'C32', 's / z embeds the real s')
M('s_sub_c', '(s - re z) (im z)', '(re z - s) (im z)', 'C32', 'the real part of s - z is s - re z')
M('cpowu', 'Nat.div e 2', 'Nat.div e 3', 'C33', 'powu multiplies n copies', skip=True)
M('cpowu', 'if e mod 2 =? 1 then cmul_assign result base else result', 'if e mod 2 =? 0 then cmul_assign result base else result', 'C33', 'powu multiplies n copies')
M('cpowu', '=? 0 then Some cone', '=? 0 then Some czero', 'C33', 'z^0 = 1')
M('cpowi', 'else mkC (re z / norm_squared) ((- im z) / norm_squared)', 'else mkC (re z / norm_squared) (im z / norm_squared)', 'C34', 'powi with a negative exponent is the power of the inverse', skip=True)
M('cpowi', 'Z.eqb (Z.rem e 2) 1', 'Z.eqb (Z.rem e 2) 0', 'C34', 'powi multiplies n copies')
M('ctry_inverse', '(- im z) / n', 'im z / n', 'C38', 'z z^-1 = 1')
M('cis_invertible_eps', 'eps * eps', 'eps', 'C38', 'is_invertible compares the modulus with epsilon')
M('cis_real', 'nis0 (im z)', 'nis0 (re z)', 'C100', 'is_real tests the imaginary part')
M('cis_zero', 'andb', 'orb', 'C100', 'is_zero tests both parts')
M('cl1_norm', 'Rabs (im z)', 'im z', 'C102', 'l1 norm is the sum of the magnitudes')
M('carg', 'ratan2 (im z) (re z)', 'ratan2 (re z) (im z)', 'C35', 'z = |z| (cos arg + i sin arg)')
M('cfrom_polar', 'scale * sin angle', 'sin angle', 'C35', 'from_polar has modulus |scale|')
M('cexp', 'exp (re z) * sin (im z)', 'exp (re z) * cos (im z)', 'C35', 'exp is additive')
M('cln', 'ln (cnorm z)', 'ln (cmodulus_squared z)', 'C35', 'exp(ln z) = z')
M('clog2', '(ln 2)', '(ln 10)', 'C35', 'log2 inverts exp2')
M('clog', 'arg / ln base', 'arg', 'C35', 'log to a base is ln divided by the ln of the base')
M('cexp2', 'im z * ln 2', 'im z', 'C35', 'exp2 z = exp (z ln 2)')
M('csqrt', 'sin (carg z / 2)', 'sin (carg z)', 'C36', 'sqrt(z)^2 = z')
M('ccbrt', 'arg / 3', 'arg / 2', 'C36', 'cbrt(z)^3 = z')
M('cpowf', 'cmul_s (cln z) exponent', 'cmul_s (cln z) (- exponent)', 'C35', 'powf(z, 1) = z')
M('cpowc', 'cmul exponent (cln z)', 'cadd exponent (cln z)', 'C35', 'powc agrees with powf on real exponents')
M('ccosh', '(sinh (re z) * sin (im z))', '(cosh (re z) * sin (im z))', 'C37', 'cosh z = (e^z + e^-z) / 2')
M('csinh', '(cosh (re z) * sin (im z))', '(cosh (re z) * cos (im z))', 'C37', 'sinh z = (e^z - e^-z) / 2')
M('ctanh', 'sin two_times_im / denominator', 'sin two_times_re / denominator', 'C37', 'tanh = sinh / cosh')
M('ccos', '(mkC (- im z) (re z))', '(mkC (im z) (re z))', 'C37', 'cos z = (e^iz + e^-iz) / 2')
M('csin', '(- re z2)', '(re z2)', 'C37', 'sin^2 + cos^2 = 1')
M('cacos', 'csub cone (cmul z z)', 'cadd cone (cmul z z)', 'C37', 'cos(acos z) = z')
M('casinh', 'cadd cone (cmul z z)', 'csub cone (cmul z z)', 'C37', 'sinh(asinh z) = z')
M('cacosh', 'csqrt (cdiv (csub z one) two)', 'csqrt (cdiv (cadd z one) two)', 'C37', 'cosh(acosh z) = z')
M('catanh', 'Some (cdiv (csub (cln (cadd one z)) (cln (csub one z))) two)', 'Some (csub (cln (cadd one z)) (cln (csub one z)))', 'C37', 'tanh(atanh z) = z', all=True)
M('casin', '(- re z2)', '(re z2)', 'C37', 'sin(asin z) = z')
M('catan', '(- re z2)', '(re z2)', 'C37', 'tan(atan z) = z')
M('ccis', '(sin phase)', '(cos phase)', 'C35', 'cis has modulus one')
M('cnormalize', '1 / cnorm z', '1 / cmodulus_squared z', 'C10', 'normalize gives modulus one')
M('ctry_normalize', 'Rle_dec (cnorm z) threshold', 'Rle_dec (cmodulus_squared z) threshold', 'C10', 'try_normalize compares the modulus with the threshold')
M('cdistance', 'csub z w', 'cadd z w', 'C102', 'd(z, z) = 0')
# --- real helper functions ---------------------------------------------------------------------------
M('ratan2', 'atan (y / x) + PI', 'atan (y / x) - PI', 'C35', 'atan2 is the angle of the point in (-pi, pi]')
M('ratan2', 'PI / 2', '- (PI / 2)', 'C35', 'atan2 is the angle of the point', first=True)
M('rcbrt', '1 / 3', '1 / 2', 'C36', 'cbrt(x)^3 = x')
M('rtanh', 'sinh x / cosh x', 'cosh x / sinh x', 'C50', 'tanh = sinh / cosh')
# --- angles ------------------------------------------------------------------------------------------
M('angle_normalize', 'remainder + full', 'remainder', 'C54', 'normalize is in [0, full turn)')
M('angle_normalize', 'rrem a full', 'rrem a (2 * full)', 'C54', 'normalize is in [0, full turn)')
M('angle_normalize_signed', 'remainder - full', 'remainder', 'C54', 'normalize_signed is in (-half, half]')
M('angle_normalize_signed', 'Rgt_dec', 'Rge_dec', 'C54', 'a half turn stays positive')
M('angle_opposite', 'full_turn_div_2', 'full_turn_div_4', 'C55', 'the opposite of the opposite is the angle')
M('angle_bisect', '(b - a)', '(a - b)', 'C55', 'the bisector is halfway between')
M('full_turn_div_6', '/ 6', '/ 8', 'C56', 'six sixths of a turn are a turn')
M('deg_full_turn', '360', '180', 'C56', 'a full turn is the same angle in both units')
M('deg_to_rad', 'PI / 180', 'PI / 360', 'C56', '180 degrees are pi')
M('rad_to_deg', '180 / PI', '90 / PI', 'C56', 'conversion round-trips')
M('deg_cos', 'deg_to_rad d', 'd', 'C56', 'cos does not depend on the unit')
M('rad_csc', '/ rad_sin r', '/ rad_cos r', 'C56', 'csc = 1 / sin')
M('rad_cot', '/ rad_tan r', 'rad_tan r', 'C56', 'cot = 1 / tan')
M('deg_acos', 'rad_to_deg (acos x)', 'acos x', 'C56', 'acos returns degrees')
M('deg_atan2', 'ratan2 y x', 'ratan2 x y', 'C56', 'atan2 does not depend on the unit')
# --- rotations ---------------------------------------------------------------------------------------
M('m2from_angle', 'm2new c s (- s) c', 'm2new c (- s) s c', 'C57', 'from_angle rotates counterclockwise')
M('m2from_angle', 'm2new c s (- s) c', 'm2new c s s c', 'C57', 'from_angle is orthogonal with determinant one')
M('m2rotation_between_axis', 'ratan2 sin_angle cos_angle', 'ratan2 cos_angle sin_angle', 'C52', 'the rotation takes the first direction to the second')
M('m3from_angle_x', '0 c s  0 (- s) c', '0 c (- s)  0 s c', 'C58 C44', 'from_angle_x is the axis-angle rotation about x')
M('m3from_angle_y', 'm3new c 0 (- s)  0 1 0  s 0 c', 'm3new c 0 s  0 1 0  (- s) 0 c', 'C58 C44', 'from_angle_y is the axis-angle rotation about y')
M('m3from_angle_z', '(- s) c 0  0 0 1', '(- s) c 0  0 0 (- 1)', 'C58 C44', 'from_angle_z is the axis-angle rotation about z')
M('m3from_axis_angle', '(k * y * z + s * x)', '(k * y * z - s * x)', 'C58 C44', 'Rodrigues formula')
M('m3from_axis_angle', 'let k := 1 - c', 'let k := 1 + c', 'C58 C44', 'Rodrigues formula; the axis is fixed')
M('look_x', 'vcross up z_axis', 'vcross z_axis up', 'C61', 'the viewing rotation is right-handed')
M('look_y', 'vcross z_axis (look_x z_axis up)', 'vcross (look_x z_axis up) z_axis', 'C61', 'up stays up')
M('m3look_to_rh', 'vneg (vnormalize direction)', 'vnormalize direction', 'C61', 'the right-handed viewer looks along -z')
M('m3look_at_lh', 'pdiff target eye', 'pdiff eye target', 'C61', 'look_at looks at the target')
M('m3look_to_lh_inv', 'mtranspose (m3look_to_lh direction up)', 'm3look_to_lh direction up', 'C61', 'look_to_lh_inv is the inverse')
M('m3look_rows', '(vat x 1) (vat y 1) (vat z 1)', '(vat x 1) (vat z 1) (vat y 1)', 'C61', 'the rows are the axes')
M('m3rotation_between_axis_eps', 'acos cos_angle', '- acos cos_angle', 'C51', 'the rotation takes v1 to v2')
M('m3rotation_between_axis_eps', 'vcross v1 v2', 'vcross v2 v1', 'C51', 'the rotation takes v1 to v2')
M('m3rotation_between_eps', 'if Rlt_dec (vdot u1 u2) 0 then None', 'if Rlt_dec 0 (vdot u1 u2) then None', 'C51', 'parallel vectors give the identity, opposite vectors None')
M('m4from_affine_angle_x', '0 c s 0  0 (- s) c 0', '0 c (- s) 0  0 s c 0', 'C58', 'affine from_angle_x embeds from_angle_x')
M('m4from_affine_axis_angle', '(k * x * z - s * y) 0', '(k * x * z + s * y) 0', 'C58', 'affine from_axis_angle embeds from_axis_angle')
M('m4look_rows', 'let neg_eye_y := - vdot eye_vec y', 'let neg_eye_y := vdot eye_vec y', 'C61', 'the eye goes to the origin')
M('m4look_to_rh', 'vneg direction', 'direction', 'C61', 'the right-handed viewer looks along -z')
M('m4look_at_rh', 'pdiff target eye', 'pdiff eye target', 'C61', 'look_at looks at the target')
M('m4look_to_lh_inv', 'm4look_cols (look_x z_axis up) (look_y z_axis up)', 'm4look_cols (look_y z_axis up) (look_x z_axis up)', 'C62', 'look_inv has the inverse rotation')
M('euler_to_matrix', '(cp * cr - sy * sp * sr)', '(cp * cr + sy * sp * sr)', 'C59', 'the Euler matrix is Rx Ry Rz')
M('euler_to_affine_matrix', 'sy (- cy * sr)', 'sy (cy * sr)', 'C59', 'the affine Euler matrix embeds the Euler matrix')
M('euler_from_matrix', 'ratan2 (- mget m 1 0) (mget m 0 0)', 'ratan2 (mget m 1 0) (mget m 0 0)', 'C60', 'extracted angles rebuild the matrix')
M('euler_from_matrix', '(0, ratan2 (mget m 1 2) (mget m 1 1))', '(0, ratan2 (mget m 1 1) (mget m 1 2))', 'C60', 'in gimbal lock the extracted angles rebuild the matrix')
# --- quaternions -------------------------------------------------------------------------------------
M('qfrom_parts', '(vat v 1) (vat v 2)', '(vat v 2) (vat v 1)', 'C39', 'from_parts keeps the order x, y, z')
M('qunit_y', 'v3_unit_y', 'v3_unit_z', 'C39', 'i j = k')
M('qconj', 'vneg (qvector q)', 'qvector q', 'C39', 'q conj(q) = |q|^2')
M('qconj_mut', 'vset q2 3 (- vat q2 3)', 'q2', 'C39', 'conjugate_mut equals conjugate')
M('qneg', '(- qscalar q)', '(qscalar q)', 'C39', 'q + (-q) = 0')
M('qsub', 'qscalar p - qscalar q', 'qscalar q - qscalar p', 'C39', 'subtraction is componentwise')
M('qscale', '(qscalar q * a)', '(qscalar q)', 'C39', 'scaling multiplies every component')
M('qmul', '(vcross (qvector p) (qvector q))', '(vcross (qvector q) (qvector p))', 'C39 C122', 'i j = k')
M('qmul', '- vdot (qvector p) (qvector q)', '+ vdot (qvector p) (qvector q)', 'C39', 'i^2 = -1')
M('qsub_assign', 'vsub_assign', 'vadd_assign', 'C39', 'sub_assign equals sub')
M('qlerp', 'qsub q p', 'qsub p q', 'C39', 'lerp at 1 is the end point')
M('qis_pure', 'nis0 (qscalar q)', 'vis_zero (qvector q)', 'C100', 'is_pure tests the scalar part')
M('qis_identity', 'qscalar q - 1', 'qscalar q', 'C100', 'is_identity is true exactly of 1')
M('qdiv_s', 'qscalar q / a', 'qscalar q * a', 'C99', 'division by a scalar is componentwise')
M('qinner', 'qadd (qmul p q) (qmul q p)', 'qsub (qmul p q) (qmul q p)', 'C49', 'the inner product is symmetric')
M('qouter', 'qsub (qmul p q) (qmul q p)', 'qsub (qmul q p) (qmul p q)', 'C49', 'p q = inner + outer')
M('qproject', 'qdot p q / qnorm_squared q', 'qdot p q / qnorm_squared p', 'C49', 'the rest after projection is orthogonal')
M('qto_matrix', '(s * qx * qy + s * qs * qz)', '(s * qx * qy - s * qs * qz)', 'C42', 'the matrix of q acts as q v q^-1', first=True)
M('qto_matrix', '(1 - s * qx * qx - s * qz * qz)', '(1 - s * qx * qx - s * qy * qz)', 'C42', 'the matrix of q acts as q v q^-1')
M('qto_matrix_mut', 'mset m 1 2 (s * qy * qz + s * qs * qx)', 'mset m 2 1 (s * qy * qz + s * qs * qx)', 'C42', 'to_matrix_mut equals to_matrix')
M('qto_affine_matrix', '0 0 0 1', '0 0 0 0', 'C42', 'to_affine_matrix embeds to_matrix')
M('qto_affine_matrix_mut', 'mset m 3 1 0', 'm', 'C42', 'to_affine_matrix_mut overwrites every entry')
M('qfrom_axis_angle', 'let half := 1 / (1 + 1)', 'let half := 1', 'C44', 'from_axis_angle uses the half angle')
M('qfrom_matrix', 'let qy := (mget m 2 0 - mget m 0 2) * s', 'let qy := (mget m 0 2 - mget m 2 0) * s', 'C43', 'to_matrix(from_matrix m) = m')
M('qfrom_matrix', 'let qz := (mget m 0 2 + mget m 2 0) * s', 'let qz := (mget m 0 2 - mget m 2 0) * s', 'C43', 'to_matrix(from_matrix m) = m (largest x)')
M('qfrom_matrix', 'let qs := (mget m 0 1 - mget m 1 0) * s', 'let qs := (mget m 1 0 - mget m 0 1) * s', 'C43', 'to_matrix(from_matrix m) = m (largest z)')
M('qtry_inverse_eps', 'qdiv_s (qconj q) norm_squared', 'qdiv_s q norm_squared', 'C40', 'q q^-1 = 1')
M('qtry_inverse_eps', 'threshold * threshold', 'threshold', 'C40', 'inversion fails exactly up to the threshold')
M('qis_invertible_eps', 'Rge_dec', 'Rgt_dec', 'C41', 'the models differ at the threshold')
M('qarg_eps', 'ratan2 (vnorm (qvector q)) (qscalar q)', 'ratan2 (qscalar q) (vnorm (qvector q))', 'C95', 'arg is the angle between q and the real axis')
M('qexp_eps', 'exp_s * sin norm_v / norm_v', 'exp_s * sin norm_v', 'C45', '|exp q| = exp(re q)')
M('qexp_eps', 'qfrom_parts (exp (qscalar q)) (vzero 3)', 'qfrom_parts (qscalar q) (vzero 3)', 'C45', 'exp on reals is exp')
M('qln_eps', 'let q_scalar := ln norm', 'let q_scalar := ln (norm * norm)', 'C45', 'exp(ln q) = q')
M('qpowf_eps', 'qscale (qln_eps q threshold) exponent', 'qscale (qln_eps q threshold) (exponent + 1)', 'C45', 'powf(q, 1) = q')
M('qsqrt_eps', 'qfrom_pure (v3 sqrt_norm_self 0 0)', 'qfrom_real sqrt_norm_self', 'C46', 'sqrt of a negative real squares back')
M('qsqrt_eps', 'one_half / (norm_self + qscalar q)', 'one_half / (norm_self - qscalar q)', 'C46', 'sqrt(q)^2 = q')
M('qdiv_left_eps', 'qmul left_inv q', 'qmul q left_inv', 'C40', 'left division is multiplication by the inverse on the left')
M('qdiv_right_eps', 'qmul q right_inv', 'qmul right_inv q', 'C40', 'right division is multiplication by the inverse on the right')
M('qrotation_between_axis_eps', 'acos cos_theta', 'acos cos_theta / 2', 'C51', 'the rotation takes v1 to v2')
M('qrotation_between_axis_eps', 'vcross v1 v2', 'vcross v2 v1', 'C51', 'the rotation takes v1 to v2')
M('qlook_to_rh', 'm3look_to_rh', 'm3look_to_lh', 'C61 C104', 'the viewing quaternion represents the viewing matrix')
M('qlook_at_lh_inv', 'm3look_at_lh_inv', 'm3look_at_lh', 'C104', 'the inverse viewing quaternion represents the inverse viewing matrix')
M('qnlerp', '(1 - amount)', 'amount', 'C47', 'nlerp at 0 is the start')
M('qslerp_eps', 'sin ((1 - amount) * half_theta)', 'sin (amount * half_theta)', 'C47', 'slerp ends at q')
M('qslerp_eps', 'if Rlt_dec (qdot p q) 0 then qneg p else p', 'p', 'C47', 'slerp takes the shorter way', skip=True)
M('qpolar_decomposition', 'Rabs (qscalar unit_q)', 'qscalar unit_q', 'C48', 'the angle is in [0, pi/2]')
M('qfrom_polar_decomposition', 'cos (angle / (1 + 1))', 'cos angle', 'C48', 'from_polar has the given norm and axis')
M('qcos', '(- sin (qscalar q) * sinh n / n)', '(sin (qscalar q) * sinh n / n)', 'C50', 'cos on a slice is the complex cos')
M('qsin', 'sin (qscalar q) * cosh n) ', 'sin (qscalar q) * sinh n) ', 'C50', 'sin on a slice is the complex sin', skip=True)
M('qtan', 'let denom_v := denom_s * n', 'let denom_v := denom_s', 'C50', 'tan on a slice is the complex tan')
M('qcosh', 'sinh (qscalar q) * sin n / n', 'cosh (qscalar q) * sin n / n', 'C50', 'cosh on a slice is the complex cosh')
M('qsinh', 'cosh (qscalar q) * sin n / n', 'cosh (qscalar q) * cos n / n', 'C50', 'sinh on a slice is the complex sinh')
M('qtanh', 'cos_n * sin_n / denom_v', 'sin_n * sin_n / denom_v', 'C50', 'tanh on a slice is the complex tanh')
M('qacos_eps', 'Some (qneg (qmul u r))', 'Some (qmul u r)', 'C94', 'cos(acos q) = q', skip=True)
M('qasin_eps', 'qsub qidentity (qsquared q)', 'qadd qidentity (qsquared q)', 'C94', 'sin(asin q) = q')
M('qatan_eps', 'qhalf u', 'u', 'C94', 'tan(atan q) = q')
M('qacosh_eps', 'qsub q qidentity', 'qadd q qidentity', 'C94', 'cosh(acosh q) = q')
M('qasinh_eps', 'qadd (qsquared q) qidentity', 'qsub (qsquared q) qidentity', 'C94', 'sinh(asinh q) = q')
M('qatanh_eps', 'qhalf (qsub', '(qsub', 'C94', 'tanh(atanh q) = q')
M('qabs_diff_all_eq', 'vabs_diff_all_eq (p : vec R 4) q t', 'vabs_diff_all_eq (p : vec R 4) p t', 'C90', 'comparison of quaternions is componentwise')
M('qnormalize', 'vnormalize (q : vec R 4)', 'q', 'C10 C86', 'normalize gives norm one')
M('ql1_norm', 'vl1_norm', 'vlinf_norm', 'C102', 'l1 norm is the sum of the magnitudes')
# --- transforms --------------------------------------------------------------------------------------
M('tf_mul', 'mmul f g', 'mmul g f', 'C75', 'f * g applies g first')
M('tf_apply_vector', 'vextend v 0', 'vextend v 1', 'C75', 'vectors are not translated')
M('tf_apply_point', 'pto_homogeneous p', 'vextend p 0', 'C75', 'points have weight one')
M('tf3try_inverse', 'm4try_inverse f', 'Some f', 'C75', 'the inverse undoes the transform')
M('tr_between_points', 'pdiff p2 p1', 'pdiff p1 p2', 'C64', 'the translation between p1 and p2 takes p1 to p2')
M('tr_inverse', 'vneg t', 't', 'C64', 'inverse undoes the translation')
M('tr_apply_vector', ':= v.', ':= vadd v t.', 'C64', 'translations do not move vectors')
M('tr_inverse_apply_point', 'psub p t', 'padd p t', 'C64', 'inverse_apply undoes apply')
M('tr_mul', 'vadd s t', 'vsub s t', 'C64', 'composition adds')
M('tr_to_affine_matrix', 'mset result n r', 'mset result r n', 'C64 C76', 'the affine matrix translates points')
M('sc_apply_vector', 'vat s i * vat v i', 'vat s 0 * vat v i', 'C65', 'each coordinate has its own factor')
M('sc_apply_point', 'vat s i * vat p i', 'vat s i + vat p i', 'C65', 'scales multiply coordinates')
M('sc_mul', 'vcmul s t', 'vadd s t', 'C65', 'composition multiplies factors')
M('sc_inverse', '1 / vat s i', 'vat s i', 'C65', 'inverse undoes the scale')
M('sc_inverse_apply_point', 'vat p i / vat s i', 'vat s i / vat p i', 'C65', 'inverse_apply undoes apply')
M('rot_inverse', 'mtranspose r', 'r', 'C69', 'inverse undoes the rotation')
M('rot_inverse_apply_point', 'rot_inverse r', 'r', 'C69', 'inverse_apply undoes apply')
M('rot_mul', 'mmul r s', 'mmul s r', 'C69', 'r * s applies s first')
M('rot_to_affine_matrix', 'membed r', 'membed (mtranspose r)', 'C76', 'the affine matrix rotates points')
M('re_apply_vector', '(1 + 1)', '1', 'C66', 'reflection is an involution')
M('re_apply_point', 'pdiff p (re_bias f)', 'pdiff (re_bias f) p', 'C66', 'reflection negates the signed distance to the mirror')
M('re3to_affine_matrix', '(re_normal f) (re_bias f)', '(re_normal f) (re_normal f)', 'C66', 'the matrix acts as the reflection')
M('sh_apply_point', 'pdiff p (sh_origin f)', 'pto_vector p', 'C67', 'the shear fixes its origin')
M('sh_apply_vector', 'vmul_s (sh_direction f) factor', 'vmul_s (sh_normal f) factor', 'C67 C68', 'vectors move along the direction')
M('sh_inverse_apply_point', 'psub p', 'padd p', 'C67', 'inverse_apply undoes apply')
M('sh_inverse', '(- sh_factor f)', '(sh_factor f)', 'C67', 'inverse undoes the shear')
M('sh_identity', 'mkShear 0', 'mkShear 1', 'C67', 'the identity shear moves nothing')
M('sh3from_shear_zx', '(v3 0 0 1) (v3 1 0 0)', '(v3 1 0 0) (v3 0 0 1)', 'C67', 'shear_zx moves z by x')
M('iso_inverse', 'rot_apply_vector rotation (vneg (iso_translation f))', 'vneg (iso_translation f)', 'C71 C125', 'inverse undoes the isometry')
M('iso_inverse_mut', 'rot_apply_vector rotation translation', 'translation', 'C71', 'inverse_mut equals inverse')
M('iso_apply_point', 'tr_apply_point (iso_translation f) (rot_apply_point (iso_rotation f) p)', 'rot_apply_point (iso_rotation f) (tr_apply_point (iso_translation f) p)', 'C71 C125', 'rotation is applied before translation')
M('iso_inverse_apply_point', 'psub p (iso_translation f)', 'padd p (iso_translation f)', 'C71 C125', 'inverse_apply undoes apply')
M('iso_mul', 'rot_apply_vector (iso_rotation f) (iso_translation g)', 'iso_translation g', 'C71 C125', 'f * g applies g first')
M('iso_to_affine_matrix', 'mset result n i', 'mset result i n', 'C76', 'the affine matrix acts as the isometry')
M('rot_mul_tr', 'rot_apply_vector r t', 't', 'C72', 'r * t translates, then rotates')
M('iso_mul_rot', 'rot_mul (iso_rotation f) r', 'rot_mul r (iso_rotation f)', 'C72', 'f * r rotates first')
M('tr_mul_iso', 'tr_mul t (iso_translation f)', 't', 'C72', 't * f translates last')
M('rot_mul_iso', 'rot_apply_vector r (iso_translation f)', 'iso_translation f', 'C72', 'r * f rotates last')
M('iso_mul_tr', 'rot_apply_vector (iso_rotation f) t', 't', 'C72', 'f * t translates first')
M('sim_apply_point', 'pmul_s p (sim_scale f)', 'p', 'C74 C125', 'similarities scale distances')
M('sim_to_affine_matrix', 'mmul_s (iso_rotation (sim_isometry f)) (sim_scale f)', 'iso_rotation (sim_isometry f)', 'C76', 'the affine matrix acts as the similarity')
M('sim_mul_iso', "vmul_s (rot_apply_vector (iso_rotation (sim_isometry f)) (iso_translation g))\n                      (sim_scale f)", 'rot_apply_vector (iso_rotation (sim_isometry f)) (iso_translation g)', 'C74', 'f * g applies g first')
M('sim_mul', 'sim_scale result * sim_scale g', 'sim_scale result', 'C74', 'scales multiply')
M('sim_inverse_mut', '(vmul_assign (iso_translation g) scale)', '(iso_translation g)', 'C74', 'inverse undoes the similarity')
M('sim_inverse_apply_point', 'pdiv_s (iso_inverse_apply_point (sim_isometry f) p) (sim_scale f)', 'iso_inverse_apply_point (sim_isometry f) (pdiv_s p (sim_scale f))', 'C74 C125', 'inverse_apply undoes apply')
M('sim_from_scale', '(iso_identity n) s', '(iso_identity n) 1', 'C103', 'from_scale scales')
M('iso_from_translation', 'rot_identity n', 'mzero n n', 'C103', 'from_translation does not rotate')
M('rot2angle', 'ratan2 (mget r 0 1) (mget r 0 0)', 'ratan2 (mget r 1 0) (mget r 0 0)', 'C70', 'angle(from_angle a) = a')
M('rot2rotation_between_axis', 'vat a 0 * vat b 1 - vat a 1 * vat b 0', 'vat a 1 * vat b 0 - vat a 0 * vat b 1', 'C53', 'the rotation takes a to b')
M('rot3angle', '(trace_self - 1) / 2', '(trace_self + 1) / 2', 'C70', 'angle(from_axis_angle) = angle')
M('rot3axis_eps', '(mget r 2 0 - mget r 0 2)', '(mget r 0 2 - mget r 2 0)', 'C70', 'axis(from_axis_angle) = axis')
M('rot3euler_angles', 'ratan2 (- mget r 2 1) (mget r 2 2)', 'ratan2 (mget r 2 1) (mget r 2 2)', 'C60', 'Euler angles rebuild the rotation')
M('rot3from_angle_y', 'v3_unit_y', 'v3_unit_z', 'C69', 'from_angle_y rotates about y')
M('iso2rotation_between', '| _, _ => iso_identity 2', '| _, _ => iso2from_angle PI', 'C53', 'zero vectors give the identity')
M('iso3from_angle_x', 'rot3from_angle_x', 'rot3from_angle_y', 'C103', 'from_angle_x rotates about x')
M('iso3from_axis_angle_translation', 'tr_from_vector distance', 'tr_identity 3', 'C103', 'the translation part is the distance')
M('iso3view', 'pneg eye', 'eye', 'C63', 'the eye goes to the origin')
M('iso3look_at_rh', 'rot3look_at_rh', 'rot3look_at_lh', 'C63', 'the right-handed viewer looks along -z')
M('sim3look_to_rh', 'iso3look_to_rh', 'iso3look_to_lh', 'C104', 'the viewing similarity acts as the viewing isometry')
M('sh2mul', 'tf_mul (sh2to_transform f) (sh2to_transform g)', 'tf_mul (sh2to_transform g) (sh2to_transform f)', 'C105', 'f * g applies g first')
M('sh3to_affine_matrix', '(sh_origin f) direction normal', '(sh_origin f) normal direction', 'C68', 'the matrix acts as the shear on points')
M('rabs_diff_eq', 'x - y', 'x + y', 'C90', 'comparison is |x - y| <= tolerance')
M('vabs_diff_eq', '(vat t i)', '(vat t 0)', 'C90', 'each component uses its own tolerance')
M('mabs_diff_all_eq', '(vfill r t)', '(vfill r 0)', 'C73', 'the tolerance is used for every entry')
M('iso_abs_diff_eq', 'andb', 'orb', 'C73', 'both parts must agree')
M('sim_abs_diff_all_eq', '(rabs_diff_eq (sim_scale f) (sim_scale g) t)', 'true', 'C73', 'the scale is compared')
# --- relative / ulps comparison ----------------------------------------------------------------------
M('vapprox', 'andb acc', 'orb acc', 'C98', 'all components must agree')
M('vapprox', '(vget du w i)', '(vget du w 0)', 'C98', 'each component uses its own tolerance')
M('mapprox', 'mget_d dt t j i', 'mget_d dt t i j', 'C98', 'each entry uses its own tolerance')
M('reapprox', '(re_bias x) (re_bias y)', '(re_bias x) (re_bias x)', 'C98', 'the bias is compared')
M('shapprox_all', '(vapprox_all (sh_normal x) (sh_normal y) t w)', 'true', 'C98', 'the normal is compared')
M('isoapprox_all', '(vapprox_all (iso_translation x) (iso_translation y) t w)', 'true', 'C98', 'the translation is compared')
M('simapprox', '(cmp (sim_scale x) (sim_scale y) (sim_scale t) (sim_scale w))', 'true', 'C98', 'the scale is compared')
M('euapprox', '(cmp x2 y2 t2 w2)', '(cmp x2 y2 t1 w2)', 'C98', 'each angle uses its own tolerance')
# --- projections -------------------------------------------------------------------------------------
M('m4from_orthographic', 'let c3r0 := (- (right + (- left)))', 'let c3r0 := (right + (- left))', 'C83', 'the box is mapped onto the canonical cube')
M('m4from_orthographic', '(- two) / (far - near)', 'two / (far - near)', 'C83 C123', 'depth is reversed')
M('m4from_perspective', 'let c2r0 := (right + (- left))', 'let c2r0 := (right - (- left))', 'C77', 'the frustum is mapped onto the canonical cube')
M('m4from_perspective', 'two * far * near', 'far * near', 'C77 C123', 'the near plane is mapped to -1')
M('m4from_perspective', '(- (1))', '1', 'C77', 'the weight is minus the depth')
M('persp_aspect_ratio', 'mget m 1 1 / mget m 0 0', 'mget m 0 0 / mget m 1 1', 'C78', 'aspect ratio is width over height')
M('persp_near', 'two * ratio', 'two', 'C78', 'near is read back')
M('persp_far', '(1 - ratio) / two', '(1 - ratio) / (two * ratio)', 'C78', 'far is read back')
M('persp_left', '1 / (ratio + 1)', 'ratio / (ratio + 1)', 'C78', 'left is read back')
M('persp_top', 'mget m 2 1 + 1', 'mget m 2 0 + 1', 'C78', 'top is read back', first=True)
M('persp_project_point', 'mget m 2 0 * vat p 2', 'mget m 3 0 * vat p 2', 'C79 C123', 'project_point agrees with the matrix in x')
M('persp_project_vector', '1 / vat projected_vector 3', '1 / vat projected_vector 2', 'C79 C80', 'project_vector agrees with the matrix')
M('persp_unproject_point', 'let c3r0 := (persp_right m - persp_left m)', 'let c3r0 := (persp_right m + persp_left m)', 'C80', 'unproject undoes the projection')
M('persp_unproject_point', 'persp_near m - persp_far m', 'persp_far m - persp_near m', 'C80', 'unproject undoes the projection')
M('persp_vfov', '2 * mget m 1 1', 'mget m 1 1', 'C81', 'vfov is read back')
M('ratan_quot', 'Some (PI / 2)', 'Some (- (PI / 2))', 'C81', 'a vfov of 90 degrees is read back')
M('persp_project_point', '(- (1)) / vat p 2', '1 / vat p 2', 'C79 C123', 'the weight is minus the depth')  # inverse_w := 1 / vat p 2
M('m4from_perspective_vfov', 'tan (vfov / 2)', 'tan vfov', 'C82', 'the vfov constructor is the symmetric frustum')
M('m4from_perspective_vfov', 'range * aspect_ratio + range * aspect_ratio', 'range + range', 'C82', 'the vfov constructor uses the aspect ratio')
M('ortho_near', '1 / (ratio - 1)', 'ratio / (ratio - 1)', 'C84', 'near is read back')
M('ortho_bottom', 'mget m 1 1', 'mget m 0 0', 'C84', 'bottom is read back')
M('ortho_project_point', '+ mget m 3 1', '+ mget m 3 0', 'C83 C123', 'project_point agrees with the matrix')
M('ortho_project_vector', '(mget m 2 2 * vat v 2)', '(mget m 2 2 * vat v 2 + mget m 3 2)', 'C83 C85', 'vectors are not translated')
M('ortho_unproject_point', 'let c3r2 := (- one_half) *', 'let c3r2 := one_half *', 'C85', 'unproject undoes the projection')
M('ortho_unproject_vector', '(- one_half) *', 'one_half *', 'C85', 'unproject undoes the projection of vectors')
M('proj_view_unit_gaze', 'vneg (v3 0 0 1)', 'v3 0 0 1', 'C106', 'the viewer looks along -z')
M('proj_clip_ndc_bounds', '(- (1), 1), (- (1), 1), (- (1), 1)', '(0, 1), (- (1), 1), (- (1), 1)', 'C106', 'the clip bounds are those of the image of the frustum')
# --- numeric helpers ---------------------------------------------------------------------------------
M('unit_try_from_value_with_norm', 'threshold * threshold', 'threshold', 'C86', 'try_from_value compares the norm with the threshold')
M('unit_try_from_value_with_norm', 'sqrt norm_squared', 'norm_squared', 'C86', 'the returned norm is the norm of the value')
M('unit_from_value_with_norm', '(normalized_value, norm)', '(value, norm)', 'C86', 'the wrapped value has norm one')
M('float_clamp', 'Rgt_dec x max_value then max_value', 'Rgt_dec x max_value then min_value', 'C87', 'clamp is into the interval')
M('int_clamp', 'Z.ltb x min_value then min_value', 'Z.ltb x min_value then x', 'C87', 'clamp is into the interval')
M('int_copysign', 'Z.geb sign 0', 'Z.leb sign 0', 'C87', 'copysign has the sign of its argument')
M('u32_as_i32', 'p - 2 ^ 32', 'p', 'C09', 'the conversion wraps (finding)')
M('vlp_norm', '/ IZR p', 'IZR p', 'C09', 'the lp norm takes the p-th root')
M('vlp_norm', 'Rabs (vat v i)', 'vat v i', 'C09', 'the lp norm uses magnitudes')
M('vector_swizzles', 'Swz "zwy" 4 3 [2; 3; 1]', 'Swz "zwy" 4 3 [2; 3; 2]', 'C91', 'swizzle names spell the components')
M('point_swizzles', 'Swz "yxz" 3 3 [1; 0; 2]', 'Swz "yxz" 3 3 [1; 2; 0]', 'C91', 'swizzle names spell the components')
# --- machine numbers ---------------------------------------------------------------------------------
M('num_wint', 'wof signed w (- wval x)', 'wof signed w (wval x)', 'C89', 'wrapping negation is the additive inverse')
M('wwrap', 'mod wmodulus w + wmin signed w', 'mod wmodulus w', 'C89', 'the representative is in the range of the type', skip=True)
M('num_float', 'Bminus mode_NE', 'Bplus mode_NE', 'C88', 'x - x is zero, a - b is the rounded difference')
M('num_float', 'Bmult mode_NE', 'Bmult mode_ZR', 'C96', 'products are rounded to nearest')
M('fvnorm', 'fsqrt (vnorm_squared u)', 'vnorm_squared u', 'C97', 'the float norm is accurate')
M('fvnormalize', 'ndiv n1 (fvnorm u)', 'fvnorm u', 'C97', 'the float normalize has norm close to one')

# --- division and remainder by scalars, signs, texts ----------------------------------------------------
M('vsop', 'for_range_opt n', 'for_range_opt (n - 1)', 'C113', 'every component is divided')
M('vsop_assign', 'op (vat data i) other', 'op other (vat data i)', 'C113', '/= divides by the scalar')
M('msop', 'op (mget m j i) other', 'op (mget m j 0) other', 'C113', 'every entry is divided')
M('csop_assign', 'Some b => Some (mkC (re z) b)', 'Some b => Some (mkC b (im z))', 'C113', 'the imaginary part is updated')
M('qsop', 'qfrom_parts s v', 'qfrom_parts (qscalar q) v', 'C113', 'the scalar part is divided too')
M('wquot', 'Z.quot', 'Z.div', 'C113', 'integer division truncates toward zero')
M('wrem', 'Z.rem', 'Z.modulo', 'C113', 'the remainder has the sign of the dividend')
M('wdiv_overflows', '(y =? -1)', '(y =? 1)', 'C113', 'MIN / -1 panics')
M('wquot', 'if wval y =? 0 then None else ', '', 'C113', 'division by zero panics')
M('frem', 'Z.min e1 e2', 'Z.max e1 e2', 'C113', 'the remainder is exact')
M('frem', 'cond_Zopp s k', 'cond_Zopp (negb s) k', 'C113', 'the remainder has the sign of the dividend')
M('frem', 'B754_zero s, _ => B754_zero s', 'B754_zero s, _ => B754_zero false', 'C113', 'the remainder of -0 is -0')
M('cis_nan', 'orb (is_nan', 'andb (is_nan', 'C107', 'a NaN part makes the number NaN')
M('cis_infinite', 'andb (negb (cis_nan z)) ', '', 'C107', 'the classes are disjoint')
M('cis_finite', 'andb (is_finite', 'orb (is_finite', 'C107', 'the classes are disjoint')
M('fset_sign', '| B754_infinity _ => B754_infinity b', '| B754_infinity s => B754_infinity s', 'C112', 'abs of -inf is inf')
M('fsignum', 'if is_nan x then B754_nan else ', '', 'C112', 'signum(NaN) is NaN', skip=True)
M('fsignum', 'fset_sign (Bsign x) Bone', 'fset_sign (negb (Bsign x)) Bone', 'C112', 'signum has the sign of its argument')
M('fcopysign', 'fset_sign (fsignbit nb sign) x', 'fset_sign (fsignbit nb x) sign', 'C112', 'copysign takes the magnitude of the first argument')
M('isignum', 'else nneg n1', 'else n1', 'C112', 'signum of a negative number is -1')
M('iabs', 'wval x <? 0', '0 <? wval x', 'C112', 'abs is not negative')
M('icopysign', '0 <=? wval sign', '0 <? wval sign', 'C112', 'copysign(x, 0) = |x| (finding)')
M('iis_sign_negative', 'wval x <? 0', 'wval x <=? 0', 'C112', 'zero is not negative')
M('fmt_items', 'for_range_opt (n - 1)', 'for_range_opt n', 'C114', 'the last component is written once, without a comma')
M('fmt_items', 'show x ++ ", "', 'show x ++ ","', 'C114', 'components are separated by a comma and a space')
M('mdisplay', 'vindex m j', 'vindex m 0', 'C114', 'every column is written')
M('mdisplay', '"Matrix" ++ show_nat r ++ "x" ++ show_nat c', '"Matrix" ++ show_nat c ++ "x" ++ show_nat r', 'C114', 'rows come first in the name')
M('cdisplay', 'show (im z)', 'show (re z)', 'C114', 'the imaginary part is written')
M('qdisplay', 'show s ++ " + ["', '" + ["', 'C114', 'the scalar part is written')
M('euler_display', 'show_angle z', 'show_angle y', 'C114', 'all three angles are written')
M('isometry_display', '", translation=" ++ t', '", translation=" ++ r', 'C114', 'the translation is written')
M('similarity_display', 'show (sim_scale f)', '""', 'C114', 'the scale is written')
M('shear_display', '", normal=" ++ nn', '", normal=" ++ d', 'C114', 'the normal is written')
M('reflection_display', '", bias = " ++ b', '", bias = " ++ a', 'C114', 'the bias is written')
M('vdisplay', '"Vector" ++ show_nat n', '"Vector"', 'C114', 'the text names the dimension')
M('fa_normalize', 'if Bltb remainder 0 then remainder + full else remainder', 'remainder', 'C116', 'the normalized angle is not negative')
M('fa_normalize', 'remainder + full', 'remainder - full', 'C116', 'the normalized angle is in [0, T]')
M('fa_normalize', 'Bltb remainder 0', 'Bltb 0 remainder', 'C116', 'the normalized angle is in [0, T]')
M('fa_normalize_signed', 'Bltb fa_half_turn remainder', 'Bltb remainder fa_half_turn', 'C116', 'the signed angle is in (-T/2, T/2]')
M('fa_normalize_signed', 'remainder - full', 'remainder - fa_half_turn', 'C116', 'the signed angle is congruent to the argument')
M('fa_opposite', 'a + fa_half_turn', 'a + full', 'C116', 'the opposite angle differs by half a turn')
M('fa_bisect', '(b - a)', '(b + a)', 'C116', 'the bisector is half way')
M('fa_bisect', ' + a)', ' + b)', 'C116', 'the bisector is half way')

M('slice_range', 'b <=? length l', 'b <? length l', 'C119', 'a range may end at the last component')
M('slice_range', 'a <=? b', 'a <? b', 'C119', 'an empty range is valid')
M('slice_range', 'firstn (b - a) (skipn a l)', 'firstn b (skipn a l)', 'C119', 'the slice has b - a elements')
M('slice_range_write', 'k <? b - a', 'k <? b', 'C119', 'an index past the slice panics')
M('slice_range_write', 'x :: skipn (S (a + k)) l', 'x :: skipn (a + k) l', 'C119', 'one component is replaced, none moved')
M('vrange_to', '0 b', '0 (S b)', 'C119', 'v[..b] has b components')
M('vrange_from', 'a n', '(S a) n', 'C119', 'v[a..] starts at component a')
M('cmem', '[re z; im z]', '[im z; re z]', 'C119', 'index 0 of a complex number is its real part')
M('crange_from', 'vrange_from w a', 'vrange_to w a', 'C119', 'z[a..] starts at a')
M('qrange_write', 'vrange_write w a b k x', 'vrange_write w 0 b k x', 'C119', 'the write is relative to the start of the range')
M('mat_via_array', 'read_columns r c', 'read_columns r c', 'C120', 'x', skip=True)
M('read_view_sv', 'read_vector 3 l\'', 'read_vector 3 l', 'C120', 'the vector part starts after the scalar')
M('read_coords3', 'mkXYZ x y z', 'mkXYZ x z y', 'C120', 'z is component 2')
M('read_coords4', 'mkXYZW x y z w', 'mkXYZW w x y z', 'C120', 'w is component 3')
M('vec_via_coords4', 'cz4 c\'; cw4 c\'', 'cw4 c\'; cz4 c\'', 'C120', 'writing z changes component 2')
M('mat_as_ptr', 'vindex m 0', 'vindex m 1', 'C120', 'as_ptr panics only for empty matrices')
M('mat_len', 'r * c', 'r + c', 'C120', 'len is the number of entries')
M('mat_shape', '(r, c)', '(c, r)', 'C120', 'shape is (rows, columns)', )
M('fc_exp', 'exp_re * m_sin L (im z)', 'exp_re * m_cos L (im z)', 'C115', 'exp(conj z) = conj(exp z)')
M('fc_ln', 'm_ln L (fc_norm z)', 'm_ln L (re z)', 'C118', 'ln of a negative real has the logarithm of its modulus')
M('fc_sqrt', 'm_sin L (angle / two)', 'm_sin L angle', 'C118', 'sqrt of a real number')
M('fc_sqrt', 'sqrt_norm * m_cos', 'fc_norm z * m_cos', 'C118', 'sqrt of a positive real')
M('fc_cosh', 'mkC 1 (im z)', 'mkC 0 (im z)', 'C118', 'cosh 0 = 1')
M('fc_cosh', 'mkC (fabs (re z)) (im z)', 'mkC (re z) (im z)', 'C115', 'cosh is even at infinities')
M('fc_cosh', 'm_sinh L (re z) * m_sin L (im z)', 'm_cosh L (re z) * m_sin L (im z)', 'C115', 'cosh is even')
M('fc_sinh', 'm_cosh L (re z) * m_sin L (im z)', 'm_sinh L (re z) * m_sin L (im z)', 'C115', 'sinh is odd')
M('fc_tanh', 'copysign 1 (re z)) 0', '1) 0', 'C115', 'tanh is odd at infinities')
M('fc_tanh', 'm_sin L two_times_im / denominator', 'm_cos L two_times_im / denominator', 'C115', 'tanh(conj z) = conj(tanh z)')
M('fc_cos', '(- im z)', '(im z)', 'C115', 'cos is even', skip=True)
M('fc_sin', 'mkC (im z2) (- re z2)', 'mkC (im z2) (re z2)', 'C134', 'the imaginary part of sin is cos(re) sinh(im)')
M('fc_tan', 'mkC (im z2) (- re z2)', 'mkC (- re z2) (im z2)', 'C115', 'tan(conj z) = conj(tan z)')
M('fc_acosh', 'mkC (- re z) (copysign (m_pi L) (im z))', 'mkC (re z) (copysign (m_pi L) (im z))', 'C115', 'acosh has a nonnegative real part at -inf')
M('fc_acosh', 'copysign (m_frac_pi_2 L) (im z)', 'm_frac_pi_2 L', 'C115', 'acosh(conj z) = conj(acosh z) at infinities')
M('fc_asinh', 'copysign (im z) (re z)', 'im z', 'C115', 'asinh at infinite imaginary part')
M('fc_atanh', 'mkC (B754_infinity true) 0', 'mkC (B754_infinity false) 0', 'C115', 'atanh is odd at -1')
M('fc_atanh', 'csub (fc_ln (cadd one z)) (fc_ln (csub one z))', 'csub (fc_ln (csub one z)) (fc_ln (cadd one z))', 'C115', 'atanh value')
M('fc_acos', 'mkC (three * m_frac_pi_4 L) (- im z)', 'mkC (three * m_frac_pi_4 L) (im z)', 'C115', 'acos at infinities')
M('fc_acos', 'mkC (m_pi L) (if Bltb (im z) 0 then - re z else re z)', 'mkC 0 (if Bltb (im z) 0 then - re z else re z)', 'C115', 'acos at -inf has real part pi')
M('fc_acosh', 'cmul two (fc_ln w)', 'cmul (mkC 1 1) (fc_ln w)', 'C115', 'acosh(conj z) = conj(acosh z) at finite arguments')
M('fc_asinh', 'fc_ln (cadd z (', 'fc_ln (csub z (', 'C115', 'asinh(conj z) = conj(asinh z) in the right half-plane')
M('fc_asin', 'mkC (im z2) (- re z2)', 'mkC (im z2) (re z2)', 'C115', 'asin is odd at infinities and asin(z) = -i asinh(iz)')
M('fc_atan', 'mkC (im z2) (- re z2)', 'mkC (im z2) (re z2)', 'C115', 'atan is conjugation symmetric')

# --- integers with overflow checks ---------------------------------------------------------------------
M('fits', 'z <? wmin', 'z <=? wmin', 'C121', 'the least integer above the type does not fit')
M('fits', 'wmin signed w <=? z', 'wmin signed w <? z', 'C121', 'the minimum of the type fits')
M('chk', 'else None', 'else Some (wof signed w z)', 'C121', 'overflow panics')
M('chk2', '(f (wval a) (wval b))', '(f (wval b) (wval a))', 'C121', 'subtraction is not reversed')
M('num_checked', 'nsub := chk2 Z.sub', 'nsub := chk2 Z.add', 'C121', 'subtraction is exact')
M('num_checked', 'nmul := chk2 Z.mul', 'nmul := fun x y => chk2 Z.mul y x', 'C121', 'equivalent', skip=True)
M('vall', 'Some x, Some r => Some (x, r)', 'Some x, Some r => Some (x, vset r 0 x)', 'C121', 'every component is returned in its place')
M('call', 'Some (mkC x y)', 'Some (mkC y x)', 'C121', 'the parts of a complex product are not exchanged')
M('k_vdot', 'vdot (vin u) (vin v)', 'vdot (vin u) (vin u)', 'C121', 'checked dot product is exact')
M('k_qmul', 'qmul (vin (p : vec I 4) : quat _) (vin (q : vec I 4))', 'qmul (vin (q : vec I 4) : quat _) (vin (p : vec I 4))', 'C121', 'the factors of a quaternion product are not exchanged')
M('k_vcross', 'vcross (vin u) (vin v)', 'vcross (vin v) (vin u)', 'C121', 'checked cross product is exact')

mutants = [m for m in mutants if not m.pop('skip', False)]

# --- rotation constructors over floats -----------------------------------------------------------------
M('fqln_eps', 'let norm := fqnorm q in\n    let arccos', 'let norm := fsqrt norm_v_squared in\n    let arccos', 'C126', 'the argument of the arc cosine is at most 1')
M('fqln_eps', 'if Bleb norm_v_squared (threshold * threshold) then', 'if Bltb norm_v_squared n0 then', 'C126', 'the logarithm of a real quaternion is finite')
M('fqslerp_eps', 'if Bleb n1 (fabs cos_half_theta) then result\n  else', 'if Bltb (n1 + n1) (fabs cos_half_theta) then result\n  else', 'C126', 'slerp of nearly equal quaternions is finite')
M('fqslerp_eps', 'fsqrt (1 - cos_half_theta * cos_half_theta)', 'fsqrt (cos_half_theta * cos_half_theta - 1)', 'C126', 'slerp is finite')
M('fqslerp_eps', 'let result := if Bltb (qdot p q) n0 then qneg p else p in', 'let result := p in', 'C126', 'slerp of nearly opposite quaternions is finite')
M('fqrotation_between_axis', 'else if Bleb n1 cos_theta then Some qidentity\n      else', 'else', 'C126', 'rotation_between of nearly parallel vectors is finite')
M('fvtry_unit', 'if Bltb (threshold * threshold) norm_squared then', 'if Bleb (threshold * threshold) norm_squared then', 'C126', 'the zero vector is not normalised')
M('frot3angle', 'arccos ((trace_self - 1) / (1 + 1))', 'arccos (trace_self / (1 + 1))', 'C126', 'the angle comes from the trace minus 1')
M('frot3euler_angles', 'arcsin (mget r 2 0)', 'arcsin (mget r 0 1)', 'C126', 'the second angle is the arc sine of the sine of the yaw')
M('gm2from_angle', 'm2new c s (- s) c', 'm2new c (- s) s c', 'C124', 'from_angle turns counterclockwise')
M('gm3from_angle_y', 'm3new c 0 (- s)  0 1 0  s 0 c', 'm3new c 0 s  0 1 0  (- s) 0 c', 'C124', 'from_angle_y turns about the y axis in the positive sense')
M('gm3from_axis_angle', '(k * x * y - s * z)', '(k * x * y + s * z)', 'C124', 'every entry is near that of the rotation')
M('gm3from_axis_angle', '(k * z * z + c)', '(k * z * z + s)', 'C124', 'every entry is near that of the rotation')
M('gqfrom_axis_angle', 's := sine (angle * one_half)', 's := sine angle', 'C124', 'the quaternion uses the half angle')
M('gqfrom_axis_angle', 'vmul_s axis s', 'vmul_s axis c', 'C124', 'the vector part is the axis times the sine')
M('geuler_to_matrix', '(cp * cr - sy * sp * sr)', '(cp * cr + sy * sp * sr)', 'C124', 'the matrix is the product of the three rotations')
M('geuler_to_matrix', '(- cy * sr)', '(cy * sr)', 'C124', 'the matrix is the product of the three rotations')

# --- viewing matrices in floats -----------------------------------------------------------------------
M('flook_x', 'vcross up z_axis', 'vcross z_axis up', 'C127', 'the first row is up x direction')
M('flook_x', 'fvnormalize (vcross up z_axis)', 'vcross up z_axis', 'C127', 'the first row is a unit vector')
M('flook_y', 'vcross z_axis (flook_x z_axis up)', 'vcross (flook_x z_axis up) z_axis', 'C127', 'the frame is right-handed')
M('flook_y', 'vcross z_axis (flook_x z_axis up)', 'up', 'C127', 'the second row is at right angles to the others')
M('fm3look_rows', '(vat x 1) (vat y 1) (vat z 1)', '(vat x 1) (vat y 1) (vat z 2)', 'C127', 'the axes are the rows')
M('fm3look_to_lh', 'fvnormalize direction', 'vneg (fvnormalize direction)', 'C127', 'the left-handed third row is along the direction')
M('fm3look_to_rh', 'vneg (fvnormalize direction)', 'fvnormalize direction', 'C127', 'the right-handed third row is against the direction')
M('fm3look_at_lh', 'pdiff target eye', 'pdiff eye target', 'C127', 'look_at looks from the eye to the target')
M('fm3look_at_rh', 'fm3look_to_rh', 'fm3look_to_lh', 'C127', 'look_at_rh looks down the negative z-axis')
M('fm4look_rows', 'neg_eye_y := nneg (vdot eye_vec y)', 'neg_eye_y := vdot eye_vec y', 'C127', 'the eye goes to the origin')
M('fm4look_rows', 'neg_eye_x := nneg (vdot eye_vec x)', 'neg_eye_x := nneg (vat eye_vec 0)', 'C127', 'the eye goes to the origin')
M('fm4look_to_rh', 'fvnormalize (vneg direction)', 'fvnormalize direction', 'C127', 'the right-handed third row is against the direction')
M('fm4look_to_lh', 'let z_axis := fvnormalize direction in', 'let z_axis := direction in', 'C127', 'the third row is a unit vector')
M('fm4look_at_lh', 'pdiff target eye', 'target', 'C127', 'look_at looks from the eye to the target')
M('fm4look_at_rh', 'pdiff target eye', 'pdiff eye target', 'C127', 'look_at looks from the eye to the target')

# --- reflections and projections in floats ------------------------------------------------------------
M('fvreflect', 'fvnormalize normal', 'normal', 'C128', 'reflection works for normals of any length')
M('fvreflect', 'vsub u', 'vadd u', 'C128', 'reflection reverses the normal component')
M('fvreflect', 'nadd n1 n1', 'n1', 'C128', 'reflection reverses the normal component, it does not only remove it')
M('re_apply_vector', '(1 + 1)', '1', 'C128', 'reflection is an involution in floats')
M('re_apply_point', '(pdiff p (re_bias f))', 'p', 'C128', 'the mirror goes through the bias point')
M('re_inverse_apply_point', 're_apply_point f p', 'p', 'C128', 'the inverse undoes the reflection')
M('vproject', 'vnorm_squared o', 'vnorm_squared u', 'C128', 'the rest is at right angles to the line')
M('qproject', 'qscale q', 'qscale p', 'C128', 'the projection lies on the line')
M('qreject', 'qsub p', 'qsub q', 'C128', 'the rejection is what the projection leaves')
M('qnlerp', '(qscale q amount)', '(qscale q (amount * amount))', 'C47', 'nlerp is on the straight line between the quaternions, normalised')

# --- quaternion inverse in floats -----------------------------------------------------------------------
M('fqtry_inverse', 'qconj q', 'q', 'C129', 'the inverse uses the conjugate')
M('fqtry_inverse', '(qconj q) norm_squared', '(qconj q) (fqnorm q)', 'C129', 'the conjugate is divided by the squared norm')
M('fqtry_inverse', 'Bleb norm_squared (feps * feps)', 'Bleb norm_squared feps', 'C129', 'quaternions of norm twice the machine epsilon are invertible')
M('fqdiv_left', 'qmul left_inv q', 'qmul q left_inv', 'C129', 'div_left multiplies by the inverse from the left')
M('fqdiv_right', 'qmul q right_inv', 'qmul right_inv q', 'C129', 'div_right multiplies by the inverse from the right')
M('fqis_invertible', 'Bleb (feps * feps) (qnorm_squared q)', 'Bleb (qnorm_squared q) (feps * feps)', 'C129', 'quaternions above the threshold are invertible')

# --- translations, scales and shears in floats ------------------------------------------------------------
M('tr_inverse_apply_point', 'psub p t', 'padd p t', 'C130', 'the inverse undoes the translation')
M('tr_inverse', 'vneg t', 't', 'C130', 'the inverse undoes the translation')
M('tr_mul', 'vadd s t', 'vadd s s', 'C130', 'the product is the composition')
M('sc_inverse_apply_point', 'vat p i / vat s i', 'vat p i * vat s i', 'C130', 'the inverse undoes the scaling')
M('sc_inverse_apply_vector', 'vat v i / vat s i', 'vat v i', 'C130', 'the inverse undoes the scaling')
M('sc_inverse', '1 / vat s i', '- vat s i', 'C130', 'the inverse scale undoes the scaling')
M('sh_apply_vector', 'vsub v origin', 'v', 'C130', 'the image is the shear through the origin of the shear')
M('sh_inverse_apply_vector', 'vsub v (vmul_s', 'vadd v (vmul_s', 'C130', 'the inverse shears the other way')
M('sh_inverse_apply_point', 'psub p (vmul_s', 'padd p (vmul_s', 'C130', 'the inverse undoes the shear')
M('sh3from_shear_yz', '(v3 0 0 1)', '(v3 1 0 0)', 'C130', 'y is sheared by z')
M('sh2from_shear_yx', '(v2 0 1) (v2 1 0)', '(v2 1 0) (v2 0 1)', 'C130', 'y is sheared by x')

# --- quaternions of rotation matrices in floats ----------------------------------------------------------
M('fqfrom_matrix', '(mget m 1 2 - mget m 2 1) * s in\n      let qy := (mget m 2 0', '(mget m 2 1 - mget m 1 2) * s in\n      let qy := (mget m 2 0', 'C131', 'the x component has the right sign')
M('fqfrom_matrix', 'if Bleb 0 trace then', 'if Bleb (- (1)) trace then', 'C131', 'no accuracy is lost near the border of the branches')
M('fqfrom_matrix', 'andb (Bltb (mget m 1 1) (mget m 0 0)) (Bltb (mget m 2 2) (mget m 0 0))', 'Bltb (mget m 1 1) (mget m 0 0)', 'C131', 'the branch of the largest component is taken')
M('fqfrom_matrix', 'let qz := (mget m 2 1 + mget m 1 2) * s in', 'let qz := (mget m 2 1 - mget m 1 2) * s in', 'C131', 'the result is a quaternion of the rotation')
M('fqfrom_matrix', 'half := 1 / (1 + 1)', 'half := 1', 'C131', 'the result is a unit quaternion')
M('fqlook_to_rh', 'fm3look_to_rh', 'fm3look_to_lh', 'C131', 'look_to_rh looks along the negative z axis')
M('fqlook_at_lh', 'fm3look_at_lh eye target up', 'fm3look_at_lh target eye up', 'C131', 'look_at_lh looks from the eye to the target')

# --- accuracy of interpolation of quaternions in floats --------------------------------------------------
M('fqslerp_eps', 'let result := if Bltb (qdot p q) n0 then qneg p else p in', 'let result := p in', 'C132', 'slerp takes the shorter arc')
M('fqslerp_eps', 'let a := m_sin L ((1 - amount) * half_theta) / sin_half_theta in', 'let a := m_sin L (amount * half_theta) / sin_half_theta in', 'C132', 'slerp reaches the fraction t of the arc')
M('fqslerp_eps', 'then fqnlerp result q amount', 'then fqnlerp p q amount', 'C132', 'close to the start slerp keeps to the shorter arc')
M('fqslerp_eps', 'if Bltb (fabs sin_half_theta) lerp_threshold then', 'if Bltb lerp_threshold (fabs sin_half_theta) then', 'C132', 'far apart quaternions are interpolated on the arc')
M('fqslerp_eps', 'fsqrt (1 - cos_half_theta * cos_half_theta)', 'fsqrt (1 + cos_half_theta * cos_half_theta)', 'C132', 'the weights are divided by the sine of the angle')
M('fqslerp_eps', 'let half_theta := arccos cos_half_theta in', 'let half_theta := arccos cos_half_theta + arccos cos_half_theta in', 'C132', 'slerp divides the angle between the quaternions')
M('fqslerp_eps', 'vadd (vmul_s (qvector result) a) (vmul_s (qvector q) b)', 'vadd (vmul_s (qvector result) b) (vmul_s (qvector q) a)', 'C132', 'the vector part uses the weights of the scalar part')
M('fqnlerp', 'fqnormalize (qadd (qscale p (1 - amount)) (qscale q amount))', 'qadd (qscale p (1 - amount)) (qscale q amount)', 'C132', 'nlerp returns unit quaternions')
M('fqnlerp', '(qadd (qscale p (1 - amount)) (qscale q amount))', '(qadd (qscale p amount) (qscale q (1 - amount)))', 'C132', 'nlerp runs from p to q')

# --- degrees and radians in floats -------------------------------------------------------------------------
M('f64_pi', '884279719003555 (-48)', '884279719003554 (-48)', 'C133', 'pi is the float nearest to pi')
M('f64_per_degree', 'ndiv f64_pi (f64_of_Z 180)', 'ndiv f64_pi (f64_of_Z 200)', 'C133', 'a half turn has 180 degrees')
M('f64_per_radian', 'ndiv (f64_of_Z 180) f64_pi', 'ndiv f64_pi (f64_of_Z 180)', 'C133', 'radians are multiplied by 180/pi')
M('f32_per_degree', 'f32_of_f64 f64_per_degree', 'ndiv (f32_of_Z 22) (f32_of_Z 1260)', 'C133', 'pi is not 22/7')
M('f32_to_radians', 'degrees * f32_per_degree', 'degrees * f32_per_radian', 'C133', 'degrees become radians')
M('f64_full_turn', 'f64_of_Z 2 * f64_pi', 'f64_pi', 'C133', 'a full turn is two pi')
M('f32_full_turn_degrees', 'f32_of_Z 360', 'f32_of_Z 400', 'C133', 'a full turn is 360 degrees')
M('f64_deg_fun', 'fn (f64_to_radians degrees)', 'fn degrees', 'C133', 'degrees are converted before the sine is taken')
M('f64_deg_arc', 'f64_to_degrees (fn ratio)', 'fn ratio', 'C133', 'asin in degrees returns degrees')
M('f32_deg_atan2', 'f32_to_degrees (fn y x)', 'f32_to_degrees (fn x y)', 'C133', 'atan2 takes y first')
M('f64_recip_fun', 'ndiv 1 (fn x)', 'ndiv (fn x) 1', 'C133', 'the cosecant is the reciprocal of the sine')
M('f64_turn_div', 'ndiv full (f64_of_Z k)', 'ndiv (f64_of_Z k) full', 'C133', 'fractions of a turn divide by the number')

# --- accuracy of complex functions in floats ---------------------------------------------------------------
M('fc_exp', 'mkC (exp_re * m_cos L (im z)) (exp_re * m_sin L (im z))', 'mkC (exp_re * m_cos L (im z)) (exp_re * exp_re * m_sin L (im z))', 'C134', 'the imaginary part of exp is exp(re) sin(im)')
M('fc_sqrt', 'mkC (sqrt_norm * m_cos L (angle / two))', 'mkC (- (sqrt_norm * m_cos L (angle / two)))', 'C134', 'the square root has a nonnegative real part')
M('fc_cbrt', 'fc_from_polar (m_cbrt L (fc_norm z)) (fc_arg z / three)', 'fc_from_polar (m_cbrt L (fc_norm z)) (fc_arg z)', 'C134', 'the cube root has a third of the angle')
M('fc_cbrt', 'm_cbrt L (fc_norm z)', 'fsqrt (fc_norm z)', 'C134', 'the cube root has the cube root of the modulus')
M('fc_powf', 'fc_exp (cmul_s (fc_ln z) exponent)', 'fc_exp (cmul_s z exponent)', 'C134', 'powf goes through the logarithm')
M('fc_tanh', 'm_cosh L two_times_re + m_cos L two_times_im', 'm_cosh L two_times_re - m_cos L two_times_im', 'C134', 'tanh divides by cosh 2a + cos 2b')
M('fc_tanh', 'let two_times_re := re z + re z in', 'let two_times_re := re z in', 'C134', 'tanh uses the doubled argument')
M('fc_sinh', 'm_sinh L (re z) * m_cos L (im z)', 'm_sinh L (re z) * m_cosh L (im z)', 'C134', 'the real part of sinh is sinh(re) cos(im)')
M('fc_tan', 'mkC (im z2) (- re z2)', 'mkC (im z2) (re z2)', 'C134', 'tan(z) = -i tanh(iz)')
M('fc_ln', 'mkC (m_ln L (fc_norm z)) (fc_arg z)', 'mkC (m_ln L (cmodulus_squared z)) (fc_arg z)', 'C134', 'ln takes the modulus, not its square')
M('fc_from_polar', 'scale * m_sin L angle', 'm_sin L angle', 'C134', 'both parts are scaled')

# --- rotation between vectors in floats --------------------------------------------------------------------
M('fqrotation_between_axis', 'let v1_cross_v2 := vcross v1 v2 in', 'let v1_cross_v2 := vcross v2 v1 in', 'C135 C136', 'the turn goes from the first vector to the second')
M('fqrotation_between_axis', 'axis (arccos cos_theta)', 'v1_cross_v2 (arccos cos_theta)', 'C135', 'the axis is a unit vector')
M('fqrotation_between_axis', 'if Bleb cos_theta (nneg n1) then None', 'if Bleb cos_theta n0 then None', 'C135', 'obtuse angles give a rotation')
M('fqrotation_between_axis', 'if Bltb (vdot v1 v2) n0 then None else Some qidentity', 'None', 'C135 C136', 'parallel vectors give the identity')
M('fqrotation_between', 'Some unit_v1, Some unit_v2 => fqrotation_between_axis unit_v1 unit_v2', 'Some unit_v1, Some unit_v2 => fqrotation_between_axis v1 v2', 'C135 C136', 'the vectors are normalized first')
M('fqrotation_between', 'match fvtry_unit v1 n0, fvtry_unit v2 n0 with', 'match fvtry_unit v1 n1, fvtry_unit v2 n1 with', 'C135 C136', 'short vectors are handled')
M('fvtry_unit', 'if Bltb (threshold * threshold) norm_squared then', 'if Bltb threshold norm_squared then', 'C135', 'the threshold is on the norm, not on its square')
M('frot3rotation_between', 'option_map qto_matrix (fqrotation_between v1 v2)', 'option_map qto_matrix (fqrotation_between v2 v1)', 'C135 C136', 'the turn goes from the first vector to the second')
M('fm3rotation_between', 'let cross := vcross unit_v1 unit_v2 in', 'let cross := vcross unit_v2 unit_v1 in', 'C135', 'the turn goes from the first vector to the second')
M('fm3rotation_between', 'arccos (vdot unit_v1 unit_v2)', 'arccos (vdot v1 v2)', 'C135', 'the cosine is that of the normalized vectors')
M('fm3rotation_between', 'match fvtry_unit cross feps with', 'match fvtry_unit cross n1 with', 'C135', 'small turns are not dropped')

# --- angles recovered from rotations in floats -------------------------------------------------------------
M('frot3euler_angles', '(m_atan2 L (- mget r 2 1) (mget r 2 2), yaw, m_atan2 L (- mget r 1 0) (mget r 0 0))', '(m_atan2 L (mget r 2 1) (mget r 2 2), yaw, m_atan2 L (- mget r 1 0) (mget r 0 0))', 'C137 C138', 'the sign of the first angle')
M('frot3euler_angles', '(m_atan2 L (- mget r 2 1) (mget r 2 2), yaw, m_atan2 L (- mget r 1 0) (mget r 0 0))', '(m_atan2 L (- mget r 2 1) (mget r 2 2), yaw, m_atan2 L (- mget r 0 1) (mget r 0 0))', 'C137 C138', 'the third angle comes from the first row')
M('frot3euler_angles', 'if nis0 (fabs cos_yaw) then', 'if Bltb (fabs cos_yaw) n1 then', 'C137 C138', 'the branch for gimbal lock is not taken elsewhere')
M('frot3axis', 'v3 (mget r 1 2 - mget r 2 1)', 'v3 (mget r 2 1 - mget r 1 2)', 'C137', 'the sign of the axis')
M('frot3axis', 'fvtry_unit axis feps', 'Some axis', 'C137', 'the axis is normalized')
M('frot3axis_angle', '(axis, frot3angle arccos r)', '(axis, - frot3angle arccos r)', 'C137', 'the angle belongs to the axis')
M('frot2angle', 'm_atan2 L (mget r 0 1) (mget r 0 0)', 'm_atan2 L (mget r 1 0) (mget r 0 0)', 'C137', 'the sine is in the first column')
M('frot2rotation_between_axis', 'vat a 0 * vat b 1 - vat a 1 * vat b 0', 'vat a 1 * vat b 0 - vat a 0 * vat b 1', 'C137', 'the turn goes from the first vector to the second')
M('frot2rotation_between_axis', 'm_atan2 L sin_angle cos_angle', 'm_atan2 L cos_angle sin_angle', 'C137', 'the arguments of atan2')
M('frot2rotation_between', 'match fvtry_unit a n0, fvtry_unit b n0 with', 'match fvtry_unit a n1, fvtry_unit b n1 with', 'C137', 'short vectors are handled')
M('fm2rotation_between_axis', 'fsqrt (1 - cos_angle * cos_angle)', 'fsqrt (fabs (1 - cos_angle * cos_angle))', 'C126', 'the square root of a negative number')

# --- functions of quaternions in floats --------------------------------------------------------------------
M('fqarg_eps', 'm_atan2 L (fvnorm (qvector q)) (qscalar q)', 'm_atan2 L (qscalar q) (fvnorm (qvector q))', 'C140', 'the arguments of atan2')
M('fqarg_eps', 'Bleb (qscalar q * qscalar q) (threshold * threshold)', 'Bleb (qscalar q * qscalar q) threshold', 'C140', 'the square of the threshold')
M('fqexp_eps', 'exp_s * m_sin L norm_v / norm_v', 'exp_s * m_sin L norm_v', 'C139', 'the vector part is normalized')
M('fqexp_eps', 'Bleb norm_v_squared (threshold * threshold)', 'Bleb norm_v_squared threshold', 'C139', 'the square of the threshold')
M('fqexp_eps', 'qfrom_parts (m_exp L (qscalar q)) (vzero 3)', 'qfrom_parts (m_exp L (qscalar q)) (qvector q)', 'C139', 'the vector part is multiplied by the exponential')
M('fqsqrt_eps', 'qfrom_parts ((norm_self + qscalar q) * c) (vmul_s (qvector q) c)', 'qfrom_parts ((norm_self - qscalar q) * c) (vmul_s (qvector q) c)', 'C140', 'the scalar part of the root')
M('fqsqrt_eps', 'if Bltb n0 (qscalar q) then qfrom_real sqrt_norm_self', 'if Bltb (qscalar q) n0 then qfrom_real sqrt_norm_self', 'C140', 'the root of a positive number is real')
M('fqsqrt_eps', 'fsqrt (one_half / (norm_self + qscalar q))', 'fsqrt (one_half * (norm_self + qscalar q))', 'C140', 'the factor of the vector part')
M('fqcos', '- m_sin L (qscalar q) * m_sinh L norm_v / norm_v', 'm_sin L (qscalar q) * m_sinh L norm_v / norm_v', 'C139', 'the sign of the vector part of the cosine')
M('fqsin', 'm_cos L (qscalar q) * m_sinh L norm_v / norm_v', 'm_cos L (qscalar q) * m_sin L norm_v / norm_v', 'C139', 'the vector part has a hyperbolic sine')
M('fqsin', 'if nis0 norm_v then qfrom_real (m_sin L (qscalar q) * m_cosh L norm_v)', 'if nis0 norm_v then qfrom_real (m_cos L (qscalar q) * m_cosh L norm_v)', 'C139', 'the sine of a real quaternion')
M('fqcosh', 'm_sinh L (qscalar q) * m_sin L norm_v / norm_v', '- m_sinh L (qscalar q) * m_sin L norm_v / norm_v', 'C139', 'the sign of the vector part of cosh')
M('fqsinh', '(vmul_s (qvector q) (m_cosh L (qscalar q) * m_sin L norm_v / norm_v))', '(vmul_s (qvector q) (m_sinh L (qscalar q) * m_sin L norm_v / norm_v))', 'C139', 'the vector part of sinh has a cosh')
M('fqtan', 'vmul_s (qvector q) (cosh_norm_v * sinh_norm_v / denom_v)', 'vmul_s (qvector q) (1 / (cosh_norm_v / sinh_norm_v) / norm_v)', 'C140', 'the tangent overflows')

# --- convenience forms -------------------------------------------------------------------------------------
M('sh_from_shear', 'mkShear factor (porigin n) direction normal', 'mkShear factor (porigin n) normal direction', 'C141', 'direction and normal')
M('vunscale', 'vmul_s u (1 / s)', 'vmul_s u s', 'C141', 'unscale divides')
M('cfrom_angle', 'cfrom_polar 1 angle', 'cfrom_polar angle 1', 'C141', 'the modulus is 1')
M('fvdist', 'fvnorm (vsub u v)', 'fvnorm (vadd u v)', 'C141', 'the distance is the norm of the difference')
M('qabs_diff_eq', 'vabs_diff_eq (p : vec R 4) q t', 'vabs_diff_eq (p : vec R 4) p t', 'C141', 'the comparison uses both')

# --- powers and tangents of quaternions in floats ----------------------------------------------------------
M('fqpowf', 'fqexp (qscale (fqln L arccos q) exponent)', 'fqexp (qscale (fqln L arccos q) (exponent * exponent))', 'C142', 'the exponent')
M('fqpowf', 'fqexp (qscale (fqln L arccos q) exponent)', 'fqexp (qscale q exponent)', 'C142', 'the logarithm is scaled')
M('fqtan', 'cos_s * cos_s + sinh_norm_v * sinh_norm_v', 'cos_s * cos_s - sinh_norm_v * sinh_norm_v', 'C142', 'the denominator is a sum of squares')
M('fqtan', 'qfrom_parts (cos_s * sin_s / denom_s)', 'qfrom_parts (cos_s * sin_s / denom_v)', 'C142', 'the scalar part has no norm in the denominator')
M('fqtan', 'if nis0 norm_v then qfrom_real (tangent (qscalar q))', 'if nis0 norm_v then qfrom_real (tangent norm_v)', 'C142', 'the tangent of a real quaternion')
M('fqtanh', 'sinh_s * sinh_s + cos_norm_v * cos_norm_v', 'sinh_s * sinh_s + sin_norm_v * sin_norm_v', 'C142', 'the denominator has a cosine')
M('fqtanh', 'vmul_s (qvector q) (cos_norm_v * sin_norm_v / denom_v)', 'vmul_s (qvector q) (cos_norm_v * sin_norm_v / denom_s)', 'C142', 'the vector part is normalized')
M('fqtanh', 'qfrom_real (tangenth (qscalar q))', 'qfrom_pure (qvector q)', 'C142', 'the hyperbolic tangent of a real quaternion')

# --- planes and points back from a projection in floats ----------------------------------------------------
M('persp_top', '1 / mget m 1 1', '1 / mget m 0 0', 'C143', 'top is read back from the second row')
M('persp_bottom', '1 / mget m 1 1', '1 / mget m 0 0', 'C143', 'bottom is read back from the second row')
M('persp_left', '1 / (ratio + 1)', 'ratio / (ratio + 1)', 'C143', 'left and right are not the same')
M('ortho_far', 'ratio / (ratio - 1)', '1 / (ratio - 1)', 'C143', 'far is read back')
M('ortho_right', 'two * (ratio / (ratio + 1))', 'ratio / (ratio + 1)', 'C143', 'right is read back')
M('ortho_bottom', '(- mget m 3 1 + 1)', '(mget m 3 1 + 1)', 'C143', 'bottom is read back')
M('ortho_unproject_point', 'c0r0 * vat p 0 + c3r0', 'c0r0 * vat p 0 - c3r0', 'C143', 'unproject undoes the projection')
M('persp_unproject_point', '(persp_far m + persp_near m) / (two * persp_far m * persp_near m)', '(persp_far m + persp_near m) / (two * persp_far m * persp_far m)', 'C143', 'unproject undoes the projection')

# --- inverse complex functions in floats --------------------------------------------------------------------
M('fc_asinh', 'fc_ln (cadd z (fc_sqrt (cadd cone (cmul z z))))', 'fc_ln (cadd z (fc_sqrt (csub cone (cmul z z))))', 'C144', 'asinh inverts sinh')
M('fc_atanh', 'cdiv (csub (fc_ln (cadd one z)) (fc_ln (csub one z))) two', 'csub (fc_ln (cadd one z)) (fc_ln (csub one z))', 'C144', 'atanh inverts tanh')
M('fc_acos', 'cmul (cneg cunit_im) w', 'cmul cunit_im w', 'C144', 'acos inverts cos')
M('fc_acosh', 'cmul two (fc_ln w)', 'fc_ln w', 'C144', 'acosh inverts cosh')
M('fc_asin', 'mkC (im z2) (- re z2)', 'mkC (im z2) (re z2)', 'C144', 'asin inverts sin')
M('fc_atan', 'mkC (im z2) (- re z2)', 'mkC (- im z2) (- re z2)', 'C144', 'atan inverts tan')

# --- field of view in floats --------------------------------------------------------------------
M('ffrom_perspective_vfov', 'let c1r1 := ndiv near range in', 'let c1r1 := ndiv range near in', 'C145', 'the second entry is the cotangent')
M('ffrom_perspective_vfov', 'range * aspect_ratio + range * aspect_ratio', 'range * aspect_ratio', 'C145', 'the first entry is the cotangent over the aspect ratio')
M('ffrom_perspective_vfov', 'ndiv vfov two', 'vfov', 'C145', 'half the angle is used')
M('ffrom_perspective_vfov', '0 0 c2r2 (- (1))', '0 0 c2r2 1', 'C145', 'the perspective entry is -1')
M('fpersp_vfov', 'mget m 1 1 * mget m 1 1 - 1', 'mget m 1 1 * mget m 1 1 + 1', 'C145', 'the field of view is read back')
M('fpersp_vfov', 'two * mget m 1 1', 'mget m 1 1', 'C145', 'the field of view is read back')

# --- norms in floats ----------------------------------------------------------------------------
M('fmax', 'if Bltb x y then y else if Bltb y x then x', 'if Bltb x y then x else if Bltb y x then y', 'C146', 'the maximum is the larger')
M('fmax', 'if is_nan x then y else if is_nan y then x', 'if is_nan x then x else if is_nan y then y', 'C146', 'NaN operands are dropped')
M('fmin', 'if Bltb x y then x else if Bltb y x then y', 'if Bltb x y then y else if Bltb y x then x', 'C146', 'the minimum is the smaller')
M('fclamp', 'if Bltb max_value x then max_value', 'if Bltb max_value x then min_value', 'C146', 'values above the bounds become the upper bound')
M('fclamp', 'if Bltb x min_value then min_value', 'if Bltb min_value x then min_value', 'C146', 'values within the bounds are kept')
M('fl1_norm', 'result + fabs (vat u i)', 'result + vat u i', 'C146', 'absolute values are summed')
M('flinf_norm', 'fmax result (fabs (vat u i))', 'fmax result (vat u i)', 'C146', 'the largest absolute value')
M('fl1_dist', 'fl1_norm (vsub rhs lhs)', 'fl1_norm (vadd rhs lhs)', 'C146', 'the distance vanishes between equal vectors')
M('flinf_dist', 'flinf_norm (vsub rhs lhs)', 'flinf_norm (vadd rhs lhs)', 'C146', 'the distance vanishes between equal vectors')
M('fvcmin', 'fmin (vat u i) (vat v i)', 'fmax (vat u i) (vat v i)', 'C146', 'the componentwise minimum')
M('fvcmax', 'fmax (vat u i) (vat v i)', 'fmax (vat u i) (vat u i)', 'C146', 'the componentwise maximum')
M('fml1_norm', 'fl1_norm (mcol m j)', 'flinf_norm (mcol m j)', 'C146', 'the largest column sum')
M('fmlinf_norm', 'row_sum + fabs (mget m j i)', 'row_sum + fabs (mget m i j)', 'C146', 'the largest row sum')

# --- integer powers in floats -------------------------------------------------------------------
M('fcpowi', 'if cis_nan base then Some base else', '', 'C147', 'NaN stays NaN')
M('fcpowi', 'if nis0 norm_squared then mkC B754_nan B754_nan', 'if nis0 norm_squared then mkC 0 0', 'C147', 'a negative power of zero is NaN')
M('fcpowi', '((- im z) / norm_squared)', '(im z / norm_squared)', 'C147', 'the inverse is the conjugate over the square of the modulus')
M('fcpowi', 'if Z.eqb (Z.rem e 2) 1 then cmul_assign result base else result', 'cmul_assign result base', 'C147', 'only the set bits of the exponent count')
M('fcpowi', 'let base := cmul base base in', 'let base := cmul base z in', 'C147', 'the base is squared')
M('cpowu', '(Nat.div (fst s) 2, cmul (snd s) (snd s))', '(Nat.div (fst s) 2, cmul (snd s) z)', 'C147', 'even exponents square the base')
M('cmul_assign', 'mkC (re z) (im z + a * im w)', 'mkC (re z) (im z + re z * im w)', 'C147', 'the old real part is used')

# --- the Lp norm in floats ---------------------------------------------------------------------
M('flp_norm', 'powi (fabs (vat v i)) (u32_as_i32 p)', 'powi (vat v i) (u32_as_i32 p)', 'C148', 'the modulus of the components')
M('flp_norm', '(u32_as_i32 p)) 0)', 'p) 0)', 'C148', 'the exponent wraps around')
M('flp_norm', 'result + powi', 'powi', 'C148', 'the powers are added')
M('flp_norm', 'ndiv 1 (f64_of_Z p)', 'ndiv 1 (f64_of_Z (p + 1))', 'C148', 'the root has the same exponent')
M('lp_norm32', 'f32_of_f64 v p', '(fun x => f32_of_f64 (ndiv 1 x)) v p', 'C148', 'the exponent of the root is 1/p')

# --- other bases, complex exponents and the polar form of complex numbers in floats ------------
M('fc_from_angle', '1 angle', 'angle 1', 'C149', 'the modulus is 1')
M('fc_polar', '(fc_norm z, fc_arg L z)', '(cmodulus_squared z, fc_arg L z)', 'C149', 'the first part is the modulus')
M('fc_exp2', '(im z * ln_2)', '(im z)', 'C149', 'the angle is y ln 2')
M('fc_exp2', '(exp2 (re z))', '(m_exp L (re z))', 'C149', 'the modulus is 2^x')
M('fc_log', 'arg_self / m_ln L base', 'arg_self * m_ln L base', 'C149', 'the angle is divided by ln b')
M('fc_log2', '(fc_ln L z) ln_2', 'z ln_2', 'C149', 'the natural logarithm is divided')
M('fc_log10', 'cdiv_s (fc_ln L z) ln_10', 'cmul_s (fc_ln L z) ln_10', 'C149', 'the natural logarithm is divided')
M('fc_powc', 'if cis_zero exponent then cunit_re else', 'if cis_zero z then czero else', 'C149', 'the exponent zero gives 1')
M('fc_powc', '(cmul exponent (fc_ln L z))', '(cmul_s (fc_ln L z) (re exponent))', 'C149', 'the imaginary part of the exponent counts')
M('fc_powc', '(cmul exponent (fc_ln L z))', '(cmul exponent z)', 'C149', 'the logarithm of the base is multiplied')

# --- the reports of failed approximate assertions ----------------------------------------------
M('mdiff', 'adiff (fun u v => adiff f u v) x y', 'adiff (fun u v => adiff f v u) x y', 'C150', 'the left value comes first')
M('cdiff', '(f (im x) (im y))', '(f (re x) (im y))', 'C150', 'the imaginary parts are compared')
M('eudiff', 'f x3 y3', 'f x3 y2', 'C150', 'the third angles are compared')
M('rediff', '(pdiff (re_bias x) (re_bias y))', '(pdiff (re_bias x) (re_normal y))', 'C150', 'the biases are compared')
M('shdiff', '(vdiff (sh_direction x) (sh_direction y)) (vdiff (sh_normal x) (sh_normal y))', '(vdiff (sh_normal x) (sh_normal y)) (vdiff (sh_direction x) (sh_direction y))', 'C150', 'directions and normals keep their places')
M('isodiff', '(vdiff (iso_translation x) (iso_translation y))', '(vdiff (iso_translation x) (iso_translation x))', 'C150', 'the translations are compared')
M('simdiff', '(f (sim_scale x) (sim_scale y))', '(f (sim_scale y) (sim_scale x))', 'C150', 'the left value comes first')
M('shtol', '(sh_origin t)', '(sh_direction t)', 'C150', 'the tolerance of the origin')
M('simtol', '(sim_scale t)', '(vget (sim_scale t) (iso_translation (sim_isometry t)) 0)', 'C150', 'the tolerance of the scale')
M('retol_all', '(ptol_all (re_bias x) (re_bias y) t)', '(ptol_all (re_bias x) (re_bias x) t)', 'C150', 'both values are used')
M('isotol_all', '(mtol_all (iso_rotation x) (iso_rotation y) t)', '(mtol_all (iso_rotation y) (iso_rotation x) t)', 'C150', 'the left value comes first')
M('ctol', '(h (im x) (im y) (im t))', '(h (im x) (im y) (re t))', 'C150', 'the tolerance of the imaginary part')

# --- inner and outer products of quaternions in floats -----------------------------------------
M('qinner', '(qmul q p)) one_half', '(qmul q p)) 1', 'C151', 'half of the sum')
M('qinner', 'qadd (qmul p q) (qmul q p)', 'qadd (qmul p q) (qmul p q)', 'C151', 'both products are used')
M('qouter', '(qmul q p)) one_half', '(qmul q p)) 1', 'C151', 'half of the difference')
M('qouter', 'qsub (qmul p q) (qmul q p)', 'qsub (qmul p q) (qmul p (qconj q))', 'C151', 'the difference of the two products')
M('one_half', '1 / (1 + 1)', '1 / (1 + 1 + 1)', 'C151', 'one half')

# --- the polar form of quaternions in floats ---------------------------------------------------
M('fqtry_unit_norm', 'Some (fqnormalize q, fsqrt norm_squared)', 'Some (fqnormalize q, norm_squared)', 'C152', 'the norm is returned')
M('fqtry_unit_norm', 'Bltb (threshold * threshold) norm_squared', 'Bltb norm_squared (threshold * threshold)', 'C152', 'nonzero quaternions are normalized')
M('fqpolar', 'fabs (qscalar unit_q)', 'qscalar unit_q', 'C152', 'the half angle is at most PI/2')
M('fqpolar', 'fvnorm (qvector unit_q)', 'fvnorm (qvector q)', 'C152', 'the sine of the half angle')
M('fqpolar', 'fvtry_unit (qvector q) n0', 'fvtry_unit (qvector unit_q) 1', 'C152', 'the axis is the direction of the vector part')
M('fqpolar', 'm_atan2 L sin_angle_over_two cos_angle_over_two', 'm_atan2 L cos_angle_over_two sin_angle_over_two', 'C152', 'the half angle')
M('fqpolar', '| None => (norm_q, n0, None)', '| None => (norm_q, m_pi L, None)', 'C152', 'real quaternions have angle zero')
M('fqpolar', '| None => (n0, n0, None)', '| None => (n1, n0, None)', 'C152', 'a tiny quaternion is taken as zero')
M('fqfrom_polar', 'm_sin L (angle / two)', 'm_sin L angle', 'C152', 'half the angle')
M('fqfrom_polar', '(cos_angle_over_two * scale)', '(cos_angle_over_two)', 'C152', 'the scalar part is scaled')
M('fqfrom_polar', '(vmul_s (vmul_s axis sin_angle_over_two) scale)', '(vmul_s (vmul_s axis scale) scale)', 'C152', 'the vector part has the sine')

# --- general transforms and homogeneous coordinates in floats ----------------------------------
M('tf_apply_vector', 'mmulv f (vextend v 0)', 'mmulv f (vextend v (1 + 1))', 'C153', 'vectors have weight zero')
M('tf_apply_point', 'mmulv f (pto_homogeneous p)', 'mmulv (mtranspose f) (pto_homogeneous p)', 'C153', 'the matrix is not transposed')
M('pto_homogeneous', 'vextend p 1', 'vextend p (1 + 1)', 'C153', 'points have weight one')
M('pfrom_homogeneous', 'vat v i / vat v n', 'vat v i * (1 / vat v n)', 'C153', 'the quotient is correctly rounded')
M('pfrom_homogeneous', 'else None', 'else Some (porigin n)', 'C153', 'a zero weight gives None')

# --- affine matrices in floats: exact agreement ------------------------------------------------
M('iso_to_affine_matrix', 'mset result n i (vat (iso_translation f) i)', 'mset result i n (vat (iso_translation f) i)', 'C154', 'the translation is the last column')
M('iso_apply_point', 'tr_apply_point (iso_translation f) (rot_apply_point (iso_rotation f) p)', 'rot_apply_point (iso_rotation f) (tr_apply_point (iso_translation f) p)', 'C154', 'rotation before translation')
M('tr_to_affine_matrix', '(midentity (S n))', '(mzero (S n) (S n))', 'C154', 'the rest of the matrix is the identity')
M('sc_to_affine_matrix', 'mfrom_affine_nonuniform_scale s', 'mfrom_affine_translation s', 'C154', 'the scale is on the diagonal')
M('rot_to_affine_matrix', 'membed r', 'membed (mtranspose r)', 'C154', 'the rotation is not transposed')
M('m3cross_matrix', 'm3new 0 (vat v 2) (- vat v 1)', 'm3new 0 (- vat v 2) (vat v 1)', 'C154', 'the signs of the cross product')
M('ortho_project_point', 'mget m 1 1 * vat p 1 + mget m 3 1', 'mget m 1 1 * vat p 1', 'C154', 'the offset is added')

# --- reflection, shear and similarity matrices in floats ---------------------------------------
M('m4from_affine_reflection', '(two * vat n 2 * (vat n 0 * vat bias 0 + vat n 1 * vat bias 1 + vat n 2 * vat bias 2))', '(two * vat n 2 * (vat n 0 * vat bias 0 + vat n 1 * vat bias 1))', 'C155', 'every coordinate of the bias counts')
M('m3from_affine_reflection', '(1 - two * vat n 1 * vat n 1)', '(1 - vat n 1 * vat n 1)', 'C155', 'the point moves through the line, not onto it')
M('m4from_affine_shear', '(- s * vdot origin normal)', '(s * vdot origin normal)', 'C155', 'the origin stays fixed')
M('m3from_affine_shear', '(s * vat direction 0 * vat normal 1)', '(s * vat direction 1 * vat normal 0)', 'C155', 'columns are normals, rows directions')
M('sim_to_affine_matrix', 'mmul_s (iso_rotation (sim_isometry f)) (sim_scale f)', 'iso_rotation (sim_isometry f)', 'C155', 'the scale multiplies the rotation')
M('re3to_affine_matrix', 'm4from_affine_reflection (re_normal f) (re_bias f)', 'm4from_affine_reflection (re_bias f) (re_normal f)', 'C155', 'normal before bias')

# --- traces, inner products and products with a transpose in floats ----------------------------
M('mtrace', 'acc + mget m i i', 'acc + mget m i 0', 'C156', 'the diagonal is summed')
M('mdot', 'acc + mget a j i * mget b j i', 'acc - mget a j i * mget b j i', 'C156', 'products are added')
M('mtr_mul', 's + mget a j1 i * mget b j2 i', 's + mget a i j1 * mget b j2 i', 'C156', 'the left factor is transposed')
M('mtr_dot', 'acc + mget a r c * mget b c r', 'acc + mget a c r * mget b c r', 'C156', 'one factor is read across')
M('mdist_squared', 'mnorm_squared (msub a b)', 'mdot (msub a b) b', 'C156', 'the difference is squared')
M('vtriple', 'vdot (vcross u o1) o2', 'vdot (vcross u o2) o1', 'C156', 'the order of the factors')

# --- composing and inverting similarities in floats --------------------------------------------
M('sim_mul_iso', '(iso_translation g))\n                      (sim_scale f)', '(iso_translation g))\n                      1', 'C157', 'the second translation is scaled by the first similarity')
M('sim_mul', 'sim_scale result * sim_scale g', 'sim_scale result + sim_scale g', 'C157', 'scales multiply')
M('sim_mul_iso', 'rot_mul (iso_rotation (sim_isometry f)) (iso_rotation g)', 'rot_mul (iso_rotation g) (iso_rotation (sim_isometry f))', 'C157', 'the order of the rotations')
M('sim_inverse_mut', 'vmul_assign (iso_translation g) scale', 'vmul_assign (iso_translation g) (sim_scale f)', 'C157', 'the translation of the inverse is scaled back')
M('sim_inverse_mut', 'let scale := 1 / sim_scale f in', 'let scale := sim_scale f / sim_scale f in', 'C157', 'the scale is inverted')
M('tr_mul_rot', 'iso_from_parts t r', 'iso_from_parts t (mtranspose r)', 'C157', 'the rotation is kept')

# --- inverse viewing matrices and viewing isometries in floats ---------------------------------
M('fm3look_to_rh_inv', 'mtranspose (fm3look_to_rh direction up)', 'fm3look_to_rh direction up', 'C158', 'the inverse is the transpose')
M('fm3look_at_lh_inv', 'mtranspose (fm3look_at_lh eye target up)', 'mtranspose (fm3look_at_lh target eye up)', 'C158', 'from the eye to the target')
M('fm4look_cols', 'let eye_y := vdot eye_vec y in', 'let eye_y := vdot eye_vec x in', 'C158', 'the last column')
M('fm4look_to_rh_inv', 'fvnormalize (vneg direction)', 'fvnormalize direction', 'C158', 'right-handed: the opposite direction')
M('fm4look_at_lh_inv', '(pdiff target eye)', '(pdiff eye target)', 'C158', 'from the eye to the target')
M('fiso3view', 'rot_apply_point rotation (pneg eye)', 'rot_apply_point rotation eye', 'C158', 'the eye is taken to the origin')
M('fiso3view', 'rot_apply_point rotation (pneg eye)', 'pneg eye', 'C158', 'the translation is rotated')
M('fiso3look_at_rh', 'fm3look_at_rh', 'fm3look_at_lh', 'C158', 'right-handed')
M('fsim3look_to_lh', 'fiso3look_to_lh', 'fiso3look_to_rh', 'C158', 'left-handed')

# --- linear reflection and shear matrices in floats --------------------------------------------
M('m3shear_xz', '1 0 0  0 1 0  s 0 1', '1 0 0  0 1 0  0 s 1', 'C159', 'x is sheared by z')
M('m3shear_zy', '1 0 0  0 1 s  0 0 1', '1 0 s  0 1 0  0 0 1', 'C159', 'z is sheared by y')
M('m2shear_yx', 'm2new 1 s 0 1', 'm2new 1 0 s 1', 'C159', 'y is sheared by x')
M('m4affine_shear_yz', '0 s 1 0', 's 0 1 0', 'C159', 'y is sheared by z')
M('m3from_shear', '(s * vat direction 2 * vat normal 1)', '(s * vat direction 1 * vat normal 2)', 'C159', 'direction times normal')
M('m2from_shear', '(1 + s * vat direction 1 * vat normal 1)', '(1 - s * vat direction 1 * vat normal 1)', 'C159', 'the diagonal')
M('m3from_reflection', '(- two * vat n 0 * vat n 1) (1 - two', '(two * vat n 0 * vat n 1) (1 - two', 'C159', 'the matrix is symmetric')
M('m2from_reflection', '(1 - two * vat n 0 * vat n 0)', '(1 + two * vat n 0 * vat n 0)', 'C159', 'the diagonal')

# --- products of isometries with rotations and translations in floats --------------------------
M('rot_mul_tr', '(rot_apply_vector r t)', 't', 'C160', 'the translation is rotated')
M('iso_mul_tr', '(rot_apply_vector (iso_rotation f) t)', 't', 'C160', 'the second translation is rotated')
M('iso_mul_tr', 'vadd (iso_translation f)', 'vsub (iso_translation f)', 'C160', 'translations add')
M('tr_mul_iso', '(tr_mul t (iso_translation f))', 't', 'C160', 'translations add')
M('iso_mul_rot', 'rot_mul (iso_rotation f) r', 'rot_mul r (iso_rotation f)', 'C160', 'the order of the rotations')
M('rot_mul_iso', 'rot_apply_vector r (iso_translation f)', 'iso_translation f', 'C160', 'the translation is rotated')
M('rot_mul_iso', 'rot_mul r (iso_rotation f)', 'iso_rotation f', 'C160', 'both rotations are applied')

# --- products of affine transforms in floats ---------------------------------------------------
M('tf_mul', 'mmul f g', 'mmul g f', 'C161', 'the order of the factors')

# --- inverting affine transforms in floats -----------------------------------------------------
M('tf2try_inverse', 'm3try_inverse f', 'Some f', 'C162', 'the inverse undoes the transform')
M('tf2inverse_apply_vector', 'tf_apply_vector g v', 'tf_apply_vector f v', 'C162', 'the inverse, not the transform, is applied')
M('tf3inverse_apply_vector', '(tf3try_inverse f)', '(Some f)', 'C162', 'the inverse, not the transform, is applied')
M('tf2inverse_apply_point', 'tf_apply_point g p', 'tf_apply_point f p', 'C162', 'the inverse, not the transform, is applied')
M('tf3inverse_apply_point', '(tf3try_inverse f)', '(Some (mtranspose f))', 'C162', 'the inverse, not the transpose, is applied')

# --- projecting vectors in floats --------------------------------------------------------------
M('persp_project_vector', 'vextend v 1', 'vextend v 0', 'C163', 'the vector is projected with weight one')
M('persp_project_vector', 'mmulv m (vextend v 1)', 'mmulv (mtranspose m) (vextend v 1)', 'C163', 'the matrix is not transposed')
M('ortho_project_vector', '(mget m 0 0 * vat v 0)', '(mget m 0 0 * vat v 0 + mget m 3 0)', 'C163', 'vectors are not translated')
M('ortho_project_vector', '(mget m 2 2 * vat v 2)', '(- (mget m 2 2 * vat v 2))', 'C163', 'depth increases away from the viewer')

# --- diagonal, scale and translation matrices in floats ----------------------------------------
M('mfrom_diagonal', 'mset acc i i (vat d i)', 'mset acc i i (vat d i + vat d i)', 'C164', 'entries are copied')
M('mfrom_diagonal_value', 'mset acc i i a', 'mset acc i i (a * a)', 'C164', 'the value itself is on the diagonal')
M('mfrom_scale', 'mset acc i i s', 'mset acc i i (s + s)', 'C164', 'the factor itself is on the diagonal')
M('mfrom_nonuniform_scale', '(midentity n)', '(mfrom_fill n n 1)', 'C164', 'entries off the diagonal are zero')
M('mfrom_affine_nonuniform_scale', '(vat s i)', '(vat s i * vat s i)', 'C164', 'the factor itself is on the diagonal')
M('mfrom_affine_translation', '(vat t i)', '(- vat t i)', 'C164', 'translations are in the last column')

# --- scaling by a scalar and dividing by it in floats ------------------------------------------
M('vdiv_s', 'vat u i / a', 'vat u i * (1 / a)', 'C165', 'the quotient is rounded once')
M('mdiv_s', 'mget a j i / s', 'mget a j i * (1 / s)', 'C165', 'the quotient is rounded once')
M('cdiv_s', '(im z / s)', '(im z * (1 / s))', 'C165', 'the quotient is rounded once')
M('qdiv_s', 'qscalar q / a', 'qscalar q * (1 / a)', 'C165', 'the quotient is rounded once')
M('m1try_inverse', 'm1new det_inv', 'm1new det', 'C165', 'the entry is the reciprocal')
M('vdiv_assign', 'vat r i / a', 'vat r i / - a', 'C165', 'the assignment operator agrees with the operator')

# --- transposition, conjugation and signs of products in floats --------------------------------
M('qmul', 'vadd (vadd (vmul_s (qvector q) (qscalar p)) (vmul_s (qvector p) (qscalar q)))\n                     (vcross (qvector p) (qvector q))', 'vadd (vadd (vcross (qvector p) (qvector q)) (vmul_s (qvector p) (qscalar q)))\n                     (vmul_s (qvector q) (qscalar p))', 'C166', 'conjugation reverses products in floats')
M('vcross', 'let y := vat u 2 * vat v 0 - vat u 0 * vat v 2 in', 'let y := vat u 2 * vat v 0 + (- vat u 0) * vat v 1 in', 'C166', 'the cross product is antisymmetric')
M('qconj', 'qfrom_parts (qscalar q) (vneg (qvector q))', 'qfrom_parts (qscalar q) (qvector q)', 'C166', 'conjugation reverses products')
M('mneg', '- mget a j i', 'mget a j i', 'C166', 'negating a factor negates the product')

# --- signs, transposition and equal columns of determinants in floats --------------------------
M('m3det', 'mget m 1 0 * mget m 0 2 * mget m 2 1 +', 'mget m 1 0 * mget m 0 2 * mget m 2 1 + 1 +', 'C167', 'negating a 3x3 matrix negates the determinant')
M('m2det', 'mget m 0 0 * mget m 1 1 - mget m 0 1 * mget m 1 0', 'mget m 0 0 * mget m 1 1 - mget m 0 1 * mget m 0 1', 'C167', 'transposing and exchanging columns')
M('m4det', 'mget m 3 0 * mget m 2 1 * mget m 0 3 * mget m 1 2', 'mget m 3 0 * mget m 2 1 * mget m 0 3', 'C167', 'negating a 4x4 matrix keeps the determinant')

# --- parallel arguments of cross and triple products in floats ---------------------------------
M('vcross', 'let z := vat u 0 * vat v 1 - vat u 1 * vat v 0 in', 'let z := vat u 0 * vat v 1 - vat u 1 * vat v 1 in', 'C168', 'u x u is zero')
M('vtriple', 'vdot (vcross u o1) o2', 'vdot (vcross u o2) o1', 'C168', 'triple(u, u, w) is exactly zero')
