{
 "vdiv_s-1": {
  "tightened": [
   "C113_field_division"
  ],
  "note": "C01 did not mention division; C113_field_division was added and fails for this edit."
 },
 "norm_metric_distance-1": {
  "tightened": [
   "C08_metric_distances"
  ],
  "note": "C08 did not mention the distances of the norm objects; C08_metric_distances was added and fails for this edit."
 },
 "v3_from_v4-1": {
  "tightened": [],
  "note": "Wrongly listed under C05, which is not about this conversion; C101_standard_basis fails."
 },
 "mcmul-1": {
  "tightened": [
   "C18_component_mul"
  ],
  "note": "No theorem said what component_mul of matrices computes; C18_component_mul was added and fails for this edit."
 },
 "cscale-1": {
  "tightened": [
   "C99_complex_in_place"
  ],
  "note": "No theorem said what scale of a complex number computes; the clause cscale z s = cmul z (cfrom_real s) was added to C99_complex_in_place and fails for this edit."
 },
 "mdiv_s-1": {
  "tightened": [
   "C113_field_division"
  ],
  "note": "C18 did not mention division by a scalar; C113_field_division covers it and fails for this edit."
 },
 "mnormalize-1": {
  "tightened": [],
  "note": "Wrongly listed under C02 and C10, which are about other types; C26_matrix_metric fails."
 },
 "mdist_squared-1": {
  "tightened": [],
  "note": "Wrongly listed under C26 as well; C102_matrix_distance fails."
 },
 "m4from_affine_angle_x-1": {
  "tightened": [],
  "note": "Wrongly listed under C44 as well; C58_rotation_3d_elementary fails."
 },
 "m4from_affine_axis_angle-1": {
  "tightened": [],
  "note": "Wrongly listed under C44 as well; C58_rotation_3d fails."
 },
 "qconj_mut-1": {
  "tightened": [],
  "note": "Wrongly listed under C99 as well; C39_conjugate_norm fails."
 },
 "qnlerp-2": {
  "tightened": [
   "C47_nlerp"
  ],
  "note": "C47_nlerp only gave the norm and the two ends; it now says that the result is a positive multiple of (1 - t) p + t q and fails for this edit."
 },
 "qlerp-1": {
  "tightened": [],
  "note": "Was wrongly listed under C47 and C06; C39_assign_ops (the affine formula of lerp) fails."
 },
 "fc_acos-2": {
  "tightened": [
   "C115_infinite_values"
  ],
  "note": "Survived the symmetries of C115; the table of values at infinite arguments was added."
 },
 "fc_sin-1": {
  "tightened": [
   "C134_trigonometric"
  ],
  "note": "Survived C115, since both signs of the imaginary part are conjugation symmetric; the accuracy statement of C134 fixes the sign."
 },
 "f64_full_radians~7~0": {
  "tightened": [],
  "note": "equivalent: the sign flag of binary_normalize only matters for a zero result, and the mantissa is not zero"
 }
}