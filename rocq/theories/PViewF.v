(** Property theorems about inverse viewing matrices and viewing isometries in floats (C158). *)

From Coq Require Import List Arith ZArith Reals.
From Flocq Require Import Core.Core IEEE754.BinarySingleNaN.
From Verif Require Import Base Scalar Spec SpecF SpecRot SpecRigid SpecLook MVector MMatrix MPoint MFloat MTransform MLookF MViewF LFloatNormP LLookGP LViewFP.
Local Open Scope R_scope.

(** ** C158 *)

(** The four `_inv` functions of Matrix3x3 (and Rotation3): the columns are the axes of the exact frame, and the matrix undoes the viewing matrix from both sides. [aim] selects look_at, [left] the left-handed version.  Missing: nearly parallel vectors, where it is false (C127). *)
Theorem C158_rotation_partial :
  forall (prec emax : Z) (Hp : Prec_gt_0 prec) (He : Prec_lt_emax prec emax) (k : Z) (dir eye target up v : vec (binary_float prec emax) 3) (V : R) (aim left : bool),
    let u := bpow radix2 (- prec) in let D := fun i => if aim then fval target i - fval eye i else fval dir i in let s := rsine (fval up) D in
    let f := frame (fun i => if left then D i else - D i) (fval up) in
    let a := if aim then (if left then fm3look_at_lh else fm3look_at_rh) eye target up else (if left then fm3look_to_lh else fm3look_to_rh) dir up in
    let b := if aim then (if left then fm3look_at_lh_inv else fm3look_at_rh_inv) eye target up else (if left then fm3look_to_lh_inv else fm3look_to_rh_inv) dir up in
    (24 <= prec)%Z -> (0 <= k)%Z -> (2 * (k + prec) + 13 <= emax)%Z ->
    (forall i, (i < 3)%nat -> is_finite (vat dir i) = true) -> (forall i, (i < 3)%nat -> is_finite (vat eye i) = true) ->
    (forall i, (i < 3)%nat -> is_finite (vat target i) = true) -> (forall i, (i < 3)%nat -> is_finite (vat up i) = true) ->
    bpow radix2 (- k) <= rlength 3 D <= bpow radix2 k -> bpow radix2 (- k) <= rlength 3 (fval up) <= bpow radix2 k -> 16384 * u <= s ->
    bpow radix2 (31 - emax) <= V <= bpow radix2 (emax - 31) -> (forall i, (i < 3)%nat -> is_finite (vat v i) = true) -> rlength 3 (fval v) <= V ->
    (forall i j, (i < 3)%nat -> (j < 3)%nat -> fnear (mget b j i) (f j i) (273 * u / s)) /\
    vfnear (mmulv b (mmulv a v)) (fval v) (2500 * u / s * V) /\ vfnear (mmulv a (mmulv b v)) (fval v) (2500 * u / s * V).
Proof. exact c158_inverse. Qed.
Print Assumptions C158_rotation_partial.

(** The viewing isometries and similarities give the coordinates of the point as seen from the eye.  Same range. *)
Theorem C158_isometry_partial :
  forall (prec emax : Z) (Hp : Prec_gt_0 prec) (He : Prec_lt_emax prec emax) (k : Z) (dir eye target up p : vec (binary_float prec emax) 3) (V : R) (aim left : bool),
    let u := bpow radix2 (- prec) in let D := fun i => if aim then fval target i - fval eye i else fval dir i in let s := rsine (fval up) D in
    let f := frame (fun i => if left then D i else - D i) (fval up) in
    let iso := if aim then (if left then fiso3look_at_lh else fiso3look_at_rh) eye target up else (if left then fiso3look_to_lh else fiso3look_to_rh) eye dir up in
    let sim := if aim then (if left then fsim3look_at_lh else fsim3look_at_rh) eye target up else (if left then fsim3look_to_lh else fsim3look_to_rh) eye dir up in
    (24 <= prec)%Z -> (0 <= k)%Z -> (2 * (k + prec) + 13 <= emax)%Z ->
    (forall i, (i < 3)%nat -> is_finite (vat dir i) = true) -> (forall i, (i < 3)%nat -> is_finite (vat eye i) = true) ->
    (forall i, (i < 3)%nat -> is_finite (vat target i) = true) -> (forall i, (i < 3)%nat -> is_finite (vat up i) = true) ->
    bpow radix2 (- k) <= rlength 3 D <= bpow radix2 k -> bpow radix2 (- k) <= rlength 3 (fval up) <= bpow radix2 k -> 16384 * u <= s ->
    bpow radix2 (31 - emax) <= V <= bpow radix2 (emax - 31) -> rlength 3 (fval eye) <= V -> (forall i, (i < 3)%nat -> is_finite (vat p i) = true) -> rlength 3 (fval p) <= V ->
    vfnear (iso_apply_point iso p) (fun i => rdot (f i) (fun j => fval p j - fval eye j)) (2250 * u / s * V) /\
    vfnear (sim_apply_point sim p) (fun i => rdot (f i) (fun j => fval p j - fval eye j)) (2250 * u / s * V).
Proof. exact c158_isometry. Qed.
Print Assumptions C158_isometry_partial.

(** What the `_inv` isometries and 4x4 matrices do: the rotation part is the inverse one, but the isometry rotates p - eye back instead of rotating p back and adding the eye, and the last column of the matrix holds the eye in the coordinates of the observer instead of the eye itself. *)
Theorem C158_isometry_inverse_partial :
  forall (prec emax : Z) (Hp : Prec_gt_0 prec) (He : Prec_lt_emax prec emax) (k : Z) (dir eye target up p : vec (binary_float prec emax) 3) (V : R) (aim left : bool),
    let u := bpow radix2 (- prec) in let D := fun i => if aim then fval target i - fval eye i else fval dir i in let s := rsine (fval up) D in
    let f := frame (fun i => if left then D i else - D i) (fval up) in
    let iso := if aim then (if left then fiso3look_at_lh_inv else fiso3look_at_rh_inv) eye target up else (if left then fiso3look_to_lh_inv else fiso3look_to_rh_inv) eye dir up in
    let m := if aim then (if left then fm4look_at_lh_inv else fm4look_at_rh_inv) eye target up else (if left then fm4look_to_lh_inv else fm4look_to_rh_inv) eye dir up in
    (24 <= prec)%Z -> (0 <= k)%Z -> (2 * (k + prec) + 13 <= emax)%Z ->
    (forall i, (i < 3)%nat -> is_finite (vat dir i) = true) -> (forall i, (i < 3)%nat -> is_finite (vat eye i) = true) ->
    (forall i, (i < 3)%nat -> is_finite (vat target i) = true) -> (forall i, (i < 3)%nat -> is_finite (vat up i) = true) ->
    bpow radix2 (- k) <= rlength 3 D <= bpow radix2 k -> bpow radix2 (- k) <= rlength 3 (fval up) <= bpow radix2 k -> 16384 * u <= s ->
    bpow radix2 (31 - emax) <= V <= bpow radix2 (emax - 31) -> rlength 3 (fval eye) <= V -> (forall i, (i < 3)%nat -> is_finite (vat p i) = true) -> rlength 3 (fval p) <= V ->
    vfnear (iso_apply_point iso p) (fun i => rdot (fun j => f j i) (fun j => fval p j - fval eye j)) (2250 * u / s * V) /\
    (forall i j, (i < 3)%nat -> (j < 3)%nat -> fnear (mget m j i) (f j i) (273 * u / s)) /\
    (forall i, (i < 3)%nat -> fnear (mget m 3 i) (rdot (fval eye) (f i)) (281 * u / s * V)) /\
    (forall j, (j < 3)%nat -> mget m j 3 = n0) /\ mget m 3 3 = n1.
Proof. exact c158_isometry_inverse. Qed.
Print Assumptions C158_isometry_inverse_partial.

(** In f64: the isometry `look_to_lh_inv` does not take back the image of a point under `look_to_lh`, and the product of the two 4x4 matrices has the entry -1 where the identity has 0. *)
Theorem C158_inverse_refuted :
  exists eye dir up p : vec f64 3,
    let q := iso_apply_point (fiso3look_to_lh_inv eye dir up) (iso_apply_point (fiso3look_to_lh eye dir up) p) in
    let m := mmul (fm4look_to_lh_inv eye dir up) (fm4look_to_lh eye dir up) in
    fval p 0%nat = 1 /\ fval q 0%nat = 0 /\ B2R (mget m 3 0) = -1.
Proof. exact c158_inverse_refuted. Qed.
Print Assumptions C158_inverse_refuted.

(** The direction (3, 4, 0), [up] = (0, 1, 0) and the eye (1, 2, 3) in f64 meet the hypotheses with k = 10 and V = 4. *)
Example C158_example :
  let dir := vz 3 4 0 in let up := vz 0 1 0 in let eye := vz 1 2 3 in
  (2 * (10 + 53) + 13 <= 1024)%Z /\ bpow radix2 (- 10) <= rlength 3 (fval dir) <= bpow radix2 10 /\ rsine (fval up) (fval dir) = 3 / 5 /\
  16384 * bpow radix2 (- 53) <= 3 / 5 /\ rlength 3 (fval eye) <= 4 /\ bpow radix2 (31 - 1024) <= 4 <= bpow radix2 (1024 - 31).
Proof. exact c158_example. Qed.
