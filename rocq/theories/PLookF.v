(** Property theorems about viewing matrices in floats (C127). *)

From Coq Require Import Arith ZArith Reals.
From Flocq Require Import Core.Core IEEE754.BinarySingleNaN.
From Verif Require Import Base Scalar Spec SpecF SpecRigid SpecLook MVector MMatrix MPoint MFloat MLookF LFloatNormP LLookFP LLookGP.
Local Open Scope R_scope.

(** ** C127 *)

(** The frame of the specification is the one the documentation describes: three orthonormal right-handed axes, the third along
    the direction, the first at right angles to [up], and [up] on the positive side of the second. *)
Theorem C127_frame :
  forall d up : nat -> R, 0 < rlength 3 (rcross up d) ->
  (forall i j, (i < 3)%nat -> (j < 3)%nat -> rdot (frame d up i) (frame d up j) = if Nat.eqb i j then 1 else 0) /\
  (forall i, (i < 3)%nat -> rcross (frame d up 1) (frame d up 2) i = frame d up 0 i) /\
  rdot (frame d up 2) d = rlength 3 d /\ rdot (frame d up 0) up = 0 /\ 0 < rdot (frame d up 1) up.
Proof. exact c127_frame. Qed.
Print Assumptions C127_frame.

(** [Matrix3x3::look_to_lh] and [look_to_rh] in a format of at least the precision of [f32]: when the direction and [up] enclose
    an angle of sine s, every entry is within 273 units of roundoff divided by s of the exact frame (right-handed: of the frame
    of the opposite direction).  What is missing from the full property is the case of nearly parallel vectors, where it is false. *)
Theorem C127_look_to_partial :
  forall (prec emax : Z) (Hp : Prec_gt_0 prec) (He : Prec_lt_emax prec emax) (k : Z) (d up : vec (binary_float prec emax) 3),
    let u := bpow radix2 (- prec) in let s := rsine (fval up) (fval d) in
    (24 <= prec)%Z -> (0 <= k)%Z -> (2 * (k + prec) + 13 <= emax)%Z ->
    (forall i, (i < 3)%nat -> is_finite (vat d i) = true) -> (forall i, (i < 3)%nat -> is_finite (vat up i) = true) ->
    bpow radix2 (- k) <= rlength 3 (fval d) <= bpow radix2 k -> bpow radix2 (- k) <= rlength 3 (fval up) <= bpow radix2 k ->
    1024 * u <= s ->
    forall i j, (i < 3)%nat -> (j < 3)%nat ->
      fnear (mget (fm3look_to_lh d up) j i) (frame (fval d) (fval up) i j) (273 * u / s) /\
      fnear (mget (fm3look_to_rh d up) j i) (frame (fun a => - fval d a) (fval up) i j) (273 * u / s).
Proof. exact c127_look_to. Qed.
Print Assumptions C127_look_to_partial.

(** [Matrix3x3::look_at_lh] and [look_at_rh]: the same with the exact difference of target and eye as the direction. *)
Theorem C127_look_at_partial :
  forall (prec emax : Z) (Hp : Prec_gt_0 prec) (He : Prec_lt_emax prec emax) (k : Z) (eye target up : vec (binary_float prec emax) 3),
    let u := bpow radix2 (- prec) in let D := fun i => fval target i - fval eye i in let s := rsine (fval up) D in
    (24 <= prec)%Z -> (0 <= k)%Z -> (2 * (k + prec) + 13 <= emax)%Z ->
    (forall i, (i < 3)%nat -> is_finite (vat eye i) = true) -> (forall i, (i < 3)%nat -> is_finite (vat target i) = true) ->
    (forall i, (i < 3)%nat -> is_finite (vat up i) = true) ->
    bpow radix2 (- k) <= rlength 3 D <= bpow radix2 k -> bpow radix2 (- k) <= rlength 3 (fval up) <= bpow radix2 k ->
    1024 * u <= s ->
    forall i j, (i < 3)%nat -> (j < 3)%nat ->
      fnear (mget (fm3look_at_lh eye target up) j i) (frame D (fval up) i j) (273 * u / s) /\
      fnear (mget (fm3look_at_rh eye target up) j i) (frame (fun a => - D a) (fval up) i j) (273 * u / s).
Proof. exact c127_look_at. Qed.
Print Assumptions C127_look_at_partial.

(** The rows of the matrix are unit vectors to 25 units of roundoff whatever s is; the second row is at right angles to the others
    to 44 units; the first and third rows are at right angles to 124 units divided by s. *)
Theorem C127_orthonormal_partial :
  forall (prec emax : Z) (Hp : Prec_gt_0 prec) (He : Prec_lt_emax prec emax) (k : Z) (d up : vec (binary_float prec emax) 3)
    (m : mat (binary_float prec emax) 3 3),
    let u := bpow radix2 (- prec) in let s := rsine (fval up) (fval d) in
    let row := fun i j => B2R (mget m j i) in
    (24 <= prec)%Z -> (0 <= k)%Z -> (2 * (k + prec) + 13 <= emax)%Z ->
    (forall i, (i < 3)%nat -> is_finite (vat d i) = true) -> (forall i, (i < 3)%nat -> is_finite (vat up i) = true) ->
    bpow radix2 (- k) <= rlength 3 (fval d) <= bpow radix2 k -> bpow radix2 (- k) <= rlength 3 (fval up) <= bpow radix2 k ->
    1024 * u <= s ->
    m = fm3look_to_lh d up \/ m = fm3look_to_rh d up ->
    (forall i, (i < 3)%nat -> Rabs (rlength 3 (row i) - 1) <= 25 * u) /\
    Rabs (rdot (row 0%nat) (row 1%nat)) <= 44 * u /\ Rabs (rdot (row 1%nat) (row 2%nat)) <= 44 * u /\
    Rabs (rdot (row 0%nat) (row 2%nat)) <= 124 * u / s.
Proof. exact c127_orthonormal. Qed.
Print Assumptions C127_orthonormal_partial.

(** [Matrix4x4::look_to_lh] and [look_to_rh]: the same for the upper left block; the last column takes the eye to the origin up
    to 281 units over s relative to a bound V of its length; the last row is exact. *)
Theorem C127_look_to_4x4_partial :
  forall (prec emax : Z) (Hp : Prec_gt_0 prec) (He : Prec_lt_emax prec emax) (k : Z) (eye d up : vec (binary_float prec emax) 3) (V : R)
    (m : mat (binary_float prec emax) 4 4) (f : nat -> nat -> R),
    let u := bpow radix2 (- prec) in let s := rsine (fval up) (fval d) in
    (24 <= prec)%Z -> (0 <= k)%Z -> (2 * (k + prec) + 13 <= emax)%Z ->
    (forall i, (i < 3)%nat -> is_finite (vat eye i) = true) -> (forall i, (i < 3)%nat -> is_finite (vat d i) = true) ->
    (forall i, (i < 3)%nat -> is_finite (vat up i) = true) ->
    bpow radix2 (- k) <= rlength 3 (fval d) <= bpow radix2 k -> bpow radix2 (- k) <= rlength 3 (fval up) <= bpow radix2 k ->
    1024 * u <= s ->
    bpow radix2 (31 - emax) <= V <= bpow radix2 (emax - 31) -> rlength 3 (fval eye) <= V ->
    m = fm4look_to_lh eye d up /\ f = frame (fval d) (fval up) \/
    m = fm4look_to_rh eye d up /\ f = frame (fun a => - fval d a) (fval up) ->
    (forall i j, (i < 3)%nat -> (j < 3)%nat -> fnear (mget m j i) (f i j) (273 * u / s)) /\
    (forall i, (i < 3)%nat -> fnear (mget m 3 i) (- rdot (fval eye) (f i)) (281 * u / s * V)) /\
    (forall j, (j < 3)%nat -> mget m j 3 = n0) /\ mget m 3 3 = n1.
Proof. exact c127_look_to_4x4. Qed.
Print Assumptions C127_look_to_4x4_partial.

(** [Matrix4x4::look_at_lh] and [look_at_rh]. *)
Theorem C127_look_at_4x4_partial :
  forall (prec emax : Z) (Hp : Prec_gt_0 prec) (He : Prec_lt_emax prec emax) (k : Z) (eye target up : vec (binary_float prec emax) 3) (V : R)
    (m : mat (binary_float prec emax) 4 4) (f : nat -> nat -> R),
    let u := bpow radix2 (- prec) in let D := fun i => fval target i - fval eye i in let s := rsine (fval up) D in
    (24 <= prec)%Z -> (0 <= k)%Z -> (2 * (k + prec) + 13 <= emax)%Z ->
    (forall i, (i < 3)%nat -> is_finite (vat eye i) = true) -> (forall i, (i < 3)%nat -> is_finite (vat target i) = true) ->
    (forall i, (i < 3)%nat -> is_finite (vat up i) = true) ->
    bpow radix2 (- k) <= rlength 3 D <= bpow radix2 k -> bpow radix2 (- k) <= rlength 3 (fval up) <= bpow radix2 k ->
    1024 * u <= s ->
    bpow radix2 (31 - emax) <= V <= bpow radix2 (emax - 31) -> rlength 3 (fval eye) <= V ->
    m = fm4look_at_lh eye target up /\ f = frame D (fval up) \/
    m = fm4look_at_rh eye target up /\ f = frame (fun a => - D a) (fval up) ->
    (forall i j, (i < 3)%nat -> (j < 3)%nat -> fnear (mget m j i) (f i j) (273 * u / s)) /\
    (forall i, (i < 3)%nat -> fnear (mget m 3 i) (- rdot (fval eye) (f i)) (281 * u / s * V)) /\
    (forall j, (j < 3)%nat -> mget m j 3 = n0) /\ mget m 3 3 = n1.
Proof. exact c127_look_4x4. Qed.
Print Assumptions C127_look_at_4x4_partial.

(** For a direction and an [up] that are not parallel the first row can be NaN in [f64]: (7, 6, 0) against the same direction
    moved by one unit in the last place. *)
Theorem C127_nan_refuted :
  exists d up : vec f64 3,
    (forall i, (i < 3)%nat -> is_finite (vat d i) = true) /\ (forall i, (i < 3)%nat -> is_finite (vat up i) = true) /\
    0 < rlength 3 (rcross (fval up) (fval d)) /\
    forall j, (j < 3)%nat -> mget (fm3look_to_lh d up) j 0 = B754_nan /\ mget (fm3look_to_rh d up) j 0 = B754_nan.
Proof. exact c127_nan_refuted. Qed.
Print Assumptions C127_nan_refuted.

(** For a direction and an [up] that are not parallel all entries can be finite and the first and third rows far from
    orthogonal. *)
Theorem C127_orthonormal_refuted :
  exists d up : vec f64 3,
    let m := fm3look_to_lh d up in
    (forall i, (i < 3)%nat -> is_finite (vat d i) = true) /\ (forall i, (i < 3)%nat -> is_finite (vat up i) = true) /\
    0 < rlength 3 (rcross (fval up) (fval d)) /\
    (forall i j, (i < 3)%nat -> (j < 3)%nat -> is_finite (mget m j i) = true) /\
    / 2 < Rabs (rdot (fun j => B2R (mget m j 0)) (fun j => B2R (mget m j 2))).
Proof. exact c127_orthonormal_refuted. Qed.
Print Assumptions C127_orthonormal_refuted.

(** The hypotheses hold, with k = 10, for the direction (3, 4, 0) and [up] = (0, 1, 0). *)
Example C127_example :
  let d := vz 3 4 0 in let up := vz 0 1 0 in
  (forall i, (i < 3)%nat -> is_finite (vat d i) = true) /\ (forall i, (i < 3)%nat -> is_finite (vat up i) = true) /\
  (2 * (10 + 53) + 13 <= 1024)%Z /\
  bpow radix2 (- 10) <= rlength 3 (fval d) <= bpow radix2 10 /\ bpow radix2 (- 10) <= rlength 3 (fval up) <= bpow radix2 10 /\
  rsine (fval up) (fval d) = 3 / 5 /\ 1024 * bpow radix2 (- 53) <= 3 / 5 /\
  frame (fval d) (fval up) 0 2 = -1 /\ frame (fval d) (fval up) 1 1 = 3 / 5 /\ frame (fval d) (fval up) 2 1 = 4 / 5.
Proof. exact c127_example. Qed.
