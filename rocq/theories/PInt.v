(** Property theorems about scalars that wrap around (C89): [wint signed w] is the type of [w]-bit
    integers with arithmetic modulo 2^w (MInt.v), [wof] the truncating conversion from the unbounded
    integers. *)

From Coq Require Import List Arith ZArith.
From Verif Require Import Base Scalar Spec MVector MMatrix MQuat MInt LInt LIntP.
Import ListNotations.

(** ** C89 *)

(** The operations are the integer operations modulo 2^w on values in the range of the type. *)
Theorem C89_scalar_ring :
  forall (signed : bool) (w : positive),
    (forall x y : wint signed w,
       (wval (nadd x y) - (wval x + wval y)) mod (2 ^ Z.pos w) = 0 /\
       (wval (nsub x y) - (wval x - wval y)) mod (2 ^ Z.pos w) = 0 /\
       (wval (nmul x y) - (wval x * wval y)) mod (2 ^ Z.pos w) = 0 /\
       (wval (nneg x) - (- wval x)) mod (2 ^ Z.pos w) = 0)%Z /\
    (forall x : wint true w, (- 2 ^ (Z.pos w - 1) <= wval x < 2 ^ (Z.pos w - 1))%Z) /\
    (forall x : wint false w, (0 <= wval x < 2 ^ Z.pos w)%Z) /\
    RingLaws (wint signed w).
Proof. exact c89_scalar_ring. Qed.
Print Assumptions C89_scalar_ring.

Theorem C89_vector_laws :
  forall (signed : bool) (w : positive) (n : nat) (u v z : vec (wint signed w) n) (a b : wint signed w),
    vadd u v = vadd v u /\ vadd u (vadd v z) = vadd (vadd u v) z /\ vadd u (vneg u) = vzero n /\
    vsub u v = vadd u (vneg v) /\ vmul_s (vadd u v) a = vadd (vmul_s u a) (vmul_s v a) /\
    vmul_s u (nadd a b) = vadd (vmul_s u a) (vmul_s u b) /\ vmul_s (vmul_s u a) b = vmul_s u (nmul a b) /\
    vdot u v = vdot v u /\ vdot (vadd u v) z = nadd (vdot u z) (vdot v z).
Proof. exact c89_vector_laws. Qed.
Print Assumptions C89_vector_laws.

Theorem C89_matrix_laws :
  forall (signed : bool) (w : positive) (r n m c : nat) (a a' : mat (wint signed w) r n)
    (b b' : mat (wint signed w) n m) (d : mat (wint signed w) m c) (v : vec (wint signed w) m),
    mmul (mmul a b) d = mmul a (mmul b d) /\ mmul (madd a a') b = madd (mmul a b) (mmul a' b) /\
    mmul a (madd b b') = madd (mmul a b) (mmul a b') /\ mmul (midentity r) a = a /\
    mmul a (midentity n) = a /\ mmulv (mmul a b) v = mmulv a (mmulv b v) /\
    mtranspose (mmul a b) = mmul (mtranspose b) (mtranspose a).
Proof. exact c89_matrix_laws. Qed.
Print Assumptions C89_matrix_laws.

Theorem C89_determinant_quaternion_laws :
  forall (signed : bool) (w : positive) (b b' : mat (wint signed w) 2 2) (c c' : mat (wint signed w) 3 3)
    (d d' : mat (wint signed w) 4 4) (p q r : quat (wint signed w)),
    m2det (mmul b b') = nmul (m2det b) (m2det b') /\ m3det (mmul c c') = nmul (m3det c) (m3det c') /\
    m4det (mmul d d') = nmul (m4det d) (m4det d') /\
    qmul p (qmul q r) = qmul (qmul p q) r /\ qmul (qadd p q) r = qadd (qmul p r) (qmul q r) /\
    qmul p (qadd q r) = qadd (qmul p q) (qmul p r) /\
    qnorm_squared (qmul p q) = nmul (qnorm_squared p) (qnorm_squared q).
Proof. exact c89_determinant_quaternion_laws. Qed.
Print Assumptions C89_determinant_quaternion_laws.

(** Truncating the inputs and computing with machine integers gives the truncated exact result;
    overflow of intermediate values does not matter. *)
Theorem C89_reduction :
  forall (signed : bool) (w : positive) (r n c : nat) (u v : vec Z n) (a : mat Z r n) (b : mat Z n c)
    (m2 : mat Z 2 2) (m3 : mat Z 3 3) (m4 : mat Z 4 4) (p q : quat Z) (s : Z),
    let h := wof signed w in
    vadd (vector_map h u) (vector_map h v) = vector_map h (vadd u v) /\
    vmul_s (vector_map h u) (h s) = vector_map h (vmul_s u s) /\
    vdot (vector_map h u) (vector_map h v) = h (vdot u v) /\
    mmulv (mmap n0 n0 h a) (vector_map h u) = vector_map h (mmulv a u) /\
    mmul (mmap n0 n0 h a) (mmap n0 n0 h b) = mmap n0 n0 h (mmul a b) /\
    m2det (mmap n0 n0 h m2) = h (m2det m2) /\ m3det (mmap n0 n0 h m3) = h (m3det m3) /\
    m4det (mmap n0 n0 h m4) = h (m4det m4) /\
    qmul (vector_map h p : quat (wint signed w)) (vector_map h q) = vector_map h (qmul p q).
Proof. exact c89_reduction. Qed.
Print Assumptions C89_reduction.

(** Hence a result that fits the type is exact, even if intermediate values overflowed. *)
Theorem C89_exact_when_it_fits :
  forall (signed : bool) (w : positive) (r n c : nat) (a : mat (wint signed w) r n)
    (b : mat (wint signed w) n c) (u v : vec (wint signed w) n) (m4 : mat (wint signed w) 4 4) (i j : nat),
    (j < c)%nat -> (i < r)%nat ->
    let zm {r c} (m : mat (wint signed w) r c) : mat Z r c := mmap n0 n0 wval m in
    let zv {n} (x : vec (wint signed w) n) : vec Z n := vector_map wval x in
    (wfits signed w (mget (mmul (zm a) (zm b)) j i) ->
       wval (mget (mmul a b) j i) = mget (mmul (zm a) (zm b)) j i) /\
    (wfits signed w (vdot (zv u) (zv v)) -> wval (vdot u v) = vdot (zv u) (zv v)) /\
    (wfits signed w (m4det (zm m4)) -> wval (m4det m4) = m4det (zm m4)).
Proof. exact c89_exact_when_it_fits. Qed.
Print Assumptions C89_exact_when_it_fits.

(** [i8]: 100 + 100 wraps to -56, but 100 + 100 - 120 is exact; [u8]: 0 - 1 = 255. *)
Example C89_example :
  wval (nadd (wof true 8 100) (wof true 8 100)) = (-56)%Z /\
  wval (nsub (nadd (wof true 8 100) (wof true 8 100)) (wof true 8 120)) = 80%Z /\
  wval (vdot (v2 (wof true 8 100) (wof true 8 (-20))) (v2 (wof true 8 2) (wof true 8 5))) = 100%Z /\
  wval (nsub (wof false 8 0) (wof false 8 1)) = 255%Z.
Proof. exact c89_example. Qed.
