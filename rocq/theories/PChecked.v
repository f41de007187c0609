(** Property theorems about integers with overflow checks (C121): [k_f] is the library function [f] of a debug build on
    [w]-bit integers (MChecked.v), [None] a panic. *)

From Coq Require Import Arith ZArith Bool.
From Verif Require Import Base Scalar Spec MInt MVector MMatrix MComplex MQuat MChecked LCheckedP.

(** ** C121 *)

(** A call that returns gives the exact mathematical result. *)
Theorem C121_never_wrong :
  forall (signed : bool) (w : positive) (r n c : nat),
    let I := wint signed w in
    (forall (u v t : vec I n), k_vadd u v = Some t ->
       forall i, (i < n)%nat -> wval (vat t i) = (wval (vat u i) + wval (vat v i))%Z) /\
    (forall (u v t : vec I n), k_vsub u v = Some t ->
       forall i, (i < n)%nat -> wval (vat t i) = (wval (vat u i) - wval (vat v i))%Z) /\
    (forall (u t : vec I n), k_vneg u = Some t ->
       forall i, (i < n)%nat -> wval (vat t i) = (- wval (vat u i))%Z) /\
    (forall (u t : vec I n) (a : I), k_vmul_s u a = Some t ->
       forall i, (i < n)%nat -> wval (vat t i) = (wval (vat u i) * wval a)%Z) /\
    (forall (u v : vec I n) (x : I), k_vdot u v = Some x ->
       wval x = sum n (fun i => (wval (vat u i) * wval (vat v i))%Z)) /\
    (forall (a b t : mat I r c), k_madd a b = Some t ->
       forall j i, (j < c)%nat -> (i < r)%nat -> wval (mget t j i) = (wval (mget a j i) + wval (mget b j i))%Z) /\
    (forall (a b t : mat I r c), k_msub a b = Some t ->
       forall j i, (j < c)%nat -> (i < r)%nat -> wval (mget t j i) = (wval (mget a j i) - wval (mget b j i))%Z) /\
    (forall (a : mat I r n) (b : mat I n c) (t : mat I r c), k_mmul a b = Some t ->
       forall j i, (j < c)%nat -> (i < r)%nat ->
         wval (mget t j i) = sum n (fun k => (wval (mget a k i) * wval (mget b j k))%Z)) /\
    (forall (a : mat I r c) (v : vec I c) (t : vec I r), k_mmulv a v = Some t ->
       forall i, (i < r)%nat -> wval (vat t i) = sum c (fun k => (wval (mget a k i) * wval (vat v k))%Z)) /\
    (forall (a : mat I n n) (x : I), k_mtrace a = Some x -> wval x = sum n (fun i => wval (mget a i i))).
Proof. exact c121_never_wrong. Qed.
Print Assumptions C121_never_wrong.

(** The same for determinants, cross products, complex numbers and quaternions. *)
Theorem C121_never_wrong_products :
  forall (signed : bool) (w : positive),
    let I := wint signed w in
    (forall (m : mat I 2 2) (x : I), k_m2det m = Some x -> wval x = laplace 2 (fun i j => wval (mget m j i))) /\
    (forall (m : mat I 3 3) (x : I), k_m3det m = Some x -> wval x = laplace 3 (fun i j => wval (mget m j i))) /\
    (forall (m : mat I 4 4) (x : I), k_m4det m = Some x -> wval x = laplace 4 (fun i j => wval (mget m j i))) /\
    (forall (u v t : vec I 3), k_vcross u v = Some t ->
       let a i := wval (vat u i) in let b i := wval (vat v i) in
       wval (vat t 0) = (a 1%nat * b 2%nat - a 2%nat * b 1%nat)%Z /\
       wval (vat t 1) = (a 2%nat * b 0%nat - a 0%nat * b 2%nat)%Z /\
       wval (vat t 2) = (a 0%nat * b 1%nat - a 1%nat * b 0%nat)%Z) /\
    (forall (z z' t : complex I), k_cmul z z' = Some t ->
       wval (re t) = (wval (re z) * wval (re z') - wval (im z) * wval (im z'))%Z /\
       wval (im t) = (wval (re z) * wval (im z') + wval (im z) * wval (re z'))%Z) /\
    (forall (p q t : quat I), k_qmul p q = Some t ->
       let a i := wval (vat (p : vec I 4) i) in let b i := wval (vat (q : vec I 4) i) in
       let d i := wval (vat (t : vec I 4) i) in
       (d 0%nat = a 0%nat * b 0%nat - a 1%nat * b 1%nat - a 2%nat * b 2%nat - a 3%nat * b 3%nat)%Z /\
       (d 1%nat = a 0%nat * b 1%nat + a 1%nat * b 0%nat + a 2%nat * b 3%nat - a 3%nat * b 2%nat)%Z /\
       (d 2%nat = a 0%nat * b 2%nat + a 2%nat * b 0%nat + a 3%nat * b 1%nat - a 1%nat * b 3%nat)%Z /\
       (d 3%nat = a 0%nat * b 3%nat + a 3%nat * b 0%nat + a 1%nat * b 2%nat - a 2%nat * b 1%nat)%Z).
Proof. exact c121_never_wrong_products. Qed.
Print Assumptions C121_never_wrong_products.

(** A call that returns gives the same value as the build without overflow checks. *)
Theorem C121_agrees_with_release :
  forall (signed : bool) (w : positive) (r n c : nat),
    let I := wint signed w in
    (forall (u v t : vec I n), k_vadd u v = Some t -> t = vadd u v) /\
    (forall (u v t : vec I n), k_vsub u v = Some t -> t = vsub u v) /\
    (forall (u t : vec I n), k_vneg u = Some t -> t = vneg u) /\
    (forall (u t : vec I n) (a : I), k_vmul_s u a = Some t -> t = vmul_s u a) /\
    (forall (u v : vec I n) (x : I), k_vdot u v = Some x -> x = vdot u v) /\
    (forall (u v t : vec I 3), k_vcross u v = Some t -> t = vcross u v) /\
    (forall (a b t : mat I r c), k_madd a b = Some t -> t = madd a b) /\
    (forall (a b t : mat I r c), k_msub a b = Some t -> t = msub a b) /\
    (forall (a : mat I r n) (b : mat I n c) (t : mat I r c), k_mmul a b = Some t -> t = mmul a b) /\
    (forall (a : mat I r c) (v : vec I c) (t : vec I r), k_mmulv a v = Some t -> t = mmulv a v) /\
    (forall (a : mat I n n) (x : I), k_mtrace a = Some x -> x = mtrace a) /\
    (forall (m : mat I 2 2) (x : I), k_m2det m = Some x -> x = m2det m) /\
    (forall (m : mat I 3 3) (x : I), k_m3det m = Some x -> x = m3det m) /\
    (forall (m : mat I 4 4) (x : I), k_m4det m = Some x -> x = m4det m) /\
    (forall (z z' t : complex I), k_cmul z z' = Some t -> t = cmul z z') /\
    (forall (p q t : quat I), k_qmul p q = Some t -> t = qmul p q).
Proof. exact c121_agrees_with_release. Qed.
Print Assumptions C121_agrees_with_release.

(** Addition, subtraction, negation and scaling panic exactly when the exact value of some component is outside the type. *)
Theorem C121_componentwise_panics_iff :
  forall (signed : bool) (w : positive) (n r c : nat),
    let I := wint signed w in
    (forall u v : vec I n, k_vadd u v = None <->
       exists i, (i < n)%nat /\ ~ wfits signed w (wval (vat u i) + wval (vat v i))) /\
    (forall u v : vec I n, k_vsub u v = None <->
       exists i, (i < n)%nat /\ ~ wfits signed w (wval (vat u i) - wval (vat v i))) /\
    (forall u : vec I n, k_vneg u = None <->
       exists i, (i < n)%nat /\ ~ wfits signed w (- wval (vat u i))) /\
    (forall (u : vec I n) (a : I), k_vmul_s u a = None <->
       exists i, (i < n)%nat /\ ~ wfits signed w (wval (vat u i) * wval a)) /\
    (forall a b : mat I r c, k_madd a b = None <->
       exists j i, (j < c)%nat /\ (i < r)%nat /\ ~ wfits signed w (wval (mget a j i) + wval (mget b j i))) /\
    (forall a b : mat I r c, k_msub a b = None <->
       exists j i, (j < c)%nat /\ (i < r)%nat /\ ~ wfits signed w (wval (mget a j i) - wval (mget b j i))).
Proof. exact c121_componentwise_panics_iff. Qed.
Print Assumptions C121_componentwise_panics_iff.

(** A dot product panics exactly when some product or some partial sum, taken in index order, is outside the type. *)
Theorem C121_dot_panics_iff :
  forall (signed : bool) (w : positive) (n : nat) (u v : vec (wint signed w) n),
    let p i := (wval (vat u i) * wval (vat v i))%Z in
    k_vdot u v = None <->
    exists i, (i < n)%nat /\ (~ wfits signed w (p i) \/ ~ wfits signed w (sum (S i) p)).
Proof. exact c121_dot_panics_iff. Qed.
Print Assumptions C121_dot_panics_iff.

(** The same for the entries of matrix products. *)
Theorem C121_matrix_product_panics_iff :
  forall (signed : bool) (w : positive) (r n c : nat) (a : mat (wint signed w) r n) (b : mat (wint signed w) n c)
    (v : vec (wint signed w) n),
    (k_mmul a b = None <->
     exists j i, (j < c)%nat /\ (i < r)%nat /\
       let p k := (wval (mget a k i) * wval (mget b j k))%Z in
       exists k, (k < n)%nat /\ (~ wfits signed w (p k) \/ ~ wfits signed w (sum (S k) p))) /\
    (k_mmulv a v = None <->
     exists i, (i < r)%nat /\
       let p k := (wval (mget a k i) * wval (vat v k))%Z in
       exists k, (k < n)%nat /\ (~ wfits signed w (p k) \/ ~ wfits signed w (sum (S k) p))).
Proof. exact c121_matrix_product_panics_iff. Qed.
Print Assumptions C121_matrix_product_panics_iff.

(** With unsigned components only the final value matters. *)
Theorem C121_unsigned_dot :
  forall (w : positive) (n : nat) (u v : vec (wint false w) n),
    k_vdot u v = None <-> (2 ^ Z.pos w <= sum n (fun i => wval (vat u i) * wval (vat v i)))%Z.
Proof. exact c121_unsigned_dot. Qed.
Print Assumptions C121_unsigned_dot.

(** No panic when the entries are small enough: signed [w]-bit integers, entries bounded by [a] and [b]. *)
Theorem C121_no_panic :
  forall (w : positive) (r n c : nat) (a b : Z),
    (0 <= a)%Z -> (0 <= b)%Z ->
    let I := wint true w in
    let top := (2 ^ (Z.pos w - 1))%Z in
    let vle {n} (u : vec I n) x := forall i, (i < n)%nat -> (Z.abs (wval (vat u i)) <= x)%Z in
    let mle {r c} (m : mat I r c) x := forall j i, (j < c)%nat -> (i < r)%nat -> (Z.abs (wval (mget m j i)) <= x)%Z in
    ((a + b < top)%Z -> forall u v : vec I n, vle u a -> vle v b -> k_vadd u v <> None /\ k_vsub u v <> None) /\
    ((Z.of_nat n * (a * b) < top)%Z ->
       (forall u v : vec I n, vle u a -> vle v b -> k_vdot u v <> None) /\
       (forall (x : mat I r n) (y : mat I n c), mle x a -> mle y b -> k_mmul x y <> None) /\
       (forall (x : mat I r n) (v : vec I n), mle x a -> vle v b -> k_mmulv x v <> None)) /\
    ((2 * (a * b) < top)%Z ->
       (forall u v : vec I 3, vle u a -> vle v b -> k_vcross u v <> None) /\
       (forall z z' : complex I, (Z.abs (wval (re z)) <= a)%Z -> (Z.abs (wval (im z)) <= a)%Z ->
          (Z.abs (wval (re z')) <= b)%Z -> (Z.abs (wval (im z')) <= b)%Z -> k_cmul z z' <> None)) /\
    ((4 * (a * b) < top)%Z -> forall p q : quat I, vle (p : vec I 4) a -> vle (q : vec I 4) b -> k_qmul p q <> None) /\
    ((2 * (a * a) < top)%Z -> forall m : mat I 2 2, mle m a -> k_m2det m <> None) /\
    ((1 <= a)%Z -> (6 * (a * a * a) < top)%Z -> forall m : mat I 3 3, mle m a -> k_m3det m <> None) /\
    ((1 <= a)%Z -> (24 * (a * a * a * a) < top)%Z -> forall m : mat I 4 4, mle m a -> k_m4det m <> None).
Proof. exact c121_no_panic. Qed.
Print Assumptions C121_no_panic.

(** [i8]: (100, -20) . (2, 5) has the value 100, which fits, but the first product 200 does not: the debug build panics
    where the release build returns 100.  The other two calls stay in range. *)
Example C121_dot_example :
  (let u := v2 (wof true 8 100) (wof true 8 (-20)) in let v := v2 (wof true 8 2) (wof true 8 5) in
   k_vdot u v = None /\ wval (vdot u v) = 100%Z) /\
  option_map wval (k_vdot (v2 (wof true 8 10) (wof true 8 (-20))) (v2 (wof true 8 2) (wof true 8 5))) = Some (-80)%Z /\
  option_map wval (k_vdot (v2 (wof false 8 15) (wof false 8 6)) (v2 (wof false 8 15) (wof false 8 5))) = Some 255%Z.
Proof. exact c121_dot_example. Qed.

(** Unsigned cross products panic on any negative component; [i8::MIN] has no negation; a 3x3 determinant in range. *)
Example C121_examples :
  k_vcross (v3 (wof false 32 1) (wof false 32 0) (wof false 32 0)) (v3 (wof false 32 0) (wof false 32 0) (wof false 32 1)) = None /\
  k_vneg (v1 (wof true 8 (-128))) = None /\ option_map (vmap wval) (k_vneg (v1 (wof true 8 127))) = Some (v1 (-127)%Z) /\
  k_vadd (v2 (wof true 8 100) (wof true 8 1)) (v2 (wof true 8 28) (wof true 8 1)) = None /\
  (forall m : mat (wint true 32) 3 3,
     (forall j i, (j < 3)%nat -> (i < 3)%nat -> (Z.abs (wval (mget m j i)) <= 700)%Z) -> k_m3det m <> None).
Proof. exact c121_examples. Qed.
