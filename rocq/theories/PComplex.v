(** Properties of complex numbers (C30-C38, and the complex parts of C10, C12, C90). *)

From Coq Require Import Arith Lia ZArith Bool Ring Field Reals Lra Qcanon.
From Verif Require Import Base Scalar Spec LBase MReal LReal MComplex LComplex LVectorR LComplexR.
Local Open Scope nat_scope.

Local Notation q x := (Q2Qc (QArith_base.inject_Z x)).

(** ** C30 *)
Theorem C30_ring_laws :
  forall (K : Type) (NK : Num K) (LK : RingLaws K) (x y z : complex K),
    cadd x y = cadd y x /\ cadd x (cadd y z) = cadd (cadd x y) z /\
    cadd czero x = x /\ cadd x (cneg x) = czero /\ csub x y = cadd x (cneg y) /\
    cmul x y = cmul y x /\ cmul x (cmul y z) = cmul (cmul x y) z /\
    cmul cone x = x /\ cmul (cadd x y) z = cadd (cmul x z) (cmul y z) /\
    cmul cunit_im cunit_im = cneg (@cone K NK) /\
    x = cadd (cfrom_real (re x)) (cmul cunit_im (cfrom_real (im x))).
Proof.
  intros. pose proof (@complex_ring_theory K NK LK) as T.
  conjs; [exact (Radd_comm T x y)|exact (Radd_assoc T x y z)|exact (Radd_0_l T x)
  |exact (Ropp_def T x)|exact (Rsub_def T x y)|exact (Rmul_comm T x y)|exact (Rmul_assoc T x y z)
  |exact (Rmul_1_l T x)|exact (Rdistr_l T x y z)|exact cunit_im_sq|exact (cparts x)].
Qed.
Print Assumptions C30_ring_laws.

Theorem C30_division_inverts_multiplication :
  forall (K : Type) (NK : Num K) (ND : NumDiv K) (FK : FieldLaws K) (z w : complex K),
    cmodulus_squared w <> n0 -> cmul (cdiv z w) w = z /\ cdiv (cmul z w) w = z.
Proof. intros K NK ND FK z w H. exact (conj (cdiv_mul z w H) (cmul_div z w H)). Qed.
Print Assumptions C30_division_inverts_multiplication.

(** Over the reals the side condition is just [w <> 0]. *)
Theorem C30_division_real :
  forall z w : complex R, w <> mkC 0%R 0%R ->
    cmul (cdiv z w) w = z /\ cdiv (cmul z w) w = z.
Proof.
  intros z w H. exact (conj (cdiv_mul z w (cms_nz w H)) (cmul_div z w (cms_nz w H))).
Qed.
Print Assumptions C30_division_real.

Theorem C30_conjugation_and_modulus :
  forall (K : Type) (NK : Num K) (LK : RingLaws K) (z w : complex K),
    cconj (cadd z w) = cadd (cconj z) (cconj w) /\
    cconj (cmul z w) = cmul (cconj z) (cconj w) /\
    cconj (cconj z) = z /\ cconj cone = @cone K NK /\
    cmodulus_squared (cmul z w) = nmul (cmodulus_squared z) (cmodulus_squared w) /\
    cmul z (cconj z) = mkC (cmodulus_squared z) n0.
Proof.
  intros. conjs; [exact (cconj_add z w)|exact (cconj_mul z w)|exact (cconj_invol z)
  |exact cconj_one|exact (cmodulus_squared_mul z w)|exact (cmul_conj z)].
Qed.
Print Assumptions C30_conjugation_and_modulus.

Theorem C30_modulus_real :
  forall z w : complex R,
    cnorm (cmul z w) = (cnorm z * cnorm w)%R /\ (0 <= cnorm z)%R /\
    (cnorm z = 0%R <-> z = mkC 0%R 0%R) /\ (cnorm (cadd z w) <= cnorm z + cnorm w)%R /\
    cnorm (cconj z) = cnorm z /\ (cnorm z * cnorm z = re z * re z + im z * im z)%R.
Proof.
  intros. conjs; [exact (cnorm_mul z w)|exact (cnorm_nonneg z)|exact (cnorm_zero z)
  |exact (cnorm_triangle z w)|exact (cnorm_conj z)|exact (cnorm_sq z)].
Qed.
Print Assumptions C30_modulus_real.

Example C30_example :
  cmul (mkC 1 2)%Z (mkC 3 4)%Z = (mkC (-5) 10)%Z /\
  cmodulus_squared (mkC 3 4)%Z = 25%Z /\
  cdiv (mkC (q 11) (q 2)) (mkC (q 1) (q 2)) = mkC (q 3) (q (-4)).
Proof. repeat split. apply complex_eq; apply Qc_is_canon; reflexivity. Qed.

(** ** C31 *)
Theorem C31_mul_assign :
  forall (K : Type) (NK : Num K) (LK : RingLaws K) (z w : complex K),
    cmul_assign z w = cmul z w.
Proof. intros. exact (cmul_assign_eq z w). Qed.
Print Assumptions C31_mul_assign.

(** Stated against the field meaning of the quotient, so a wrong order of the in-place updates
    would be visible. *)
Theorem C31_div_assign :
  forall (K : Type) (NK : Num K) (ND : NumDiv K) (FK : FieldLaws K) (z w : complex K),
    cdiv_assign z w = cdiv z w /\
    (cmodulus_squared w <> n0 -> cmul (cdiv_assign z w) w = z).
Proof. intros. exact (conj (cdiv_assign_eq z w) (cdiv_mul z w)). Qed.
Print Assumptions C31_div_assign.

Example C31_example : cmul_assign (mkC 1 2)%Z (mkC 3 4)%Z = (mkC (-5) 10)%Z.
Proof. reflexivity. Qed.

(** ** C32 *)
Theorem C32_scalar_complex_partial :
  forall (K : Type) (NK : Num K) (ND : NumDiv K) (FK : FieldLaws K) (s : K) (z : complex K),
    s_add_c s z = cadd (mkC s n0) z /\
    s_mul_c s z = cmul (mkC s n0) z /\
    (cmodulus_squared z <> n0 -> s_div_c s z = cdiv (mkC s n0) z) /\
    cadd_s z s = cadd z (mkC s n0) /\ csub_s z s = csub z (mkC s n0) /\
    cmul_s z s = cmul z (mkC s n0) /\ (s <> n0 -> cdiv_s z s = cdiv z (mkC s n0)) /\
    s_sub_c s z = cconj (csub (mkC s n0) z).
Proof.
  intros. pose proof (@field_ring K NK ND FK) as RK.
  conjs; [exact (s_add_c_eq s z)|exact (s_mul_c_eq s z)|exact (s_div_c_eq s z)
  |exact (cadd_s_eq z s)|exact (csub_s_eq z s)|exact (cmul_s_eq z s)|exact (cdiv_s_eq z s)
  |exact (s_sub_c_conj s z)].
Qed.
Print Assumptions C32_scalar_complex_partial.

(** [a - z] leaves the imaginary part un-negated: 1 - i evaluates to 1 + i. *)
Theorem C32_scalar_sub_refuted :
  exists (s : Z) (z : complex Z), s_sub_c s z <> csub (mkC s 0%Z) z.
Proof. exists 1%Z, (mkC 0%Z 1%Z). intros H. discriminate (f_equal im H). Qed.
Print Assumptions C32_scalar_sub_refuted.

Example C32_example : s_sub_c 1%Z (mkC 2 3)%Z = (mkC (-1) 3)%Z /\ s_mul_c 2%Z (mkC 2 3)%Z = (mkC 4 6)%Z.
Proof. split; reflexivity. Qed.

(** ** C33 *)
Theorem C33_powu :
  forall (K : Type) (NK : Num K) (LK : RingLaws K) (z : complex K) (m n : nat),
    cpowu z n = Some (cprod z n) /\
    (forall a b, cpowu z m = Some a -> cpowu z n = Some b ->
                 cpowu z (m + n) = Some (cmul a b)).
Proof.
  intros. split; [exact (cpowu_spec z n)|].
  intros a b. rewrite !cpowu_spec. intros [= <-] [= <-]. rewrite cprod_add. reflexivity.
Qed.
Print Assumptions C33_powu.

Example C33_example : cpowu (mkC 1 1)%Z 11 = Some (mkC (-32) 32)%Z /\ cprod (mkC 1 1)%Z 11 = (mkC (-32) 32)%Z.
Proof. split; reflexivity. Qed.

(** ** C34 *)
(** What [powi] computes for every exponent.  For n < 0 write n = -(2^k m) with m odd: the
    result is the 2^k-th power of the inverse, i.e. correct exactly when the odd part m of the
    exponent does not matter. *)
Theorem C34_powi_partial :
  forall (K : Type) (NK : Num K) (ND : NumDiv K) (FK : FieldLaws K) (z : complex K),
    (forall n : Z, (0 <= n)%Z -> cpowi z n = CPow (cprod z (Z.to_nat n))) /\
    (forall n : Z, (n < 0)%Z -> cmodulus_squared z = n0 -> cpowi z n = CPowNan) /\
    (forall k m : nat, Nat.odd m = true -> cmodulus_squared z <> n0 ->
       exists w, cpowi z (- Z.of_nat (2 ^ k * m)) = CPow w /\ cmul w (cprod z (2 ^ k)) = cone).
Proof. intros. exact (cpowi_all z). Qed.
Print Assumptions C34_powi_partial.

(** 2 ^ -3 is computed as 1/2. *)
Theorem C34_powi_negative_refuted :
  exists (z : complex Qc) (n : nat) (w : complex Qc),
    z <> mkC (q 0) (q 0) /\ cpowi z (- Z.of_nat n) = CPow w /\
    cmul w (cprod z n) <> mkC (q 1) (q 0).
Proof.
  exists (mkC (q 2) (q 0)), 3, (mkC (Q2Qc (QArith_base.Qmake 1 2)) (q 0)).
  split; [|split].
  - intros H. discriminate (f_equal (fun c => QArith_base.Qnum (this (re c))) H).
  - vm_compute. f_equal. apply complex_eq; apply Qc_is_canon; reflexivity.
  - intros H. discriminate (f_equal (fun c => QArith_base.Qnum (this (re c))) H).
Qed.
Print Assumptions C34_powi_negative_refuted.

Example C34_example :
  cpowi (mkC (q 1) (q 1)) 7 = CPow (mkC (q 8) (q (-8))) /\
  Nat.odd 3 = true /\ cmodulus_squared (mkC (q 2) (q 0)) <> q 0.
Proof.
  split; [|split]; [vm_compute; f_equal; apply complex_eq; apply Qc_is_canon; reflexivity
  |reflexivity|]. intros H. discriminate (f_equal (fun c => QArith_base.Qnum (this c)) H).
Qed.

Local Open Scope R_scope.

(** ** C35 *)
Theorem C35_exponential :
  forall z w : complex R,
    cexp (cadd z w) = cmul (cexp z) (cexp w) /\ cexp (mkC 0 0) = mkC 1 0 /\
    cnorm (cexp z) = exp (re z) /\
    cexp z = cmul (cfrom_real (exp (re z))) (ccis (im z)).
Proof.
  intros. conjs; [exact (cexp_add z w)|exact cexp_0|exact (cnorm_exp z)|exact (cexp_cis z)].
Qed.
Print Assumptions C35_exponential.

Theorem C35_logarithm :
  forall z : complex R,
    (z <> mkC 0 0 -> cexp (cln z) = z) /\
    - PI < im (cln z) <= PI /\
    (- PI < im z <= PI -> cln (cexp z) = z) /\
    cexp2 z = cexp (cmul_s z (ln 2)) /\
    (forall b, 0 < b -> b <> 1 -> z <> mkC 0 0 -> cexp (cmul_s (clog z b) (ln b)) = z) /\
    (z <> mkC 0 0 -> cexp2 (clog2 z) = z /\ cexp (cmul_s (clog10 z) (ln 10)) = z).
Proof.
  intros. conjs; [exact (cexp_ln z)|exact (proj1 (carg_range z))|exact (proj2 (carg_range z))
  |exact (cln_exp z)|exact (cexp2_spec z)|exact (clog_exp z)|exact (clog2_10_exp z)].
Qed.
Print Assumptions C35_logarithm.

Theorem C35_polar :
  forall z : complex R,
    cfrom_polar (fst (cpolar z)) (snd (cpolar z)) = z /\ 0 <= fst (cpolar z) /\
    - PI < snd (cpolar z) <= PI /\
    (forall r t, 0 < r -> - PI < t <= PI -> cpolar (cfrom_polar r t) = (r, t)).
Proof.
  intros. conjs; [exact (cfrom_polar_cpolar z)|exact (cnorm_nonneg z)|exact (proj1 (carg_range z))
  |exact (proj2 (carg_range z))|exact cpolar_from_polar].
Qed.
Print Assumptions C35_polar.

(** Real and complex powers through the logarithm. *)
Theorem C35_powers :
  forall (z a b : complex R) (s t : R), z <> mkC 0 0 ->
    cpowf z 1 = z /\ cpowf z (s + t) = cmul (cpowf z s) (cpowf z t) /\
    (forall n : nat, cpowf z (INR n) = cprod z n) /\
    cpowc z (mkC 1 0) = z /\ cpowc z (mkC 0 0) = mkC 1 0 /\
    cpowc z (cadd a b) = cmul (cpowc z a) (cpowc z b).
Proof.
  intros z a b s t H. conjs; [exact (cpowf_1 z H)|exact (cpowf_add z s t)|exact (cpowf_nat z H)
  |exact (cpowc_1 z H)|exact (cpowc_0 z)|exact (cpowc_add z a b)].
Qed.
Print Assumptions C35_powers.

Example C35_example :
  mkC 0 (-1) <> mkC 0 0 :> complex R /\ carg (mkC 0 (-1)) = - (PI / 2) /\
  - PI < PI <= PI /\ cpolar (mkC (-2) 0) = (2, PI).
Proof. exact c35_witness. Qed.

(** ** C36 *)
Theorem C36_roots :
  forall z : complex R,
    cmul (csqrt z) (csqrt z) = z /\ 0 <= re (csqrt z) /\
    (re (csqrt z) = 0 -> 0 <= im (csqrt z)) /\
    (forall w, cmul w w = z -> w = csqrt z \/ w = cneg (csqrt z)) /\
    cmul (cmul (ccbrt z) (ccbrt z)) (ccbrt z) = z.
Proof.
  intros. conjs; [exact (csqrt_sq z)|exact (csqrt_re_nonneg z)|exact (csqrt_im_nonneg z)
  |exact (csqrt_unique z)|exact (ccbrt_cube z)].
Qed.
Print Assumptions C36_roots.

Example C36_example : csqrt (mkC (-4) 0) = mkC 0 2.
Proof. exact c36_witness. Qed.

(** ** C37 *)
Theorem C37_exponential_definitions :
  forall z : complex R,
    let i := mkC 0 1 in let two := mkC 2 0 in
    ccosh z = cdiv (cadd (cexp z) (cexp (cneg z))) two /\
    csinh z = cdiv (csub (cexp z) (cexp (cneg z))) two /\
    ccos z = cdiv (cadd (cexp (cmul i z)) (cexp (cneg (cmul i z)))) two /\
    csin z = cdiv (csub (cexp (cmul i z)) (cexp (cneg (cmul i z)))) (cmul two i).
Proof. exact ctrig_exp. Qed.
Print Assumptions C37_exponential_definitions.

Theorem C37_pythagoras :
  forall z : complex R,
    cadd (cmul (ccos z) (ccos z)) (cmul (csin z) (csin z)) = mkC 1 0 /\
    csub (cmul (ccosh z) (ccosh z)) (cmul (csinh z) (csinh z)) = mkC 1 0.
Proof. intros. exact (conj (ccos2_csin2 z) (ccosh2_csinh2 z)). Qed.
Print Assumptions C37_pythagoras.

Theorem C37_tangents :
  forall z : complex R,
    (ccosh z <> mkC 0 0 -> ctanh z = cdiv (csinh z) (ccosh z)) /\
    (ccos z <> mkC 0 0 -> ctan z = cdiv (csin z) (ccos z)).
Proof. intros. exact (conj (ctanh_quotient z) (ctan_quotient z)). Qed.
Print Assumptions C37_tangents.

Theorem C37_inverse_functions :
  forall z : complex R,
    ccos (cacos z) = z /\ csin (casin z) = z /\ ccosh (cacosh z) = z /\ csinh (casinh z) = z.
Proof.
  intros. conjs; [exact (ccos_acos z)|exact (csin_asin z)|exact (ccosh_acosh z)
  |exact (csinh_asinh z)].
Qed.
Print Assumptions C37_inverse_functions.

(** [atanh] is infinite exactly at +-1 and [atan] exactly at +-i; elsewhere they are right
    inverses (and the value is not a pole of the function). *)
Theorem C37_inverse_tangents :
  forall z : complex R,
    (catanh z = None <-> z = mkC 1 0 \/ z = mkC (-1) 0) /\
    (forall w, catanh z = Some w -> ccosh w <> mkC 0 0 /\ ctanh w = z) /\
    (catan z = None <-> z = mkC 0 1 \/ z = mkC 0 (-1)) /\
    (forall w, catan z = Some w -> ccos w <> mkC 0 0 /\ ctan w = z).
Proof. exact catan_all. Qed.
Print Assumptions C37_inverse_tangents.

Example C37_example :
  ccosh (mkC 0 0) <> mkC 0 0 /\ (exists w, catan (mkC 2 0) = Some w) /\ ccos (mkC PI 0) = mkC (-1) 0.
Proof. exact c37_witness. Qed.

(** ** C38 *)
Theorem C38_try_inverse :
  forall z : complex R,
    (ctry_inverse z = None <-> z = mkC 0 0) /\
    (forall w, ctry_inverse z = Some w -> cmul z w = mkC 1 0 /\ cmul w z = mkC 1 0).
Proof. intros. exact (conj (ctry_inverse_noneR z) (ctry_inverse_some z)). Qed.
Print Assumptions C38_try_inverse.

(** One direction of the [is_invertible] claim holds for every positive threshold. *)
Theorem C38_is_invertible_partial :
  forall (z : complex R) (eps : R), 0 < eps ->
    cis_invertible_eps z eps = true -> exists w, ctry_inverse z = Some w.
Proof. exact cis_invertible_sound. Qed.
Print Assumptions C38_is_invertible_partial.

(** The other does not: whatever the threshold, some non-zero number with an inverse is
    reported as not invertible. *)
Theorem C38_is_invertible_refuted :
  forall eps : R, 0 < eps ->
    exists (z w : complex R), ctry_inverse z = Some w /\ cmul z w = mkC 1 0 /\
                              cis_invertible_eps z eps = false.
Proof. exact cis_invertible_incomplete. Qed.
Print Assumptions C38_is_invertible_refuted.

Example C38_example : ctry_inverse (mkC 0 2) = Some (mkC 0 (- (1 / 2))).
Proof. exact c38_witness. Qed.

(** ** Complex parts of C10, C12, C90 *)
Theorem C10_complex_normalize :
  forall (z : complex R) (threshold : R),
    (z <> mkC 0 0 -> cnorm (cnormalize z) = 1 /\ cscale (cnormalize z) (cnorm z) = z) /\
    (ctry_normalize z threshold = None <-> cnorm z <= threshold) /\
    (forall w, ctry_normalize z threshold = Some w -> w = cnormalize z).
Proof. exact cnormalize_all. Qed.
Print Assumptions C10_complex_normalize.

Theorem C12_complex_try_cast :
  forall (A B : Type) (conv : A -> option B) (z : complex A),
    (ctry_cast conv z = None <-> conv (re z) = None \/ conv (im z) = None) /\
    (forall w, ctry_cast conv z = Some w <-> conv (re z) = Some (re w) /\ conv (im z) = Some (im w)).
Proof. intros A B. exact (@ctry_cast_all A B). Qed.
Print Assumptions C12_complex_try_cast.

Theorem C90_complex_comparison_componentwise :
  forall (A T : Type) (cmp : A -> A -> T -> bool) (z w : complex A) (t : complex T) (u : T),
    (ccmp cmp z w t = true <-> cmp (re z) (re w) (re t) = true /\ cmp (im z) (im w) (im t) = true) /\
    (ccmp_all cmp z w u = true <-> cmp (re z) (re w) u = true /\ cmp (im z) (im w) u = true).
Proof. intros A T. exact (@ccmp_spec A T). Qed.
Print Assumptions C90_complex_comparison_componentwise.

Example C10_C12_C90_complex_example :
  cnorm (mkC 3 4) = 5 /\
  ctry_cast (fun z => if Z.ltb z 128 then Some z else None) (mkC 3 400)%Z = None /\
  ccmp_all (fun a b t => Z.leb (Z.abs (a - b)) t) (mkC 3 400)%Z (mkC 4 399)%Z 1%Z = true.
Proof. exact c10_c12_witness. Qed.
