(** Proofs for the values of the inverse complex functions at infinite arguments (C115). *)

From Coq Require Import ZArith Bool Reals Lra.
From Flocq Require Import Core.Core IEEE754.BinarySingleNaN.
From Verif Require Import Base Scalar MComplex MFloat MFloatVec MSign MComplexF.
Local Open Scope R_scope.

Lemma c115_infinite_values :
  forall (prec emax : Z) (Hp : Prec_gt_0 prec) (He : Prec_lt_emax prec emax) (L : libm (binary_float prec emax)) (s t : bool)
    (x : binary_float prec emax), is_finite x = true ->
    let inf (s : bool) : binary_float prec emax := B754_infinity s in
    let three := (1 + 1 + 1)%N_ in
    (let z := mkC (inf s) (inf t) in
       fc_acos L z = mkC (if s then three * m_frac_pi_4 L else m_frac_pi_4 L)%N_ (inf (negb t)) /\
       fc_acosh L z = mkC (inf false) (fset_sign t (if s then three * m_frac_pi_4 L else m_frac_pi_4 L)%N_) /\
       fc_asinh L z = mkC (inf s) (fset_sign t (m_frac_pi_4 L)) /\ fc_asin L z = mkC (fset_sign s (m_frac_pi_4 L)) (inf t)) /\
    (let z := mkC (inf s) x in
       (B2R x <> 0 -> fc_acos L z = mkC (if s then m_pi L else n0) (inf (negb (Bsign x)))) /\
       fc_acosh L z = mkC (inf false) (fset_sign (Bsign x) (if s then m_pi L else n0)) /\
       fc_asinh L z = mkC (inf s) (fset_sign (Bsign x) n0) /\ fc_asin L z = mkC (fset_sign s (m_frac_pi_2 L)) (inf (Bsign x))) /\
    (let z := mkC x (inf t) in
       fc_acos L z = mkC (m_frac_pi_2 L) (inf (negb t)) /\
       fc_acosh L z = mkC (inf false) (fset_sign t (m_frac_pi_2 L)) /\
       fc_asinh L z = mkC (inf (Bsign x)) (fset_sign t (m_frac_pi_2 L)) /\ fc_asin L z = mkC (fset_sign (Bsign x) n0) (inf t)).
Proof.
  intros prec emax Hp He L s t x Fx inf three.
  split; [|split].
  - destruct s, t; repeat split; reflexivity.
  - destruct x as [sx|sx| |sx m e E]; try discriminate Fx; cbv zeta.
    + split; [intros N; exfalso; apply N; reflexivity|]. destruct s, sx; repeat split; reflexivity.
    + split; [intros _; destruct s, sx; reflexivity|]. destruct s, sx; repeat split; reflexivity.
  - destruct x as [sx|sx| |sx m e E]; try discriminate Fx; cbv zeta; destruct t, sx; repeat split; reflexivity.
Qed.
