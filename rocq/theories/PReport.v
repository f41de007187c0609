(** Property theorems about the reports of failed approximate assertions (C150). *)

From Coq Require Import List Arith ZArith Reals.
From Flocq Require Import Core.Core IEEE754.BinarySingleNaN.
From Verif Require Import Base Scalar MVector MMatrix MComplex MQuat MTransform MMisc MApprox SpecApprox MReport SpecReport LReport.
Import ListNotations.
Local Open Scope R_scope.

(** ** C150 *)

(** The components of the reported difference are the differences of the components, in order.  [f] is the scalar helper of approx_cmp. *)
Theorem C150_differences :
  forall (K D : Type) (f : K -> K -> D),
  (forall n (x y : vec K n), vcomps (vdiff f x y) = zip2 f (vcomps x) (vcomps y)) /\
  (forall n (x y : vec K n), vcomps (pdiff f x y) = zip2 f (vcomps x) (vcomps y)) /\
  (forall x y : quat K, @vcomps D 4 (qdiff f x y) = zip2 f (@vcomps K 4 x) (@vcomps K 4 y)) /\
  (forall r c (x y : mat K r c), mcomps (mdiff f x y) = zip2 f (mcomps x) (mcomps y)) /\
  (forall x y : complex K, ccomps (cdiff f x y) = zip2 f (ccomps x) (ccomps y)) /\
  (forall x y : K * K * K, eucomps (eudiff f x y) = zip2 f (eucomps x) (eucomps y)) /\
  (forall n (x y : reflection K n), recomps (rediff f x y) = zip2 f (recomps x) (recomps y)) /\
  (forall n (x y : shear K n), shcomps (shdiff f x y) = zip2 f (shcomps x) (shcomps y)) /\
  (forall n (x y : isometry K n), isocomps (isodiff f x y) = zip2 f (isocomps x) (isocomps y)) /\
  (forall n (x y : similarity K n), simcomps (simdiff f x y) = zip2 f (simcomps x) (simcomps y)).
Proof. exact c150_differences. Qed.
Print Assumptions C150_differences.

(** The components of the reported tolerance come from the components of the two values and of the given tolerance. *)
Theorem C150_tolerances :
  forall (K T E : Type) (h : K -> K -> T -> E),
  (forall n (x y : vec K n) t, vcomps (vtol h x y t) = zip3 h (vcomps x) (vcomps y) (vcomps t)) /\
  (forall n (x y : vec K n) t, vcomps (ptol h x y t) = zip3 h (vcomps x) (vcomps y) (vcomps t)) /\
  (forall (x y : quat K) t, @vcomps E 4 (qtol h x y t) = zip3 h (@vcomps K 4 x) (@vcomps K 4 y) (@vcomps T 4 t)) /\
  (forall r c (x y : mat K r c) t, mcomps (mtol h x y t) = zip3 h (mcomps x) (mcomps y) (mcomps t)) /\
  (forall (x y : complex K) t, ccomps (ctol h x y t) = zip3 h (ccomps x) (ccomps y) (ccomps t)) /\
  (forall (x y : K * K * K) t, eucomps (eutol h x y t) = zip3 h (eucomps x) (eucomps y) (eucomps t)) /\
  (forall n (x y : reflection K n) t, recomps (retol h x y t) = zip3 h (recomps x) (recomps y) (recomps t)) /\
  (forall n (x y : shear K n) t, shcomps (shtol h x y t) = zip3 h (shcomps x) (shcomps y) (shcomps t)) /\
  (forall n (x y : isometry K n) t, isocomps (isotol h x y t) = zip3 h (isocomps x) (isocomps y) (isocomps t)) /\
  (forall n (x y : similarity K n) t, simcomps (simtol h x y t) = zip3 h (simcomps x) (simcomps y) (simcomps t)).
Proof. exact c150_tolerances. Qed.
Print Assumptions C150_tolerances.

(** With one scalar tolerance, every component is reported with that tolerance. *)
Theorem C150_all_tolerances :
  forall (K T E : Type) (h : K -> K -> T -> E) (t : T),
  let g := fun a b => h a b t in
  (forall n (x y : vec K n), vcomps (vtol_all h x y t) = zip2 g (vcomps x) (vcomps y)) /\
  (forall n (x y : vec K n), vcomps (ptol_all h x y t) = zip2 g (vcomps x) (vcomps y)) /\
  (forall x y : quat K, @vcomps E 4 (qtol_all h x y t) = zip2 g (@vcomps K 4 x) (@vcomps K 4 y)) /\
  (forall r c (x y : mat K r c), mcomps (mtol_all h x y t) = zip2 g (mcomps x) (mcomps y)) /\
  (forall x y : complex K, ccomps (ctol_all h x y t) = zip2 g (ccomps x) (ccomps y)) /\
  (forall x y : K * K * K, eucomps (eutol_all h x y t) = zip2 g (eucomps x) (eucomps y)) /\
  (forall n (x y : reflection K n), recomps (retol_all h x y t) = zip2 g (recomps x) (recomps y)) /\
  (forall n (x y : shear K n), shcomps (shtol_all h x y t) = zip2 g (shcomps x) (shcomps y)) /\
  (forall n (x y : isometry K n), isocomps (isotol_all h x y t) = zip2 g (isocomps x) (isocomps y)) /\
  (forall n (x y : similarity K n), simcomps (simtol_all h x y t) = zip2 g (simcomps x) (simcomps y)).
Proof. exact c150_all_tolerances. Qed.
Print Assumptions C150_all_tolerances.

(** If the scalar comparison is a test [chk] of the scalar reports, a comparison of composite values fails exactly if its report has a position where that test fails ([relative_eq], [ulps_eq]; with a test that ignores two of its arguments, [abs_diff_eq]). *)
Theorem C150_failure_is_shown :
  forall (K T U D D' E E' : Type) (d : K) (dt : T) (du : U)
    (f : K -> K -> D) (g : K -> K -> D') (h : K -> K -> T -> E) (k : K -> K -> U -> E')
    (chk : D -> D' -> E -> E' -> bool) (cmp : K -> K -> T -> U -> bool),
  (forall a b t w, cmp a b t w = chk (f a b) (g a b) (h a b t) (k a b w)) ->
  (forall n (x y : vec K n) t w, vapprox d dt du cmp x y t w = false <->
     bad_position chk (vcomps (vdiff f x y)) (vcomps (vdiff g x y)) (vcomps (vtol h x y t)) (vcomps (vtol k x y w))) /\
  (forall n (x y : vec K n) t w, papprox d dt du cmp x y t w = false <->
     bad_position chk (vcomps (pdiff f x y)) (vcomps (pdiff g x y)) (vcomps (ptol h x y t)) (vcomps (ptol k x y w))) /\
  (forall (x y : quat K) t w, qapprox d dt du cmp x y t w = false <->
     bad_position chk (@vcomps D 4 (qdiff f x y)) (@vcomps D' 4 (qdiff g x y))
       (@vcomps E 4 (qtol h x y t)) (@vcomps E' 4 (qtol k x y w))) /\
  (forall r c (x y : mat K r c) t w, mapprox d dt du cmp x y t w = false <->
     bad_position chk (mcomps (mdiff f x y)) (mcomps (mdiff g x y)) (mcomps (mtol h x y t)) (mcomps (mtol k x y w))) /\
  (forall (x y : complex K) t w, capprox cmp x y t w = false <->
     bad_position chk (ccomps (cdiff f x y)) (ccomps (cdiff g x y)) (ccomps (ctol h x y t)) (ccomps (ctol k x y w))) /\
  (forall (x y : K * K * K) t w, euapprox cmp x y t w = false <->
     bad_position chk (eucomps (eudiff f x y)) (eucomps (eudiff g x y)) (eucomps (eutol h x y t)) (eucomps (eutol k x y w))) /\
  (forall n (x y : reflection K n) t w, reapprox d dt du cmp x y t w = false <->
     bad_position chk (recomps (rediff f x y)) (recomps (rediff g x y)) (recomps (retol h x y t)) (recomps (retol k x y w))) /\
  (forall n (x y : shear K n) t w, shapprox d dt du cmp x y t w = false <->
     bad_position chk (shcomps (shdiff f x y)) (shcomps (shdiff g x y)) (shcomps (shtol h x y t)) (shcomps (shtol k x y w))) /\
  (forall n (x y : isometry K n) t w, isoapprox d dt du cmp x y t w = false <->
     bad_position chk (isocomps (isodiff f x y)) (isocomps (isodiff g x y))
       (isocomps (isotol h x y t)) (isocomps (isotol k x y w))) /\
  (forall n (x y : similarity K n) t w, simapprox d dt du cmp x y t w = false <->
     bad_position chk (simcomps (simdiff f x y)) (simcomps (simdiff g x y))
       (simcomps (simtol h x y t)) (simcomps (simtol k x y w))).
Proof. exact c150_failure_is_shown. Qed.
Print Assumptions C150_failure_is_shown.

(** The same with one scalar tolerance. *)
Theorem C150_all_failure_is_shown :
  forall (K T U D D' E E' : Type) (d : K)
    (f : K -> K -> D) (g : K -> K -> D') (h : K -> K -> T -> E) (k : K -> K -> U -> E') (t : T) (w : U)
    (chk : D -> D' -> E -> E' -> bool) (cmp : K -> K -> T -> U -> bool),
  (forall a b, cmp a b t w = chk (f a b) (g a b) (h a b t) (k a b w)) ->
  (forall n (x y : vec K n), vapprox_all d cmp x y t w = false <->
     bad_position chk (vcomps (vdiff f x y)) (vcomps (vdiff g x y))
       (vcomps (vtol_all h x y t)) (vcomps (vtol_all k x y w))) /\
  (forall n (x y : vec K n), papprox_all d cmp x y t w = false <->
     bad_position chk (vcomps (pdiff f x y)) (vcomps (pdiff g x y))
       (vcomps (ptol_all h x y t)) (vcomps (ptol_all k x y w))) /\
  (forall x y : quat K, qapprox_all d cmp x y t w = false <->
     bad_position chk (@vcomps D 4 (qdiff f x y)) (@vcomps D' 4 (qdiff g x y))
       (@vcomps E 4 (qtol_all h x y t)) (@vcomps E' 4 (qtol_all k x y w))) /\
  (forall r c (x y : mat K r c), mapprox_all d cmp x y t w = false <->
     bad_position chk (mcomps (mdiff f x y)) (mcomps (mdiff g x y))
       (mcomps (mtol_all h x y t)) (mcomps (mtol_all k x y w))) /\
  (forall x y : complex K, capprox_all cmp x y t w = false <->
     bad_position chk (ccomps (cdiff f x y)) (ccomps (cdiff g x y))
       (ccomps (ctol_all h x y t)) (ccomps (ctol_all k x y w))) /\
  (forall x y : K * K * K, euapprox_all cmp x y t w = false <->
     bad_position chk (eucomps (eudiff f x y)) (eucomps (eudiff g x y))
       (eucomps (eutol_all h x y t)) (eucomps (eutol_all k x y w))) /\
  (forall n (x y : reflection K n), reapprox_all d cmp x y t w = false <->
     bad_position chk (recomps (rediff f x y)) (recomps (rediff g x y))
       (recomps (retol_all h x y t)) (recomps (retol_all k x y w))) /\
  (forall n (x y : shear K n), shapprox_all d cmp x y t w = false <->
     bad_position chk (shcomps (shdiff f x y)) (shcomps (shdiff g x y))
       (shcomps (shtol_all h x y t)) (shcomps (shtol_all k x y w))) /\
  (forall n (x y : isometry K n), isoapprox_all d cmp x y t w = false <->
     bad_position chk (isocomps (isodiff f x y)) (isocomps (isodiff g x y))
       (isocomps (isotol_all h x y t)) (isocomps (isotol_all k x y w))) /\
  (forall n (x y : similarity K n), simapprox_all d cmp x y t w = false <->
     bad_position chk (simcomps (simdiff f x y)) (simcomps (simdiff g x y))
       (simcomps (simtol_all h x y t)) (simcomps (simtol_all k x y w))).
Proof. exact c150_all_failure_is_shown. Qed.
Print Assumptions C150_all_failure_is_shown.

(** [abs_diff_eq] and [abs_diff_all_eq] over the reals.  For [abs_diff_all_eq] of isometries only one direction holds. *)
Theorem C150_abs_diff_partial :
  forall (n : nat),
  (forall x y t : vec R n, vabs_diff_eq x y t = false <->
     bad_position within (vcomps (vdiff rdist x y)) (vcomps (vdiff rdist x y))
       (vcomps (vtol htol x y t)) (vcomps (vtol htol x y t))) /\
  (forall x y t : isometry R n, iso_abs_diff_eq x y t = false <->
     bad_position within (isocomps (isodiff rdist x y)) (isocomps (isodiff rdist x y))
       (isocomps (isotol htol x y t)) (isocomps (isotol htol x y t))) /\
  (forall x y t : similarity R n, sim_abs_diff_eq x y t = false <->
     bad_position within (simcomps (simdiff rdist x y)) (simcomps (simdiff rdist x y))
       (simcomps (simtol htol x y t)) (simcomps (simtol htol x y t))) /\
  (forall (x y : similarity R n) t, sim_abs_diff_all_eq x y t = false <->
     bad_position within (simcomps (simdiff rdist x y)) (simcomps (simdiff rdist x y))
       (simcomps (simtol_all htol x y t)) (simcomps (simtol_all htol x y t))) /\
  (forall (x y : isometry R n) t, iso_abs_diff_all_eq x y t = false ->
     bad_position within (isocomps (isodiff rdist x y)) (isocomps (isodiff rdist x y))
       (isocomps (isotol_all htol x y t)) (isocomps (isotol_all htol x y t))).
Proof. exact c150_abs_diff. Qed.
Print Assumptions C150_abs_diff_partial.

(** [assert_abs_diff_all_eq] of isometries passes although the differences it would report exceed the tolerance: the comparison ignores the translation, the report does not. *)
Theorem C150_isometry_refuted :
  exists (x y : isometry R 2) (t : R), iso_abs_diff_all_eq x y t = true /\
     bad_position within (isocomps (isodiff rdist x y)) (isocomps (isodiff rdist x y))
       (isocomps (isotol_all htol x y t)) (isocomps (isotol_all htol x y t)).
Proof. exact c150_isometry_refuted. Qed.
Print Assumptions C150_isometry_refuted.

(** 1 + 2 i against 1 + 5 i with tolerance 1: the comparison fails, and the report shows the second component. *)
Example C150_example :
  let x := mkC 1 2 in let y := mkC 1 5 in
  capprox (fun a b t (_ : R) => rabs_diff_eq a b t) x y (mkC 1 1) (mkC 1 1) = false /\
  ccomps (cdiff rdist x y) = [0; 3] /\ ccomps (ctol htol x y (mkC 1 1)) = [1; 1] /\
  bad_position within (ccomps (cdiff rdist x y)) (ccomps (cdiff rdist x y))
    (ccomps (ctol htol x y (mkC 1 1))) (ccomps (ctol htol x y (mkC 1 1))).
Proof. exact c150_example. Qed.
