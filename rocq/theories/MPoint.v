(** Model of crates/cglinalg_core/src/point.rs.  Line numbers refer to that file.  [Point] is a
    newtype around [Vector] (45-47); it is modelled by the same arrays. *)

From Coq Require Import Arith Reals.
From Verif Require Import Base Scalar MVector.

Definition point (K : Type) (n : nat) : Type := vec K n.

Section Point.
Context {K : Type} `{NK : Num K}.
Local Open Scope num_scope.

(** 195 [origin], 219 [from_vector], 243 [to_vector]. *)
Definition porigin (n : nat) : point K n := vzero n.
Definition pfrom_vector {n} (v : vec K n) : point K n := v.
Definition pto_vector {n} (p : point K n) : vec K n := p.

(** 260 [dot], 278 [norm_squared], 298 [metric_distance_squared]: forwarded to [coords]. *)
Definition pdot {n} (p q : point K n) : K := vdot p q.
Definition pnorm_squared {n} (p : point K n) : K := vnorm_squared p.
Definition pdist_squared {n} (p q : point K n) : K := vdist_squared p q.

(** 431-442 [extend]: own loop over a default point. *)
Definition pextend {n} (p : point K n) (last : K) : point K (S n) :=
  vset (for_range n (fun i r => vset r i (vat p i)) (porigin (S n) : vec K (S n))) n last.

(** 461 [to_homogeneous]. *)
Definition pto_homogeneous {n} (p : point K n) : vec K (S n) := vextend p 1.

(** 490-498 [contract]. *)
Definition pcontract {n} (p : point K (S n)) : point K n :=
  for_range n (fun i r => vset r i (vget 0 (p : vec K (S n)) i)) (porigin n : vec K n).

(** 646 [Point + Vector], 702 [Point - Vector], 758 [Point - Point], 806 [Point * S],
    920 [Neg], 942-985 the assignment versions. *)
Definition padd {n} (p : point K n) (v : vec K n) : point K n := vadd p v.
Definition psub {n} (p : point K n) (v : vec K n) : point K n := vsub p v.
Definition pdiff {n} (p q : point K n) : vec K n := vsub p q.
Definition pmul_s {n} (p : point K n) (s : K) : point K n := vmul_s p s.
Definition pneg {n} (p : point K n) : point K n := vneg p.
Definition padd_assign {n} (p : point K n) (v : vec K n) : point K n := vadd_assign p v.
Definition psub_assign {n} (p : point K n) (v : vec K n) : point K n := vsub_assign p v.
Definition pmul_assign {n} (p : point K n) (s : K) : point K n := vmul_assign p s.

Context `{ND : NumDiv K}.

(** 530-542 [from_homogeneous]. *)
Definition pfrom_homogeneous {n} (v : vec K (S n)) : option (point K n) :=
  if negb (nis0 (vat v n)) then
    Some (for_range n (fun i r => vset r i (vat v i / vat v n)) (porigin n : vec K n))
  else None.

Definition pdiv_s {n} (p : point K n) (s : K) : point K n := vdiv_s p s.

End Point.

(** 341 [norm], 361 [metric_distance]. *)
Definition pnorm {n} (p : point R n) : R := vnorm p.
Definition pdist {n} (p q : point R n) : R := vdist p q.
