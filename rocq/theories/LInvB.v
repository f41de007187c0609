(** The formulas for inverse functions of complex numbers, over the reals. *)

From Coq Require Import Reals Lra Psatz.
From Flocq Require Import Core.Raux.
From Verif Require Import MReal LReal LInvA.
Local Open Scope R_scope.

Lemma recip x y m n r phi : 0 < r -> x = r * cos phi -> y = r * sin phi -> x * m - y * n = 1 -> x * n + y * m = 0 -> m = cos phi / r /\ n = - sin phi / r.
Proof.
  intros P X Y E F. assert (Q : x * x + y * y = r * r) by (rewrite X, Y; pose proof (sin2_cos2 phi) as S; unfold Rsqr in S; transitivity (r * r * (sin phi * sin phi + cos phi * cos phi)); [ring|rewrite S; ring]).
  assert (M : m * (r * r) = x) by (rewrite <- Q; transitivity (x * (x * m - y * n) + y * (x * n + y * m)); [ring|rewrite E, F; ring]).
  assert (N : n * (r * r) = - y) by (rewrite <- Q; transitivity (x * (x * n + y * m) - y * (x * m - y * n)); [ring|rewrite E, F; ring]).
  split; apply (Rmult_eq_reg_r (r * r)); try (apply Rgt_not_eq; apply Rmult_lt_0_compat; exact P).
  - rewrite M, X. field. lra.
  - rewrite N, Y. field. lra.
Qed.
Lemma exp_ln_neg r : 0 < r -> exp (- ln r) = / r.
Proof. intros P. rewrite <- ln_Rinv, exp_ln; [reflexivity|apply Rinv_0_lt_compat, P|exact P]. Qed.

(** w = z + s with s * s = 1 + z * z. *)
Lemma asinh_exact a b p q r phi : 0 < r -> p * p - q * q = 1 + (a * a - b * b) -> 2 * p * q = 2 * a * b -> a + p = r * cos phi -> b + q = r * sin phi ->
  sinh (ln r) * cos phi = a /\ cosh (ln r) * sin phi = b.
Proof.
  intros P E F X Y. destruct (recip (a + p) (b + q) (p - a) (q - b) r phi P X Y) as (M & N); [lra|lra|]. unfold sinh, cosh. rewrite exp_ln_neg, exp_ln by exact P.
  assert (M' : cos phi * / r = p - a) by (rewrite M; reflexivity). assert (N' : sin phi * / r = b - q) by (unfold Rdiv in N; lra). split.
  - transitivity ((r * cos phi - cos phi * / r) / 2); [field; lra|]. rewrite M', <- X. field.
  - transitivity ((r * sin phi + sin phi * / r) / 2); [field; lra|]. rewrite N', <- Y. field.
Qed.

(** w = z + i s with s * s = 1 - z * z. *)
Lemma acos_exact a b p q r phi : 0 < r -> p * p - q * q = 1 - (a * a - b * b) -> 2 * p * q = - (2 * a * b) -> a - q = r * cos phi -> b + p = r * sin phi ->
  cos phi * cosh (- ln r) = a /\ - (sin phi * sinh (- ln r)) = b.
Proof.
  intros P E F X Y. destruct (recip (a - q) (b + p) (a + q) (b - p) r phi P X Y) as (M & N); [lra|lra|]. unfold sinh, cosh. rewrite Ropp_involutive, exp_ln_neg, exp_ln by exact P.
  assert (M' : cos phi * / r = a + q) by (rewrite M; reflexivity). assert (N' : sin phi * / r = p - b) by (unfold Rdiv in N; lra). split.
  - transitivity ((r * cos phi + cos phi * / r) / 2); [field; lra|]. rewrite M', <- X. field.
  - transitivity ((r * sin phi - sin phi * / r) / 2); [field; lra|]. rewrite N', <- Y. field.
Qed.

(** w = s + t with s * s = (z + 1) / 2 and t * t = (z - 1) / 2. *)
Lemma acosh_exact a b p q m n r phi : 0 < r -> p * p - q * q = (a + 1) / 2 -> 2 * p * q = b / 2 -> m * m - n * n = (a - 1) / 2 -> 2 * m * n = b / 2 ->
  p + m = r * cos phi -> q + n = r * sin phi -> cosh (2 * ln r) * cos (2 * phi) = a /\ sinh (2 * ln r) * sin (2 * phi) = b.
Proof.
  intros P E F G H X Y. destruct (recip (p + m) (q + n) (p - m) (q - n) r phi P X Y) as (M & N); [lra|lra|].
  assert (R2 : exp (2 * ln r) = r * r) by (replace (2 * ln r) with (ln r + ln r) by ring; rewrite exp_plus, exp_ln by exact P; reflexivity).
  assert (R3 : exp (- (2 * ln r)) = / (r * r)) by (rewrite exp_Ropp, R2; reflexivity). unfold sinh, cosh. rewrite R2, R3.
  rewrite cos_2a, sin_2a. assert (M' : cos phi * / r = p - m) by (rewrite M; reflexivity). assert (N' : sin phi * / r = n - q) by (unfold Rdiv in N; lra). split.
  - transitivity (((r * cos phi) * (r * cos phi) - (r * sin phi) * (r * sin phi) + ((cos phi * / r) * (cos phi * / r) - (sin phi * / r) * (sin phi * / r))) / 2); [field; lra|]. rewrite M', N', <- X, <- Y. lra.
  - transitivity ((2 * (r * cos phi) * (r * sin phi) - 2 * (sin phi * / r) * (cos phi * / r)) / 2); [field; lra|]. rewrite M', N', <- X, <- Y. lra.
Qed.

(** Half the difference of the logarithms of 1 + z and 1 - z. *)
Lemma atanh_exact a b r1 p1 r2 p2 : 0 < r1 -> 0 < r2 -> 1 + a = r1 * cos p1 -> b = r1 * sin p1 -> 1 - a = r2 * cos p2 -> - b = r2 * sin p2 ->
  let X := (ln r1 - ln r2) / 2 in let Y := (p1 - p2) / 2 in
  sinh X * cos Y = a * (cosh X * cos Y) - b * (sinh X * sin Y) /\ cosh X * sin Y = a * (sinh X * sin Y) + b * (cosh X * cos Y).
Proof.
  intros P1 P2 A B C D X Y. set (m := (p1 + p2) / 2). assert (E1 : p1 = m + Y) by (unfold m, Y; field). assert (E2 : p2 = m - Y) by (unfold m, Y; field).
  set (E := exp X). assert (EP : 0 < E) by apply exp_pos. assert (EN : exp (- X) = / E) by apply exp_Ropp.
  assert (EE : r2 * (E * E) = r1).
  { unfold E. rewrite <- exp_plus. replace (X + X) with (ln r1 - ln r2) by (unfold X; field). unfold Rminus. rewrite exp_plus, exp_ln, exp_ln_neg by assumption. field. lra. }
  pose proof (sin2_cos2 Y) as S. unfold Rsqr in S.
  rewrite E1, cos_plus in A. rewrite E1, sin_plus in B. rewrite E2, cos_minus in C. rewrite E2, sin_minus in D.
  assert (U1 : (1 - a) * cos Y + b * sin Y = r2 * cos m).
  { replace b with (- - b) by ring. rewrite C, D. transitivity (r2 * cos m * (sin Y * sin Y + cos Y * cos Y)); [ring|rewrite S; ring]. }
  assert (U2 : (1 - a) * sin Y - b * cos Y = r2 * sin m).
  { replace b with (- - b) by ring. rewrite C, D. transitivity (r2 * sin m * (sin Y * sin Y + cos Y * cos Y)); [ring|rewrite S; ring]. }
  assert (V1 : (1 + a) * cos Y + b * sin Y = r1 * cos m).
  { rewrite A, B. transitivity (r1 * cos m * (sin Y * sin Y + cos Y * cos Y)); [ring|rewrite S; ring]. }
  assert (V2 : b * cos Y - (1 + a) * sin Y = r1 * sin m).
  { rewrite A, B. transitivity (r1 * sin m * (sin Y * sin Y + cos Y * cos Y)); [ring|rewrite S; ring]. }
  unfold sinh, cosh. rewrite EN. fold E. rewrite <- EE in V1, V2.
  assert (I : E * / E = 1) by (apply Rinv_r; lra). set (F := / E) in *.
  assert (W1 : E * (r2 * cos m) = F * (r2 * (E * E) * cos m)) by (transitivity (r2 * cos m * E * (E * F)); [rewrite I; ring|ring]).
  assert (W2 : E * (r2 * sin m) = F * (r2 * (E * E) * sin m)) by (transitivity (r2 * sin m * E * (E * F)); [rewrite I; ring|ring]).
  rewrite <- U1, <- V1 in W1. rewrite <- U2, <- V2 in W2. split; lra.
Qed.
