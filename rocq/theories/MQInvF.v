(** The inverse and the divisions of quaternions over IEEE floats: the functions of MQuat.v with the float comparison and the
    machine epsilon as threshold. *)

From Coq Require Import ZArith.
From Flocq Require Import Core.Core IEEE754.BinarySingleNaN.
From Verif Require Import Base Scalar MVector MQuat MFloat MFloatVec MArcF.
Local Open Scope num_scope.

Section QInvF.
  Context {prec emax : Z} {Hp : Prec_gt_0 prec} {He : Prec_lt_emax prec emax}.
  Notation fl := (binary_float prec emax).

  (** quaternion.rs 1564-1577 [try_inverse], [try_inverse_eps]. *)
  Definition fqtry_inverse (q : quat fl) : option (quat fl) :=
    let norm_squared := qnorm_squared q in
    if Bleb norm_squared (feps * feps) then None else Some (qdiv_s (qconj q) norm_squared).

  (** 1599-1607 [is_invertible], [is_invertible_eps]. *)
  Definition fqis_invertible (q : quat fl) : bool := Bleb (feps * feps) (qnorm_squared q).

  (** 2162 [div_left], 2196 [div_right]. *)
  Definition fqdiv_left (q left : quat fl) : option (quat fl) :=
    match fqtry_inverse left with Some left_inv => Some (qmul left_inv q) | None => None end.
  Definition fqdiv_right (q right : quat fl) : option (quat fl) :=
    match fqtry_inverse right with Some right_inv => Some (qmul q right_inv) | None => None end.
End QInvF.
