(** Proofs of the theorems of PDegF.v. *)

From Coq Require Import ZArith Bool Lia Reals Lra Psatz.
From Flocq Require Import Core.Core Relative IEEE754.BinarySingleNaN.
From Verif Require Import Base Scalar LBase SpecF SpecCR MFloat MComplexF LFloat LFloatP LFloatVec LFloatNormP LTrScF LLibmP LSlerpS LSlerpW MDegF LDegF.
Local Open Scope R_scope.

Lemma pi64_val : is_finite f64_pi = true /\ B2R f64_pi = 7074237752028440 / 2251799813685248.
Proof. destruct (lit_val f64_pi _ _ ltac:(vm_compute; reflexivity)) as (F & E). split; [exact F|]. rewrite E. change (bpow radix2 (-51)) with (/ 2251799813685248). field. Qed.
Lemma K64_val : is_finite f64_per_degree = true /\ B2R f64_per_degree = 5030569068109113 / 288230376151711744.
Proof. destruct (lit_val f64_per_degree _ _ ltac:(vm_compute; reflexivity)) as (F & E). split; [exact F|]. rewrite E. change (bpow radix2 (-58)) with (/ 288230376151711744). field. Qed.
Lemma R64_val : is_finite f64_per_radian = true /\ B2R f64_per_radian = 8063664102031864 / 140737488355328.
Proof. destruct (lit_val f64_per_radian _ _ ltac:(vm_compute; reflexivity)) as (F & E). split; [exact F|]. rewrite E. change (bpow radix2 (-47)) with (/ 140737488355328). field. Qed.
Lemma K32_val : is_finite f32_per_degree = true /\ B2R f32_per_degree = 9370165 / 536870912.
Proof. destruct (lit_val f32_per_degree _ _ ltac:(vm_compute; reflexivity)) as (F & E). split; [exact F|]. rewrite E. change (bpow radix2 (-29)) with (/ 536870912). field. Qed.
Lemma R32_val : is_finite f32_per_radian = true /\ B2R f32_per_radian = 15019745 / 262144.
Proof. destruct (lit_val f32_per_radian _ _ ltac:(vm_compute; reflexivity)) as (F & E). split; [exact F|]. rewrite E. change (bpow radix2 (-18)) with (/ 262144). field. Qed.

Lemma u64_eq : bpow radix2 (-53) = / 9007199254740992. Proof. reflexivity. Qed.
Lemma u32_eq : bpow radix2 (-24) = / 16777216. Proof. reflexivity. Qed.

Lemma K64_near : fnear f64_per_degree (PI / 180) (bpow radix2 (-53) / 3 * (PI / 180)).
Proof. destruct K64_val as (F & E). split; [exact F|]. rewrite E, u64_eq. pose proof PI_digits. apply Rabs_le. lra. Qed.
Lemma K32_near : fnear f32_per_degree (PI / 180) (bpow radix2 (-24) / 3 * (PI / 180)).
Proof. destruct K32_val as (F & E). split; [exact F|]. rewrite E, u32_eq. pose proof PI_digits. apply Rabs_le. lra. Qed.
Lemma R_digits : 5729577951308232085 / 100000000000000000 <= 180 / PI <= 5729577951308232089 / 100000000000000000.
Proof.
  pose proof PI_digits as D. assert (P : 0 < PI) by lra. unfold Rdiv.
  split; apply (Rmult_le_reg_r PI); try exact P; rewrite (Rmult_assoc 180), Rinv_l by lra; lra.
Qed.
Lemma R64_near : fnear f64_per_radian (180 / PI) (bpow radix2 (-53) / 3 * (180 / PI)).
Proof. destruct R64_val as (F & E). split; [exact F|]. rewrite E, u64_eq. pose proof R_digits. apply Rabs_le. lra. Qed.
Lemma R32_near : fnear f32_per_radian (180 / PI) (bpow radix2 (-24) / 3 * (180 / PI)).
Proof. destruct R32_val as (F & E). split; [exact F|]. rewrite E, u32_eq. pose proof R_digits. apply Rabs_le. lra. Qed.

Lemma c133_constants :
  fnear f64_per_degree (PI / 180) (bpow radix2 (-53) / 3 * (PI / 180)) /\ fnear f64_per_radian (180 / PI) (bpow radix2 (-53) / 3 * (180 / PI)) /\
  fnear f32_per_degree (PI / 180) (bpow radix2 (-24) / 3 * (PI / 180)) /\ fnear f32_per_radian (180 / PI) (bpow radix2 (-24) / 3 * (180 / PI)) /\
  fnear f64_full_turn (2 * PI) (bpow radix2 (-53) * (2 * PI)) /\ fnear f32_full_turn (2 * PI) (bpow radix2 (-24) * (2 * PI)) /\
  fint f64_full_turn_degrees 360 /\ fint f32_full_turn_degrees 360.
Proof.
  split; [exact K64_near|]. split; [exact R64_near|]. split; [exact K32_near|]. split; [exact R32_near|].
  pose proof PI_digits as D. split; [|split; [|split]].
  - destruct (lit_val f64_full_turn _ _ ltac:(vm_compute; reflexivity)) as (F & E). split; [exact F|]. rewrite E, u64_eq.
    change (bpow radix2 (-50)) with (/ 1125899906842624). apply Rabs_le. lra.
  - destruct (lit_val f32_full_turn _ _ ltac:(vm_compute; reflexivity)) as (F & E). split; [exact F|]. rewrite E, u32_eq.
    change (bpow radix2 (-21)) with (/ 2097152). apply Rabs_le. lra.
  - destruct (lit_val f64_full_turn_degrees _ _ ltac:(vm_compute; reflexivity)) as (F & E). split; [exact F|]. rewrite E.
    change (bpow radix2 (-44)) with (/ 17592186044416). lra.
  - destruct (lit_val f32_full_turn_degrees _ _ ltac:(vm_compute; reflexivity)) as (F & E). split; [exact F|]. rewrite E.
    change (bpow radix2 (-15)) with (/ 32768). lra.
Qed.

Lemma deg_bound : 0 < PI / 180 <= / 50. Proof. pose proof PI_digits. lra. Qed.
Lemma rad_bound : 57 <= 180 / PI <= 58. Proof. pose proof R_digits. lra. Qed.

Lemma prod_abs x c B : 0 <= c -> Rabs x <= B -> Rabs (x * c) <= B * c.
Proof. intros C H. rewrite Rabs_mult, (Rabs_pos_eq c) by exact C. apply Rmult_le_compat_r; assumption. Qed.
Lemma pow_double k : bpow radix2 (k + 1) = 2 * bpow radix2 k.
Proof. rewrite Z.add_comm. apply bpow_plus. Qed.

Lemma max64 (x : f64) : is_finite x = true -> Rabs (B2R x) <= bpow radix2 1024.
Proof. intros _. left. apply abs_B2R_lt_emax. Qed.
Lemma max32 (x : f32) : is_finite x = true -> Rabs (B2R x) <= bpow radix2 128.
Proof. intros _. left. apply abs_B2R_lt_emax. Qed.

Lemma c133_to_radians :
  (forall x : f64, is_finite x = true ->
     let r := B2R x * (PI / 180) in fnear (f64_to_radians x) r (3 / 2 * bpow radix2 (-53) * Rabs r + bpow radix2 (-1075))) /\
  (forall x : f32, is_finite x = true ->
     let r := B2R x * (PI / 180) in fnear (f32_to_radians x) r (3 / 2 * bpow radix2 (-24) * Rabs r + bpow radix2 (-150))).
Proof.
  pose proof deg_bound as D. split; intros x Fx r.
  - destruct K64_near as (FK & EK). apply (factor_near x f64_per_degree (PI / 180) Fx FK (proj1 D) EK).
    eapply Rle_trans; [apply prod_abs; [lra|apply max64, Fx]|].
    change 1024%Z with (1024 - 1 + 1)%Z at 1. rewrite pow_double. pose proof (bpow_gt_0 radix2 (1024 - 1)) as B. nra.
  - destruct K32_near as (FK & EK). apply (factor_near x f32_per_degree (PI / 180) Fx FK (proj1 D) EK).
    eapply Rle_trans; [apply prod_abs; [lra|apply max32, Fx]|].
    change 128%Z with (128 - 1 + 1)%Z at 1. rewrite pow_double. pose proof (bpow_gt_0 radix2 (128 - 1)) as B. nra.
Qed.

Lemma rad_range k x : Rabs x <= bpow radix2 k -> Rabs (x * (180 / PI)) <= / 2 * bpow radix2 (k + 7).
Proof.
  intros H. pose proof rad_bound as D. eapply Rle_trans; [apply prod_abs; [lra|exact H]|].
  rewrite bpow_plus. change (bpow radix2 7) with 128. pose proof (bpow_gt_0 radix2 k). nra.
Qed.

Lemma c133_to_degrees :
  (forall x : f64, is_finite x = true -> Rabs (B2R x) <= bpow radix2 1016 ->
     let d := B2R x * (180 / PI) in fnear (f64_to_degrees x) d (3 / 2 * bpow radix2 (-53) * Rabs d + bpow radix2 (-1075))) /\
  (forall x : f32, is_finite x = true -> Rabs (B2R x) <= bpow radix2 120 ->
     let d := B2R x * (180 / PI) in fnear (f32_to_degrees x) d (3 / 2 * bpow radix2 (-24) * Rabs d + bpow radix2 (-150))).
Proof.
  pose proof rad_bound as D. split; intros x Fx H d.
  - destruct R64_near as (FK & EK). apply (factor_near x f64_per_radian (180 / PI) Fx FK ltac:(lra) EK). apply (rad_range 1016), H.
  - destruct R32_near as (FK & EK). apply (factor_near x f32_per_radian (180 / PI) Fx FK ltac:(lra) EK). apply (rad_range 120), H.
Qed.

(** The last step of both round trips. *)
Lemma trip_bound (u X t d : R) : 0 < u <= / 1024 -> 0 <= X -> 0 < t -> 0 < d ->
  (3 + 9 / 4 * u) * u * X + (1 + (1 + 3 / 2 * u) * d) * t <= 31 / 10 * u * X + (1 + 101 / 100 * d) * t.
Proof.
  intros U X0 T D. assert (UX : 0 <= u * X) by (apply Rmult_le_pos; lra). assert (DT : 0 <= d * t) by (apply Rmult_le_pos; lra).
  assert (u * (u * X) <= / 1024 * (u * X)) by (apply Rmult_le_compat_r; lra).
  assert (u * (d * t) <= / 1024 * (d * t)) by (apply Rmult_le_compat_r; lra). nra.
Qed.

Lemma c133_round_trip :
  (forall x : f64, is_finite x = true -> Rabs (B2R x) <= bpow radix2 1020 ->
     fnear (f64_to_degrees (f64_to_radians x)) (B2R x) (31 / 10 * bpow radix2 (-53) * Rabs (B2R x) + 60 * bpow radix2 (-1075))) /\
  (forall x : f64, is_finite x = true -> Rabs (B2R x) <= bpow radix2 1016 ->
     fnear (f64_to_radians (f64_to_degrees x)) (B2R x) (31 / 10 * bpow radix2 (-53) * Rabs (B2R x) + 2 * bpow radix2 (-1075))) /\
  (forall x : f32, is_finite x = true -> Rabs (B2R x) <= bpow radix2 124 ->
     fnear (f32_to_degrees (f32_to_radians x)) (B2R x) (31 / 10 * bpow radix2 (-24) * Rabs (B2R x) + 60 * bpow radix2 (-150))) /\
  (forall x : f32, is_finite x = true -> Rabs (B2R x) <= bpow radix2 120 ->
     fnear (f32_to_radians (f32_to_degrees x)) (B2R x) (31 / 10 * bpow radix2 (-24) * Rabs (B2R x) + 2 * bpow radix2 (-150))).
Proof.
  pose proof deg_bound as D. pose proof rad_bound as D'. pose proof per_degree_radian as I.
  destruct K64_near as (FK & EK). destruct R64_near as (FR & ER). destruct K32_near as (GK & HK). destruct R32_near as (GR & HR).
  assert (U64 : 0 < bpow radix2 (-53) <= / 1024) by (rewrite u64_eq; lra). assert (U32 : 0 < bpow radix2 (-24) <= / 1024) by (rewrite u32_eq; lra).
  assert (W : forall (p e : Z) (z : binary_float p e) r a b, fnear z r a -> a <= b -> fnear z r b) by (intros p e z r a b (F & E) H; split; [exact F|lra]).
  assert (T64 : 0 < bpow radix2 (-1075) <= 1) by (split; [apply bpow_gt_0|apply (bpow_le radix2 (-1075) 0); lia]).
  assert (T32 : 0 < bpow radix2 (-150) <= 1) by (split; [apply bpow_gt_0|apply (bpow_le radix2 (-150) 0); lia]).
  split; [|split; [|split]]; intros x Fx H; pose proof (Rabs_pos (B2R x)) as X0.
  - eapply W; [apply (factor_back x f64_per_degree f64_per_radian (PI / 180) (180 / PI) Fx FK FR); [lra|lra|exact I|exact EK|exact ER| |]|].
    + eapply Rle_trans; [apply prod_abs; [lra|exact H]|]. change (1024 - 1)%Z with (1020 + 3)%Z. rewrite bpow_plus. change (bpow radix2 3) with 8.
      pose proof (bpow_gt_0 radix2 1020). nra.
    + change (1024 - 1)%Z with (1020 + 3)%Z. rewrite bpow_plus. change (bpow radix2 3) with 8. change (2 - 1024 - 53)%Z with (-1075)%Z.
      assert (1024 <= bpow radix2 1020) by (apply (bpow_le radix2 10 1020); lia). nra.
    + eapply Rle_trans; [apply (trip_bound (bpow radix2 (-53)) _ (bpow radix2 (-1075)) (180 / PI) U64 X0); lra|]. nra.
  - eapply W; [apply (factor_back x f64_per_radian f64_per_degree (180 / PI) (PI / 180) Fx FR FK); [lra|lra|lra|exact ER|exact EK| |]|].
    + apply (rad_range 1016), H.
    + change (1024 - 1)%Z with (1016 + 7)%Z. rewrite bpow_plus. change (bpow radix2 7) with 128. change (2 - 1024 - 53)%Z with (-1075)%Z.
      assert (1024 <= bpow radix2 1016) by (apply (bpow_le radix2 10 1016); lia). nra.
    + eapply Rle_trans; [apply (trip_bound (bpow radix2 (-53)) _ (bpow radix2 (-1075)) (PI / 180) U64 X0); lra|]. nra.
  - eapply W; [apply (factor_back x f32_per_degree f32_per_radian (PI / 180) (180 / PI) Fx GK GR); [lra|lra|exact I|exact HK|exact HR| |]|].
    + eapply Rle_trans; [apply prod_abs; [lra|exact H]|]. change (128 - 1)%Z with (124 + 3)%Z. rewrite bpow_plus. change (bpow radix2 3) with 8.
      pose proof (bpow_gt_0 radix2 124). nra.
    + change (128 - 1)%Z with (124 + 3)%Z. rewrite bpow_plus. change (bpow radix2 3) with 8. change (2 - 128 - 24)%Z with (-150)%Z.
      assert (1024 <= bpow radix2 124) by (apply (bpow_le radix2 10 124); lia). nra.
    + eapply Rle_trans; [apply (trip_bound (bpow radix2 (-24)) _ (bpow radix2 (-150)) (180 / PI) U32 X0); lra|]. nra.
  - eapply W; [apply (factor_back x f32_per_radian f32_per_degree (180 / PI) (PI / 180) Fx GR GK); [lra|lra|lra|exact HR|exact HK| |]|].
    + apply (rad_range 120), H.
    + change (128 - 1)%Z with (120 + 7)%Z. rewrite bpow_plus. change (bpow radix2 7) with 128. change (2 - 128 - 24)%Z with (-150)%Z.
      assert (1024 <= bpow radix2 120) by (apply (bpow_le radix2 10 120); lia). nra.
    + eapply Rle_trans; [apply (trip_bound (bpow radix2 (-24)) _ (bpow radix2 (-150)) (PI / 180) U32 X0); lra|]. nra.
Qed.

Ltac feq := apply B2SF_inj; vm_compute; reflexivity.
Ltac fne := let E := fresh in intros E; apply (f_equal B2SF) in E; vm_compute in E; discriminate E.

Lemma c133_named_angles :
  (f64_to_radians (f64_of_Z 360) = f64_full_turn /\ f64_to_degrees f64_full_turn = f64_of_Z 360) /\
  (f32_to_radians (f32_of_Z 360) = f32_full_turn /\ f32_to_degrees f32_full_turn = f32_of_Z 360) /\
  (forall k d : Z, (k, d) = (2, 180)%Z \/ (k, d) = (4, 90)%Z \/ (k, d) = (8, 45)%Z ->
     f64_turn_div f64_full_turn_degrees k = f64_of_Z d /\ f64_to_radians (f64_of_Z d) = f64_turn_div f64_full_turn k /\
     f64_to_degrees (f64_turn_div f64_full_turn k) = f64_of_Z d /\
     f32_turn_div f32_full_turn_degrees k = f32_of_Z d /\ f32_to_radians (f32_of_Z d) = f32_turn_div f32_full_turn k /\
     f32_to_degrees (f32_turn_div f32_full_turn k) = f32_of_Z d) /\
  (f64_turn_div f64_full_turn_degrees 6 = f64_of_Z 60 /\ f64_to_radians (f64_of_Z 60) = f64_turn_div f64_full_turn 6) /\
  (f32_turn_div f32_full_turn_degrees 6 = f32_of_Z 60 /\ f32_to_radians (f32_of_Z 60) = f32_turn_div f32_full_turn 6).
Proof.
  split; [split; feq|]. split; [split; feq|]. split; [|split; split; feq].
  intros k d H. repeat (destruct H as [H|H] || idtac); injection H as -> ->; (repeat split); feq.
Qed.

Lemma c133_exact_round_trip_refuted :
  (exists x : f64, fint x 3 /\ f64_to_degrees (f64_to_radians x) <> x) /\
  (exists x : f32, fint x 15 /\ f32_to_degrees (f32_to_radians x) <> x) /\
  (let x := f64_turn_div f64_full_turn_degrees 6 in f64_to_degrees (f64_to_radians x) <> x /\ f64_to_degrees (f64_turn_div f64_full_turn 6) <> x) /\
  (let x := f32_turn_div f32_full_turn_degrees 6 in f32_to_degrees (f32_to_radians x) <> x /\ f32_to_degrees (f32_turn_div f32_full_turn 6) <> x).
Proof.
  split; [exists (f64_of_Z 3); split; [|fne]|split; [exists (f32_of_Z 15); split; [|fne]|split; cbv zeta; split; fne]].
  - split; [reflexivity|]. apply f64_of_Z_exact. lia.
  - destruct (lit_val (f32_of_Z 15) _ _ ltac:(vm_compute; reflexivity)) as (F & E). split; [exact F|]. rewrite E. change (bpow radix2 (-20)) with (/ 1048576). lra.
Qed.

Lemma c133_order :
  (forall x y : f64, is_finite x = true -> is_finite y = true -> B2R x <= B2R y -> B2R (f64_to_radians x) <= B2R (f64_to_radians y)) /\
  (forall x y : f32, is_finite x = true -> is_finite y = true -> B2R x <= B2R y -> B2R (f32_to_radians x) <= B2R (f32_to_radians y)) /\
  (forall x y : f64, is_finite x = true -> is_finite y = true -> Rabs (B2R x) <= bpow radix2 1016 -> Rabs (B2R y) <= bpow radix2 1016 ->
     B2R x <= B2R y -> B2R (f64_to_degrees x) <= B2R (f64_to_degrees y)) /\
  (forall x y : f32, is_finite x = true -> is_finite y = true -> Rabs (B2R x) <= bpow radix2 120 -> Rabs (B2R y) <= bpow radix2 120 ->
     B2R x <= B2R y -> B2R (f32_to_degrees x) <= B2R (f32_to_degrees y)).
Proof.
  destruct K64_val as (FK & EK). destruct R64_val as (FR & ER). destruct K32_val as (GK & HK). destruct R32_val as (GR & HR).
  split; [|split; [|split]].
  - intros x y Fx Fy H.
    assert (B : forall z : f64, is_finite z = true -> Rabs (B2R z * B2R f64_per_degree) <= bpow radix2 (1024 - 1)).
    { intros z Fz. eapply Rle_trans; [apply prod_abs; [rewrite EK; lra|apply max64, Fz]|]. rewrite EK.
      change 1024%Z with (1024 - 1 + 1)%Z at 1. rewrite pow_double. pose proof (bpow_gt_0 radix2 (1024 - 1)). nra. }
    apply (factor_mono x y f64_per_degree Fx Fy FK); [rewrite EK; lra|exact H|apply B, Fx|apply B, Fy].
  - intros x y Fx Fy H.
    assert (B : forall z : f32, is_finite z = true -> Rabs (B2R z * B2R f32_per_degree) <= bpow radix2 (128 - 1)).
    { intros z Fz. eapply Rle_trans; [apply prod_abs; [rewrite HK; lra|apply max32, Fz]|]. rewrite HK.
      change 128%Z with (128 - 1 + 1)%Z at 1. rewrite pow_double. pose proof (bpow_gt_0 radix2 (128 - 1)). nra. }
    apply (factor_mono x y f32_per_degree Fx Fy GK); [rewrite HK; lra|exact H|apply B, Fx|apply B, Fy].
  - intros x y Fx Fy Bx By H.
    assert (B : forall z : f64, Rabs (B2R z) <= bpow radix2 1016 -> Rabs (B2R z * B2R f64_per_radian) <= bpow radix2 (1024 - 1)).
    { intros z Bz. eapply Rle_trans; [apply prod_abs; [rewrite ER; lra|exact Bz]|]. rewrite ER.
      change (1024 - 1)%Z with (1016 + 7)%Z. rewrite bpow_plus. change (bpow radix2 7) with 128. pose proof (bpow_gt_0 radix2 1016). nra. }
    apply (factor_mono x y f64_per_radian Fx Fy FR); [rewrite ER; lra|exact H|apply B, Bx|apply B, By].
  - intros x y Fx Fy Bx By H.
    assert (B : forall z : f32, Rabs (B2R z) <= bpow radix2 120 -> Rabs (B2R z * B2R f32_per_radian) <= bpow radix2 (128 - 1)).
    { intros z Bz. eapply Rle_trans; [apply prod_abs; [rewrite HR; lra|exact Bz]|]. rewrite HR.
      change (128 - 1)%Z with (120 + 7)%Z. rewrite bpow_plus. change (bpow radix2 7) with 128. pose proof (bpow_gt_0 radix2 120). nra. }
    apply (factor_mono x y f32_per_radian Fx Fy GR); [rewrite HR; lra|exact H|apply B, Bx|apply B, By].
Qed.

(** A function with Lipschitz constant one, computed with the absolute error [e], of a converted angle. *)
Lemma deg_lip {prec emax : Z} (g : R -> R) (fn : binary_float prec emax -> binary_float prec emax) y r e f :
  (forall a b, Rabs (g a - g b) <= Rabs (a - b)) -> fnear (fn y) (g (B2R y)) e -> fnear y r f -> fnear (fn y) (g r) (e + f).
Proof.
  intros G (F & E) (_ & H). split; [exact F|]. replace (B2R (fn y) - g r) with ((B2R (fn y) - g (B2R y)) + (g (B2R y) - g r)) by ring.
  eapply Rle_trans; [apply Rabs_triang|]. specialize (G (B2R y) r). lra.
Qed.

Lemma c133_sine_cosine :
  (forall (fn : f64 -> f64) (e : R) (x : f64), is_finite x = true ->
     let r := B2R x * (PI / 180) in let d := e + (3 / 2 * bpow radix2 (-53) * Rabs r + bpow radix2 (-1075)) in
     ((forall y, is_finite y = true -> fnear (fn y) (sin (B2R y)) e) -> fnear (f64_deg_fun fn x) (sin r) d) /\
     ((forall y, is_finite y = true -> fnear (fn y) (cos (B2R y)) e) -> fnear (f64_deg_fun fn x) (cos r) d)) /\
  (forall (fn : f32 -> f32) (e : R) (x : f32), is_finite x = true ->
     let r := B2R x * (PI / 180) in let d := e + (3 / 2 * bpow radix2 (-24) * Rabs r + bpow radix2 (-150)) in
     ((forall y, is_finite y = true -> fnear (fn y) (sin (B2R y)) e) -> fnear (f32_deg_fun fn x) (sin r) d) /\
     ((forall y, is_finite y = true -> fnear (fn y) (cos (B2R y)) e) -> fnear (f32_deg_fun fn x) (cos r) d)).
Proof.
  destruct c133_to_radians as (A & B). split; intros fn e x Fx r d.
  - specialize (A x Fx). cbv zeta in A. fold r in A. split; intros H.
    + apply (deg_lip sin fn (f64_to_radians x)); [exact sin_lip|apply H, (proj1 A)|exact A].
    + apply (deg_lip cos fn (f64_to_radians x)); [exact cos_lip|apply H, (proj1 A)|exact A].
  - specialize (B x Fx). cbv zeta in B. fold r in B. split; intros H.
    + apply (deg_lip sin fn (f32_to_radians x)); [exact sin_lip|apply H, (proj1 B)|exact B].
    + apply (deg_lip cos fn (f32_to_radians x)); [exact cos_lip|apply H, (proj1 B)|exact B].
Qed.

(** sin z >= z - z^3/6 *)
Lemma sin_low z : 0 <= z <= / 1000 -> 999 / 1000 * z <= sin z.
Proof.
  intros Z. pose proof PI_digits. destruct (SIN z) as (L & _); [lra|lra|]. eapply Rle_trans; [|exact L].
  unfold sin_lb, sin_approx, sin_term. cbn [sum_f_R0 Nat.mul Nat.add pow fact]. 
  assert (Z2 : 0 <= z * z <= / 1000000) by nra.
  rewrite !INR_IZR_INZ. cbn [Z.of_nat Pos.of_succ_nat Pos.succ].
  assert (0 <= z * (z * z) <= / 1000000 * z) by nra.
  assert (Z5 : 0 <= z * (z * z) * (z * z) <= / 1000000 * (z * (z * z))) by nra.
  assert (Z7 : 0 <= z * (z * z) * (z * z) * (z * z) <= / 1000000 * (z * (z * z) * (z * z))) by nra.
  match goal with |- _ <= ?t => replace t with (z - z * (z * z) / 6 + z * (z * z) * (z * z) / 120 - z * (z * z) * (z * z) * (z * z) / 5040) by (simpl; field) end.
  lra.
Qed.

Lemma straight_point (fn : R) s e : Rabs (fn - s) <= e -> (e < s -> 0 < fn) /\ (s < - e -> fn < 0).
Proof. intros H. apply Rabs_le_inv in H. lra. Qed.

Lemma y180_64 : B2R (f64_to_radians (f64_of_Z 180)) = 7074237752028440 / 2251799813685248.
Proof.
  destruct (lit_val (f64_to_radians (f64_of_Z 180)) 7074237752028440 (-51) ltac:(vm_compute; reflexivity)) as (_ & E). rewrite E.
  change (bpow radix2 (-51)) with (/ 2251799813685248). reflexivity.
Qed.
Lemma y90_64 : B2R (f64_to_radians (f64_of_Z 90)) = 7074237752028440 / 4503599627370496.
Proof.
  destruct (lit_val (f64_to_radians (f64_of_Z 90)) 7074237752028440 (-52) ltac:(vm_compute; reflexivity)) as (_ & E). rewrite E.
  change (bpow radix2 (-52)) with (/ 4503599627370496). reflexivity.
Qed.
Lemma y180_32 : B2R (f32_to_radians (f32_of_Z 180)) = 13176795 / 4194304.
Proof.
  destruct (lit_val (f32_to_radians (f32_of_Z 180)) 13176795 (-22) ltac:(vm_compute; reflexivity)) as (_ & E). rewrite E.
  change (bpow radix2 (-22)) with (/ 4194304). reflexivity.
Qed.
Lemma y90_32 : B2R (f32_to_radians (f32_of_Z 90)) = 13176795 / 8388608.
Proof.
  destruct (lit_val (f32_to_radians (f32_of_Z 90)) 13176795 (-23) ltac:(vm_compute; reflexivity)) as (_ & E). rewrite E.
  change (bpow radix2 (-23)) with (/ 8388608). reflexivity.
Qed.
Lemma c133_straight_angle :
  (forall fn : f64 -> f64, let y := f64_to_radians (f64_of_Z 180) in
     fnear (fn y) (sin (B2R y)) (/ 10000000000000000) -> 0 < B2R (f64_deg_fun fn (f64_of_Z 180))) /\
  (forall fn : f64 -> f64, let y := f64_to_radians (f64_of_Z 90) in
     fnear (fn y) (cos (B2R y)) (/ 20000000000000000) -> 0 < B2R (f64_deg_fun fn (f64_of_Z 90))) /\
  (forall fn : f32 -> f32, let y := f32_to_radians (f32_of_Z 180) in
     fnear (fn y) (sin (B2R y)) (8 / 100000000) -> B2R (f32_deg_fun fn (f32_of_Z 180)) < 0) /\
  (forall fn : f32 -> f32, let y := f32_to_radians (f32_of_Z 90) in
     fnear (fn y) (cos (B2R y)) (4 / 100000000) -> B2R (f32_deg_fun fn (f32_of_Z 90)) < 0).
Proof.
  pose proof PI_digits as D.
  split; [|split; [|split]]; intros fn y (_ & H); unfold y in H.
  - rewrite y180_64 in H. apply (proj1 (straight_point _ _ _ H)).
    rewrite <- sin_PI_x. eapply Rlt_le_trans; [|apply sin_low; lra]. lra.
  - rewrite y90_64 in H. apply (proj1 (straight_point _ _ _ H)).
    rewrite <- sin_shift. eapply Rlt_le_trans; [|apply sin_low; lra]. lra.
  - rewrite y180_32 in H. apply (proj2 (straight_point _ _ _ H)).
    rewrite <- sin_PI_x. set (z := PI - _). replace z with (- (- z)) by ring. rewrite sin_neg.
    apply Ropp_lt_contravar. eapply Rlt_le_trans; [|apply sin_low; unfold z; lra]. unfold z. lra.
  - rewrite y90_32 in H. apply (proj2 (straight_point _ _ _ H)).
    rewrite <- sin_shift. set (z := PI / 2 - _). replace z with (- (- z)) by ring. rewrite sin_neg.
    apply Ropp_lt_contravar. eapply Rlt_le_trans; [|apply sin_low; unfold z; lra]. unfold z. lra.
Qed.

(** *** Inverse functions *)
Lemma f32_of_Z_small z m e : B2SF (f32_of_Z z) = SpecFloat.S754_finite false m e -> IZR (Zpos m) * bpow radix2 e = IZR z -> B2R (f32_of_Z z) = IZR z.
Proof. intros E V. rewrite (proj2 (lit_val _ _ _ E)). exact V. Qed.

Lemma arc64 (y : f64) k d : (k, d) = (2, 180)%Z \/ (k, d) = (4, 90)%Z -> is_finite y = true -> Rabs (B2R y) <= B2R (f64_turn_div f64_full_turn k) ->
  is_finite (f64_to_degrees y) = true /\ Rabs (B2R (f64_to_degrees y)) <= IZR d.
Proof.
  intros H Fy B. destruct c133_named_angles as (_ & _ & N & _). destruct R64_val as (FR & ER).
  assert (C : is_finite (f64_turn_div f64_full_turn k) = true /\ B2R (f64_turn_div f64_full_turn k) <= 4 /\ (Z.abs d < 2 ^ 53)%Z).
  { destruct H as [H|H]; injection H as -> ->.
    - destruct (lit_val (f64_turn_div f64_full_turn 2) 7074237752028440 (-51) ltac:(vm_compute; reflexivity)) as (F & E).
      split; [exact F|]. rewrite E. change (bpow radix2 (-51)) with (/ 2251799813685248). split; [lra|reflexivity].
    - destruct (lit_val (f64_turn_div f64_full_turn 4) 7074237752028440 (-52) ltac:(vm_compute; reflexivity)) as (F & E).
      split; [exact F|]. rewrite E. change (bpow radix2 (-52)) with (/ 4503599627370496). split; [lra|reflexivity]. }
  destruct C as (Fh & Bh & Bd). rewrite <- (proj1 (f64_of_Z_exact d Bd)).
  replace (f64_of_Z d) with (f64_to_degrees (f64_turn_div f64_full_turn k)) by (apply N; destruct H; auto).
  apply (factor_range y (f64_turn_div f64_full_turn k) f64_per_radian Fy Fh FR); [rewrite ER; lra|exact B|].
  apply Rle_trans with (bpow radix2 8); [|apply bpow_le; lia]. change (bpow radix2 8) with 256. rewrite ER. lra.
Qed.
Lemma arc32 (y : f32) k d : (k, d) = (2, 180)%Z \/ (k, d) = (4, 90)%Z -> is_finite y = true -> Rabs (B2R y) <= B2R (f32_turn_div f32_full_turn k) ->
  is_finite (f32_to_degrees y) = true /\ Rabs (B2R (f32_to_degrees y)) <= IZR d.
Proof.
  intros H Fy B. destruct c133_named_angles as (_ & _ & N & _). destruct R32_val as (FR & ER).
  assert (C : is_finite (f32_turn_div f32_full_turn k) = true /\ B2R (f32_turn_div f32_full_turn k) <= 4 /\ B2R (f32_of_Z d) = IZR d).
  { destruct H as [H|H]; injection H as -> ->.
    - destruct (lit_val (f32_turn_div f32_full_turn 2) 13176795 (-22) ltac:(vm_compute; reflexivity)) as (F & E).
      split; [exact F|]. rewrite E. change (bpow radix2 (-22)) with (/ 4194304). split; [lra|].
      apply (f32_of_Z_small 180 11796480 (-16)); [vm_compute; reflexivity|]. change (bpow radix2 (-16)) with (/ 65536). lra.
    - destruct (lit_val (f32_turn_div f32_full_turn 4) 13176795 (-23) ltac:(vm_compute; reflexivity)) as (F & E).
      split; [exact F|]. rewrite E. change (bpow radix2 (-23)) with (/ 8388608). split; [lra|].
      apply (f32_of_Z_small 90 11796480 (-17)); [vm_compute; reflexivity|]. change (bpow radix2 (-17)) with (/ 131072). lra. }
  destruct C as (Fh & Bh & Bd). rewrite <- Bd.
  replace (f32_of_Z d) with (f32_to_degrees (f32_turn_div f32_full_turn k)) by (apply N; destruct H; auto).
  apply (factor_range y (f32_turn_div f32_full_turn k) f32_per_radian Fy Fh FR); [rewrite ER; lra|exact B|].
  apply Rle_trans with (bpow radix2 8); [|apply bpow_le; lia]. change (bpow radix2 8) with 256. rewrite ER. lra.
Qed.

Lemma c133_inverse_ranges :
  (forall (k d : Z), (k, d) = (2, 180)%Z \/ (k, d) = (4, 90)%Z ->
    (forall (fn : f64 -> f64) (x : f64), is_finite (fn x) = true -> Rabs (B2R (fn x)) <= B2R (f64_turn_div f64_full_turn k) ->
       fbnd (IZR d) (f64_deg_arc fn x) /\ (0 <= B2R (fn x) -> 0 <= B2R (f64_deg_arc fn x))) /\
    (forall (fn : f64 -> f64 -> f64) (y x : f64), is_finite (fn y x) = true -> Rabs (B2R (fn y x)) <= B2R (f64_turn_div f64_full_turn k) ->
       fbnd (IZR d) (f64_deg_atan2 fn y x)) /\
    (forall (fn : f32 -> f32) (x : f32), is_finite (fn x) = true -> Rabs (B2R (fn x)) <= B2R (f32_turn_div f32_full_turn k) ->
       fbnd (IZR d) (f32_deg_arc fn x) /\ (0 <= B2R (fn x) -> 0 <= B2R (f32_deg_arc fn x))) /\
    (forall (fn : f32 -> f32 -> f32) (y x : f32), is_finite (fn y x) = true -> Rabs (B2R (fn y x)) <= B2R (f32_turn_div f32_full_turn k) ->
       fbnd (IZR d) (f32_deg_atan2 fn y x))).
Proof.
  assert (Z64 : B2R (f64_to_degrees (B754_zero false)) = 0) by (destruct R64_val as (F & _); unfold f64_to_degrees; cbn [nmul num_float]; destruct f64_per_radian; try discriminate; reflexivity).
  assert (Z32 : B2R (f32_to_degrees (B754_zero false)) = 0) by (destruct R32_val as (F & _); unfold f32_to_degrees; cbn [nmul num_float]; destruct f32_per_radian; try discriminate; reflexivity).
  destruct c133_order as (_ & _ & O64 & O32). intros k d H. split; [|split; [|split]].
  - intros fn x F B. split; [apply (arc64 _ k); assumption|]. intros P. rewrite <- Z64 at 1.
    apply O64; [reflexivity|exact F|cbn [B2R]; rewrite Rabs_R0; apply bpow_ge_0| |exact P].
    eapply Rle_trans; [exact B|]. apply Rle_trans with (bpow radix2 2); [|apply bpow_le; lia].
    destruct H as [H|H]; injection H as -> ->.
    + rewrite (proj2 (lit_val (f64_turn_div f64_full_turn 2) 7074237752028440 (-51) ltac:(vm_compute; reflexivity))). change (bpow radix2 (-51)) with (/ 2251799813685248). change (bpow radix2 2) with 4. lra.
    + rewrite (proj2 (lit_val (f64_turn_div f64_full_turn 4) 7074237752028440 (-52) ltac:(vm_compute; reflexivity))). change (bpow radix2 (-52)) with (/ 4503599627370496). change (bpow radix2 2) with 4. lra.
  - intros fn y x F B. apply (arc64 _ k); assumption.
  - intros fn x F B. split; [apply (arc32 _ k); assumption|]. intros P. rewrite <- Z32 at 1.
    apply O32; [reflexivity|exact F|cbn [B2R]; rewrite Rabs_R0; apply bpow_ge_0| |exact P].
    eapply Rle_trans; [exact B|]. apply Rle_trans with (bpow radix2 2); [|apply bpow_le; lia].
    destruct H as [H|H]; injection H as -> ->.
    + rewrite (proj2 (lit_val (f32_turn_div f32_full_turn 2) 13176795 (-22) ltac:(vm_compute; reflexivity))). change (bpow radix2 (-22)) with (/ 4194304). change (bpow radix2 2) with 4. lra.
    + rewrite (proj2 (lit_val (f32_turn_div f32_full_turn 4) 13176795 (-23) ltac:(vm_compute; reflexivity))). change (bpow radix2 (-23)) with (/ 8388608). change (bpow radix2 2) with 4. lra.
  - intros fn y x F B. apply (arc32 _ k); assumption.
Qed.

(** A converted result. *)
Lemma conv_near {prec emax : Z} (z : binary_float prec emax) (y a c e u t : R) : 0 < c -> 0 <= u -> Rabs (y - a) <= e ->
  fnear z (y * c) (3 / 2 * u * Rabs (y * c) + t) -> fnear z (a * c) (c * (e + 3 / 2 * u * (Rabs a + e)) + t).
Proof.
  intros C U H (F & E). split; [exact F|].
  replace (B2R z - a * c) with ((B2R z - y * c) + (y - a) * c) by ring. eapply Rle_trans; [apply Rabs_triang|].
  assert (Rabs ((y - a) * c) <= e * c) by (apply prod_abs; lra).
  assert (Y : Rabs y <= Rabs a + e) by (replace y with (a + (y - a)) by ring; eapply Rle_trans; [apply Rabs_triang|lra]).
  assert (3 / 2 * u * Rabs (y * c) <= 3 / 2 * u * ((Rabs a + e) * c)) by (apply Rmult_le_compat_l; [lra|apply prod_abs; lra]). lra.
Qed.

Lemma c133_inverse_accuracy :
  (forall (fn : f64 -> f64) (x : f64) (a e : R), fnear (fn x) a e -> Rabs a + e <= bpow radix2 1016 ->
     fnear (f64_deg_arc fn x) (a * (180 / PI)) (180 / PI * (e + 3 / 2 * bpow radix2 (-53) * (Rabs a + e)) + bpow radix2 (-1075))) /\
  (forall (fn : f64 -> f64 -> f64) (y x : f64) (a e : R), fnear (fn y x) a e -> Rabs a + e <= bpow radix2 1016 ->
     fnear (f64_deg_atan2 fn y x) (a * (180 / PI)) (180 / PI * (e + 3 / 2 * bpow radix2 (-53) * (Rabs a + e)) + bpow radix2 (-1075))) /\
  (forall (fn : f32 -> f32) (x : f32) (a e : R), fnear (fn x) a e -> Rabs a + e <= bpow radix2 120 ->
     fnear (f32_deg_arc fn x) (a * (180 / PI)) (180 / PI * (e + 3 / 2 * bpow radix2 (-24) * (Rabs a + e)) + bpow radix2 (-150))) /\
  (forall (fn : f32 -> f32 -> f32) (y x : f32) (a e : R), fnear (fn y x) a e -> Rabs a + e <= bpow radix2 120 ->
     fnear (f32_deg_atan2 fn y x) (a * (180 / PI)) (180 / PI * (e + 3 / 2 * bpow radix2 (-24) * (Rabs a + e)) + bpow radix2 (-150))).
Proof.
  destruct c133_to_degrees as (A & B). pose proof rad_bound as D.
  assert (Y : forall y a e : R, Rabs (y - a) <= e -> Rabs y <= Rabs a + e).
  { intros y a e H. replace y with (a + (y - a)) by ring. eapply Rle_trans; [apply Rabs_triang|lra]. }
  split; [|split; [|split]].
  - intros fn x a e (F & E) M. apply (conv_near _ (B2R (fn x))); [lra|apply bpow_ge_0|exact E|]. apply A; [exact F|]. specialize (Y _ _ _ E). lra.
  - intros fn y x a e (F & E) M. apply (conv_near _ (B2R (fn y x))); [lra|apply bpow_ge_0|exact E|]. apply A; [exact F|]. specialize (Y _ _ _ E). lra.
  - intros fn x a e (F & E) M. apply (conv_near _ (B2R (fn x))); [lra|apply bpow_ge_0|exact E|]. apply B; [exact F|]. specialize (Y _ _ _ E). lra.
  - intros fn y x a e (F & E) M. apply (conv_near _ (B2R (fn y x))); [lra|apply bpow_ge_0|exact E|]. apply B; [exact F|]. specialize (Y _ _ _ E). lra.
Qed.

(** *** Reciprocals *)
Section Rec.
Context {prec emax : Z} {Hp : Prec_gt_0 prec} {He : Prec_lt_emax prec emax}.
Notation fl := (binary_float prec emax).
Lemma recip_near (y : fl) v e : v <> 0 -> 0 <= e <= / 2 -> Rabs (B2R y - v) <= e * Rabs v -> bpow radix2 (2 - emax) <= Rabs v ->
  fnear (ndiv n1 y) (/ v) (2 * (e + bpow radix2 (- prec)) / Rabs v + bpow radix2 (2 - emax - prec)).
Proof.
  intros V E H M. assert (A0 : 0 < Rabs v) by (apply Rabs_pos_lt, V).
  assert (L : / 2 * Rabs v <= Rabs (B2R y)).
  { assert (Rabs v <= Rabs (B2R y) + Rabs (B2R y - v)).
    { rewrite (Rabs_minus_sym (B2R y)). replace v with (B2R y + (v - B2R y)) at 1 by ring. apply Rabs_triang. }
    assert (e * Rabs v <= / 2 * Rabs v) by (apply Rmult_le_compat_r; lra). lra. }
  assert (Y0 : B2R y <> 0) by (intros Z; rewrite Z, Rabs_R0 in L; lra).
  assert (I : / Rabs (B2R y) <= 2 / Rabs v).
  { replace (2 / Rabs v) with (/ (/ 2 * Rabs v)) by (field; lra). apply Rinv_le; lra. }
  assert (I2 : Rabs (1 / B2R y) <= 2 / Rabs v) by (unfold Rdiv at 1; rewrite Rmult_1_l, Rabs_inv; exact I).
  assert (O1 : is_finite (n1 : fl) = true /\ B2R (n1 : fl) = 1) by (split; [apply is_finite_Bone|apply Bone_correct]).
  destruct (div_val n1 y (proj1 O1) Y0) as (F & Q).
  { rewrite (proj2 O1). eapply Rle_trans; [exact I2|].
    apply (Rmult_le_reg_r (Rabs v)); [exact A0|]. unfold Rdiv. rewrite Rmult_assoc, Rinv_l by lra.
    apply Rle_trans with (bpow radix2 (emax - 1) * bpow radix2 (2 - emax)); [|apply Rmult_le_compat_l; [apply bpow_ge_0|exact M]].
    rewrite <- bpow_plus. replace (emax - 1 + (2 - emax))%Z with 1%Z by ring. change (bpow radix2 1) with 2. lra. }
  split; [exact F|]. rewrite Q, (proj2 O1). pose proof (rnd_rel (prec := prec) (emax := emax) (1 / B2R y)) as R.
  set (q := 1 / B2R y) in *. set (rq := round radix2 (FLT_exp (3 - emax - prec) prec) ZnearestE q) in *.
  assert (U0 : 0 < bpow radix2 (- prec)) by apply bpow_gt_0.
  assert (D : Rabs (q - / v) <= 2 * e / Rabs v).
  { unfold q. replace (1 / B2R y - / v) with ((v - B2R y) * (/ B2R y * / v)) by (field; auto).
    rewrite !Rabs_mult, !Rabs_inv. rewrite Rabs_minus_sym.
    apply Rle_trans with ((e * Rabs v) * (2 / Rabs v * / Rabs v)).
    - apply Rmult_le_compat; [apply Rabs_pos| |exact H|apply Rmult_le_compat_r; [left; apply Rinv_0_lt_compat, A0|exact I]].
      apply Rmult_le_pos; left; apply Rinv_0_lt_compat; [apply Rabs_pos_lt, Y0|exact A0].
    - right. field. lra. }
  replace (rq - / v) with ((rq - q) + (q - / v)) by ring. eapply Rle_trans; [apply Rabs_triang|].
  assert (bpow radix2 (- prec) * Rabs q <= bpow radix2 (- prec) * (2 / Rabs v)) by (apply Rmult_le_compat_l; [left; exact U0|exact I2]).
  replace (2 * (e + bpow radix2 (- prec)) / Rabs v) with (2 * e / Rabs v + bpow radix2 (- prec) * (2 / Rabs v)) by (field; lra). lra.
Qed.
End Rec.

Lemma c133_reciprocals :
  (forall (fn : f64 -> f64) (x : f64) (v e : R), v <> 0 -> 0 <= e <= / 2 -> fnear (fn x) v (e * Rabs v) -> bpow radix2 (-1022) <= Rabs v ->
     fnear (f64_recip_fun fn x) (/ v) (2 * (e + bpow radix2 (-53)) / Rabs v + bpow radix2 (-1075))) /\
  (forall (fn : f32 -> f32) (x : f32) (v e : R), v <> 0 -> 0 <= e <= / 2 -> fnear (fn x) v (e * Rabs v) -> bpow radix2 (-126) <= Rabs v ->
     fnear (f32_recip_fun fn x) (/ v) (2 * (e + bpow radix2 (-24)) / Rabs v + bpow radix2 (-150))) /\
  (forall (fn : f64 -> f64) (x : f64) s, fn x = B754_zero s -> f64_recip_fun fn x = B754_infinity s) /\
  (forall (fn : f32 -> f32) (x : f32) s, fn x = B754_zero s -> f32_recip_fun fn x = B754_infinity s).
Proof.
  split; [|split; [|split]].
  - intros fn x v e V E (F & H) M. exact (recip_near (fn x) v e V E H M).
  - intros fn x v e V E (F & H) M. exact (recip_near (fn x) v e V E H M).
  - intros fn x s H. unfold f64_recip_fun. rewrite H. destruct s; reflexivity.
  - intros fn x s H. unfold f32_recip_fun. rewrite H. destruct s; reflexivity.
Qed.

(** The correctly rounded sine and cosine. *)
Lemma c133_example :
  forall nb : bool,
    (forall y : f64, is_finite y = true ->
       fnear (m_sin (cr_libm nb) y) (sin (B2R y)) (bpow radix2 (-52)) /\ fnear (m_cos (cr_libm nb) y) (cos (B2R y)) (bpow radix2 (-52))) /\
    (let y := f64_to_radians (f64_of_Z 180) in fnear (m_sin (cr_libm nb) y) (sin (B2R y)) (/ 10000000000000000)) /\
    (let x := f64_of_Z 30 in is_finite x = true /\ Rabs (B2R x) <= bpow radix2 1016 /\ B2R x * (PI / 180) = PI / 6).
Proof.
  assert (T : bpow radix2 (-1075) <= bpow radix2 (-60)) by (apply bpow_le; lia). change (bpow radix2 (-60)) with (/ 1152921504606846976) in T.
  assert (C : forall r s, -1 <= r <= 1 -> is_finite (cr r s : f64) = true /\ Rabs (B2R (cr r s : f64) - r) <= bpow radix2 (-53) * Rabs r + bpow radix2 (-1075)).
  { intros r s B. destruct (cr_bounded (prec := 53) (emax := 1024) r s 0) as (A & _ & E & _); [lia|apply Rabs_le; cbn; lra|].
    split; [exact A|]. rewrite E. exact (rnd_rel (prec := 53) (emax := 1024) r). }
  rewrite u64_eq in C. change (bpow radix2 (-52)) with (/ 4503599627370496).
  intros nb. split; [|split].
  - intros y F. cbn [m_sin m_cos cr_libm]. rewrite F. split.
    + pose proof (SIN_bound (B2R y)) as B. destruct (C (sin (B2R y)) (Bsign y) B) as (G & E). split; [exact G|].
      assert (Rabs (sin (B2R y)) <= 1) by (apply Rabs_le; lra). lra.
    + pose proof (COS_bound (B2R y)) as B. destruct (C (cos (B2R y)) false B) as (G & E). split; [exact G|].
      assert (Rabs (cos (B2R y)) <= 1) by (apply Rabs_le; lra). lra.
  - cbv zeta. cbn [m_sin cr_libm]. change (is_finite (f64_to_radians (f64_of_Z 180))) with true. cbv iota.
    set (s := Bsign _). rewrite y180_64. set (r := sin _). destruct (C r s (SIN_bound _)) as (G & E). split; [exact G|].
    assert (Rabs r <= / 1000000000000000).
    { pose proof PI_digits as D. unfold r. rewrite <- sin_PI_x.
      match goal with |- Rabs (sin ?t) <= _ => pose proof (sin_lip t 0) as L end. rewrite sin_0, !Rminus_0_r in L.
      eapply Rle_trans; [exact L|]. apply Rabs_le. lra. }
    lra.
  - cbv zeta. destruct (f64_of_Z_exact 30 ltac:(lia)) as (E & F). split; [exact F|]. rewrite E. split; [|field].
    rewrite Rabs_pos_eq by lra. apply Rle_trans with (bpow radix2 5); [change (bpow radix2 5) with 32; lra|apply bpow_le; lia].
Qed.
