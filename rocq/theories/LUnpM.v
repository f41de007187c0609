(** Planes and points that are lost, and an example. *)

From Coq Require Import List Arith ZArith Bool Lia Reals Lra Psatz.
From Flocq Require Import Core.Core Relative IEEE754.BinarySingleNaN.
From Verif Require Import Base Scalar Spec SpecF SpecProjection SpecUnp MVector MMatrix MPoint MFloat MProjection
  LBase LFloat LFloatNormP LProjFP.
Local Open Scope R_scope.

Lemma c143_perspective_refuted :
  exists (side near far : f32) (p : point f32 3),
    is_finite side = true /\ B2R side = 1 / 64 /\ is_finite near = true /\ B2R near = 1 / 64 /\ is_finite far = true /\ B2R far = 524288 /\
    (forall i, (i < 3)%nat -> is_finite (vat p i) = true) /\
    in_frustum (B2R side) (B2R side) (B2R side) (B2R side) (B2R near) (B2R far) (v3 (B2R (vat p 0)) (B2R (vat p 1)) (B2R (vat p 2))) /\
    let m := persp_new side side side side near far in
    is_nan (persp_near m) = true /\ is_nan (persp_right m) = true /\
    (forall i, (i < 3)%nat -> is_finite (vat (persp_project_point m p) i) = true) /\
    (forall i, (i < 3)%nat -> is_nan (vat (persp_unproject_point m (persp_project_point m p)) i) = true).
Proof.
  set (n := @B754_finite 24 128 false 8388608 (-29) eq_refl). set (f := @B754_finite 24 128 false 8388608 (-4) eq_refl). set (z := @B754_finite 24 128 true 8388608 (-23) eq_refl). set (o := @B754_zero 24 128 false).
  assert (E1 : B2R n = 1 / 64). { unfold n, B2R, F2R. cbn -[IZR bpow]. change (bpow radix2 (-29)) with (/ 536870912). field. }
  assert (E2 : B2R f = 524288). { unfold f, B2R, F2R. cbn -[IZR bpow]. change (bpow radix2 (-4)) with (/ 16). field. }
  assert (E3 : B2R z = -1). { unfold z, B2R, F2R. cbn -[IZR bpow]. change (bpow radix2 (-23)) with (/ 8388608). field. }
  exists n, n, f, (v3 o o z). split; [reflexivity|]. split; [exact E1|]. split; [reflexivity|]. split; [exact E1|]. split; [reflexivity|]. split; [exact E2|]. split; [intros [|[|[|i]]] Hi; [reflexivity|reflexivity|reflexivity|lia]|]. split.
  - unfold in_frustum, vat, v3. cbn [vget fst snd]. change (B2R o) with 0. rewrite E1, E2, E3. lra.
  - intros m. split; [vm_compute; reflexivity|]. split; [vm_compute; reflexivity|]. split; (intros [|[|[|i]]] Hi; [vm_compute; reflexivity|vm_compute; reflexivity|vm_compute; reflexivity|lia]).
Qed.

Lemma c143_orthographic_refuted :
  exists (side near far : f32) (p : point f32 3),
    is_finite side = true /\ B2R side = 1 / 64 /\ is_finite near = true /\ B2R near = 1 / 64 /\ is_finite far = true /\ B2R far = 524288 /\
    (forall i, (i < 3)%nat -> is_finite (vat p i) = true) /\
    in_box (B2R side) (B2R side) (B2R side) (B2R side) (B2R near) (B2R far) (v3 (B2R (vat p 0)) (B2R (vat p 1)) (B2R (vat p 2))) /\
    let m := ortho_new side side side side near far in
    is_nan (ortho_far m) = true /\
    (forall i, (i < 3)%nat -> is_finite (vat (ortho_project_point m p) i) = true) /\
    is_nan (vat (ortho_unproject_point m (ortho_project_point m p)) 2) = true.
Proof.
  set (n := @B754_finite 24 128 false 8388608 (-29) eq_refl). set (f := @B754_finite 24 128 false 8388608 (-4) eq_refl). set (z := @B754_finite 24 128 true 8388608 (-23) eq_refl). set (o := @B754_zero 24 128 false).
  assert (E1 : B2R n = 1 / 64). { unfold n, B2R, F2R. cbn -[IZR bpow]. change (bpow radix2 (-29)) with (/ 536870912). field. }
  assert (E2 : B2R f = 524288). { unfold f, B2R, F2R. cbn -[IZR bpow]. change (bpow radix2 (-4)) with (/ 16). field. }
  assert (E3 : B2R z = -1). { unfold z, B2R, F2R. cbn -[IZR bpow]. change (bpow radix2 (-23)) with (/ 8388608). field. }
  exists n, n, f, (v3 o o z). split; [reflexivity|]. split; [exact E1|]. split; [reflexivity|]. split; [exact E1|]. split; [reflexivity|]. split; [exact E2|]. split; [intros [|[|[|i]]] Hi; [reflexivity|reflexivity|reflexivity|lia]|]. split.
  - unfold in_box, vat, v3. cbn [vget fst snd]. change (B2R o) with 0. rewrite E1, E2, E3. lra.
  - intros m. split; [vm_compute; reflexivity|]. split; [|vm_compute; reflexivity]. intros [|[|[|i]]] Hi; [vm_compute; reflexivity|vm_compute; reflexivity|vm_compute; reflexivity|lia].
Qed.

Lemma c143_sides_refuted :
  exists (left right near far : f32) (p : point f32 3),
    is_finite left = true /\ B2R left = 1 / 64 /\ is_finite right = true /\ B2R right = 524288 /\ is_finite near = true /\ B2R near = 1 /\ is_finite far = true /\ B2R far = 2 /\
    (forall i, (i < 3)%nat -> is_finite (vat p i) = true) /\
    in_frustum (B2R left) (B2R right) (B2R near) (B2R near) (B2R near) (B2R far) (v3 (B2R (vat p 0)) (B2R (vat p 1)) (B2R (vat p 2))) /\
    in_box (B2R left) (B2R right) (B2R near) (B2R near) (B2R near) (B2R far) (v3 (B2R (vat p 0)) (B2R (vat p 1)) (B2R (vat p 2))) /\
    let m := persp_new left right near near near far in
    let o := ortho_new left right near near near far in
    is_nan (persp_right m) = true /\ is_nan (ortho_right o) = true /\
    is_nan (vat (persp_unproject_point m (persp_project_point m p)) 0) = true /\
    is_nan (vat (ortho_unproject_point o (ortho_project_point o p)) 0) = true.
Proof.
  set (n := @B754_finite 24 128 false 8388608 (-29) eq_refl). set (f := @B754_finite 24 128 false 8388608 (-4) eq_refl). set (one := @B754_finite 24 128 false 8388608 (-23) eq_refl). set (two := @B754_finite 24 128 false 8388608 (-22) eq_refl).
  set (z := @B754_finite 24 128 true 8388608 (-23) eq_refl). set (o := @B754_zero 24 128 false).
  assert (E1 : B2R n = 1 / 64). { unfold n, B2R, F2R. cbn -[IZR bpow]. change (bpow radix2 (-29)) with (/ 536870912). field. }
  assert (E2 : B2R f = 524288). { unfold f, B2R, F2R. cbn -[IZR bpow]. change (bpow radix2 (-4)) with (/ 16). field. }
  assert (E3 : B2R z = -1). { unfold z, B2R, F2R. cbn -[IZR bpow]. change (bpow radix2 (-23)) with (/ 8388608). field. }
  assert (E4 : B2R one = 1). { unfold one, B2R, F2R. cbn -[IZR bpow]. change (bpow radix2 (-23)) with (/ 8388608). field. }
  assert (E5 : B2R two = 2). { unfold two, B2R, F2R. cbn -[IZR bpow]. change (bpow radix2 (-22)) with (/ 4194304). field. }
  exists n, f, one, two, (v3 o o z). split; [reflexivity|]. split; [exact E1|]. split; [reflexivity|]. split; [exact E2|]. split; [reflexivity|]. split; [exact E4|]. split; [reflexivity|]. split; [exact E5|]. split; [intros [|[|[|i]]] Hi; [reflexivity|reflexivity|reflexivity|lia]|]. split; [|split].
  - unfold in_frustum, vat, v3. cbn [vget fst snd]. change (B2R o) with 0. rewrite E1, E2, E3, E4, E5. lra.
  - unfold in_box, vat, v3. cbn [vget fst snd]. change (B2R o) with 0. rewrite E1, E2, E3, E4, E5. lra.
  - intros m w. repeat split; vm_compute; reflexivity.
Qed.

Lemma c143_example :
  let i : Z -> f64 := f64_of_Z in
  (24 <= 53)%Z /\ (1 <= 100)%Z /\ (6 * 100 + 31 <= 1024)%Z /\
  (forall z, In z (1 :: 2 :: 3 :: 1000 :: nil)%Z -> is_finite (i z) = true /\ B2R (i z) = IZR z) /\
  side_range 53 100 1 2 /\ side_range 53 100 1 1 /\ depth_range 53 100 1 1000 /\
  in_frustum 1 2 1 1 1 1000 (v3 2 (-1) (-3)) /\ in_box 1 2 1 1 1 1000 (v3 2 (-1) (-3)) /\
  (0 < 3 <= 5 / 4 * 1000 /\ Rabs (persp_side 1 1 2 3 2) <= 5 / 4 /\ Rabs (persp_side 1 1 1 3 (-1)) <= 5 / 4 /\ Rabs (persp_depth 1 1000 3) <= 5 / 4) /\
  persp_near (persp_new (i 1) (i 2) (i 1) (i 1) (i 1) (i 1000))%Z = i 1%Z /\
  persp_far (persp_new (i 1) (i 2) (i 1) (i 1) (i 1) (i 1000))%Z <> i 1000%Z.
Proof.
  intros i. assert (SZ : forall z, (1 <= z <= 2 ^ 100)%Z -> sized 100 (IZR z)).
  { intros z (Z1 & Z2). split; [apply (Rle_trans _ (bpow radix2 0)); [apply bpow_le; lia|apply (IZR_le 1); exact Z1]|change (bpow radix2 100) with (IZR (2 ^ 100)); apply IZR_le; exact Z2]. }
  split; [lia|]. split; [lia|]. split; [lia|]. split; [|split; [|split; [|split; [|split; [|split; [|split; [|split]]]]]]].
  - intros z Hz. destruct (f64_of_Z_exact z) as (E & F). { destruct Hz as [<-|[<-|[<-|[<-|[]]]]]; lia. } split; [exact F|exact E].
  - split; [apply SZ; lia|]. split; [apply SZ; lia|]. change (bpow radix2 (Z.opp 53)) with (/ 9007199254740992). lra.
  - split; [apply SZ; lia|]. split; [apply SZ; lia|]. change (bpow radix2 (Z.opp 53)) with (/ 9007199254740992). lra.
  - split; [apply SZ; lia|]. split; [apply SZ; lia|]. change (bpow radix2 (Z.opp 53)) with (/ 9007199254740992). lra.
  - unfold in_frustum, vat, v3. cbn [vget fst snd]. lra.
  - unfold in_box, vat, v3. cbn [vget fst snd]. lra.
  - unfold persp_side, persp_depth. split; [lra|]. repeat split; apply Rabs_le; lra.
  - apply B2SF_inj. vm_compute. reflexivity.
  - intros E. apply (f_equal (@B2SF 53 1024)) in E. vm_compute in E. discriminate.
Qed.
