(** Proofs of the property theorems about the projections in floats (C123). *)

From Coq Require Import List Arith ZArith Bool Lia Reals Lra Psatz.
From Flocq Require Import Core.Core IEEE754.BinarySingleNaN.
From Verif Require Import Base Scalar Spec SpecF SpecProjection MVector MMatrix MPoint MReal MFloat MTransform MProjection
  LBase LVector LMatrix LReal LFloat LFloatP LFloatAcc LFloatNormP LFloatExP LProjF.

Local Open Scope R_scope.

Lemma fapp_near1 {prec emax} A e c (x : binary_float prec emax) r :
  fapp 1 A e x r -> (e <= 1024 * c)%Z -> fnear x r (IZR c * bpow radix2 (- prec)).
Proof.
  intros H E. rewrite <- (Rmult_1_r (IZR c * bpow radix2 (- prec))). apply (fapp_near 1 A e c); [lra|exact H|exact E].
Qed.
Lemma flt_of {prec emax} (a b : binary_float prec emax) :
  Bltb a b && is_finite a && is_finite b = true -> B2R a < B2R b.
Proof.
  intros H. apply andb_prop in H as (H & F2). apply andb_prop in H as (C & F1).
  rewrite (Bltb_correct _ _ a b F1 F2) in C. destruct (Rlt_bool_spec (B2R a) (B2R b)) as [T|]; [exact T|discriminate].
Qed.

Lemma c123_exact_projection :
  forall (left right bottom top near far : R) (p : vec R 3),
    let x := vat p 0 in let y := vat p 1 in let d := (- vat p 2)%R in
    (right + left <> 0)%R -> (top + bottom <> 0)%R -> (far - near <> 0)%R -> (near <> 0)%R ->
    (d <> 0%R ->
      projects_to (m4from_perspective left right bottom top near far) p
        (v3 (persp_side near left right d x) (persp_side near bottom top d y) (persp_depth near far d))) /\
    projects_to (m4from_orthographic left right bottom top near far) p
      (v3 (ortho_side left right x) (ortho_side bottom top y) (ortho_depth near far d)).
Proof.
  intros left right bottom top near far p x y d Hw Hh Hd Hn. destruct p as (px & py & pz & []).
  unfold vat in x, y, d. cbn [vget fst snd] in x, y, d. split.
  - intros D. exists d. split; [exact D|]. unfold persp_side, persp_depth, x, y, d in *.
    cbv -[Rplus Rmult Rminus Ropp Rdiv Rinv IZR]. pairs ltac:(field; repeat split; lra).
  - exists 1. split; [apply R1_neq_R0|]. unfold ortho_side, ortho_depth, x, y, d in *.
    cbv -[Rplus Rmult Rminus Ropp Rdiv Rinv IZR]. pairs ltac:(field; repeat split; lra).
Qed.

Lemma c123_perspective_accuracy :
  forall (prec emax : Z) (Hp : Prec_gt_0 prec) (He : Prec_lt_emax prec emax) (q : Z)
    (left right bottom top near far : binary_float prec emax) (p : point (binary_float prec emax) 3),
    (24 <= prec)%Z -> (0 <= q)%Z -> (2 * q + 31 <= emax)%Z ->
    is_finite left = true -> is_finite right = true -> is_finite bottom = true -> is_finite top = true ->
    is_finite near = true -> is_finite far = true -> (forall i, (i < 3)%nat -> is_finite (vat p i) = true) ->
    let u := bpow radix2 (- prec) in
    let L := B2R left in let R := B2R right in let B := B2R bottom in let T := B2R top in
    let N := B2R near in let F := B2R far in
    let x := B2R (vat p 0) in let y := B2R (vat p 1) in let d := (- B2R (vat p 2))%R in
    let size (s : Reals.Rdefinitions.R) := (bpow radix2 (- q) <= s <= bpow radix2 q)%R in
    (0 <= L)%R -> (0 <= R)%R -> (0 <= B)%R -> (0 <= T)%R ->
    size (R + L)%R -> size (T + B)%R -> size N -> size F -> (2 * N <= F)%R ->
    in_frustum L R B T N F (v3 x y (- d)%R) ->
    let r := persp_project_point (persp_new left right bottom top near far) p in
    fnear (vat r 0) (persp_side N L R d x) (22 * u)%R /\
    (B = T -> fnear (vat r 1) (persp_side N B T d y) (16 * u)%R) /\
    fnear (vat r 2) (persp_depth N F d) (72 * u)%R.
Proof.
  intros prec emax Hp He q left right bottom top near far p H24 q0 Hq Fl Fr Fb Ft Fn Ff Fp u L R B T N F x y d size
    L0 R0 B0 T0 SW SH SN SF NF (Hd & Hx & Hy) r.
  unfold vat, v3 in Hd, Hx, Hy. cbn [vget fst snd] in Hd, Hx, Hy. rewrite Ropp_involutive in Hd, Hx, Hy.
  assert (Fx := Fp 0%nat ltac:(lia)). assert (Fy := Fp 1%nat ltac:(lia)). assert (Fz := Fp 2%nat ltac:(lia)).
  conjs.
  - apply (fapp_near1 1 21521); [|lia].
    exact (fapp_persp_side H24 q Hq q0 near far Fn SN SF (vat p 2) Fz Hd left right (vat p 0) Fl Fr Fx L0 R0 SW Hx).
  - intros E. apply (fapp_near1 1 15372); [|lia].
    exact (fapp_persp_side0 H24 q Hq q0 near far Fn SN SF (vat p 2) Fz Hd bottom top (vat p 1) Fb Ft Fy B0 T0 SH Hy E).
  - apply (fapp_near1 1 72754); [|lia].
    exact (fapp_persp_depth H24 q Hq q0 near far Fn Ff SN SF NF (vat p 2) Fz Hd).
Qed.

Lemma c123_orthographic_accuracy :
  forall (prec emax : Z) (Hp : Prec_gt_0 prec) (He : Prec_lt_emax prec emax) (q : Z)
    (left right bottom top near far : binary_float prec emax) (p : point (binary_float prec emax) 3),
    (24 <= prec)%Z -> (0 <= q)%Z -> (2 * q + 31 <= emax)%Z ->
    is_finite left = true -> is_finite right = true -> is_finite bottom = true -> is_finite top = true ->
    is_finite near = true -> is_finite far = true -> (forall i, (i < 3)%nat -> is_finite (vat p i) = true) ->
    let u := bpow radix2 (- prec) in
    let L := B2R left in let R := B2R right in let B := B2R bottom in let T := B2R top in
    let N := B2R near in let F := B2R far in
    let x := B2R (vat p 0) in let y := B2R (vat p 1) in let d := (- B2R (vat p 2))%R in
    let size (s : Reals.Rdefinitions.R) := (bpow radix2 (- q) <= s <= bpow radix2 q)%R in
    (0 <= L)%R -> (0 <= R)%R -> (0 <= B)%R -> (0 <= T)%R ->
    size (R + L)%R -> size (T + B)%R -> size N -> size F -> (2 * N <= F)%R ->
    in_box L R B T N F (v3 x y (- d)%R) ->
    let r := ortho_project_point (ortho_new left right bottom top near far) p in
    fnear (vat r 0) (ortho_side L R x) (15 * u)%R /\
    fnear (vat r 1) (ortho_side B T y) (15 * u)%R /\
    fnear (vat r 2) (ortho_depth N F d) (54 * u)%R.
Proof.
  intros prec emax Hp He q left right bottom top near far p H24 q0 Hq Fl Fr Fb Ft Fn Ff Fp u L R B T N F x y d size
    L0 R0 B0 T0 SW SH SN SF NF (Hx & Hy & Hd) r.
  unfold vat, v3 in Hd, Hx, Hy. cbn [vget fst snd] in Hd, Hx, Hy. rewrite Ropp_involutive in Hd.
  assert (Fx := Fp 0%nat ltac:(lia)). assert (Fy := Fp 1%nat ltac:(lia)). assert (Fz := Fp 2%nat ltac:(lia)).
  conjs.
  - apply (fapp_near1 1 14348); [|lia].
    exact (fapp_ortho_side H24 q Hq q0 left right (vat p 0) Fl Fr Fx L0 R0 SW Hx).
  - apply (fapp_near1 1 14348); [|lia].
    exact (fapp_ortho_side H24 q Hq q0 bottom top (vat p 1) Fb Ft Fy B0 T0 SH Hy).
  - apply (fapp_near1 1 54312); [|lia].
    exact (fapp_ortho_depth H24 q Hq q0 near far Fn Ff SN SF NF (vat p 2) Fz Hd).
Qed.

Lemma c123_orthographic_order :
  forall (prec emax : Z) (Hp : Prec_gt_0 prec) (He : Prec_lt_emax prec emax)
    (left right bottom top near far : binary_float prec emax) (p p' : point (binary_float prec emax) 3),
    let m := ortho_new left right bottom top near far in
    let r := ortho_project_point m p in let r' := ortho_project_point m p' in
    let fin i := is_finite (vat r i) = true /\ is_finite (vat r' i) = true in
    (- B2R left <= B2R right -> fin 0%nat -> B2R (vat p 0) <= B2R (vat p' 0) -> B2R (vat r 0) <= B2R (vat r' 0))%R /\
    (- B2R bottom <= B2R top -> fin 1%nat -> B2R (vat p 1) <= B2R (vat p' 1) -> B2R (vat r 1) <= B2R (vat r' 1))%R /\
    (B2R near <= B2R far -> fin 2%nat -> - B2R (vat p 2) <= - B2R (vat p' 2) -> B2R (vat r 2) <= B2R (vat r' 2))%R.
Proof.
  intros prec emax Hp He left right bottom top near far p p' m r r' fin.
  assert (S : forall lo hi b x y : binary_float prec emax, - B2R lo <= B2R hi -> B2R x <= B2R y ->
    let c := ndiv (nadd n1 n1) (nsub hi (nneg lo)) in
    is_finite (nadd (nmul c x) b) = true -> is_finite (nadd (nmul c y) b) = true ->
    B2R (nadd (nmul c x) b) <= B2R (nadd (nmul c y) b)).
  { intros lo hi b x y W H c F1 F2. apply affine_mono; [exact F1|exact F2|].
    apply Rmult_le_compat_l; [|exact H]. destruct (ffin_add _ _ F1) as (G & _). destruct (ffin_mul _ _ G) as (G' & _).
    apply fdiv_sign; [exact G'|apply two_ge0|]. apply fsub_ge0. cbn [nneg num_float]. rewrite B2R_Bopp. exact W. }
  conjs.
  - intros W (F1 & F2) H. exact (S left right _ _ _ W H F1 F2).
  - intros W (F1 & F2) H. exact (S bottom top _ _ _ W H F1 F2).
  - intros W (F1 & F2) H.
    set (c := ndiv (nneg (nadd n1 n1)) (nsub far near)). set (b := ndiv (nneg (nadd far near)) (nsub far near)).
    change (vat r 2) with (nadd (nmul c (vat p 2)) b) in *. change (vat r' 2) with (nadd (nmul c (vat p' 2)) b) in *.
    apply affine_mono; [exact F1|exact F2|].
    destruct (ffin_add _ _ F1) as (G & _). destruct (ffin_mul _ _ G) as (G' & _).
    assert (C : B2R c <= 0) by (apply fdiv_sign_neg; [exact G'|apply two_ge0|apply fsub_ge0; exact W]).
    nra.
Qed.

Lemma c123_perspective_order_refuted :
  exists (left right bottom top near far : f64) (p p' : point f64 3),
    is_finite near = true /\ B2R near = 1%R /\ is_finite far = true /\ B2R far = 2%R /\
    (forall q, q = p \/ q = p' ->
      (forall i, (i < 3)%nat -> is_finite (vat q i) = true) /\
      in_frustum (B2R left) (B2R right) (B2R bottom) (B2R top) (B2R near) (B2R far)
        (v3 (B2R (vat q 0)) (B2R (vat q 1)) (B2R (vat q 2)))) /\
    (- B2R (vat p 2) < - B2R (vat p' 2))%R /\
    (B2R (vat (persp_project_point (persp_new left right bottom top near far) p') 2)
     < B2R (vat (persp_project_point (persp_new left right bottom top near far) p) 2))%R.
Proof.
  set (one := @B754_finite 53 1024 false 4503599627370496 (-52) eq_refl).
  set (two := @B754_finite 53 1024 false 4503599627370496 (-51) eq_refl).
  set (z := @B754_finite 53 1024 true 6085976544583426 (-52) eq_refl).
  set (z' := @B754_finite 53 1024 true 6085976544583427 (-52) eq_refl).
  set (o := @B754_zero 53 1024 false).
  assert (U : bpow radix2 (-52) = / 4503599627370496) by reflexivity.
  assert (E1 : B2R one = 1). { unfold one, B2R, F2R. cbn -[IZR bpow]. rewrite U. field. }
  assert (E2 : B2R two = 2).
  { unfold two, B2R, F2R. cbn -[IZR bpow]. change (bpow radix2 (-51)) with (/ 2251799813685248). field. }
  assert (Ez : B2R z = - 6085976544583426 / 4503599627370496). { unfold z, B2R, F2R. cbn -[IZR bpow]. rewrite U. reflexivity. }
  assert (Ez' : B2R z' = - 6085976544583427 / 4503599627370496). { unfold z', B2R, F2R. cbn -[IZR bpow]. rewrite U. reflexivity. }
  exists one, one, one, one, one, two, (v3 o o z), (v3 o o z'). conjs.
  - reflexivity.
  - exact E1.
  - reflexivity.
  - exact E2.
  - intros q [->| ->]; (split; [intros i Hi; destruct i as [|[|[|i]]]; [| | |lia]; reflexivity|]);
      unfold in_frustum, vat, v3; cbn [vget fst snd]; change (B2R o) with 0; rewrite E1, E2, ?Ez, ?Ez'; lra.
  - unfold vat, v3. cbn [vget fst snd]. rewrite Ez, Ez'. lra.
  - apply flt_of; vm_compute; reflexivity.
Qed.

Lemma c123_perspective_order_partial :
  forall (prec emax : Z) (Hp : Prec_gt_0 prec) (He : Prec_lt_emax prec emax) (q : Z)
    (left right bottom top near far : binary_float prec emax) (p p' : point (binary_float prec emax) 3),
    (24 <= prec)%Z -> (0 <= q)%Z -> (2 * q + 31 <= emax)%Z ->
    is_finite near = true -> is_finite far = true -> is_finite (vat p 2) = true -> is_finite (vat p' 2) = true ->
    let N := B2R near in let F := B2R far in
    let d := (- B2R (vat p 2))%R in let d' := (- B2R (vat p' 2))%R in
    let size (s : Reals.Rdefinitions.R) := (bpow radix2 (- q) <= s <= bpow radix2 q)%R in
    size N -> size F -> (2 * N <= F)%R -> (N <= d <= F)%R -> (N <= d' <= F)%R ->
    (144 * bpow radix2 (- prec) < 2 * F * N * (d' - d) / ((F - N) * (d * d')))%R ->
    let m := persp_new left right bottom top near far in
    (B2R (vat (persp_project_point m p) 2) < B2R (vat (persp_project_point m p') 2))%R.
Proof.
  intros prec emax Hp He q left right bottom top near far p p' H24 q0 Hq Fn Ff Fz Fz' N F d d' size SN SF NF Hd Hd' G m.
  assert (A : fnear (vat (persp_project_point m p) 2) (persp_depth N F d) (72 * bpow radix2 (- prec))).
  { apply (fapp_near1 1 72754); [|lia]. exact (fapp_persp_depth H24 q Hq q0 near far Fn Ff SN SF NF (vat p 2) Fz Hd). }
  assert (A' : fnear (vat (persp_project_point m p') 2) (persp_depth N F d') (72 * bpow radix2 (- prec))).
  { apply (fapp_near1 1 72754); [|lia]. exact (fapp_persp_depth H24 q Hq q0 near far Fn Ff SN SF NF (vat p' 2) Fz' Hd'). }
  destruct A as (_ & A), A' as (_ & A'). apply Rabs_le_inv in A, A'.
  assert (N0 : 0 < N) by (destruct SN as (T & _); pose proof (bpow_gt_0 radix2 (- q)); lra).
  assert (E : persp_depth N F d' - persp_depth N F d = 2 * F * N * (d' - d) / ((F - N) * (d * d'))).
  { unfold persp_depth. field. lra. }
  rewrite <- E in G. lra.
Qed.

Lemma c123_example :
  let i : Z -> f64 := f64_of_Z in
  (2 * 100 + 31 <= 1024)%Z /\
  (forall z, In z (1 :: 2 :: 3 :: 100 :: nil)%Z ->
     is_finite (i z) = true /\ B2R (i z) = IZR z /\ (bpow radix2 (- 100) <= B2R (i z) <= bpow radix2 100)%R) /\
  (144 * bpow radix2 (- 53) < 2 * 100 * 1 * (3 - 2) / ((100 - 1) * (2 * 3)))%R /\
  in_frustum 1 1 1 1 1 100 (v3 1 (-1) (-2))%R /\
  vat (persp_project_point (persp_new (i 1) (i 1) (i 1) (i 1) (i 1) (i 100)) (v3 (i 1) (i (-1)) (i (-2))))%Z 0
    = ndiv (i 1%Z) (i 2%Z).
Proof.
  intros i. conjs.
  - lia.
  - assert (G : forall z, (1 <= z < 2 ^ 53)%Z -> is_finite (i z) = true /\ B2R (i z) = IZR z /\
      (bpow radix2 (- 100) <= IZR z) /\ (z <= 2 ^ 100)%Z).
    { intros z Hz. destruct (f64_of_Z_exact z ltac:(lia)) as (E & F). split; [exact F|]. split; [exact E|]. split.
      - apply Rle_trans with 1; [change 1 with (bpow radix2 0); apply bpow_le; lia|]. apply IZR_le. lia.
      - lia. }
    intros z Hz. destruct (G z) as (F & E & B1 & B2). { destruct Hz as [<-|[<-|[<-|[<-|[]]]]]; lia. }
    split; [exact F|]. split; [exact E|]. rewrite E. split; [exact B1|].
    change (bpow radix2 100) with (IZR (2 ^ 100)). apply IZR_le. exact B2.
  - change (bpow radix2 (- 53)) with (/ 9007199254740992). lra.
  - unfold in_frustum, vat, v3. cbn [vget fst snd]. lra.
  - apply B2SF_inj. vm_compute. reflexivity.
Qed.
