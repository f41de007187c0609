(** Projecting vectors in floats (C163). *)

From Coq Require Import List Arith ZArith Bool Lia Reals Lra Psatz SpecFloat.
From Flocq Require Import Core.Core IEEE754.BinarySingleNaN.
From Verif Require Import Base Scalar Spec SpecF SpecLibm SpecProjection MVector MMatrix MPoint MReal MFloat MTransform MProjection
  LBase LVector LMatrix LReal LFloat LFloatP LFloatAcc LFloatNormP LFloatExP LProjF LProjFP LComplexFP LSame LLinFP.
Local Open Scope R_scope.

Section G.
Context {prec emax : Z} {Hp : Prec_gt_0 prec} {He : Prec_lt_emax prec emax}.
Notation fl := (binary_float prec emax).
Lemma one_div_neg (y : fl) : ndiv n1 (nneg y) = ndiv (nneg n1) y.
Proof.
  rewrite fdiv_neg_l. apply B2SF_inj. rewrite B2SF_neg. generalize (n1 : fl). intros x. cbn [ndiv nneg num_float numdiv_float].
  destruct x as [sx|sx| |sx mx ex Hx], y as [sy|sy| |sy my ey Hy]; try reflexivity; try (destruct sx, sy; reflexivity).
  cbn [Bopp Bdiv]. rewrite !B2SF_SF2B. destruct (SpecFloat.SFdiv_core_binary _ _ _ _ _ _) as ((m & e) & l).
  rewrite <- round_aux_neg. f_equal. destruct sx, sy; reflexivity.
Qed.
Lemma mul_same (x y a : fl) : feqv x y -> feqv (nmul x a) (nmul y a).
Proof.
  intros [->|(s & t & -> & ->)]; [left; reflexivity|]. destruct a as [sa|sa| |sa m e b]; [right; do 2 eexists; split; reflexivity|left; reflexivity|left; reflexivity|right; do 2 eexists; split; reflexivity].
Qed.
Lemma near_same (x y : fl) r e : feqv x y -> fnear y r e -> fnear x r e.
Proof. intros [->|(s & t & -> & ->)] H; [exact H|]. destruct H as (_ & H). split; [reflexivity|exact H]. Qed.
Lemma is_zero_0 (x : fl) : is_finite x = true -> is_zero (nmul n0 x). Proof. apply mul_zero_l, zero_0. Qed.
Section V.
Variables (left right bottom top near far : fl) (v : vec fl 3).
Hypothesis Fv : forall i, (i < 3)%nat -> is_finite (vat v i) = true.
Hypothesis Z0 : B2R (vat v 2) <> 0.
Notation m := (persp_new left right bottom top near far).
Local Definition pv := mmulv m (vextend v n1).
Lemma pv_row i : (i < 4)%nat -> vat pv i = sum 4 (fun k => nmul (mget m k i) (vat (vextend v n1) k)).
Proof. intros Hi. unfold pv. apply vat_mmulv, Hi. Qed.
Lemma ext_fin k : (k < 4)%nat -> is_finite (vat (vextend v n1) k) = true.
Proof. intros Hk. rewrite vat_vextend by lia. destruct (Nat.eqb_spec k 3); [apply one_fin|apply Fv; lia]. Qed.
Lemma pv0 : feqv (vat pv 0) (nadd (nmul (mget m 0 0) (vat v 0)) (nmul (mget m 2 0) (vat v 2))).
Proof. rewrite pv_row by lia. apply (sum_two 4 (fun k => nmul (mget m k 0) (vat (vextend v n1) k)) 0 2); try lia. intros k Hk K0 K2. destruct k as [|[|[|[|k]]]]; try lia; apply is_zero_0, ext_fin; lia. Qed.
Lemma pv1 : feqv (vat pv 1) (nadd (nmul (mget m 1 1) (vat v 1)) (nmul (mget m 2 1) (vat v 2))).
Proof. rewrite pv_row by lia. apply (sum_two 4 (fun k => nmul (mget m k 1) (vat (vextend v n1) k)) 1 2); try lia. intros k Hk K0 K2. destruct k as [|[|[|[|k]]]]; try lia; apply is_zero_0, ext_fin; lia. Qed.
Lemma pv2 : feqv (vat pv 2) (nadd (nmul (mget m 2 2) (vat v 2)) (mget m 3 2)).
Proof.
  rewrite pv_row by lia. rewrite <- (fmul_1_r (mget m 3 2)). apply (sum_two 4 (fun k => nmul (mget m k 2) (vat (vextend v n1) k)) 2 3); try lia. intros k Hk K0 K2. destruct k as [|[|[|[|k]]]]; try lia; apply is_zero_0, ext_fin; lia.
Qed.
Lemma pv3 : vat pv 3 = nneg (vat v 2).
Proof.
  assert (S : feqv (vat pv 3) (nmul (nneg n1) (vat v 2))).
  { rewrite pv_row by lia. apply (sum_one 4 (fun k => nmul (mget m k 3) (vat (vextend v n1) k)) 2); [|lia]. intros k Hk K. destruct k as [|[|[|[|k]]]]; try lia; apply is_zero_0, ext_fin; lia. }
  rewrite fmul_neg_l, mul_1_l in S. destruct S as [S|(s & t & _ & S)]; [exact S|]. exfalso. apply Z0. destruct (vat v 2); try discriminate S. reflexivity.
Qed.
Lemma pvec i : (i < 3)%nat -> vat (persp_project_vector m v) i = nmul (vat pv i) (ndiv (nneg n1) (vat v 2)).
Proof. intros Hi. unfold persp_project_vector. fold pv. rewrite pv3, one_div_neg, vat_vcontract by exact Hi. rewrite vat_vmul_s by lia. reflexivity. Qed.
End V.
End G.

Theorem c163_vector_is_point :
  forall (prec emax : Z) (Hp : Prec_gt_0 prec) (He : Prec_lt_emax prec emax) (left right bottom top near far x y z : binary_float prec emax),
  is_finite x = true -> is_finite y = true -> is_finite z = true -> B2R z <> 0 ->
  let r := persp_project_vector (persp_new left right bottom top near far) (v3 x y z) in
  let p := persp_project_point (persp_new left right bottom top near far) (v3 x y z) in
  let p' := persp_project_point (persp_new bottom top left right near far) (v3 y x z) in
  feqv (vat r 0) (vat p 0) /\ feqv (vat r 1) (vat p' 0) /\ feqv (vat r 2) (vat p 2).
Proof.
  intros prec emax Hp He left right bottom top near far x y z Fx Fy Fz Z0 r p p'.
  assert (Fv : forall i, (i < 3)%nat -> is_finite (vat (v3 x y z) i) = true) by (intros i Hi; destruct i as [|[|[|i]]]; try lia; assumption).
  unfold r. rewrite !(pvec left right bottom top near far (v3 x y z) Fv Z0) by lia. split; [|split]; apply mul_same.
  - exact (pv0 left right bottom top near far (v3 x y z) Fv).
  - exact (pv1 left right bottom top near far (v3 x y z) Fv).
  - exact (pv2 left right bottom top near far (v3 x y z) Fv).
Qed.

Theorem c163_perspective_vector :
  forall (prec emax : Z) (Hp : Prec_gt_0 prec) (He : Prec_lt_emax prec emax) (q : Z)
    (left right bottom top near far x y z : binary_float prec emax),
    (24 <= prec)%Z -> (0 <= q)%Z -> (2 * q + 31 <= emax)%Z ->
    is_finite left = true -> is_finite right = true -> is_finite bottom = true -> is_finite top = true ->
    is_finite near = true -> is_finite far = true -> is_finite x = true -> is_finite y = true -> is_finite z = true ->
    let u := bpow radix2 (- prec) in
    let L := B2R left in let R := B2R right in let B := B2R bottom in let T := B2R top in
    let N := B2R near in let F := B2R far in let d := - B2R z in
    let size (s : Reals.Rdefinitions.R) := bpow radix2 (- q) <= s <= bpow radix2 q in
    0 <= L -> 0 <= R -> 0 <= B -> 0 <= T -> size (R + L) -> size (T + B) -> size N -> size F -> 2 * N <= F ->
    in_frustum L R B T N F (v3 (B2R x) (B2R y) (- d)) ->
    let r := persp_project_vector (persp_new left right bottom top near far) (v3 x y z) in
    fnear (vat r 0) (persp_side N L R d (B2R x)) (22 * u) /\
    fnear (vat r 1) (persp_side N B T d (B2R y)) (22 * u) /\
    fnear (vat r 2) (persp_depth N F d) (72 * u).
Proof.
  intros prec emax Hp He q left right bottom top near far x y z H24 q0 Hq Fl Fr Fb Ft Fn Ff Fx Fy Fz u L R B T N F d size L0 R0 B0 T0 SW SH SN SF NF HF r.
  assert (Z0 : B2R z <> 0). { destruct HF as (Hd & _). unfold vat, v3 in Hd. cbn [vget fst snd] in Hd. pose proof (bpow_gt_0 radix2 (- q)). destruct SN as (SN & _). unfold d in Hd. lra. }
  destruct (c163_vector_is_point prec emax Hp He left right bottom top near far x y z Fx Fy Fz Z0) as (E0 & E1 & E2).
  assert (Fv : forall i, (i < 3)%nat -> is_finite (vat (v3 x y z) i) = true) by (intros i Hi; destruct i as [|[|[|i]]]; try lia; assumption).
  assert (Fw : forall i, (i < 3)%nat -> is_finite (vat (v3 y x z) i) = true) by (intros i Hi; destruct i as [|[|[|i]]]; try lia; assumption).
  destruct (c123_perspective_accuracy prec emax Hp He q left right bottom top near far (v3 x y z) H24 q0 Hq Fl Fr Fb Ft Fn Ff Fv L0 R0 B0 T0 SW SH SN SF NF HF) as (A0 & _ & A2).
  assert (HF' : in_frustum B T L R N F (v3 (B2R y) (B2R x) (- d))). { destruct HF as (H1 & H2 & H3). split; [exact H1|]. split; [exact H3|exact H2]. }
  destruct (c123_perspective_accuracy prec emax Hp He q bottom top left right near far (v3 y x z) H24 q0 Hq Fb Ft Fl Fr Fn Ff Fw B0 T0 L0 R0 SH SW SN SF NF HF') as (A1 & _).
  split; [exact (near_same _ _ _ _ E0 A0)|]. split; [exact (near_same _ _ _ _ E1 A1)|exact (near_same _ _ _ _ E2 A2)].
Qed.

Theorem c163_orthographic_vector :
  forall (prec emax : Z) (Hp : Prec_gt_0 prec) (He : Prec_lt_emax prec emax) (q : Z)
    (left right bottom top near far : binary_float prec emax) (v : vec (binary_float prec emax) 3),
    (24 <= prec)%Z -> (0 <= q)%Z -> (2 * q + 31 <= emax)%Z ->
    is_finite left = true -> is_finite right = true -> is_finite bottom = true -> is_finite top = true ->
    is_finite near = true -> is_finite far = true ->
    let u := bpow radix2 (- prec) in
    let L := B2R left in let R := B2R right in let B := B2R bottom in let T := B2R top in
    let N := B2R near in let F := B2R far in
    let size (s : Reals.Rdefinitions.R) := bpow radix2 (- q) <= s <= bpow radix2 q in
    0 <= L -> 0 <= R -> 0 <= B -> 0 <= T -> size (R + L) -> size (T + B) -> size N -> size F -> 2 * N <= F ->
    fbnd (R + L) (vat v 0) -> fbnd (T + B) (vat v 1) -> fbnd F (vat v 2) ->
    let r := ortho_project_vector (ortho_new left right bottom top near far) v in
    fnear (vat r 0) (2 * B2R (vat v 0) / (R + L)) (9 * u) /\
    fnear (vat r 1) (2 * B2R (vat v 1) / (T + B)) (9 * u) /\
    fnear (vat r 2) (- 2 * B2R (vat v 2) / (F - N)) (25 * u).
Proof.
  intros prec emax Hp He q left right bottom top near far v H24 q0 Hq Fl Fr Fb Ft Fn Ff u L R B T N F size L0 R0 B0 T0 SW SH SN SF NF (Fx & Bx) (Fy & By) (Fz & Bz) r.
  pose proof (pow24 H24) as P24.
  assert (S : forall lo hi x : binary_float prec emax, is_finite lo = true -> is_finite hi = true -> is_finite x = true -> 0 <= B2R lo -> 0 <= B2R hi -> size (B2R hi + B2R lo) -> Rabs (B2R x) <= B2R hi + B2R lo ->
    fnear (nmul (ndiv (nadd n1 n1) (nsub hi (nneg lo))) x) (2 * B2R x / (B2R hi + B2R lo)) (9 * u)).
  { intros lo hi x F1 F2 F3 G1 G2 Bw BX. pose proof (rb_pos _ _ Bw) as W0. apply (fapp_near1 2 8198); [|lia].
    apply (fapp_eq (1 / (B2R hi + B2R lo) * (B2R hi + B2R lo)) _ _ _ _ (2 / (B2R hi - - B2R lo) * B2R x)); [|field; lra|field; lra].
    apply (fapp_weak (1 / (B2R hi + B2R lo) * (B2R hi + B2R lo)) (2 * 1) _ (6149 * 1 + 2 * 0 + 1024 * (2 * 1) + 1)); try lia; [replace (1 / (B2R hi + B2R lo) * (B2R hi + B2R lo)) with 1 by (field; lra); lra|].
    apply (fapp_mul2 H24); try lia; [apply Rdiv_lt_0_compat; lra|exact W0| |exact (fapp_oc0 H24 q Hq q0 lo hi F1 F2 G1 G2 Bw)|].
    - apply (rb_wok 0); [lia|]. replace (1 / (B2R hi + B2R lo) * (B2R hi + B2R lo)) with 1 by (field; lra). apply rb_1.
    - apply fapp_leafV; assumption. }
  split; [exact (S left right (vat v 0) Fl Fr Fx L0 R0 SW Bx)|]. split; [exact (S bottom top (vat v 1) Fb Ft Fy B0 T0 SH By)|].
  pose proof (rb_pos _ _ SN : 0 < N) as N0. pose proof (rb_pos _ _ SF : 0 < F) as F0.
  apply (fapp_near1 4 24594); [|lia].
  apply (fapp_eq (1 / F * F) _ _ _ _ (- (2) / (F - N) * B2R (vat v 2))); [|field; lra|field; lra].
  apply (fapp_weak (1 / F * F) (4 * 1) _ (20497 * 1 + 4 * 0 + 1024 * (4 * 1) + 1)); try lia; [replace (1 / F * F) with 1 by (field; lra); lra|].
  apply (fapp_mul2 H24); try lia; [apply Rdiv_lt_0_compat; lra|exact F0| |exact (fapp_c2 H24 q Hq q0 near far Fn Ff SN SF NF)|].
  - apply (rb_wok 0); [lia|]. replace (1 / F * F) with 1 by (field; lra). apply rb_1.
  - apply fapp_leafV; assumption.
Qed.

Theorem c163_example :
  let i : Z -> f64 := f64_of_Z in
  let m := persp_new (i 1%Z) (i 3%Z) (i 1%Z) (i 3%Z) (i 1%Z) (i 5%Z) in let v := v3 (i 4%Z) (i 1%Z) (i (-2)%Z) in
  in_frustum 1 3 1 3 1 5 (v3 4 1 (- (2))) /\
  vat (persp_project_vector m v) 0 = ndiv (i 1%Z) (i 2%Z) /\ vat (persp_project_vector m v) 1 = ndiv (i (-1)%Z) (i 4%Z) /\
  persp_side 1 1 3 2 1 = - 1 / 4 /\ vat (persp_project_point m v) 1 <> vat (persp_project_vector m v) 1.
Proof.
  intros i m v. split; [unfold in_frustum, vat, v3; cbn [vget fst snd]; lra|]. split; [apply B2SF_inj; vm_compute; reflexivity|]. split; [apply B2SF_inj; vm_compute; reflexivity|].
  split; [unfold persp_side; lra|]. intros E. apply (f_equal B2SF) in E. vm_compute in E. discriminate E.
Qed.
