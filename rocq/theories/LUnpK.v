(** Getting planes and points back from a projection in floats. *)

From Coq Require Import List Arith ZArith Bool Lia Reals Lra Psatz.
From Flocq Require Import Core.Core Relative IEEE754.BinarySingleNaN.
From Verif Require Import Base Scalar Spec SpecF SpecProjection SpecUnp MVector MMatrix MPoint MFloat MProjection
  LBase LVector LFloat LFloatP LFloatVec LTrScF LSlerpS LProjF LProjFP LUnpF LUnpG LUnpH LUnpI LUnpJ.
Local Open Scope R_scope.

Lemma c143_perspective_planes :
  forall (prec emax : Z) (Hp : Prec_gt_0 prec) (He : Prec_lt_emax prec emax) (q : Z)
    (left right bottom top near far : binary_float prec emax),
    (24 <= prec)%Z -> (1 <= q)%Z -> (6 * q + 31 <= emax)%Z ->
    is_finite left = true -> is_finite right = true -> is_finite bottom = true -> is_finite top = true ->
    is_finite near = true -> is_finite far = true ->
    let u := bpow radix2 (- prec) in
    let L := B2R left in let R := B2R right in let B := B2R bottom in let T := B2R top in
    let N := B2R near in let F := B2R far in
    side_range prec q L R -> side_range prec q B T -> depth_range prec q N F ->
    let m := persp_new left right bottom top near far in
    fnear (persp_near m) N (24 * u * N) /\
    fnear (persp_far m) F ((7 * (F / N) + 24) * u * F) /\
    fnear (persp_left m) L (36 * u * (R + L)) /\ fnear (persp_right m) R (36 * u * (R + L)) /\
    fnear (persp_bottom m) B (36 * u * (T + B)) /\ fnear (persp_top m) T (36 * u * (T + B)).
Proof.
  intros prec emax Hp He q left right bottom top near far H24 Q1 Hq Fl Fr Fb Ft Fn Ff u L R B T N F (SL & SR & G1) (SB & ST & G2) (SN & SF & NF & KU) m. assert (q0 : (0 <= q)%Z) by lia.
  assert (NP : 0 < N) by exact (rb_pos q N SN). assert (U : 0 < u) by apply bpow_gt_0. assert (KP : 0 < F / N) by (apply Rdiv_lt_0_compat; lra). assert (P1 : 0 < u * N) by (apply Rmult_lt_0_compat; lra). assert (P2 : 0 < u * F) by (apply Rmult_lt_0_compat; lra). assert (P3 : 0 < u * (F * (F / N))) by (apply Rmult_lt_0_compat; [lra|apply Rmult_lt_0_compat; lra]).
  pose proof (pn_ml H24 q q0 Hq near far Fn Ff SN SF NF KU) as PM.
  destruct (p_ends H24 q q0 Hq left right Fl Fr SL SR G1 near _ Fn SN PM) as (A1 & A2 & _). destruct (p_ends H24 q q0 Hq bottom top Fb Ft SB ST G2 near _ Fn SN PM) as (A3 & A4 & _). split; [|split; [|split; [|split; [|split]]]].
  - apply (near_weak _ _ _ _ (pn_abs H24 q q0 Hq near far Fn Ff SN SF NF KU)). fold u N. lra.
  - apply (near_weak _ _ _ _ (pf_abs H24 q q0 Hq near far Fn Ff SN SF NF KU)). fold u N F. lra.
  - exact A2.
  - exact A1.
  - exact A4.
  - exact A3.
Qed.

Lemma c143_orthographic_planes :
  forall (prec emax : Z) (Hp : Prec_gt_0 prec) (He : Prec_lt_emax prec emax) (q : Z)
    (left right bottom top near far : binary_float prec emax),
    (24 <= prec)%Z -> (1 <= q)%Z -> (6 * q + 31 <= emax)%Z ->
    is_finite left = true -> is_finite right = true -> is_finite bottom = true -> is_finite top = true ->
    is_finite near = true -> is_finite far = true ->
    let u := bpow radix2 (- prec) in
    let L := B2R left in let R := B2R right in let B := B2R bottom in let T := B2R top in
    let N := B2R near in let F := B2R far in
    side_range prec q L R -> side_range prec q B T -> depth_range prec q N F ->
    let m := ortho_new left right bottom top near far in
    fnear (ortho_near m) N (19 * u * F) /\ fnear (ortho_far m) F (23 * u * F) /\
    fnear (ortho_left m) L (11 * u * (R + L)) /\ fnear (ortho_right m) R (11 * u * (R + L)) /\
    fnear (ortho_bottom m) B (11 * u * (T + B)) /\ fnear (ortho_top m) T (11 * u * (T + B)).
Proof.
  intros prec emax Hp He q left right bottom top near far H24 Q1 Hq Fl Fr Fb Ft Fn Ff u L R B T N F (SL & SR & G1) (SB & ST & G2) (SN & SF & NF & KU) m. assert (q0 : (0 <= q)%Z) by lia. assert (Hq4 : (4 * q + 31 <= emax)%Z) by lia.
  assert (NP : 0 < N) by exact (rb_pos q N SN). assert (U : 0 < u) by apply bpow_gt_0. assert (P2 : 0 < u * F) by (apply Rmult_lt_0_compat; lra).
  destruct (o_ends H24 q q0 Hq left right Fl Fr SL SR G1) as (A1 & A2 & _). destruct (o_ends H24 q q0 Hq bottom top Fb Ft SB ST G2) as (A3 & A4 & _). split; [|split; [|split; [|split; [|split]]]].
  - apply (near_weak _ _ _ _ (onear_abs H24 q q0 Hq4 near far Fn Ff SN SF NF KU)). fold u F. lra.
  - apply (near_weak _ _ _ _ (ofar_abs H24 q q0 Hq4 near far Fn Ff SN SF NF KU)). fold u F. lra.
  - exact A2.
  - exact A1.
  - exact A4.
  - exact A3.
Qed.

Section R.
Variables N F L Hi d x p z : R.
Hypothesis N0 : 0 < N.
Hypothesis NF : 2 * N <= F.
Hypothesis S0 : 0 < Hi + L.
Hypothesis d0 : 0 < d.
Lemma depth_back : z = persp_depth N F d -> (/ F - / N) / 2 * z + (/ F + / N) / 2 = / d.
Proof. intros ->. unfold persp_depth. field. lra. Qed.
Lemma side_back : p = persp_side N L Hi d x -> ((Hi + L) * p + (Hi - L)) * / N / 2 * d = x.
Proof. intros ->. unfold persp_side. field. lra. Qed.
Lemma oside_back : p = ortho_side L Hi x -> ((Hi + L) * p + (Hi - L)) / 2 = x.
Proof. intros ->. unfold ortho_side. field. lra. Qed.
Lemma odepth_back : z = ortho_depth N F d -> - (((F - N) * z + (F + N)) / 2) = - d.
Proof. intros ->. unfold ortho_depth. field. lra. Qed.
End R.

(** The code's unproject_point is the arithmetic bounded above. *)
Section E.
Context {prec emax : Z} {Hp : Prec_gt_0 prec} {He : Prec_lt_emax prec emax}.
Notation fl := (binary_float prec emax).
Notation two := (nadd n1 n1 : fl).
Lemma up_eq (m : mat fl 4 4) (c : point fl 3) :
  let PN := persp_near m in let PF := persp_far m in let dn := nmul (nmul two PF) PN in
  let w := nadd (nmul (ndiv (nsub PN PF) dn) (vat c 2)) (ndiv (nadd PF PN) dn) in
  persp_unproject_point m c =
  v3 (nmul (nadd (nmul (ndiv (nadd (persp_right m) (persp_left m)) (nmul two PN)) (vat c 0)) (ndiv (nsub (persp_right m) (persp_left m)) (nmul two PN))) (ndiv n1 w))
     (nmul (nadd (nmul (ndiv (nadd (persp_top m) (persp_bottom m)) (nmul two PN)) (vat c 1)) (ndiv (nsub (persp_top m) (persp_bottom m)) (nmul two PN))) (ndiv n1 w))
     (nmul (nneg n1) (ndiv n1 w)).
Proof. reflexivity. Qed.
Variables left right bottom top near far : fl.
Notation m := (persp_new left right bottom top near far).
Notation o := (ortho_new left right bottom top near far).
Lemma pn_eq : persp_near m = pnear near far. Proof. reflexivity. Qed.
Lemma pf_eq : persp_far m = pfar near far. Proof. reflexivity. Qed.
Lemma pr_eq : persp_right m = pright left right near (persp_near m). Proof. reflexivity. Qed.
Lemma pl_eq : persp_left m = pleft left right near (persp_near m). Proof. reflexivity. Qed.
Lemma pt_eq : persp_top m = pright bottom top near (persp_near m). Proof. reflexivity. Qed.
Lemma pb_eq : persp_bottom m = pleft bottom top near (persp_near m). Proof. reflexivity. Qed.
Lemma unproj_eq (c : point fl 3) : persp_unproject_point m c =
  v3 (pside near far (vat c 2) left right (vat c 0)) (pside near far (vat c 2) bottom top (vat c 1)) (pdepth near far (vat c 2)).
Proof.
  rewrite up_eq. cbv zeta. rewrite pr_eq, pl_eq, pt_eq, pb_eq, pf_eq, pn_eq. unfold pside, pdepth, pnum, pinv, pwt, pc0, pc3s, pc2, pc3, pden. reflexivity.
Qed.
Lemma uo_eq (n : mat fl 4 4) (c : point fl 3) :
  let hf := ndiv n1 two in
  ortho_unproject_point n c =
  v3 (nadd (nmul (nmul hf (nadd (ortho_right n) (ortho_left n))) (vat c 0)) (nmul hf (nsub (ortho_right n) (ortho_left n))))
     (nadd (nmul (nmul hf (nadd (ortho_top n) (ortho_bottom n))) (vat c 1)) (nmul hf (nsub (ortho_top n) (ortho_bottom n))))
     (nadd (nmul (nmul (nneg hf) (nsub (ortho_far n) (ortho_near n))) (vat c 2)) (nmul (nneg hf) (nadd (ortho_far n) (ortho_near n)))).
Proof. reflexivity. Qed.
Lemma on_eq : ortho_near o = onear near far. Proof. reflexivity. Qed.
Lemma of_eq : ortho_far o = ofar near far. Proof. reflexivity. Qed.
Lemma or_eq : ortho_right o = oright left right. Proof. reflexivity. Qed.
Lemma ol_eq : ortho_left o = oleft left right. Proof. reflexivity. Qed.
Lemma ot_eq : ortho_top o = oright bottom top. Proof. reflexivity. Qed.
Lemma ob_eq : ortho_bottom o = oleft bottom top. Proof. reflexivity. Qed.
Lemma ounproj_eq (c : point fl 3) : ortho_unproject_point o c = v3 (oside left right (vat c 0)) (oside bottom top (vat c 1)) (odepth near far (vat c 2)).
Proof. rewrite uo_eq. cbv zeta. rewrite on_eq, of_eq, or_eq, ol_eq, ot_eq, ob_eq. unfold oside, odepth. reflexivity. Qed.
End E.
Lemma v3_at {A : Type} {NA : Num A} (a b c : A) : vat (v3 a b c) 0 = a /\ vat (v3 a b c) 1 = b /\ vat (v3 a b c) 2 = c.
Proof. repeat split. Qed.

Lemma c143_perspective_unproject :
  forall (prec emax : Z) (Hp : Prec_gt_0 prec) (He : Prec_lt_emax prec emax) (q : Z)
    (left right bottom top near far : binary_float prec emax) (c : point (binary_float prec emax) 3) (x y d : R),
    (24 <= prec)%Z -> (1 <= q)%Z -> (6 * q + 31 <= emax)%Z ->
    is_finite left = true -> is_finite right = true -> is_finite bottom = true -> is_finite top = true ->
    is_finite near = true -> is_finite far = true ->
    (forall i, (i < 3)%nat -> is_finite (vat c i) = true /\ Rabs (B2R (vat c i)) <= 5 / 4) ->
    let u := bpow radix2 (- prec) in
    let L := B2R left in let R := B2R right in let B := B2R bottom in let T := B2R top in
    let N := B2R near in let F := B2R far in
    side_range prec q L R -> side_range prec q B T -> depth_range prec q N F ->
    0 < d <= 5 / 4 * F ->
    B2R (vat c 0) = persp_side N L R d x -> B2R (vat c 1) = persp_side N B T d y -> B2R (vat c 2) = persp_depth N F d ->
    let r := persp_unproject_point (persp_new left right bottom top near far) c in
    fnear (vat r 0) x (170 * u * (R + L) * (d / N) ^ 2) /\ fnear (vat r 1) y (170 * u * (T + B) * (d / N) ^ 2) /\
    fnear (vat r 2) (- d) (62 * u * (d * d / N)).
Proof.
  intros prec emax Hp He q left right bottom top near far c x y d H24 Q1 Hq Fl Fr Fb Ft Fn Ff FC u L R B T N F (SL & SR & G1) (SB & ST & G2) (SN & SF & NF & KU) (d0 & dF) E0 E1 E2 r. assert (q0 : (0 <= q)%Z) by lia.
  assert (NP : 0 < N) by exact (rb_pos q N SN). assert (LP : 0 < L) by exact (rb_pos q L SL). assert (RP : 0 < R) by exact (rb_pos q R SR). assert (BP : 0 < B) by exact (rb_pos q B SB). assert (TP : 0 < T) by exact (rb_pos q T ST).
  destruct (FC 0%nat ltac:(lia)) as (F0 & C0). destruct (FC 1%nat ltac:(lia)) as (F1 & C1). destruct (FC 2%nat ltac:(lia)) as (F2 & C2).
  pose proof (depth_back N F d _ NP NF d0 E2) as DW. unfold r. rewrite unproj_eq. destruct (v3_at (pside near far (vat c 2) left right (vat c 0)) (pside near far (vat c 2) bottom top (vat c 1)) (pdepth near far (vat c 2))) as (-> & -> & ->). split; [|split].
  - apply (near_eq _ (((R + L) * B2R (vat c 0) + (R - L)) * / N / 2 * d)); [|apply side_back; [exact NP|lra|exact d0|exact E0]]. eapply near_weak; [exact (pside_near H24 q q0 Hq near far Fn Ff SN SF NF KU (vat c 2) F2 C2 d d0 dF DW left right Fl Fr SL SR G1 (vat c 0) F0 C0)|].
    right. fold u N L R. field. lra.
  - apply (near_eq _ (((T + B) * B2R (vat c 1) + (T - B)) * / N / 2 * d)); [|apply side_back; [exact NP|lra|exact d0|exact E1]]. eapply near_weak; [exact (pside_near H24 q q0 Hq near far Fn Ff SN SF NF KU (vat c 2) F2 C2 d d0 dF DW bottom top Fb Ft SB ST G2 (vat c 1) F1 C1)|].
    right. fold u N T B. field. lra.
  - eapply near_weak; [exact (pdepth_near H24 q q0 Hq near far Fn Ff SN SF NF KU (vat c 2) F2 C2 d d0 dF DW)|]. right. fold u N. field. lra.
Qed.

Lemma c143_orthographic_unproject :
  forall (prec emax : Z) (Hp : Prec_gt_0 prec) (He : Prec_lt_emax prec emax) (q : Z)
    (left right bottom top near far : binary_float prec emax) (c : point (binary_float prec emax) 3) (x y d : R),
    (24 <= prec)%Z -> (1 <= q)%Z -> (6 * q + 31 <= emax)%Z ->
    is_finite left = true -> is_finite right = true -> is_finite bottom = true -> is_finite top = true ->
    is_finite near = true -> is_finite far = true ->
    (forall i, (i < 3)%nat -> is_finite (vat c i) = true /\ Rabs (B2R (vat c i)) <= 5 / 4) ->
    let u := bpow radix2 (- prec) in
    let L := B2R left in let R := B2R right in let B := B2R bottom in let T := B2R top in
    let N := B2R near in let F := B2R far in
    side_range prec q L R -> side_range prec q B T -> depth_range prec q N F ->
    B2R (vat c 0) = ortho_side L R x -> B2R (vat c 1) = ortho_side B T y -> B2R (vat c 2) = ortho_depth N F d ->
    let r := ortho_unproject_point (ortho_new left right bottom top near far) c in
    fnear (vat r 0) x (18 * u * (R + L)) /\ fnear (vat r 1) y (18 * u * (T + B)) /\ fnear (vat r 2) (- d) (52 * u * F).
Proof.
  intros prec emax Hp He q left right bottom top near far c x y d H24 Q1 Hq Fl Fr Fb Ft Fn Ff FC u L R B T N F (SL & SR & G1) (SB & ST & G2) (SN & SF & NF & KU) E0 E1 E2 r. assert (q0 : (0 <= q)%Z) by lia. assert (Hq4 : (4 * q + 31 <= emax)%Z) by lia.
  assert (NP : 0 < N) by exact (rb_pos q N SN). assert (LP : 0 < L) by exact (rb_pos q L SL). assert (RP : 0 < R) by exact (rb_pos q R SR). assert (BP : 0 < B) by exact (rb_pos q B SB). assert (TP : 0 < T) by exact (rb_pos q T ST).
  destruct (FC 0%nat ltac:(lia)) as (F0 & C0). destruct (FC 1%nat ltac:(lia)) as (F1 & C1). destruct (FC 2%nat ltac:(lia)) as (F2 & C2). unfold r. rewrite ounproj_eq. destruct (v3_at (oside left right (vat c 0)) (oside bottom top (vat c 1)) (odepth near far (vat c 2))) as (-> & -> & ->). split; [|split].
  - eapply near_eq; [exact (oside_near H24 q q0 Hq left right Fl Fr SL SR G1 (vat c 0) F0 C0)|apply oside_back; [fold L R; lra|exact E0]].
  - eapply near_eq; [exact (oside_near H24 q q0 Hq bottom top Fb Ft SB ST G2 (vat c 1) F1 C1)|apply oside_back; [fold B T; lra|exact E1]].
  - eapply near_eq; [exact (odepth_near H24 q q0 Hq4 near far Fn Ff SN SF NF KU (vat c 2) F2 C2)|apply odepth_back; [exact NP|exact NF|exact E2]].
Qed.
