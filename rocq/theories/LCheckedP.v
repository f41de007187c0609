(** Proofs of the property theorems about integers with overflow checks (C121). *)

From Coq Require Import Arith ZArith Bool Lia.
From Verif Require Import Base Scalar Spec MInt MVector MMatrix MComplex MQuat MChecked
  LBase LVector LMatrix LMatrixDet LQuat LInt LChecked.

Ltac step := first
  [ apply (rel_add exact_rel exadd) | apply (rel_sub exact_rel exsub) | apply (rel_mul exact_rel exmul)
  | apply (rel_neg exact_rel exneg) | apply (rel_sum exact_rel ex0 exadd); intros
  | apply (rel0 exact_rel ex0) ].
Ltac leaf := apply rel_some; reflexivity.
Ltac isat := first [assumption | auto with arith].
Ltac exs := repeat (first [rewrite vat_vin by isat | rewrite mget_min by isat]); repeat step; leaf.

(** A checked sum of checked terms panics exactly when a term or a partial sum does not fit. *)
Lemma checked_sum_some {s w} m (p : nat -> Z) (f : nat -> option (wint s w)) y :
  (forall i, (i < m)%nat -> f i = chk s w (p i)) -> sum m f = Some y -> wval y = sum m p.
Proof.
  revert y. induction m as [|m IH]; intros y Hf H.
  - cbn in H. injection H as <-. exact ex0.
  - cbn [sum] in H. destruct (sum m f) as [a|] eqn:E; [|discriminate].
    rewrite (Hf m) in H by lia. destruct (chk s w (p m)) as [b|] eqn:F; [|discriminate].
    apply chk_some in F. cbn in H. apply chk_some in H. destruct F as [_ F], H as [_ ->].
    rewrite (IH a); [rewrite F; reflexivity|auto|reflexivity].
Qed.
Lemma checked_sum_none {s w} n m (p : nat -> Z) (f : nat -> option (wint s w)) :
  (m <= n)%nat -> (forall i, (i < n)%nat -> f i = chk s w (p i)) ->
  (sum m f = None <-> exists i, (i < m)%nat /\ (~ wfits s w (p i) \/ ~ wfits s w (sum (S i) p))).
Proof.
  intros Hm Hf. induction m as [|m IH].
  - split; [discriminate|]. intros (i & Hi & _). lia.
  - specialize (IH ltac:(lia)). cbn [sum]. destruct (sum m f) as [a|] eqn:E.
    + assert (Ea := checked_sum_some m p f a (fun i Hi => Hf i ltac:(lia)) E).
      rewrite (Hf m) by lia. split.
      * intros H. exists m. split; [lia|]. destruct (chk s w (p m)) as [b|] eqn:F.
        -- right. apply chk_some in F. destruct F as [_ F]. cbn in H. apply chk_none in H.
           cbn [sum]. rewrite <- Ea, <- F. exact H.
        -- left. apply chk_none. exact F.
      * intros (i & Hi & H). destruct (Nat.eq_dec i m) as [->|Ne].
        -- destruct (chk s w (p m)) as [b|] eqn:F; [|reflexivity].
           apply chk_some in F. destruct F as [F1 F2]. destruct H as [H|H]; [contradiction|].
           cbn. apply chk_none. rewrite Ea, F2. exact H.
        -- exfalso. assert (W : Some a = None) by (apply IH; exists i; split; [lia|exact H]). discriminate.
    + split; [intros _|reflexivity]. destruct (proj1 IH eq_refl) as (i & Hi & H). exists i. split; [lia|exact H].
Qed.

Lemma c121_never_wrong :
  forall (signed : bool) (w : positive) (r n c : nat),
    let I := wint signed w in
    (forall (u v t : vec I n), k_vadd u v = Some t ->
       forall i, (i < n)%nat -> wval (vat t i) = (wval (vat u i) + wval (vat v i))%Z) /\
    (forall (u v t : vec I n), k_vsub u v = Some t ->
       forall i, (i < n)%nat -> wval (vat t i) = (wval (vat u i) - wval (vat v i))%Z) /\
    (forall (u t : vec I n), k_vneg u = Some t ->
       forall i, (i < n)%nat -> wval (vat t i) = (- wval (vat u i))%Z) /\
    (forall (u t : vec I n) (a : I), k_vmul_s u a = Some t ->
       forall i, (i < n)%nat -> wval (vat t i) = (wval (vat u i) * wval a)%Z) /\
    (forall (u v : vec I n) (x : I), k_vdot u v = Some x ->
       wval x = sum n (fun i => (wval (vat u i) * wval (vat v i))%Z)) /\
    (forall (a b t : mat I r c), k_madd a b = Some t ->
       forall j i, (j < c)%nat -> (i < r)%nat -> wval (mget t j i) = (wval (mget a j i) + wval (mget b j i))%Z) /\
    (forall (a b t : mat I r c), k_msub a b = Some t ->
       forall j i, (j < c)%nat -> (i < r)%nat -> wval (mget t j i) = (wval (mget a j i) - wval (mget b j i))%Z) /\
    (forall (a : mat I r n) (b : mat I n c) (t : mat I r c), k_mmul a b = Some t ->
       forall j i, (j < c)%nat -> (i < r)%nat ->
         wval (mget t j i) = sum n (fun k => (wval (mget a k i) * wval (mget b j k))%Z)) /\
    (forall (a : mat I r c) (v : vec I c) (t : vec I r), k_mmulv a v = Some t ->
       forall i, (i < r)%nat -> wval (vat t i) = sum c (fun k => (wval (mget a k i) * wval (vat v k))%Z)) /\
    (forall (a : mat I n n) (x : I), k_mtrace a = Some x -> wval x = sum n (fun i => wval (mget a i i))).
Proof.
  intros s w r n c I. subst I. repeat split; intros.
  - revert i H0. apply (vx _ _ _ H). intros i Hi. rewrite vat_vadd by exact Hi. exs.
  - revert i H0. apply (vx _ _ _ H). intros i Hi. rewrite vat_vsub by exact Hi. exs.
  - revert i H0. apply (vx _ _ _ H). intros i Hi. rewrite vat_vneg by exact Hi. exs.
  - revert i H0. apply (vx _ _ _ H). intros i Hi. rewrite vat_vmul_s by exact Hi. exs.
  - unfold k_vdot in H. rewrite vdot_sum in H. revert x H. apply (rel_sum exact_rel ex0 exadd). intros i Hi. exs.
  - revert j i H0 H1. apply (mx _ _ _ H). intros j i Hj Hi. rewrite mget_madd by assumption. exs.
  - revert j i H0 H1. apply (mx _ _ _ H). intros j i Hj Hi. rewrite mget_msub by assumption. exs.
  - revert j i H0 H1. apply (mx _ _ (fun j i => sum n (fun k => (wval (mget a k i) * wval (mget b j k))%Z)) H). intros j i Hj Hi. rewrite mget_mmul by assumption.
    apply (rel_sum exact_rel ex0 exadd). intros k Hk. exs.
  - revert i H0. apply (vx _ _ (fun i => sum c (fun k => (wval (mget a k i) * wval (vat v k))%Z)) H). intros i Hi. rewrite vat_mmulv by exact Hi.
    apply (rel_sum exact_rel ex0 exadd). intros k Hk. exs.
  - unfold k_mtrace in H. rewrite mtrace_sum in H. revert x H. apply (rel_sum exact_rel ex0 exadd). intros i Hi. exs.
Qed.

Lemma c121_never_wrong_products :
  forall (signed : bool) (w : positive),
    let I := wint signed w in
    (forall (m : mat I 2 2) (x : I), k_m2det m = Some x -> wval x = laplace 2 (fun i j => wval (mget m j i))) /\
    (forall (m : mat I 3 3) (x : I), k_m3det m = Some x -> wval x = laplace 3 (fun i j => wval (mget m j i))) /\
    (forall (m : mat I 4 4) (x : I), k_m4det m = Some x -> wval x = laplace 4 (fun i j => wval (mget m j i))) /\
    (forall (u v t : vec I 3), k_vcross u v = Some t ->
       let a i := wval (vat u i) in let b i := wval (vat v i) in
       wval (vat t 0) = (a 1%nat * b 2%nat - a 2%nat * b 1%nat)%Z /\
       wval (vat t 1) = (a 2%nat * b 0%nat - a 0%nat * b 2%nat)%Z /\
       wval (vat t 2) = (a 0%nat * b 1%nat - a 1%nat * b 0%nat)%Z) /\
    (forall (z z' t : complex I), k_cmul z z' = Some t ->
       wval (re t) = (wval (re z) * wval (re z') - wval (im z) * wval (im z'))%Z /\
       wval (im t) = (wval (re z) * wval (im z') + wval (im z) * wval (re z'))%Z) /\
    (forall (p q t : quat I), k_qmul p q = Some t ->
       let a i := wval (vat (p : vec I 4) i) in let b i := wval (vat (q : vec I 4) i) in
       let d i := wval (vat (t : vec I 4) i) in
       (d 0%nat = a 0%nat * b 0%nat - a 1%nat * b 1%nat - a 2%nat * b 2%nat - a 3%nat * b 3%nat)%Z /\
       (d 1%nat = a 0%nat * b 1%nat + a 1%nat * b 0%nat + a 2%nat * b 3%nat - a 3%nat * b 2%nat)%Z /\
       (d 2%nat = a 0%nat * b 2%nat + a 2%nat * b 0%nat + a 3%nat * b 1%nat - a 1%nat * b 3%nat)%Z /\
       (d 3%nat = a 0%nat * b 3%nat + a 3%nat * b 0%nat + a 1%nat * b 2%nat - a 2%nat * b 1%nat)%Z).
Proof.
  intros s w I. subst I. split; [|split; [|split; [|split; [|split]]]].
  - intros m x H. transitivity (m2det (zmat m)).
    + revert x H. apply (det2_rel (rel exact_rel)); try (intros; step; assumption).
      intros j i Hj Hi. rewrite mget_min, mget_zmat by assumption. leaf.
    + rewrite m2det_laplace. destruct m as [[? [? []]] [[? [? []]] []]]. reflexivity.
  - intros m x H. transitivity (m3det (zmat m)).
    + revert x H. apply (det3_rel (rel exact_rel)); try (intros; step; assumption).
      intros j i Hj Hi. rewrite mget_min, mget_zmat by assumption. leaf.
    + rewrite m3det_laplace. destruct m as [[? [? [? []]]] [[? [? [? []]]] [[? [? [? []]]] []]]]. reflexivity.
  - intros m x H. transitivity (m4det (zmat m)).
    + revert x H. apply (det4_rel (rel exact_rel)); try (intros; step; assumption).
      intros j i Hj Hi. rewrite mget_min, mget_zmat by assumption. leaf.
    + rewrite m4det_laplace.
      destruct m as [[? [? [? [? []]]]] [[? [? [? [? []]]]] [[? [? [? [? []]]]] [[? [? [? [? []]]]] []]]]]. reflexivity.
  - intros u v t H a b. subst a b. cbv beta. unfold k_vcross in H.
    assert (X : forall (e : option (wint s w)) x z, rel exact_rel e z -> e = Some x -> wval x = z) by (intros e x z Hr He; exact (Hr _ He)).
    repeat split; (eapply X; [|apply (vall_vat _ _ _ _ H); lia]);
    destruct u as [u0 [u1 [u2 []]]], v as [x0 [x1 [x2 []]]]; cbn -[nadd nsub nmul Z.mul Z.sub]; repeat step; leaf.
  - intros z z' t H. unfold k_cmul, call in H. cbn [cmul re im] in H.
    destruct (nsub _ _) as [x|] eqn:E1 in H; [|discriminate].
    destruct (nadd _ _) as [y|] eqn:E2 in H; [|discriminate].
    injection H as <-. cbn [re im]. split.
    + revert x E1. repeat step; leaf.
    + revert y E2. repeat step; leaf.
  - intros p q t H a b d. unfold k_qmul in H.
    destruct (qmul_vat (vin (p : vec _ 4) : quat _) (vin (q : vec _ 4))) as (Q0 & Q1 & Q2 & Q3).
    assert (V0 := vall_vat _ _ _ 0 H ltac:(lia)). assert (V1 := vall_vat _ _ _ 1 H ltac:(lia)).
    assert (V2 := vall_vat _ _ _ 2 H ltac:(lia)). assert (V3 := vall_vat _ _ _ 3 H ltac:(lia)).
    rewrite Q0 in V0. rewrite Q1 in V1. rewrite Q2 in V2. rewrite Q3 in V3. clear Q0 Q1 Q2 Q3.
    repeat rewrite vat_vin in V0, V1, V2, V3 by lia.
    assert (X : forall (e : option (wint s w)) x z z', rel exact_rel e z -> e = Some x -> z = z' -> wval x = z')
      by (intros e x z z' Hr He <-; exact (Hr _ He)).
    subst a b d. cbv beta.
    repeat split; [refine (X _ _ _ _ _ V0 _)|refine (X _ _ _ _ _ V1 _)|refine (X _ _ _ _ _ V2 _)|refine (X _ _ _ _ _ V3 _)];
    try (repeat step; leaf); cbv [nadd nsub nmul n0 num_Z]; ring.
Qed.

Lemma c121_agrees_with_release :
  forall (signed : bool) (w : positive) (r n c : nat),
    let I := wint signed w in
    (forall (u v t : vec I n), k_vadd u v = Some t -> t = vadd u v) /\
    (forall (u v t : vec I n), k_vsub u v = Some t -> t = vsub u v) /\
    (forall (u t : vec I n), k_vneg u = Some t -> t = vneg u) /\
    (forall (u t : vec I n) (a : I), k_vmul_s u a = Some t -> t = vmul_s u a) /\
    (forall (u v : vec I n) (x : I), k_vdot u v = Some x -> x = vdot u v) /\
    (forall (u v t : vec I 3), k_vcross u v = Some t -> t = vcross u v) /\
    (forall (a b t : mat I r c), k_madd a b = Some t -> t = madd a b) /\
    (forall (a b t : mat I r c), k_msub a b = Some t -> t = msub a b) /\
    (forall (a : mat I r n) (b : mat I n c) (t : mat I r c), k_mmul a b = Some t -> t = mmul a b) /\
    (forall (a : mat I r c) (v : vec I c) (t : vec I r), k_mmulv a v = Some t -> t = mmulv a v) /\
    (forall (a : mat I n n) (x : I), k_mtrace a = Some x -> x = mtrace a) /\
    (forall (m : mat I 2 2) (x : I), k_m2det m = Some x -> x = m2det m) /\
    (forall (m : mat I 3 3) (x : I), k_m3det m = Some x -> x = m3det m) /\
    (forall (m : mat I 4 4) (x : I), k_m4det m = Some x -> x = m4det m) /\
    (forall (z z' t : complex I), k_cmul z z' = Some t -> t = cmul z z') /\
    (forall (p q t : quat I), k_qmul p q = Some t -> t = qmul p q).
Proof.
  intros s w r n c I. subst I.
  assert (W0 : wrap_rel (wof s w 0) n0) by reflexivity.
  assert (Wa : forall x y a b : wint s w, wrap_rel x a -> wrap_rel y b -> wfits s w (wval x + wval y) ->
     wrap_rel (wof s w (wval x + wval y)) (nadd a b)) by (unfold wrap_rel; intros; subst; reflexivity).
  assert (Ws : forall x y a b : wint s w, wrap_rel x a -> wrap_rel y b -> wfits s w (wval x - wval y) ->
     wrap_rel (wof s w (wval x - wval y)) (nsub a b)) by (unfold wrap_rel; intros; subst; reflexivity).
  assert (Wm : forall x y a b : wint s w, wrap_rel x a -> wrap_rel y b -> wfits s w (wval x * wval y) ->
     wrap_rel (wof s w (wval x * wval y)) (nmul a b)) by (unfold wrap_rel; intros; subst; reflexivity).
  assert (Wn : forall x a : wint s w, wrap_rel x a -> wfits s w (- wval x) ->
     wrap_rel (wof s w (- wval x)) (nneg a)) by (unfold wrap_rel; intros; subst; reflexivity).
  assert (V : forall n (v : vec (option (wint s w)) n) t t', vall v = Some t ->
     (forall i, (i < n)%nat -> rel wrap_rel (vat v i) (vat t' i)) -> t = t').
  { intros n' v t t' H R. apply vat_ext. intros i Hi. apply (R i Hi). apply vall_vat; auto. }
  assert (M : forall r c (m : mat (option (wint s w)) r c) t t', mall m = Some t ->
     (forall j i, (j < c)%nat -> (i < r)%nat -> rel wrap_rel (mget m j i) (mget t' j i)) -> t = t').
  { intros r' c' m t t' H R. apply mat_ext. intros j i Hj Hi. apply (R j i Hj Hi). apply mall_mget; auto. }
  assert (Ra := rel_add wrap_rel Wa). assert (Rs := rel_sub wrap_rel Ws). assert (Rm := rel_mul wrap_rel Wm).
  assert (Rn := rel_neg wrap_rel Wn). assert (Rz := rel0 wrap_rel W0).
  assert (Rl : forall x : wint s w, rel wrap_rel (Some x) x) by (intros x; apply rel_some; reflexivity).
  assert (Sm := rel_sum wrap_rel W0 Wa).
  Ltac go Ra Rs Rm Rn Rz Rl :=
    repeat (first [rewrite vat_vin by isat | rewrite mget_min by isat]);
    repeat (first [apply Ra | apply Rs | apply Rm | apply Rn | apply Rz]); apply Rl.
  assert (E : forall (e : option (wint s w)) x z, rel wrap_rel e z -> e = Some x -> x = z) by (intros e x z Hr He; exact (Hr _ He)).
  repeat split.
  - intros u v t H. apply (V _ _ _ _ H). intros i Hi. rewrite !vat_vadd by exact Hi. go Ra Rs Rm Rn Rz Rl.
  - intros u v t H. apply (V _ _ _ _ H). intros i Hi. rewrite !vat_vsub by exact Hi. go Ra Rs Rm Rn Rz Rl.
  - intros u t H. apply (V _ _ _ _ H). intros i Hi. rewrite !vat_vneg by exact Hi. go Ra Rs Rm Rn Rz Rl.
  - intros u t a H. apply (V _ _ _ _ H). intros i Hi. rewrite !vat_vmul_s by exact Hi. go Ra Rs Rm Rn Rz Rl.
  - intros u v x H. refine (E _ _ _ _ H). unfold k_vdot. rewrite !vdot_sum. apply Sm. intros i Hi. go Ra Rs Rm Rn Rz Rl.
  - intros u v t H. apply (V _ _ _ _ H). intros i Hi.
    destruct u as [u0 [u1 [u2 []]]], v as [x0 [x1 [x2 []]]].
    destruct i as [|[|[|i]]]; [| | |lia]; cbn -[nadd nsub nmul]; go Ra Rs Rm Rn Rz Rl.
  - intros a b t H. apply (M _ _ _ _ _ H). intros j i Hj Hi. rewrite !mget_madd by assumption. go Ra Rs Rm Rn Rz Rl.
  - intros a b t H. apply (M _ _ _ _ _ H). intros j i Hj Hi. rewrite !mget_msub by assumption. go Ra Rs Rm Rn Rz Rl.
  - intros a b t H. apply (M _ _ _ _ _ H). intros j i Hj Hi. rewrite !mget_mmul by assumption.
    apply Sm. intros k Hk. go Ra Rs Rm Rn Rz Rl.
  - intros a v t H. apply (V _ _ _ _ H). intros i Hi. rewrite !vat_mmulv by exact Hi.
    apply Sm. intros k Hk. go Ra Rs Rm Rn Rz Rl.
  - intros a x H. refine (E _ _ _ _ H). unfold k_mtrace. rewrite !mtrace_sum. apply Sm. intros i Hi. go Ra Rs Rm Rn Rz Rl.
  - intros m x H. refine (E _ _ _ _ H). apply (det2_rel (rel wrap_rel)); auto.
    intros j i Hj Hi. go Ra Rs Rm Rn Rz Rl.
  - intros m x H. refine (E _ _ _ _ H). apply (det3_rel (rel wrap_rel)); auto.
    intros j i Hj Hi. go Ra Rs Rm Rn Rz Rl.
  - intros m x H. refine (E _ _ _ _ H). apply (det4_rel (rel wrap_rel)); auto.
    intros j i Hj Hi. go Ra Rs Rm Rn Rz Rl.
  - intros z z' t H. unfold k_cmul, call in H. cbn [cmul re im cin] in H.
    destruct (nsub _ _) as [x|] eqn:E1 in H; [|discriminate].
    destruct (nadd _ _) as [y|] eqn:E2 in H; [|discriminate].
    injection H as <-. unfold cmul. f_equal.
    + refine (E _ _ _ _ E1). go Ra Rs Rm Rn Rz Rl.
    + refine (E _ _ _ _ E2). go Ra Rs Rm Rn Rz Rl.
  - intros p q t H. apply (V 4%nat _ _ _ H). intros i Hi.
    destruct (qmul_vat (vin (p : vec _ 4) : quat _) (vin (q : vec _ 4))) as (Q0 & Q1 & Q2 & Q3).
    destruct (qmul_vat p q) as (P0 & P1 & P2 & P3).
    destruct i as [|[|[|[|i]]]]; [rewrite Q0, P0|rewrite Q1, P1|rewrite Q2, P2|rewrite Q3, P3|lia]; go Ra Rs Rm Rn Rz Rl.
Qed.

Lemma c121_componentwise_panics_iff :
  forall (signed : bool) (w : positive) (n r c : nat),
    let I := wint signed w in
    (forall u v : vec I n, k_vadd u v = None <->
       exists i, (i < n)%nat /\ ~ wfits signed w (wval (vat u i) + wval (vat v i))) /\
    (forall u v : vec I n, k_vsub u v = None <->
       exists i, (i < n)%nat /\ ~ wfits signed w (wval (vat u i) - wval (vat v i))) /\
    (forall u : vec I n, k_vneg u = None <->
       exists i, (i < n)%nat /\ ~ wfits signed w (- wval (vat u i))) /\
    (forall (u : vec I n) (a : I), k_vmul_s u a = None <->
       exists i, (i < n)%nat /\ ~ wfits signed w (wval (vat u i) * wval a)) /\
    (forall a b : mat I r c, k_madd a b = None <->
       exists j i, (j < c)%nat /\ (i < r)%nat /\ ~ wfits signed w (wval (mget a j i) + wval (mget b j i))) /\
    (forall a b : mat I r c, k_msub a b = None <->
       exists j i, (j < c)%nat /\ (i < r)%nat /\ ~ wfits signed w (wval (mget a j i) - wval (mget b j i))).
Proof.
  intros s w n r c I. subst I.
  split; [|split; [|split; [|split; [|split]]]]; intros;
  [unfold k_vadd|unfold k_vsub|unfold k_vneg|unfold k_vmul_s|unfold k_madd|unfold k_msub];
  try (rewrite vall_vat_none; split; intros (i & Hi & H); exists i; (split; [exact Hi|]);
       rewrite ?vat_vadd, ?vat_vsub, ?vat_vneg, ?vat_vmul_s in * by exact Hi; repeat rewrite vat_vin in * by exact Hi;
       apply chk_none; exact H);
  (etransitivity; [apply mall_none|]; split; intros (j & i & Hj & Hi & H); exists j, i; (split; [exact Hj|split; [exact Hi|]]);
       rewrite ?mget_madd, ?mget_msub in * by assumption; repeat rewrite mget_min in * by assumption;
       apply chk_none; exact H).
Qed.

Lemma c121_dot_panics_iff :
  forall (signed : bool) (w : positive) (n : nat) (u v : vec (wint signed w) n),
    let p i := (wval (vat u i) * wval (vat v i))%Z in
    k_vdot u v = None <->
    exists i, (i < n)%nat /\ (~ wfits signed w (p i) \/ ~ wfits signed w (sum (S i) p)).
Proof.
  intros s w n u v p. unfold k_vdot. rewrite vdot_sum.
  assert (P : forall i, (i < n)%nat -> nmul (vat (vin u) i) (vat (vin v) i) = chk s w (p i)).
  { intros i Hi. rewrite !vat_vin by exact Hi. reflexivity. }
  exact (checked_sum_none n n p _ (le_n n) P).
Qed.

Lemma c121_matrix_product_panics_iff :
  forall (signed : bool) (w : positive) (r n c : nat) (a : mat (wint signed w) r n) (b : mat (wint signed w) n c)
    (v : vec (wint signed w) n),
    (k_mmul a b = None <->
     exists j i, (j < c)%nat /\ (i < r)%nat /\
       let p k := (wval (mget a k i) * wval (mget b j k))%Z in
       exists k, (k < n)%nat /\ (~ wfits signed w (p k) \/ ~ wfits signed w (sum (S k) p))) /\
    (k_mmulv a v = None <->
     exists i, (i < r)%nat /\
       let p k := (wval (mget a k i) * wval (vat v k))%Z in
       exists k, (k < n)%nat /\ (~ wfits signed w (p k) \/ ~ wfits signed w (sum (S k) p))).
Proof.
  intros s w r n c a b v. split.
  - etransitivity; [apply mall_none|].
    split; intros (j & i & Hj & Hi & H); exists j, i; (split; [exact Hj|split; [exact Hi|]]).
    + rewrite mget_mmul in H by assumption. intros p. refine (proj1 (checked_sum_none n n p _ (le_n n) _) H).
      intros k Hk. rewrite !mget_min by assumption. reflexivity.
    + rewrite mget_mmul by assumption. refine (proj2 (checked_sum_none n n _ _ (le_n n) _) H).
      intros k Hk. rewrite !mget_min by assumption. reflexivity.
  - unfold k_mmulv. rewrite vall_vat_none.
    split; intros (i & Hi & H); exists i; (split; [exact Hi|]).
    + rewrite vat_mmulv in H by assumption. refine (proj1 (checked_sum_none n n (fun k => (wval (mget a k i) * wval (vat v k))%Z) _ (le_n n) _) H).
      intros k Hk. rewrite mget_min, vat_vin by assumption. reflexivity.
    + rewrite vat_mmulv by assumption. refine (proj2 (checked_sum_none n n _ _ (le_n n) _) H).
      intros k Hk. rewrite mget_min, vat_vin by assumption. reflexivity.
Qed.

Lemma c121_unsigned_dot :
  forall (w : positive) (n : nat) (u v : vec (wint false w) n),
    k_vdot u v = None <-> (2 ^ Z.pos w <= sum n (fun i => wval (vat u i) * wval (vat v i)))%Z.
Proof.
  intros w n u v. etransitivity; [apply c121_dot_panics_iff|]. cbv zeta.
  set (p := fun i => (wval (vat u i) * wval (vat v i))%Z).
  assert (Np : forall i, (0 <= p i)%Z).
  { intros i. unfold p. pose proof (wval_range _ _ (vat u i)) as A. pose proof (wval_range _ _ (vat v i)) as B.
    unfold wfits, wmin in A, B. apply Z.mul_nonneg_nonneg; lia. }
  assert (Ns : forall k, (0 <= sum k p)%Z).
  { induction k as [|k IH]; [reflexivity|]. cbn [sum]. change (0 <= sum k p + p k)%Z. specialize (Np k). lia. }
  assert (Ms : forall k l, (k <= l)%nat -> (sum k p <= sum l p)%Z).
  { intros k l H. induction H as [|l H IH]; [lia|]. cbn [sum]. change (sum k p <= sum l p + p l)%Z. specialize (Np l). lia. }
  assert (Mp : forall i k, (i < k)%nat -> (p i <= sum k p)%Z).
  { intros i k H. specialize (Ms (S i) k H). cbn [sum] in Ms. change (sum i p + p i <= sum k p)%Z in Ms.
    specialize (Ns i). lia. }
  unfold wfits, wmin, wmodulus. split.
  - intros (i & Hi & [H|H]).
    + specialize (Np i). specialize (Mp i n Hi). lia.
    + specialize (Ns (S i)). specialize (Ms (S i) n Hi). lia.
  - intros H. destruct n as [|n].
    + cbn [sum] in H. change (2 ^ Z.pos w <= 0)%Z in H. pose proof (Z.pow_pos_nonneg 2 (Z.pos w)). lia.
    + exists n. split; [lia|]. right. lia.
Qed.

Lemma c121_no_panic :
  forall (w : positive) (r n c : nat) (a b : Z),
    (0 <= a)%Z -> (0 <= b)%Z ->
    let I := wint true w in
    let top := (2 ^ (Z.pos w - 1))%Z in
    let vle {n} (u : vec I n) x := forall i, (i < n)%nat -> (Z.abs (wval (vat u i)) <= x)%Z in
    let mle {r c} (m : mat I r c) x := forall j i, (j < c)%nat -> (i < r)%nat -> (Z.abs (wval (mget m j i)) <= x)%Z in
    ((a + b < top)%Z -> forall u v : vec I n, vle u a -> vle v b -> k_vadd u v <> None /\ k_vsub u v <> None) /\
    ((Z.of_nat n * (a * b) < top)%Z ->
       (forall u v : vec I n, vle u a -> vle v b -> k_vdot u v <> None) /\
       (forall (x : mat I r n) (y : mat I n c), mle x a -> mle y b -> k_mmul x y <> None) /\
       (forall (x : mat I r n) (v : vec I n), mle x a -> vle v b -> k_mmulv x v <> None)) /\
    ((2 * (a * b) < top)%Z ->
       (forall u v : vec I 3, vle u a -> vle v b -> k_vcross u v <> None) /\
       (forall z z' : complex I, (Z.abs (wval (re z)) <= a)%Z -> (Z.abs (wval (im z)) <= a)%Z ->
          (Z.abs (wval (re z')) <= b)%Z -> (Z.abs (wval (im z')) <= b)%Z -> k_cmul z z' <> None)) /\
    ((4 * (a * b) < top)%Z -> forall p q : quat I, vle (p : vec I 4) a -> vle (q : vec I 4) b -> k_qmul p q <> None) /\
    ((2 * (a * a) < top)%Z -> forall m : mat I 2 2, mle m a -> k_m2det m <> None) /\
    ((1 <= a)%Z -> (6 * (a * a * a) < top)%Z -> forall m : mat I 3 3, mle m a -> k_m3det m <> None) /\
    ((1 <= a)%Z -> (24 * (a * a * a * a) < top)%Z -> forall m : mat I 4 4, mle m a -> k_m4det m <> None).
Proof.
  intros w r n c a b Ha Hb I top vle mle. subst I.
  assert (Ne : forall n (v : vec (option (wint true w)) n) x, (forall i, (i < n)%nat -> bd (vat v i) x) -> vall v <> None).
  { intros n' v x H E. apply vall_vat_none in E. destruct E as (i & Hi & E). exact (bd_none _ _ (H i Hi) E). }
  assert (Me : forall r c (m : mat (option (wint true w)) r c) x,
     (forall j i, (j < c)%nat -> (i < r)%nat -> bd (mget m j i) x) -> mall m <> None).
  { intros r' c' m x H E. apply mall_none in E. destruct E as (j & i & Hj & Hi & E). exact (bd_none _ _ (H j i Hj Hi) E). }
  assert (ab : (0 <= a * b)%Z) by (apply Z.mul_nonneg_nonneg; assumption).
  assert (Lv : forall n (u : vec (wint true w) n) x i, vle n u x -> (i < n)%nat -> bd (vat (vin u) i) x).
  { intros n' u x i H Hi. rewrite vat_vin by exact Hi. apply bd_some. auto. }
  assert (Lm : forall r c (m : mat (wint true w) r c) x j i, mle r c m x -> (j < c)%nat -> (i < r)%nat -> bd (mget (min_ m) j i) x).
  { intros r' c' m x j i H Hj Hi. rewrite mget_min by assumption. apply bd_some. auto. }
  split; [|split; [|split; [|split; [|split; [|split]]]]].
  - intros H u v Hu Hv. split; apply (Ne _ _ (a + b)%Z); intros i Hi;
    rewrite ?vat_vadd, ?vat_vsub by exact Hi;
    [eapply bd_add|eapply bd_sub]; try (apply Lv; eassumption); try exact H; lia.
  - intros H.
    assert (Pm : forall x y : option (wint true w), bd x a -> bd y b -> (0 < n)%nat -> bd (nmul x y) (a * b)%Z).
    { intros x y Hx Hy Hn. eapply bd_mul; [exact Hx|exact Hy|lia|]. unfold top in H. nia. }
    split; [|split].
    + intros u v Hu Hv. unfold k_vdot. rewrite vdot_sum. apply (bd_none _ (Z.of_nat n * (a * b))).
      apply bd_sum; [exact ab| |exact H]. intros i Hi. apply Pm; [apply Lv; assumption|apply Lv; assumption|lia].
    + intros x y Hx Hy. apply (Me _ _ _ (Z.of_nat n * (a * b))%Z). intros j i Hj Hi. rewrite mget_mmul by assumption.
      apply bd_sum; [exact ab| |exact H]. intros k Hk. apply Pm; [apply Lm; assumption|apply Lm; assumption|lia].
    + intros x v Hx Hv. apply (Ne _ _ (Z.of_nat n * (a * b))%Z). intros i Hi. rewrite vat_mmulv by assumption.
      apply bd_sum; [exact ab| |exact H]. intros k Hk. apply Pm; [apply Lm; assumption|apply Lv; assumption|lia].
  - intros H. assert (Pm : forall x y : option (wint true w), bd x a -> bd y b -> bd (nmul x y) (a * b)%Z)
      by (intros x y Hx Hy; eapply bd_mul; [exact Hx|exact Hy|lia|unfold top in H; lia]).
    assert (Pn : forall x y : option (wint true w), bd x b -> bd y a -> bd (nmul x y) (a * b)%Z)
      by (intros x y Hx Hy; eapply bd_mul; [exact Hx|exact Hy|lia|unfold top in H; lia]).
    split.
    + intros u v Hu Hv. apply (Ne _ _ (2 * (a * b))%Z). intros i Hi.
      destruct i as [|[|[|i]]]; [| | |lia]; unfold vcross; cbv zeta; unfold v3; unfold vat at 1; cbn [vget fst snd];
      (eapply bd_sub; [apply Pm; apply Lv; auto with arith|apply Pm; apply Lv; auto with arith|lia|exact H]).
    + intros z z' H1 H2 H3 H4. unfold k_cmul, call, cmul, cin; cbn [re im].
      assert (B1 : bd (nsub (nmul (Some (re z)) (Some (re z'))) (nmul (Some (im z)) (Some (im z')))) (2 * (a * b))).
      { eapply bd_sub; [apply Pm; apply bd_some; assumption|apply Pm; apply bd_some; assumption|lia|exact H]. }
      assert (B2 : bd (nadd (nmul (Some (re z)) (Some (im z'))) (nmul (Some (im z)) (Some (re z')))) (2 * (a * b))).
      { eapply bd_add; [apply Pm; apply bd_some; assumption|apply Pm; apply bd_some; assumption|lia|exact H]. }
      destruct B1 as (? & -> & _), B2 as (? & -> & _). discriminate.
  - intros H p q Hp Hq. apply (Ne 4%nat _ (4 * (a * b))%Z). intros i Hi.
    assert (Pm : forall x y : option (wint true w), bd x a -> bd y b -> bd (nmul x y) (a * b)%Z)
      by (intros x y Hx Hy; eapply bd_mul; [exact Hx|exact Hy|lia|unfold top in H; lia]).
    assert (Pn : forall x y : option (wint true w), bd x b -> bd y a -> bd (nmul x y) (a * b)%Z)
      by (intros x y Hx Hy; eapply bd_mul; [exact Hx|exact Hy|lia|unfold top in H; lia]).
    assert (p0 := Lv _ _ _ 0%nat Hp ltac:(lia)). assert (p1 := Lv _ _ _ 1%nat Hp ltac:(lia)).
    assert (p2 := Lv _ _ _ 2%nat Hp ltac:(lia)). assert (p3 := Lv _ _ _ 3%nat Hp ltac:(lia)).
    assert (q0 := Lv _ _ _ 0%nat Hq ltac:(lia)). assert (q1 := Lv _ _ _ 1%nat Hq ltac:(lia)).
    assert (q2 := Lv _ _ _ 2%nat Hq ltac:(lia)). assert (q3 := Lv _ _ _ 3%nat Hq ltac:(lia)).
    assert (A2 : forall (x y : option (wint true w)), bd x (a * b) -> bd y (a * b) -> bd (nadd x y) (2 * (a * b))%Z)
      by (intros x y Hx Hy; eapply bd_add; [exact Hx|exact Hy|lia|unfold top in H; lia]).
    assert (S2 : forall (x y : option (wint true w)), bd x (a * b) -> bd y (a * b) -> bd (nsub x y) (2 * (a * b))%Z)
      by (intros x y Hx Hy; eapply bd_sub; [exact Hx|exact Hy|lia|unfold top in H; lia]).
    assert (A4 : forall (x y : option (wint true w)), bd x (2 * (a * b)) -> bd y (2 * (a * b)) -> bd (nadd x y) (4 * (a * b))%Z)
      by (intros x y Hx Hy; eapply bd_add; [exact Hx|exact Hy|lia|exact H]).
    destruct (qmul_vat (vin (p : vec _ 4) : quat _) (vin (q : vec _ 4))) as (Q0 & Q1 & Q2 & Q3).
    destruct i as [|[|[|[|i]]]]; [rewrite Q0|rewrite Q1|rewrite Q2|rewrite Q3|lia].
    + eapply (bd_sub _ _ (a * b) (3 * (a * b))); [apply Pm; assumption| |lia|exact H].
      eapply (bd_add _ _ (2 * (a * b)) (a * b)); [|apply Pm; assumption|lia|unfold top in H; lia].
      eapply (bd_add _ _ (a * b) (a * b)); [|apply Pm; assumption|lia|unfold top in H; lia].
      eapply (bd_add _ _ 0 (a * b)); [apply bd0; lia|apply Pm; assumption|lia|unfold top in H; lia].
    + apply A4; [apply A2|apply S2]; first [apply Pm; assumption | apply Pn; assumption].
    + apply A4; [apply A2|apply S2]; first [apply Pm; assumption | apply Pn; assumption].
    + apply A4; [apply A2|apply S2]; first [apply Pm; assumption | apply Pn; assumption].
  - intros H m Hm. unfold k_m2det, m2det. apply (bd_none _ (2 * (a * a))).
    assert (Pm : forall x y : option (wint true w), bd x a -> bd y a -> bd (nmul x y) (a * a)%Z)
      by (intros x y Hx Hy; eapply bd_mul; [exact Hx|exact Hy|lia|unfold top in H; nia]).
    eapply bd_sub; [apply Pm; apply Lm; auto with arith|apply Pm; apply Lm; auto with arith|lia|exact H].
  - intros A1 H m Hm. unfold k_m3det, m3det. apply (bd_none _ (6 * (a * a * a))).
    set (t := (a * a * a)%Z) in *.
    assert (At : (a * a <= t)%Z) by (unfold t; nia).
    assert (t0 : (0 <= t)%Z) by nia.
    assert (P3 : forall x y z : option (wint true w), bd x a -> bd y a -> bd z a -> bd (nmul (nmul x y) z) t).
    { intros x y z Hx Hy Hz. eapply (bd_mul _ _ (a * a) a); [|exact Hz|unfold t; lia|unfold top in H; lia].
      eapply bd_mul; [exact Hx|exact Hy|lia|unfold top in H; lia]. }
    assert (Q3 : forall j i j' i' j'' i'', (j < 3)%nat -> (i < 3)%nat -> (j' < 3)%nat -> (i' < 3)%nat -> (j'' < 3)%nat -> (i'' < 3)%nat ->
       bd (nmul (nmul (mget (min_ m) j i) (mget (min_ m) j' i')) (mget (min_ m) j'' i'')) t)
      by (intros; apply P3; apply Lm; assumption).
    eapply (bd_sub _ _ (5 * t) t); [|apply Q3; auto with arith|lia|exact H].
    eapply (bd_add _ _ (4 * t) t); [|apply Q3; auto with arith|lia|unfold top in H; lia].
    eapply (bd_add _ _ (3 * t) t); [|apply Q3; auto with arith|lia|unfold top in H; lia].
    eapply (bd_sub _ _ (2 * t) t); [|apply Q3; auto with arith|lia|unfold top in H; lia].
    eapply (bd_sub _ _ t t); [apply Q3; auto with arith|apply Q3; auto with arith|lia|unfold top in H; lia].
  - intros A1 H m Hm. unfold k_m4det, m4det. apply (bd_none _ (24 * (a * a * a * a))).
    set (t := (a * a * a * a)%Z) in *.
    assert (At : (a * a <= a * a * a)%Z) by nia.
    assert (Au : (a * a * a <= t)%Z) by (unfold t; nia).
    assert (t0 : (0 <= t)%Z) by nia.
    assert (P4 : forall x y z z' : option (wint true w), bd x a -> bd y a -> bd z a -> bd z' a -> bd (nmul (nmul (nmul x y) z) z') t).
    { intros x y z z' Hx Hy Hz Hz'. eapply (bd_mul _ _ (a * a * a) a); [|exact Hz'|unfold t; lia|unfold top in H; lia].
      eapply (bd_mul _ _ (a * a) a); [|exact Hz|lia|unfold top in H; lia].
      eapply bd_mul; [exact Hx|exact Hy|lia|unfold top in H; lia]. }
    assert (L : forall j i, (j < 4)%nat -> (i < 4)%nat -> bd (mget (min_ m) j i) a) by (intros; apply Lm; assumption).
    assert (Q4 : forall j i j' i' j'' i'' k l, (j < 4)%nat -> (i < 4)%nat -> (j' < 4)%nat -> (i' < 4)%nat -> (j'' < 4)%nat -> (i'' < 4)%nat ->
       (k < 4)%nat -> (l < 4)%nat ->
       bd (nmul (nmul (nmul (mget (min_ m) j i) (mget (min_ m) j' i')) (mget (min_ m) j'' i'')) (mget (min_ m) k l)) t)
      by (intros; apply P4; apply L; assumption).
    clear - Q4 H t0.
    Ltac d4 t n Q4 H := lazymatch n with
      | 1%Z => replace (1 * t)%Z with t by lia; apply Q4; auto with arith
      | _ => let k := eval compute in (n - 1)%Z in
        first [eapply (bd_sub _ _ (k * t) t) | eapply (bd_add _ _ (k * t) t)];
        [d4 t k Q4 H|apply Q4; auto with arith|lia|lia] end.
    unfold top in H. d4 t 24%Z Q4 H.
Qed.

Lemma c121_dot_example :
  (let u := v2 (wof true 8 100) (wof true 8 (-20)) in let v := v2 (wof true 8 2) (wof true 8 5) in
   k_vdot u v = None /\ wval (vdot u v) = 100%Z) /\
  option_map wval (k_vdot (v2 (wof true 8 10) (wof true 8 (-20))) (v2 (wof true 8 2) (wof true 8 5))) = Some (-80)%Z /\
  option_map wval (k_vdot (v2 (wof false 8 15) (wof false 8 6)) (v2 (wof false 8 15) (wof false 8 5))) = Some 255%Z.
Proof.
  repeat split; vm_compute; reflexivity.
Qed.

Lemma c121_examples :
  k_vcross (v3 (wof false 32 1) (wof false 32 0) (wof false 32 0)) (v3 (wof false 32 0) (wof false 32 0) (wof false 32 1)) = None /\
  k_vneg (v1 (wof true 8 (-128))) = None /\ option_map (vmap wval) (k_vneg (v1 (wof true 8 127))) = Some (v1 (-127)%Z) /\
  k_vadd (v2 (wof true 8 100) (wof true 8 1)) (v2 (wof true 8 28) (wof true 8 1)) = None /\
  (forall m : mat (wint true 32) 3 3,
     (forall j i, (j < 3)%nat -> (i < 3)%nat -> (Z.abs (wval (mget m j i)) <= 700)%Z) -> k_m3det m <> None).
Proof.
  split; [vm_compute; reflexivity|]. split; [vm_compute; reflexivity|].
  split; [vm_compute; reflexivity|]. split; [vm_compute; reflexivity|].
  apply (c121_no_panic 32 0 0 0 700 0); lia.
Qed.
