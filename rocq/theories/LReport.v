(** Reports are componentwise, and show what failed. *)

From Coq Require Import List Arith Bool Lia Reals Lra.
From Verif Require Import Base Scalar MVector MMatrix MComplex MQuat MTransform MMisc MApprox SpecApprox LApprox
  MReport SpecReport.
Import ListNotations.

Lemma zip2_app {A B C} (f : A -> B -> C) la lb la' lb' : length la = length lb ->
  zip2 f (la ++ la') (lb ++ lb') = zip2 f la lb ++ zip2 f la' lb'.
Proof.
  revert lb. induction la as [|a la IH]; intros [|b lb]; cbn; try discriminate; auto.
  intros H. f_equal. apply IH. lia.
Qed.

Lemma zip3_app {A B C D} (f : A -> B -> C -> D) la lb lc la' lb' lc' :
  length la = length lb -> length la = length lc ->
  zip3 f (la ++ la') (lb ++ lb') (lc ++ lc') = zip3 f la lb lc ++ zip3 f la' lb' lc'.
Proof.
  revert lb lc. induction la as [|a la IH]; intros [|b lb] [|c lc]; cbn; try discriminate; auto.
  intros H G. f_equal. apply IH; lia.
Qed.

(** ** Components *)
Section Diff.
Context {K D : Type} (f : K -> K -> D).
Lemma vdiff_comps n (x y : vec K n) : vcomps (vdiff f x y) = zip2 f (vcomps x) (vcomps y).
Proof. unfold vdiff. induction n as [|n IH]; cbn; [reflexivity|]. f_equal. apply IH. Qed.
Lemma mdiff_comps r c (x y : mat K r c) : mcomps (mdiff f x y) = zip2 f (mcomps x) (mcomps y).
Proof.
  unfold mcomps, mdiff, mat in *. induction c as [|c IH]; cbn; [reflexivity|].
  rewrite zip2_app by (rewrite !vcomps_length; reflexivity). f_equal; [apply (vdiff_comps r)|]. apply IH.
Qed.
Lemma isodiff_comps n (x y : isometry K n) : isocomps (isodiff f x y) = zip2 f (isocomps x) (isocomps y).
Proof.
  unfold isocomps. cbn. rewrite zip2_app by (rewrite !mcomps_length; reflexivity).
  f_equal; [apply mdiff_comps|apply vdiff_comps].
Qed.
End Diff.
Section Tol.
Context {K T E : Type} (h : K -> K -> T -> E).
Lemma vtol_comps n (x y : vec K n) t : vcomps (vtol h x y t) = zip3 h (vcomps x) (vcomps y) (vcomps t).
Proof. unfold vtol. induction n as [|n IH]; cbn; [reflexivity|]. f_equal. apply IH. Qed.
Lemma mtol_comps r c (x y : mat K r c) t : mcomps (mtol h x y t) = zip3 h (mcomps x) (mcomps y) (mcomps t).
Proof.
  unfold mcomps, mtol, mat in *. induction c as [|c IH]; cbn; [reflexivity|].
  rewrite zip3_app by (rewrite !vcomps_length; reflexivity). f_equal; [apply (vtol_comps r)|]. apply IH.
Qed.
Lemma isotol_comps n (x y : isometry K n) t :
  isocomps (isotol h x y t) = zip3 h (isocomps x) (isocomps y) (isocomps t).
Proof.
  unfold isocomps. cbn. rewrite zip3_app by (rewrite !mcomps_length; reflexivity).
  f_equal; [apply mtol_comps|apply vtol_comps].
Qed.
End Tol.
Section All.
Context {K T E : Type} (h : K -> K -> T -> E) (t : T).
Notation g := (fun a b => h a b t).
Lemma vtol_all_comps n (x y : vec K n) : vcomps (vtol_all h x y t) = zip2 g (vcomps x) (vcomps y).
Proof. unfold vtol_all. induction n as [|n IH]; cbn; [reflexivity|]. f_equal. apply IH. Qed.
Lemma mtol_all_comps r c (x y : mat K r c) : mcomps (mtol_all h x y t) = zip2 g (mcomps x) (mcomps y).
Proof.
  unfold mcomps, mtol_all, mat in *. induction c as [|c IH]; cbn; [reflexivity|].
  rewrite zip2_app by (rewrite !vcomps_length; reflexivity). f_equal; [apply (vtol_all_comps r)|]. apply IH.
Qed.
Lemma isotol_all_comps n (x y : isometry K n) :
  isocomps (isotol_all h x y t) = zip2 g (isocomps x) (isocomps y).
Proof.
  unfold isocomps. cbn. rewrite zip2_app by (rewrite !mcomps_length; reflexivity).
  f_equal; [apply mtol_all_comps|apply vtol_all_comps].
Qed.
End All.

Theorem c150_differences (K D : Type) (f : K -> K -> D) :
  (forall n (x y : vec K n), vcomps (vdiff f x y) = zip2 f (vcomps x) (vcomps y)) /\
  (forall n (x y : vec K n), vcomps (pdiff f x y) = zip2 f (vcomps x) (vcomps y)) /\
  (forall x y : quat K, @vcomps D 4 (qdiff f x y) = zip2 f (@vcomps K 4 x) (@vcomps K 4 y)) /\
  (forall r c (x y : mat K r c), mcomps (mdiff f x y) = zip2 f (mcomps x) (mcomps y)) /\
  (forall x y : complex K, ccomps (cdiff f x y) = zip2 f (ccomps x) (ccomps y)) /\
  (forall x y : K * K * K, eucomps (eudiff f x y) = zip2 f (eucomps x) (eucomps y)) /\
  (forall n (x y : reflection K n), recomps (rediff f x y) = zip2 f (recomps x) (recomps y)) /\
  (forall n (x y : shear K n), shcomps (shdiff f x y) = zip2 f (shcomps x) (shcomps y)) /\
  (forall n (x y : isometry K n), isocomps (isodiff f x y) = zip2 f (isocomps x) (isocomps y)) /\
  (forall n (x y : similarity K n), simcomps (simdiff f x y) = zip2 f (simcomps x) (simcomps y)).
Proof.
  split; [intros; apply vdiff_comps|]. split; [intros; apply vdiff_comps|].
  split; [intros; apply (vdiff_comps f 4)|]. split; [intros; apply mdiff_comps|].
  split; [reflexivity|]. split; [intros [[a b] c] [[a' b'] c']; reflexivity|].
  split; [intros; unfold recomps; cbn; rewrite zip2_app by (rewrite !vcomps_length; reflexivity);
          f_equal; apply vdiff_comps|].
  split; [intros; unfold shcomps; cbn; f_equal; rewrite !zip2_app by (rewrite !vcomps_length; reflexivity);
          repeat f_equal; apply vdiff_comps|].
  split; [intros; apply isodiff_comps|].
  intros. unfold simcomps. cbn. rewrite zip2_app by (rewrite !mcomps_length; reflexivity).
  rewrite zip2_app by (rewrite !vcomps_length; reflexivity). f_equal; [apply mdiff_comps|].
  f_equal; apply vdiff_comps.
Qed.

Theorem c150_tolerances (K T E : Type) (h : K -> K -> T -> E) :
  (forall n (x y : vec K n) t, vcomps (vtol h x y t) = zip3 h (vcomps x) (vcomps y) (vcomps t)) /\
  (forall n (x y : vec K n) t, vcomps (ptol h x y t) = zip3 h (vcomps x) (vcomps y) (vcomps t)) /\
  (forall (x y : quat K) t, @vcomps E 4 (qtol h x y t) = zip3 h (@vcomps K 4 x) (@vcomps K 4 y) (@vcomps T 4 t)) /\
  (forall r c (x y : mat K r c) t, mcomps (mtol h x y t) = zip3 h (mcomps x) (mcomps y) (mcomps t)) /\
  (forall (x y : complex K) t, ccomps (ctol h x y t) = zip3 h (ccomps x) (ccomps y) (ccomps t)) /\
  (forall (x y : K * K * K) t, eucomps (eutol h x y t) = zip3 h (eucomps x) (eucomps y) (eucomps t)) /\
  (forall n (x y : reflection K n) t, recomps (retol h x y t) = zip3 h (recomps x) (recomps y) (recomps t)) /\
  (forall n (x y : shear K n) t, shcomps (shtol h x y t) = zip3 h (shcomps x) (shcomps y) (shcomps t)) /\
  (forall n (x y : isometry K n) t, isocomps (isotol h x y t) = zip3 h (isocomps x) (isocomps y) (isocomps t)) /\
  (forall n (x y : similarity K n) t, simcomps (simtol h x y t) = zip3 h (simcomps x) (simcomps y) (simcomps t)).
Proof.
  split; [intros; apply vtol_comps|]. split; [intros; apply vtol_comps|].
  split; [intros; apply (vtol_comps h 4)|]. split; [intros; apply mtol_comps|].
  split; [reflexivity|]. split; [intros [[a b] c] [[a' b'] c'] [[a2 b2] c2]; reflexivity|].
  split; [intros; unfold recomps; cbn; rewrite zip3_app by (rewrite !vcomps_length; reflexivity);
          f_equal; apply vtol_comps|].
  split; [intros; unfold shcomps; cbn; f_equal; rewrite !zip3_app by (rewrite !vcomps_length; reflexivity);
          repeat f_equal; apply vtol_comps|].
  split; [intros; apply isotol_comps|].
  intros. unfold simcomps. cbn. rewrite zip3_app by (rewrite !mcomps_length; reflexivity).
  rewrite zip3_app by (rewrite !vcomps_length; reflexivity). f_equal; [apply mtol_comps|].
  f_equal; apply vtol_comps.
Qed.

Theorem c150_all_tolerances (K T E : Type) (h : K -> K -> T -> E) (t : T) :
  let g := fun a b => h a b t in
  (forall n (x y : vec K n), vcomps (vtol_all h x y t) = zip2 g (vcomps x) (vcomps y)) /\
  (forall n (x y : vec K n), vcomps (ptol_all h x y t) = zip2 g (vcomps x) (vcomps y)) /\
  (forall x y : quat K, @vcomps E 4 (qtol_all h x y t) = zip2 g (@vcomps K 4 x) (@vcomps K 4 y)) /\
  (forall r c (x y : mat K r c), mcomps (mtol_all h x y t) = zip2 g (mcomps x) (mcomps y)) /\
  (forall x y : complex K, ccomps (ctol_all h x y t) = zip2 g (ccomps x) (ccomps y)) /\
  (forall x y : K * K * K, eucomps (eutol_all h x y t) = zip2 g (eucomps x) (eucomps y)) /\
  (forall n (x y : reflection K n), recomps (retol_all h x y t) = zip2 g (recomps x) (recomps y)) /\
  (forall n (x y : shear K n), shcomps (shtol_all h x y t) = zip2 g (shcomps x) (shcomps y)) /\
  (forall n (x y : isometry K n), isocomps (isotol_all h x y t) = zip2 g (isocomps x) (isocomps y)) /\
  (forall n (x y : similarity K n), simcomps (simtol_all h x y t) = zip2 g (simcomps x) (simcomps y)).
Proof.
  intros g. unfold g.
  split; [intros; apply vtol_all_comps|]. split; [intros; apply vtol_all_comps|].
  split; [intros; apply (vtol_all_comps h t 4)|]. split; [intros; apply mtol_all_comps|].
  split; [reflexivity|]. split; [intros [[a b] c] [[a' b'] c']; reflexivity|].
  split; [intros; unfold recomps; cbn; rewrite zip2_app by (rewrite !vcomps_length; reflexivity);
          f_equal; apply vtol_all_comps|].
  split; [intros; unfold shcomps; cbn; f_equal; rewrite !zip2_app by (rewrite !vcomps_length; reflexivity);
          repeat f_equal; apply vtol_all_comps|].
  split; [intros; apply isotol_all_comps|].
  intros. unfold simcomps. cbn. rewrite zip2_app by (rewrite !mcomps_length; reflexivity).
  rewrite zip2_app by (rewrite !vcomps_length; reflexivity). f_equal; [apply mtol_all_comps|].
  f_equal; apply vtol_all_comps.
Qed.

(** ** Failures *)
Section Fail.
Context {K T U D D' E E' : Type}.
Variables (f : K -> K -> D) (g : K -> K -> D') (h : K -> K -> T -> E) (k : K -> K -> U -> E').
Variables (chk : D -> D' -> E -> E' -> bool) (cmp : K -> K -> T -> U -> bool).
Hypothesis Hc : forall a b t w, cmp a b t w = chk (f a b) (g a b) (h a b t) (k a b w).

Lemma fail4 (r : bool) la lb lc ld :
  length la = length lb -> length la = length lc -> length la = length ld ->
  (r = true <-> Forall4 (fun x y t w => cmp x y t w = true) la lb lc ld) ->
  (r = false <-> bad_position chk (zip2 f la lb) (zip2 g la lb) (zip3 h la lb lc) (zip3 k la lb ld)).
Proof.
  intros H1 H2 H3 Hr.
  assert (G : ~ Forall4 (fun x y t w => cmp x y t w = true) la lb lc ld <->
    bad_position chk (zip2 f la lb) (zip2 g la lb) (zip3 h la lb lc) (zip3 k la lb ld)).
  { clear Hr r. revert lb lc ld H1 H2 H3.
    induction la as [|a la IH]; intros [|b lb] [|c lc] [|e ld]; cbn; try discriminate.
    - intros _ _ _. split; [intros H; exfalso; apply H; constructor|].
      intros (i & a & b & c & e & Ha & _). destruct i; discriminate.
    - intros H1 H2 H3. injection H1 as H1. injection H2 as H2. injection H3 as H3.
      rewrite Forall4_cons_iff. destruct (cmp a b c e) eqn:Ec.
      + specialize (IH lb lc ld H1 H2 H3). split.
        * intros H. destruct (proj1 IH) as (i & p & q & s & u & G); [tauto|].
          exists (S i), p, q, s, u. exact G.
        * intros (i & p & q & s & u & G1 & G2 & G3 & G4 & G5) [_ F]. destruct i as [|i].
          -- cbn in G1, G2, G3, G4. injection G1 as <-. injection G2 as <-. injection G3 as <-. injection G4 as <-.
             rewrite <- Hc in G5. congruence.
          -- apply (proj2 IH); [|exact F]. exists i, p, q, s, u. auto.
      + split; [|intros _ [F _]; discriminate]. intros _.
        exists 0, (f a b), (g a b), (h a b c), (k a b e). cbn. rewrite <- Hc. auto. }
  rewrite <- G, <- Hr. destruct r; split; intros H; try reflexivity; try discriminate.
  exfalso; apply H; reflexivity.
Qed.
End Fail.

Lemma recomps_length {A n} (x : reflection A n) : length (recomps x) = n + n.
Proof. unfold recomps. rewrite app_length, !vcomps_length. reflexivity. Qed.
Lemma shcomps_length {A n} (x : shear A n) : length (shcomps x) = S (n + (n + n)).
Proof. unfold shcomps. cbn. rewrite !app_length, !vcomps_length. reflexivity. Qed.
Lemma isocomps_length {A n} (x : isometry A n) : length (isocomps x) = n * n + n.
Proof. unfold isocomps. rewrite app_length, mcomps_length, vcomps_length. reflexivity. Qed.
Lemma simcomps_length {A n} (x : similarity A n) : length (simcomps x) = n * n + (n + 1).
Proof. unfold simcomps. rewrite !app_length, mcomps_length, vcomps_length. reflexivity. Qed.

Ltac lens := rewrite ?recomps_length, ?shcomps_length, ?isocomps_length, ?simcomps_length, ?mcomps_length,
  ?vcomps_length; reflexivity.

Theorem c150_failure_is_shown (K T U D D' E E' : Type) (d : K) (dt : T) (du : U)
    (f : K -> K -> D) (g : K -> K -> D') (h : K -> K -> T -> E) (k : K -> K -> U -> E')
    (chk : D -> D' -> E -> E' -> bool) (cmp : K -> K -> T -> U -> bool) :
  (forall a b t w, cmp a b t w = chk (f a b) (g a b) (h a b t) (k a b w)) ->
  (forall n (x y : vec K n) t w, vapprox d dt du cmp x y t w = false <->
     bad_position chk (vcomps (vdiff f x y)) (vcomps (vdiff g x y)) (vcomps (vtol h x y t)) (vcomps (vtol k x y w))) /\
  (forall n (x y : vec K n) t w, papprox d dt du cmp x y t w = false <->
     bad_position chk (vcomps (pdiff f x y)) (vcomps (pdiff g x y)) (vcomps (ptol h x y t)) (vcomps (ptol k x y w))) /\
  (forall (x y : quat K) t w, qapprox d dt du cmp x y t w = false <->
     bad_position chk (@vcomps D 4 (qdiff f x y)) (@vcomps D' 4 (qdiff g x y))
       (@vcomps E 4 (qtol h x y t)) (@vcomps E' 4 (qtol k x y w))) /\
  (forall r c (x y : mat K r c) t w, mapprox d dt du cmp x y t w = false <->
     bad_position chk (mcomps (mdiff f x y)) (mcomps (mdiff g x y)) (mcomps (mtol h x y t)) (mcomps (mtol k x y w))) /\
  (forall (x y : complex K) t w, capprox cmp x y t w = false <->
     bad_position chk (ccomps (cdiff f x y)) (ccomps (cdiff g x y)) (ccomps (ctol h x y t)) (ccomps (ctol k x y w))) /\
  (forall (x y : K * K * K) t w, euapprox cmp x y t w = false <->
     bad_position chk (eucomps (eudiff f x y)) (eucomps (eudiff g x y)) (eucomps (eutol h x y t)) (eucomps (eutol k x y w))) /\
  (forall n (x y : reflection K n) t w, reapprox d dt du cmp x y t w = false <->
     bad_position chk (recomps (rediff f x y)) (recomps (rediff g x y)) (recomps (retol h x y t)) (recomps (retol k x y w))) /\
  (forall n (x y : shear K n) t w, shapprox d dt du cmp x y t w = false <->
     bad_position chk (shcomps (shdiff f x y)) (shcomps (shdiff g x y)) (shcomps (shtol h x y t)) (shcomps (shtol k x y w))) /\
  (forall n (x y : isometry K n) t w, isoapprox d dt du cmp x y t w = false <->
     bad_position chk (isocomps (isodiff f x y)) (isocomps (isodiff g x y))
       (isocomps (isotol h x y t)) (isocomps (isotol k x y w))) /\
  (forall n (x y : similarity K n) t w, simapprox d dt du cmp x y t w = false <->
     bad_position chk (simcomps (simdiff f x y)) (simcomps (simdiff g x y))
       (simcomps (simtol h x y t)) (simcomps (simtol k x y w))).
Proof.
  intros Hc.
  destruct (c150_differences K D f) as (F1 & F2 & F3 & F4 & F5 & F6 & F7 & F8 & F9 & F10).
  destruct (c150_differences K D' g) as (G1 & G2 & G3 & G4 & G5 & G6 & G7 & G8 & G9 & G10).
  destruct (c150_tolerances K T E h) as (H1 & H2 & H3 & H4 & H5 & H6 & H7 & H8 & H9 & H10).
  destruct (c150_tolerances K U E' k) as (J1 & J2 & J3 & J4 & J5 & J6 & J7 & J8 & J9 & J10).
  split; [intros; rewrite F1, G1, H1, J1; apply (fail4 f g h k chk cmp Hc); try lens; apply vapprox_spec|].
  split; [intros; rewrite F2, G2, H2, J2; apply (fail4 f g h k chk cmp Hc); try lens; apply vapprox_spec|].
  split; [intros; rewrite F3, G3, H3, J3; apply (fail4 f g h k chk cmp Hc); try reflexivity;
          apply (vapprox_spec d dt du cmp 4)|].
  split; [intros; rewrite F4, G4, H4, J4; apply (fail4 f g h k chk cmp Hc); try lens; apply mapprox_spec|].
  split; [intros; rewrite F5, G5, H5, J5; apply (fail4 f g h k chk cmp Hc); try reflexivity; apply capprox_spec|].
  split; [intros; rewrite F6, G6, H6, J6; apply (fail4 f g h k chk cmp Hc); try reflexivity; apply euapprox_spec|].
  split; [intros; rewrite F7, G7, H7, J7; apply (fail4 f g h k chk cmp Hc); try lens; apply reapprox_spec|].
  split; [intros; rewrite F8, G8, H8, J8; apply (fail4 f g h k chk cmp Hc); try lens; apply shapprox_spec|].
  split; [intros; rewrite F9, G9, H9, J9; apply (fail4 f g h k chk cmp Hc); try lens; apply isoapprox_spec|].
  intros; rewrite F10, G10, H10, J10; apply (fail4 f g h k chk cmp Hc); try lens; apply simapprox_spec.
Qed.

(** The same with one scalar tolerance. *)
Section FailAll.
Context {K T U D D' E E' : Type}.
Variables (f : K -> K -> D) (g : K -> K -> D') (h : K -> K -> T -> E) (k : K -> K -> U -> E') (t : T) (w : U).
Variables (chk : D -> D' -> E -> E' -> bool) (cmp : K -> K -> T -> U -> bool).
Hypothesis Hc : forall a b, cmp a b t w = chk (f a b) (g a b) (h a b t) (k a b w).

Lemma fail2 (r : bool) la lb :
  length la = length lb ->
  (r = true <-> Forall2 (fun x y => cmp x y t w = true) la lb) ->
  (r = false <-> bad_position chk (zip2 f la lb) (zip2 g la lb) (zip2 (fun a b => h a b t) la lb)
     (zip2 (fun a b => k a b w) la lb)).
Proof.
  intros H1 Hr.
  assert (G : ~ Forall2 (fun x y => cmp x y t w = true) la lb <->
    bad_position chk (zip2 f la lb) (zip2 g la lb) (zip2 (fun a b => h a b t) la lb)
     (zip2 (fun a b => k a b w) la lb)).
  { clear Hr r. revert lb H1.
    induction la as [|a la IH]; intros [|b lb]; cbn; try discriminate.
    - intros _. split; [intros H; exfalso; apply H; constructor|].
      intros (i & a & b & c & e & Ha & _). destruct i; discriminate.
    - intros H1. injection H1 as H1.
      rewrite Forall2_cons_iff'. destruct (cmp a b t w) eqn:Ec.
      + specialize (IH lb H1). split.
        * intros H. destruct (proj1 IH) as (i & p & q & s & u & G); [tauto|].
          exists (S i), p, q, s, u. exact G.
        * intros (i & p & q & s & u & G1 & G2 & G3 & G4 & G5) [_ F]. destruct i as [|i].
          -- cbn in G1, G2, G3, G4. injection G1 as <-. injection G2 as <-. injection G3 as <-. injection G4 as <-.
             rewrite <- Hc in G5. congruence.
          -- apply (proj2 IH); [|exact F]. exists i, p, q, s, u. auto.
      + split; [|intros _ [F _]; discriminate]. intros _.
        exists 0, (f a b), (g a b), (h a b t), (k a b w). cbn. rewrite <- Hc. auto. }
  rewrite <- G, <- Hr. destruct r; split; intros H; try reflexivity; try discriminate.
  exfalso; apply H; reflexivity.
Qed.
End FailAll.

Theorem c150_all_failure_is_shown (K T U D D' E E' : Type) (d : K)
    (f : K -> K -> D) (g : K -> K -> D') (h : K -> K -> T -> E) (k : K -> K -> U -> E') (t : T) (w : U)
    (chk : D -> D' -> E -> E' -> bool) (cmp : K -> K -> T -> U -> bool) :
  (forall a b, cmp a b t w = chk (f a b) (g a b) (h a b t) (k a b w)) ->
  (forall n (x y : vec K n), vapprox_all d cmp x y t w = false <->
     bad_position chk (vcomps (vdiff f x y)) (vcomps (vdiff g x y))
       (vcomps (vtol_all h x y t)) (vcomps (vtol_all k x y w))) /\
  (forall n (x y : vec K n), papprox_all d cmp x y t w = false <->
     bad_position chk (vcomps (pdiff f x y)) (vcomps (pdiff g x y))
       (vcomps (ptol_all h x y t)) (vcomps (ptol_all k x y w))) /\
  (forall x y : quat K, qapprox_all d cmp x y t w = false <->
     bad_position chk (@vcomps D 4 (qdiff f x y)) (@vcomps D' 4 (qdiff g x y))
       (@vcomps E 4 (qtol_all h x y t)) (@vcomps E' 4 (qtol_all k x y w))) /\
  (forall r c (x y : mat K r c), mapprox_all d cmp x y t w = false <->
     bad_position chk (mcomps (mdiff f x y)) (mcomps (mdiff g x y))
       (mcomps (mtol_all h x y t)) (mcomps (mtol_all k x y w))) /\
  (forall x y : complex K, capprox_all cmp x y t w = false <->
     bad_position chk (ccomps (cdiff f x y)) (ccomps (cdiff g x y))
       (ccomps (ctol_all h x y t)) (ccomps (ctol_all k x y w))) /\
  (forall x y : K * K * K, euapprox_all cmp x y t w = false <->
     bad_position chk (eucomps (eudiff f x y)) (eucomps (eudiff g x y))
       (eucomps (eutol_all h x y t)) (eucomps (eutol_all k x y w))) /\
  (forall n (x y : reflection K n), reapprox_all d cmp x y t w = false <->
     bad_position chk (recomps (rediff f x y)) (recomps (rediff g x y))
       (recomps (retol_all h x y t)) (recomps (retol_all k x y w))) /\
  (forall n (x y : shear K n), shapprox_all d cmp x y t w = false <->
     bad_position chk (shcomps (shdiff f x y)) (shcomps (shdiff g x y))
       (shcomps (shtol_all h x y t)) (shcomps (shtol_all k x y w))) /\
  (forall n (x y : isometry K n), isoapprox_all d cmp x y t w = false <->
     bad_position chk (isocomps (isodiff f x y)) (isocomps (isodiff g x y))
       (isocomps (isotol_all h x y t)) (isocomps (isotol_all k x y w))) /\
  (forall n (x y : similarity K n), simapprox_all d cmp x y t w = false <->
     bad_position chk (simcomps (simdiff f x y)) (simcomps (simdiff g x y))
       (simcomps (simtol_all h x y t)) (simcomps (simtol_all k x y w))).
Proof.
  intros Hc.
  destruct (c150_differences K D f) as (F1 & F2 & F3 & F4 & F5 & F6 & F7 & F8 & F9 & F10).
  destruct (c150_differences K D' g) as (G1 & G2 & G3 & G4 & G5 & G6 & G7 & G8 & G9 & G10).
  destruct (c150_all_tolerances K T E h t) as (H1 & H2 & H3 & H4 & H5 & H6 & H7 & H8 & H9 & H10).
  destruct (c150_all_tolerances K U E' k w) as (J1 & J2 & J3 & J4 & J5 & J6 & J7 & J8 & J9 & J10).
  split; [intros; rewrite F1, G1, H1, J1; apply (fail2 f g h k t w chk cmp Hc); try lens; apply vapprox_all_spec|].
  split; [intros; rewrite F2, G2, H2, J2; apply (fail2 f g h k t w chk cmp Hc); try lens; apply vapprox_all_spec|].
  split; [intros; rewrite F3, G3, H3, J3; apply (fail2 f g h k t w chk cmp Hc); try reflexivity;
          apply (vapprox_all_spec d cmp t w 4)|].
  split; [intros; rewrite F4, G4, H4, J4; apply (fail2 f g h k t w chk cmp Hc); try lens; apply mapprox_all_spec|].
  split; [intros; rewrite F5, G5, H5, J5; apply (fail2 f g h k t w chk cmp Hc); try reflexivity; apply capprox_all_spec|].
  split; [intros; rewrite F6, G6, H6, J6; apply (fail2 f g h k t w chk cmp Hc); try reflexivity; apply euapprox_all_spec|].
  split; [intros; rewrite F7, G7, H7, J7; apply (fail2 f g h k t w chk cmp Hc); try lens; apply reapprox_all_spec|].
  split; [intros; rewrite F8, G8, H8, J8; apply (fail2 f g h k t w chk cmp Hc); try lens; apply shapprox_all_spec|].
  split; [intros; rewrite F9, G9, H9, J9; apply (fail2 f g h k t w chk cmp Hc); try lens; apply isoapprox_all_spec|].
  intros; rewrite F10, G10, H10, J10; apply (fail2 f g h k t w chk cmp Hc); try lens; apply simapprox_all_spec.
Qed.

(** ** Absolute differences of isometries and similarities over the reals *)
Local Open Scope R_scope.

Lemma rabs_within a b t w : rabs_diff_eq a b t = within (rdist a b) (rdist a b) t w.
Proof. reflexivity. Qed.

Lemma vabs_vapprox n (x y t : vec R n) :
  vabs_diff_eq x y t = vapprox 0 0 0 (fun a b t _ => rabs_diff_eq a b t) x y t t.
Proof. reflexivity. Qed.
Lemma vabs_vapprox_all n (x y : vec R n) t :
  vabs_diff_all_eq x y t = vapprox_all 0 (fun a b t (_ : R) => rabs_diff_eq a b t) x y t t.
Proof. reflexivity. Qed.
Lemma mabs_mapprox r c (x y t : mat R r c) :
  mabs_diff_eq x y t = mapprox 0 0 0 (fun a b t _ => rabs_diff_eq a b t) x y t t.
Proof. reflexivity. Qed.
Lemma mabs_mapprox_all r c (x y : mat R r c) t :
  mabs_diff_all_eq x y t = mapprox_all 0 (fun a b t (_ : R) => rabs_diff_eq a b t) x y t t.
Proof. rewrite (mapprox_all_eq 0 0 0). unfold mabs_diff_all_eq. reflexivity. Qed.

Lemma iso_isoapprox n (x y t : isometry R n) :
  iso_abs_diff_eq x y t = isoapprox 0 0 0 (fun a b t _ => rabs_diff_eq a b t) x y t t.
Proof. reflexivity. Qed.
Lemma sim_simapprox n (x y t : similarity R n) :
  sim_abs_diff_eq x y t = simapprox 0 0 0 (fun a b t _ => rabs_diff_eq a b t) x y t t.
Proof. reflexivity. Qed.
Lemma sim_simapprox_all n (x y : similarity R n) t :
  sim_abs_diff_all_eq x y t = simapprox_all 0 (fun a b t (_ : R) => rabs_diff_eq a b t) x y t t.
Proof. unfold sim_abs_diff_all_eq. rewrite mabs_mapprox_all. reflexivity. Qed.


Theorem c150_abs_diff (n : nat) :
  (forall x y t : vec R n, vabs_diff_eq x y t = false <->
     bad_position within (vcomps (vdiff rdist x y)) (vcomps (vdiff rdist x y))
       (vcomps (vtol htol x y t)) (vcomps (vtol htol x y t))) /\
  (forall x y t : isometry R n, iso_abs_diff_eq x y t = false <->
     bad_position within (isocomps (isodiff rdist x y)) (isocomps (isodiff rdist x y))
       (isocomps (isotol htol x y t)) (isocomps (isotol htol x y t))) /\
  (forall x y t : similarity R n, sim_abs_diff_eq x y t = false <->
     bad_position within (simcomps (simdiff rdist x y)) (simcomps (simdiff rdist x y))
       (simcomps (simtol htol x y t)) (simcomps (simtol htol x y t))) /\
  (forall (x y : similarity R n) t, sim_abs_diff_all_eq x y t = false <->
     bad_position within (simcomps (simdiff rdist x y)) (simcomps (simdiff rdist x y))
       (simcomps (simtol_all htol x y t)) (simcomps (simtol_all htol x y t))) /\
  (forall (x y : isometry R n) t, iso_abs_diff_all_eq x y t = false ->
     bad_position within (isocomps (isodiff rdist x y)) (isocomps (isodiff rdist x y))
       (isocomps (isotol_all htol x y t)) (isocomps (isotol_all htol x y t))).
Proof.
  pose (cmp := fun a b t (_ : R) => rabs_diff_eq a b t).
  assert (Hc : forall a b t w, cmp a b t w = within (rdist a b) (rdist a b) (htol a b t) (htol a b w))
    by (intros; reflexivity).
  destruct (c150_failure_is_shown R R R R R R R 0 0 0 rdist rdist htol htol within cmp Hc)
    as (H1 & _ & _ & _ & _ & _ & _ & _ & H9 & H10).
  split; [intros; rewrite vabs_vapprox; apply H1|]. split; [intros; rewrite iso_isoapprox; apply H9|].
  split; [intros; rewrite sim_simapprox; apply H10|].
  split.
  - intros x y t.
    destruct (c150_all_failure_is_shown R R R R R R R 0 rdist rdist htol htol t t within cmp (fun a b => Hc a b t t))
      as (_ & _ & _ & _ & _ & _ & _ & _ & _ & G10).
    rewrite sim_simapprox_all. apply G10.
  - intros x y t F.
    destruct (c150_all_failure_is_shown R R R R R R R 0 rdist rdist htol htol t t within cmp (fun a b => Hc a b t t))
      as (_ & _ & _ & _ & _ & _ & _ & _ & G9 & _).
    apply G9. unfold isoapprox_all. apply andb_false_iff. left.
    unfold iso_abs_diff_all_eq in F. rewrite mabs_mapprox_all in F. exact F.
Qed.

(** The report of [assert_abs_diff_all_eq] on isometries shows a difference beyond its tolerance, and yet the
    assertion passes. *)
Theorem c150_isometry_refuted :
  exists (x y : isometry R 2) (t : R), iso_abs_diff_all_eq x y t = true /\
     bad_position within (isocomps (isodiff rdist x y)) (isocomps (isodiff rdist x y))
       (isocomps (isotol_all htol x y t)) (isocomps (isotol_all htol x y t)).
Proof.
  exists (mkIsometry (v2 1 0) (v2 (v2 1 0) (v2 0 1))), (mkIsometry (v2 0 0) (v2 (v2 1 0) (v2 0 1))), (1/2).
  split.
  - unfold iso_abs_diff_all_eq, mabs_diff_all_eq, mcmp_all. cbn. unfold rabs_diff_eq.
    repeat (destruct (Rle_dec _ _) as [_|N]; [cbn|exfalso; apply N; unfold Rminus; try rewrite Rplus_opp_r; rewrite Rabs_R0; lra]).
    reflexivity.
  - exists 4%nat, 1, 1, (1/2), (1/2). cbn. unfold rdist, htol, within.
    rewrite Rminus_0_r, Rabs_R1. repeat split. destruct (Rle_dec 1 (1/2)); [lra|reflexivity].
Qed.

(** Two complex numbers that differ in the imaginary part: the report names it. *)
Theorem c150_example :
  let x := mkC 1 2 in let y := mkC 1 5 in
  capprox (fun a b t (_ : R) => rabs_diff_eq a b t) x y (mkC 1 1) (mkC 1 1) = false /\
  ccomps (cdiff rdist x y) = [0; 3] /\ ccomps (ctol htol x y (mkC 1 1)) = [1; 1] /\
  bad_position within (ccomps (cdiff rdist x y)) (ccomps (cdiff rdist x y))
    (ccomps (ctol htol x y (mkC 1 1))) (ccomps (ctol htol x y (mkC 1 1))).
Proof.
  intros x y. assert (E0 : rdist 1 1 = 0) by (unfold rdist; rewrite Rminus_diag_eq, Rabs_R0; reflexivity).
  assert (E1 : rdist 2 5 = 3) by (unfold rdist; rewrite Rabs_left; lra).
  assert (B : bad_position within (ccomps (cdiff rdist x y)) (ccomps (cdiff rdist x y))
    (ccomps (ctol htol x y (mkC 1 1))) (ccomps (ctol htol x y (mkC 1 1)))).
  { exists 1%nat, 3, 3, 1, 1. unfold ccomps, x, y, within. cbn. rewrite E1. unfold htol. repeat split.
    destruct (Rle_dec 3 1); [lra|reflexivity]. }
  split; [|split; [unfold ccomps, x, y; cbn; rewrite E0, E1; reflexivity|split; [reflexivity|exact B]]].
  destruct (c150_failure_is_shown R R R R R R R 0 0 0 rdist rdist htol htol within
     (fun a b t (_ : R) => rabs_diff_eq a b t) (fun a b t w => eq_refl))
    as (_ & _ & _ & _ & H5 & _). apply H5. exact B.
Qed.
