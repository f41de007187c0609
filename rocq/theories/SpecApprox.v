(** Specification of componentwise comparison: the list of the scalar components of a composite value, and
    a relation holding of four lists of the same length position by position. *)

From Coq Require Import List.
From Verif Require Import Base MMatrix MComplex MTransform.
Import ListNotations.

Inductive Forall4 {A B C D} (P : A -> B -> C -> D -> Prop) : list A -> list B -> list C -> list D -> Prop :=
| Forall4_nil : Forall4 P [] [] [] []
| Forall4_cons a b c d la lb lc ld :
    P a b c d -> Forall4 P la lb lc ld -> Forall4 P (a :: la) (b :: lb) (c :: lc) (d :: ld).

Fixpoint vcomps {A n} : vec A n -> list A :=
  match n with
  | 0 => fun _ => []
  | S n => fun v => fst v :: vcomps (snd v)
  end.
Definition mcomps {A r c} (m : mat A r c) : list A := concat (map vcomps (vcomps m)).
Definition ccomps {A} (z : complex A) : list A := [re z; im z].
Definition eucomps {A} (e : A * A * A) : list A := [fst (fst e); snd (fst e); snd e].
Definition recomps {A n} (x : reflection A n) : list A := vcomps (re_normal x) ++ vcomps (re_bias x).
Definition shcomps {A n} (x : shear A n) : list A :=
  sh_factor x :: vcomps (sh_origin x) ++ vcomps (sh_direction x) ++ vcomps (sh_normal x).
Definition isocomps {A n} (x : isometry A n) : list A :=
  mcomps (iso_rotation x) ++ vcomps (iso_translation x).
Definition simcomps {A n} (x : similarity A n) : list A :=
  mcomps (iso_rotation (sim_isometry x)) ++ vcomps (iso_translation (sim_isometry x)) ++ [sim_scale x].
