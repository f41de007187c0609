(** C114: the textual form of the types. *)

From Coq Require Import String Ascii List Arith Bool Lia.
From Verif Require Import Base Scalar Spec MVector MMatrix MComplex MQuat MTransform MDisplay SpecText LDisplayP.
Import ListNotations.
Local Open Scope string_scope.

(** ** C114 Display *)

(** For dimensions at least 1 the display functions do not panic and give the name with the dimension and the
    components separated by ", "; a matrix is written column by column. *)
Theorem C114_text_partial :
  forall (K : Type) (NK : Num K) (show : K -> string),
    (forall n (u : vec K n), (0 < n)%nat -> vdisplay show u = Some (vector_text show "Vector" u) /\ pdisplay show u = Some (vector_text show "Point" u)) /\
    (forall r c (m : mat K r c), (0 < r)%nat -> (0 < c)%nat -> mdisplay show m = Some (matrix_text show m)).
Proof. exact c114_text_partial. Qed.
Print Assumptions C114_text_partial.

(** "Display never panics" fails for the types without components: [N - 1] underflows. *)
Theorem C114_never_panics_refuted :
  (forall (K : Type) (show : K -> string) (u : vec K 0), vdisplay show u = None /\ pdisplay show u = None) /\
  (forall (K : Type) (show : K -> string) (r : nat) (m : mat K r 0), mdisplay show m = None) /\
  (forall (K : Type) (show : K -> string) (c : nat) (m : mat K 0 (S c)), mdisplay show m = None).
Proof. exact c114_never_panics_refuted. Qed.
Print Assumptions C114_never_panics_refuted.

(** If the scalar's text determines the scalar and contains no comma, closing bracket or space (true of Rust's number
    formats), then the text of a vector, point, matrix, complex number, quaternion, angle triple or transformation
    determines the value. *)
Theorem C114_injective :
  forall (K : Type) (NK : Num K) (show : K -> string),
    (forall x y, show x = show y -> x = y) -> (forall x, free_of "," (show x) /\ free_of "]" (show x) /\ free_of " " (show x)) ->
    (forall n (u v : vec K (S n)), vdisplay show u = vdisplay show v -> u = v) /\
    (forall n (u v : vec K (S n)), pdisplay show u = pdisplay show v -> u = v) /\
    (forall r c (m w : mat K (S r) (S c)), mdisplay show m = mdisplay show w -> m = w) /\
    (forall z w : complex K, cdisplay show z = cdisplay show w -> z = w) /\
    (forall p q : quat K, qdisplay show p = qdisplay show q -> p = q) /\
    (forall x y : K, degrees_display show x = degrees_display show y -> x = y) /\
    (forall x y : K, radians_display show x = radians_display show y -> x = y) /\
    (forall x y z x' y' z' : K, euler_display (radians_display show) x y z = euler_display (radians_display show) x' y' z' ->
       x = x' /\ y = y' /\ z = z').
Proof. exact c114_injective. Qed.
Print Assumptions C114_injective.

(** The same for the transformations of the transform crate. *)
Theorem C114_transform_injective :
  forall (K : Type) (NK : Num K) (show : K -> string),
    (forall x y, show x = show y -> x = y) -> (forall x, free_of "," (show x) /\ free_of "]" (show x) /\ free_of " " (show x)) ->
    forall n : nat,
    (forall t t' : translation K (S n), translation_display show t = translation_display show t' -> t = t') /\
    (forall t t' : scale K (S n), scale_display show t = scale_display show t' -> t = t') /\
    (forall t t' : rotation K (S n), rotation_display show t = rotation_display show t' -> t = t') /\
    (forall t t' : transform K (S n), transform_display show t = transform_display show t' -> t = t') /\
    (forall t t' : reflection K (S n), reflection_display show t = reflection_display show t' -> t = t') /\
    (forall t t' : shear K (S n), shear_display show t = shear_display show t' -> t = t') /\
    (forall t t' : isometry K (S n), isometry_display show t = isometry_display show t' -> t = t') /\
    (forall t t' : similarity K (S n), similarity_display show t = similarity_display show t' -> t = t') /\
    (forall m w : mat K 4 4, perspective_display show m = perspective_display show w -> m = w) /\
    (forall m w : mat K 4 4, orthographic_display show m = orthographic_display show w -> m = w).
Proof. exact c114_transform_injective. Qed.
Print Assumptions C114_transform_injective.

(** Vectors, points or matrices of different dimensions never have the same text. *)
Theorem C114_dimension :
  forall (K : Type) (NK : Num K) (show : K -> string),
    (forall n m (u : vec K (S n)) (v : vec K (S m)), vdisplay show u = vdisplay show v -> n = m) /\
    (forall n m (u : vec K (S n)) (v : vec K (S m)), pdisplay show u = pdisplay show v -> n = m) /\
    (forall r c r' c' (m : mat K (S r) (S c)) (w : mat K (S r') (S c')), mdisplay show m = mdisplay show w -> r = r' /\ c = c').
Proof. exact c114_dimension. Qed.
Print Assumptions C114_dimension.

(** The texts of the transformations of dimension at least 1: none panics. *)
Theorem C114_transform_text :
  forall (K : Type) (NK : Num K) (show : K -> string) (n : nat), (0 < n)%nat ->
    (forall t : translation K n, translation_display show t = Some ("Translation" ++ decimal n ++ " " ++ vector_text show "Vector" t)) /\
    (forall t : scale K n, scale_display show t = Some ("Scale" ++ decimal n ++ " [" ++ vector_text show "Vector" t ++ "]")) /\
    (forall t : rotation K n, rotation_display show t = Some ("Rotation" ++ decimal n ++ " [" ++ matrix_text show t ++ "]")) /\
    (forall t : transform K n, transform_display show t = Some ("Transform" ++ decimal n ++ " [" ++ matrix_text show t ++ "]")) /\
    (forall t : reflection K n, reflection_display show t =
       Some ("Reflection" ++ decimal n ++ " [normal = " ++ vector_text show "Vector" (re_normal t) ++ ", bias = " ++ vector_text show "Point" (re_bias t) ++ "]")) /\
    (forall t : shear K n, shear_display show t =
       Some ("Shear" ++ decimal n ++ " [shear_factor=" ++ show (sh_factor t) ++ ", origin=" ++ vector_text show "Point" (sh_origin t) ++
             ", direction=" ++ vector_text show "Vector" (sh_direction t) ++ ", normal=" ++ vector_text show "Vector" (sh_normal t) ++ "]")) /\
    (forall t : isometry K n, isometry_display show t =
       Some ("Isometry" ++ decimal n ++ " [rotation=Rotation" ++ decimal n ++ " [" ++ matrix_text show (iso_rotation t) ++
             "], translation=Translation" ++ decimal n ++ " " ++ vector_text show "Vector" (iso_translation t) ++ "]")) /\
    (forall t : similarity K n, similarity_display show t =
       Some ("Similarity" ++ decimal n ++ " [scale=" ++ show (sim_scale t) ++ ", rotation=Rotation" ++ decimal n ++ " [" ++
             matrix_text show (iso_rotation (sim_isometry t)) ++ "], translation=" ++ vector_text show "Vector" (iso_translation (sim_isometry t)) ++ "]")).
Proof. exact c114_transform_text. Qed.
Print Assumptions C114_transform_text.

(** "The text of a value is a single line" holds for vectors, points, complex numbers (if it does for the scalars), but the
    text of every quaternion ends with a newline. *)
Theorem C114_single_line_refuted :
  forall (K : Type) (show : K -> string),
    (forall x, free_of (ascii_of_nat 10) (show x)) ->
    (forall z, free_of (ascii_of_nat 10) (cdisplay show z)) /\
    (forall q : quat K, exists t, qdisplay show q = Some (t ++ String (ascii_of_nat 10) "")).
Proof. exact c114_single_line_refuted. Qed.
Print Assumptions C114_single_line_refuted.

(** With booleans shown as 0 and 1. *)
Example C114_example :
  let show := fun b : bool => if b then "1" else "0" in
  vdisplay show (v3 true false true) = Some "Vector3 [1, 0, 1]" /\
  mdisplay show (m2new_b true false true true) = Some "Matrix2x2 [[1, 0], [1, 1]]" /\
  cdisplay show (mkC true false) = "1 + i0" /\ (forall x, free_of "," (show x) /\ free_of "]" (show x) /\ free_of " " (show x)).
Proof. exact c114_example. Qed.
