(** [fmt::Display] of all types ([to_string], [format!("{}", x)]).  [show] is the [Display] of the scalar; the
    formatter is an output buffer that never fails; [None] models a panic.  The format parameters of the
    outer formatter (width, precision) are not modelled: the code does not pass them on. *)

From Coq Require Import String Arith List DecimalString.
From Verif Require Import Base Scalar MVector MMatrix MComplex MQuat MTransform.
Import ListNotations.
Local Open Scope string_scope.

Definition obind {A B} (x : option A) (f : A -> option B) : option B := match x with Some a => f a | None => None end.

(** A const parameter [{}] of type [usize], in decimal. *)
Definition show_nat (n : nat) : string := NilEmpty.string_of_uint (Nat.to_uint n).

Section Display.
Context {K : Type} (show : K -> string).

(** The common loop: [for i in 0..(N - 1) { write!("{}, ", a[i]) }  write!("{}", a[N - 1])].
    For [N = 0] the subtraction [N - 1] panics (with overflow checks; without them the first access [a[0]] does). *)
Definition fmt_items {n} (a : vec K n) (out : string) : option string :=
  if Nat.eqb n 0 then None else
  obind (for_range_opt (n - 1) (fun i out => obind (vindex a i) (fun x => Some (out ++ show x ++ ", "))) out)
    (fun out => obind (vindex a (n - 1)) (fun x => Some (out ++ show x))).

(** vector.rs 1190-1202, point.rs 545-557. *)
Definition vdisplay {n} (u : vec K n) : option string :=
  obind (fmt_items u ("Vector" ++ show_nat n ++ " [")) (fun out => Some (out ++ "]")).
Definition pdisplay {n} (p : vec K n) : option string :=
  obind (fmt_items p ("Point" ++ show_nat n ++ " [")) (fun out => Some (out ++ "]")).

(** matrix.rs 1534-1558: the columns, each in brackets. *)
Definition mdisplay {r c} (m : mat K r c) : option string :=
  let out := "Matrix" ++ show_nat r ++ "x" ++ show_nat c ++ " [" in
  if Nat.eqb c 0 then None else
  obind (for_range_opt (c - 1) (fun j out =>
      obind (vindex m j) (fun col => obind (fmt_items col (out ++ "[")) (fun out => Some (out ++ "], ")))) out)
    (fun out => obind (vindex m (c - 1)) (fun col => obind (fmt_items col (out ++ "[")) (fun out => Some (out ++ "]" ++ "]")))).

(** complex.rs 2152-2159. *)
Definition cdisplay (z : complex K) : string := show (re z) ++ " + i" ++ show (im z).

(** quaternion.rs 3950-3962: [writeln!], which appends a newline. *)
Definition newline : string := String (Ascii.ascii_of_nat 10) EmptyString.
Definition qdisplay (q : quat K) : option string :=
  let a := q : vec K 4 in
  obind (vindex a 0) (fun s => obind (vindex a 1) (fun x => obind (vindex a 2) (fun y => obind (vindex a 3) (fun z =>
    Some (show s ++ " + [" ++ show x ++ ", " ++ show y ++ ", " ++ show z ++ "]" ++ newline))))).

(** trigonometry lib.rs 772-788 [Degrees], [Radians]; euler.rs 513-520 (the three angles are displayed by
    the [Display] of the angle type). *)
Definition degrees_display (x : K) : string := show x ++ " degrees".
Definition radians_display (x : K) : string := show x ++ " radians".
Definition euler_display (show_angle : K -> string) (x y z : K) : string :=
  "Euler [roll=" ++ show_angle x ++ ", yaw=" ++ show_angle y ++ ", pitch=" ++ show_angle z ++ "]".

(** translation.rs 620-627, scale.rs 621-628, rotation.rs 637-644, transform.rs 377-386. *)
Definition translation_display {n} (t : translation K n) : option string :=
  obind (vdisplay t) (fun v => Some ("Translation" ++ show_nat n ++ " " ++ v)).
Definition scale_display {n} (s : scale K n) : option string :=
  obind (vdisplay s) (fun v => Some ("Scale" ++ show_nat n ++ " [" ++ v ++ "]")).
Definition rotation_display {n} (r : rotation K n) : option string :=
  obind (mdisplay r) (fun m => Some ("Rotation" ++ show_nat n ++ " [" ++ m ++ "]")).
Definition transform_display {n} (t : transform K n) : option string :=
  obind (mdisplay t) (fun m => Some ("Transform" ++ show_nat n ++ " [" ++ m ++ "]")).

(** reflection.rs 608-615, shear.rs 1115-1126. *)
Definition reflection_display {n} (f : reflection K n) : option string :=
  obind (vdisplay (re_normal f)) (fun a => obind (pdisplay (re_bias f)) (fun b =>
    Some ("Reflection" ++ show_nat n ++ " [normal = " ++ a ++ ", bias = " ++ b ++ "]"))).
Definition shear_display {n} (s : shear K n) : option string :=
  obind (pdisplay (sh_origin s)) (fun o => obind (vdisplay (sh_direction s)) (fun d => obind (vdisplay (sh_normal s)) (fun nn =>
    Some ("Shear" ++ show_nat n ++ " [shear_factor=" ++ show (sh_factor s) ++ ", origin=" ++ o ++ ", direction=" ++ d ++ ", normal=" ++ nn ++ "]")))).

(** isometry.rs 828-839, similarity.rs 1101-1112. *)
Definition isometry_display {n} (f : isometry K n) : option string :=
  obind (rotation_display (iso_rotation f)) (fun r => obind (translation_display (iso_translation f)) (fun t =>
    Some ("Isometry" ++ show_nat n ++ " [rotation=" ++ r ++ ", translation=" ++ t ++ "]"))).
Definition similarity_display {n} (f : similarity K n) : option string :=
  obind (rotation_display (iso_rotation (sim_isometry f))) (fun r => obind (vdisplay (iso_translation (sim_isometry f))) (fun t =>
    Some ("Similarity" ++ show_nat n ++ " [scale=" ++ show (sim_scale f) ++ ", rotation=" ++ r ++ ", translation=" ++ t ++ "]"))).

(** projection.rs 2318-2325 [Perspective3], 4130-4137 [Orthographic3]: the matrix. *)
Definition perspective_display (m : mat K 4 4) : option string :=
  obind (mdisplay m) (fun t => Some ("Perspective3 [" ++ t ++ "]")).
Definition orthographic_display (m : mat K 4 4) : option string :=
  obind (mdisplay m) (fun t => Some ("Orthographic3 [" ++ t ++ "]")).
End Display.
