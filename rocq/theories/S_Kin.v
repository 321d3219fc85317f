(** * Specification vocabulary for kinematics: what the pose of a link is. *)
From Coq Require Import Reals String ZArith List.
From Verif Require Import Prelude M_Sys S_Sys M_Math M_Geom M_Joint.
Import ListNotations.

Section Spec.
Context {P O : Type}.
Variable W : widths.
Variable jt : joint_table P.
Notation link := (plink (params P)).
Notation rsys := (System R link geometry O).

(** [sl] are the entries of the coordinate vector [q] that belong to link [i]. *)
Definition link_coords (w : string -> option nat) (s : rsys) (q : list R) (i : nat) (sl : list R) : Prop :=
  exists ws ps, have_widths w (link_types s) ws /\ splits ws q ps /\ nth_error ps i = Some sl.

(** The joint parameters that apply to a joint of type [typ]: its own, or the default ones. *)
Definition params_for (typ : string) (p : params P) (pr : P) : Prop :=
  dget String.eqb p typ = Some pr \/
  (dget String.eqb p typ = None /\ dget String.eqb p "default"%string = Some pr).

(** [t2] is the transform of the joint of link [i] at coordinates [q]. *)
Definition joint_at (s : rsys) (q : list R) (i : nat) (t2 : transform) : Prop :=
  exists typ l sl pr jm, nth_error (link_types s) i = Some typ /\ nth_error (links s) i = Some l /\
    link_coords (qW W) s q i sl /\ params_for typ (pl_params l) pr /\ jt typ = Some jm /\
    t2 = jm_transform jm sl pr.

(** [pose s q z x]: the frame of link [z] (-1: world) seen from the world, as the composition of joint
    transforms and link offsets along the chain. *)
Inductive pose (s : rsys) (q : list R) : Z -> transform -> Prop :=
| pose_world : pose s q (-1) t_zero
| pose_link i p l t2 xp :
    nth_error (link_parents s) i = Some p -> nth_error (links s) i = Some l ->
    joint_at s q i t2 -> pose s q p xp ->
    pose s q (Z.of_nat i) (t_mul (t_mul t2 (pl_t1 l)) xp).

(** Every link has a known joint type and joint parameters for it. *)
Definition joints_known (s : rsys) : Prop :=
  forall i typ l, nth_error (link_types s) i = Some typ -> nth_error (links s) i = Some l ->
    (exists jm, jt typ = Some jm) /\ (exists pr, params_for typ (pl_params l) pr).
End Spec.

(** World position of a point given in the frame [x]. *)
Definition to_world (x : transform) (p : vec3) : vec3 := vadd (t_pos x) (rotate p (qinv (t_rot x))).

(** Joint types whose coordinates start with a quaternion, and coordinates with a unit quaternion there. *)
Definition has_quat (typ : string) : Prop := In typ ["free"; "spherical"; "cor"]%string.
Definition unit_coords (typ : string) (sl : list R) : Prop := has_quat typ -> qunit (q4_of (firstn 4 sl)).
(** Built-in joint types with inverse kinematics that works. *)
Definition inv_types : list string :=
  ["free"; "frozen"; "spherical"; "p3d"; "rx"; "ry"; "rz"; "px"; "py"; "pz"]%string.
(** Hinge coordinates are determined up to two full turns, all others uniquely. *)
Definition same_coords (typ : string) (sl sl' : list R) : Prop :=
  if in_dec string_dec typ ["rx"; "ry"; "rz"]%string
  then exists a a' k, sl = [a] /\ sl' = [a'] /\ (a' = a + 4 * PI * IZR k)%R /\ (- (2 * PI) <= a' < 2 * PI)%R
  else sl' = sl.
