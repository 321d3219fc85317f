(** * Model of the joints of src/ring/algorithms/custom_joints with random axes (rr, rr_imp, rsaddle).

    The parameters of a joint are a [P]; reading params["joint_axes"] and params["residual"] are the functions
    [axes] and [residual].  The draw functions are in M_CustomDraw.v, quat_random is an argument. *)
From Coq Require Import Reals String List.
From Verif Require Import Prelude M_Sys M_Math M_Geom M_Joint.
Import ListNotations.
Local Open Scope R_scope.

Section Custom.
Context {P : Type}.

(** rr_joint.py 10-18 *)
Definition rr_transform (axes : P -> vec3) (q : list R) (p : P) : transform :=
  t_of_rot (quat_rot_axis (axes p) (getR q 0)).
Definition axis_motion (axis : P -> vec3) (p : P) : spatial := Sp (axis p) vzero.
(** rr_joint.py 20-27 *)
Definition rr_joint (axes : P -> vec3) : joint_model P :=
  mkJM (rr_transform axes) [axis_motion axes] (Some p_control_rxyz) (Some qd_from_q_cartesian) None None.

(** rr_imp_joint.py 18-23 *)
Definition rr_imp_transform (axes residual : P -> vec3) (q : list R) (p : P) : transform :=
  let rot_pri := quat_rot_axis (axes p) (getR q 0) in
  let rot_res := quat_rot_axis (residual p) (getR q 1) in
  t_of_rot (qmul rot_res rot_pri).
(** rr_imp_joint.py 38-52 *)
Definition rr_imp_joint (axes residual : P -> vec3) : joint_model P :=
  mkJM (rr_imp_transform axes residual) [axis_motion axes; axis_motion residual] (Some p_control_rxyz)
    (Some qd_from_q_cartesian) None None.

(** rsaddle_joint.py 11-16: params["joint_axes"][i] is [axes i] *)
Definition rsaddle_transform (axes : nat -> P -> vec3) (q : list R) (p : P) : transform :=
  let rot1 := quat_rot_axis (axes 0%nat p) (getR q 0) in
  let rot2 := quat_rot_axis (axes 1%nat p) (getR q 1) in
  t_of_rot (qmul rot2 rot1).
(** rsaddle_joint.py 18-32 *)
Definition rsaddle_joint (axes : nat -> P -> vec3) : joint_model P :=
  mkJM (rsaddle_transform axes) (map (fun i => axis_motion (axes i)) (seq 0 2)) (Some p_control_rxyz)
    (Some qd_from_q_cartesian) None None.

(** jcalc.py 1060-1090 with overwrite=True: the table afterwards *)
Definition register (jt : joint_table P) (typ : string) (m : joint_model P) : joint_table P :=
  fun t => if String.eqb t typ then Some m else jt t.
End Custom.

(** rr_joint.py 32-33, rsaddle_joint.py 37-40 (one axis), with the drawn quaternion as argument *)
Definition random_axis (quat_random : quat) : vec3 := rotate x_unit quat_random.
(** rr_imp_joint.py 62-70: primary and residual axis, with the drawn angle and quaternion as arguments *)
Definition random_axes (phi : R) (quat_random : quat) : vec3 * vec3 :=
  (rotate (V3 0 0 1) quat_random, rotate (V3 (cos phi) (sin phi) 0) quat_random).
