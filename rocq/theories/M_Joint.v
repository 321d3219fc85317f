(** * Model of the joint models of src/ring/algorithms/jcalc.py (503-1135) over the real numbers.

    Coordinates of a joint are a [list R]; the kinematics only ever passes lists as long as the width tables
    prescribe, and a missing entry reads 0 in the model (IndexError or clamping in the code). *)
From Coq Require Import Reals String ZArith Bool List.
From Verif Require Import Prelude M_Sys M_Math M_Geom.
Import ListNotations.
Local Open Scope R_scope.

(** ** Vectors as lists *)
Definition getR (q : list R) (i : nat) : R := nth i q 0.
Definition v3_of (q : list R) : vec3 := V3 (getR q 0) (getR q 1) (getR q 2).
Definition q4_of (q : list R) : quat := Q4 (getR q 0) (getR q 1) (getR q 2) (getR q 3).
Definition v3_list (v : vec3) : list R := [vx v; vy v; vz v].
Definition q4_list (q : quat) : list R := [qw q; qx q; qy q; qz q].
(** elementwise operations of arrays of the same shape *)
Fixpoint zipw (f : R -> R -> R) (a b : list R) : list R :=
  match a, b with x :: a', y :: b' => f x y :: zipw f a' b' | _, _ => [] end.
Definition lsub := zipw Rminus.
Definition ladd := zipw Rplus.
Definition lmul := zipw Rmult.
Definition lscale (c : R) : list R -> list R := map (Rmult c).
Definition zeros (n : nat) : list R := repeat 0 n.

(** maths.py 39-50 for an array of any length: zeros if all entries are close to zero. *)
Definition lnorm (q : list R) : R := sqrt (fold_right Rplus 0 (map (fun x => x * x) q)).
Definition lclose0_dec (q : list R) : {Forall close0 q} + {~ Forall close0 q} := Forall_dec close0 close0_dec q.
Definition lsafe_normalize (q : list R) : list R :=
  if lclose0_dec q then zeros (length q) else lscale (/ lnorm q) q.

(** ** JointModel, jcalc.py 503-529, for joint parameters of type [P].  A motion is either a Motion or a
    function of the joint parameters (506-512, 1110-1114): always a function here.  rcmg_draw_fn,
    init_joint_params and utilities are not part of this record. *)
Record joint_model (P : Type) := mkJM {
  jm_transform : list R -> P -> transform;
  jm_motion : list (P -> spatial);
  jm_p_control : option (list R -> list R -> list R);
  jm_qd_from_q : option (list (list R) -> R -> list (list R));
  jm_to_q : option (list R -> list R);
  jm_inv_kin : option (transform -> P -> result (list R)) }.
Arguments mkJM {P}.
Arguments jm_transform {P}.
Arguments jm_motion {P}.
Arguments jm_p_control {P}.
Arguments jm_qd_from_q {P}.
Arguments jm_to_q {P}.
Arguments jm_inv_kin {P}.

(** base.py 125-138 *)
Definition t_of_rot (q : quat) : transform := Tr vzero q.
Definition t_of_pos (p : vec3) : transform := Tr p qone.

Section Builtin.
Context {P : Type}.

(** ** Transforms: jcalc.py 532-575 *)
Definition free_transform (q : list R) (_ : P) : transform := Tr (v3_of (skipn 4 q)) (q4_of (firstn 4 q)).
Definition free_2d_transform (q : list R) (_ : P) : transform :=
  Tr (V3 0 (getR q 1) (getR q 2)) (quat_rot_axis x_unit (getR q 0)).
Definition rxyz_transform (axis : vec3) (q : list R) (_ : P) : transform :=
  t_of_rot (quat_rot_axis axis (getR q 0)).
Definition pxyz_transform (direction : vec3) (q : list R) (_ : P) : transform :=
  t_of_pos (vscale (getR q 0) direction).
Definition frozen_transform (_ : list R) (_ : P) : transform := t_zero.
Definition spherical_transform (q : list R) (_ : P) : transform := t_of_rot (q4_of q).
Definition saddle_transform (q : list R) (_ : P) : transform :=
  t_of_rot (euler_to_quat 0 (getR q 0) (getR q 1)).
Definition p3d_transform (q : list R) (_ : P) : transform := t_of_pos (v3_of q).
Definition cor_transform (q : list R) (p : P) : transform :=
  t_mul (p3d_transform (skipn 7 q) p) (free_transform (firstn 7 q) p).

(** ** Motions: jcalc.py 578-583 *)
Definition mrx : spatial := Sp x_unit vzero.
Definition mry : spatial := Sp y_unit vzero.
Definition mrz : spatial := Sp z_unit vzero.
Definition mpx : spatial := Sp vzero x_unit.
Definition mpy : spatial := Sp vzero y_unit.
Definition mpz : spatial := Sp vzero z_unit.
Definition const (m : spatial) : P -> spatial := fun _ => m.

(** ** Velocities by central differences: jcalc.py 821-837, 885-888.  [qs] is the time series of the joint's
    coordinates; arrays with fewer than two samples are not modelled (the slices are empty). *)
Definition qrel (q1 q2 : quat) : quat := qmul q1 (qinv q2).
Definition pairs_apart {A} (qs : list A) : list (A * A) := combine qs (skipn 2 qs).
Definition pad_ends (z : list R) (l : list (list R)) : list (list R) := [z] ++ l ++ [z].
Definition qd_from_q_quaternion (qs : list (list R)) (dt : R) : list (list R) :=
  pad_ends (zeros 3) (map (fun ab => let '(axis, angle) := quat_to_rot_axis (qrel (q4_of (snd ab)) (q4_of (fst ab))) in
                          v3_list (vscale (angle / (2 * dt)) axis)) (pairs_apart qs)).
Definition qd_from_q_cartesian (qs : list (list R)) (dt : R) : list (list R) :=
  pad_ends (zeros (length (hd [] qs)))
    (map (fun ab => lscale (/ (2 * dt)) (lsub (snd ab) (fst ab))) (pairs_apart qs)).
Definition qd_from_q_free (qs : list (list R)) (dt : R) : list (list R) :=
  map (fun ab => fst ab ++ snd ab)
    (combine (qd_from_q_quaternion (map (firstn 4) qs) dt) (qd_from_q_cartesian (map (skipn 4) qs) dt)).

(** ** Proportional control terms: jcalc.py 840-882 *)
Definition p_control_quaternion (q q_ref : list R) : list R :=
  let '(axis, angle) := quat_to_rot_axis (qrel (q4_of q_ref) (q4_of q)) in v3_list (vscale angle axis).
Definition p_control_rxyz (q q_ref : list R) : list R :=
  map wrap_to_pi (lsub q_ref (map wrap_to_pi q)).
Definition p_control_pxyz_p3d (q q_ref : list R) : list R := lsub q_ref q.
Definition p_control_frozen (q q_ref : list R) : list R := [].
Definition p_control_free (q q_ref : list R) : list R :=
  p_control_quaternion (firstn 4 q) (firstn 4 q_ref) ++ lsub (skipn 4 q_ref) (skipn 4 q).
Definition p_control_free_2d (q q_ref : list R) : list R :=
  p_control_rxyz (firstn 1 q) (firstn 1 q_ref) ++ lsub (skipn 1 q_ref) (skipn 1 q).

(** ** Coordinates from arbitrary vectors: jcalc.py 891-896 *)
Definition to_q_free_spherical_cor (q : list R) : list R := lsafe_normalize (firstn 4 q) ++ skipn 4 q.
Definition to_q_free_2d (q : list R) : list R := map wrap_to_pi (firstn 1 q) ++ skipn 1 q.
Definition to_q_wrap (q : list R) : list R := map wrap_to_pi q.
Definition to_q_id (q : list R) : list R := q.

(** ** Inverse kinematics of one joint: jcalc.py 902-931 *)
Definition inv_kin_rxyz (k : vec3) (x : transform) (_ : P) : result (list R) :=
  Ok [- (2 * arctan2 (dot (qvec (t_rot x)) k) (qw (t_rot x)))].
Definition inv_kin_px (x : transform) (_ : P) : result (list R) := Ok [vx (t_pos x)].
Definition inv_kin_py (x : transform) (_ : P) : result (list R) := Ok [vy (t_pos x)].
Definition inv_kin_pz (x : transform) (_ : P) : result (list R) := Ok [vz (t_pos x)].
(** 929-931: angle_x expects two arguments and is called with one: TypeError. *)
Definition inv_kin_free_2d (x : transform) (_ : P) : result (list R) := Err EType.
Definition inv_kin_free (x : transform) (_ : P) : result (list R) := Ok (q4_list (t_rot x) ++ v3_list (t_pos x)).
Definition inv_kin_frozen (x : transform) (_ : P) : result (list R) := Ok [].
Definition inv_kin_spherical (x : transform) (_ : P) : result (list R) := Ok (q4_list (t_rot x)).
Definition inv_kin_p3d (x : transform) (_ : P) : result (list R) := Ok (v3_list (t_pos x)).

(** ** The table of built-in joint types: jcalc.py 934-1050 *)
Definition builtin_joints : list (string * joint_model P) :=
  [("free", mkJM free_transform (map const [mrx; mry; mrz; mpx; mpy; mpz]) (Some p_control_free)
      (Some qd_from_q_free) (Some to_q_free_spherical_cor) (Some inv_kin_free));
   ("free_2d", mkJM free_2d_transform (map const [mrx; mpy; mpz]) (Some p_control_free_2d)
      (Some qd_from_q_cartesian) (Some to_q_free_2d) (Some inv_kin_free_2d));
   ("frozen", mkJM frozen_transform [] (Some p_control_frozen)
      (Some qd_from_q_cartesian) (Some to_q_id) (Some inv_kin_frozen));
   ("spherical", mkJM spherical_transform (map const [mrx; mry; mrz]) (Some p_control_quaternion)
      (Some qd_from_q_quaternion) (Some to_q_free_spherical_cor) (Some inv_kin_spherical));
   ("p3d", mkJM p3d_transform (map const [mpx; mpy; mpz]) (Some p_control_pxyz_p3d)
      (Some qd_from_q_cartesian) (Some to_q_id) (Some inv_kin_p3d));
   ("cor", mkJM cor_transform (map const [mrx; mry; mrz; mpx; mpy; mpz; mpx; mpy; mpz]) (Some p_control_free)
      (Some qd_from_q_free) (Some to_q_free_spherical_cor) None);
   ("rx", mkJM (rxyz_transform x_unit) [const mrx] (Some p_control_rxyz)
      (Some qd_from_q_cartesian) (Some to_q_wrap) (Some (inv_kin_rxyz x_unit)));
   ("ry", mkJM (rxyz_transform y_unit) [const mry] (Some p_control_rxyz)
      (Some qd_from_q_cartesian) (Some to_q_wrap) (Some (inv_kin_rxyz y_unit)));
   ("rz", mkJM (rxyz_transform z_unit) [const mrz] (Some p_control_rxyz)
      (Some qd_from_q_cartesian) (Some to_q_wrap) (Some (inv_kin_rxyz z_unit)));
   ("px", mkJM (pxyz_transform x_unit) [const mpx] (Some p_control_pxyz_p3d)
      (Some qd_from_q_cartesian) (Some to_q_id) (Some inv_kin_px));
   ("py", mkJM (pxyz_transform y_unit) [const mpy] (Some p_control_pxyz_p3d)
      (Some qd_from_q_cartesian) (Some to_q_id) (Some inv_kin_py));
   ("pz", mkJM (pxyz_transform z_unit) [const mpz] (Some p_control_pxyz_p3d)
      (Some qd_from_q_cartesian) (Some to_q_id) (Some inv_kin_pz));
   ("saddle", mkJM saddle_transform (map const [mry; mrz]) (Some p_control_rxyz)
      (Some qd_from_q_cartesian) (Some to_q_wrap) None)]%string.
Definition builtin_table : string -> option (joint_model P) := dget String.eqb builtin_joints.

(** ** Dispatch on the joint type *)
(** The joint_params of one link: a dict from joint type to parameters, with the key "default". *)
Definition params := list (string * P).
Definition joint_table := string -> option (joint_model P).
Variable jt : joint_table.

(** [_joint_types[joint_type]] *)
Definition joint_lookup (typ : string) : result (joint_model P) :=
  match jt typ with Some m => Ok m | None => Err EKey end.
(** jcalc.py 1053-1057 *)
Definition get_joint_model (typ : string) : result (joint_model P) :=
  match jt typ with Some m => Ok m | None => Err EAssertion end.
(** jcalc.py 1093-1099 *)
Definition limit_scope (typ : string) (p : params) : result P :=
  if dmem String.eqb p typ then dgetE String.eqb p typ else dgetE String.eqb p "default"%string.
(** jcalc.py 1102-1106 *)
Definition jcalc_transform (typ : string) (q : list R) (p : params) : result transform :=
  do pr <- limit_scope typ p; do jm <- joint_lookup typ; Ok (jm_transform jm q pr).
(** jcalc.py 1117-1125 *)
Definition motion_sum (ms : list spatial) (qd : list R) : spatial :=
  fold_left (fun m k => sadd m (sscale (getR qd k) (nth k ms szero))) (seq 0 (length ms)) szero.
Definition jcalc_motion (typ : string) (qd : list R) (p : params) : result spatial :=
  do pr <- limit_scope typ p; do jm <- joint_lookup typ;
  Ok (motion_sum (map (fun m => m pr) (jm_motion jm)) qd).
(** jcalc.py 1128-1135 *)
Definition jcalc_tau (typ : string) (f : spatial) (p : params) : result (list R) :=
  do pr <- limit_scope typ p; do jm <- joint_lookup typ;
  Ok (map (fun m => m_dot (m pr) f) (jm_motion jm)).
End Builtin.
Arguments params : clear implicits.
Arguments joint_table : clear implicits.
