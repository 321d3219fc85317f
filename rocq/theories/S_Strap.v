(** * Specification for C95: dead reckoning from the readings of an IMU.

    Nothing here mentions how the library computes the readings. *)
From Coq Require Import Reals List.
From Verif Require Import Prelude M_Math.
Import ListNotations.
Local Open Scope R_scope.

(** The orientation reached from "no rotation" by turning about the direction of [v] by |v| radians.  The library's
    orientations take world to body coordinates, hence the minus sign. *)
Definition turned_by (v : vec3) : quat :=
  let a := vnorm v in
  if Req_EM_T a 0 then qone else let s := - (sin (a / 2) / a) in Q4 (cos (a / 2)) (s * vx v) (s * vy v) (s * vz v).
(** Orientation after [k] samples: turn by (rate * sampling time), sample after sample. *)
Fixpoint reckoned_rot (dt : R) (gyr : list vec3) (q0 : quat) (k : nat) : quat :=
  match k with
  | O => q0
  | S j => qmul (turned_by (vscale dt (nth j gyr vzero))) (reckoned_rot dt gyr q0 j)
  end.
(** One step of double integration: acceleration = (reading seen from the world) - gravity. *)
Definition next_pos (dt : R) (g acc : vec3) (q : quat) (before now : vec3) : vec3 :=
  vadd (vsub (vscale 2 now) before) (vscale (dt ^ 2) (vsub (rotate acc (qinv q)) g)).
(** Positions at samples [k] and [k + 1], from the first two positions. *)
Fixpoint reckoned_pos (dt : R) (g : vec3) (acc : list vec3) (rot : nat -> quat) (p0 p1 : vec3) (k : nat) : vec3 * vec3 :=
  match k with
  | O => (p0, p1)
  | S j => let '(a, b) := reckoned_pos dt g acc rot p0 p1 j in
           (b, next_pos dt g (nth (S j) acc vzero) (rot (S j)) a b)
  end.
(** Up to the sign of the quaternion, which does not change the orientation. *)
Definition same_rot (p q : quat) : Prop := q = p \/ q = qneg p.
