(** * Specification of the gymnasium environment: what an episode shows and how answers are scored. *)
From Coq Require Import Reals String ZArith Bool List.
From Verif Require Import Prelude M_Math M_Gym.
Import ListNotations.
Local Open Scope string_scope. Local Open Scope list_scope. Local Open Scope R_scope.

(** The recording behind an episode: accelerations and angular velocities of both segments and the true orientation of the
    second relative to the first, all of the same length. *)
Definition recorded {Pose} (d : @draw Pose) (a1 g1 a2 g2 : list vec3) (truth : list quat) : Prop :=
  (exists f1 f2, dget String.eqb (dr_X d) "seg1" = Some f1 /\ dget String.eqb (dr_X d) "seg2" = Some f2 /\
     dget String.eqb f1 "acc" = Some a1 /\ dget String.eqb f1 "gyr" = Some g1 /\
     dget String.eqb f2 "acc" = Some a2 /\ dget String.eqb f2 "gyr" = Some g2) /\
  dget String.eqb (dr_y d) "seg2" = Some truth /\
  length a1 = length truth /\ length g1 = length truth /\ length a2 = length truth /\ length g2 = length truth.

(** The twelve numbers of the observation at time t. *)
Definition numbers (v : vec3) : list R := [vx v; vy v; vz v].
Definition vec_at (l : list vec3) (t : nat) : vec3 := nth t l (V3 0 0 0).
Definition quat_at (l : list quat) (t : nat) : quat := nth t l (Q4 1 0 0 0).
Definition observation (a1 g1 a2 g2 : list vec3) (t : nat) : list R :=
  numbers (vec_at a1 t) ++ numbers (vec_at g1 t) ++ numbers (vec_at a2 t) ++ numbers (vec_at g2 t).

(** The angle between a unit quaternion and the rotation along an action, as rotations: twice the angle between the lines. *)
Definition dot4 (p q : quat) : R := qw p * qw q + qx p * qx q + qy p * qy q + qz p * qz q.
Definition norm4 (p : quat) : R := sqrt (dot4 p p).
Definition angle_between (q a : quat) : R := 2 * acos (Rabs (dot4 q a) / norm4 a).
Definition times (c : R) (a : quat) : quat := Q4 (c * qw a) (c * qx a) (c * qy a) (c * qz a).
(** The score of an action: minus that angle; angles so small that the relative rotation has all numbers of its vector part within
    1e-8 count as zero. *)
Definition scores (q a : quat) (r : R) : Prop :=
  - PI <= r <= 0 /\ Rabs (r + angle_between q a) <= 5 / 10 ^ 8 /\ (r = - angle_between q a \/ r = 0).
