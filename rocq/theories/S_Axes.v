(** * Specification vocabulary for joint axes. *)
From Coq Require Import Reals String List.
From Verif Require Import M_Math.
Import ListNotations.
Local Open Scope R_scope.

(** A rotation about [a]: the vector part of the quaternion is [s] times [a]. *)
Definition about (a : vec3) (s : R) (q : quat) : Prop := qvec q = vscale s a.
(** Orientation of a link relative to its parent. *)
Definition rel_rot (x xp : transform) : quat := qmul (t_rot x) (qinv (t_rot xp)).
(** 1 or -1 *)
Definition signum (s : R) : R := if Rlt_dec s 0 then -1 else 1.
(** Unit vectors that enclose an angle of at most [m]. *)
Definition within (m : R) (a b : vec3) : Prop := dot a a = 1 /\ dot b b = 1 /\ cos m <= dot a b.
(** A base vector, as joint types are named after *)
Definition hinge_axis (typ : string) : option vec3 :=
  if String.eqb typ "rx" then Some (V3 1 0 0) else if String.eqb typ "ry" then Some (V3 0 1 0) else if String.eqb typ "rz" then Some (V3 0 0 1) else None.
(** [out] is how an axis [ax] is reported over [N] time steps: constant in time up to noise of at most seven degrees, and
    with a sign that does not change over time and is only changed if asked for. *)
Definition reported (noisy flip : bool) (N : nat) (ax : vec3) (out : list vec3) : Prop :=
  length out = N /\ exists sg, (sg = 1 \/ flip = true /\ sg = -1) /\
    forall v, In v out -> exists u, v = vscale sg u /\ (noisy = false -> u = ax) /\ (dot ax ax = 1 -> within (7 * PI / 180) ax u).
