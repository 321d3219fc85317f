(** * Specification for C57: velocities of moving frames.

    Nothing here mentions the motion subspaces; only coordinates of points and their derivatives. *)
From Coq Require Import Reals String List.
From Verif Require Import M_Math M_Joint S_Kin.
Local Open Scope R_scope.

(** Componentwise derivatives. *)
Definition vlim (f : R -> vec3) (t : R) (d : vec3) : Prop :=
  derivable_pt_lim (fun s => vx (f s)) t (vx d) /\ derivable_pt_lim (fun s => vy (f s)) t (vy d) /\
  derivable_pt_lim (fun s => vz (f s)) t (vz d).
Definition qlim (f : R -> quat) (t : R) (d : quat) : Prop :=
  derivable_pt_lim (fun s => qw (f s)) t (qw d) /\ derivable_pt_lim (fun s => qx (f s)) t (qx d) /\
  derivable_pt_lim (fun s => qy (f s)) t (qy d) /\ derivable_pt_lim (fun s => qz (f s)) t (qz d).

(** The child's coordinates of the point with coordinates [u] in the parent, if the child sits at [x]. *)
Definition seen_from (x : transform) (u : vec3) : vec3 := rotate (vsub u (t_pos x)) (t_rot x).
(** At time [t] the child frame moves with the spatial velocity [m], given in child coordinates: every point
    that rests in the parent is seen from the child to move with the opposite of the velocity
    [vel m + ang m x p] of the rigid motion at [p]. *)
Definition moves_with (x : R -> transform) (t : R) (m : spatial) : Prop :=
  forall u, vlim (fun s => seen_from (x s) u) t (vneg (vadd (vel m) (cross (ang m) (seen_from (x t) u)))).

(** All entries of the coordinates [c] change at the rates [d] (entries beyond the end read 0). *)
Definition rates (c : R -> list R) (t : R) (d : list R) : Prop :=
  forall i, derivable_pt_lim (fun s => getR (c s) i) t (getR d i).
(** Rate of a quaternion (parent to child) that turns with angular velocity [w] in child coordinates. *)
Definition spin (w : vec3) (q : quat) : quat := qscale (- / 2) (qmul (Q4 0 (vx w) (vy w) (vz w)) q).
(** The coordinates [c] of a joint of type [typ] move with the velocity coordinates [qd]: the quaternion turns with
    the first three, everything else has its rate there. *)
Definition follows (typ : string) (c : R -> list R) (t : R) (qd : list R) : Prop :=
  (has_quat typ -> qlim (fun s => q4_of (firstn 4 (c s))) t (spin (v3_of (firstn 3 qd)) (q4_of (firstn 4 (c t)))) /\
                   rates (fun s => skipn 4 (c s)) t (skipn 3 qd)) /\
  (~ has_quat typ -> rates c t qd).
