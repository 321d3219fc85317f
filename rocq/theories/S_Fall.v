(** * Specification vocabulary for C90: a single rigid body that floats freely. *)
From Coq Require Import Reals String ZArith List.
From Verif Require Import Prelude M_Sys M_Math M_Geom M_Joint M_Kin M_Dyn.
Import ListNotations.
Local Open Scope R_scope.

(** One body on a free joint below the world, with mass [m] and the centre of mass in its origin; nothing but gravity acts on it. *)
Definition free_body (offset : transform) (i3 : mat3) (m : R) (g : vec3) (dt : R) : System R (plink (params unit)) geometry unit :=
  mkSys [-1]%Z [mkPL offset vzero vzero [("default"%string, tt)] (In3 i3 vzero m) t_zero t_zero] ["free"]%string
    (zeros 6) (zeros 6) (zeros 6) [1; 0; 0; 0; 0; 0; 0] dt [] [vx g; vy g; vz g] "semi_implicit_euler" 0 ["body"]%string None [tt].
(** Coordinates of the free joint: orientation [r], position [p]. *)
Definition free_coords (r : quat) (p : vec3) : list R := [qw r; qx r; qy r; qz r; vx p; vy p; vz p].
(** Its velocity coordinates when it does not turn. *)
Definition free_velocity (v : vec3) : list R := [0; 0; 0; vx v; vy v; vz v].
(** The acceleration by gravity [g] of a mass [m], with the 10^-6 that the simulation adds to the diagonal of the
    mass matrix.  Gravity is given as the acceleration that holds a body in place, (0, 0, 9.81). *)
Definition falls (m : R) (g : vec3) : vec3 := vscale (- (m / (m + / 10 ^ 6))) g.
(** Position after [n] steps of length [h] with the constant acceleration [a], by the semi-implicit Euler rule. *)
Definition dropped (p v a : vec3) (h : R) (n : nat) : vec3 :=
  vadd p (vadd (vscale (INR n * h) v) (vscale (INR n * (INR n + 1) / 2 * (h * h)) a)).
(** What an inertia tensor of a body about its centre of mass is. *)
Definition inertia_tensor (i3 : mat3) : Prop := mtrans i3 = i3 /\ forall w, 0 <= dot w (mvmul i3 w).
