(** * Specification vocabulary for the work-energy theorem. *)
From Coq Require Import Reals String List.
From Verif Require Import Prelude M_Sys S_Sys M_Math M_Geom M_Joint M_Dyn S_Kin S_Deriv.
Local Open Scope R_scope.

(** Componentwise derivative of a spatial vector *)
Definition slim (f : R -> spatial) (t : R) (d : spatial) : Prop :=
  vlim (fun s => ang (f s)) t (ang d) /\ vlim (fun s => vel (f s)) t (vel d).
(** Mass times position of the centre of mass, in the world, of a body with the inertia [it] whose frame is at [x] *)
Definition mass_moment (it : inertia) (x : transform) : vec3 := vadd (vscale (i_mass it) (t_pos x)) (rotate (i_h it) (qinv (t_rot x))).

Section Spec.
Context {P O : Type}.
Variable W : widths.
Notation rsys := (System R (plink (params P)) geometry O).
(** Energy of the weight of the links that sit at [xs]. The gravity entry of a system points upwards: it is the
    acceleration that a resting body has to be given to not fall. *)
Fixpoint weights (g : vec3) (ls : list (plink (params P))) (xs : list transform) : R :=
  match ls, xs with
  | l :: ls', x :: xs' => dot g (mass_moment (pl_inertia l) x) + weights g ls' xs'
  | _, _ => 0
  end.
Definition potential (s : rsys) (xs : list transform) : R := weights (v3_of (gravity s)) (links s) xs.
(** At time [t] the coordinates [q] of the system move with the velocities [qd], joint by joint. *)
Definition moving (s : rsys) (q : R -> list R) (t : R) (qd : list R) : Prop :=
  forall i typ c d, nth_error (link_types s) i = Some typ -> (forall u, link_coords (qW W) s (q u) i (c u)) ->
    link_coords (dW W) s qd i d -> follows typ c t d.
(** Energy of springs of the given stiffnesses. *)
Fixpoint springs (k z q : list R) : R :=
  match k, z, q with
  | a :: k', b :: z', c :: q' => / 2 * a * (c - b) * (c - b) + springs k' z' q'
  | _, _, _ => 0
  end.
(** All energy stored in a simulated system: of motion, of the weight, of the springs, and of the additional inertia
    that the regularisation 1e-6 and the implicit treatment of the damping give every coordinate. *)
Definition stored (s : rsys) (K : R) (xs : list transform) (q qd : list R) : R :=
  K + potential s xs + springs (link_spring_stiffness s) (link_spring_zeropoint s) q +
  sumR (length qd) (fun a => / 2 * (/ 10 ^ 6 + sys_dt s * getR (link_damping s) a) * getR qd a * getR qd a).
End Spec.
