(** * Model of inverse_kinematics_endeffector (src/ring/algorithms/kinematics.py 99-202).

    The optimiser is external code: it is an arbitrary function [solver] from the objective and the starting
    point to the final parameters (an exception of the objective may escape through it).  Gradients are not modelled,
    so jax.lax.stop_gradient is the identity.  [jax.vmap] over the starting points is a map. *)
From Coq Require Import Reals String ZArith Bool List.
From Verif Require Import Prelude M_Sys M_Math M_Geom M_Joint M_Kin.
Import ListNotations.
Local Open Scope R_scope.

(** jnp.argmin: the first index of a smallest entry; an empty array is rejected. *)
Fixpoint argmin_from (best : nat) (b : R) (i : nat) (l : list R) : nat :=
  match l with
  | [] => best
  | v :: r => if Rlt_dec v b then argmin_from i v (S i) r else argmin_from best b (S i) r
  end.
Definition argmin (l : list R) : result nat :=
  match l with [] => Err EValue | v :: r => Ok (argmin_from 0 v 1 r) end.

Section Ee.
Context {P O K : Type}.
Variable W : widths.
Variable jt : joint_table P.
Notation rsys := (System R (plink (params P)) geometry O).
Variable solver : (list R -> result R) -> list R -> result (list R).
(** jax.random.normal(key, shape=(n, m)), one row per start *)
Variable normal : K -> nat -> nat -> list (list R).

(** kinematics.py 186-193 *)
Definition objective (s : rsys) (name : string) (x : transform) (wr wp : R)
    (custom : list (string * (list R -> list R))) (v : list R) : result R :=
  do q <- coordinate_vector_to_q W jt s v custom;
  do r <- forward_kinematics_transforms W jt s q;
  do i <- name_to_idx s name;
  do xhat <- py_get (fst r) (Z.of_nat i);
  let error_rot := angle_error (t_rot x) (t_rot xhat) in
  let d := vsub (t_pos x) (t_pos xhat) in
  let error_pos := sqrt (vx d * vx d + vy d * vy d + vz d * vz d) in
  Ok (wr * error_rot + wp * error_pos).

(** kinematics.py 195-202: coordinates, residual, and the raw parameters of the optimiser (results.params). *)
Definition ee_run (s : rsys) (name : string) (x : transform) (wr wp : R)
    (custom : list (string * (list R -> list R))) (q0 : list R) : result (list R * R * list R) :=
  do p <- solver (objective s name x wr wp custom) q0;
  do q_sol <- coordinate_vector_to_q W jt s p custom;
  do v <- objective s name x wr wp custom p;
  Ok (q_sol, v, p).

(** kinematics.py 183-184 and 195-202: the call with a given q0. *)
Definition ee_from (s : rsys) (name : string) (x : transform) (wr wp : R)
    (custom : list (string * (list R -> list R))) (q0 : list R) : result (list R * R * list R) :=
  do n <- q_size W s;
  do _ <- assert_ (length q0 =? n)%nat;
  ee_run s name x wr wp custom q0.

(** kinematics.py 99-202; [endeffector_x.ndim() == 1] holds by typing.  The optimiser results of all starts are
    returned as a list (one element without random starts). *)
Definition inverse_kinematics_endeffector (s : rsys) (name : string) (x : transform) (wr wp : R)
    (q0 : option (list R)) (starts : option nat) (key : option K)
    (custom : list (string * (list R -> list R))) : result (list R * R * list (list R)) :=
  do _ <- match starts with
          | None => Ok tt
          | Some _ =>
              do _ <- assert_ (match q0 with None => true | Some _ => false end);
              assert_ (match key with Some _ => true | None => false end)
          end;
  match q0, starts, key with
  | Some q0, _, _ => do r <- ee_from s name x wr wp custom q0; Ok (fst r, [snd r])
  | None, Some n, Some k =>
      do m <- q_size W s;
      do rs <- mapM (ee_from s name x wr wp custom) (normal k n m);
      do b <- argmin (map (fun r => snd (fst r)) rs);
      do best <- py_get rs (Z.of_nat b);
      Ok (fst best, map snd rs)
  | None, _, _ =>
      do st <- state_create W jt s None None None None [];
      do r <- ee_run s name x wr wp custom (st_q st); Ok (fst r, [snd r])
  end.
End Ee.
