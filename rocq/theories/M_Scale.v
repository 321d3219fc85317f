(** * Model of src/ring/sim2real/sim2real.py 191-225 and 246-290: randomize_to_world_pos_rot and scale_xs. *)
From Coq Require Import Reals String ZArith Bool List.
From Verif Require Import Prelude M_Sys M_Math M_Sens M_Target.
Import ListNotations.
Local Open Scope R_scope.

Definition inS (x : string) (l : list string) : bool := existsb (String.eqb x) l.

(** sim2real.py 281-290 *)
Definition scale_transform (x : transform) (typ : string) (factor : R) : transform :=
  let pos := if inS typ ["px"; "py"; "pz"; "free"]%string then vscale factor (t_pos x) else t_pos x in
  let rot := if inS typ ["rx"; "ry"; "rz"; "spherical"; "free"]%string
             then let '(axis, angle) := quat_to_rot_axis (t_rot x) in quat_rot_axis axis (angle * factor) else t_rot x in
  Tr pos rot.

(** sim2real.py 250, the default of exclude *)
Definition exclude_default : list string := ["px"; "py"; "pz"; "free"]%string.

Section Scale.
Context {K L G O : Type}.
Notation sys := (System K L G O).
Variable W : widths.

(** sim2real.py 270-276: one time step *)
Definition scale_step (row : list transform) (factor : R) (exclude : list string) (_ : option transform) (_ : idx_map)
    (ps : list (piece targ)) (st : unit) : result (transform * unit) :=
  match ps with
  | [One (GInt i); One (GStr typ)] =>
      do x <- py_get row i;
      Ok (if negb (inS typ exclude) then scale_transform x typ factor else x, st)
  | _ => Err EType
  end.
Definition scale_row (s : sys) (factor : R) (exclude : list string) (row : list transform) : result (list transform) :=
  do r <- scan W s (scale_step row factor exclude) [TL; TL] [ids (num_links s); map GStr (link_types s)] false tt; Ok (fst r).
(** sim2real.py 246-278 *)
Definition scale_xs (s : sys) (xs : traj) (factor : R) (exclude : list string) : result traj :=
  do _ <- check_series s xs;
  do rows <- mapM (scale_row s factor exclude) (tr_rows xs);
  Ok (mkTraj (num_links s) rows).

(** sim2real.py 207: link_parents.count(-1); 224: link_parents.index(-1) *)
Definition roots (s : sys) : nat := length (filter (Z.eqb (-1)) (link_parents s)).
Fixpoint index_root (ps : list Z) : nat := match ps with [] => 0%nat | p :: r => if Z.eqb p (-1) then 0%nat else S (index_root r) end.

(** sim2real.py 191-225.  free is the pose of the free body that the generator draws for the key: a series whose length is
    that of the motion configuration at a time step of 0.01.  Writing it into the poses needs the same number of time steps,
    or a single one (broadcasting). *)
Definition randomize_to_world (s : sys) (xs : traj) (free : list transform) : result traj :=
  do _ <- check_series s xs;
  do _ <- assert_ (roots s =? 1)%nat;
  let T := length (tr_rows xs) in
  do free <- (if (length free =? T)%nat then Ok free
              else if (length free =? 1)%nat then Ok (repeat (nth 0 free t_zero) T) else Err EValue);
  overwrite_link W s xs free (index_root (link_parents s)).
End Scale.
