(** * Model of the training targets (src/ring/algorithms/sensors.py 283-379) and of
    src/ring/sim2real/sim2real.py 13-243 (scale_xs and randomize_to_world_pos_rot: M_Scale.v), over trajectories of link poses.

    [traj] is a time series of rows, one row per time step with one pose per link; jnp arrays of shape
    (time, links, ...) carry the number of links also when there is no time step, so it is a separate field. *)
From Coq Require Import Reals String ZArith Bool List.
From Verif Require Import Prelude M_Sys M_Math M_Sens.
Import ListNotations.
Local Open Scope R_scope.

Record traj := mkTraj { tr_links : nat; tr_rows : list (list transform) }.
(** xs.take(i, axis=1): the trajectory of link [i] *)
Definition link_traj (xs : traj) (i : nat) : list transform := map (fun row => nth i row t_zero) (tr_rows xs).

(** An element of an argument of the scans below. *)
Inductive targ := GStr (s : string) | GInt (z : Z).

Section Target.
Context {K L G O : Type}.
Notation sys := (System K L G O).
Variable W : widths.

Definition ids (n : nat) : list targ := map (fun i => GInt (Z.of_nat i)) (seq 0 n).

(** ** sensors.py 304-327; the state is the dict y *)
Definition rel_pose_step (s : sys) (xs : traj) (sxs : sys) (_ : option unit) (_ : idx_map) (ps : list (piece targ))
    (y : list (string * list quat)) : result (unit * list (string * list quat)) :=
  match ps with
  | [One (GStr name_i); One (GInt p)] =>
      if Z.eqb p (-1) then Ok (tt, y)
      else
        do name_p <- idx_to_name s p false;
        do i <- name_to_idx sxs name_i;
        do p <- name_to_idx sxs name_p;
        let q1 := map t_rot (link_traj xs p) in
        let q2 := map t_rot (link_traj xs i) in
        Ok (tt, dset String.eqb y name_i (zipwith (fun a b => qmul a (qinv b)) q1 q2))
  | _ => Err EType
  end.
(** sensors.py 283-329 *)
Definition rel_pose (s : sys) (xs : traj) (sxs : option sys) : result (list (string * list quat)) :=
  let sxs := match sxs with Some x => x | None => s end in
  do _ <- assert_ (tr_links xs =? num_links sxs)%nat;
  do r <- scan W s (rel_pose_step s xs sxs) [TL; TL] [map GStr (link_names s); map GInt (link_parents s)] false [];
  Ok (snd r).

(** sensors.py 332-379: root_incl for [incl] and root_full otherwise.  [l_map[name]] raises KeyError for a name that
    sys_x does not have.  rots[i] of an index outside of the array is clamped by jnp, which the theorems exclude. *)
Definition root_step (incl c2p : bool) (xs : traj) (sx : sys) (_ : option unit) (_ : idx_map) (ps : list (piece targ))
    (y : list (string * list quat)) : result (unit * list (string * list quat)) :=
  match ps with
  | [One (GStr name); One (GInt parent)] =>
      if negb (Z.eqb parent (-1)) then Ok (tt, y)
      else
        do i <- match name_to_idx sx name with Ok i => Ok i | Err _ => Err EKey end;
        let q := map t_rot (link_traj xs i) in
        let q := if incl then map (fun a => snd (quat_project a z_unit)) q else q in
        let q := if c2p then map qinv q else q in
        Ok (tt, dset String.eqb y name q)
  | _ => Err EType
  end.
Definition root_target (incl c2p : bool) (s : sys) (xs : traj) (sx : sys) : result (list (string * list quat)) :=
  do r <- scan W s (root_step incl c2p xs sx) [TL; TL] [map GStr (link_names s); map GInt (link_parents s)] false [];
  Ok (snd r).
Definition root_incl (s : sys) (xs : traj) (sx : sys) (c2p : bool) := root_target true c2p s xs sx.
Definition root_full (s : sys) (xs : traj) (sx : sys) (c2p : bool) := root_target false c2p s xs sx.

(** ** sim2real.py *)
(** Raw data of one link: pos (optional) and quat. *)
Definition raw := list (string * (option (list vec3) * list quat)).
(** base.py 125-138: Transform.create of a series; a missing position is zero. *)
Definition create_series (pos : option (list vec3)) (q : list quat) : list transform :=
  match pos with Some p => zipwith Tr p q | None => map (Tr vzero) q end.
(** sim2real.py 38-48 *)
Definition eps_transform (data : raw) (eps_frame : option string) (inv : bool) : result transform :=
  match eps_frame with
  | None => Ok t_zero
  | Some e =>
      do d <- dgetE String.eqb data e;
      match d with
      | (Some (p0 :: _), q0 :: _) => Ok (Tr p0 (if inv then qinv q0 else q0))
      | (None, _) => Err EKey
      | _ => Err EIndex
      end
  end.
(** sim2real.py 53-62; the state is the Python list xs *)
Definition raw_step (data : raw) (t_eps : transform) (inv : bool) (_ : option unit) (_ : idx_map) (ps : list (piece targ))
    (xs : list (list transform)) : result (unit * list (list transform)) :=
  match ps with
  | [One (GStr name)] =>
      do d <- dgetE String.eqb data name;
      let q := if inv then map qinv (snd d) else snd d in
      let t := create_series (fst d) q in
      Ok (tt, xs ++ [map (fun x => t_mul x (t_inv t_eps)) t])
  | _ => Err EType
  end.
(** sim2real.py 64-66: stacking needs at least one link and equal lengths; then time becomes the first axis *)
Definition stack_links (xs : list (list transform)) : result traj :=
  match xs with
  | [] => Err EIndex
  | x0 :: _ =>
      if forallb (fun x => length x =? length x0)%nat xs
      then Ok (mkTraj (length xs) (map (fun k => map (fun x => nth k x t_zero) xs) (seq 0 (length x0))))
      else Err EValue
  end.
Definition xs_from_raw (s : sys) (data : raw) (eps_frame : option string) (inv : bool) : result traj :=
  do t_eps <- eps_transform data eps_frame inv;
  do r <- scan W s (raw_step data t_eps inv) [TL] [map GStr (link_names s)] false [];
  stack_links (snd r).

(** sim2real.py 165-168 *)
Definition check_series (s : sys) (xs : traj) : result unit := assert_ (tr_links xs =? num_links s)%nat.

(** sim2real.py 69-96 *)
Definition match_xs (s : sys) (xs : traj) (sxs : sys) : result traj :=
  do _ <- check_series sxs xs;
  do data <- mapM (fun name => do i <- name_to_idx sxs name;
                               Ok (name, (Some (map t_pos (link_traj xs i)), map t_rot (link_traj xs i)))) (link_names sxs);
  xs_from_raw s data None false.

(** sim2real.py 114-128: one time step *)
Definition unzip_step (row : list transform) (_ : option (transform * transform)) (_ : idx_map) (ps : list (piece targ))
    (st : unit) : result ((transform * transform) * unit) :=
  match ps with
  | [One (GInt i); One (GInt p)] =>
      do xi <- py_get row i;
      do x <- (if Z.eqb p (-1) then Ok xi else do xp <- py_get row p; Ok (t_mul xi (t_inv xp)));
      Ok ((Tr (t_pos x) qone, Tr vzero (t_rot x)), st)
  | _ => Err EType
  end.
Definition unzip_row (s : sys) (row : list transform) : result (list (transform * transform)) :=
  do r <- scan W s (unzip_step row) [TL; TL] [ids (num_links s); map GInt (link_parents s)] false tt; Ok (fst r).
(** sim2real.py 99-130 *)
Definition unzip_xs (s : sys) (xs : traj) : result (traj * traj) :=
  do _ <- check_series s xs;
  do rows <- mapM (unzip_row s) (tr_rows xs);
  Ok (mkTraj (num_links s) (map (map fst) rows), mkTraj (num_links s) (map (map snd) rows)).

(** sim2real.py 153-160: one time step; the state is eps_to_l *)
Definition zip_step (r1 r2 : list transform) (_ : option transform) (_ : idx_map) (ps : list (piece targ))
    (st : list (Z * transform)) : result (transform * list (Z * transform)) :=
  match ps with
  | [One (GInt i); One (GInt p)] =>
      do t2 <- py_get r2 i;
      do t1 <- py_get r1 i;
      do xp <- dgetE Z.eqb st p;
      let x := t_mul (t_mul t2 t1) xp in
      Ok (x, dset Z.eqb st i x)
  | _ => Err EType
  end.
Definition zip_row (s : sys) (r12 : list transform * list transform) : result (list transform) :=
  do r <- scan W s (zip_step (fst r12) (snd r12)) [TL; TL] [ids (num_links s); map GInt (link_parents s)] false [((-1)%Z, t_zero)];
  Ok (fst r).
(** sim2real.py 133-162 *)
Definition zip_xs (s : sys) (t1 t2 : traj) : result traj :=
  do _ <- check_series s t1;
  do _ <- check_series s t2;
  do _ <- (if (length (tr_rows t1) =? length (tr_rows t2))%nat then Ok tt else Err EValue);   (* vmap *)
  do rows <- mapM (zip_row s) (combine (tr_rows t1) (tr_rows t2));
  Ok (mkTraj (num_links s) rows).

(** sim2real.py 240-243 *)
Fixpoint replace_nth {A} (l : list A) (i : nat) (v : A) : list A :=
  match l, i with [], _ => [] | _ :: r, 0%nat => v :: r | x :: r, S k => x :: replace_nth r k v end.
Definition replace_link (xs : traj) (new : list transform) (i : nat) : traj :=
  mkTraj (tr_links xs) (zipwith (fun row x => replace_nth row i x) (tr_rows xs) new).
(** sim2real.py 228-237 *)
Definition overwrite_link (s : sys) (xs : traj) (new : list transform) (i : nat) : result traj :=
  do t12 <- unzip_xs s xs;
  let t1 := replace_link (fst t12) new i in
  let t2 := replace_link (snd t12) (map (fun _ => t_zero) new) i in
  zip_xs s t1 t2.
(** sim2real.py 171-188 *)
Definition delete_to_world (s : sys) (xs : traj) : result traj :=
  do _ <- check_series s xs;
  foldM (fun xs ip => if Z.eqb (snd ip) (-1) then overwrite_link s xs (map (fun _ => t_zero) (tr_rows xs)) (fst ip) else Ok xs)
    xs (combine (seq 0 (length (link_parents s))) (link_parents s)).
End Target.
