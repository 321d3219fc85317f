(** * Model of src/ring/algorithms/kinematics.py 13-97, State.create (base.py 1041-1093) and
    System.coordinate_vector_to_q (base.py 811-839), over real systems. *)
From Coq Require Import Reals String ZArith Bool List.
From Verif Require Import Prelude M_Sys M_Math M_Geom M_Joint.
Import ListNotations.
Local Open Scope R_scope.

(** An element of an argument of a scan: one number of a "q"/"d" array, or a per-link value. *)
Inductive arg (P : Type) :=
| ANum (r : R) | AInt (z : Z) | AStr (s : string) | ALink (l : plink (params P)) | ATr (t : transform).
Arguments ANum {P}. Arguments AInt {P}. Arguments AStr {P}. Arguments ALink {P}. Arguments ATr {P}.
Definition nums {P} (l : list (arg P)) : list R := map (fun a => match a with ANum r => r | _ => 0 end) l.
Definition ints {P} (n : nat) : list (arg P) := map (fun i => AInt (Z.of_nat i)) (seq 0 n).

(** jnp.concatenate of a Python list of arrays: at least one array is needed. *)
Definition concatenate (l : list (list R)) : result (list R) :=
  match l with [] => Err EValue | _ => Ok (concat l) end.

(** base.py 1026-1039 *)
Record State := mkState { st_q : list R; st_qd : list R; st_x : list transform }.

(** q.at[i].set(v) *)
Fixpoint set_at {A} (l : list A) (i : nat) (v : A) : list A :=
  match l, i with [], _ => [] | _ :: r, O => v :: r | x :: r, S k => x :: set_at r k v end.

Section Kin.
Context {P O : Type}.
Variable W : widths.
Variable jt : joint_table P.
Notation link := (plink (params P)).
Notation rsys := (System R link geometry O).

(** sys.replace(links=...) and sys.replace(dt=...) *)
Definition with_links (s : rsys) (ls : list link) : rsys :=
  mkSys (link_parents s) ls (link_types s) (link_damping s) (link_armature s) (link_spring_stiffness s)
    (link_spring_zeropoint s) (sys_dt s) (geoms s) (gravity s) (integration_method s) (mass_mat_iters s)
    (link_names s) (model_name s) (omc s).
Definition with_dt (s : rsys) (dt : R) : rsys :=
  mkSys (link_parents s) (links s) (link_types s) (link_damping s) (link_armature s) (link_spring_stiffness s)
    (link_spring_zeropoint s) dt (geoms s) (gravity s) (integration_method s) (mass_mat_iters s)
    (link_names s) (model_name s) (omc s).
Definition set_transforms (l : link) (t t2 : transform) : link :=
  mkPL (pl_t1 l) (pl_pmin l) (pl_pmax l) (pl_params l) (pl_inertia l) t2 t.

(** kinematics.py 23-31: the callback; [st] is the dict eps_to_l. *)
Definition fk_step (_ : option (transform * link)) (_ : idx_map) (ps : list (piece (arg P)))
    (st : list (Z * transform)) : result ((transform * link) * list (Z * transform)) :=
  match ps with
  | [Many q; One (ALink l); One (AInt i); One (AInt p); One (AStr typ)] =>
      do t2 <- jcalc_transform jt typ (nums q) (pl_params l);
      let t := t_mul t2 (pl_t1 l) in
      do xp <- dgetE Z.eqb st p;
      let x := t_mul t xp in
      Ok ((x, set_transforms l t t2), dset Z.eqb st i x)
  | _ => Err EType
  end.
(** kinematics.py 13-43 *)
Definition forward_kinematics_transforms (s : rsys) (q : list R) : result (list transform * rsys) :=
  do r <- scan W s fk_step [TQ; TL; TL; TL; TL]
      [map ANum q; map ALink (links s); ints (num_links s); map AInt (link_parents s); map AStr (link_types s)]
      false [((-1)%Z, t_zero)];
  Ok (map fst (fst r), with_links s (map snd (fst r))).
(** kinematics.py 46-54 *)
Definition forward_kinematics (s : rsys) (st : State) : result (rsys * State) :=
  do r <- forward_kinematics_transforms s (st_q st);
  Ok (snd r, mkState (st_q st) (st_qd st) (fst r)).

(** kinematics.py 64-83; [st] is the Python list q. *)
Definition ik_step (x : list transform) (_ : option unit) (_ : idx_map) (ps : list (piece (arg P)))
    (st : list (list R)) : result (unit * list (list R)) :=
  match ps with
  | [One (AInt i); One (ATr x_i); One (ALink l); One (AInt p); One (AStr typ)] =>
      do x_p <- (if Z.eqb p (-1) then Ok t_zero else py_get x p);
      do pr <- limit_scope typ (pl_params l);
      let t_p_to_i := t_mul x_i (t_inv x_p) in
      let t2 := t_mul t_p_to_i (t_inv (pl_t1 l)) in
      do jm <- get_joint_model jt typ;
      match jm_inv_kin jm with
      | None => Err ENotImpl
      | Some ik => do qi <- ik t2 pr; Ok (tt, st ++ [qi])
      end
  | _ => Err EType
  end.
(** kinematics.py 57-97 *)
Definition inverse_kinematics (s : rsys) (st : State) : result State :=
  do r <- scan W s (ik_step (st_x st)) [TL; TL; TL; TL; TL]
      [ints (num_links s); map ATr (st_x st); map ALink (links s); map AInt (link_parents s); map AStr (link_types s)]
      false [];
  do q <- concatenate (snd r);
  do n <- q_size W s;
  do _ <- assert_ (length q =? n)%nat;
  Ok (mkState q (st_qd st) (st_x st)).

(** base.py 811-839.  [custom] is custom_joints. *)
Definition to_q_step (custom : list (string * (list R -> list R))) (_ : option unit) (_ : idx_map)
    (ps : list (piece (arg P))) (st : list (list R)) : result (unit * list (list R)) :=
  match ps with
  | [One (AStr typ); Many q] =>
      do jm <- get_joint_model jt typ;
      match (match dget String.eqb custom typ with Some f => Some f | None => jm_to_q jm end) with
      | None => Err ENotImpl
      | Some f => Ok (tt, st ++ [f (nums q)])
      end
  | _ => Err EType
  end.
Definition coordinate_vector_to_q (s : rsys) (q : list R) (custom : list (string * (list R -> list R))) : result (list R) :=
  do r <- scan W s (to_q_step custom) [TL; TQ] [map AStr (link_types s); map ANum q] false [];
  concatenate (snd r).

(** base.py 1071-1083 *)
Definition unit_quat_step (_ : option unit) (im : idx_map) (ps : list (piece (arg P))) (q : list R)
  : result (unit * list R) :=
  match ps with
  | [One (AStr typ); One (AInt i)] =>
      if is_free_or_cor_or_spherical typ then
        match nth_error (im_q im) (Z.to_nat i) with
        | Some sl => Ok (tt, set_at q (fst sl) 1)
        | None => Err EKey
        end
      else Ok (tt, q)
  | _ => Err EType
  end.
(** base.py 1041-1093.  [rand] stands for jax.random.normal(key, (n,)): the drawn vector, when a key is given. *)
Definition state_create (s : rsys) (q qd : option (list R)) (x : option (list transform))
    (rand : option (list R)) (custom : list (string * (list R -> list R))) : result State :=
  do q' <- match rand with
           | Some z => do _ <- assert_ (match q with None => true | Some _ => false end);
                       coordinate_vector_to_q s z custom
           | None =>
               match q with
               | Some q => Ok q
               | None =>
                   do n <- q_size W s;
                   do r <- scan W s unit_quat_step [TL; TL] [map AStr (link_types s); ints (num_links s)] false (zeros n);
                   Ok (snd r)
               end
           end;
  do qd' <- match qd with Some v => Ok v | None => do n <- qd_size W s; Ok (zeros n) end;
  Ok (mkState q' qd' (match x with Some x => x | None => repeat t_zero (num_links s) end)).
End Kin.
