(** * Model of src/ring/algorithms/generator/pd_control.py and of DynamicalSimulation
    (src/ring/algorithms/generator/finalize_fns.py 158-266), over real systems. *)
From Coq Require Import Reals String ZArith Bool List.
From Verif Require Import Prelude M_Sys M_Math M_Geom M_Joint M_Kin M_Dyn M_Compose.
Import ListNotations.
Local Open Scope R_scope.

(** A two-dimensional array: [tr_width] columns, one list per row. *)
Record traj := mkTraj { tr_width : nat; tr_rows : list (list R) }.
(** [arr.T] for an array with [w] columns. *)
Definition transpose (w : nat) (rows : list (list R)) : list (list R) :=
  map (fun j => map (fun row => getR row j) rows) (seq 0 w).

(** Elementwise operation of two one-dimensional arrays with numpy broadcasting. *)
Definition bcast (f : R -> R -> R) (a b : list R) : result (list R) :=
  if (length a =? length b)%nat then Ok (zipw f a b)
  else if (length a =? 1)%nat then Ok (map (f (getR a 0)) b)
  else if (length b =? 1)%nat then Ok (map (fun x => f x (getR b 0)) a)
  else Err EType.
(** [arr.at[slice].set(v)]: [v] must have the size of the slice or a single entry. *)
Definition set_slice (arr : list R) (sl : slice) (v : list R) : result (list R) :=
  let w := length (take_slice arr sl) in
  if (length v =? w)%nat then Ok (firstn (fst sl) arr ++ v ++ skipn (fst sl + w) arr)
  else if (length v =? 1)%nat then Ok (firstn (fst sl) arr ++ repeat (getR v 0) w ++ skipn (fst sl + w) arr)
  else Err EValue.
(** [jax.lax.dynamic_index_in_dim(arr, i, keepdims=False)]: the index is clamped; an empty array is rejected. *)
Definition dyn_index {A} (l : list A) (i : nat) : result A :=
  match nth_error l (Nat.min i (length l - 1)) with Some x => Ok x | None => Err EType end.

(** An element of an argument of the scans below. *)
Inductive pd_arg := BRow (r : list R) | BStr (s : string) | BNum (x : R) | BInt (i : nat).
Definition brows (l : list pd_arg) : list (list R) := map (fun a => match a with BRow r => r | _ => [] end) l.
Definition bnums (l : list pd_arg) : list R := map (fun a => match a with BNum x => x | _ => 0 end) l.

(** pd_control.py 13-19 *)
Record pd_state := mkPD {
  pd_i : nat;
  pd_q_ref : list (string * list (list R));
  pd_qd_ref : list (string * list (list R));
  pd_P : list (string * list R);
  pd_D : list (string * list R) }.

(** finalize_fns.py 158-178 *)
Definition P_rot : R := 100.
Definition P_pos : R := 250.
Definition P_gains : list (string * list R) :=
  [("free", (repeat P_rot 3 ++ repeat P_pos 3)%list);
   ("free_2d", (repeat P_rot 1 ++ repeat P_pos 2)%list);
   ("px", [P_pos]); ("py", [P_pos]); ("pz", [P_pos]);
   ("rx", [P_rot]); ("ry", [P_rot]); ("rz", [P_rot]);
   ("rr", [P_rot]); ("rr_imp", [P_rot; P_rot]);
   ("cor", (repeat P_rot 3 ++ repeat P_pos 6)%list);
   ("spherical", (repeat P_rot 3)%list); ("p3d", (repeat P_pos 3)%list);
   ("saddle", [P_rot; P_rot]); ("rsaddle", [P_rot; P_rot]);
   ("frozen", []); ("suntay", [P_rot])]%string.

Section Pd.
Context {P O : Type}.
Variable W : widths.
Variable jt : joint_table P.
Notation link := (plink (params P)).
Notation rsys := (System R link geometry O).

(** pd_control.py 61-75: the callback of init; the four dicts. *)
Definition pd_dicts := (list (string * list (list R)) * list (string * list (list R)) * list (string * list R) * list (string * list R))%type.
Definition init_step (dt : R) (T : nat) (has_D : bool) (_ : option unit) (_ : idx_map) (ps : list (piece pd_arg)) (st : pd_dicts)
  : result (unit * pd_dicts) :=
  match ps with
  | [Many q_ref; One (BStr name); One (BStr typ); Many P_link; Many D_link] =>
      let '(qr, qdr, Pd, Dd) := st in
      let Pd := dset String.eqb Pd name (bnums P_link) in
      let q_ref_link := transpose T (brows q_ref) in
      let qr := dset String.eqb qr name q_ref_link in
      if has_D then
        do jm <- get_joint_model jt typ;
        match jm_qd_from_q jm with
        | None => Err ENotImpl
        | Some f => Ok (tt, (qr, dset String.eqb qdr name (f q_ref_link dt), Pd, dset String.eqb Dd name (bnums D_link)))
        end
      else Ok (tt, (qr, qdr, Pd, Dd))
  | _ => Err EType
  end.
(** pd_control.py 50-86 *)
Definition pd_init (Pg : list R) (Dg : option (list R)) (s : rsys) (q_ref : traj) : result pd_state :=
  do nq <- q_size W s;
  do _ <- assert_ (nq =? tr_width q_ref)%nat;
  do nd <- qd_size W s;
  do _ <- assert_ (nd =? length Pg)%nat;
  do _ <- match Dg with Some d => assert_ (nd =? length d)%nat | None => Ok tt end;
  do r <- scan W s (init_step (sys_dt s) (length (tr_rows q_ref)) (match Dg with Some _ => true | None => false end))
      [TQ; TL; TL; TD; TD]
      [map BRow (transpose (tr_width q_ref) (tr_rows q_ref)); map BStr (link_names s); map BStr (link_types s);
       map BNum Pg; map BNum (match Dg with Some d => d | None => zeros nd end)]
      false ([], [], [], []);
  let '(qr, qdr, Pd, Dd) := snd r in Ok (mkPD 0 qr qdr Pd Dd).

(** The P term.  All built-in control terms combine the two coordinate arrays elementwise; the model rejects arrays of
    different sizes, where the code would broadcast or raise. *)
Definition call_p_control (f : list R -> list R -> list R) (q q_ref : list R) : result (list R) :=
  if (length q =? length q_ref)%nat then Ok (f q q_ref) else Err EType.
(** pd_control.py 99-119: the callback of apply; [st] is taus.  [q_ref], [qd_ref] are the current rows. *)
Definition apply_step (cs : pd_state) (q_ref qd_ref : list (string * list R)) (_ : option unit) (im : idx_map)
    (ps : list (piece pd_arg)) (taus : list R) : result (unit * list R) :=
  match ps with
  | [One (BInt i); One (BStr name); One (BStr typ); Many q; Many qd] =>
      if negb (dmem String.eqb (pd_q_ref cs) name) then Ok (tt, taus) else
      do jm <- get_joint_model jt typ;
      match jm_p_control jm with
      | None => Err ENotImpl
      | Some f =>
          do qr <- dgetE String.eqb q_ref name;
          do P_term <- call_p_control f (bnums q) qr;
          do Pg <- dgetE String.eqb (pd_P cs) name;
          do tau <- bcast Rmult P_term Pg;
          do tau <- (if dmem String.eqb (pd_qd_ref cs) name then
                       do qdr <- dgetE String.eqb qd_ref name;
                       do e <- bcast Rminus qdr (bnums qd);
                       do Dg <- dgetE String.eqb (pd_D cs) name;
                       do D_term <- bcast Rmult e Dg;
                       bcast Rplus tau D_term
                     else Ok tau);
          match nth_error (im_d im) i with
          | None => Err EKey
          | Some sl => do taus' <- set_slice taus sl tau; Ok (tt, taus')
          end
      end
  | _ => Err EType
  end.
(** Every entry of a dict at one time step: jax.tree_map of dynamic_index_in_dim, pd_control.py 92-97. *)
Definition rows_at (i : nat) (d : list (string * list (list R))) : result (list (string * list R)) :=
  mapM (fun kv => do r <- dyn_index (snd kv) i; Ok (fst kv, r)) d.
(** pd_control.py 88-131 *)
Definition pd_apply (cs : pd_state) (s : rsys) (st : State) : result (pd_state * list R) :=
  do nd <- qd_size W s;
  do q_ref <- rows_at (pd_i cs) (pd_q_ref cs);
  do qd_ref <- rows_at (pd_i cs) (pd_qd_ref cs);
  do r <- scan W s (apply_step cs q_ref qd_ref) [TL; TL; TL; TQ; TD]
      [map BInt (seq 0 (num_links s)); map BStr (link_names s); map BStr (link_types s);
       map BNum (st_q st); map BNum (st_qd st)] false (zeros nd);
  Ok (mkPD (S (pd_i cs)) (pd_q_ref cs) (pd_qd_ref cs) (pd_P cs) (pd_D cs), snd r).

(** System.idx_map, base.py 449-458, for type "q". *)
Definition idx_map_step (_ : option unit) (im : idx_map) (ps : list (piece pd_arg)) (st : list (string * slice))
  : result (unit * list (string * slice)) :=
  match ps with
  | [One (BStr name); One (BInt i)] =>
      match nth_error (im_q im) i with
      | Some sl => Ok (tt, dset String.eqb st name sl)
      | None => Err EKey
      end
  | _ => Err EType
  end.
Definition idx_map_q (s : rsys) : result (list (string * slice)) :=
  do r <- scan W s idx_map_step [TL; TL] [map BStr (link_names s); map BInt (seq 0 (num_links s))] false [];
  Ok (snd r).

(** pd_control.py 178-192 *)
Definition initial_step (m : list (string * slice)) (_ : option unit) (_ : idx_map) (ps : list (piece pd_arg)) (q : list R)
  : result (unit * list R) :=
  match ps with
  | [One (BStr name); Many q_ref_link] =>
      do sl <- dgetE String.eqb m name; do q' <- set_slice q sl (bnums q_ref_link); Ok (tt, q')
  | _ => Err EType
  end.
Definition initial_q_is_q_ref (s sys_q_ref : rsys) (q_ref : list R) : result State :=
  do st <- state_create W jt s None None None None [];
  do m <- idx_map_q s;
  do r <- scan W sys_q_ref (initial_step m) [TL; TQ] [map BStr (link_names sys_q_ref); map BNum q_ref] false (st_q st);
  state_create W jt s (Some (snd r)) None None None [].

(** sys.replace(gravity=...) *)
Definition with_gravity (s : rsys) (g : list R) : rsys :=
  mkSys (link_parents s) (links s) (link_types s) (link_damping s) (link_armature s) (link_spring_stiffness s)
    (link_spring_zeropoint s) (sys_dt s) (geoms s) g (integration_method s) (mass_mat_iters s)
    (link_names s) (model_name s) (omc s).
(** pd_control.py 166-168 *)
Definition clip_torques (clip_taus : option R) (taus : list R) : result (list R) :=
  match clip_taus with
  | None => Ok taus
  | Some c => if Rlt_dec 0 c then Ok (map (fun x => clip x (- c) c) taus) else Err EAssertion
  end.

Variable solve : nat -> mat -> mat.
(** pd_control.py 163-174: [k] iterations of jax.lax.scan. *)
Fixpoint pd_loop (k : nat) (s : rsys) (clip_taus : option R) (st : State) (cs : pd_state) : result (list State) :=
  match k with
  | 0%nat => Ok []
  | S k' =>
      do r <- pd_apply cs s st;
      let '(cs', taus) := r in
      do taus' <- clip_torques clip_taus taus;
      do st' <- step W jt solve s st (Some taus') 1;
      do rest <- pd_loop k' s clip_taus st' cs';
      Ok (st' :: rest)
  end.
(** pd_control.py 136-175.  [sys_q_ref = None] means the simulated system. *)
Definition unroll_dynamics_pd_control (s : rsys) (q_ref : traj) (Pg : list R) (Dg : option (list R)) (nograv : bool)
    (sys_q_ref : option rsys) (initial_sim_state_is_zeros : bool) (clip_taus : option R) : result (list State) :=
  let s_ref := match sys_q_ref with Some r => r | None => s end in
  let s := if nograv then with_gravity s (map (fun g => g * 0) (gravity s)) else s in
  do st <- (if initial_sim_state_is_zeros then state_create W jt s None None None None []
            else match tr_rows q_ref with
                 | [] => Err EIndex
                 | row :: _ => initial_q_is_q_ref s s_ref row
                 end);
  do cs <- pd_init Pg Dg s_ref q_ref;
  pd_loop (length (tr_rows q_ref)) s clip_taus st cs.

(** ** DynamicalSimulation, finalize_fns.py 181-266 (overwrite_q_ref = None) *)
Variable ops : parse_ops R link geometry.
(** finalize_fns.py 234-253: [st] are the lists q_ref (as columns) and p_gains_list. *)
Definition build_q_ref (custom : list (string * list R)) (m : list (string * slice)) (qT : list (list R))
    (_ : option unit) (_ : idx_map) (ps : list (piece pd_arg)) (st : list (list R) * list (list R))
  : result (unit * (list (list R) * list (list R))) :=
  match ps with
  | [One (BStr name); One (BStr typ)] =>
      do sl <- dgetE String.eqb m name;
      do g <- (if dmem String.eqb custom typ then dgetE String.eqb custom typ
               else if dmem String.eqb P_gains typ then dgetE String.eqb P_gains typ
               else Err EOther);
      do w <- wget (dW W) typ;
      do _ <- assert_ (w =? length g)%nat;
      Ok (tt, (fst st ++ take_slice qT sl, snd st ++ [g]))
  | _ => Err EType
  end.
(** The reference system, trajectory and gains: finalize_fns.py 219-256. *)
Definition reference (custom : list (string * list R)) (unactuated : list string) (s : rsys) (q : traj)
  : result (rsys * traj * list R) :=
  do m <- idx_map_q s;
  do s_ref <- (if (0 <? length unactuated)%nat then delete_subsystem W ops s unactuated true else Ok s);
  do r <- scan W s_ref (build_q_ref custom m (transpose (tr_width q) (tr_rows q))) [TL; TL]
      [map BStr (link_names s_ref); map BStr (link_types s_ref)] false ([], []);
  let '(cols, gains) := snd r in
  do Pg <- concatenate gains;
  Ok (s_ref, mkTraj (length cols) (transpose (length (tr_rows q)) cols), Pg).
Definition dynamical_simulation (custom : list (string * list R)) (unactuated : list string)
    (Dg : option (list R)) (nograv initial_sim_state_is_zeros : bool) (clip_taus : option R) (s : rsys) (q : traj)
  : result (list State) :=
  do r <- reference custom unactuated s q;
  let '(s_ref, q_ref, Pg) := r in
  unroll_dynamics_pd_control s q_ref Pg Dg nograv (Some s_ref) initial_sim_state_is_zeros clip_taus.
End Pd.
