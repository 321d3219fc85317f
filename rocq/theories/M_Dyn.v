(** * Model of src/ring/algorithms/dynamics.py over real systems.

    Matrices of size n x n are functions [nat -> nat -> R], read at indices below n only.
    jax.scipy.linalg.solve(A, eye) is an oracle: an argument [solve] of the functions that use it. *)
From Coq Require Import Reals String Ascii ZArith Bool List.
From Verif Require Import Prelude M_Sys M_Math M_Geom M_Joint M_Kin.
Import ListNotations.
Local Open Scope R_scope.

(** ** Matrices *)
Definition mat := nat -> nat -> R.
Fixpoint sumR (n : nat) (f : nat -> R) : R := match n with O => 0 | S k => sumR k f + f k end.
Definition mat_zero : mat := fun _ _ => 0.
Definition eye : mat := fun a b => if (a =? b)%nat then 1 else 0.
Definition mat_add (A B : mat) : mat := fun a b => A a b + B a b.
Definition mat_scale (c : R) (A : mat) : mat := fun a b => c * A a b.
Definition mat_mul (n : nat) (A B : mat) : mat := fun a b => sumR n (fun k => A a k * B k b).
Definition mat_trans (A : mat) : mat := fun a b => A b a.
(** jnp.diag of a vector *)
Definition mat_diag (d : list R) : mat := fun a b => if (a =? b)%nat then getR d a else 0.
(** M @ v *)
Definition mat_vec (n : nat) (M : mat) (v : list R) : list R :=
  map (fun a => sumR n (fun b => M a b * getR v b)) (seq 0 n).
(** H.at[si, sj].set(B) *)
Definition in_slice (sl : slice) (a : nat) : bool := ((fst sl <=? a) && (a <? snd sl))%nat.
Definition set_block (H : mat) (si sj : slice) (B : mat) : mat :=
  fun a b => if in_slice si a && in_slice sj b then B (a - fst si)%nat (b - fst sj)%nat else H a b.
(** jnp.tril(A, k) for k = 0 and k = -1 *)
Definition tril (A : mat) : mat := fun a b => if (b <=? a)%nat then A a b else 0.
Definition tril1 (A : mat) : mat := fun a b => if (b <? a)%nat then A a b else 0.
(** jnp.linalg.norm (Frobenius) and jnp.trace *)
Definition mat_norm (n : nat) (A : mat) : R := sqrt (sumR n (fun a => sumR n (fun b => A a b * A a b))).
Definition mat_trace (n : nat) (A : mat) : R := sumR n (fun a => A a a).

(** str.lower() on ASCII *)
Definition lower_ascii (c : ascii) : ascii :=
  let n := nat_of_ascii c in if ((65 <=? n) && (n <=? 90))%nat then ascii_of_nat (n + 32) else c.
Fixpoint lower (s : string) : string :=
  match s with EmptyString => EmptyString | String c r => String (lower_ascii c) (lower r) end.

Section Dyn.
Context {P O : Type}.
Variable W : widths.
Variable jt : joint_table P.
Notation link := (plink (params P)).
Notation rsys := (System R link geometry O).

(** ** inverse_dynamics, dynamics.py 14-75 *)
(** The dicts vel, acc, fs. *)
Record rnea := mkRnea { d_vel : list (Z * spatial); d_acc : list (Z * spatial); d_fs : list (Z * spatial) }.

(** dynamics.py 23-43 *)
Definition id_forward (grav : spatial) (_ : option unit) (_ : idx_map) (ps : list (piece (arg P))) (st : rnea)
  : result (unit * rnea) :=
  match ps with
  | [One (AInt i); One (AInt p); One (AStr typ); Many qd; Many qdd; One (ALink l)] =>
      do vJ <- jcalc_motion jt typ (nums qd) (pl_params l);
      do aJ <- jcalc_motion jt typ (nums qdd) (pl_params l);
      let t := t_motion (pl_t l) in
      let it := pl_inertia l in
      do va <- (if Z.eqb p (-1) then Ok (vJ, sadd (t grav) aJ)
                else do vp <- dgetE Z.eqb (d_vel st) p;
                     let v := sadd vJ (t vp) in
                     do ap <- dgetE Z.eqb (d_acc st) p;
                     Ok (v, sadd (sadd (t ap) aJ) (m_cross v vJ)));
      let '(v, a) := va in
      let f := sadd (i_mul it a) (m_cross_star v (i_mul it v)) in
      Ok (tt, mkRnea (dset Z.eqb (d_vel st) i v) (dset Z.eqb (d_acc st) i a) (dset Z.eqb (d_fs st) i f))
  | _ => Err EType
  end.
(** dynamics.py 57-63; the state is (fs, taus) *)
Definition id_backward (_ : option unit) (_ : idx_map) (ps : list (piece (arg P)))
    (st : list (Z * spatial) * list (list R)) : result (unit * (list (Z * spatial) * list (list R))) :=
  match ps with
  | [One (AInt i); One (AInt p); One (AStr typ); One (ATr l_to_p); One (ALink l)] =>
      do f <- dgetE Z.eqb (fst st) i;
      do tau <- jcalc_tau jt typ f (pl_params l);
      if Z.eqb p (-1) then Ok (tt, (fst st, tau :: snd st))
      else do fp <- dgetE Z.eqb (fst st) p;
           Ok (tt, (dset Z.eqb (fst st) p (sadd fp (t_force l_to_p f)), tau :: snd st))
  | _ => Err EType
  end.
Definition inverse_dynamics (s : rsys) (qd qdd : list R) : result (list R) :=
  let grav := Sp vzero (v3_of (gravity s)) in
  do r1 <- scan W s (id_forward grav) [TL; TL; TL; TD; TD; TL]
      [ints (num_links s); map AInt (link_parents s); map AStr (link_types s); map ANum qd; map ANum qdd;
       map ALink (links s)] false (mkRnea [] [] []);
  do r2 <- scan W s id_backward [TL; TL; TL; TL; TL]
      [ints (num_links s); map AInt (link_parents s); map AStr (link_types s);
       map ATr (map (fun l => t_inv (pl_t l)) (links s)); map ALink (links s)] true (d_fs (snd r1), []);
  concatenate (snd (snd r2)).

(** ** compute_mass_matrix, dynamics.py 78-178 *)
(** dynamics.py 87-91; the state is the Python list its *)
Definition accumulate_inertias (l_to_p : list transform) (_ : option inertia) (_ : idx_map)
    (ps : list (piece (arg P))) (its : list inertia) : result (inertia * list inertia) :=
  match ps with
  | [One (AInt i); One (AInt p)] =>
      do it_i <- py_get its i;
      if Z.eqb p (-1) then Ok (it_i, its)
      else do x <- py_get l_to_p i;
           do it_p <- py_get its p;
           Ok (it_i, set_at its (Z.to_nat p) (iadd it_p (t_inertia x it_i)))
  | _ => Err EType
  end.
(** dynamics.py 112-130; None for a joint without degrees of freedom *)
Definition motion_matrix (lt : link * string) : result (option (list spatial)) :=
  do pr <- limit_scope (snd lt) (pl_params (fst lt));
  do jm <- get_joint_model jt (snd lt);
  let ms := map (fun m => m pr) (jm_motion jm) in
  Ok (match ms with [] => None | _ => Some ms end).
(** f @ S.T *)
Definition outer (f ms : list spatial) : mat := fun r c => m_dot (nth r f szero) (nth c ms szero).

(** dynamics.py 148-170: the walk from link j to the root; the fuel is the number of links *)
Fixpoint walk_up (fuel : nat) (parents : list Z) (l_to_p : list transform) (ss : list (option (list spatial)))
    (ds : list slice) (sl_i : slice) (j : nat) (f : list spatial) (H : mat) : result mat :=
  match fuel with
  | 0%nat => Err EOutOfFuel
  | S k =>
      do p <- py_get parents (Z.of_nat j);
      if Z.eqb p (-1) then Ok H
      else do x <- py_get l_to_p (Z.of_nat j);
           let f' := map (t_force x) f in
           do sp <- py_get ss p;
           let jp := Z.to_nat p in
           match sp with
           | None => walk_up k parents l_to_p ss ds sl_i jp f' H
           | Some ms =>
               match nth_error ds jp with
               | None => Err EKey
               | Some sl_j => walk_up k parents l_to_p ss ds sl_i jp f' (set_block H sl_i sl_j (outer f' ms))
               end
           end
  end.
(** dynamics.py 134-170; the state is H *)
Definition populate_H (s : rsys) (l_to_p : list transform) (I_mat : list mat6) (ss : list (option (list spatial)))
    (_ : option unit) (im : idx_map) (ps : list (piece (arg P))) (H : mat) : result (unit * mat) :=
  match ps with
  | [One (AInt i)] =>
      do si <- py_get ss i;
      match si with
      | None => Ok (tt, H)
      | Some ms =>
          do Im <- py_get I_mat i;
          let f := map (m6vec Im) ms in
          match nth_error (im_d im) (Z.to_nat i) with
          | None => Err EKey
          | Some sl =>
              let H1 := set_block H sl sl (tril (outer f ms)) in
              do H2 <- walk_up (S (num_links s)) (link_parents s) l_to_p ss (im_d im) sl (Z.to_nat i) f H1;
              Ok (tt, H2)
          end
      end
  | _ => Err EType
  end.
Definition compute_mass_matrix (s : rsys) : result mat :=
  let l_to_p := map (fun l => t_inv (pl_t l)) (links s) in
  do r <- scan W s (accumulate_inertias l_to_p) [TL; TL] [ints (num_links s); map AInt (link_parents s)] true
      (map pl_inertia (links s));
  let I_mat := map i_as_matrix (fst r) in
  do ss <- mapM motion_matrix (combine (links s) (link_types s));
  do r2 <- scan W s (populate_H s l_to_p I_mat ss) [TL] [ints (num_links s)] true mat_zero;
  let H := snd r2 in
  Ok (mat_add (mat_add H (mat_trans (tril1 H))) (mat_diag (link_armature s))).

(** dynamics.py 295-297 *)
Definition quad_form (n : nat) (M : mat) (v : list R) : R :=
  sumR n (fun b => sumR n (fun a => getR v a * M a b) * getR v b).
Definition kinetic_energy (s : rsys) (qd : list R) : result R :=
  do H <- compute_mass_matrix s;
  do n <- qd_size W s;
  Ok (/ 2 * quad_form n H qd).

(** ** Springs: dynamics.py 181-210 *)
Definition quaternion_spring_force (q_zero q : list R) : list R :=
  let '(axis, angle) := quat_to_rot_axis (qmul (q4_of q_zero) (qinv (q4_of q))) in
  v3_list (vscale angle axis).
Definition spring_force_link (typ : string) (q zeropoint : list R) : list R :=
  if is_free_or_cor typ then quaternion_spring_force (firstn 4 zeropoint) (firstn 4 q) ++ lsub (skipn 4 zeropoint) (skipn 4 q)
  else if is_spherical typ then quaternion_spring_force zeropoint q
  else lsub zeropoint q.
Definition spring_step (_ : option unit) (_ : idx_map) (ps : list (piece (arg P))) (st : list (list R))
  : result (unit * list (list R)) :=
  match ps with
  | [Many q; Many z; One (AStr typ)] => Ok (tt, st ++ [spring_force_link typ (nums q) (nums z)])
  | _ => Err EType
  end.
Definition spring_force (s : rsys) (q : list R) : result (list R) :=
  do r <- scan W s spring_step [TQ; TQ; TL] [map ANum q; map ANum (link_spring_zeropoint s); map AStr (link_types s)]
      false [];
  concatenate (snd r).

(** ** _inv_approximate, dynamics.py 327-352 *)
Fixpoint newton_schulz (n : nat) (a a_inv r : mat) (err : R) (k : nat) : mat :=
  match k with
  | 0%nat => a_inv
  | S k' =>
      let next := mat_mul n a_inv (mat_add eye r) in
      let r' := mat_add eye (mat_scale (-1) (mat_mul n a next)) in
      let err' := mat_norm n r' in
      newton_schulz n a (if Rlt_dec err' err then next else a_inv) r' err' k'
  end.
Definition inv_approximate (n : nat) (a a_inv : mat) (num_iter : nat) : mat :=
  let r0 := mat_add eye (mat_scale (-1) (mat_mul n a a_inv)) in
  let a_inv' := if Rlt_dec 1 (mat_norm n r0)
                then mat_scale (/ mat_trace n (mat_mul n a (mat_trans a))) (mat_scale (1 / 2) (mat_trans a))
                else a_inv in
  newton_schulz n a a_inv' r0 1 num_iter.

(** ** forward_dynamics, dynamics.py 213-247 *)
Variable solve : nat -> mat -> mat.   (* jax.scipy.linalg.solve(A, eye, assume_a="pos") *)
Definition regularised_mass_matrix (s : rsys) (M : mat) : mat :=
  mat_add (mat_add M (mat_scale (sys_dt s) (mat_diag (link_damping s)))) (mat_scale (/ 10 ^ 6) eye).
Definition smooth_force (s : rsys) (q qd tau : list R) : result (list R) :=
  do C <- inverse_dynamics s qd (zeros (length qd));
  do sp <- spring_force s q;
  let spring := ladd (lmul (map Ropp (link_damping s)) qd) (lmul (link_spring_stiffness s) sp) in
  Ok (ladd (lsub tau C) spring).
Definition forward_dynamics (s : rsys) (q qd tau : list R) : result (list R * mat) :=
  do qf <- smooth_force s q qd tau;
  do M <- compute_mass_matrix s;
  do n <- qd_size W s;
  let inv := if (mass_mat_iters s =? 0)%nat then solve n (regularised_mass_matrix s M)
             else inv_approximate n M eye (mass_mat_iters s) in
  Ok (mat_vec n inv qf, inv).

(** ** Integration: dynamics.py 250-287 *)
Definition strapdown (q : quat) (dang : vec3) (dt : R) : quat :=
  let nrm := vnorm dang + / 10 ^ 8 in
  let axis := vscale (/ nrm) dang in
  let q' := qmul (quat_rot_axis axis (nrm * dt)) q in
  qscale (/ sqrt (qnorm2 q')) q'.
Definition integrate_link (dt : R) (typ : string) (q qd : list R) : list R :=
  if is_free_or_cor typ then
    q4_list (strapdown (q4_of (firstn 4 q)) (v3_of (firstn 3 qd)) dt) ++ ladd (skipn 4 q) (lscale dt (skipn 3 qd))
  else if is_spherical typ then q4_list (strapdown (q4_of q) (v3_of qd) dt)
  else ladd q (lscale dt qd).
Definition integrate_step (dt : R) (_ : option unit) (_ : idx_map) (ps : list (piece (arg P))) (st : list (list R))
  : result (unit * list (list R)) :=
  match ps with
  | [Many q; Many qd; One (AStr typ)] => Ok (tt, st ++ [integrate_link dt typ (nums q) (nums qd)])
  | _ => Err EType
  end.
Definition semi_implicit_euler (s : rsys) (st : State) (taus : list R) : result State :=
  do r <- forward_dynamics s (st_q st) (st_qd st) taus;
  let qd_next := ladd (st_qd st) (lscale (sys_dt s) (fst r)) in
  do r2 <- scan W s (integrate_step (sys_dt s)) [TQ; TD; TL] [map ANum (st_q st); map ANum qd_next; map AStr (link_types s)]
      false [];
  do q_next <- concatenate (snd r2);
  Ok (mkState q_next qd_next (st_x st)).

(** ** step, dynamics.py 300-324.  A negative number of sub-steps is not modelled; dt / 0 raises. *)
Fixpoint substeps (k : nat) (s : rsys) (st : State) (taus : list R) : result State :=
  match k with
  | 0%nat => Ok st
  | S k' =>
      do r <- forward_kinematics W jt s st;
      let '(s', st') := r in
      do st'' <- semi_implicit_euler s' st' taus;
      substeps k' s' st'' taus
  end.
Definition step (s : rsys) (st : State) (taus : option (list R)) (n_substeps : nat) : result State :=
  do nq <- q_size W s;
  do _ <- assert_ (nq =? length (st_q st))%nat;
  let taus := match taus with Some t => t | None => zeros (length (st_qd st)) end in
  do nd <- qd_size W s;
  do _ <- assert_ ((nd =? length (st_qd st)) && (length (st_qd st) =? length taus))%nat;
  do _ <- assert_ (String.eqb (lower (integration_method s)) "semi_implicit_euler");
  if (n_substeps =? 0)%nat then Err EZeroDiv
  else substeps n_substeps (with_dt s (sys_dt s / INR n_substeps)) st taus.
End Dyn.
