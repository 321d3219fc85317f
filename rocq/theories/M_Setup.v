(** * Randomisation of systems before motion is drawn: generator/setup_fns.py, the damping and stiffness of
    motion_artifacts.py 112-200, jcalc._init_joint_params and maths.quat_random.
    Random numbers come from an [rng] (M_Random.v).  Numbers are real numbers. *)
From Coq Require Import Reals Lra Lia ZArith Bool String List.
From Verif Require Import Prelude M_Sys M_Math M_Geom M_Joint M_Random M_Artifact.
Import ListNotations.
Local Open Scope R_scope.

(** ** maths.quat_random *)
(** maths.py 39-50 for a vector of length four *)
Definition qclose0 (q : quat) : Prop := close0 (qw q) /\ vclose0 (qvec q).
Definition qclose0_dec (q : quat) : {qclose0 q} + {~ qclose0 q}.
Proof. unfold qclose0. destruct (close0_dec (qw q)), (vclose0_dec (qvec q)); tauto. Defined.
Definition safe_normalize4 (q : quat) : quat :=
  if qclose0_dec q then Q4 0 0 0 0 else qscale (/ sqrt (qnorm2 q)) q.
(** maths.py 203-209, from a row of four normally distributed numbers *)
Definition quat_random_of (maxval : R) (draws : quat) : quat :=
  let qs := safe_normalize4 draws in
  if Req_EM_T maxval PI then qs
  else let (axis, angle) := quat_to_rot_axis qs in quat_rot_axis axis (angle * maxval / PI).

(** Replacing fields of a link: dataclasses.replace *)
Definition with_t1 {J} (t : transform) (l : plink J) : plink J :=
  mkPL t (pl_pmin l) (pl_pmax l) (pl_params l) (pl_inertia l) (pl_t2 l) (pl_t l).
Definition with_links {K L G O} (ls : list L) (s : System K L G O) : System K L G O :=
  mkSys (link_parents s) ls (link_types s) (link_damping s) (link_armature s) (link_spring_stiffness s) (link_spring_zeropoint s)
        (sys_dt s) (geoms s) (gravity s) (integration_method s) (mass_mat_iters s) (link_names s) (model_name s) (omc s).
Definition with_springs {K L G O} (d st : list K) (s : System K L G O) : System K L G O :=
  mkSys (link_parents s) (links s) (link_types s) d (link_armature s) st (link_spring_zeropoint s) (sys_dt s) (geoms s) (gravity s)
        (integration_method s) (mass_mat_iters s) (link_names s) (model_name s) (omc s).
Definition with_dt {K L G O} (dt : K) (s : System K L G O) : System K L G O :=
  mkSys (link_parents s) (links s) (link_types s) (link_damping s) (link_armature s) (link_spring_stiffness s) (link_spring_zeropoint s)
        dt (geoms s) (gravity s) (integration_method s) (mass_mat_iters s) (link_names s) (model_name s) (omc s).

Section Setup.
Context {K : Type}.
Variable g : rng K.
(** jax.random.normal: uniform numbers sent through the quantile function of the normal distribution *)
Variable gauss : R -> R.
Definition normals (key : K) (n : nat) : list R := map gauss (r_units g key n).
(** maths.py 196-209: for one quaternion, and for [n] of them *)
Definition quat_of_row (l : list R) (i : nat) : quat := Q4 (nth (4 * i) l 0) (nth (4 * i + 1) l 0) (nth (4 * i + 2) l 0) (nth (4 * i + 3) l 0).
Definition quat_random (key : K) (maxval : R) : quat := quat_random_of maxval (quat_of_row (normals key 4) 0).
Definition quats_random (key : K) (n : nat) (maxval : R) : list quat :=
  map (fun i => quat_random_of maxval (quat_of_row (normals key (4 * n)) i)) (seq 0 n).

Section Sys.
Context {P G O : Type}.
Notation rsys := (System R (plink (params P)) G O).

(** setup_fns.py 20-30: the next key and the position *)
Definition draw_pos_uniform (key : K) (pmin pmax : vec3) : K * vec3 :=
  (r_split g key 4 0,
   V3 (uniform g (r_split g key 4 1) (vx pmin) (vx pmax)) (uniform g (r_split g key 4 2) (vy pmin) (vy pmax))
      (uniform g (r_split g key 4 3) (vz pmin) (vz pmax))).
(** setup_fns.py 8-17; the loop over the links *)
Fixpoint positions_loop (key : K) (ls : list (plink (params P))) : list (plink (params P)) :=
  match ls with
  | [] => []
  | l :: r =>
      let (key, pos) := draw_pos_uniform key (pl_pmin l) (pl_pmax l) in
      with_t1 (Tr pos (t_rot (pl_t1 l))) l :: positions_loop key r
  end.
Definition randomize_positions (key : K) (s : rsys) : result rsys := Ok (with_links (positions_loop key (links s)) s).

(** setup_fns.py 33-47.  The batch of rotations must have as many rows as there are links. *)
Definition set_rot (i : nat) (q : quat) (l : list quat) : list quat := firstn i l ++ q :: skipn (S i) l.
Definition randomize_transform1_rot (key : K) (s : rsys) (maxval : R) (not_imus : bool) : result rsys :=
  let rots := quats_random key (num_links s) maxval in
  do rots <- (if not_imus then
                foldM (fun rots imu => do i <- name_to_idx s imu; Ok (set_rot i qone rots)) rots (filter is_imu_name (link_names s))
              else Ok rots);
  do _ <- (if (length rots =? length (links s))%nat then Ok tt else Err EValue);
  Ok (with_links (map (fun lr => with_t1 (Tr (t_pos (pl_t1 (fst lr))) (snd lr)) (fst lr)) (combine (links s) rots)) s).

(** motion_artifacts.py 121-124 *)
Definition log_uniforms (key : K) (n : nat) (lo hi : R) : result (list R) :=
  do _ <- assert_ (rle 0 lo && rle lo hi);
  Ok (map exp (uniforms g key n (ln lo) (ln hi))).
(** motion_artifacts.py 138-142: stiffness and damping *)
Definition stif_damp_rigid : list R * list R :=
  let stif := repeat 200 3 ++ repeat 20000 3 in (stif, map (fun x => x * (2 / 10)) stif).
(** motion_artifacts.py 112-118, 144-150 *)
Definition stif_damp_nonrigid (key : K) : result (list R * list R) :=
  do sph <- log_uniforms (r_split g key 3 0) 3 (2 / 10) 10;
  do p3d <- log_uniforms (r_split g key 3 1) 3 25 1000;
  let stif := sph ++ p3d in
  do damp <- log_uniforms (r_split g key 3 2) 6 (5 / 100) (5 / 10);
  Ok (stif, map (fun xy => fst xy * snd xy) (combine stif damp)).
(** base.py 449-458: idx_map("d") *)
Definition idx_map_d (W : widths) (s : rsys) : result (list (string * slice)) :=
  do _ <- assert_ (length (link_names s) =? num_links s)%nat;
  do sls <- idx_slices (dW W) s;
  Ok (fold_left (fun d ns => dset String.eqb d (fst ns) (snd ns)) (combine (link_names s) sls) []).
(** jnp.r_[a:b, c:d] *)
Definition r_ (a b : slice) : list nat := seq (fst a) (snd a - fst a) ++ seq (fst b) (snd b - fst b).
(** arr.at[idx].set(v) for an array of indices: indices out of range are dropped; one value is broadcast. *)
Fixpoint put_all (arr : list R) (idx : list nat) (v : list R) : list R :=
  match idx, v with i :: idx, x :: v => put_all (if (i <? length arr)%nat then firstn i arr ++ x :: skipn (S i) arr else arr) idx v | _, _ => arr end.
Definition set_at_all (arr : list R) (idx : list nat) (v : list R) : result (list R) :=
  if (length v =? length idx)%nat then Ok (put_all arr idx v)
  else if (length v =? 1)%nat then Ok (put_all arr idx (repeat (nth 0 v 0) (length idx)))
  else Err EValue.

(** motion_artifacts.py 127-136, 152-200.  jax.random.bernoulli(key, p) is a uniform draw below p.
    State of the loop: key, is_rigid, triggered_surely_rigid, link_spring_stiffness, link_damping. *)
Record damp_opts := mkDampO { do_prob : R; do_all : bool; do_surely : list string }.
Definition bernoulli (key : K) (p : R) : bool := rlt (r_unif g key) p.
Definition damp_state : Type := K * bool * list string * list R * list R.
Definition damp_step (o : damp_opts) (m : list (string * slice)) (v : damp_state) (imu : string) : result damp_state :=
  let '(key, is_rigid, triggered, stiffness, damping) := v in
  do a <- dgetE String.eqb m (imu_reference_link_name imu);
  do b <- dgetE String.eqb m imu;
  let key' := r_split g key 3 0 in
  let c1 := r_split g key 3 1 in
  let c2 := r_split g key 3 2 in
  do r <- (if rlt 0 (do_prob o) then
             if memS imu (do_surely o) then Ok (is_rigid, triggered ++ [imu], stif_damp_rigid)
             else let is_rigid := if do_all o then is_rigid else bernoulli c1 (do_prob o) in
                  do sd <- (if is_rigid then Ok stif_damp_rigid else stif_damp_nonrigid c2); Ok (is_rigid, triggered, sd)
           else do sd <- stif_damp_nonrigid c2; Ok (is_rigid, triggered, sd));
  let '(is_rigid, triggered, (stif, damp)) := r in
  do stiffness <- set_at_all stiffness (r_ a b) stif;
  do damping <- set_at_all damping (r_ a b) damp;
  Ok (key', is_rigid, triggered, stiffness, damping).
Definition randomize_damping_stiffness (W : widths) (o : damp_opts) (key : K) (s : rsys) : result rsys :=
  do _ <- assert_ (rle 0 (do_prob o) && rle (do_prob o) 1);
  do _ <- assert_ (if Req_EM_T (do_prob o) 1 then false else true);
  do _ <- (if Req_EM_T (do_prob o) 0 then assert_ (length (do_surely o) =? 0)%nat else Ok tt);
  do m <- idx_map_d W s;
  let is_rigid := bernoulli (r_split g key 2 1) (do_prob o) in
  do v <- foldM (damp_step o m) (r_split g key 2 0, is_rigid, [], link_spring_stiffness s, link_damping s) (findall_imus s);
  let '(_, _, triggered, stiffness, damping) := v in
  do _ <- assert_ (length (do_surely o) =? length triggered)%nat;
  do _ <- assert_ (forallb (fun n => memS n triggered) (do_surely o));
  Ok (with_springs damping stiffness s).

(** jcalc.py 1138-1158.  [inits typ]: the joint model's init_joint_params, if the type is registered and has one;
    [pdefault] is an array without entries. *)
Variable inits : string -> option (option (K -> P)).
Variable pdefault : P.
Fixpoint init_fns (types : list string) (acc : list (string * (K -> P))) : result (list (string * (K -> P))) :=
  match types with
  | [] => Ok acc
  | typ :: r =>
      if dmem String.eqb acc typ then init_fns r acc
      else match inits typ with
           | None => Err EKey
           | Some None => init_fns r acc
           | Some (Some f) => init_fns r (acc ++ [(typ, f)])
           end
  end.
(** the loop 1151-1154: the parameters of link [i]; 1157: the default parameters *)
Fixpoint init_loop (key : K) (n : nat) (fns : list (string * (K -> P))) (i : nat) : params P :=
  match fns with
  | [] => []
  | (typ, f) :: r => (typ, f (r_split g key (n + 1) (S i))) :: init_loop (r_split g key (n + 1) 0) n r i
  end.
Definition init_joint_params (key : K) (s : rsys) : result rsys :=
  do fns <- init_fns (link_types s) [];
  let n := num_links s in
  do _ <- (if (n =? length (links s))%nat then Ok tt else Err EValue);
  Ok (with_links (map (fun il : nat * plink (params P) => set_params (J := params P) (dset String.eqb (init_loop key n fns (fst il)) "default"%string pdefault) (snd il)) (combine (seq 0 n) (links s))) s).
End Sys.
End Setup.
