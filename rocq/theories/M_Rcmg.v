(** * The random chain motion generator: generator/base.py 275-422, generator/finalize_fns.py 16-155 and 269-315,
    the random parts of sensors.imu and sensors.joint_axes (sensors.py 63-79, 136-271, 382-477).
    One call of the generator makes one sequence per motion configuration.  jax.vmap and jax.jit act element by element.
    Functions that draw take the generator of random numbers as an argument. *)
From Coq Require Import Reals Lra Lia ZArith Bool String DecimalString List.
From Verif Require Import Prelude M_Sys M_Math M_Geom M_Joint M_Kin M_Random M_Draw M_Setup M_Compose M_Target M_Sens.
Import ListNotations.
Local Open Scope R_scope.

(** ** Data: X and y are dictionaries of arrays or of dictionaries of arrays *)
Inductive arr := AScalar (x : R) | AVec (l : list R) | ASeries (l : list vec3) | AQuats (l : list quat) | ARows (l : list (list R)).
Inductive value := VArr (a : arr) | VDict (d : list (string * arr)).
Definition data : Type := list (string * value).
(** utils.py 71-95 with overwrite=False; the arguments are copied first, so that values suffice (C43 is about the copies) *)
Definition union_step (d1 : data) (kv : string * value) : result data :=
  let (key2, v2) := kv in
  match dget String.eqb d1 key2 with
  | None => Ok (dset String.eqb d1 key2 v2)
  | Some v1 =>
      match v1, v2 with
      | VDict n1, VDict n2 =>
          do _ <- assert_ (forallb (fun x => negb (dmem String.eqb n1 (fst x))) n2);
          Ok (dset String.eqb d1 key2 (VDict (fold_left (fun d x => dset String.eqb d (fst x) (snd x)) n2 n1)))
      | _, _ => Err EOther
      end
  end.
Definition dict_union (d1 d2 : data) : result data := foldM union_step d1 d2.

(** finalize_fns.py 29-39.  str(int) *)
Definition str_nat (n : nat) : string := NilZero.string_of_uint (Nat.to_uint n).
Definition rename_step (names : list string) (d : data) (key : string) : result data :=
  if memS key names then
    do v <- dgetE String.eqb d key;
    let d := ddel String.eqb d key in
    do i <- indexS key names;
    Ok (dset String.eqb d (str_nat i) v)
  else Ok d.
Definition rename_links (d : data) (names : list string) : result data := foldM (rename_step names) d (map fst d).

(** ** finalize_fns.py 269-315: one array for X and one for y, for one sequence of a batch.  The result is indexed by time,
    segment and feature. *)
(** 278-285: an array without axes cannot be indexed; every segment must be a dictionary *)
Definition expand_dt (X : data) (T : nat) : result data :=
  match dget String.eqb X "dt"%string with
  | None => Ok X
  | Some v =>
      do dt <- match v with VArr (AVec l) => Ok l | VArr (AScalar _) => Err EIndex | VArr _ => Err EValue | VDict _ => Err EType end;
      mapM (fun kv => match snd kv with VDict d => Ok (fst kv, VDict (dset String.eqb d "dt"%string (ARows (repeat dt T)))) | VArr _ => Err EType end) (ddel String.eqb X "dt"%string)
  end.
Definition feature_rows (a : arr) : result (list (list R)) :=
  match a with
  | ASeries l => Ok (map (fun v => [vx v; vy v; vz v]) l)
  | AQuats l => Ok (map (fun q => [qw q; qx q; qy q; qz q]) l)
  | ARows l => Ok l
  | _ => Err EValue
  end.
Definition sub_dict (v : value) : result (list (string * arr)) := match v with VDict d => Ok d | VArr _ => Err EIndex end.
(** 299-305 *)
Definition dict_to_tuple (d : list (string * arr)) : result (list arr) :=
  do acc <- dgetE String.eqb d "acc"%string;
  do gyr <- dgetE String.eqb d "gyr"%string;
  Ok ([acc; gyr] ++ match dget String.eqb d "joint_axes"%string with Some a => [a] | None => [] end
                 ++ match dget String.eqb d "dt"%string with Some a => [a] | None => [] end).
(** 269-272: stacking needs equal structures and shapes.  [seq]: the features of each segment, each a list over time *)
Definition widths_of (f : list (list R)) : list nat := map (@length R) f.
Definition eq_nats (a b : list nat) : bool := if list_eq_dec Nat.eq_dec a b then true else false.
Definition flatten (T : nat) (seq_ : list (list (list (list R)))) : result (list (list (list R))) :=
  match seq_ with
  | [] => Err EValue
  | first :: _ =>
      do _ <- (if forallb (fun fs => (length fs =? length first)%nat && forallb (fun ab => eq_nats (widths_of (fst ab)) (widths_of (snd ab))) (combine fs first)) seq_ &&
                  forallb (fun f => (length f =? T)%nat) first then Ok tt else Err EValue);
      Ok (map (fun t => map (fun fs => concat (map (fun f => nth t f []) fs)) seq_) (seq 0 T))
  end.
(** 288-315 *)
Definition expand_then_flatten (Xy : data * data) : result (list (list (list R)) * list (list (list R))) :=
  let (X, y) := Xy in
  do v0 <- dgetE String.eqb X "0"%string;
  do d0 <- sub_dict v0;
  do gyr <- dgetE String.eqb d0 "gyr"%string;
  do T <- match gyr with ASeries l => Ok (length l) | _ => Err EIndex end;
  do X <- expand_dt X T;
  let N := length X in
  do Xs <- mapM (fun i => do v <- dgetE String.eqb X (str_nat i); do d <- sub_dict v; do t <- dict_to_tuple d; mapM feature_rows t) (seq 0 N);
  do ys <- mapM (fun i => do v <- dgetE String.eqb y (str_nat i); match v with VArr a => do f <- feature_rows a; Ok [f] | VDict _ => Err EType end) (seq 0 N);
  do X <- flatten T Xs;
  do y <- flatten T ys;
  Ok (X, y).

Section Rcmg.
Context {K : Type}.

(** ** Noise of sensors *)
Section Noise.
Variable g : rng K.
(** jax.random.normal, see M_Setup.v *)
Variable gauss : R -> R.
Definition deg (x : R) : R := x * PI / 180.
(** sensors.py 63-79 *)
Definition draw_random_magvec (key : K) : vec3 :=
  let dip := deg (uniform g (r_split g key 2 0) (-85) (-50)) in
  let norm := uniform g (r_split g key 2 1) (15 / 40) (65 / 40) in
  V3 0 (cos dip * norm) (sin dip * norm).
(** sensors.py 130-133 *)
Definition noise_level (sensor : string) : R :=
  if String.eqb sensor "acc" then 48 / 1000 else if String.eqb sensor "gyr" then deg (7 / 10) else 1 / 100.
Definition bias_level (sensor : string) : R :=
  if String.eqb sensor "acc" then 5 / 10 else if String.eqb sensor "gyr" then deg 3 else 0.
Definition row3 (l : list R) (i : nat) : vec3 := V3 (nth (3 * i) l 0) (nth (3 * i + 1) l 0) (nth (3 * i + 2) l 0).
(** sensors.py 152-176: the draws for the [j]-th sensor of the dictionary; each has [n] samples *)
Definition noise_key (key : K) (j : nat) : K := Nat.iter j (fun k => r_split g k 3 0) key.
Definition noise_draw (key : K) (n j : nat) (sensor : string) : list vec3 * vec3 :=
  let k := noise_key key j in
  let z := normals g gauss (r_split g k 3 1) (3 * n) in
  let b := uniforms g (r_split g k 3 2) 3 (- bias_level sensor) (bias_level sensor) in
  (map (fun i => vscale (noise_level sensor) (row3 z i)) (seq 0 n), row3 b 0).
Definition sensor_number (sensor : string) : nat := if String.eqb sensor "acc" then 0 else if String.eqb sensor "gyr" then 1 else 2.
(** sensors.py 182-199: the arguments of imu *)
Record imu_kwargs := mkIK {
  k_noisy : bool; k_smooth : option nat; k_delay : option nat; k_s2s : option R; k_quasi : bool; k_pos : option R; k_rot : option R;
  k_has_mag : bool; k_magvec : option vec3; k_second : bool; k_natural : bool; k_acc_n : nat }.
(** sensors.py 206-271, the draws of random numbers; the rest is M_Sens.imu *)
Definition imu_keyed (key : K) (k : imu_kwargs) (xs : list transform) (grav : vec3) (dt : R) : result (list (string * list vec3)) :=
  let s2s := match k_s2s k with Some m => Some (quat_random g gauss (r_split g key 2 1) m) | None => None end in
  let key := match k_s2s k with Some _ => r_split g key 2 0 | None => key end in
  let mag := if k_has_mag k then Some (match k_magvec k with Some m => m | None => draw_random_magvec (r_split g key 2 1) end) else None in
  let key := if k_has_mag k then match k_magvec k with Some _ => key | None => r_split g key 2 0 end else key in
  let noise := if k_noisy k then Some (fun sensor => noise_draw key (length xs) (sensor_number sensor) sensor) else None in
  imu (mkImu s2s (k_quasi k) (k_pos k) (k_rot k) mag (k_second k) (k_acc_n k) (k_smooth k) (k_delay k) noise (k_natural k)) xs grav dt.
End Noise.

Section Gen.
Context {P O : Type}.
Notation rsys := (System R (plink (params P)) geometry O).
Variable W : widths.
Variable ops : parse_ops R (plink (params P)) geometry.
Variable table : joint_table P.
Variable draws : rng K -> string -> option (option (draw_fn (K := K) P)).
Variable overwrite : string -> option (mconfig -> mconfig).
Variable inits : rng K -> string -> option (option (K -> P)).
Variable pdefault : P.
Variable gauss : R -> R.
(** the joint axis among the parameters of the joint types rr and rr_imp... *)
Variable rr_axis : string -> params P -> result vec3.

Definition grav3 (l : list R) : vec3 := V3 (nth 0 l 0) (nth 1 l 0) (nth 2 l 0).
(** Xy, and the extras (key, q, x, sys) *)
Definition xy : Type := data * data.
Definition extras : Type := K * list (list R) * traj * rsys.
Definition stage : Type := rng K -> xy -> extras -> result (xy * extras).

(** ** Stages: finalize_fns.py *)
(** 16-26 *)
Definition finalize_stage (f : rng K -> K -> list (list R) -> traj -> rsys -> result xy) : stage := fun g v e =>
  let '(key, q, x, s) := e in
  do _ <- assert_ ((length (fst v) =? length (snd v)) && (length (snd v) =? 0))%nat;
  do v <- f g (r_split g key 2 1) q x s;
  Ok (v, (r_split g key 2 0, q, x, s)).
(** 123-155: the loop over the segments; [att] maps segments to IMUs *)
Fixpoint imu_loop (g : rng K) (kw : imu_kwargs) (x : traj) (s : rsys) (att : list (string * string)) (key : K) (segs : list string) (X : data) : result data :=
  match segs with
  | [] => Ok X
  | seg :: r =>
      match dget String.eqb att seg with
      | Some imu_name =>
          do i <- name_to_idx s imu_name;
          do m <- imu_keyed g gauss (r_split g key 2 1) kw (link_traj x i) (grav3 (gravity s)) (sys_dt s);
          imu_loop g kw x s att (r_split g key 2 0) r (dset String.eqb X seg (VDict (map (fun sv => (fst sv, ASeries (snd sv))) m)))
      | None =>
          let z := ASeries (repeat vzero (length (tr_rows x))) in
          imu_loop g kw x s att key r (dset String.eqb X seg (VDict [("acc"%string, z); ("gyr"%string, z)]))
      end
  end.
Definition imu_data (g : rng K) (key : K) (x : traj) (s : rsys) (kw : imu_kwargs) : result data :=
  do na <- make_sys_noimu W ops s None;
  let inv := fold_left (fun d kv => dset String.eqb d (snd kv) (fst kv)) (snd na) [] in
  imu_loop g kw x s inv key (link_names (fst na)) [].
(** 110-120 *)
Definition imu_stage (kw : imu_kwargs) : stage := fun g v e =>
  let '(key, q, x, s) := e in
  do Xi <- imu_data g (r_split g key 2 1) x s kw;
  do X <- dict_union (fst v) Xi;
  Ok ((X, snd v), (r_split g key 2 0, q, x, s)).

(** sensors.py 458-475: unit vectors or parameters *)
Definition axis_of (typ : string) (l : plink (params P)) : result vec3 :=
  if String.eqb typ "rx" then Ok (V3 1 0 0) else if String.eqb typ "ry" then Ok (V3 0 1 0) else if String.eqb typ "rz" then Ok (V3 0 0 1)
  else if String.eqb typ "rr" then rr_axis typ (pl_params l)
  else if String.eqb (substring 0 6 typ) "rr_imp" then rr_axis typ (pl_params l)
  else Ok (V3 1 0 0).
Definition joint_axes_from_sys (s : rsys) (N : nat) : result (list (string * list vec3)) :=
  do axes <- mapM (fun tl => axis_of (fst tl) (snd tl)) (combine (link_types s) (links s));
  Ok (combine (link_names s) (map (fun a => repeat a N) axes)).
(** sensors.py 430-455; the axis of a quaternion, the sign convention of the first sample, the mean over time *)
Definition axis_raw (q : quat) : vec3 := vscale (/ (vnorm (qvec q) + / 10 ^ 6)) (qvec q).
Definition align (convention axis : vec3) : vec3 :=
  if Rlt_dec (vnorm (vadd convention axis)) (vnorm (vsub convention axis)) then vneg axis else axis.
Definition vmean (l : list vec3) : vec3 := vscale (/ INR (length l)) (fold_right vadd vzero l).
Definition mean_axis (qs : list quat) : result vec3 :=
  match map axis_raw qs with
  | [] => Err EIndex
  | c :: _ =>
      let m := vmean (map (align c) (map axis_raw qs)) in
      Ok (vscale (/ vnorm m) m)
  end.
Definition joint_axes_from_xs (s : rsys) (x : traj) (sx : rsys) : result (list (string * list vec3)) :=
  do x <- match_xs W s x sx;
  do t <- unzip_xs W s x;
  do axes <- mapM (fun i => mean_axis (map t_rot (link_traj (snd t) i))) (seq 0 (num_links s));
  Ok (combine (link_names s) (map (fun a => repeat a (length (tr_rows x))) axes)).
(** sensors.py 382-427.  [flip]: choice of 1 and -1 *)
Record axes_kwargs := mkAK { a_noisy : bool; a_from_sys : bool; a_flip : bool }.
Fixpoint noisy_axes (g : rng K) (key : K) (N : nat) (X : list (string * list vec3)) : K * list (string * list vec3) :=
  match X with
  | [] => (key, [])
  | (name, axes) :: r =>
      let bias := quat_random g gauss (r_split g key 3 1) (deg 5) in
      let noise := quats_random g gauss (r_split g key 3 2) N (deg 2) in
      let (key', r') := noisy_axes g (r_split g key 3 0) N r in
      (key', (name, zipwith (fun a n => rotate a (qmul n bias)) axes noise) :: r')
  end.
Fixpoint flip_axes (g : rng K) (key : K) (flip : bool) (N : nat) (ps : list Z) (X : list (string * list vec3)) : list (string * list vec3) :=
  match ps, X with
  | p :: ps, (name, axes) :: r =>
      if Z.eqb p (-1) then (name, repeat vzero N) :: flip_axes g key flip N ps r
      else if flip then
        let c := if (r_int g (r_split g key 2 1) 0 2 =? 0)%nat then 1 else -1 in
        (name, map (vscale c) axes) :: flip_axes g (r_split g key 2 0) flip N ps r
      else (name, axes) :: flip_axes g key flip N ps r
  | _, _ => []
  end.
Definition joint_axes (g : rng K) (key : K) (s : rsys) (x : traj) (sx : rsys) (kw : axes_kwargs) : result (list (string * list vec3)) :=
  let N := length (tr_rows x) in
  do X <- (if a_from_sys kw then joint_axes_from_sys s N else joint_axes_from_xs s x sx);
  let (key, X) := if a_noisy kw then noisy_axes g key N X else (key, X) in
  Ok (flip_axes g key (a_flip kw) N (link_parents s) X).
(** 53-65 *)
Definition axes_stage (s_ml : rsys) (kw : axes_kwargs) : stage := fun g v e =>
  let '(key, q, x, s) := e in
  do Xa <- joint_axes g (r_split g key 2 1) s_ml x s kw;
  do X <- dict_union (fst v) (map (fun na => (fst na, VDict [("joint_axes"%string, ASeries (snd na))])) Xa);
  Ok ((X, snd v), (r_split g key 2 0, q, x, s)).
(** 68-100: targets add orientations to y *)
Definition target_stage (f : traj -> rsys -> result (list (string * list quat))) : stage := fun g v e =>
  let '(key, q, x, s) := e in
  do t <- f x s;
  do y <- dict_union (snd v) (map (fun nq => (fst nq, VArr (AQuats (snd nq)))) t);
  Ok ((fst v, y), e).
(** 42-50 *)
Definition number_stage (s_ml : rsys) : stage := fun g v e =>
  do X <- rename_links (fst v) (link_names s_ml);
  do y <- rename_links (snd v) (link_names s_ml);
  Ok ((X, y), e).
(** Dynamic simulation without return_q_ref (181-266) and motion_artifacts.HideInjectedBodies replace q, x and sys only *)
Definition quiet_stage (f : list (list R) -> traj -> rsys -> result (list (list R) * traj * rsys)) : stage := fun g v e =>
  let '(key, q, x, s) := e in
  do qxs <- f q x s;
  let '(q, x, s) := qxs in
  Ok (v, (key, q, x, s)).

(** ** The generator: generator/base.py 275-422.  Simulation and hiding of bodies are given as [go_quiet], injected
    subsystems are part of the system. *)
Record gen_opts := mkGO {
  go_configs : list mconfig;
  go_damping : option damp_opts; go_positions : bool; go_params : bool; go_setup : option (rng K -> K -> rsys -> result rsys); go_cor : bool;
  go_rates : option (option (list R));
  go_quiet : list (list (list R) -> traj -> rsys -> result (list (list R) * traj * rsys));
  go_final : option (rng K -> K -> list (list R) -> traj -> rsys -> result xy);
  go_imu : option imu_kwargs; go_axes : option axes_kwargs; go_relpose : bool; go_rootincl : option bool; go_rootfull : option bool;
  go_numbers : bool }.

(** 334-354 *)
Definition setup_pipe (o : gen_opts) : list (rng K -> K -> rsys -> result rsys) :=
  match go_damping o with Some d => [fun g => randomize_damping_stiffness g W d] | None => [] end ++
  (if go_positions o then [fun g => randomize_positions g] else []) ++
  (if go_params o then [fun g => init_joint_params g (inits g) pdefault] else []) ++
  match go_setup o with Some f => [f] | None => [] end.
Fixpoint run_setup (g : rng K) (fs : list (rng K -> K -> rsys -> result rsys)) (key : K) (s : rsys) : result rsys :=
  match fs with
  | [] => Ok s
  | f :: r => do s <- f g (r_split g key 2 1) s; run_setup g r (r_split g key 2 0) s
  end.
Definition setup_all (g : rng K) (o : gen_opts) (key : K) (s : rsys) : result rsys :=
  do s <- run_setup g (setup_pipe o) key s;
  if go_cor o then replace_free_with_cor W ops s else Ok s.

(** 305-310, when the generator is built.  Python leaves the variable undefined if no stage asks for it here. *)
Definition sys_noimu (o : gen_opts) (sys_ml : rsys) : result (option rsys) :=
  if match go_axes o with Some _ => true | None => false end || go_relpose o || match go_rootincl o with Some _ => true | None => false end then
    if (0 <? length (findall_imus sys_ml))%nat then do na <- make_sys_noimu W ops sys_ml None; Ok (Some (fst na)) else Ok (Some sys_ml)
  else Ok None.
Definition need {A} (x : option A) : result A := match x with Some a => Ok a | None => Err EName end.
(** 356-385 *)
Definition finalize_pipe (o : gen_opts) (noimu : option rsys) : result (list stage) :=
  do p1 <- match go_axes o with Some kw => do s <- need noimu; Ok [axes_stage s kw] | None => Ok [] end;
  do p2 <- (if go_relpose o then do s <- need noimu; Ok [target_stage (fun x sx => rel_pose W s x (Some sx))] else Ok []);
  do p3 <- match go_rootincl o with
           | Some c2p => do _ <- assert_ (match go_rootfull o with Some _ => false | None => true end);
                         do s <- need noimu; Ok [target_stage (fun x sx => root_incl W s x sx c2p)]
           | None => Ok [] end;
  do p4 <- match go_rootfull o with
           | Some c2p => do s <- need noimu; Ok [target_stage (fun x sx => root_full W s x sx c2p)]
           | None => Ok [] end;
  do p5 <- (if go_numbers o then do s <- need noimu; Ok [number_stage s] else Ok []);
  Ok (map quiet_stage (go_quiet o) ++
      match go_final o with Some f => [finalize_stage f] | None => [] end ++
      match go_imu o with Some kw => [imu_stage kw] | None => [] end ++ p1 ++ p2 ++ p3 ++ p4 ++ p5).
Definition run_stages (g : rng K) (fs : list stage) (v : xy) (e : extras) : result (xy * extras) :=
  foldM (fun ve f => f g (fst ve) (snd ve)) (v, e) fs.

(** 391-401: min(hzs) of an empty list raises, as does choice; int() rounds towards zero *)
Definition pick_rate (g : rng K) (o : gen_opts) (key : K) : result (K * option nat * option R) :=
  match go_rates o with
  | None => Ok (key, None, None)
  | Some rates =>
      match rates with
      | None => Err EAssertion
      | Some [] => Err EValue
      | Some (h :: hs) =>
          match go_configs o with
          | [] => Err EAssertion
          | c0 :: cs =>
              do _ <- assert_ (forallb (fun c => if Req_EM_T (c_T c) (c_T c0) then true else false) cs);
              let m := fold_left Rmin hs h in
              let n := Z.to_nat (Int_part (m * c_T c0)) in
              let rate := nth (r_int g (r_split g key 2 1) 0 (length (h :: hs))) (h :: hs) 0 in
              Ok (r_split g key 2 0, Some n, Some (/ rate))
          end
      end
  end.
(** 403-407: the key is handed from configuration to configuration; jnp.stack needs arrays of one shape *)
Fixpoint draw_all (g : rng K) (key : K) (N : option nat) (sc : list (rsys * mconfig)) : result (K * list (list (list R))) :=
  match sc with
  | [] => Ok (key, [])
  | (s, c) :: r =>
      do kq <- draw_random_q g W (draws g) overwrite key s c N;
      do rest <- draw_all g (fst kq) N r;
      Ok (fst rest, snd kq :: snd rest)
  end.
Definition same_shape (qs : list (list (list R))) : bool :=
  match qs with
  | [] => false
  | q :: r => forallb (fun q' => (length q' =? length q)%nat && forallb (fun row => (length row =? length (nth 0 q []))%nat) q') (q :: r)
  end.
(** 409-414 *)
Definition context (g : rng K) (stages : list stage) (hz : bool) (key : K) (q : list (list R)) (s : rsys) : result (xy * extras) :=
  do x <- mapM (fun row => do r <- forward_kinematics_transforms W table s row; Ok (fst r)) q;
  let X : data := if hz then [("dt"%string, VArr (AScalar (sys_dt s)))] else [] in
  run_stages g stages (X, []) (key, q, mkTraj (num_links s) x, s).
(** 387-422 *)
Definition gen (o : gen_opts) (sys_ml s : rsys) (g : rng K) (key : K) : result (list (xy * extras)) :=
  do noimu <- sys_noimu o sys_ml;
  let n := length (go_configs o) in
  do syss <- mapM (fun i => setup_all g o (r_split g key (n + 1) (S i)) s) (seq 0 n);
  do r <- pick_rate g o (r_split g key (n + 1) 0);
  let '(key, N, dt) := r in
  let syss := match dt with Some dt => map (with_dt dt) syss | None => syss end in
  do kq <- draw_all g key N (combine syss (go_configs o));
  do _ <- (if same_shape (snd kq) then Ok tt else Err EValue);
  do stages <- finalize_pipe o noimu;
  mapM (fun iqs => context g stages (match go_rates o with Some _ => true | None => false end) (r_split g (fst kq) n (fst iqs)) (fst (snd iqs)) (snd (snd iqs)))
    (combine (seq 0 n) (combine (snd kq) syss)).
End Gen.
End Rcmg.
