(** * ring/algorithms/jcalc.py: MotionConfig, its registry of joint types, and overwrites. *)
From Coq Require Import Reals ZArith String Bool List.
From Verif Require Import Prelude M_Sys M_Rand.
Import ListNotations.
Local Open Scope string_scope.

(** Values of the fields: numbers, functions of time, flags and names, None, and the dict of overwrites. *)
Inductive value :=
| VNum (r : R)
| VFun (f : R -> R)
| VInt (z : Z)
| VBool (b : bool)
| VStr (s : string)
| VNone
| VDict (d : list (string * list (string * value))).
Definition config := list (string * value).
Definition changes := list (string * value).

(** _random.py 14-17 at time 0, where a number is needed. *)
Definition to_float (v : value) (t : R) : result R :=
  match v with VFun f => Ok (f t) | VNum r => Ok r | VInt z => Ok (IZR z) | _ => Err EType end.
Definition attr (c : config) (k : string) : result value := match dget String.eqb c k with Some v => Ok v | None => Err EOther end.
Definition num (c : config) (k : string) : result R := do v <- attr c k; to_float v 0.

Local Open Scope R_scope.
(** jcalc.py 20-91: the fields with their defaults. *)
Definition default_config : config :=
  [("T", VNum 60); ("t_min", VNum (5 / 100)); ("t_max", VNum (3 / 10)); ("dang_min", VNum (1 / 10)); ("dang_max", VNum 3);
   ("dang_min_free_spherical", VNum (1 / 10)); ("dang_max_free_spherical", VNum 3);
   ("delta_ang_min", VNum 0); ("delta_ang_max", VNum (2 * PI)); ("delta_ang_min_free_spherical", VNum 0); ("delta_ang_max_free_spherical", VNum (2 * PI));
   ("dpos_min", VNum (1 / 1000)); ("dpos_max", VNum (7 / 10)); ("pos_min", VNum (- (25 / 10))); ("pos_max", VNum (25 / 10));
   ("pos_min_p3d_x", VNum (- (25 / 10))); ("pos_max_p3d_x", VNum (25 / 10)); ("pos_min_p3d_y", VNum (- (25 / 10))); ("pos_max_p3d_y", VNum (25 / 10));
   ("pos_min_p3d_z", VNum (- (25 / 10))); ("pos_max_p3d_z", VNum (25 / 10)); ("cdf_bins_min", VInt 5); ("cdf_bins_max", VNone);
   ("randomized_interpolation_angle", VBool false); ("randomized_interpolation_position", VBool false); ("interpolation_method", VStr "cosine");
   ("range_of_motion_hinge", VBool true); ("range_of_motion_hinge_method", VStr "uniform"); ("rom_halfsize", VNum (2 * PI));
   ("ang0_min", VNum (- PI)); ("ang0_max", VNum PI); ("pos0_min", VNum 0); ("pos0_max", VNum 0);
   ("pos0_min_p3d_x", VNum 0); ("pos0_max_p3d_x", VNum 0); ("pos0_min_p3d_y", VNum 0); ("pos0_max_p3d_y", VNum 0); ("pos0_min_p3d_z", VNum 0); ("pos0_max_p3d_z", VNum 0);
   ("cor_t_min", VNum (2 / 10)); ("cor_t_max", VNum 2); ("cor_dpos_min", VNum (1 / 100000)); ("cor_dpos_max", VNum (5 / 10));
   ("cor_pos_min", VNum (- (4 / 10))); ("cor_pos_max", VNum (4 / 10)); ("cor_pos0_min", VNum 0); ("cor_pos0_max", VNum 0);
   ("joint_type_specific_overwrites", VDict [])].
(** The fields annotated [float | TimeDependentFloat]. *)
Definition time_dependent : list string :=
  ["t_max"; "dang_min"; "dang_max"; "dang_min_free_spherical"; "dang_max_free_spherical"; "delta_ang_min"; "delta_ang_max";
   "delta_ang_min_free_spherical"; "delta_ang_max_free_spherical"; "dpos_min"; "dpos_max"; "pos_min"; "pos_max";
   "pos_min_p3d_x"; "pos_max_p3d_x"; "pos_min_p3d_y"; "pos_max_p3d_y"; "pos_min_p3d_z"; "pos_max_p3d_z"; "rom_halfsize";
   "cor_t_max"; "cor_dpos_min"; "cor_dpos_max"; "cor_pos_min"; "cor_pos_max"].

(** dataclasses.replace(config, **changes): a TypeError for a name that is not a field. *)
Definition replace (c : config) (ch : changes) : result config :=
  if forallb (fun kv => memS (fst kv) (map fst c)) ch
  then Ok (map (fun kv => (fst kv, match dget String.eqb ch (fst kv) with Some v => v | None => snd kv end)) c)
  else Err EType.

(** jcalc.py 333-388 *)
Definition gtb (a b : R) : bool := if Rlt_dec b a then true else false.
Definition dx_check (c : config) (dmin dmax delmin delmax : string) : result bool :=
  do t_min <- num c "t_min"; do t_max <- num c "t_max";
  do a <- num c dmin; do b <- num c dmax; do d <- num c delmin; do e <- num c delmax;
  Ok (negb (gtb a (e / t_min)) && negb (gtb (d / t_max) b)).
Definition in_box (c : config) (xmin xmax x0min x0max : string) : result bool :=
  do a <- num c xmin; do b <- num c xmax; do d <- num c x0min; do e <- num c x0max; Ok (negb (gtb a d) && negb (gtb e b)).
Definition is_feasible (c : config) : result bool :=
  do c1 <- dx_check c "dang_min" "dang_max" "delta_ang_min" "delta_ang_max";
  do c1' <- dx_check c "dang_min_free_spherical" "dang_max_free_spherical" "delta_ang_min_free_spherical" "delta_ang_max_free_spherical";
  do c2 <- in_box c "pos_min" "pos_max" "pos0_min" "pos0_max";
  do c3 <- in_box c "pos_min_p3d_x" "pos_max_p3d_x" "pos0_min_p3d_x" "pos0_max_p3d_x";
  do c4 <- in_box c "pos_min_p3d_y" "pos_max_p3d_y" "pos0_min_p3d_y" "pos0_max_p3d_y";
  do c5 <- in_box c "pos_min_p3d_z" "pos_max_p3d_z" "pos0_min_p3d_z" "pos0_max_p3d_z";
  do d <- num c "delta_ang_min"; do r <- num c "rom_halfsize";
  Ok (c1 && c1' && c2 && c3 && c4 && c5 && gtb (2 * r) d).

(** jcalc.py 96-112 *)
Definition nomotion_keys : list string :=
  ["dang_min"; "dang_max"; "delta_ang_min"; "dang_min_free_spherical"; "dang_max_free_spherical"; "delta_ang_min_free_spherical"; "dpos_min"; "dpos_max"].
Definition to_nomotion_config (c : config) : result config :=
  do c' <- replace c (map (fun k => (k, VNum 0)) nomotion_keys);
  do ok <- is_feasible c'; do _ <- assert_ ok; Ok c'.

(** jcalc.py 391-409: how many boundaries are not after [t] *)
Definition find_interval (t : R) (bs : list R) : nat := length (filter (fun b => if Rle_dec b t then true else false) bs).
(** jcalc.py 412-443.  [set([...])] needs hashable values: a dict is not.  dynamic_index_in_dim clamps, and jnp.array needs numbers.
    [eq] decides equality of field values. *)
Definition hashable (v : value) : bool := match v with VDict _ => false | _ => true end.
Definition unique_value (eq : value -> value -> bool) (vs : list value) : result unit :=
  if forallb hashable vs then assert_ match vs with [] => false | v :: r => forallb (eq v) r end else Err EType.
Definition new_value (configs : list config) (bs : list R) (k : string) : result value :=
  do vs <- mapM (fun c => attr c k) configs;
  do xs <- mapM (fun v => match v with VNum r => Ok r | VInt z => Ok (IZR z) | _ => Err EType end) vs;
  Ok (VFun (fun t => nth (min (find_interval t bs) (length xs - 1)) xs 0)).
Definition join_motionconfigs (eq : value -> value -> bool) (configs : list config) (bs : list R) : result config :=
  do _ <- assert_ (length configs =? length bs + 1)%nat;
  do _ <- mapM (fun k => do vs <- mapM (fun c => attr c k) configs; unique_value eq vs)
            (filter (fun k => negb (memS k time_dependent)) (map fst default_config));
  do ch <- mapM (fun k => do v <- new_value configs bs k; Ok (k, v)) (filter (fun k => memS k time_dependent) (map fst default_config));
  match configs with c :: _ => replace c ch | [] => Err EIndex end.

(** ** The registry of joint types *)
Section Registry.
Context {A B J Gn : Type}.      (* other arguments of a draw function, its result, the other parts of a joint model, P gains *)

Record jmodel := mkJM {
  jm_draw : option (config -> A -> result B);
  jm_motion : nat;              (* len(motion) *)
  jm_rest : J }.
Record reg := mkReg {
  r_types : list (string * jmodel);       (* _joint_types *)
  r_q : list (string * nat);              (* base.Q_WIDTHS *)
  r_qd : list (string * nat);             (* base.QD_WIDTHS *)
  r_changes : list (string * changes);    (* _overwrite_for_joint_type_changes, a defaultdict *)
  r_gains : list (string * Gn) }.         (* finalize_fns._P_gains *)

(** A call leaves the registry in some state also when it raises. *)
Definition sm (X : Type) := reg -> reg * result X.
Definition ret {X} (x : X) : sm X := fun s => (s, Ok x).
Definition raise {X} (e : exn) : sm X := fun s => (s, Err e).
Definition sbind {X Y} (m : sm X) (k : X -> sm Y) : sm Y :=
  fun s => match m s with (s', Ok x) => k x s' | (s', Err e) => (s', Err e) end.
Definition lift {X} (r : reg -> result X) : sm X := fun s => (s, r s).
Definition modify (f : reg -> reg) : sm unit := fun s => (f s, Ok tt).
Notation "'sdo' x <- m ; k" := (sbind m (fun x => k)) (at level 200, x pattern, m at level 100, k at level 200, right associativity).

(** jcalc.py 1053-1057 *)
Definition get_joint_model (s : reg) (jt : string) : result jmodel :=
  match dget String.eqb (r_types s) jt with Some j => Ok j | None => Err EAssertion end.

Definition pop_q (jt : string) : sm unit :=
  sdo _ <- lift (fun s => dgetE String.eqb (r_q s) jt);
  modify (fun s => mkReg (r_types s) (ddel String.eqb (r_q s) jt) (r_qd s) (r_changes s) (r_gains s)).
Definition pop_qd (jt : string) : sm unit :=
  sdo _ <- lift (fun s => dgetE String.eqb (r_qd s) jt);
  modify (fun s => mkReg (r_types s) (r_q s) (ddel String.eqb (r_qd s) jt) (r_changes s) (r_gains s)).
Definition pop_type (jt : string) : sm unit :=
  sdo _ <- lift (fun s => dgetE String.eqb (r_types s) jt);
  modify (fun s => mkReg (ddel String.eqb (r_types s) jt) (r_q s) (r_qd s) (r_changes s) (r_gains s)).

(** jcalc.py 1060-1090 *)
Definition register_new_joint_type (jt : string) (jm : jmodel) (q_width : nat) (qd_width : option nat) (overwrite : bool) : sm unit :=
  if (jt =? "default")%string then raise EAssertion
  else
    sdo exists_ <- lift (fun s => Ok (dmem String.eqb (r_types s) jt));
    sdo _ <- (if exists_ && overwrite then sdo _ <- pop_q jt; sdo _ <- pop_qd jt; pop_type jt
              else if exists_ then raise EAssertion else ret tt);
    let qd := match qd_width with Some n => n | None => q_width end in
    if negb (jm_motion jm =? qd)%nat then raise EAssertion
    else modify (fun s => mkReg (dset String.eqb (r_types s) jt jm) (dset String.eqb (r_q s) jt q_width) (dset String.eqb (r_qd s) jt qd) (r_changes s) (r_gains s)).

(** dict.update *)
Definition update (d ch : changes) : changes := fold_left (fun d kv => dset String.eqb d (fst kv) (snd kv)) ch d.
Definition previous (s : reg) (jt : string) : changes := match dget String.eqb (r_changes s) jt with Some d => d | None => [] end.

(** jcalc.py 124-126: the new draw function *)
Definition overwritten (ch : changes) (jm : jmodel) : jmodel :=
  mkJM (Some (fun c a => do c' <- replace c ch; match jm_draw jm with Some d => d c' a | None => Err EType end)) (jm_motion jm) (jm_rest jm).
(** jcalc.py 114-138 *)
Definition overwrite_for_joint_type (jt : string) (ch : changes) : sm unit :=
  sdo prev <- lift (fun s => Ok (previous s jt));
  if negb (forallb (fun kv => negb (dmem String.eqb prev (fst kv))) ch) then raise EAssertion
  else
    sdo _ <- modify (fun s => mkReg (r_types s) (r_q s) (r_qd s) (dset String.eqb (r_changes s) jt (update prev ch)) (r_gains s));
    sdo jm <- lift (fun s => get_joint_model s jt);
    sdo q <- lift (fun s => dgetE String.eqb (r_q s) jt);
    sdo qd <- lift (fun s => dgetE String.eqb (r_qd s) jt);
    register_new_joint_type jt (overwritten ch jm) q (Some qd) true.

(** generator/base.py 432-461, one link: [config] is that of the generator. *)
Definition draw_link (s : reg) (c : config) (jt : string) (a : A) : result B :=
  do jm <- get_joint_model s jt;
  match jm_draw jm with
  | None => Err EOther
  | Some d =>
      do ow <- attr c "joint_type_specific_overwrites";
      match ow with
      | VDict ow => do c' <- match dget String.eqb ow jt with Some ch => replace c ch | None => Ok c end; d c' a
      | _ => Err EType
      end
  end.

(** jcalc.py 140-187.  [order] is the iteration order of the set of joint types. *)
Fixpoint for_types (postfix : string) (ch : changes) (jts : list string) : sm unit :=
  match jts with
  | [] => ret tt
  | typ :: r =>
      sdo jm <- lift (fun s => get_joint_model s typ);
      sdo q <- lift (fun s => dgetE String.eqb (r_q s) typ);
      sdo qd <- lift (fun s => dgetE String.eqb (r_qd s) typ);
      sdo _ <- register_new_joint_type (typ ++ postfix) jm q (Some qd) false;
      sdo _ <- overwrite_for_joint_type (typ ++ postfix) ch;
      sdo g <- lift (fun s => dgetE String.eqb (r_gains s) typ);
      sdo _ <- modify (fun s => mkReg (r_types s) (r_q s) (r_qd s) (r_changes s) (dset String.eqb (r_gains s) (typ ++ postfix) g));
      for_types postfix ch r
  end.
Definition with_types {K L G O} (s : System K L G O) (ts : list string) : System K L G O :=
  mkSys (link_parents s) (links s) ts (link_damping s) (link_armature s) (link_spring_stiffness s) (link_spring_zeropoint s)
    (sys_dt s) (geoms s) (gravity s) (integration_method s) (mass_mat_iters s) (link_names s) (model_name s) (omc s).
Definition overwrite_for_subsystem {K L G O} (order : list string -> list string) (s : System K L G O) (link_name : string) (ch : changes) : sm (System K L G O) :=
  sdo below <- lift (fun _ => findall_bodies_subsystem_idx (S (num_links s)) s link_name);
  sdo root <- lift (fun _ => name_to_idx s link_name);
  let bodies := (below ++ [root])%list in
  sdo ts <- lift (fun _ => mapM (fun i => py_get (link_types s) (Z.of_nat i)) bodies);
  let postfix := "_" ++ link_name in
  sdo _ <- for_types postfix ch (order (filter (fun t => negb (t =? "frozen")%string) ts));
  sdo new <- lift (fun _ => mapM (fun i => do t <- py_get (link_types s) (Z.of_nat i);
                                       Ok (if mem_nat i bodies && negb (t =? "frozen")%string then t ++ postfix else t)) (seq 0 (num_links s)));
  ret (with_types s new).
End Registry.
