(** * Random joint coordinates: the draw functions of jcalc.py 586-818 and draw_random_q of generator/base.py 425-470.
    A trajectory of several coordinates is a list of rows, one per sample. *)
From Coq Require Import Reals Lra Lia ZArith Bool String List.
From Verif Require Import Prelude M_Sys M_Math M_Geom M_Joint M_Kin M_Random.
Import ListNotations.
Local Open Scope R_scope.

(** jcalc.py 20-93: the fields of MotionConfig the draw functions read; floats or functions of time are functions of
    time.  joint_type_specific_overwrites is an argument of [draw_random_q]. *)
Record mconfig : Type := mkMC {
  c_T : R; c_t_min : R; c_t_max : R -> R;
  c_dang_min : R -> R; c_dang_max : R -> R; c_dang_min_fs : R -> R; c_dang_max_fs : R -> R;
  c_delta_min : R -> R; c_delta_max : R -> R; c_delta_min_fs : R -> R; c_delta_max_fs : R -> R;
  c_dpos_min : R -> R; c_dpos_max : R -> R; c_pos_min : R -> R; c_pos_max : R -> R;
  c_p3d_min : xyz -> R -> R; c_p3d_max : xyz -> R -> R;
  c_bins_min : nat; c_bins_max : option nat; c_rnd_angle : bool; c_rnd_pos : bool; c_method : string;
  c_rom : bool; c_rom_method : string; c_halfsize : R -> R;
  c_ang0_min : R; c_ang0_max : R; c_pos0_min : R; c_pos0_max : R; c_p3d0_min : xyz -> R; c_p3d0_max : xyz -> R;
  c_cor_t_min : R; c_cor_t_max : R -> R; c_cor_dpos_min : R -> R; c_cor_dpos_max : R -> R;
  c_cor_pos_min : R -> R; c_cor_pos_max : R -> R; c_cor_pos0_min : R; c_cor_pos0_max : R
}.

(** jnp.concatenate(axis=1) of two arrays: they need the same number of rows *)
Definition hcat (a b : list (list R)) : result (list (list R)) :=
  if (length a =? length b)%nat then Ok (map (fun r => fst r ++ snd r) (combine a b)) else Err EType.
(** x[:, None] *)
Definition as_column (x : list R) : list (list R) := map (fun v => [v]) x.
Fixpoint hcats (l : list (list (list R))) : result (list (list R)) :=
  match l with [] => Err EValue | [a] => Ok a | a :: r => do b <- hcats r; hcat a b end.

Section Draw.
Context {K : Type}.
Variable g : rng K.
Variable parse_float : string -> result R.

(** jcalc.py 586-624 *)
Definition draw_rxyz (c : mconfig) (key_t key_value : K) (dt : R) (N : option nat) (enable_rom free_spherical : bool) : result (list R) :=
  let consume := r_split g key_value 2 1 in
  let key_value := r_split g key_value 2 0 in
  let ANG_0 := wrap_to_pi (uniform g consume (c_ang0_min c) (c_ang0_max c)) in
  random_angle_over_time g parse_float
    (mkAng (if free_spherical then c_dang_min_fs c else c_dang_min c) (if free_spherical then c_dang_max_fs c else c_dang_max c)
       (if free_spherical then c_delta_min_fs c else c_delta_min c) (if free_spherical then c_delta_max_fs c else c_delta_max c)
       (c_t_min c) (c_t_max c) 5 (if enable_rom then c_rom c else false) (c_rom_method c) (c_halfsize c))
    (if c_rnd_angle c then Some (c_bins_min c, c_bins_max c, c_method c) else None)
    key_t key_value ANG_0 (c_T c) dt N.

(** jcalc.py 627-662, with the limits of the position and of its initial value: the fields of the configuration (646-647,
    651-652), or for p3d those of one direction (737-744) *)
Definition draw_pos (c : mconfig) (key_value : K) (dt : R) (N : option nat) (cor : bool) (pmin pmax : R -> R) (p0min p0max : R) : result (list R) :=
  let consume := r_split g key_value 2 1 in
  let key_value := r_split g key_value 2 0 in
  let POS_0 := uniform g consume (if cor then c_cor_pos0_min c else p0min) (if cor then c_cor_pos0_max c else p0max) in
  random_position_over_time g
    (mkPos (if cor then c_cor_pos_min c else pmin) (if cor then c_cor_pos_max c else pmax)
       (if cor then c_cor_dpos_min c else c_dpos_min c) (if cor then c_cor_dpos_max c else c_dpos_max c)
       (if cor then c_cor_t_min c else c_t_min c) (if cor then c_cor_t_max c else c_t_max c) 100)
    (if c_rnd_pos c then Some (c_bins_min c, c_bins_max c, c_method c) else None)
    key_value POS_0 (c_T c) dt N.
Definition draw_pxyz (c : mconfig) (key_value : K) (dt : R) (N : option nat) : result (list R) :=
  draw_pos c key_value dt N false (c_pos_min c) (c_pos_max c) (c_pos0_min c) (c_pos0_max c).

(** jcalc.py 665-694: three angles, drawn with the three keys, and a quaternion from each sample *)
Definition draw_spherical (c : mconfig) (key_t key_value : K) (dt : R) (N : option nat) : result (list (list R)) :=
  do angles <- mapM (fun j => draw_rxyz c (r_split g key_t 3 j) (r_split g key_value 3 j) dt N false true) [0; 1; 2]%nat;
  do rows <- hcats (map as_column angles);
  Ok (map (fun a => q4_list (quat_euler AZ AY AX (getR a 0) (getR a 1) (getR a 2) true)) rows).

(** jcalc.py 697-720 *)
Definition draw_saddle (c : mconfig) (key_t key_value : K) (dt : R) (N : option nat) : result (list (list R)) :=
  do angles <- mapM (fun j => draw_rxyz c (r_split g key_t 2 j) (r_split g key_value 2 j) dt N false false) [0; 1]%nat;
  hcats (map as_column angles).

(** jcalc.py 723-755 *)
Definition draw_p3d_and_cor (c : mconfig) (key_value : K) (dt : R) (N : option nat) (cor : bool) : result (list (list R)) :=
  let draw j xyz := draw_pos c (r_split g key_value 3 j) dt N cor (c_p3d_min c xyz) (c_p3d_max c xyz) (c_p3d0_min c xyz) (c_p3d0_max c xyz) in
  do px <- draw 0%nat AX; do py <- draw 1%nat AY; do pz <- draw 2%nat AZ;
  hcats (map as_column [px; py; pz]).
Definition draw_p3d c key_value dt N := draw_p3d_and_cor c key_value dt N false.
(** jcalc.py 780-791 *)
Definition draw_free (c : mconfig) (key_t key_value : K) (dt : R) (N : option nat) : result (list (list R)) :=
  do q <- draw_spherical c key_t (r_split g key_value 2 0) dt N;
  do pos <- draw_p3d c (r_split g key_value 2 1) dt N;
  hcat q pos.
(** jcalc.py 766-777 *)
Definition draw_cor (c : mconfig) (key_t key_value : K) (dt : R) (N : option nat) : result (list (list R)) :=
  do q_free <- draw_free c key_t (r_split g key_value 2 0) dt N;
  do q_p3d <- draw_p3d_and_cor c (r_split g key_value 2 1) dt N true;
  hcat q_free q_p3d.
(** jcalc.py 794-811 *)
Definition draw_free_2d (c : mconfig) (key_t key_value : K) (dt : R) (N : option nat) : result (list (list R)) :=
  do angle_x <- draw_rxyz c key_t (r_split g key_value 2 0) dt N false true;
  do pos <- draw_p3d c (r_split g key_value 2 1) dt N;
  hcat (as_column angle_x) (map (firstn 2) pos).
(** jcalc.py 814-819: int() rounds towards zero *)
Definition draw_frozen (c : mconfig) (dt : R) (N : option nat) : result (list (list R)) :=
  do n <- match N with
          | Some n => Ok n
          | None => if Req_EM_T dt 0 then Err EZeroDiv else if Rlt_dec (c_T c / dt) 0 then Err EValue else Ok (Z.to_nat (Int_part (c_T c / dt)))
          end;
  Ok (repeat [] n).

(** A draw function: configuration, the two keys, time step, number of samples, joint parameters.  One-dimensional arrays
    become columns (generator/base.py 459). *)
Definition draw_fn (P : Type) : Type := mconfig -> K -> K -> R -> option nat -> P -> result (list (list R)).
(** jcalc.py 934-1050 *)
Definition builtin_draws (P : Type) : list (string * draw_fn P) :=
  let hinge : draw_fn P := fun c kt kv dt N _ => do q <- draw_rxyz c kt kv dt N true false; Ok (as_column q) in
  let slider : draw_fn P := fun c kt kv dt N _ => do q <- draw_pxyz c kv dt N; Ok (as_column q) in
  [("free", fun c kt kv dt N _ => draw_free c kt kv dt N); ("free_2d", fun c kt kv dt N _ => draw_free_2d c kt kv dt N);
   ("frozen", fun c kt kv dt N _ => draw_frozen c dt N); ("spherical", fun c kt kv dt N _ => draw_spherical c kt kv dt N);
   ("p3d", fun c kt kv dt N _ => draw_p3d c kv dt N); ("cor", fun c kt kv dt N _ => draw_cor c kt kv dt N);
   ("rx", hinge); ("ry", hinge); ("rz", hinge); ("px", slider); ("py", slider); ("pz", slider);
   ("saddle", fun c kt kv dt N _ => draw_saddle c kt kv dt N)]%string.

(** generator/base.py 425-470.  [draws typ] is the registered draw function, if the joint type is registered and has
    one; [overwrite typ] replaces fields of the configuration, if there are changes for the joint type. *)
Section Q.
Context {P O : Type}.
Variable W : widths.
Variable draws : string -> option (option (draw_fn P)).
Variable overwrite : string -> option (mconfig -> mconfig).
Notation rsys := (System R (plink (params P)) geometry O).
Definition draw_q (key_start : K) (c : mconfig) (dt : R) (N : option nat) (key : option K) (_ : idx_map) (ps : list (piece (arg P)))
  (q_list : list (list (list R))) : result (K * list (list (list R))) :=
  match ps with
  | [One (AStr link_type); One (ALink link)] =>
      do joint_params <- limit_scope link_type (pl_params link);
      let key := match key with None => key_start | Some k => k end in
      do fn <- match draws link_type with None => Err EAssertion | Some None => Err EOther | Some (Some f) => Ok f end;
      let c' := match overwrite link_type with Some f => f c | None => c end in
      do q <- fn c' (r_split g key 3 1) (r_split g key 3 2) dt N joint_params;
      Ok (r_split g key 3 0, q_list ++ [q])
  | _ => Err EType
  end.
Definition draw_random_q (key : K) (s : rsys) (c : mconfig) (N : option nat) : result (K * list (list R)) :=
  do r <- scan W s (draw_q key c (sys_dt s) N) [TL; TL] [map AStr (link_types s); map ALink (links s)] false [];
  do last_key <- match rev (fst r) with [] => Err EIndex | k :: _ => Ok k end;
  do q <- hcats (snd r);
  Ok (last_key, q).
End Q.
End Draw.
