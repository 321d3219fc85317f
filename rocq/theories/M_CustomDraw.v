(** * Random motion of the joints of src/ring/algorithms/custom_joints with random axes (rr, rr_imp, rsaddle). *)
From Coq Require Import Reals Lra Lia ZArith Bool String List.
From Verif Require Import Prelude M_Sys M_Math M_Geom M_Joint M_Kin M_Random M_Draw.
Import ListNotations.
Local Open Scope R_scope.

(** rr_imp_joint.py 30: dataclasses.replace(config_res, T=config.T) *)
Definition replace_T (c : mconfig) (T : R) : mconfig :=
  mkMC T (c_t_min c) (c_t_max c) (c_dang_min c) (c_dang_max c) (c_dang_min_fs c) (c_dang_max_fs c) (c_delta_min c) (c_delta_max c)
    (c_delta_min_fs c) (c_delta_max_fs c) (c_dpos_min c) (c_dpos_max c) (c_pos_min c) (c_pos_max c) (c_p3d_min c) (c_p3d_max c)
    (c_bins_min c) (c_bins_max c) (c_rnd_angle c) (c_rnd_pos c) (c_method c) (c_rom c) (c_rom_method c) (c_halfsize c)
    (c_ang0_min c) (c_ang0_max c) (c_pos0_min c) (c_pos0_max c) (c_p3d0_min c) (c_p3d0_max c)
    (c_cor_t_min c) (c_cor_t_max c) (c_cor_dpos_min c) (c_cor_dpos_max c) (c_cor_pos_min c) (c_cor_pos_max c) (c_cor_pos0_min c) (c_cor_pos0_max c).
(** jnp.deg2rad *)
Definition deg2rad (x : R) : R := x * PI / 180.
(** jnp.mean; of no samples it is nan, here 0 *)
Definition mean (x : list R) : R := fold_right Rplus 0 x / INR (length x).
(** rr_imp_joint.py 33-35 *)
Definition limited (ang_max_deg : R) (q : list R) : list R :=
  let q := map (fun v => v * (deg2rad ang_max_deg / PI)) q in
  map (fun v => v - mean q) q.

Section Draw.
Context {K : Type}.
Variable g : rng K.
Variable parse_float : string -> result R.
(** rr_joint.py 23: rcmg_draw_fn=_draw_rxyz *)
Definition draw_rr (c : mconfig) (key_t key_value : K) (dt : R) (N : option nat) : result (list (list R)) :=
  do q <- draw_rxyz g parse_float c key_t key_value dt N true false; Ok (as_column q).
(** rsaddle_joint.py 28: rcmg_draw_fn=_draw_saddle *)
Definition draw_rsaddle (c : mconfig) (key_t key_value : K) (dt : R) (N : option nat) : result (list (list R)) :=
  draw_saddle g parse_float c key_t key_value dt N.
(** rr_imp_joint.py 25-36 *)
Definition draw_rr_imp (config_res : mconfig) (ang_max_deg : R) (c : mconfig) (key_t key_value : K) (dt : R) (N : option nat) : result (list (list R)) :=
  do pri <- draw_rxyz g parse_float c (r_split g key_t 2 0) (r_split g key_value 2 0) dt N true false;
  do res <- draw_rxyz g parse_float (replace_T config_res (c_T c)) (r_split g key_t 2 1) (r_split g key_value 2 1) dt N true false;
  hcat (as_column pri) (as_column (limited ang_max_deg res)).
End Draw.
