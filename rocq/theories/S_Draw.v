(** * Specification: what a row of randomly drawn joint coordinates looks like. *)
From Coq Require Import Reals Lra Lia ZArith Bool String List.
From Verif Require Import Prelude M_Sys M_Math P_Math M_Geom M_Joint M_Kin S_Kin M_Random M_Draw P_Random.
Import ListNotations.
Local Open Scope R_scope.

(** The coordinates [b] of a joint of type [typ]: angles of hinges and saddles satisfy [A], the Euler angles (z, y, x)
    of ball joints and free joints and the angle of planar joints [E], positions of sliders [P], positions along the
    three directions [D], positions of the centre of rotation [C].  Orientations are unit quaternions.
    The planar joint's positions come from the first two directions (jcalc.py 794-811), although they are its y and z
    (see C65_planar_refuted). *)
Inductive drawn_row (A E P : R -> Prop) (D : xyz -> R -> Prop) (C : R -> Prop) : string -> list R -> Prop :=
| dr_hinge typ a : In typ ["rx"; "ry"; "rz"]%string -> A a -> drawn_row A E P D C typ [a]
| dr_saddle a b : A a -> A b -> drawn_row A E P D C "saddle" [a; b]
| dr_slider typ p : In typ ["px"; "py"; "pz"]%string -> P p -> drawn_row A E P D C typ [p]
| dr_frozen : drawn_row A E P D C "frozen" []
| dr_p3d x y z : D AX x -> D AY y -> D AZ z -> drawn_row A E P D C "p3d" [x; y; z]
| dr_ball q az ay ax : qunit q -> q = quat_euler AZ AY AX az ay ax true -> E az -> E ay -> E ax ->
    drawn_row A E P D C "spherical" [qw q; qx q; qy q; qz q]
| dr_free q az ay ax x y z : qunit q -> q = quat_euler AZ AY AX az ay ax true -> E az -> E ay -> E ax -> D AX x -> D AY y -> D AZ z ->
    drawn_row A E P D C "free" [qw q; qx q; qy q; qz q; x; y; z]
| dr_cor q az ay ax x y z cx cy cz : qunit q -> q = quat_euler AZ AY AX az ay ax true -> E az -> E ay -> E ax -> D AX x -> D AY y -> D AZ z ->
    C cx -> C cy -> C cz -> drawn_row A E P D C "cor" [qw q; qx q; qy q; qz q; x; y; z; cx; cy; cz]
| dr_planar a y z : E a -> D AX y -> D AY z -> drawn_row A E P D C "free_2d" [a; y; z].

(** A configuration that can be drawn from. *)
Record config_ok (parse_float : string -> result R) (c : mconfig) : Prop := {
  co_T : 0 <= c_T c;
  co_t_min : 0 < c_t_min c;
  co_cor_t_min : 0 < c_cor_t_min c;
  co_halfsize : forall t, 0 <= c_halfsize c t;
  co_method : c_rom c = true -> exists p, prob_up parse_float (c_rom_method c) = Ok p;
  co_angle : c_rnd_angle c = true -> reads_ok (Some (c_bins_min c, c_bins_max c, c_method c));
  co_pos : c_rnd_pos c = true -> reads_ok (Some (c_bins_min c, c_bins_max c, c_method c));
  co_ang0 : c_ang0_min c <= c_ang0_max c;
  co_pos0 : c_pos0_min c <= c_pos0_max c;
  co_p3d0 : forall d, c_p3d0_min c d <= c_p3d0_max c d;
  co_cor0 : c_cor_pos0_min c <= c_cor_pos0_max c
}.

(** The number of samples drawn for a joint: as many as asked for; else the multiples of the time step below [T], but for
    frozen joints [T] over the time step, rounded down. *)
Definition samples (N : option nat) (typ : string) (T dt : R) (n : nat) : Prop :=
  match N with
  | Some m => n = m
  | None => if String.eqb typ "frozen" then INR n <= T / dt < INR n + 1 else INR n - 1 < T / dt <= INR n
  end.

(** An angle of sample [j]: within [-pi, pi]; the first one is from the configured range of initial angles, wrapped. *)
Definition angle_at (c : mconfig) (dt : R) (j : nat) (v : R) : Prop :=
  - PI <= v <= PI /\ (j = 0%nat -> dt <= c_t_min c <= c_T c -> exists u, c_ang0_min c <= u <= c_ang0_max c /\ v = wrap_to_pi u).
(** Positions: the first one is from the configured range. *)
Definition pos_at (t_min lo hi T dt : R) (j : nat) (v : R) : Prop := j = 0%nat -> dt <= t_min <= T -> lo <= v <= hi.
(** Row [j] *)
Definition row_at (c : mconfig) (dt : R) (j : nat) (typ : string) (b : list R) : Prop :=
  drawn_row (angle_at c dt j) (angle_at c dt j)
    (pos_at (c_t_min c) (c_pos0_min c) (c_pos0_max c) (c_T c) dt j)
    (fun d => pos_at (c_t_min c) (c_p3d0_min c d) (c_p3d0_max c d) (c_T c) dt j)
    (pos_at (c_cor_t_min c) (c_cor_pos0_min c) (c_cor_pos0_max c) (c_T c) dt j) typ b.

(** The configuration of a joint type. *)
Definition config_for (overwrite : string -> option (mconfig -> mconfig)) (c : mconfig) (typ : string) : mconfig :=
  match overwrite typ with Some f => f c | None => c end.
(** The key of link [i]: the first of three, repeatedly. *)
Fixpoint key_of {K} (g : rng K) (key : K) (i : nat) : K :=
  match i with 0%nat => key | S i => r_split g (key_of g key i) 3 0 end.
(** Positions stay in their ranges: sliders' in [plo, phi], directions' in [dlo, dhi], centres of rotation's in [clo, chi]. *)
Definition in_ranges (plo phi : R) (dlo dhi : xyz -> R) (clo chi : R) : string -> list R -> Prop :=
  drawn_row (fun _ => True) (fun _ => True) (fun v => plo <= v <= phi) (fun d v => dlo d <= v <= dhi d) (fun v => clo <= v <= chi).

(** What link [i] contributes: its own draw function, its own configuration and parameters, and two fresh keys. *)
Section Link.
Context {K P O : Type}.
Variable g : rng K.
Variable draws : string -> option (option (draw_fn (K := K) P)).
Variable overwrite : string -> option (mconfig -> mconfig).
Definition drawn_for (key : K) (s : System R (plink (params P)) geometry O) (c : mconfig) (N : option nat) (i : nat) : result (list (list R)) :=
  match nth_error (link_types s) i, nth_error (links s) i with
  | Some typ, Some l =>
      do pr <- limit_scope typ (pl_params l);
      do f <- match draws typ with None => Err EAssertion | Some None => Err EOther | Some (Some f) => Ok f end;
      f (config_for overwrite c typ) (r_split g (key_of g key i) 3 1) (r_split g (key_of g key i) 3 2) (sys_dt s) N pr
  | _, _ => Err EIndex
  end.
End Link.

(** How the positions of a joint are searched for: sliders, the three directions, centres of rotation. *)
Definition slider_args (c : mconfig) : pos_args :=
  mkPos (c_pos_min c) (c_pos_max c) (c_dpos_min c) (c_dpos_max c) (c_t_min c) (c_t_max c) 100.
Definition direction_args (c : mconfig) (d : xyz) : pos_args :=
  mkPos (c_p3d_min c d) (c_p3d_max c d) (c_dpos_min c) (c_dpos_max c) (c_t_min c) (c_t_max c) 100.
Definition centre_args (c : mconfig) : pos_args :=
  mkPos (c_cor_pos_min c) (c_cor_pos_max c) (c_cor_dpos_min c) (c_cor_dpos_max c) (c_cor_t_min c) (c_cor_t_max c) 100.
