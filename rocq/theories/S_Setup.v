(** * Specification: what randomising a system before motion is drawn may change. *)
From Coq Require Import Reals ZArith Bool String List.
From Verif Require Import Prelude M_Sys M_Math M_Geom M_Joint S_Sys.
Import ListNotations.
Local Open Scope R_scope.

(** Everything but the links, the dampings and the stiffnesses is the same. *)
Definition same_frame {K L G O} (s s' : System K L G O) : Prop :=
  link_parents s' = link_parents s /\ link_types s' = link_types s /\ link_names s' = link_names s /\
  link_armature s' = link_armature s /\ link_spring_zeropoint s' = link_spring_zeropoint s /\ sys_dt s' = sys_dt s /\ geoms s' = geoms s /\
  gravity s' = gravity s /\ integration_method s' = integration_method s /\ mass_mat_iters s' = mass_mat_iters s /\
  model_name s' = model_name s /\ omc s' = omc s.
Definition same_springs {K L G O} (s s' : System K L G O) : Prop :=
  link_damping s' = link_damping s /\ link_spring_stiffness s' = link_spring_stiffness s.

(** A point lies in the box between two corners. *)
Definition in_box (lo hi p : vec3) : Prop := vx lo <= vx p <= vx hi /\ vy lo <= vy p <= vy hi /\ vz lo <= vz p <= vz hi.
Definition corners (lo hi : vec3) : Prop := vx lo <= vx hi /\ vy lo <= vy hi /\ vz lo <= vz hi.

(** Two links that differ at most in the position, in the rotation from the parent, in the joint parameters. *)
Definition moved {J} (l : plink J) (p : vec3) (l' : plink J) : Prop :=
  pl_t1 l' = Tr p (t_rot (pl_t1 l)) /\ pl_pmin l' = pl_pmin l /\ pl_pmax l' = pl_pmax l /\ pl_params l' = pl_params l /\
  M_Geom.pl_inertia l' = M_Geom.pl_inertia l /\ pl_t2 l' = pl_t2 l /\ pl_t l' = pl_t l.
Definition turned {J} (l : plink J) (q : quat) (l' : plink J) : Prop :=
  pl_t1 l' = Tr (t_pos (pl_t1 l)) q /\ pl_pmin l' = pl_pmin l /\ pl_pmax l' = pl_pmax l /\ pl_params l' = pl_params l /\
  M_Geom.pl_inertia l' = M_Geom.pl_inertia l /\ pl_t2 l' = pl_t2 l /\ pl_t l' = pl_t l.
Definition parametrised {J} (l : plink J) (j : J) (l' : plink J) : Prop :=
  pl_t1 l' = pl_t1 l /\ pl_pmin l' = pl_pmin l /\ pl_pmax l' = pl_pmax l /\ pl_params l' = j /\
  M_Geom.pl_inertia l' = M_Geom.pl_inertia l /\ pl_t2 l' = pl_t2 l /\ pl_t l' = pl_t l.

(** The rotation by [a] about the unit axis [n]; both signs of a quaternion mean the same rotation. *)
Definition turn (n : vec3) (a : R) : quat := Q4 (cos (a / 2)) (sin (a / 2) * vx n) (sin (a / 2) * vy n) (sin (a / 2) * vz n).
(** A rotation by at most [m]. *)
Definition turn_within (m : R) (q : quat) : Prop :=
  exists n a, dot n n = 1 /\ Rabs a <= m /\ (q = turn n a \/ q = qneg (turn n a)).

(** How an IMU is attached: its reference link (name preceded by an underscore) carries the rotational spring, the IMU
    the translational one, with three degrees of freedom each. *)
Definition soft_spring (lo hi : R) (st d : list R) : Prop :=
  length st = 3%nat /\ length d = 3%nat /\
  forall k, (k < 3)%nat -> lo <= nth k st 0 <= hi /\ exists f, 5 / 100 <= f <= 5 / 10 /\ nth k d 0 = nth k st 0 * f.
Definition rigid_spring (x : R) (st d : list R) : Prop := st = [x; x; x] /\ d = [x / 5; x / 5; x / 5].
Definition attached {L O} (rigid : bool) (ref imu : link_view R L O) : Prop :=
  if rigid then rigid_spring 200 (v_stiffness ref) (v_damping ref) /\ rigid_spring 20000 (v_stiffness imu) (v_damping imu)
  else soft_spring (2 / 10) 10 (v_stiffness ref) (v_damping ref) /\ soft_spring 25 1000 (v_stiffness imu) (v_damping imu).
(** Two views of a link that differ at most in damping and stiffness *)
Definition respringed {L O} (v v' : link_view R L O) : Prop :=
  v_name v' = v_name v /\ v_type v' = v_type v /\ v_link v' = v_link v /\ v_omc v' = v_omc v /\ v_armature v' = v_armature v /\ v_zeropoint v' = v_zeropoint v.

(** The IMU [n] and its reference link exist, each with three degrees of freedom. *)
Definition has_attachment {L O} (vs : list (link_view R L O)) (n : string) : Prop :=
  exists i j vi vj, nth_error vs i = Some vi /\ nth_error vs j = Some vj /\ v_name vi = String.append "_" n /\ v_name vj = n /\
    length (v_stiffness vi) = 3%nat /\ length (v_damping vi) = 3%nat /\ length (v_stiffness vj) = 3%nat /\ length (v_damping vj) = 3%nat.
