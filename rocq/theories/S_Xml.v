(** * Specification vocabulary for the XML round trip. *)
From Coq Require Import Reals ZArith String Ascii Bool List Permutation.
From Verif Require Import Prelude M_Sys M_Math M_Geom M_Xml S_Sys S_Morph.
Import ListNotations.
Local Open Scope string_scope.
Local Open Scope list_scope.

Definition no_space (s : string) : Prop := ~ In " "%char (list_ascii_of_string s).

(** What is assumed of Python's printing and reading of numbers: the numbers [num] and integers [int] are
    printed without spaces, and float() reads them back exactly; the names of the shapes are not numbers.  (It cannot hold for all reals.) *)
Record faithful (print : R -> string) (print_int : Z -> string) (float_of : string -> option R)
    (num : R -> Prop) (int : Z -> Prop) : Prop := {
  ft_num : forall x, num x -> float_of (print x) = Some x /\ no_space (print x);
  ft_int : forall z, int z -> float_of (print_int z) = Some (IZR z) /\ no_space (print_int z);
  ft_words : forall w, In w ["xyz"; "box"; "sphere"; "cylinder"; "capsule"] -> float_of w = None }.

(** [s] does not look like a list of numbers. *)
Definition plain (float_of : string -> option R) (s : string) : Prop :=
  ~ exists ws, ws <> [] /\ s = String.concat " " ws /\ Forall (fun w => no_space w /\ float_of w <> None) ws.

Section Spec.
Variable float_of : string -> option R.
Variable num : R -> Prop.
Variable int : Z -> Prop.
Notation plain := (plain float_of).

Definition num3 (v : vec3) : Prop := num (vx v) /\ num (vy v) /\ num (vz v).
Definition num_t (t : transform) : Prop :=
  num3 (t_pos t) /\ num (qw (t_rot t)) /\ num (qx (t_rot t)) /\ num (qy (t_rot t)) /\ num (qz (t_rot t)).

(** Colours: a name, or at least two numbers. *)
Definition saveable_color (c : option color) : Prop :=
  match c with
  | None => True
  | Some (ColText s) => plain s
  | Some (ColNums l) => (2 <= length l)%nat /\ Forall num l
  end.
(** Dimensions are positive; a coordinate-cross geometry is the one XYZ.create makes. *)
Definition saveable_geom (g : xgeom) : Prop :=
  match g_shape (xg_geom g) with
  | XYZ size => g = mkXG (mkGeom 0 t_zero (XYZ size)) None None /\ num size /\ (0 < size)%R
  | sh => num (g_mass (xg_geom g)) /\ num_t (g_transform (xg_geom g)) /\ saveable_color (xg_color g) /\ saveable_color (xg_edge g) /\
      match sh with
      | XYZ _ => True
      | Sphere r => num r /\ (0 < r)%R
      | Box x y z => num x /\ num y /\ num z /\ (0 < x)%R /\ (0 < y)%R /\ (0 < z)%R
      | Cylinder r l | Capsule r l => num r /\ num l /\ (0 < r)%R /\ (0 < l)%R
      end
  end.
Definition saveable_link {J} (l : plink J) : Prop :=
  num_t (pl_t1 l) /\ num3 (pl_pmin l) /\ num3 (pl_pmax l) /\
  (pl_pmin l = pl_pmax l -> pl_pmin l = t_pos (pl_t1 l)).
Definition saveable_omc (o : option omc_link) : Prop :=
  match o with None => True | Some o => plain (o_name o) /\ int (o_marker o) /\ num3 (o_pos o) end.

(** The systems the file format can express. *)
Record saveable {J} (W : widths) (s : xsys J) : Prop := {
  sv_parsed : parsed W xml_ops s;
  sv_some : link_parents s <> [];
  sv_model : exists m, model_name s = Some m /\ plain m;
  sv_names : Forall plain (link_names s);
  sv_types : Forall (fun t => plain t /\ t <> "cor") (link_types s);
  sv_world : attached (-1)%Z (geoms s) = [];
  sv_settings : integration_method s = "semi_implicit_euler" /\ mass_mat_iters s = 0%nat;
  sv_options : num (sys_dt s) /\ Forall num (gravity s) /\ (2 <= length (gravity s))%nat;
  sv_arrays : Forall num (link_damping s) /\ Forall num (link_armature s) /\
              Forall num (link_spring_stiffness s) /\ Forall num (link_spring_zeropoint s);
  sv_links : Forall saveable_link (links s);
  sv_geoms : Forall (fun g => saveable_geom (snd g)) (geoms s);
  sv_omc : Forall saveable_omc (omc s) }.
End Spec.

(** The same link read back: everything but the joint parameters, which are initialised anew, and the two
    transforms that only forward kinematics fills in. *)
Definition same_link {J} (l l' : plink J) : Prop :=
  pl_t1 l' = pl_t1 l /\ pl_pmin l' = pl_pmin l /\ pl_pmax l' = pl_pmax l /\ M_Geom.pl_inertia l' = M_Geom.pl_inertia l /\
  pl_t2 l' = t_zero /\ pl_t l' = t_zero.
Definition same_view {J} (v v' : link_view R (plink J) (option omc_link)) : Prop :=
  agree_but_link v v' /\ same_link (v_link v) (v_link v').

(** [s'] is [s] with its links listed in the order [order]: depth first, the links below one parent in their old order. *)
Record reloaded {J} (W : widths) (jinit : list string -> result (list J)) (s s' : xsys J) (order : list nat) : Prop := {
  rl_permutation : Permutation order (seq 0 (num_links s));
  rl_depth_first : depth_first (link_parents s');
  rl_siblings : forall m1 m2 p i1 i2, (m1 < m2)%nat -> nth_error (link_parents s') m1 = Some p -> nth_error (link_parents s') m2 = Some p ->
      nth_error order m1 = Some i1 -> nth_error order m2 = Some i2 -> (i1 < i2)%nat;
  rl_parents : Forall2 (fun i p' => exists p, nth_error (link_parents s) i = Some p /\ same_parent order p p') order (link_parents s');
  rl_views : exists vs vs', views W s vs /\ views W s' vs' /\
      Forall2 (fun i v' => exists v, nth_error vs i = Some v /\ same_view v v') order vs';
  rl_params : jinit (link_types s') = Ok (map pl_params (links s'));
  rl_geoms : forall m i, nth_error order m = Some i -> attached (Z.of_nat m) (geoms s') = attached (Z.of_nat i) (geoms s);
  rl_world : attached (-1)%Z (geoms s') = attached (-1)%Z (geoms s);
  rl_global : sys_dt s' = sys_dt s /\ gravity s' = gravity s /\ integration_method s' = integration_method s /\
      mass_mat_iters s' = mass_mat_iters s /\ model_name s' = model_name s;
  rl_parsed : parsed W xml_ops s' }.
