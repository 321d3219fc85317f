(** * Specification vocabulary for non-rigid IMU attachments. *)
From Coq Require Import Reals ZArith String Ascii Bool List.
From Verif Require Import Prelude M_Sys M_Math M_Geom M_Xml S_Sys.
Import ListNotations.
Local Open Scope string_scope.
Local Open Scope list_scope.

(** The name marks an IMU. *)
Definition imu_name (n : string) : Prop := exists r, n = ("imu" ++ r)%string.

Section Spec.
Context {J : Type}.
Notation view := (link_view R (plink J) (option omc_link)).
Variable W : widths.

(** The same link up to inertia and joint parameters. *)
Definition same_place (l l' : plink J) : Prop :=
  pl_t1 l' = pl_t1 l /\ pl_pmin l' = pl_pmin l /\ pl_pmax l' = pl_pmax l.
Definition same_joint (v v' : view) : Prop := agree_but_link v v' /\ same_place (v_link v) (v_link v').

(** The link [v'] of the system with soft attachments which stands at the place of link [v]: an IMU's link is called "_imu" and
    became a spherical joint with stiffness [rs] and damping [rd]. *)
Definition softened (rs rd : R) (v v' : view) : Prop :=
  (imu_name (v_name v) ->
     same_joint (mkView (String "_" (v_name v)) "spherical" (v_link v) (v_omc v) [rd; rd; rd]%R [0; 0; 0]%R [rs; rs; rs]%R [1; 0; 0; 0]%R) v') /\
  (~ imu_name (v_name v) -> same_joint v v').
(** The new link carrying the IMU [name]: it slides in all three directions. *)
Definition carrier (p ts td : R) (name : string) (v' : view) : Prop :=
  agree_but_link (mkView name "p3d" (v_link v') None [td; td; td]%R [0; 0; 0]%R [ts; ts; ts]%R [0; 0; 0]%R) v' /\
  pl_t1 (v_link v') = t_zero /\ pl_pmin (v_link v') = V3 (- p) (- p) (- p) /\ pl_pmax (v_link v') = V3 p p p.

(** [s'] is [s] with a soft attachment for each of the IMUs [imus] (their link indices, in order): the links of [s], softened, followed
    by one new link per IMU, attached to the old one and carrying its geometries. *)
Record with_carriers (rs rd p ts td : R) (s s' : xsys J) (imus : list nat) : Prop := {
  wc_imus : forall i, In i imus <-> exists n, nth_error (link_names s) i = Some n /\ imu_name n;
  wc_increasing : increasing imus;
  wc_parents : link_parents s' = link_parents s ++ map Z.of_nat imus;
  wc_views : exists vs vs1 vs2, views W s vs /\ views W s' (vs1 ++ vs2) /\ Forall2 (softened rs rd) vs vs1 /\
      Forall2 (fun i v' => exists v, nth_error vs i = Some v /\ carrier p ts td (v_name v) v') imus vs2;
  wc_geoms : (forall i, ~ In i imus -> (i < num_links s)%nat -> attached (Z.of_nat i) (geoms s') = attached (Z.of_nat i) (geoms s)) /\
             (forall i, In i imus -> attached (Z.of_nat i) (geoms s') = []) /\
             (forall k i, nth_error imus k = Some i -> attached (Z.of_nat (num_links s + k)) (geoms s') = attached (Z.of_nat i) (geoms s)) /\
             attached (-1)%Z (geoms s') = attached (-1)%Z (geoms s);
  wc_global : sys_dt s' = sys_dt s /\ gravity s' = gravity s /\ integration_method s' = integration_method s /\
      mass_mat_iters s' = mass_mat_iters s /\ model_name s' = model_name s }.

(** [s'] is [s] again, except for the geometries and inertia of IMUs and the joint parameters. *)
Record hidden_again (s s' : xsys J) : Prop := {
  ha_names : link_names s' = link_names s;
  ha_types : link_types s' = link_types s;
  ha_parents : link_parents s' = link_parents s;
  ha_views : exists vs vs', views W s vs /\ views W s' vs' /\ Forall2 same_joint vs vs';
  ha_geoms : forall i n, nth_error (link_names s) i = Some n ->
      (imu_name n -> attached (Z.of_nat i) (geoms s') = []) /\
      (~ imu_name n -> attached (Z.of_nat i) (geoms s') = attached (Z.of_nat i) (geoms s));
  ha_global : sys_dt s' = sys_dt s /\ gravity s' = gravity s /\ integration_method s' = integration_method s /\
      mass_mat_iters s' = mass_mat_iters s /\ model_name s' = model_name s;
  ha_parsed : parsed W xml_ops s' }.

(** Poses [x] of the links of [large] and poses [x'] of the links of [small] agree name by name. *)
Definition poses_by_name {X} (small large : xsys J) (x' x : list X) : Prop :=
  length x' = num_links small /\
  forall i n m, nth_error (link_names small) i = Some n -> nth_error (link_names large) m = Some n -> nth_error x' i = nth_error x m.
(** Coordinates [q] of [large] and [q'] of [small] agree name by name, except that IMUs have none in [small]. *)
Definition coords_by_name (small large : xsys J) (q' q : list R) : Prop :=
  exists ws ws' ps ps', have_widths (qW W) (link_types large) ws /\ splits ws q ps /\
    have_widths (qW W) (link_types small) ws' /\ splits ws' q' ps' /\
    forall i n m, nth_error (link_names small) i = Some n -> nth_error (link_names large) m = Some n ->
      (imu_name n -> nth_error ps' i = Some []) /\ (~ imu_name n -> nth_error ps' i = nth_error ps m).
End Spec.
