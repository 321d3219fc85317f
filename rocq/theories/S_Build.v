(** * Specification vocabulary for building data generators. *)
From Coq Require Import Reals ZArith String Ascii Bool List.
From Verif Require Import Prelude M_Sys M_Compose M_Math M_Geom M_Xml S_Sys M_Artifact M_Build.
Import ListNotations.
Local Open Scope string_scope.
Local Open Scope list_scope.

Section Spec.
Context {J V C X : Type}.
Variable W : widths.
(** A list of strings as a value of a dictionary. *)
Variable names : list string -> V.
(** [soft kw s s']: [s'] is [s] with soft IMU attachments as the keyword arguments [kw] describe. *)
Variable soft : list (string * V) -> xsys J -> xsys J -> Prop.
(** [segments ml s']: [s'] is [ml] without IMUs. *)
Variable segments : xsys J -> xsys J -> Prop.
Notation obj := (@obj V C).
Notation options := (@options J X).
Notation reads := (@reads J V C X).

(** A system can be simulated: all joints are damped, and no joint moves a massless body at the end of a chain. *)
Definition simulable (s : xsys J) : Prop :=
  exists vs, views W s vs /\ forall i v, nth_error vs i = Some v -> v_damping v <> [] ->
    Forall (fun d => 0 < d)%R (v_damping v) /\
    ((forall j, nth_error (link_parents s) j <> Some (Z.of_nat i)) -> (0 < i_mass (M_Geom.pl_inertia (v_link v)))%R).

Definition has_key (k : string) (d : list (string * V)) : Prop := exists v, In (k, v) d.

(** The options point to dictionaries and to a list of configurations. *)
Definition addresses (o : options) : list nat :=
  [o_imu_kw o; o_axes_kw o; o_incl_kw o; o_full_kw o; o_hz_kw o; o_art_kw o; o_dyn_kw o].
Definition typed (h : list obj) (o : options) : Prop :=
  (exists cs, nth_error h (o_config o) = Some (OConfigs cs)) /\ Forall (fun a => exists d, nth_error h a = Some (ODict d)) (addresses o).

(** Contents of the options. *)
Definition holds (h : list obj) (a : nat) (d : list (string * V)) : Prop := nth_error h a = Some (ODict d).

(** The generator for system [s] may be built. *)
Definition acceptable (h : list obj) (o : options) (s ml : xsys J) : Prop :=
  (o_axes o || o_relpose o || o_incl o = true -> exists s', segments ml s') /\
  (o_artifacts o = false -> o_dynsim o = true -> simulable s) /\
  (o_artifacts o = true -> o_dynsim o = true /\
     exists art dyn s', holds h (o_art_kw o) art /\ holds h (o_dyn_kw o) dyn /\ soft art s s' /\ simulable s' /\
       ~ has_key "unactuated_subsystems" dyn /\ (has_key "prob_rigid" art -> o_random_artifacts o = true)).

(** What a generator for system [s] works with, given the contents of the options: nothing but the options as given, its own system,
    and the names of its own system's soft attachments. *)
Record as_given (h : list obj) (o : options) (s ml : xsys J) (r : reads) : Prop := {
  ag_imu : holds h (o_imu_kw o) (r_imu r); ag_axes : holds h (o_axes_kw o) (r_axes r); ag_incl : holds h (o_incl_kw o) (r_incl r);
  ag_full : holds h (o_full_kw o) (r_full r); ag_hz : holds h (o_hz_kw o) (r_hz r); ag_art : holds h (o_art_kw o) (r_art r);
  ag_dyn : exists dyn, holds h (o_dyn_kw o) dyn /\
    r_dyn r = if o_artifacts o then dyn ++ [("unactuated_subsystems", names (map (String "_") (filter is_imu_name (link_names s))))] else dyn;
  ag_sys : if o_artifacts o then soft (r_art r) s (r_sys r) else r_sys r = s;
  ag_noimu : if o_axes o || o_relpose o || o_incl o then exists s', r_noimu r = Some s' /\ segments ml s' else r_noimu r = None;
  ag_flags : r_opts r = (o_axes o, o_relpose o, o_incl o, o_artifacts o, o_random_artifacts o, o_dynsim o);
  ag_rest : r_rest r = o_rest o }.

(** The system the networks are trained for. *)
Definition trained_for (o : options) (ss : list (xsys J)) (ml : xsys J) : Prop :=
  o_ml o = Some ml \/ (o_ml o = None /\ nth_error ss 0 = Some ml).

(** A program touches only objects it holds, a dictionary stays a dictionary, and it hands in objects it holds. *)
Definition same_kind (x y : obj) : Prop :=
  match x, y with ODict _, ODict _ => True | OConfigs _, OConfigs _ => True | _, _ => False end.
Definition permitted (st : @state J V C X) (e : @event J V C X) : Prop :=
  match e with
  | New _ => True
  | Change a x => In a (st_own st) /\ exists y, nth_error (st_heap st) a = Some y /\ same_kind y x
  | Build o ss => In (o_config o) (st_own st) /\ Forall (fun a => In a (st_own st)) (addresses o) /\ typed (st_heap st) o
  end.
End Spec.

(** ** Soft attachments and simulation *)
Section Soft.
Context {J : Type}.
Variable W : widths.

Definition weight (gs : list xgeom) : R := fold_right Rplus 0%R (map (fun g => g_mass (xg_geom g)) gs).
(** The end of a chain. *)
Definition at_end (s : xsys J) (i : nat) : Prop := forall j, nth_error (link_parents s) j <> Some (Z.of_nat i).
(** [s] can be simulated once its IMUs are attached softly, with damping [rd] of the rotation and [td] of the translation: each IMU has a
    mass and its attachment is damped; the other joints are damped and move a mass. *)
Definition simulable_softly (rd td : R) (s : xsys J) : Prop :=
  exists vs, views W s vs /\ forall i v, nth_error vs i = Some v ->
    (is_imu_name (v_name v) = true -> (0 < rd)%R /\ (0 < td)%R /\ (0 < weight (attached (Z.of_nat i) (geoms s)))%R) /\
    (is_imu_name (v_name v) = false -> v_damping v <> [] ->
       Forall (fun d => 0 < d)%R (v_damping v) /\ (at_end s i -> (0 < weight (attached (Z.of_nat i) (geoms s)))%R)).
End Soft.
