(** * Specification vocabulary for scale_xs and randomize_to_world_pos_rot. *)
From Coq Require Import Reals String ZArith List.
From Verif Require Import Prelude M_Sys M_Math P_Math M_Target.
Import ListNotations.
Local Open Scope R_scope.

Definition slides (typ : string) : Prop := In typ ["px"; "py"; "pz"; "free"]%string.
Definition turns (typ : string) : Prop := In typ ["rx"; "ry"; "rz"; "spherical"; "free"]%string.

(** y is x with its translation and its turn made [factor] times as large. *)
Record scaled (typ : string) (factor : R) (x y : transform) : Prop := {
  sc_slides : slides typ -> t_pos y = vscale factor (t_pos x);
  sc_stays : ~ slides typ -> t_pos y = t_pos x;
  sc_turns : turns typ -> forall n a, dot n n = 1 -> - PI < a < PI -> ~ vclose0 (qvec (quat_rot_axis n a)) ->
      t_rot x = quat_rot_axis n a -> t_rot y = quat_rot_axis n (factor * a);
  sc_small : turns typ -> qunit (t_rot x) -> vclose0 (qvec (t_rot x)) -> t_rot y = qone;
  sc_keeps : ~ turns typ -> t_rot y = t_rot x }.

(** r is the one link connected to the world. *)
Definition only_root {K L G O} (s : System K L G O) (r : nat) : Prop :=
  nth_error (link_parents s) r = Some (-1)%Z /\ forall i, nth_error (link_parents s) i = Some (-1)%Z -> i = r.
