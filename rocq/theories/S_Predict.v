(** * Specification vocabulary for render_prediction. *)
From Coq Require Import Reals String ZArith List.
From Verif Require Import Prelude M_Sys M_Math M_Target C_Xs.
Import ListNotations.
Local Open Scope nat_scope.

Section Spec.
Context {K L G O : Type}.
Notation sys := (System K L G O).

(** trow has, for every link of the smaller system no, the pose which row has for the link of s with that name. *)
Definition same_named (s no : sys) (row trow : list transform) : Prop :=
  length trow = num_links no /\
  forall i j nm, nth_error (link_names no) i = Some nm -> nth_error (link_names s) j = Some nm ->
    nth_error trow i = nth_error row j.

(** The predicted poses hrow: relative to its parent, a link is at the recorded position, and turned by the prediction -
    which for a link connected to the world is its orientation, and for any other the turn from the link to its parent. *)
Definition follows (no : sys) (trow hrow : list transform) (yhat : list (string * list quat)) (k : nat) : Prop :=
  length hrow = num_links no /\
  forall i nm p, nth_error (link_names no) i = Some nm -> nth_error (link_parents no) i = Some p ->
    exists qs q true_rel hat_rel, dget String.eqb yhat nm = Some qs /\ nth_error qs k = Some q /\
      rel_pose_of no trow i true_rel /\ rel_pose_of no hrow i hat_rel /\
      t_pos hat_rel = t_pos true_rel /\ t_rot hat_rel = (if Z.eqb p (-1) then q else qinv q).

(** A prediction without error: the recorded orientation of links connected to the world, and for the others the turn
    from the link to its parent (the training target of sensors.rel_pose). *)
Definition perfect (no : sys) (trow : list transform) (yhat : list (string * list quat)) (k : nat) : Prop :=
  forall i nm, nth_error (link_names no) i = Some nm ->
    exists qs q x, dget String.eqb yhat nm = Some qs /\ nth_error qs k = Some q /\ nth_error trow i = Some x /\
      ((nth_error (link_parents no) i = Some (-1)%Z /\ q = t_rot x) \/
       exists p y, nth_error (link_parents no) i = Some (Z.of_nat p) /\ nth_error trow p = Some y /\
         q = qmul (t_rot y) (qinv (t_rot x))).

Definition shift (d : vec3) (x : transform) : transform := Tr (vadd (t_pos x) d) (t_rot x).
End Spec.
