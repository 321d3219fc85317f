(** * Specification vocabulary for dynamics: motions of links, energies, generalised forces. *)
From Coq Require Import Reals String ZArith List.
From Verif Require Import Prelude M_Sys M_Math M_Geom M_Joint M_Kin S_Sys S_Kin P_Math.
Import ListNotations.
Local Open Scope R_scope.

Section Spec.
Context {P O : Type}.
Variable W : widths.
Variable jt : joint_table P.
Notation link := (plink (params P)).
Notation rsys := (System R link geometry O).

(** The motion axes of the joint of link [i], in the frame of the link. *)
Definition motions_at (s : rsys) (i : nat) (ms : list spatial) : Prop :=
  exists typ l pr jm, nth_error (link_types s) i = Some typ /\ nth_error (links s) i = Some l /\
    params_for typ (pl_params l) pr /\ jt typ = Some jm /\ ms = map (fun m => m pr) (jm_motion jm).
Fixpoint combination (ms : list spatial) (c : list R) : spatial :=
  match ms, c with m :: ms', a :: c' => sadd (sscale a m) (combination ms' c') | _, _ => szero end.
(** Velocity across the joint of link [i] for the generalised velocities [x]. *)
Definition joint_vel (s : rsys) (x : list R) (i : nat) (v : spatial) : Prop :=
  exists ms sl, motions_at s i ms /\ link_coords (dW W) s x i sl /\ v = combination ms sl.
(** Velocity of link [z] (-1: world) in its own frame: joint velocities added up along the chain. *)
Inductive body_vel (s : rsys) (x : list R) : Z -> spatial -> Prop :=
| vel_world : body_vel s x (-1) szero
| vel_link i p l vJ vp :
    nth_error (link_parents s) i = Some p -> nth_error (links s) i = Some l ->
    joint_vel s x i vJ -> body_vel s x p vp ->
    body_vel s x (Z.of_nat i) (sadd vJ (t_motion (pl_t l) vp)).
(** [vs] lists the velocities of all links. *)
Definition body_vels (s : rsys) (x : list R) (vs : list spatial) : Prop :=
  length vs = length (links s) /\
  forall i v, nth_error vs i = Some v -> body_vel s x (Z.of_nat i) v.

(** Acceleration of link [z] in its own frame (the world accelerates with the gravity vector): the acceleration of
    the parent, the joint acceleration and the term due to the rotation of the joint axes with the link. *)
Inductive body_acc (s : rsys) (qd qdd : list R) : Z -> spatial -> Prop :=
| acc_world : body_acc s qd qdd (-1) (Sp vzero (v3_of (gravity s)))
| acc_link i p l vJ aJ v ap :
    nth_error (link_parents s) i = Some p -> nth_error (links s) i = Some l ->
    joint_vel s qd i vJ -> joint_vel s qdd i aJ -> body_vel s qd (Z.of_nat i) v -> body_acc s qd qdd p ap ->
    body_acc s qd qdd (Z.of_nat i) (sadd (sadd (t_motion (pl_t l) ap) aJ) (m_cross v vJ)).
Definition body_accs (s : rsys) (qd qdd : list R) (accs : list spatial) : Prop :=
  length accs = length (links s) /\
  forall i a, nth_error accs i = Some a -> body_acc s qd qdd (Z.of_nat i) a.

(** Each joint type has as many motion axes as velocity coordinates. *)
Definition motions_fit : Prop :=
  forall typ jm, jt typ = Some jm -> dW W typ = Some (length (jm_motion jm)).
(** The link transforms (set by forward kinematics) are rotations. *)
Definition unit_transforms (s : rsys) : Prop := forall l, In l (links s) -> tunit (pl_t l).
End Spec.

(** Sums *)
Fixpoint sum4 {A B C D} (f : A -> B -> C -> D -> R) (a : list A) (b : list B) (c : list C) (d : list D) : R :=
  match a, b, c, d with x :: a', y :: b', z :: c', w :: d' => f x y z w + sum4 f a' b' c' d' | _, _, _, _ => 0 end.
Definition rsum (l : list R) : R := fold_right Rplus 0 l.
Fixpoint sum2 {A B} (f : A -> B -> R) (a : list A) (b : list B) : R :=
  match a, b with x :: a', y :: b' => f x y + sum2 f a' b' | _, _ => 0 end.
Fixpoint sum3 {A B C} (f : A -> B -> C -> R) (a : list A) (b : list B) (c : list C) : R :=
  match a, b, c with x :: a', y :: b', z :: c' => f x y z + sum3 f a' b' c' | _, _, _ => 0 end.
