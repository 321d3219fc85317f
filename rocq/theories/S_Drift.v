(** * Specification vocabulary for C94: errors of orientations along a chain of links. *)
From Coq Require Import Reals String ZArith List.
From Verif Require Import Prelude M_Sys M_Math.
Import ListNotations.
Local Open Scope R_scope.

(** The angle by which one has to turn to get from one orientation to the other, in [0, pi]. *)
Definition turn (p q : quat) : R := 2 * acos (Rabs (qdot p q)).
(** The links from link [i] up to the world, [i] first. *)
Inductive chain {K L G O} (s : System K L G O) : nat -> list nat -> Prop :=
| chain_root i : nth_error (link_parents s) i = Some (-1)%Z -> chain s i [i]
| chain_up i p l : nth_error (link_parents s) i = Some (Z.of_nat p) -> chain s p l -> chain s i (i :: l).
Definition sum (l : list R) : R := fold_right Rplus 0 l.
(** The training target of a link: its orientation if it is connected to the world, else the turn from it to its parent. *)
Definition target {K L G O} (s : System K L G O) (trow : list transform) (i : nat) (q : quat) : Prop :=
  (nth_error (link_parents s) i = Some (-1)%Z /\ exists x, nth_error trow i = Some x /\ q = t_rot x) \/
  (exists p x y, nth_error (link_parents s) i = Some (Z.of_nat p) /\ nth_error trow i = Some x /\ nth_error trow p = Some y /\
     q = qmul (t_rot y) (qinv (t_rot x))).
(** [e i] bounds the error that training measures for link [i] at time [k]. *)
Definition predicted_within {K L G O} (s : System K L G O) (trow : list transform) (yhat : list (string * list quat)) (k : nat) (e : nat -> R) : Prop :=
  forall i nm, nth_error (link_names s) i = Some nm ->
    exists qs qhat q, dget String.eqb yhat nm = Some qs /\ nth_error qs k = Some qhat /\ target s trow i q /\ angle_error q qhat <= e i.
