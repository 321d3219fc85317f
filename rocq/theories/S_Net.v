(** * Specification vocabulary for the layers of the networks. *)
From Coq Require Import Reals List.
From Verif Require Import Prelude M_Net.
Import ListNotations.
Local Open Scope R_scope.

(** All entries lie between -B and B. *)
Definition within (B : R) (v : vec) : Prop := Forall (fun x => Rabs x <= B) v.
(** At most L entries, all between -B and B. *)
Definition small (L : nat) (B : R) (v : vec) : Prop := (length v <= L)%nat /\ within B v.
(** Bounded inputs give bounded outputs. *)
Definition tame (f : vec -> vec) : Prop := forall L B, exists L' B', forall v, small L B v -> small L' B' (f v).
(** The state of one cell: the hidden part lies between -1 and 1; the memory of an LSTM between -K and K. *)
Definition cell_state (h : nat) (K : R) (c : cell) (v : vec) : Prop :=
  match c with
  | Gru _ => length v = h /\ within 1 v
  | Lstm _ => length v = (h * 2)%nat /\ within 1 (firstn h v) /\ within K (skipn h v)
  end.
(** The same for all cells of a link. *)
Definition link_state (w : ring_net) (K : R) (s : list vec) : Prop :=
  Forall2 (fun c v => cell_state (hidden_dim w) K (fst c) v) (cells w) s.
