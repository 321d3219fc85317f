(** * Specification vocabulary for re-rooting and morphing. *)
From Coq Require Import String ZArith List.
From Verif Require Import Prelude M_Sys S_Sys.
Import ListNotations.
Local Open Scope Z_scope.

(** [np] is the parent array of the tree [lam] hung up at link [a]: [a] is a root; every proper
    ancestor [i] of [a] now has as parent its child [c] on the path to [a]; all others are unchanged. *)
Definition rerooted (lam : list Z) (a : nat) (np : list Z) : Prop :=
  length np = length lam /\ nth_error np a = Some (-1) /\
  forall i, (i < length lam)%nat -> i <> a ->
    (descends lam i a ->
       exists c, nth_error lam c = Some (Z.of_nat i) /\ descends lam c a /\ nth_error np i = Some (Z.of_nat c)) /\
    (~ descends lam i a -> nth_error np i = nth_error lam i).

(** All links hang below one root. *)
Definition connected (lam : list Z) : Prop :=
  exists r, forall i, (i < length lam)%nat -> descends lam r i.

(** Following the requested parents from link [i] one arrives at the world. *)
Inductive hangs (np : list Z) : nat -> Prop :=
| hangs_root i : nth_error np i = Some (-1) -> hangs np i
| hangs_step i p : nth_error np i = Some (Z.of_nat p) -> hangs np p -> hangs np i.

(** Links are numbered depth first: the parent of a link is the world, the link before it, or an
    ancestor of the link before it. *)
Definition depth_first (lam : list Z) : Prop :=
  forall i p, nth_error lam (S i) = Some (Z.of_nat p) -> descends lam p i.
