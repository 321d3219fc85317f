(** * Specification: interpolation between knots, and admissible random generators. *)
From Coq Require Import Reals Lra Lia List Permutation.
From Verif Require Import M_Random.
Import ListNotations.
Local Open Scope R_scope.

(** The value [v] lies between [a] and [b], in either order. *)
Definition between (a b v : R) : Prop := Rmin a b <= v <= Rmax a b.
(** Times never decrease. *)
Definition ascending (xp : list R) : Prop := forall i j, (i <= j < length xp)%nat -> nth i xp 0 <= nth j xp 0.

(** [f] interpolates the values [fp] given at the times [xp] without overshooting:
    - at a time given once (or, of several rows with the same time, in the last one) it has the given value;
    - from one time to the next it moves monotonically from the one value to the other, taking every value in between;
    - after the last time it keeps the last value. *)
Record interpolates (xp fp : list R) (f : R -> R) : Prop := {
  ip_knot : forall k, (k < length xp)%nat -> (forall j, (k < j < length xp)%nat -> nth k xp 0 < nth j xp 0) ->
    f (nth k xp 0) = nth k fp 0;
  ip_between : forall k x, (S k < length xp)%nat -> nth k xp 0 <= x < nth (S k) xp 0 -> between (nth k fp 0) (nth (S k) fp 0) (f x);
  ip_towards : forall k x y, (S k < length xp)%nat -> nth k xp 0 <= x -> x < y -> y < nth (S k) xp 0 ->
    (nth k fp 0 < nth (S k) fp 0 -> f x < f y) /\ (nth (S k) fp 0 < nth k fp 0 -> f y < f x);
  ip_onto : forall k v, (S k < length xp)%nat -> nth k xp 0 < nth (S k) xp 0 -> between (nth k fp 0) (nth (S k) fp 0) v -> v <> nth (S k) fp 0 ->
    exists x, nth k xp 0 <= x < nth (S k) xp 0 /\ f x = v;
  ip_after : forall x, nth (length xp - 1) xp 0 <= x -> f x = nth (length xp - 1) fp 0
}.

(** What jax.random promises: draws from [0, 1), arrays of the right length, permutations, integers in the range. *)
Record fair {K} (g : rng K) : Prop := {
  fair_unif : forall k, 0 <= r_unif g k < 1;
  fair_units : forall k n, length (r_units g k n) = n /\ Forall (fun u => 0 <= u < 1) (r_units g k n);
  fair_perm : forall k l, Permutation l (r_perm g k l);
  fair_int : forall k lo hi, (lo < hi -> lo <= r_int g k lo hi < hi)%nat
}.
