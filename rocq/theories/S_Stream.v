(** * Specification: random streams.
    Keys are idealised: a key is the path of splits that leads to it from the seed, so that no two different splits give
    the same key (for the keys of jax.random this holds up to collisions).  What is drawn with a key is left open. *)
From Coq Require Import Reals Lia ZArith Bool String List.
From Verif Require Import Prelude M_Random M_Draw.
Import ListNotations.

(** The last split comes first: [(n, j) :: k] is part [j] of the [n] parts of [k]. *)
Definition path : Type := list (nat * nat).
Definition splits (g : rng path) : Prop := forall k n j, r_split g k n j = (n, j) :: k.
(** [k'] is [k] or comes from [k] by splitting. *)
Definition below (k k' : path) : Prop := exists p, k' = p ++ k.
(** Two generators draw the same with a key. *)
Record same_at (g g' : rng path) (k : path) : Prop := {
  sa_unif : r_unif g k = r_unif g' k;
  sa_units : forall n, r_units g k n = r_units g' k n;
  sa_coin : r_coin g k = r_coin g' k;
  sa_int : forall lo hi, r_int g k lo hi = r_int g' k lo hi;
  sa_perm : forall l, r_perm g k l = r_perm g' k l
}.
(** Two generators draw the same with every key of a stream, i.e. with every key below one of the keys of a set. *)
Definition stream : Type := path -> Prop.
Definition under (k : path) : stream := fun k' => below k k'.
Definition same_on (g g' : rng path) (A : stream) : Prop := forall k, A k -> same_at g g' k.
Definition disjoint (A B : stream) : Prop := forall k, ~ (A k /\ B k).

(** Streams numbered by [I] that have no key in common. *)
Definition apart {I} (own : I -> stream) : Prop := forall i j, i <> j -> disjoint (own i) (own j).
(** A random function draws only with its key and with keys split off from it. *)
Definition local {A B} (f : rng path -> path -> A -> B) : Prop :=
  forall g g' k a, splits g -> splits g' -> same_on g g' (under k) -> f g k a = f g' k a.
(** The same for tables of functions: drawing trajectories with two keys, drawing joint parameters with one. *)
Definition local_draws {P} (draws : rng path -> string -> option (option (draw_fn (K := path) P))) : Prop :=
  forall g g' typ, splits g -> splits g' ->
  match draws g typ, draws g' typ with
  | None, None | Some None, Some None => True
  | Some (Some f), Some (Some f') => forall c kt kv dt N p, same_on g g' (under kt) -> same_on g g' (under kv) -> f c kt kv dt N p = f' c kt kv dt N p
  | _, _ => False end.
Definition local_inits {P} (inits : rng path -> string -> option (option (path -> P))) : Prop :=
  forall g g' typ, splits g -> splits g' ->
  match inits g typ, inits g' typ with
  | None, None | Some None, Some None => True
  | Some (Some f), Some (Some f') => forall k, same_on g g' (under k) -> f k = f' k
  | _, _ => False end.
