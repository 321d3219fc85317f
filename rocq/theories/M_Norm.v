(** * Model of src/ring/utils/normalizer.py.

    A tree of arrays is the list of its leaves with their names, in the order of JAX.  A leaf has its number of axes and its data:
    sequences, times, and the features of the remaining axes in one row.  Arithmetic is over the real numbers. *)
From Coq Require Import Reals String ZArith Bool Arith List.
From Verif Require Import Prelude M_TrainStep.
Import ListNotations.
Local Open Scope nat_scope.

Record leaf := mkLeaf { l_ndim : nat; l_data : list (list (list R)) }.
Definition tree := list (string * leaf).
(** Mean and standard deviation of every feature of every leaf. *)
Definition stats := list (string * (list R * list R)).

(** tree_utils.tree_ndim and tree_utils.tree_shape look at the first leaf. *)
Definition first_leaf (x : tree) : result leaf := match x with [] => Err EIndex | (_, l) :: _ => Ok l end.
(** math.ceil(n / bs) *)
Definition ceil_div (n bs : nat) : result nat := if bs =? 0 then Err EZeroDiv else Ok ((n + (bs - 1)) / bs).
Definition names_of {A} (x : list (string * A)) : list string := map fst x.
Fixpoint same_names (a b : list string) : bool :=
  match a, b with
  | [], [] => true
  | x :: a, y :: b => String.eqb x y && same_names a b
  | _, _ => false
  end.
(** jax.tree_map over two trees *)
Definition map2 {A B C} (f : A -> B -> C) (x : list (string * A)) (y : list (string * B)) : result (list (string * C)) :=
  if same_names (names_of x) (names_of y) then Ok (map (fun ab => (fst (fst ab), f (snd (fst ab)) (snd (snd ab)))) (combine x y))
  else Err EValue.
(** tree_utils.tree_batch(Xs, True): concatenation along the first axis *)
Definition join (a b : leaf) : leaf := mkLeaf (l_ndim a) (l_data a ++ l_data b).
Definition tree_batch (xs : list tree) : result tree := match xs with [] => Err EIndex | x :: r => foldM (map2 join) x r end.

Section Norm.
Context {Key : Type}.
Variable split : Key -> Key * Key.
Variable key0 : Key.
Variable generator : Key -> tree.
(** jax.random.permutation with the fixed key: the new order of [n] entries *)
Variable perm : nat -> list nat.

(** normalizer.py 35-38 *)
Fixpoint collect (n : nat) (key : Key) : list tree :=
  match n with 0 => [] | S n => let (key, consume) := split key in generator consume :: collect n key end.
(** normalizer.py 43 *)
Definition permute (l : leaf) : leaf := mkLeaf (l_ndim l) (map (fun i => nth i (l_data l) []) (perm (length (l_data l)))).
(** normalizer.py 44: lax.dynamic_slice refuses a slice that is too large. *)
Definition slice (n : nat) (l : leaf) : result leaf :=
  if n <=? length (l_data l) then Ok (mkLeaf (l_ndim l) (firstn n (l_data l))) else Err EType.
(** The sequences from which the statistics are computed: normalizer.py 24-44 *)
Definition sample (n : nat) : result tree :=
  do f <- first_leaf (generator key0);
  do _ <- assert_ (l_ndim f =? 3);
  do calls <- ceil_div n (length (l_data f));
  do xs <- tree_batch (collect calls key0);
  mapM (fun kl => do l <- slice n (permute (snd kl)); Ok (fst kl, l)) xs.

(** normalizer.py 47-48: statistics over sequences and times *)
Definition column (f : nat) (a : list (list (list R))) : list R := map (fun row => nth f row 0%R) (concat a).
Definition n_features (a : list (list (list R))) : nat := length (hd [] (hd [] a)).
Definition std (l : list R) : R := sqrt (rmean (map (fun x => ((x - rmean l) * (x - rmean l))%R) l)).
Definition leaf_stats (l : leaf) : list R * list R :=
  (map (fun f => rmean (column f (l_data l))) (seq 0 (n_features (l_data l))),
   map (fun f => std (column f (l_data l))) (seq 0 (n_features (l_data l)))).
Definition make_normalizer (n : nat) : result stats :=
  do xs <- sample n; Ok (map (fun kl => (fst kl, leaf_stats (snd kl))) xs).
End Norm.

(** normalizer.py 54-57.  Rows with another number of features are refused (JAX would still accept a single feature). *)
Definition eps : R := (1 / 10 ^ 8)%R.
Definition norm_row (s : list R * list R) (row : list R) : result (list R) :=
  if (length row =? length (fst s)) && (length row =? length (snd s))
  then Ok (map (fun xms => ((fst xms - fst (snd xms)) / (snd (snd xms) + eps))%R) (combine row (combine (fst s) (snd s))))
  else Err EType.
Definition norm_leaf (l : leaf) (s : list R * list R) : result leaf :=
  do d <- mapM (mapM (norm_row s)) (l_data l); Ok (mkLeaf (l_ndim l) d).
Definition normalizer (s : stats) (x : tree) : result tree :=
  do ys <- map2 norm_leaf x s;
  mapM (fun kr => do l <- snd kr; Ok (fst kr, l)) ys.
