(** * Specification vocabulary for the normalizer. *)
From Coq Require Import Reals String Bool Arith List Permutation.
From Verif Require Import Prelude M_Norm.
Import ListNotations.
Local Open Scope nat_scope.

(** Arithmetic mean and population standard deviation. *)
Definition mean (l : list R) : R := (fold_right Rplus 0 l / INR (length l))%R.
Definition deviation (l : list R) : R := sqrt (mean (map (fun x => Rsqr (x - mean l)) l)).
(** All values of feature [f]. *)
Definition values (f : nat) (a : list (list (list R))) : list R := map (fun row => nth f row 0%R) (concat a).
(** Every row has [F] features. *)
Definition regular (F : nat) (a : list (list (list R))) : Prop := Forall (Forall (fun row => length row = F)) a.
(** A tree of arrays with the given names and numbers of features and [bs] sequences of at least one time step. *)
Definition shaped (sh : list (string * nat)) (bs : nat) (x : tree) : Prop :=
  Forall2 (fun (kl : string * leaf) (kf : string * nat) => fst kl = fst kf /\ l_ndim (snd kl) = 3 /\ length (l_data (snd kl)) = bs /\
    regular (snd kf) (l_data (snd kl)) /\ Forall (fun s => s <> []) (l_data (snd kl))) x sh.
(** [b] consists of sequences at [n] different positions of [a]. *)
Definition chosen {A} (n : nat) (a b : list A) : Prop :=
  exists ps, length ps = n /\ NoDup ps /\ Forall2 (fun i s => nth_error a i = Some s) ps b.
(** The keys with which the generator is called. *)
Fixpoint keys {Key} (split : Key -> Key * Key) (n : nat) (k : Key) : list Key :=
  match n with 0 => [] | S n => snd (split k) :: keys split n (fst (split k)) end.
(** The data of the leaf number [j] of a tree. *)
Definition leaf_data (x : tree) (j : nat) : list (list (list R)) := match nth_error x j with Some kl => l_data (snd kl) | None => [] end.
(** The feature [f] of every row has been shifted by [m f] and divided by [d f]. *)
Definition rescaled (F : nat) (m d : nat -> R) (a b : list (list (list R))) : Prop :=
  Forall2 (Forall2 (fun row row' => length row' = F /\ forall f, f < F -> nth f row' 0%R = ((nth f row 0 - m f) / d f)%R)) a b.
