(** * Specification vocabulary for training data on disk. *)
From Coq Require Import String Ascii Bool Arith List.
From Verif Require Import Prelude M_Rcmg M_Disk.
Import ListNotations.
Local Open Scope string_scope.
Local Open Scope list_scope.
Local Open Scope nat_scope.

(** The file of the k-th sequence: the prefix, the number in decimal digits, and ".pickle". *)
Definition file_of (prefix : string) (k : nat) : string := (prefix ++ str_nat k ++ ".pickle")%string.
Definition no_dot (s : string) : Prop := ~ In "."%char (list_ascii_of_string s).

Section Spec.
Context {A : Type}.
Variable isnan : A -> bool.
(** The file holds the sequence, completely. *)
Definition stored (d : disk A) (n : string) (a : A) : Prop := dget String.eqb d n = Some (Whole a).
Definition same_file (d d' : disk A) (n : string) : Prop := dget String.eqb d n = dget String.eqb d' n.
(** [out] stands for [x] from the data [data]: a sequence with values that are not numbers is replaced by another one. *)
Definition stands_for (data : list A) (x out : A) : Prop := isnan out = false /\ (isnan x = false -> out = x) /\ In out data.
End Spec.
(** A listing names every file of the folder once, in some order. *)
Definition lists {A} (d : disk A) (l : list string) : Prop := NoDup l /\ forall n, In n l <-> exists c, dget String.eqb d n = Some c.
