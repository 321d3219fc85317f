(** * A small concrete system used by the examples beside the theorems. *)
From Coq Require Import String ZArith Lia Bool List.
From Verif Require Import Prelude M_Sys S_Sys P_Sys M_Compose.
Import ListNotations.
Local Open Scope Z_scope.

(** Scalars and payloads are numbers; a link carries (payload, inertia), the inertia being the sum
    of its geometries. *)
Definition toy_ops : parse_ops nat (nat * nat) nat :=
  mkOps 0%nat 1%nat (fun q => match q with x :: r => (x =? 1)%nat && forallb (Nat.eqb 0) r | [] => false end)
        (fun l => negb (fst l =? 99)%nat) (fun gs l => (fst l, list_sum gs)).

Lemma toy_laws : ops_laws toy_ops.
Proof.
  constructor; auto. intros r. simpl. apply forallb_forall. intros x Hx. apply repeat_spec in Hx. now subst.
Qed.

Definition toy_pad (_ : list (nat * nat)) (l : nat * nat) : nat * nat := l.
Lemma toy_pad_laws : pad_laws toy_ops toy_pad.
Proof. constructor; auto. Qed.

Notation toy_system := (System nat (nat * nat) nat unit).

(** World - seg1 (free) - { seg2 (hinge) - imu2 (frozen), imu1 (frozen) }; seg3 (spherical) on the world. *)
Definition toy : toy_system :=
  mkSys [-1; 0; 1; 0; -1] [(10, 3); (11, 4); (12, 0); (13, 0); (14, 9)]%nat
    ["free"; "ry"; "frozen"; "frozen"; "spherical"]%string
    (seq 0 10) (seq 20 10) (seq 40 10) ([1; 0; 0; 0; 5; 6; 7; 8; 1; 0; 0; 0]%nat) 1%nat
    [(0, 1%nat); (0, 2%nat); (1, 4%nat); (4, 9%nat)] [0; 0; 9]%nat "semi_implicit_euler" 0
    ["seg1"; "seg2"; "imu2"; "imu1"; "seg3"]%string (Some "toy"%string) [tt; tt; tt; tt; tt].

Definition topob (ps : list Z) : bool := forallb (fun ip => (-1 <=? snd ip) && (snd ip <? Z.of_nat (fst ip))) (enum ps).
Lemma topob_topo ps : topob ps = true -> topo ps.
Proof.
  unfold topob, topo, enum. intros H i p Hi. rewrite forallb_forall in H.
  specialize (H (i, p)). assert (I : In (i, p) (enum_from 0 ps)).
  { apply (nth_error_In _ i). rewrite nth_error_enum_from, Hi. reflexivity. }
  apply H in I. apply andb_true_iff in I. destruct I as [A B]. apply Z.leb_le in A. apply Z.ltb_lt in B. simpl in *. lia.
Qed.

Ltac parsed_by_compute laws :=
  match goal with |- parsed ?W ?ops ?s =>
    apply (parse_parsed W ops laws s s); [vm_compute; reflexivity | apply topob_topo; vm_compute; reflexivity] end.

Lemma toy_parsed : parsed builtin_widths toy_ops toy.
Proof. parsed_by_compute toy_laws. Qed.

(** The same system with a geometry on the world (the floor). *)
Definition toy_floor : toy_system := set_links_geoms toy (links toy) ((-1, 77%nat) :: geoms toy).
Lemma toy_floor_parsed : parsed builtin_widths toy_ops toy_floor.
Proof. parsed_by_compute toy_laws. Qed.

(** A subsystem with two roots. *)
Definition toy_sub : toy_system :=
  mkSys [-1; 0; -1] [(20, 5); (21, 0); (22, 0)]%nat ["rx"; "rz"; "free"]%string
    (seq 60 8) (seq 70 8) (seq 80 8) ([3; 4; 1; 0; 0; 0; 7; 8; 9]%nat) 2%nat
    [(0, 5%nat)] [0; 0; 8]%nat "semi_implicit_euler" 0
    ["subA"; "subB"; "subC"]%string None [tt; tt; tt].
Lemma toy_sub_parsed : parsed builtin_widths toy_ops toy_sub.
Proof. parsed_by_compute toy_laws. Qed.
