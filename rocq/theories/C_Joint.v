(** * C13, C14: changing joint types *)
From Coq Require Import String ZArith Lia Bool List.
From Verif Require Import Prelude M_Sys S_Sys P_Scan P_Sys M_Compose P_Delete P_Delete2 P_Update X_Toy.
Import ListNotations.
Local Open Scope Z_scope.

Section JointClaims.
Context {K L G O : Type}.
Variable W : widths.
Variable ops : parse_ops K L G.
Hypothesis laws : ops_laws ops.
Variable registered has_init : string -> bool.
Variable reload : System K L G O -> result (System K L G O).
Implicit Type s : System K L G O.

(** C13.  After a successful change_joint_type (of a joint without own parameters) the views of all
    links other than [name] are the old ones, the named link has the new type and the given or default
    arrays, and tree, geometries and settings are untouched. *)
Theorem C13_change_local_partial s vs name typ na nd ns nz s' :
  parsed W ops s -> views W s vs ->
  change_joint_type W ops registered has_init reload s name typ na nd ns nz = Ok s' ->
  has_init typ = false ->
  exists qn dn, qW W typ = Some qn /\ dW W typ = Some dn /\ parsed W ops s' /\ same_frame s s' /\
    views W s' (map (at_name name (changed_view ops typ qn dn na nd ns nz)) vs).
Proof. exact (change_joint_type_correct W ops laws registered has_init reload s vs name typ na nd ns nz s'). Qed.

(** C13.  It succeeds for every registered type whose given arrays have the right sizes, as long as the
    zeropoint of a joint with a quaternion starts with a unit quaternion. *)
Theorem C13_change_total s vs name typ na nd ns nz qn dn :
  parsed W ops s -> views W s vs -> vs <> [] ->
  qW W typ = Some qn -> dW W typ = Some dn -> registered typ = true -> has_init typ = false ->
  (forall a, In (Some a) [na; nd; ns] -> length a = dn) -> (forall z, nz = Some z -> length z = qn) ->
  (is_free_or_cor_or_spherical typ = true ->
     forall v, unit_quat_ok ops (firstn 4 (v_zeropoint (changed_view ops typ qn dn na nd ns nz (O := O) v))) = true) ->
  exists s', change_joint_type W ops registered has_init reload s name typ na nd ns nz = Ok s' /\
    parsed W ops s' /\ same_frame s s' /\ views W s' (map (at_name name (changed_view ops typ qn dn na nd ns nz)) vs).
Proof. exact (change_joint_type_total W ops laws registered has_init reload s vs name typ na nd ns nz qn dn). Qed.

(** C13.  Freezing. *)
Theorem C13_freeze s vs name :
  parsed W ops s -> views W s vs -> vs <> [] -> qW W "frozen" = Some 0%nat -> dW W "frozen" = Some 0%nat ->
  exists s', freeze W ops s name = Ok s' /\ parsed W ops s' /\ same_frame s s' /\
             views W s' (map (at_name name frozen_view) vs).
Proof. exact (freeze_correct W ops laws s vs name). Qed.

(** C13.  Unfreezing needs an existing frozen link and a target type other than frozen, and is then a
    change with default arrays. *)
Theorem C13_unfreeze s vs name typ s' :
  parsed W ops s -> views W s vs -> has_init typ = false ->
  unfreeze W ops registered has_init reload s name typ = Ok s' ->
  typ <> "frozen"%string /\
  (exists i, nth_error (link_names s) i = Some name /\ nth_error (link_types s) i = Some "frozen"%string) /\
  exists qn dn, qW W typ = Some qn /\ dW W typ = Some dn /\ parsed W ops s' /\ same_frame s s' /\
    views W s' (map (at_name name (changed_view ops typ qn dn None None None None)) vs).
Proof.
  intros PD V HI H. unfold unfreeze in H. apply bind_Ok in H. destruct H as (i & H1 & H).
  apply bind_Ok in H. destruct H as (t & H2 & H). apply bind_Ok in H. destruct H as (u & H3 & H).
  apply bind_Ok in H. destruct H as (u' & H4 & H).
  unfold assert_ in H3, H4. destruct (String.eqb_spec t "frozen") as [->|]; [|discriminate].
  destruct (String.eqb_spec typ "frozen") as [->|NF]; [discriminate|]. split; auto. split.
  - exists i. apply indexS_spec in H1. destruct H1 as [X _]. apply py_get_nonneg in H2; [|lia].
    rewrite Nat2Z.id in H2. auto.
  - exact (C13_change_local_partial s vs name typ None None None None s' PD V H HI).
Qed.

Theorem C13_unfreeze_rejects s name typ :
  wf W s ->
  (~ In name (link_names s) -> unfreeze W ops registered has_init reload s name typ = Err EValue) /\
  (forall i t, nth_error (link_names s) i = Some name -> nth_error (link_types s) i = Some t ->
     t <> "frozen"%string \/ typ = "frozen"%string ->
     unfreeze W ops registered has_init reload s name typ = Err EAssertion).
Proof.
  intros WF. split.
  - intros H. unfold unfreeze, name_to_idx. rewrite indexS_not_In by auto. reflexivity.
  - intros i t Hi Ht HC. unfold unfreeze, name_to_idx.
    rewrite (proj2 (indexS_NoDup name _ i (wf_unique _ _ WF)) Hi). cbn [bind].
    rewrite (proj2 (py_get_nonneg (link_types s) (Z.of_nat i) t ltac:(lia))) by (rewrite Nat2Z.id; auto). cbn [bind].
    destruct (String.eqb_spec t "frozen") as [->|]; [|reflexivity]. cbn [assert_ bind].
    destruct HC as [HC | ->]; [congruence|]. reflexivity.
Qed.

(** C13 is false as stated: for every system, an unknown name is silently ignored by freeze and
    change_joint_type. *)
Theorem C13_unknown_name_refuted s name typ na nd ns nz qn dn :
  parsed W ops s -> (0 < num_links s)%nat -> ~ In name (link_names s) ->
  qW W "frozen" = Some 0%nat -> dW W "frozen" = Some 0%nat ->
  qW W typ = Some qn -> dW W typ = Some dn -> registered typ = true -> has_init typ = false ->
  freeze W ops s name = Ok s /\
  change_joint_type W ops registered has_init reload s name typ na nd ns nz = Ok s.
Proof.
  intros. split; [eapply freeze_unknown_name; eauto|eapply change_unknown_name; eauto].
Qed.

(** C14.  Replacing free by cor joints succeeds exactly when the free joints are the world
    connections. *)
Theorem C14_cor s vs :
  qW W "free" = Some 7%nat /\ dW W "free" = Some 6%nat -> qW W "cor" = Some 10%nat /\ dW W "cor" = Some 9%nat ->
  parsed W ops s -> views W s vs -> vs <> [] ->
  ((forall i p t, nth_error (link_parents s) i = Some p -> nth_error (link_types s) i = Some t ->
       (p = -1 <-> t = "free"%string)) ->
     exists s', replace_free_with_cor W ops s = Ok s' /\ parsed W ops s' /\ same_frame s s' /\
                views W s' (map cor_view vs)) /\
  (~ (forall i p t, nth_error (link_parents s) i = Some p -> nth_error (link_types s) i = Some t ->
       (p = -1 <-> t = "free"%string)) ->
     replace_free_with_cor W ops s = Err EInvalidSystem).
Proof.
  intros Wf Wc PD V NE. pose proof (cor_compatible_spec s (wf_types _ _ (pd_wf _ _ _ PD))) as C. split; intros H.
  - apply (cor_correct W ops laws); auto. apply C, H.
  - apply cor_incompatible. destruct (cor_compatible s) eqn:E; auto. exfalso. apply H. now apply C.
Qed.

End JointClaims.
Print Assumptions C13_change_local_partial.
Print Assumptions C13_change_total.
Print Assumptions C13_freeze.
Print Assumptions C13_unfreeze.
Print Assumptions C13_unfreeze_rejects.
Print Assumptions C13_unknown_name_refuted.
Print Assumptions C14_cor.

Definition toy_registered (t : string) : bool := match qW builtin_widths t with Some _ => true | None => false end.

Example C13_instance :
  match change_joint_type builtin_widths toy_ops toy_registered (fun _ => false) (fun s => Ok s) toy "seg2" "spherical"
          None (Some [7; 8; 9]%nat) None None with
  | Ok s' => (link_types s', link_damping s', link_spring_zeropoint s')
      = (["free"; "spherical"; "frozen"; "frozen"; "spherical"]%string, [0; 1; 2; 3; 4; 5; 7; 8; 9; 7; 8; 9]%nat,
         [1; 0; 0; 0; 5; 6; 7; 1; 0; 0; 0; 1; 0; 0; 0]%nat)
  | Err _ => False
  end.
Proof. vm_compute. reflexivity. Qed.

Example C13_instance_unfreeze :
  match unfreeze builtin_widths toy_ops toy_registered (fun _ => false) (fun s => Ok s) toy "imu1" "px" with
  | Ok s' => link_damping s' = [0; 1; 2; 3; 4; 5; 6; 0; 7; 8; 9]%nat
  | Err _ => False
  end.
Proof. vm_compute. reflexivity. Qed.

Example C13_unknown_instance :
  freeze builtin_widths toy_ops toy "no such link" = Ok toy.
Proof. vm_compute. reflexivity. Qed.

(** A registered joint type whose name starts with "spherical" gets no identity quaternion as default
    zeropoint, so changing to it without an explicit zeropoint fails. *)
Definition widths_plus : widths :=
  mkW (fun t => if String.eqb t "spherical_x" then Some 4%nat else qW builtin_widths t)
      (fun t => if String.eqb t "spherical_x" then Some 3%nat else dW builtin_widths t).
Theorem C13_default_zeropoint_refuted :
  parsed widths_plus toy_ops toy /\
  change_joint_type widths_plus toy_ops (fun _ => true) (fun _ => false) (fun s => Ok s) toy "seg2" "spherical_x"
    None None None None = Err EAssertion.
Proof. split; [parsed_by_compute toy_laws|vm_compute; reflexivity]. Qed.
Print Assumptions C13_default_zeropoint_refuted.

Definition toy_free : System nat (nat * nat) nat unit :=
  mkSys [-1; 0] [(10, 0); (11, 0)]%nat ["free"; "ry"]%string (seq 0 7) (seq 20 7) (seq 40 7)
    ([1; 0; 0; 0; 5; 6; 7; 8]%nat) 1%nat [] [0; 0; 9]%nat "e" 0 ["a"; "b"]%string None [tt; tt].
Example C14_instance :
  parsed builtin_widths toy_ops toy_free /\
  match replace_free_with_cor builtin_widths toy_ops toy_free with
  | Ok s' => (link_types s', link_damping s', link_spring_zeropoint s')
      = (["cor"; "ry"]%string, [0; 1; 2; 3; 4; 5; 3; 4; 5; 6]%nat, [1; 0; 0; 0; 5; 6; 7; 5; 6; 7; 8]%nat)
  | Err _ => False
  end.
Proof. split; [parsed_by_compute toy_laws|vm_compute; reflexivity]. Qed.
