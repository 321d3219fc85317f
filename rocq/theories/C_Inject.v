(** * C05, C06: injecting a system, and deleting it again *)
From Coq Require Import String ZArith Lia Bool List.
From Verif Require Import Prelude M_Sys S_Sys P_Scan P_Sys M_Compose P_Delete P_Delete2 P_Inject X_Toy.
Import ListNotations.
Local Open Scope Z_scope.

(** [at_index s at nw]: the attachment point [at] (None = world) has link index [nw]. *)
Definition at_index {K L G O} (s : System K L G O) (at_body : option string) (nw : Z) : Prop :=
  match at_body with
  | None => nw = -1
  | Some b => exists i, nth_error (link_names s) i = Some b /\ nw = Z.of_nat i
  end.

Section InjectClaims.
Context {K L G O : Type}.
Variable W : widths.
Variable ops : parse_ops K L G.
Hypothesis laws : ops_laws ops.
Variable pad : list L -> L -> L.
Hypothesis plaws : pad_laws ops pad.
Implicit Types s sub : System K L G O.

Lemma at_index_world s at_body nw : wf W s -> (at_index s at_body nw <-> world_index s at_body = Some nw).
Proof.
  intros WF. destruct at_body as [b|]; simpl.
  - split.
    + intros (i & Hi & ->). rewrite (proj2 (indexS_NoDup b _ i (wf_unique _ _ WF)) Hi). reflexivity.
    + intros H. destruct (indexS b (link_names s)) as [i|] eqn:E; [|discriminate]. injection H as <-.
      apply indexS_NoDup in E; [|apply WF]. eauto.
  - split; [intros ->; auto|congruence].
Qed.

(** C05.  Success happens exactly when the attachment point exists and no name clashes; the result is
    the host followed by a re-indexed copy of the injected system ([injected]), again well formed. *)
Theorem C05_inject s sub at_body nw :
  parsed W ops s -> parsed W ops sub -> at_index s at_body nw ->
  (forall n, In n (link_names s) -> ~ In n (link_names sub)) ->
  exists s', inject_system W ops pad s sub at_body = Ok s' /\ parsed W ops s' /\
    injected W ops pad s sub nw s' /\ link_names s' = link_names s ++ link_names sub.
Proof.
  intros PS PB HA DJ. apply at_index_world in HA; [|apply PS].
  destruct (inject_total W ops pad laws plaws s sub at_body nw PS PB HA DJ) as (s' & E & P & I).
  exists s'. split; auto. split; auto. split; auto. eapply injected_names; eauto.
Qed.

Theorem C05_inject_rejects s sub at_body :
  parsed W ops s -> parsed W ops sub ->
  (forall nw, at_index s at_body nw -> forall n, In n (link_names s) -> In n (link_names sub) ->
     inject_system W ops pad s sub at_body = Err EAssertion) /\
  (forall b, ~ In b (link_names s) -> inject_system W ops pad s sub (Some b) = Err EValue).
Proof.
  intros PS PB. split.
  - intros nw HA n H1 H2. apply at_index_world in HA; [|apply PS].
    eapply inject_rejects_clash; eauto; [apply PS|apply PB].
  - intros b Hb. now apply inject_missing_body.
Qed.

(** C06.  Deleting the injected roots returns exactly the host, when the host has no geometries on the
    world, those of the injected system do not end up on a host link, and injecting added no joint
    parameters to the host's links. *)
Theorem C06_delete_undoes_inject_partial s sub at_body s' :
  parsed W ops s -> parsed W ops sub -> (0 < num_links s)%nat -> (0 < num_links sub)%nat ->
  inject_system W ops pad s sub at_body = Ok s' ->
  (forall l, In l (links s) -> pad (links sub) l = l) ->
  attached (-1) (geoms s) = [] ->
  (at_body = None \/ attached (-1) (geoms sub) = []) ->
  delete_subsystem W ops s' (root_names sub) true = Ok s.
Proof. exact (delete_inject W ops pad laws plaws s sub at_body s'). Qed.

End InjectClaims.
Print Assumptions C05_inject.
Print Assumptions C05_inject_rejects.
Print Assumptions C06_delete_undoes_inject_partial.

Example C05_instance :
  match inject_system builtin_widths toy_ops toy_pad toy toy_sub (Some "seg2"%string) with
  | Ok s' => (link_names s', link_parents s')
             = (["seg1"; "seg2"; "imu2"; "imu1"; "seg3"; "subA"; "subB"; "subC"]%string, [-1; 0; 1; 0; -1; 1; 5; 1])
  | Err _ => False
  end.
Proof. vm_compute. reflexivity. Qed.

Example C05_instance_applies :
  exists s', inject_system builtin_widths toy_ops toy_pad toy toy_sub (Some "seg2"%string) = Ok s' /\
    parsed builtin_widths toy_ops s' /\ injected builtin_widths toy_ops toy_pad toy toy_sub 1 s' /\
    delete_subsystem builtin_widths toy_ops s' (root_names toy_sub) true = Ok toy.
Proof.
  destruct (C05_inject builtin_widths toy_ops toy_laws toy_pad toy_pad_laws toy toy_sub (Some "seg2"%string) 1) as (s' & E & P & I & _).
  - exact toy_parsed.
  - exact toy_sub_parsed.
  - exists 1%nat. auto.
  - intros n H1 H2. simpl in H1, H2. intuition congruence.
  - exists s'. split; auto. split; auto. split; auto.
    apply (C06_delete_undoes_inject_partial builtin_widths toy_ops toy_laws toy_pad toy_pad_laws toy toy_sub (Some "seg2"%string)); auto.
    + exact toy_parsed.
    + exact toy_sub_parsed.
    + vm_compute. lia.
    + vm_compute. lia.
Qed.

(** C06 is false as stated: a host with a floor does not come back, and an injected system with a floor
    leaves it on the link it was attached to. *)
Theorem C06_floor_refuted :
  (exists s1 s2, inject_system builtin_widths toy_ops toy_pad toy_floor toy_sub None = Ok s1 /\
     delete_subsystem builtin_widths toy_ops s1 (root_names toy_sub) true = Ok s2 /\ s2 <> toy_floor) /\
  (exists sub s1 s2, parsed builtin_widths toy_ops sub /\
     inject_system builtin_widths toy_ops toy_pad toy sub (Some "seg1"%string) = Ok s1 /\
     delete_subsystem builtin_widths toy_ops s1 (root_names sub) true = Ok s2 /\ s2 <> toy).
Proof.
  split.
  - eexists. eexists. split; [vm_compute; reflexivity|]. split; [vm_compute; reflexivity|]. vm_compute. discriminate.
  - exists (set_links_geoms toy_sub (links toy_sub) ((-1, 77%nat) :: geoms toy_sub)).
    eexists. eexists. split; [parsed_by_compute toy_laws|]. split; [vm_compute; reflexivity|].
    split; [vm_compute; reflexivity|]. vm_compute. discriminate.
Qed.
Print Assumptions C06_floor_refuted.
