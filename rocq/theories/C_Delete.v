(** * C03, C04, C08: deleting links, removing IMUs *)
From Coq Require Import String ZArith Lia Bool List.
From Verif Require Import Prelude M_Sys S_Sys P_Scan P_Sys M_Compose P_Delete P_Delete2 P_Inject X_Toy.
Import ListNotations.
Local Open Scope Z_scope.

Section DeleteClaims.
Context {K L G O : Type}.
Variable W : widths.
Variable ops : parse_ops K L G.
Hypothesis laws : ops_laws ops.
Implicit Type s : System K L G O.

(** C03.  The links of the result are exactly those that are neither named nor below a named link,
    in their old order. *)
Theorem C03_delete_exact s s' names (strict : bool) :
  parsed W ops s -> delete_subsystem W ops s names strict = Ok s' ->
  exists keep, increasing keep /\ (forall i, In i keep <-> survives s names i) /\
    picks keep (link_names s) (link_names s') /\
    (strict = true -> forall nm, In nm names -> In nm (link_names s)).
Proof.
  intros PD H. destruct (delete_list_restricts W ops laws names s s' strict PD H) as (keep & PD' & R & KS & ST).
  exists keep. split; [apply (rs_increasing _ _ _ _ R)|]. split; auto. split; auto.
  apply (restricts_names _ _ _ _ R).
Qed.

(** C03.  Deleting succeeds whenever a link survives; with [strict] all names must occur and no named
    link may lie below an earlier named one. *)
Theorem C03_delete_total s names :
  parsed W ops s -> (exists i, survives s names i) ->
  (exists s', delete_subsystem W ops s names false = Ok s') /\
  ((forall nm, In nm names -> In nm (link_names s)) ->
   (forall a b na nb ka kb, (a < b)%nat -> nth_error names a = Some na -> nth_error names b = Some nb ->
      nth_error (link_names s) ka = Some na -> nth_error (link_names s) kb = Some nb ->
      ~ descends (link_parents s) ka kb) ->
   exists s', delete_subsystem W ops s names true = Ok s').
Proof.
  intros PD HS. split; [apply (delete_nonstrict_total W ops laws); auto|].
  intros A B. apply (delete_strict_total W ops laws); auto.
Qed.

(** C03.  An unknown name is an error with [strict] and ignored without. *)
Theorem C03_delete_unknown s name :
  ~ In name (link_names s) ->
  delete_subsystem W ops s [name] true = Err EAssertion /\ delete_subsystem W ops s [name] false = Ok s.
Proof.
  intros H. unfold delete_subsystem. cbn [foldM]. unfold delete_one_nonstrict.
  rewrite (delete_one_missing W ops s name H). auto.
Qed.

(** C03.  Deleting the last links is a ValueError (nothing to concatenate), with or without [strict]. *)
Theorem C03_delete_everything_raises s name k (strict : bool) :
  parsed W ops s -> nth_error (link_names s) k = Some name ->
  (forall i, (i < num_links s)%nat -> descends (link_parents s) k i) ->
  delete_subsystem W ops s [name] strict = Err EValue.
Proof.
  intros PD Hk HA. destruct (delete_one_parsed W ops laws s name k PD Hk) as (KS & HE & _).
  assert (E : delete_one W ops s name = Err EValue).
  { apply HE. destruct (keepers _ _) as [|i r] eqn:E; auto. exfalso.
    destruct (proj1 (KS i) (or_introl eq_refl)) as [A B]. auto. }
  unfold delete_subsystem. destruct strict; cbn [foldM]; [|unfold delete_one_nonstrict]; rewrite E; reflexivity.
Qed.

(** C04.  Survivors keep their data, parents (up to renumbering), geometries; global settings stay;
    geometries of the world are not covered (refuted below). *)
Theorem C04_delete_preserves_partial s s' names (strict : bool) :
  parsed W ops s -> delete_subsystem W ops s names strict = Ok s' ->
  exists keep, (forall i, In i keep <-> survives s names i) /\ restricts W s s' keep /\ parsed W ops s'.
Proof.
  intros PD H. destruct (delete_list_restricts W ops laws names s s' strict PD H) as (keep & PD' & R & KS & ST).
  eauto.
Qed.

(** C04.  World geometries are always lost by a deletion that finds its link. *)
Theorem C04_world_geometries_refuted s s' names :
  parsed W ops s -> names <> [] -> delete_subsystem W ops s names true = Ok s' ->
  attached (-1) (geoms s') = [].
Proof. intros PD NE H. exact (delete_list_world W ops laws names s s' PD NE H). Qed.

(** C08.  When make_sys_noimu returns, no remaining link is an IMU, exactly the non-descendants of IMUs
    remain with their data, and the dictionary maps each IMU to the link it was attached to. *)
Theorem C08_noimu_partial s s' att :
  parsed W ops s -> make_sys_noimu W ops s None = Ok (s', att) ->
  (forall n, In n (link_names s') -> is_imu_name n = false) /\
  (exists keep, restricts W s s' keep /\
     forall i, In i keep <-> ((i < num_links s)%nat /\
        forall k n, nth_error (link_names s) k = Some n -> is_imu_name n = true -> ~ descends (link_parents s) k i)) /\
  map fst att = filter is_imu_name (link_names s) /\
  (forall n p, In (n, p) att -> exists i j, nth_error (link_names s) i = Some n /\
      nth_error (link_parents s) i = Some (Z.of_nat j) /\ nth_error (link_names s) j = Some p).
Proof.
  intros PD H. unfold make_sys_noimu in H. cbn zeta in H.
  apply bind_Ok in H. destruct H as (att0 & Hb & H). apply bind_Ok in H. destruct H as (s1 & Hb0 & H).
  assert (s1 = s' /\ att0 = att) as [-> ->] by (split; congruence). clear H.
  pose proof (pd_wf _ _ _ PD) as WF.
  destruct (delete_list_restricts W ops laws _ s _ true PD Hb0) as (keep & PD' & R & KS & ST).
  assert (KI : forall i, In i keep <-> ((i < num_links s)%nat /\
        forall k n, nth_error (link_names s) k = Some n -> is_imu_name n = true -> ~ descends (link_parents s) k i)).
  { intros i. rewrite KS. unfold survives. split; intros [A B]; split; auto.
    - intros k n Hk Hi. apply (B k n); auto. apply filter_In. split; auto. eapply nth_error_In; eauto.
    - intros k n Hn Hk. apply filter_In in Hn. apply (B k n); tauto. }
  apply mapM_Ok_iff in Hb. split; [|split; [eauto|split]].
  - intros n Hn. destruct (is_imu_name n) eqn:E; auto. exfalso.
    apply In_nth_error in Hn. destruct Hn as [m Hm].
    destruct (Forall2_nth_r _ _ _ _ _ (restricts_names _ _ _ _ R) Hm) as (i & A & B).
    apply nth_error_In in A. apply KI in A. destruct A as [A C]. apply (C i n B E). constructor.
  - change (filter is_imu_name (link_names s)) with (findall_imus s). clear - Hb. revert Hb.
    generalize (findall_imus s) as l. intros l Hb. induction Hb as [|n [n' p] l l' E _ IH]; auto.
    apply bind_Ok in E. destruct E as (q & _ & E). simpl. congruence.
  - intros n p Hin. apply In_nth_error in Hin. destruct Hin as [i Hi].
    destruct (Forall2_nth_r _ _ _ _ _ Hb Hi) as (n' & A & B). cbv beta in B.
    apply bind_Ok in B. destruct B as (p' & B1 & B2). assert (n' = n /\ p' = p) as [-> ->] by (split; congruence).
    unfold parent_name in B1. apply bind_Ok in B1. destruct B1 as (a & A1 & B1).
    apply bind_Ok in B1. destruct B1 as (z & A2 & B1). unfold name_to_idx in A1.
    apply indexS_spec in A1. destruct A1 as [X _]. apply py_get_nonneg in A2; [|lia]. rewrite Nat2Z.id in A2.
    unfold idx_to_name in B1. cbn [andb] in B1. apply bind_Ok in B1. destruct B1 as ([] & A3 & B1).
    unfold assert_ in A3. destruct (0 <=? z) eqn:Ez; [|discriminate].
    apply Z.leb_le in Ez. apply py_get_nonneg in B1; auto.
    exists a, (Z.to_nat z). rewrite Z2Nat.id by auto. auto.
Qed.

(** C08.  It succeeds when every IMU hangs below a link, no IMU hangs below another IMU, and some link
    remains. *)
Theorem C08_noimu_total s :
  parsed W ops s ->
  (forall i n, nth_error (link_names s) i = Some n -> is_imu_name n = true ->
     exists j, nth_error (link_parents s) i = Some (Z.of_nat j)) ->
  (forall i j n m, nth_error (link_names s) i = Some n -> is_imu_name n = true ->
     nth_error (link_names s) j = Some m -> is_imu_name m = true -> i <> j -> ~ descends (link_parents s) i j) ->
  (0 < num_links s)%nat ->
  exists s' att, make_sys_noimu W ops s None = Ok (s', att).
Proof.
  intros PD HP HD NZ. pose proof (pd_wf _ _ _ PD) as WF. unfold make_sys_noimu.
  assert (X : exists att, mapM (fun n => do p <- parent_name s n; Ok (n, p)) (findall_imus s) = Ok att).
  { assert (S0 : forall n, In n (findall_imus s) -> In n (link_names s) /\ is_imu_name n = true)
      by (intros n; apply filter_In).
    induction (findall_imus s) as [|n l IH]; [exists []; reflexivity|].
    destruct IH as [att E]; [intros; apply S0; now right|]. cbn [mapM].
    destruct (S0 n (or_introl eq_refl)) as [A B]. apply In_nth_error in A. destruct A as [i Hi].
    destruct (HP i n Hi B) as [j Hj].
    assert (Lj : (j < i)%nat) by (pose proof (wf_topo _ _ WF i _ Hj); lia).
    destruct (nth_error (link_names s) j) as [p|] eqn:Ep.
    2:{ apply nth_error_None in Ep. assert (i < length (link_names s))%nat by (apply nth_error_Some; congruence). lia. }
    assert (PN : parent_name s n = Ok p).
    { unfold parent_name, name_to_idx. rewrite (proj2 (indexS_NoDup n _ i (wf_unique _ _ WF)) Hi). cbn [bind].
      rewrite (proj2 (py_get_nonneg _ (Z.of_nat i) (Z.of_nat j) ltac:(lia))) by (rewrite Nat2Z.id; auto). cbn [bind].
      unfold idx_to_name. cbn [andb]. replace (0 <=? Z.of_nat j) with true by (symmetry; apply Z.leb_le; lia).
      cbn [assert_ bind]. apply py_get_nonneg; [lia|]. rewrite Nat2Z.id. auto. }
    rewrite PN. cbn [bind]. rewrite E. cbn [bind]. eauto. }
  destruct X as [att ->]. cbn [bind].
  destruct (delete_strict_total W ops laws (findall_imus s) s PD) as (s' & E).
  - (* the root of link 0 survives: link 0 is attached to the world, hence not an IMU *)
    exists 0%nat. split; auto. intros k nm Hn Hk Hd. apply filter_In in Hn. destruct Hn as [_ Hi].
    assert (k = 0%nat).
    { inversion Hd as [|? p Hp Hd']; auto. pose proof (wf_topo _ _ WF 0%nat _ Hp). lia. }
    subst k. destruct (HP 0%nat nm Hk Hi) as [j Hj]. pose proof (wf_topo _ _ WF 0%nat _ Hj). lia.
  - intros nm Hn. apply filter_In in Hn. tauto.
  - intros a b na nb ka kb Hab Ha Hb Hka Hkb.
    pose proof (nth_error_In _ _ Ha) as Ia. pose proof (nth_error_In _ _ Hb) as Ib.
    apply filter_In in Ia. apply filter_In in Ib. apply (HD ka kb na nb); try tauto. intros ->.
    assert (na = nb) by congruence. subst nb.
    assert (ND : NoDup (findall_imus s)) by (apply NoDup_filter, (wf_unique _ _ WF)).
    pose proof (NoDup_nth_error_inj _ _ _ _ ND Ha Hb). lia.
  - rewrite E. cbn [bind]. eauto.
Qed.

End DeleteClaims.
Print Assumptions C03_delete_exact.
Print Assumptions C03_delete_total.
Print Assumptions C03_delete_unknown.
Print Assumptions C03_delete_everything_raises.
Print Assumptions C04_delete_preserves_partial.
Print Assumptions C04_world_geometries_refuted.
Print Assumptions C08_noimu_partial.
Print Assumptions C08_noimu_total.

(** ** Concrete cases *)
Example C03_instance :
  match delete_subsystem builtin_widths toy_ops toy ["seg2"; "seg3"]%string true with
  | Ok s' => (link_names s', link_parents s', link_types s', link_damping s', geoms s')
             = (["seg1"; "imu1"]%string, [-1; 0], ["free"; "frozen"]%string, seq 0 6, [(0, 1%nat); (0, 2%nat)])
  | Err _ => False
  end.
Proof. vm_compute. reflexivity. Qed.

(** C04 is false as stated: the floor attached to the world disappears when an unrelated link is deleted. *)
Theorem C04_floor_lost_refuted :
  exists (s s' : System nat (nat * nat) nat unit), parsed builtin_widths toy_ops s /\
    delete_subsystem builtin_widths toy_ops s ["imu1"%string] true = Ok s' /\
    attached (-1) (geoms s) = [77%nat] /\ attached (-1) (geoms s') = [].
Proof.
  exists toy_floor. eexists. split; [exact toy_floor_parsed|]. split; [vm_compute; reflexivity|].
  split; vm_compute; reflexivity.
Qed.
Print Assumptions C04_floor_lost_refuted.

Example C08_instance :
  match make_sys_noimu builtin_widths toy_ops toy None with
  | Ok (s', att) => link_names s' = ["seg1"; "seg2"; "seg3"]%string /\ att = [("imu2", "seg2"); ("imu1", "seg1")]%string
  | Err _ => False
  end.
Proof. vm_compute. auto. Qed.

(** C08 is false as stated: it raises for an IMU attached to the world and for an IMU below an IMU. *)
Definition imu_on_world : System nat (nat * nat) nat unit :=
  mkSys [-1; -1] [(1, 0); (2, 0)]%nat ["rx"; "frozen"]%string [0%nat] [0%nat] [0%nat] [0%nat] 1%nat [] [0; 0; 9]%nat
    "e" 0 ["seg"; "imu"]%string None [tt; tt].
Definition imu_below_imu : System nat (nat * nat) nat unit :=
  mkSys [-1; 0; 1] [(1, 0); (2, 0); (3, 0)]%nat ["rx"; "frozen"; "frozen"]%string [0%nat] [0%nat] [0%nat] [0%nat] 1%nat []
    [0; 0; 9]%nat "e" 0 ["seg"; "imu1"; "imu2"]%string None [tt; tt; tt].

Theorem C08_noimu_raises_refuted :
  parsed builtin_widths toy_ops imu_on_world /\ parsed builtin_widths toy_ops imu_below_imu /\
  make_sys_noimu builtin_widths toy_ops imu_on_world None = Err EAssertion /\
  make_sys_noimu builtin_widths toy_ops imu_below_imu None = Err EAssertion.
Proof.
  split; [parsed_by_compute toy_laws|]. split; [parsed_by_compute toy_laws|]. split; vm_compute; reflexivity.
Qed.
Print Assumptions C08_noimu_raises_refuted.
