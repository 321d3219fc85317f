(** * Proofs about inject_system (C05) and delete after inject (C06). *)
From Coq Require Import String ZArith Lia Bool FinFun List.
From Verif Require Import Prelude M_Sys M_Compose S_Sys P_Scan P_Sys P_Delete P_Delete2.
Import ListNotations.
Local Open Scope Z_scope.

Section Inject.
Context {K L G O : Type}.
Variable W : widths.
Variable ops : parse_ops K L G.
Variable pad : list L -> L -> L.
Hypothesis laws : ops_laws ops.
Hypothesis plaws : pad_laws ops pad.
Implicit Type s sub : System K L G O.
Notation view := (link_view K L O).

Definition pre_inject s sub nw : System K L G O :=
  let np := new_parent (num_links s) nw in
  mkSys (link_parents s ++ map np (link_parents sub))
        (map (pad (links sub)) (links s) ++ map (pad (links s)) (links sub))
        (link_types s ++ link_types sub)
        (link_damping s ++ link_damping sub) (link_armature s ++ link_armature sub)
        (link_spring_stiffness s ++ link_spring_stiffness sub)
        (link_spring_zeropoint s ++ link_spring_zeropoint sub)
        (sys_dt s) (geoms s ++ map (fun g => (np (fst g), snd g)) (geoms sub)) (gravity s)
        (integration_method s) (mass_mat_iters s) (link_names s ++ link_names sub) (model_name s)
        (omc s ++ omc sub).

Definition pad_view o (v : view) : view := set_v_link v (pad o (v_link v)).

Lemma have_widths_app w a b wa wb : have_widths w a wa -> have_widths w b wb -> have_widths w (a ++ b) (wa ++ wb).
Proof. apply Forall2_app. Qed.

Lemma splits_app {V} wa wb (xa xb : list V) pa pb :
  splits wa xa pa -> splits wb xb pb -> splits (wa ++ wb) (xa ++ xb) (pa ++ pb).
Proof. intros [<- <-] [<- <-]. split; [apply map_app | apply concat_app]. Qed.

Lemma pre_inject_views s sub nw vs vsub : views W s vs -> views W sub vsub ->
  views W (pre_inject s sub nw) (map (pad_view (links sub)) vs ++ map (pad_view (links s)) vsub).
Proof.
  intros (A1 & A2 & A3 & A4 & A5 & qs & ds & Q & D & A6 & A7 & A8 & A9)
         (B1 & B2 & B3 & B4 & B5 & qs' & ds' & Q' & D' & B6 & B7 & B8 & B9).
  unfold views, pre_inject; simpl. rewrite !map_app, !map_map. simpl.
  rewrite A1, A2, A4, B1, B2, B4.
  repeat split; auto.
  - rewrite A3, B3, !map_map. reflexivity.
  - rewrite !app_length, !map_length. congruence.
  - exists (qs ++ qs'), (ds ++ ds'). rewrite A2 in *. rewrite B2 in *.
    repeat (split; [first [apply have_widths_app; assumption | apply splits_app; assumption]|]).
    apply splits_app; assumption.
Qed.

Lemma attached_map_np N nw (gs : list (Z * G)) z : -1 <= nw < Z.of_nat N ->
  Forall (fun g => -1 <= fst g) gs ->
  attached z (map (fun g => (new_parent N nw (fst g), snd g)) gs) =
  if Z.eq_dec z nw then attached (-1) gs
  else if Z_le_dec (Z.of_nat N) z then attached (z - Z.of_nat N) gs else [].
Proof.
  intros Hnw F. induction F as [|[y g] r Hy F IH]; cbn [map attached fst snd] in *.
  - destruct (Z.eq_dec z nw), (Z_le_dec (Z.of_nat N) z); auto.
  - rewrite IH. unfold new_parent. destruct (Z.eqb_spec y (-1)) as [->|Ny]; cbn [negb].
    + destruct (Z.eq_dec nw z), (Z.eq_dec z nw), (Z_le_dec (Z.of_nat N) z), (Z.eq_dec (-1) (z - Z.of_nat N)), (Z.eq_dec (-1) (-1)); auto; lia.
    + destruct (Z.eq_dec (y + Z.of_nat N) z), (Z.eq_dec z nw), (Z_le_dec (Z.of_nat N) z), (Z.eq_dec y (z - Z.of_nat N)), (Z.eq_dec y (-1)); auto; lia.
Qed.

Lemma attached_out N (gs : list (Z * G)) z : Forall (fun g => -1 <= fst g < Z.of_nat N) gs ->
  Z.of_nat N <= z -> attached z gs = [].
Proof.
  intros F Hz. induction F as [|[y g] r Hy F IH]; simpl in *; auto. destruct (Z.eq_dec y z); [lia|auto].
Qed.

Lemma new_parent_topo s sub nw : topo (link_parents s) -> topo (link_parents sub) ->
  -1 <= nw < Z.of_nat (num_links s) ->
  topo (link_parents s ++ map (new_parent (num_links s) nw) (link_parents sub)).
Proof.
  intros T T' Hnw i p Hi. unfold num_links in *.
  destruct (Nat.lt_ge_cases i (length (link_parents s))) as [Hl|Hl].
  - rewrite nth_error_app1 in Hi by auto. now apply T.
  - rewrite nth_error_app2 in Hi by auto. rewrite nth_error_map in Hi.
    destruct (nth_error (link_parents sub) (i - length (link_parents s))) as [q|] eqn:E; [|discriminate].
    simpl in Hi. injection Hi as <-. apply T' in E. unfold new_parent.
    destruct (Z.eqb_spec q (-1)); simpl; lia.
Qed.

Definition world_index s (at_body : option string) : option Z :=
  match at_body with
  | None => Some (-1)
  | Some b => match indexS b (link_names s) with Ok i => Some (Z.of_nat i) | Err _ => None end
  end.

Lemma inject_unfold s sub at_body nw : world_index s at_body = Some nw ->
  inject_system W ops pad s sub at_body = parse W ops (pre_inject s sub nw).
Proof.
  unfold world_index, inject_system, name_to_idx. destruct at_body as [b|]; intros H.
  - destruct (indexS b (link_names s)); [|discriminate]. injection H as <-. reflexivity.
  - injection H as <-. reflexivity.
Qed.

Theorem inject_total s sub at_body nw :
  parsed W ops s -> parsed W ops sub -> world_index s at_body = Some nw ->
  (forall n, In n (link_names s) -> ~ In n (link_names sub)) ->
  exists s', inject_system W ops pad s sub at_body = Ok s' /\ parsed W ops s' /\ injected W ops pad s sub nw s'.
Proof.
  intros PS PB HW DJ. rewrite (inject_unfold _ _ _ _ HW).
  pose proof (pd_wf _ _ _ PS) as WS. pose proof (pd_wf _ _ _ PB) as WB.
  destruct (pd_valid _ _ _ PS) as (vs & V & FV). destruct (pd_valid _ _ _ PB) as (vsub & VB & FB).
  destruct (views_lengths _ _ _ V) as (L1 & L2 & L3 & L4 & L5).
  destruct (views_lengths _ _ _ VB) as (M1 & M2 & M3 & M4 & M5).
  assert (Hnw : -1 <= nw < Z.of_nat (num_links s)).
  { destruct at_body as [b|]; simpl in HW.
    - destruct (indexS b (link_names s)) as [i|] eqn:E; [|discriminate]. injection HW as <-.
      apply indexS_spec in E. destruct E as [E _]. assert (i < length (link_names s))%nat by (apply nth_error_Some; congruence). lia.
    - injection HW as <-. lia. }
  pose proof (pre_inject_views s sub nw vs vsub V VB) as VP.
  set (N := num_links s) in *.
  assert (FG : Forall (fun g => -1 <= fst g < Z.of_nat N) (geoms s)) by apply (wf_geoms _ _ WS).
  assert (FGB : Forall (fun g => -1 <= fst g < Z.of_nat (num_links sub)) (geoms sub)) by apply (wf_geoms _ _ WB).
  assert (FGB' : Forall (fun g => -1 <= fst g) (geoms sub)).
  { eapply Forall_impl; [|exact FGB]. intros g Hg. cbv beta in Hg. lia. }
  assert (PP : parse W ops (pre_inject s sub nw) = Ok (parse_post ops (pre_inject s sub nw))).
  { apply parse_iff. split; auto. split; [|split].
    - simpl. apply NoDup_nth_error. intros i j Hi E.
      destruct (nth_error (link_names s ++ link_names sub) i) as [x|] eqn:Ei; [|apply nth_error_None in Ei; lia].
      symmetry in E.
      pose proof (wf_unique _ _ WS) as U1. pose proof (wf_unique _ _ WB) as U2.
      destruct (Nat.lt_ge_cases i (length (link_names s))) as [Hi1|Hi1],
               (Nat.lt_ge_cases j (length (link_names s))) as [Hj1|Hj1].
      + rewrite nth_error_app1 in Ei, E by auto. exact (NoDup_nth_error_inj _ _ _ _ U1 Ei E).
      + rewrite nth_error_app1 in Ei by auto. rewrite nth_error_app2 in E by auto.
        exfalso. apply (DJ x); eapply nth_error_In; eauto.
      + rewrite nth_error_app2 in Ei by auto. rewrite nth_error_app1 in E by auto.
        exfalso. apply (DJ x); eapply nth_error_In; eauto.
      + rewrite nth_error_app2 in Ei, E by auto.
        pose proof (NoDup_nth_error_inj _ _ _ _ U2 Ei E). lia.
    - unfold num_links; simpl. rewrite app_length, map_length. fold (num_links s) (num_links sub). fold N.
      apply Forall_app. split.
      + eapply Forall_impl; [|exact FG]. intros g Hg. cbv beta in Hg. lia.
      + apply Forall_map. eapply Forall_impl; [|exact FGB]. intros g Hg. cbv beta in Hg. simpl. unfold new_parent.
        destruct (Z.eqb_spec (fst g) (-1)); simpl; lia.
    - eexists. split; [exact VP|]. apply Forall_app. split.
      + apply Forall_map. eapply Forall_impl; [|exact FV]. intros v [X Y]. split; [|exact Y]. cbn [pad_view set_v_link v_link]. rewrite (pl_pos _ _ plaws). auto.
      + apply Forall_map. eapply Forall_impl; [|exact FB]. intros v [X Y]. split; [|exact Y]. cbn [pad_view set_v_link v_link]. rewrite (pl_pos _ _ plaws). auto. }
  exists (parse_post ops (pre_inject s sub nw)). split; auto.
  split.
  { eapply parse_parsed; eauto. simpl. apply new_parent_topo; auto; apply wf_topo with (W := W); auto. }
  assert (AT : forall z, attached z (geoms (pre_inject s sub nw)) = attached z (geoms s) ++
      (if Z.eq_dec z nw then attached (-1) (geoms sub)
       else if Z_le_dec (Z.of_nat N) z then attached (z - Z.of_nat N) (geoms sub) else [])).
  { intros z. simpl. rewrite attached_app, attached_map_np; auto. }
  constructor.
  - simpl. f_equal. apply map_ext. intros p. unfold new_parent.
    destruct (Z.eqb_spec p (-1)), (Z.eq_dec p (-1)); simpl; auto; lia.
  - exists vs, vsub, (inertia_views ops (geoms (pre_inject s sub nw)) (map (pad_view (links sub)) vs ++ map (pad_view (links s)) vsub)).
    split; auto. split; auto. split; [apply parse_post_views; auto|].
    unfold inertia_views, enum. split.
    { rewrite map_length, length_enum_from, app_length, !map_length. auto. }
    split.
    + intros i v Hi. rewrite nth_error_map, nth_error_enum_from.
      rewrite nth_error_app1 by (rewrite map_length; apply nth_error_Some; congruence).
      rewrite nth_error_map, Hi. simpl. eexists. split; [reflexivity|]. simpl.
      split; [repeat split; auto|]. rewrite attached_sort. auto.
    + intros j v Hj. rewrite nth_error_map, nth_error_enum_from.
      rewrite nth_error_app2 by (rewrite map_length; lia). rewrite map_length.
      replace (length vs + j - length vs)%nat with j by lia.
      rewrite nth_error_map, Hj. simpl. eexists. split; [reflexivity|]. split; [repeat split; auto|].
      cbn [set_v_link v_link]. rewrite (pl_inertia _ _ plaws). f_equal.
      change (geoms s ++ map (fun g : Z * G => (new_parent N nw (fst g), snd g)) (geoms sub)) with (geoms (pre_inject s sub nw)).
      rewrite AT. rewrite (attached_out N) by (auto; lia). simpl.
      assert (Lj : (j < length vsub)%nat) by (apply nth_error_Some; congruence).
      destruct (Z.eq_dec (Z.of_nat (length vs + j)) nw); [lia|].
      destruct (Z_le_dec (Z.of_nat N) (Z.of_nat (length vs + j))); [|lia].
      replace (Z.of_nat (length vs + j) - Z.of_nat N) with (Z.of_nat j) by lia.
      apply (pd_inertia _ _ _ PB). destruct VB as (_ & _ & B3 & _). rewrite B3, nth_error_map, Hj. reflexivity.
  - intros z Hz. fold (num_links s) in Hz. fold N in Hz. simpl. rewrite attached_sort.
    change (geoms s ++ map (fun g : Z * G => (new_parent N nw (fst g), snd g)) (geoms sub)) with (geoms (pre_inject s sub nw)).
    rewrite AT. destruct (Z.eq_dec z nw); auto. destruct (Z_le_dec (Z.of_nat N) z); auto. lia.
  - intros j Hj. fold (num_links s). fold N. simpl. rewrite attached_sort.
    change (geoms s ++ map (fun g : Z * G => (new_parent N nw (fst g), snd g)) (geoms sub)) with (geoms (pre_inject s sub nw)).
    rewrite AT. rewrite (attached_out N) by (auto; lia). simpl.
    destruct (Z.eq_dec (Z.of_nat N + j) nw); [lia|]. destruct (Z_le_dec (Z.of_nat N) (Z.of_nat N + j)); [|lia].
    f_equal. lia.
  - simpl. auto.
Qed.

Theorem inject_rejects_clash s sub at_body nw n :
  world_index s at_body = Some nw -> wf W s -> wf W sub ->
  In n (link_names s) -> In n (link_names sub) ->
  inject_system W ops pad s sub at_body = Err EAssertion.
Proof.
  intros HW WS WB H1 H2. rewrite (inject_unfold _ _ _ _ HW). unfold parse.
  assert (E1 : ((length (link_parents (pre_inject s sub nw)) =? length (link_types (pre_inject s sub nw))) &&
     (length (link_types (pre_inject s sub nw)) =? length (links (pre_inject s sub nw))))%nat = true).
  { simpl. rewrite !app_length, !map_length, (wf_types _ _ WS), (wf_types _ _ WB), (wf_links _ _ WS), (wf_links _ _ WB).
    rewrite !Nat.eqb_refl. reflexivity. }
  rewrite E1. cbn [assert_ bind].
  assert (E2 : (length (omc (pre_inject s sub nw)) =? num_links (pre_inject s sub nw))%nat = true).
  { unfold num_links; simpl. rewrite !app_length, !map_length, (wf_omc _ _ WS), (wf_omc _ _ WB). apply Nat.eqb_refl. }
  rewrite E2. cbn [assert_ bind].
  destruct (forallb _ (link_names (pre_inject s sub nw))) eqn:E3; [|reflexivity].
  exfalso. apply countS_NoDup in E3. simpl in E3.
  apply In_nth_error in H1. destruct H1 as [i Hi]. apply In_nth_error in H2. destruct H2 as [j Hj].
  assert (A : nth_error (link_names s ++ link_names sub) i = Some n).
  { rewrite nth_error_app1; auto. apply nth_error_Some. congruence. }
  assert (B : nth_error (link_names s ++ link_names sub) (length (link_names s) + j) = Some n).
  { rewrite nth_error_app2 by lia. rewrite <- Hj. f_equal. lia. }
  pose proof (NoDup_nth_error_inj _ _ _ _ E3 A B).
  assert (i < length (link_names s))%nat by (apply nth_error_Some; congruence). lia.
Qed.

Theorem inject_missing_body s sub b : ~ In b (link_names s) ->
  inject_system W ops pad s sub (Some b) = Err EValue.
Proof. intros H. unfold inject_system, name_to_idx. rewrite indexS_not_In by auto. reflexivity. Qed.

(** ** Delete after inject *)
Lemma in_root_names sub n : length (link_names sub) = num_links sub ->
  (In n (root_names sub) <-> exists j, nth_error (link_parents sub) j = Some (-1) /\ nth_error (link_names sub) j = Some n).
Proof.
  unfold root_names, num_links. generalize (link_names sub) as ns. generalize (link_parents sub) as ps. clear sub.
  induction ps as [|p ps IH]; intros [|m ns] Hl; simpl in *; try discriminate.
  - split; [tauto|]. intros ([|j] & H & _); discriminate.
  - injection Hl as Hl. specialize (IH ns Hl). destruct (Z.eqb_spec p (-1)) as [->|N]; simpl; rewrite IH.
    + split.
      * intros [->|(j & A & B)]; [exists 0%nat; auto|exists (S j); auto].
      * intros ([|j] & A & B); simpl in *; [left; congruence|right; eauto].
    + split.
      * intros (j & A & B). exists (S j); auto.
      * intros ([|j] & A & B); simpl in *; [congruence|eauto].
Qed.

(** every link descends from a root *)
Lemma root_exists parents i : topo parents -> (i < length parents)%nat ->
  exists r, nth_error parents r = Some (-1) /\ descends parents r i.
Proof.
  intros T. induction i as [i IH] using lt_wf_ind. intros Hi.
  destruct (nth_error parents i) as [p|] eqn:E; [|apply nth_error_None in E; lia].
  pose proof (T _ _ E) as Tp. destruct (Z.eq_dec p (-1)) as [->|N].
  - exists i. split; auto. constructor.
  - destruct (IH (Z.to_nat p)) as (r & Hr & D); try lia.
    exists r. split; auto. apply desc_step with (p := Z.to_nat p); auto. rewrite Z2Nat.id by lia. auto.
Qed.

Lemma injected_parent_sub s sub nw s' j p : injected W ops pad s sub nw s' ->
  nth_error (link_parents sub) j = Some p ->
  nth_error (link_parents s') (num_links s + j) = Some (if Z.eq_dec p (-1) then nw else p + Z.of_nat (num_links s)).
Proof.
  intros I H. rewrite (ij_parents _ _ _ _ _ _ _ I). unfold num_links.
  rewrite nth_error_app2 by lia. replace (length (link_parents s) + j - length (link_parents s))%nat with j by lia.
  rewrite nth_error_map, H. reflexivity.
Qed.

Lemma injected_parent_host s sub nw s' i : injected W ops pad s sub nw s' ->
  (i < num_links s)%nat -> nth_error (link_parents s') i = nth_error (link_parents s) i.
Proof. intros I H. rewrite (ij_parents _ _ _ _ _ _ _ I). now rewrite nth_error_app1. Qed.

(** Links of the host do not descend from injected links; injected links do from their root. *)
Lemma injected_desc_host s sub nw s' r i : injected W ops pad s sub nw s' -> topo (link_parents s') ->
  (i < num_links s)%nat -> ~ descends (link_parents s') (num_links s + r) i.
Proof. intros I T Hi D. apply topo_desc_le in D; auto. lia. Qed.

Lemma injected_desc_sub s sub nw s' r i : injected W ops pad s sub nw s' ->
  descends (link_parents sub) r i -> descends (link_parents s') (num_links s + r) (num_links s + i).
Proof.
  intros I D. induction D as [|i p Hp D IH]; [constructor|].
  apply desc_step with (p := (num_links s + p)%nat); auto.
  rewrite (injected_parent_sub _ _ _ _ _ _ I Hp). destruct (Z.eq_dec (Z.of_nat p) (-1)); [lia|]. f_equal. lia.
Qed.

Lemma injected_names s sub nw s' : injected W ops pad s sub nw s' -> link_names s' = link_names s ++ link_names sub.
Proof.
  intros I. destruct (ij_views _ _ _ _ _ _ _ I) as (vs & vsub & vs' & (A & _) & (B & _) & (C & _) & Len & H1 & H2).
  rewrite A, B, C. apply nth_error_ext. intros i. rewrite nth_error_map.
  destruct (Nat.lt_ge_cases i (length vs)) as [Hi|Hi].
  - rewrite nth_error_app1 by (now rewrite map_length). rewrite nth_error_map.
    destruct (nth_error vs i) as [v|] eqn:E; [|apply nth_error_None in E; lia].
    destruct (H1 _ _ E) as (v' & -> & (N & _) & _). simpl. now rewrite N.
  - rewrite nth_error_app2 by (now rewrite map_length). rewrite map_length, nth_error_map.
    destruct (nth_error vsub (i - length vs)) as [v|] eqn:E.
    + destruct (H2 _ _ E) as (v' & X & (N & _) & _). replace (length vs + (i - length vs))%nat with i in X by lia.
      rewrite X. simpl. now rewrite N.
    + apply nth_error_None in E. assert (X : nth_error vs' i = None) by (apply nth_error_None; lia). rewrite X. reflexivity.
Qed.

Lemma attached_low N (gs : list (Z * G)) z : Forall (fun g => -1 <= fst g < N) gs ->
  z < -1 -> attached z gs = [].
Proof.
  intros F Hz. induction F as [|[y g] r Hy F IH]; simpl in *; auto. destruct (Z.eq_dec y z); [lia|auto].
Qed.

(** Deleting anything drops all geometries of the world. *)
Lemma delete_list_world names : forall s s', parsed W ops s -> names <> [] ->
  delete_subsystem W ops s names true = Ok s' -> attached (-1) (geoms s') = [].
Proof.
  unfold delete_subsystem. induction names as [|nm names IH]; intros s s' PD NE H; [tauto|].
  cbn [foldM] in H. apply bind_Ok in H. destruct H as (s1 & H1 & H).
  destruct (in_dec string_dec nm (link_names s)) as [Hin|Hout];
    [|rewrite (delete_one_missing W ops s nm Hout) in H1; discriminate].
  apply In_nth_error in Hin. destruct Hin as [k Hk].
  destruct (delete_one_parsed W ops laws s nm k PD Hk) as (KS & HE & HN).
  destruct (keepers (num_links s) (find_subsystem_indices (link_parents s) k)) as [|x xs] eqn:EK.
  { rewrite HE in H1 by auto. discriminate. }
  destruct HN as (s2 & E2 & PD2 & R2 & X); [discriminate|].
  rewrite H1 in E2. injection E2 as <-. destruct names as [|n2 names].
  - cbn in H. injection H as <-. auto.
  - apply (IH s1 s'); auto. discriminate.
Qed.

(** Main: deleting the injected roots restores the host exactly, when the host carries no
    geometry on the world, the injected system carries none on its world unless it is put on the
    world, and no joint parameters had to be padded. *)
Theorem delete_inject s sub at_body s' :
  parsed W ops s -> parsed W ops sub -> (0 < num_links s)%nat -> (0 < num_links sub)%nat ->
  inject_system W ops pad s sub at_body = Ok s' ->
  (forall l, In l (links s) -> pad (links sub) l = l) ->
  attached (-1) (geoms s) = [] ->
  (at_body = None \/ attached (-1) (geoms sub) = []) ->
  delete_subsystem W ops s' (root_names sub) true = Ok s.
Proof.
  intros PS PB NZ NZB HI HP GW GS.
  pose proof (pd_wf _ _ _ PS) as WS. pose proof (pd_wf _ _ _ PB) as WB.
  assert (HW : exists nw, world_index s at_body = Some nw).
  { destruct at_body as [b|]; simpl; eauto. destruct (indexS b (link_names s)) eqn:E; eauto.
    unfold inject_system, name_to_idx in HI. rewrite E in HI. discriminate. }
  destruct HW as [nw HW].
  assert (DJ : forall n, In n (link_names s) -> ~ In n (link_names sub)).
  { intros n H1 H2. rewrite (inject_rejects_clash s sub at_body nw n HW WS WB H1 H2) in HI. discriminate. }
  destruct (inject_total s sub at_body nw PS PB HW DJ) as (s1 & E1 & PD1 & I).
  rewrite HI in E1. injection E1 as <-.
  pose proof (injected_names _ _ _ _ I) as EN.
  assert (T' := wf_topo _ _ (pd_wf _ _ _ PD1)).
  assert (Lsub : length (link_names sub) = num_links sub) by apply (wf_names _ _ WB).
  assert (Ls : length (link_names s) = num_links s) by apply (wf_names _ _ WS).
  assert (Nl : num_links s' = (num_links s + num_links sub)%nat).
  { unfold num_links. rewrite (ij_parents _ _ _ _ _ _ _ I), app_length, map_length. auto. }
  (* index of a root in s' *)
  assert (RI : forall n k, In n (root_names sub) -> nth_error (link_names s') k = Some n ->
     exists r, k = (num_links s + r)%nat /\ nth_error (link_parents sub) r = Some (-1)).
  { intros n k Hn Hk. apply (in_root_names sub n Lsub) in Hn. destruct Hn as (r & R1 & R2).
    exists r. split; auto. rewrite EN in Hk. pose proof (wf_unique _ _ (pd_wf _ _ _ PD1)) as U. rewrite EN in U.
    eapply NoDup_nth_error_inj; eauto. rewrite nth_error_app2 by lia. rewrite <- R2. f_equal. lia. }
  assert (SV : forall i, survives s' (root_names sub) i <-> (i < num_links s)%nat).
  { intros i. split.
    - intros [Hi S0]. destruct (Nat.lt_ge_cases i (num_links s)); auto. exfalso.
      destruct (root_exists (link_parents sub) (i - num_links s)) as (r & R1 & R2); [apply WB| |].
      { fold (num_links sub). lia. }
      assert (Lr : (r < num_links sub)%nat) by (apply nth_error_Some; congruence).
      destruct (nth_error (link_names sub) r) as [n|] eqn:En; [|apply nth_error_None in En; lia].
      apply (S0 (num_links s + r)%nat n).
      + apply (in_root_names sub n Lsub). eauto.
      + rewrite EN, nth_error_app2 by lia. rewrite <- En. f_equal. lia.
      + replace i with (num_links s + (i - num_links s))%nat by lia. eapply injected_desc_sub; eauto.
    - intros Hi. split; [lia|]. intros k n Hn Hk. destruct (RI n k Hn Hk) as (r & -> & _).
      eapply injected_desc_host; eauto. }
  assert (EX : exists s'', delete_subsystem W ops s' (root_names sub) true = Ok s'').
  { apply delete_strict_total; auto.
    - exists 0%nat. apply SV. auto.
    - intros n Hn. rewrite EN. apply in_or_app. right. apply (in_root_names sub n Lsub) in Hn.
      destruct Hn as (r & _ & R2). eapply nth_error_In; eauto.
    - intros a b na nb ka kb Hab Ha Hb Hka Hkb D.
      destruct (RI na ka) as (ra & -> & Ra); auto. { eapply nth_error_In; eauto. }
      destruct (RI nb kb) as (rb & -> & Rb); auto. { eapply nth_error_In; eauto. }
      (* a root of sub has parent nw < N in s' *)
      apply descends_inv in D. destruct D as [D|(p & Hp & D)].
      + assert (rb = ra) by lia. subst rb. rewrite Hka in Hkb. injection Hkb as ->.
        (* duplicate root name *)
        assert (NDr : NoDup (root_names sub)).
        { unfold root_names. pose proof (wf_unique _ _ WB) as U. clear -U Lsub. unfold num_links in Lsub.
          revert U Lsub. generalize (link_names sub) as ns. generalize (link_parents sub) as ps.
          induction ps as [|p ps IH]; intros [|m ns] U Hl; simpl in *; try discriminate; try constructor.
          inversion U; subst. destruct (p =? -1); simpl; auto. constructor; auto.
          intros X. apply in_map_iff in X. destruct X as ([q m'] & X1 & X2). simpl in X1. subst.
          apply filter_In in X2. destruct X2 as [X2 _]. apply in_combine_r in X2. auto. }
        assert (a = b) by (eapply NoDup_nth_error_inj; eauto). lia.
      + rewrite (injected_parent_sub _ _ _ _ _ _ I Rb) in Hp. destruct (Z.eq_dec (-1) (-1)); [|lia].
        injection Hp as Hp. apply topo_desc_le in D; auto.
        assert (nw < Z.of_nat (num_links s)).
        { destruct at_body as [bd|]; simpl in HW.
          - destruct (indexS bd (link_names s)) as [i|] eqn:E; [|discriminate]. injection HW as <-.
            apply indexS_spec in E. destruct E as [E _]. assert (i < length (link_names s))%nat by (apply nth_error_Some; congruence). lia.
          - injection HW as <-. lia. }
        lia. }
  destruct EX as [s'' EX]. rewrite EX. f_equal.
  destruct (delete_list_restricts W ops laws _ _ _ _ PD1 EX) as (keep & PD2 & R & KS & _).
  (* keep = seq 0 N *)
  assert (EK : keep = seq 0 (num_links s)).
  { assert (IC : forall k, increasing k -> (forall i, In i k <-> (i < num_links s)%nat) -> k = seq 0 (num_links s)).
    { clear. intros k Inc HI.
      assert (ND := increasing_NoDup _ Inc).
      assert (Len : length k = num_links s).
      { apply Nat.le_antisymm.
        - rewrite <- (seq_length (num_links s) 0). apply NoDup_incl_length; auto. intros x Hx. apply in_seq. apply HI in Hx. lia.
        - rewrite <- (seq_length (num_links s) 0) at 1. apply NoDup_incl_length; [apply seq_NoDup|]. intros x Hx. apply in_seq in Hx. apply HI. lia. }
      assert (X : forall m i, nth_error k m = Some i -> i = m).
      { intros m. induction m as [m IH] using lt_wf_ind. intros i Hm.
        assert (Lm : (m < length k)%nat) by (apply nth_error_Some; congruence).
        assert (m <= i)%nat.
        { destruct m; [lia|]. destruct (nth_error k m) as [j|] eqn:Ej; [|apply nth_error_None in Ej; lia].
          pose proof (IH m (Nat.lt_succ_diag_r m) j Ej). assert (m < S m)%nat by lia.
          pose proof (Inc _ _ _ _ H0 Ej Hm). lia. }
        destruct (Nat.eq_dec i m); auto. exfalso.
        assert (Hin : In m k) by (apply HI; lia). apply In_nth_error in Hin. destruct Hin as [a Ha].
        destruct (Nat.lt_trichotomy a m) as [La|[->|La]].
        - pose proof (IH a La m Ha). lia.
        - congruence.
        - pose proof (Inc _ _ _ _ La Hm Ha). lia. }
      apply nth_error_ext. intros m. destruct (nth_error k m) as [i|] eqn:E.
      - rewrite (X _ _ E). symmetry. apply nth_seq0. rewrite <- Len. apply nth_error_Some. congruence.
      - symmetry. apply nth_error_None. rewrite seq_length. apply nth_error_None in E. lia. }
    apply IC; [apply R|]. intros i. rewrite KS. apply SV. }
  subst keep.
  destruct (rs_views _ _ _ _ R) as (vs' & vs'' & V' & V'' & PV).
  destruct (ij_views _ _ _ _ _ _ _ I) as (vs & vsub & vs1 & V & VB & V1 & Len & H1 & H2).
  rewrite (views_unique _ _ _ _ V' V1) in *.
  destruct (views_lengths _ _ _ V) as (_ & _ & _ & _ & L5).
  assert (AH : forall i, (i < num_links s)%nat -> attached (Z.of_nat i) (geoms s') = attached (Z.of_nat i) (geoms s)).
  { intros i Hi. rewrite (ij_geoms_host _ _ _ _ _ _ _ I) by (fold (num_links s); lia).
    destruct (Z.eq_dec (Z.of_nat i) nw) as [E|]; [|apply app_nil_r].
    destruct GS as [->|GS]; [simpl in HW; injection HW as <-; lia|]. rewrite GS. apply app_nil_r. }
  assert (EV : vs'' = vs).
  { apply (picks_unique _ _ _ _ PV). apply Forall2_of_nth; [now rewrite seq_length|].
    intros m i v Hm Hv. apply nth_seq0_inv in Hm. destruct Hm as [-> Hm].
    destruct (H1 _ _ Hv) as (v' & -> & A & E). f_equal.
    rewrite (pl_inertia _ _ plaws), AH, (pd_inertia _ _ _ PS) in E by
      (auto; destruct V as (_ & _ & A3 & _); rewrite A3, nth_error_map, Hv; reflexivity).
    rewrite HP in E.
    - destruct A as (? & ? & ? & ? & ? & ? & ?). destruct v, v'; simpl in *; congruence.
    - destruct V as (_ & _ & A3 & _). rewrite A3. apply in_map. eapply nth_error_In; eauto. }
  subst vs''.
  destruct (rs_global _ _ _ _ R) as (g1 & g2 & g3 & g4 & g5). destruct (ij_global _ _ _ _ _ _ _ I) as (h1 & h2 & h3 & h4 & h5).
  apply (system_ext W _ _ vs); auto; try congruence.
  - apply nth_error_ext. intros i. destruct (Nat.lt_ge_cases i (num_links s)) as [Hi|Hi].
    + rewrite <- (injected_parent_host _ _ _ _ _ I Hi).
      pose proof (rs_parents _ _ _ _ R) as RP.
      destruct (Forall2_nth_l _ _ _ _ _ RP (nth_seq0 _ _ Hi)) as (p' & Hp' & p & Hp & S0).
      rewrite Hp, Hp'. f_equal. destruct S0 as [[-> ->]|(m & j & -> & -> & N)]; auto.
      apply nth_seq0_inv in N. destruct N as [-> _]. auto.
    + assert (X : nth_error (link_parents s'') i = None).
      { apply nth_error_None. fold (num_links s''). rewrite (restricts_num_links _ _ _ _ R), seq_length. auto. }
      rewrite X. symmetry. apply nth_error_None. auto.
  - apply sorted_unique; [apply PD2|apply PS|]. intros z.
    destruct (Z_lt_ge_dec z 0).
    + destruct (Z.eq_dec z (-1)) as [->|].
      * rewrite GW. apply (delete_list_world (root_names sub) s'); auto.
        destruct (root_exists (link_parents sub) 0) as (r & R1 & _); [apply WB|auto|].
        assert (Lr : (r < num_links sub)%nat) by (apply nth_error_Some; congruence).
        destruct (nth_error (link_names sub) r) as [n|] eqn:En; [|apply nth_error_None in En; lia].
        assert (X : In n (root_names sub)) by (apply (in_root_names sub n Lsub); eauto).
        intros E0. rewrite E0 in X. destruct X.
      * rewrite (attached_low _ _ z (wf_geoms _ _ WS)) by lia.
        apply (attached_low _ _ z (wf_geoms _ _ (pd_wf _ _ _ PD2))). lia.
    + destruct (Z_lt_ge_dec z (Z.of_nat (num_links s))).
      * replace z with (Z.of_nat (Z.to_nat z)) by lia.
        rewrite (rs_geoms _ _ _ _ R (Z.to_nat z) (Z.to_nat z)) by (apply nth_seq0; lia).
        apply AH. lia.
      * rewrite (attached_out (num_links s'')), (attached_out (num_links s)); auto.
        -- apply (wf_geoms _ _ WS).
        -- lia.
        -- apply (wf_geoms _ _ (pd_wf _ _ _ PD2)).
        -- rewrite (restricts_num_links _ _ _ _ R), seq_length. lia.
Qed.

End Inject.
