(** * Proofs about joint-type updates (C13, C14). *)
From Coq Require Import String ZArith Lia Bool List.
From Verif Require Import Prelude M_Sys S_Sys P_Scan P_Sys P_Delete P_Delete2.
Import ListNotations.
Local Open Scope Z_scope.

Lemma sum_one_diff k : forall (l1 l2 : list nat), length l1 = length l2 ->
  (forall i, i <> k -> nth_error l1 i = nth_error l2 i) -> list_sum l1 = list_sum l2 -> l1 = l2.
Proof.
  induction k as [|k IH]; intros [|a l1] [|b l2] Hl H E; simpl in *; try discriminate; auto.
  - assert (l1 = l2).
    { apply nth_error_ext. intros i. apply (H (S i)). lia. }
    subst. f_equal. unfold list_sum in E. lia.
  - assert (a = b). { specialize (H 0%nat). simpl in H. assert (Some a = Some b) by (apply H; lia). congruence. }
    subst b. f_equal. apply IH; auto.
    + intros i Hi. apply (H (S i)). lia.
    + unfold list_sum in *. lia.
Qed.

Section Update.
Context {K L G O : Type}.
Variable W : widths.
Variable ops : parse_ops K L G.
Hypothesis laws : ops_laws ops.
Implicit Type s : System K L G O.
Notation view := (link_view K L O).

(** A view with a new joint type and new arrays. *)
Definition with_joint (v : view) (x : string * dasz) : view :=
  let '(t, (d, a, st, z)) := x in mkView (v_name v) t (v_link v) (v_omc v) d a st z.

Definition upd_view (logic : jlogic (K := K)) (v : view) : view :=
  with_joint v (logic (v_name v) (v_type v) (dasz_of v)).

(** What [update_joint_types] hands to parse. *)
Definition pre_update s (vs : list view) : System K L G O :=
  set_joint_arrays s (map v_type vs) (concat (map v_damping vs)) (concat (map v_armature vs))
    (concat (map v_stiffness vs)) (concat (map v_zeropoint vs)).

Lemma update_unfold s vs logic : views W s vs -> vs <> [] ->
  update_joint_types W ops s logic = parse W ops (pre_update s (map (upd_view logic) vs)).
Proof.
  intros V NE. unfold update_joint_types. destruct (views_lengths _ _ _ V) as (L1 & L2 & L3 & L4 & L5).
  rewrite L1, L3, Nat.eqb_refl. cbn [assert_ bind].
  rewrite (views_per_link_arrays W _ _ V). cbn [bind].
  destruct V as (A1 & A2 & _). rewrite A1, A2, !combine_map, !map_map. cbn [fst snd].
  assert (NM : forall {B} (f : view -> B), map f vs <> []) by (intros B f X; destruct vs; [auto|discriminate]).
  rewrite !concatenate_nonempty by apply NM. cbn [bind]. unfold pre_update. rewrite !map_map.
  assert (E1 : forall v, fst (logic (v_name v) (v_type v) (dasz_of v)) = v_type (upd_view logic v)).
  { intros v. unfold upd_view, with_joint. destruct (logic _ _ _) as [t [[[d a] st] z]]. reflexivity. }
  f_equal. f_equal.
  all: first [apply map_ext | f_equal; apply map_ext]; intros v; unfold upd_view, with_joint;
    destruct (logic _ _ _) as [t [[[d a] st] z]]; reflexivity.
Qed.

Lemma update_empty s logic : views W s [] -> update_joint_types W ops s logic = Err EValue.
Proof.
  intros V. unfold update_joint_types. destruct (views_lengths _ _ _ V) as (L1 & L2 & L3 & L4 & L5).
  rewrite L1, L3, Nat.eqb_refl. cbn [assert_ bind]. rewrite (views_per_link_arrays W _ _ V). cbn [bind map].
  destruct V as (A1 & A2 & _). rewrite A1, A2. reflexivity.
Qed.

(** Fields of the updated system that never change. *)

Lemma pre_update_post s vs vs2 : parsed W ops s -> views W s vs ->
  map v_link vs2 = map v_link vs -> 
  views W (pre_update s vs2) vs2 -> 
  views W (parse_post ops (pre_update s vs2)) vs2 /\ same_frame s (parse_post ops (pre_update s vs2)).
Proof.
  intros PD V EL V2. split.
  - pose proof (parse_post_views W ops _ _ V2) as VP. simpl in VP.
    assert (E : inertia_views ops (geoms s) vs2 = vs2).
    { apply nth_error_ext. intros i. unfold inertia_views, enum. rewrite nth_error_map, nth_error_enum_from.
      destruct (nth_error vs2 i) as [v|] eqn:Ev; simpl; auto. f_equal.
      assert (X : with_inertia ops (attached (Z.of_nat i) (geoms s)) (v_link v) = v_link v).
      { apply (pd_inertia _ _ _ PD). destruct V as (_ & _ & A3 & _). rewrite A3, <- EL, nth_error_map, Ev. reflexivity. }
      rewrite X. destruct v; reflexivity. }
    rewrite E in VP. exact VP.
  - unfold same_frame; simpl. rewrite sort_of_sorted by apply PD. repeat split; auto.
Qed.

Lemma pre_update_views s vs vs2 qs ds : views W s vs ->
  length vs2 = length vs -> map v_name vs2 = map v_name vs -> map v_link vs2 = map v_link vs -> map v_omc vs2 = map v_omc vs ->
  have_widths (qW W) (map v_type vs2) qs -> have_widths (dW W) (map v_type vs2) ds ->
  map (@length K) (map v_damping vs2) = ds -> map (@length K) (map v_armature vs2) = ds ->
  map (@length K) (map v_stiffness vs2) = ds -> map (@length K) (map v_zeropoint vs2) = qs ->
  views W (pre_update s vs2) vs2.
Proof.
  intros (A1 & A2 & A3 & A4 & A5 & _) Len E1 E3 E4 Q D D1 D2 D3 Q1.
  unfold views, pre_update; simpl. repeat split; try congruence.
  exists qs, ds. repeat (split; auto).
Qed.

(** *** Updates that succeed by construction *)
Theorem update_total s vs logic qs ds :
  parsed W ops s -> views W s vs -> vs <> [] ->
  let vs2 := map (upd_view logic) vs in
  have_widths (qW W) (map v_type vs2) qs -> have_widths (dW W) (map v_type vs2) ds ->
  map (@length K) (map v_damping vs2) = ds -> map (@length K) (map v_armature vs2) = ds ->
  map (@length K) (map v_stiffness vs2) = ds -> map (@length K) (map v_zeropoint vs2) = qs ->
  Forall (valid_view ops) vs2 ->
  exists s', update_joint_types W ops s logic = Ok s' /\ parsed W ops s' /\ views W s' vs2 /\ same_frame s s'.
Proof.
  intros PD V NE vs2 Q D D1 D2 D3 Q1 F. rewrite (update_unfold s vs logic V NE). fold vs2.
  assert (EN : map v_name vs2 = map v_name vs).
  { unfold vs2. rewrite map_map. apply map_ext. intros v. unfold upd_view, with_joint. destruct (logic _ _ _) as [t [[[d a] st] z]]. reflexivity. }
  assert (EL : map v_link vs2 = map v_link vs).
  { unfold vs2. rewrite map_map. apply map_ext. intros v. unfold upd_view, with_joint. destruct (logic _ _ _) as [t [[[d a] st] z]]. reflexivity. }
  assert (EO : map v_omc vs2 = map v_omc vs).
  { unfold vs2. rewrite map_map. apply map_ext. intros v. unfold upd_view, with_joint. destruct (logic _ _ _) as [t [[[d a] st] z]]. reflexivity. }
  assert (V2 : views W (pre_update s vs2) vs2).
  { apply (pre_update_views s vs vs2 qs ds); auto. unfold vs2. apply map_length. }
  assert (PP : parse W ops (pre_update s vs2) = Ok (parse_post ops (pre_update s vs2))).
  { apply parse_iff. split; auto. split; [apply PD|]. split; [apply (wf_geoms _ _ (pd_wf _ _ _ PD))|]. eauto. }
  exists (parse_post ops (pre_update s vs2)). split; auto.
  split; [eapply parse_parsed; eauto; apply PD|]. apply (pre_update_post s vs vs2); auto.
Qed.

(** *** Updates of one link *)

(** Success of an update which changes only the named link implies that its new arrays have the
    right sizes. *)
Theorem update_one_forward s vs logic name s' :
  parsed W ops s -> views W s vs ->
  (forall v, In v vs -> v_name v <> name -> upd_view logic v = v) ->
  update_joint_types W ops s logic = Ok s' ->
  parsed W ops s' /\ views W s' (map (upd_view logic) vs) /\ same_frame s s' /\ Forall (valid_view ops) (map (upd_view logic) vs).
Proof.
  intros PD V HL H.
  destruct vs as [|v0 vs0] eqn:EV.
  { rewrite (update_empty s logic V) in H. discriminate. }
  rewrite <- EV in *. assert (NE : vs <> []) by (rewrite EV; discriminate). clear EV v0 vs0.
  rewrite (update_unfold s vs logic V NE) in H. set (vs2 := map (upd_view logic) vs) in *.
  pose proof H as HP. apply parse_iff in H. destruct H as (-> & ND & FG & vs1 & V1 & F1).
  assert (EN : map v_name vs2 = map v_name vs).
  { unfold vs2. rewrite map_map. apply map_ext. intros v. unfold upd_view, with_joint. destruct (logic _ _ _) as [t [[[d a] st] z]]. reflexivity. }
  assert (EL : map v_link vs2 = map v_link vs).
  { unfold vs2. rewrite map_map. apply map_ext. intros v. unfold upd_view, with_joint. destruct (logic _ _ _) as [t [[[d a] st] z]]. reflexivity. }
  assert (EO : map v_omc vs2 = map v_omc vs).
  { unfold vs2. rewrite map_map. apply map_ext. intros v. unfold upd_view, with_joint. destruct (logic _ _ _) as [t [[[d a] st] z]]. reflexivity. }
  (* position of the named link *)
  assert (POS : exists k, forall i v, i <> k -> nth_error vs i = Some v -> v_name v <> name).
  { destruct (in_dec string_dec name (link_names s)) as [Hin|Hout].
    - apply In_nth_error in Hin. destruct Hin as [k Hk]. exists k. intros i v Hi Hv E.
      apply Hi. pose proof (wf_unique _ _ (pd_wf _ _ _ PD)) as U. eapply NoDup_nth_error_inj; eauto.
      destruct V as (A1 & _). rewrite A1, nth_error_map, Hv. simpl. now rewrite E.
    - exists 0%nat. intros i v _ Hv E. apply Hout. destruct V as (A1 & _). rewrite A1, <- E.
      apply in_map. eapply nth_error_In; eauto. }
  destruct POS as [k POS].
  destruct (views_widths W _ _ V) as (qs & ds & Q & D & D1 & D2 & D3 & Q1).
  destruct V1 as (B1 & B2 & B3 & B4 & B5 & qs2 & ds2 & Q2 & DD2 & B6 & B7 & B8 & B9).
  simpl in Q2, DD2, B6, B7, B8, B9.
  (* equality away from k *)
  assert (SAME : forall i, i <> k -> nth_error vs2 i = nth_error vs i).
  { intros i Hi. unfold vs2. rewrite nth_error_map. destruct (nth_error vs i) as [v|] eqn:E; auto. simpl.
    f_equal. apply HL; [eapply nth_error_In; eauto|]. eapply POS; eauto. }
  assert (Wsame : forall w ws ws2, have_widths w (map v_type vs) ws -> have_widths w (map v_type vs2) ws2 ->
     forall i, i <> k -> nth_error ws2 i = nth_error ws i).
  { intros w ws ws2 H1 H2 i Hi. unfold have_widths in *.
    destruct (nth_error vs i) as [v|] eqn:E.
    - assert (T1 : nth_error (map v_type vs) i = Some (v_type v)) by (rewrite nth_error_map, E; auto).
      assert (T2 : nth_error (map v_type vs2) i = Some (v_type v)) by (rewrite nth_error_map, SAME, E; auto).
      destruct (Forall2_nth_l _ _ _ _ _ H1 T1) as (x & X1 & X2).
      destruct (Forall2_nth_l _ _ _ _ _ H2 T2) as (y & Y1 & Y2). congruence.
    - apply nth_error_None in E. 
      assert (nth_error ws i = None) by (apply nth_error_None; rewrite <- (Forall2_length _ _ _ H1), map_length; auto).
      assert (nth_error ws2 i = None).
      { apply nth_error_None. rewrite <- (Forall2_length _ _ _ H2), map_length. unfold vs2. now rewrite map_length. }
      congruence. }
  assert (ARR : forall (f : view -> list K) ws ws2 w, have_widths w (map v_type vs) ws -> have_widths w (map v_type vs2) ws2 ->
     map (@length K) (map f vs) = ws -> length (concat (map f vs2)) = list_sum ws2 -> map (@length K) (map f vs2) = ws2).
  { intros f ws ws2 w H1 H2 E1 E2. apply (sum_one_diff k).
    - rewrite !map_length. pose proof (Forall2_length _ _ _ H2) as X. rewrite map_length in X. auto.
    - intros i Hi. rewrite (Wsame w ws ws2 H1 H2 i Hi), <- E1, !nth_error_map, SAME by auto. reflexivity.
    - rewrite <- E2. symmetry. apply (splits_length _ _ (map f vs2)). apply concat_splits. }
  assert (D1' : map (@length K) (map v_damping vs2) = ds2) by (apply (ARR _ ds ds2 (dW W)); auto; eapply splits_length; eauto).
  assert (D2' : map (@length K) (map v_armature vs2) = ds2) by (apply (ARR _ ds ds2 (dW W)); auto; eapply splits_length; eauto).
  assert (D3' : map (@length K) (map v_stiffness vs2) = ds2) by (apply (ARR _ ds ds2 (dW W)); auto; eapply splits_length; eauto).
  assert (Q1' : map (@length K) (map v_zeropoint vs2) = qs2) by (apply (ARR _ qs qs2 (qW W)); auto; eapply splits_length; eauto).
  assert (V2 : views W (pre_update s vs2) vs2).
  { apply (pre_update_views s vs vs2 qs2 ds2); auto. unfold vs2. apply map_length. }
  assert (vs1 = vs2).
  { eapply views_unique; [|exact V2]. repeat split; auto. exists qs2, ds2. repeat (split; auto). }
  subst vs1.
  destruct (pre_update_post s vs vs2 PD V EL V2) as [VP SF].
  split; [eapply parse_parsed; eauto; apply PD|]. auto.
Qed.

(** *** freeze *)

Lemma upd_freeze name v : upd_view (logic_freeze name) v = at_name name frozen_view v.
Proof.
  unfold upd_view, logic_freeze, at_name, with_joint. destruct (String.eqb (v_name v) name); auto. destruct v; reflexivity.
Qed.

(** An update which gives the named link a joint of widths [qn], [dn] with arrays of these sizes. *)
Theorem update_at_total s vs logic name (f : view -> view) typ qn dn :
  parsed W ops s -> views W s vs -> vs <> [] ->
  (forall v, upd_view logic v = at_name name f v) ->
  (forall v, v_type (f v) = typ) -> qW W typ = Some qn -> dW W typ = Some dn ->
  (forall v, length (v_damping (f v)) = dn /\ length (v_armature (f v)) = dn /\ length (v_stiffness (f v)) = dn /\
             length (v_zeropoint (f v)) = qn) ->
  (forall v, In v vs -> v_name v = name -> valid_view ops v -> valid_view ops (f v)) ->
  exists s', update_joint_types W ops s logic = Ok s' /\ parsed W ops s' /\ same_frame s s' /\
             views W s' (map (at_name name f) vs).
Proof.
  intros PD V NE HU HT Zq Zd HL HV.
  destruct (views_widths W _ _ V) as (qs & ds & Q & D & D1 & D2 & D3 & Q1).
  assert (EM : map (upd_view logic) vs = map (at_name name f) vs) by (apply map_ext; apply HU).
  destruct (pd_valid _ _ _ PD) as (vs' & V' & FV). rewrite (views_unique _ _ _ _ V' V) in FV.
  set (fz := fun (n : nat) (ws : list nat) =>
    map (fun vn => if String.eqb (v_name (fst vn)) name then n else snd vn) (combine vs ws)).
  assert (HWid : forall (w : string -> option nat) n ws, w typ = Some n -> have_widths w (map v_type vs) ws ->
     have_widths w (map v_type (map (at_name name f) vs)) (fz n ws)).
  { intros w n ws Hz. unfold have_widths, fz. clear - Hz HT. revert ws. induction vs as [|v vs IH]; intros [|k ws] H; simpl; inversion H; subst; constructor.
    - unfold at_name. destruct (String.eqb (v_name v) name); auto. now rewrite HT.
    - auto. }
  assert (HArr : forall (g : view -> list K) n ws, map (@length K) (map g vs) = ws -> (forall v, length (g (f v)) = n) ->
     map (@length K) (map g (map (at_name name f) vs)) = fz n ws).
  { intros g n ws H Hf. unfold fz. clear - H Hf. revert ws H. induction vs as [|v vs IH]; intros [|k ws] H; simpl in *; try discriminate; auto.
    injection H as H1 H2. f_equal; auto. unfold at_name. destruct (String.eqb (v_name v) name); auto. }
  destruct (update_total s vs logic (fz qn qs) (fz dn ds) PD V NE) as (s' & A & B & C & E); rewrite ?EM.
  - now apply HWid.
  - now apply HWid.
  - apply HArr; auto. intros v. apply HL.
  - apply HArr; auto. intros v. apply HL.
  - apply HArr; auto. intros v. apply HL.
  - apply HArr; auto. intros v. apply HL.
  - rewrite Forall_forall in *. intros v Hv. apply in_map_iff in Hv. destruct Hv as (v0 & <- & Hv0).
    unfold at_name. destruct (String.eqb_spec (v_name v0) name); auto.
  - exists s'. rewrite EM in C. auto.
Qed.

Theorem freeze_correct s vs name :
  parsed W ops s -> views W s vs -> vs <> [] -> qW W "frozen" = Some 0%nat -> dW W "frozen" = Some 0%nat ->
  exists s', freeze W ops s name = Ok s' /\ parsed W ops s' /\ same_frame s s' /\
             views W s' (map (at_name name frozen_view) vs).
Proof.
  intros PD V NE Zq Zd. apply (update_at_total s vs (logic_freeze name) name frozen_view "frozen" 0 0); auto.
  - apply upd_freeze.
  - intros v _ _ [X Y]. split; auto. simpl. discriminate.
Qed.

(** *** change_joint_type *)
Variable registered has_init : string -> bool.
Variable reload : System K L G O -> result (System K L G O).


Lemma upd_change name typ qn dn na nd ns nz v :
  upd_view (logic_change ops name typ qn dn na nd ns nz) v = at_name name (changed_view ops typ qn dn na nd ns nz) v.
Proof.
  unfold upd_view, logic_change, at_name, changed_view, with_joint.
  destruct (String.eqb (v_name v) name); [|destruct v; reflexivity].
  destruct (in_dec string_dec typ _) as [I|I].
  - apply memS_In in I. rewrite I. destruct nz, na, nd, ns; try reflexivity; destruct qn; reflexivity.
  - apply memS_false in I. rewrite I. destruct nz, na, nd, ns; reflexivity.
Qed.

Theorem change_joint_type_correct s vs name typ na nd ns nz s' :
  parsed W ops s -> views W s vs ->
  change_joint_type W ops registered has_init reload s name typ na nd ns nz = Ok s' ->
  has_init typ = false ->
  exists qn dn, qW W typ = Some qn /\ dW W typ = Some dn /\
    parsed W ops s' /\ same_frame s s' /\ views W s' (map (at_name name (changed_view ops typ qn dn na nd ns nz)) vs).
Proof.
  intros PD V H HI. unfold change_joint_type in H. inv_bind. rewrite HI in H. injection H as <-.
  unfold wget in Hb, Hb0. destruct (qW W typ) as [qn|] eqn:Eq; [|discriminate]. destruct (dW W typ) as [dn|] eqn:Ed; [|discriminate].
  injection Hb as <-. injection Hb0 as <-. exists qn, dn. split; auto. split; auto.
  assert (EM : map (upd_view (logic_change ops name typ qn dn na nd ns nz)) vs = map (at_name name (changed_view ops typ qn dn na nd ns nz)) vs)
    by (apply map_ext; apply upd_change).
  edestruct (update_one_forward s vs (logic_change ops name typ qn dn na nd ns nz) name) as (A & B & C & _);
    [exact PD|exact V| |exact Hb1|].
  - intros v _ N. rewrite upd_change. unfold at_name. apply String.eqb_neq in N. now rewrite N.
  - rewrite EM in B. auto.
Qed.

Theorem change_joint_type_total s vs name typ na nd ns nz qn dn :
  parsed W ops s -> views W s vs -> vs <> [] ->
  qW W typ = Some qn -> dW W typ = Some dn -> registered typ = true -> has_init typ = false ->
  (forall a, In (Some a) [na; nd; ns] -> length a = dn) -> (forall z, nz = Some z -> length z = qn) ->
  (is_free_or_cor_or_spherical typ = true ->
     forall v, unit_quat_ok ops (firstn 4 (v_zeropoint (changed_view ops typ qn dn na nd ns nz (O := O) v))) = true) ->
  exists s', change_joint_type W ops registered has_init reload s name typ na nd ns nz = Ok s' /\
    parsed W ops s' /\ same_frame s s' /\ views W s' (map (at_name name (changed_view ops typ qn dn na nd ns nz)) vs).
Proof.
  intros PD V NE Zq Zd HR HI HA HZ HU.
  destruct (update_at_total s vs (logic_change ops name typ qn dn na nd ns nz) name
              (changed_view ops typ qn dn na nd ns nz) typ qn dn) as (s' & A & B); auto.
  - intros v. apply upd_change.
  - intros v. cbn [changed_view v_damping v_armature v_stiffness v_zeropoint].
    assert (HD : forall o, In o [na; nd; ns] -> length (match o with Some a => a | None => repeat (kzero ops) dn end) = dn).
    { intros [a|] Ho; [auto|apply repeat_length]. }
    split; [apply HD; simpl; tauto|]. split; [apply HD; simpl; tauto|]. split; [apply HD; simpl; tauto|].
    destruct nz as [z|]; auto. destruct (in_dec _ _ _); [|apply repeat_length].
    destruct qn; simpl; rewrite ?repeat_length; reflexivity.
  - intros v _ _ [X Y]. split; auto.
  - exists s'. split; auto. unfold change_joint_type, wget. rewrite Zq, Zd. cbn [bind]. rewrite A. cbn [bind].
    rewrite HR, HI. reflexivity.
Qed.

(** Unknown names are silently ignored. *)
Lemma map_at_name_absent name f (vs : list view) : ~ In name (map v_name vs) -> map (at_name name f) vs = vs.
Proof.
  intros H. rewrite <- (map_id vs) at 2. apply map_ext_in. intros v Hv. unfold at_name.
  destruct (String.eqb_spec (v_name v) name) as [E|]; auto. exfalso. apply H. rewrite <- E. now apply in_map.
Qed.

Theorem freeze_unknown_name s name :
  parsed W ops s -> (0 < num_links s)%nat -> qW W "frozen" = Some 0%nat -> dW W "frozen" = Some 0%nat ->
  ~ In name (link_names s) -> freeze W ops s name = Ok s.
Proof.
  intros PD NZ Zq Zd Hout. destruct (wf_views _ _ (pd_wf _ _ _ PD)) as (vs & V).
  destruct (views_lengths _ _ _ V) as (L1 & L2 & L3 & L4 & L5).
  destruct (freeze_correct s vs name PD V) as (s' & E & PD' & SF & V'); auto.
  { intros ->. simpl in L5. lia. }
  rewrite E. f_equal. destruct V as (A1 & V). rewrite map_at_name_absent in V' by (rewrite <- A1; auto).
  destruct SF as (a & b & c & d & e & f & g). apply (system_ext W _ _ vs); auto. split; auto.
Qed.

Theorem change_unknown_name s name typ na nd ns nz qn dn :
  parsed W ops s -> (0 < num_links s)%nat ->
  qW W typ = Some qn -> dW W typ = Some dn -> registered typ = true -> has_init typ = false ->
  ~ In name (link_names s) ->
  change_joint_type W ops registered has_init reload s name typ na nd ns nz = Ok s.
Proof.
  intros PD NZ Zq Zd HR HI Hout. destruct (wf_views _ _ (pd_wf _ _ _ PD)) as (vs & V).
  destruct (views_lengths _ _ _ V) as (L1 & L2 & L3 & L4 & L5).
  assert (NE : vs <> []) by (intros ->; simpl in L5; lia).
  destruct (views_widths W _ _ V) as (qs & ds & Q & D & D1 & D2 & D3 & Q1).
  destruct (pd_valid _ _ _ PD) as (vs' & V' & FV). rewrite (views_unique _ _ _ _ V' V) in FV.
  assert (EM : map (upd_view (logic_change ops name typ qn dn na nd ns nz)) vs = vs).
  { rewrite <- (map_at_name_absent name (changed_view ops typ qn dn na nd ns nz) vs) at 2.
    - apply map_ext. intros v. apply upd_change.
    - destruct V as (A1 & _). now rewrite <- A1. }
  destruct (update_total s vs (logic_change ops name typ qn dn na nd ns nz) qs ds PD V NE) as (s' & A & B & C & E); rewrite ?EM; auto.
  unfold change_joint_type, wget. rewrite Zq, Zd. cbn [bind]. rewrite A. cbn [bind]. rewrite HR, HI. cbn.
  f_equal. rewrite EM in C. destruct E as (a & b & c & d & e & f & g). apply (system_ext W _ _ vs); auto.
Qed.

(** *** free -> cor *)

Lemma upd_cor v : upd_view logic_cor v = cor_view v.
Proof. unfold upd_view, logic_cor, cor_view, with_joint, dasz_of. destruct (String.eqb (v_type v) "free"); auto. destruct v; reflexivity. Qed.

Hypothesis Wfree : qW W "free" = Some 7%nat /\ dW W "free" = Some 6%nat.
Hypothesis Wcor : qW W "cor" = Some 10%nat /\ dW W "cor" = Some 9%nat.

Theorem cor_correct s vs : parsed W ops s -> views W s vs -> vs <> [] -> cor_compatible s = true ->
  exists s', replace_free_with_cor W ops s = Ok s' /\ parsed W ops s' /\ same_frame s s' /\ views W s' (map cor_view vs).
Proof.
  intros PD V NE HC. unfold replace_free_with_cor. rewrite HC.
  destruct (views_widths W _ _ V) as (qs & ds & Q & D & D1 & D2 & D3 & Q1).
  assert (EM : map (upd_view logic_cor) vs = map cor_view vs) by (apply map_ext; apply upd_cor).
  destruct (pd_valid _ _ _ PD) as (vs' & V' & FV). rewrite (views_unique _ _ _ _ V' V) in FV.
  set (fz := fun (x : nat) (ws : list nat) =>
    map (fun vn => if String.eqb (v_type (fst vn)) "free" then x else snd vn) (combine vs ws)).
  assert (HWid : forall (w : string -> option nat) ws x, w "cor"%string = Some x -> have_widths w (map v_type vs) ws ->
     have_widths w (map v_type (map cor_view vs)) (fz x ws)).
  { intros w ws x Hz. unfold have_widths, fz. clear - Hz. revert ws. induction vs as [|v vs IH]; intros [|n ws] H; simpl; inversion H; subst; constructor.
    - unfold cor_view. destruct (String.eqb (v_type v) "free"); auto.
    - auto. }
  assert (HArr : forall (w : string -> option nat) (f : view -> list K) ws c x y, have_widths w (map v_type vs) ws -> map (@length K) (map f vs) = ws ->
     w "free"%string = Some y -> (forall v, v_type v = "free"%string -> f (cor_view v) = f v ++ skipn c (f v)) -> x = (y + (y - c))%nat ->
     map (@length K) (map f (map cor_view vs)) = fz x ws).
  { intros w f ws c x y HWs H Hy Hf Hx. unfold fz. clear - HWs H Hf Hy Hx. revert ws HWs H. induction vs as [|v vs IH]; intros [|n ws] HWs H; simpl in *; try discriminate; auto.
    injection H as H1 H2. inversion HWs; subst. f_equal; auto.
    unfold cor_view at 1. destruct (String.eqb_spec (v_type v) "free") as [E|N].
    - assert (X : length (f v) = y) by congruence.
      specialize (Hf v E). unfold cor_view in Hf. rewrite E, String.eqb_refl in Hf. rewrite Hf, app_length, skipn_length. lia.
    - reflexivity. }
  destruct (update_total s vs logic_cor (fz 10%nat qs) (fz 9%nat ds) PD V NE) as (s' & A & B & C & E); rewrite ?EM.
  - apply HWid; auto. apply Wcor.
  - apply HWid; auto. apply Wcor.
  - apply (HArr (dW W) _ _ 3%nat 9%nat 6%nat); auto; [apply Wfree|]. intros v Ev. unfold cor_view. rewrite Ev. reflexivity.
  - apply (HArr (dW W) _ _ 3%nat 9%nat 6%nat); auto; [apply Wfree|]. intros v Ev. unfold cor_view. rewrite Ev. reflexivity.
  - apply (HArr (dW W) _ _ 3%nat 9%nat 6%nat); auto; [apply Wfree|]. intros v Ev. unfold cor_view. rewrite Ev. reflexivity.
  - apply (HArr (qW W) _ _ 4%nat 10%nat 7%nat); auto; [apply Wfree|]. intros v Ev. unfold cor_view. rewrite Ev. reflexivity.
  - rewrite Forall_forall in *. intros v Hv. apply in_map_iff in Hv. destruct Hv as (v0 & <- & Hv0).
    destruct (FV v0 Hv0) as [X Y]. unfold cor_view. destruct (String.eqb_spec (v_type v0) "free") as [Ef|]; [|split; auto].
    split; auto. cbn [v_zeropoint v_type]. intros _.
    assert (Lz : length (v_zeropoint v0) = 7%nat).
    { apply In_nth_error in Hv0. destruct Hv0 as [i Hi].
      assert (T1 : nth_error (map v_type vs) i = Some "free"%string) by (rewrite nth_error_map, Hi; simpl; congruence).
      destruct (Forall2_nth_l _ _ _ _ _ Q T1) as (n & N1 & N2). destruct Wfree as [Wq _]. rewrite Wq in N2. injection N2 as <-.
      rewrite <- Q1, !nth_error_map, Hi in N1. simpl in N1. congruence. }
    rewrite firstn_app, Lz. replace (4 - 7)%nat with 0%nat by lia. rewrite firstn_O, app_nil_r. apply Y. rewrite Ef. reflexivity.
  - exists s'. rewrite EM in C. auto.
Qed.

Theorem cor_incompatible s : cor_compatible s = false -> replace_free_with_cor W ops s = Err EInvalidSystem.
Proof. intros H. unfold replace_free_with_cor. now rewrite H. Qed.

Lemma cor_compatible_spec s : length (link_types s) = num_links s ->
  (cor_compatible s = true <->
   forall i p t, nth_error (link_parents s) i = Some p -> nth_error (link_types s) i = Some t ->
     (p = -1 <-> t = "free"%string)).
Proof.
  unfold cor_compatible, num_links. generalize (link_parents s) as ps. generalize (link_types s) as ts. clear.
  induction ts as [|t ts IH]; intros [|p ps] Hl; simpl in *; try discriminate.
  - split; auto. intros _ [|i]; discriminate.
  - injection Hl as Hl. rewrite andb_true_iff, (IH _ Hl). split.
    + intros [H1 H2] [|i] p' t' Hp Ht; simpl in *; [|eauto]. injection Hp as <-. injection Ht as <-.
      apply negb_true_iff in H1. destruct (Z.eqb_spec p (-1)), (String.eqb_spec t "free"); simpl in H1; try discriminate; tauto.
    + intros H. split.
      * specialize (H 0%nat p t eq_refl eq_refl).
        destruct (Z.eqb_spec p (-1)), (String.eqb_spec t "free"); simpl; auto; tauto.
      * intros i p' t' Hp Ht. apply (H (S i)); auto.
Qed.

End Update.
