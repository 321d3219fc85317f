(** * C60: motion configurations and their overwrites. *)
From Coq Require Import Reals Lra ZArith Lia String Bool List.
From Verif Require Import Prelude M_Sys M_Rand M_Config C_Union P_Tree S_Sys P_Sys P_Run C_Lookup C_Sens C_Filter.
Import ListNotations.
Local Open Scope string_scope.
Local Open Scope list_scope.

(** ** Configurations *)
Definition get (c : config) (k : string) : option value := dget String.eqb c k.
(** [c] with the values of [ch], unless a name is not a field. *)
Definition applied (c : config) (ch : changes) : config :=
  map (fun kv => (fst kv, match dget String.eqb ch (fst kv) with Some v => v | None => snd kv end)) c.
Definition fields_of (c : config) (ch : changes) : Prop := forall k v, In (k, v) ch -> In k (map fst c).

Lemma memS_iff x l : memS x l = true <-> In x l.
Proof. unfold memS. rewrite existsb_exists. split; [intros (y & I & E); apply String.eqb_eq in E; now subst | intros I; exists x; split; [exact I | apply String.eqb_refl]]. Qed.
Lemma get_applied c ch k : get (applied c ch) k = match get c k with None => None | Some v => Some (match dget String.eqb ch k with Some v' => v' | None => v end) end.
Proof.
  unfold get, applied. induction c as [|[a v] c IH]; [reflexivity|]. cbn [map dget fst snd]. destruct (String.eqb_spec k a) as [->|N]; [reflexivity|exact IH].
Qed.
Lemma applied_keys c ch : map fst (applied c ch) = map fst c.
Proof. unfold applied. rewrite map_map. reflexivity. Qed.

(** Replacing fields: exactly the named fields change; a name that is not a field raises TypeError. *)
Theorem C60_replace c ch :
  (fields_of c ch -> exists c', replace c ch = Ok c' /\ map fst c' = map fst c /\
     forall k, get c' k = match get c k with None => None | Some v => Some (match dget String.eqb ch k with Some v' => v' | None => v end) end) /\
  (~ fields_of c ch -> replace c ch = Err EType).
Proof.
  unfold replace. destruct (forallb _ ch) eqn:E.
  - split; intros F.
    + exists (applied c ch). split; [reflexivity|]. split; [apply applied_keys|]. apply get_applied.
    + exfalso. apply F. intros k v I. rewrite forallb_forall in E. specialize (E _ I). now apply memS_iff in E.
  - split; intros F; [exfalso|reflexivity]. assert (forallb (fun kv => memS (fst kv) (map fst c)) ch = true); [|congruence].
    apply forallb_forall. intros [k v] I. apply memS_iff. eapply F; eauto.
Qed.
Lemma replace_ok c ch : fields_of c ch -> replace c ch = Ok (applied c ch).
Proof.
  intros F. unfold replace. destruct (forallb _ ch) eqn:E; [reflexivity|]. exfalso.
  assert (forallb (fun kv => memS (fst kv) (map fst c)) ch = true); [|congruence]. apply forallb_forall. intros [k v] I. apply memS_iff. eapply F; eauto.
Qed.
Lemma fields_dec c ch : {fields_of c ch} + {~ fields_of c ch}.
Proof.
  destruct (forallb (fun kv => memS (fst kv) (map fst c)) ch) eqn:E.
  - left. intros k v I. rewrite forallb_forall in E. specialize (E _ I). now apply memS_iff in E.
  - right. intros F. assert (forallb (fun kv => memS (fst kv) (map fst c)) ch = true); [|congruence]. apply forallb_forall. intros [k v] I. apply memS_iff. eapply F; eauto.
Qed.
Lemma applied_nil c : applied c [] = c.
Proof. unfold applied. induction c as [|[a v] c IH]; [reflexivity|]. cbn in *. now rewrite IH. Qed.
Lemma applied_twice c ch1 ch2 : applied (applied c ch2) ch1 = applied c (ch1 ++ ch2).
Proof.
  unfold applied. rewrite map_map. apply map_ext. intros [k v]. cbn [fst snd]. f_equal.
  assert (G : dget String.eqb (ch1 ++ ch2) k = match dget String.eqb ch1 k with Some v => Some v | None => dget String.eqb ch2 k end).
  { induction ch1 as [|[a b] r IH]; [reflexivity|]. cbn [app dget]. destruct (String.eqb k a); [reflexivity|exact IH]. }
  rewrite G. destruct (dget String.eqb ch1 k); reflexivity.
Qed.
Lemma fields_app c ch1 ch2 : fields_of c (ch1 ++ ch2) <-> fields_of c ch1 /\ fields_of c ch2.
Proof.
  unfold fields_of. split.
  - intros H. split; intros k v I; apply (H k v), in_app_iff; auto.
  - intros (H1 & H2) k v I. apply in_app_iff in I. destruct I; eauto.
Qed.
Lemma fields_applied c ch ch' : fields_of (applied c ch) ch' <-> fields_of c ch'.
Proof. unfold fields_of. rewrite applied_keys. reflexivity. Qed.

(** ** Configurations without motion *)
Local Open Scope R_scope.
Lemma gtb_true a b : gtb a b = true <-> a > b. Proof. unfold gtb. destruct (Rlt_dec b a); split; try discriminate; auto; lra. Qed.
Lemma gtb_false a b : gtb a b = false <-> a <= b. Proof. unfold gtb. destruct (Rlt_dec b a); split; try discriminate; auto; lra. Qed.
Lemma num_applied c ch k : num (applied c ch) k = match dget String.eqb ch k with Some v => if memS k (map fst c) then to_float v 0 else Err EOther | None => num c k end.
Proof.
  unfold num, attr. change (dget String.eqb (applied c ch) k) with (get (applied c ch) k). rewrite get_applied. unfold get.
  destruct (dget String.eqb c k) as [v|] eqn:E.
  - destruct (dget String.eqb ch k); [|reflexivity]. replace (memS k (map fst c)) with true; [reflexivity|].
    symmetry. apply memS_iff. apply dget_In_iff in E. apply in_map_iff. exists (k, v). auto.
  - destruct (dget String.eqb ch k); [|reflexivity]. replace (memS k (map fst c)) with false; [reflexivity|].
    symmetry. apply not_true_is_false. rewrite memS_iff. now apply dget_None_iff.
Qed.
Definition feasible (c : config) : Prop := is_feasible c = Ok true.
Lemma dx_check_true c a b d e : dx_check c a b d e = Ok true <->
  exists t0 t1 va vb vd ve, num c "t_min" = Ok t0 /\ num c "t_max" = Ok t1 /\ num c a = Ok va /\ num c b = Ok vb /\ num c d = Ok vd /\ num c e = Ok ve /\ va <= ve / t0 /\ vd / t1 <= vb.
Proof.
  unfold dx_check. split.
  - intros H. inv_bind. apply andb_true_iff in H. destruct H as (H1 & H2). rewrite negb_true_iff, gtb_false in H1, H2. do 6 eexists. repeat split; eauto.
  - intros (t0 & t1 & va & vb & vd & ve & -> & -> & -> & -> & -> & -> & H1 & H2). cbn [bind]. apply gtb_false in H1, H2. now rewrite H1, H2.
Qed.
Lemma dx_check_bool c a b d e r : dx_check c a b d e = Ok r -> r = true \/ dx_check c a b d e = Ok false.
Proof. destruct r; auto. Qed.
Theorem feasible_iff c : feasible c <->
  dx_check c "dang_min" "dang_max" "delta_ang_min" "delta_ang_max" = Ok true /\
  dx_check c "dang_min_free_spherical" "dang_max_free_spherical" "delta_ang_min_free_spherical" "delta_ang_max_free_spherical" = Ok true /\
  in_box c "pos_min" "pos_max" "pos0_min" "pos0_max" = Ok true /\
  in_box c "pos_min_p3d_x" "pos_max_p3d_x" "pos0_min_p3d_x" "pos0_max_p3d_x" = Ok true /\
  in_box c "pos_min_p3d_y" "pos_max_p3d_y" "pos0_min_p3d_y" "pos0_max_p3d_y" = Ok true /\
  in_box c "pos_min_p3d_z" "pos_max_p3d_z" "pos0_min_p3d_z" "pos0_max_p3d_z" = Ok true /\
  exists d r, num c "delta_ang_min" = Ok d /\ num c "rom_halfsize" = Ok r /\ d < 2 * r.
Proof.
  unfold feasible, is_feasible. split.
  - intros H. inv_bind. rewrite !andb_true_iff in H. destruct H as ((((((-> & ->) & ->) & ->) & ->) & ->) & H). apply gtb_true in H.
    repeat (split; [assumption|]). eauto 10.
  - intros (-> & -> & -> & -> & -> & -> & d & r & -> & -> & H). cbn [bind]. apply gtb_true in H. now rewrite H.
Qed.

(** The smallest speed is reachable by the largest step in the shortest time, and the smallest step in the longest time needs no more than the largest speed. *)
Definition steps_possible (c : config) (speed_min speed_max step_min step_max : string) : Prop :=
  exists t0 t1 v0 v1 d0 d1, num c "t_min" = Ok t0 /\ num c "t_max" = Ok t1 /\ num c speed_min = Ok v0 /\ num c speed_max = Ok v1 /\
    num c step_min = Ok d0 /\ num c step_max = Ok d1 /\ v0 <= d1 / t0 /\ d0 / t1 <= v1.
Definition starts_inside (c : config) (x_min x_max x0_min x0_max : string) : Prop :=
  exists a b a0 b0, num c x_min = Ok a /\ num c x_max = Ok b /\ num c x0_min = Ok a0 /\ num c x0_max = Ok b0 /\ a <= a0 /\ b0 <= b.
Lemma in_box_true c a b d e : in_box c a b d e = Ok true <-> starts_inside c a b d e.
Proof.
  unfold in_box, starts_inside. split.
  - intros H. inv_bind. apply andb_true_iff in H. destruct H as (H1 & H2). rewrite negb_true_iff, gtb_false in H1, H2. do 4 eexists. repeat split; eauto.
  - intros (va & vb & vd & ve & -> & -> & -> & -> & H1 & H2). cbn [bind]. apply gtb_false in H1, H2. now rewrite H1, H2.
Qed.
Theorem C60_feasible c : feasible c <->
  steps_possible c "dang_min" "dang_max" "delta_ang_min" "delta_ang_max" /\
  steps_possible c "dang_min_free_spherical" "dang_max_free_spherical" "delta_ang_min_free_spherical" "delta_ang_max_free_spherical" /\
  starts_inside c "pos_min" "pos_max" "pos0_min" "pos0_max" /\
  starts_inside c "pos_min_p3d_x" "pos_max_p3d_x" "pos0_min_p3d_x" "pos0_max_p3d_x" /\
  starts_inside c "pos_min_p3d_y" "pos_max_p3d_y" "pos0_min_p3d_y" "pos0_max_p3d_y" /\
  starts_inside c "pos_min_p3d_z" "pos_max_p3d_z" "pos0_min_p3d_z" "pos0_max_p3d_z" /\
  exists d r, num c "delta_ang_min" = Ok d /\ num c "rom_halfsize" = Ok r /\ d < 2 * r.
Proof. rewrite feasible_iff, !dx_check_true, !in_box_true. reflexivity. Qed.

Definition zeroed : changes := map (fun k => (k, VNum 0)) nomotion_keys.
Lemma zeroed_get k : dget String.eqb zeroed k = if memS k nomotion_keys then Some (VNum 0) else None.
Proof.
  unfold zeroed. generalize nomotion_keys. induction l as [|a l IH]; [reflexivity|]. cbn [map dget memS existsb]. destruct (String.eqb k a); [reflexivity|exact IH].
Qed.
Lemma in_box_applied c ch a b d e : dget String.eqb ch a = None -> dget String.eqb ch b = None -> dget String.eqb ch d = None -> dget String.eqb ch e = None ->
  in_box (applied c ch) a b d e = in_box c a b d e.
Proof. intros A B D E. unfold in_box. rewrite !num_applied, A, B, D, E. reflexivity. Qed.

(** The fields that make joints move. *)
Definition motion_fields : list string :=
  ["dang_min"; "dang_max"; "delta_ang_min"; "dang_min_free_spherical"; "dang_max_free_spherical"; "delta_ang_min_free_spherical"; "dpos_min"; "dpos_max"].
Lemma motion_fields_eq : nomotion_keys = motion_fields. Proof. reflexivity. Qed.

(** A feasible configuration with sensible limits has one without motion: the speed limits and smallest steps become 0, nothing else changes. *)
Theorem C60_nomotion c t0 d1 d2 e1 : feasible c -> fields_of c zeroed ->
  num c "t_min" = Ok t0 -> 0 < t0 -> num c "delta_ang_max" = Ok d1 -> 0 <= d1 -> num c "delta_ang_max_free_spherical" = Ok d2 -> 0 <= d2 ->
  num c "delta_ang_min" = Ok e1 -> 0 <= e1 ->
  exists c', to_nomotion_config c = Ok c' /\ feasible c' /\ map fst c' = map fst c /\
    (forall k, In k motion_fields -> get c' k = Some (VNum 0)) /\ (forall k, ~ In k motion_fields -> get c' k = get c k).
Proof.
  rewrite <- motion_fields_eq.
  intros FE FO Ht Pt H1 P1 H2 P2 H3 P3. unfold to_nomotion_config. fold zeroed. rewrite (replace_ok _ _ FO). cbn [bind].
  set (c' := applied c zeroed).
  assert (NZ : forall k, memS k nomotion_keys = false -> num c' k = num c k).
  { intros k E. unfold c'. now rewrite num_applied, zeroed_get, E. }
  assert (IZ : forall k, memS k nomotion_keys = true -> num c' k = Ok 0).
  { intros k E. unfold c'. rewrite num_applied, zeroed_get, E. replace (memS k (map fst c)) with true; [reflexivity|]. symmetry. apply memS_iff.
    apply (FO k (VNum 0)). unfold zeroed. apply memS_iff in E. apply in_map_iff. eauto. }
  assert (F' : feasible c').
  { rewrite feasible_iff in FE |- *. destruct FE as (A1 & A2 & A3 & A4 & A5 & A6 & dd & rr & B1 & B2 & B3).
    apply dx_check_true in A1. destruct A1 as (t0' & t1 & _ & _ & _ & ve & E1 & E2 & _ & _ & _ & E3 & _).
    assert (t0' = t0) by congruence. subst t0'. assert (ve = d1) by congruence. subst ve.
    split; [|split].
    - apply dx_check_true. exists t0, t1, 0, 0, 0, d1. repeat (split; [first [rewrite NZ by reflexivity; assumption | apply IZ; reflexivity]|]).
      split; [|unfold Rdiv; rewrite Rmult_0_l; apply Rle_refl]. unfold Rdiv. apply Rmult_le_pos; [assumption|]. left. now apply Rinv_0_lt_compat.
    - apply dx_check_true. exists t0, t1, 0, 0, 0, d2. repeat (split; [first [rewrite NZ by reflexivity; assumption | apply IZ; reflexivity]|]).
      split; [|unfold Rdiv; rewrite Rmult_0_l; apply Rle_refl]. unfold Rdiv. apply Rmult_le_pos; [assumption|]. left. now apply Rinv_0_lt_compat.
    - unfold c'. rewrite !in_box_applied by reflexivity. repeat (split; [assumption|]). fold c'. exists 0, rr.
      split; [now apply IZ|]. split; [rewrite NZ by reflexivity; assumption|]. assert (dd = e1) by congruence. subst dd. lra. }
  exists c'. rewrite F'. cbn [bind assert_]. split; [reflexivity|]. split; [exact F'|]. split; [apply applied_keys|]. unfold c'. split; intros k I.
  - rewrite get_applied, zeroed_get. assert (IK := FO k (VNum 0) ltac:(unfold zeroed; apply in_map_iff; eauto)).
    apply memS_iff in I. rewrite I. destruct (get c k) eqn:E; [reflexivity|]. apply dget_None_iff in E. contradiction.
  - rewrite get_applied, zeroed_get. replace (memS k nomotion_keys) with false; [destruct (get c k); reflexivity|].
    symmetry. apply not_true_is_false. now rewrite memS_iff.
Qed.
Lemma default_feasible : feasible default_config.
Proof.
  pose proof PI_RGT_0. pose proof PI_4. pose proof PI2_3_2 as P3. apply feasible_iff.
  assert (FR : forall x, x / (5 / 100) = 20 * x) by (intros; field).
  split; [|split; [|split; [|split; [|split; [|split]]]]].
  1,2: apply dx_check_true; do 6 eexists; repeat (split; [reflexivity|]); split; [rewrite FR; unfold PI2 in P3; lra | lra].
  1,2,3,4: unfold in_box; cbn -[gtb]; rewrite !(proj2 (gtb_false _ _)) by lra; reflexivity.
  do 2 eexists. repeat (split; [reflexivity|]). lra.
Qed.
Lemma default_fields : fields_of default_config zeroed.
Proof. intros k v I. cbn in I. repeat (destruct I as [I|I]; [injection I as <- _; cbn; auto 60|]). destruct I. Qed.
Lemma default_nomotion : exists c', to_nomotion_config default_config = Ok c' /\ forall k, ~ In k motion_fields -> get c' k = get default_config k.
Proof.
  pose proof PI_RGT_0.
  destruct (C60_nomotion default_config (5 / 100) (2 * PI) (2 * PI) 0 default_feasible default_fields) as (c' & E & _ & _ & _ & H'); try reflexivity; try lra. eauto.
Qed.
(** Joints of type cor still move: their speed limit is untouched. *)
Theorem C60_nomotion_cor_refuted : exists c c', to_nomotion_config c = Ok c' /\ get c' "cor_dpos_max" = Some (VNum (5 / 10)).
Proof. destruct default_nomotion as (c' & E & H). exists default_config, c'. split; [exact E|]. rewrite H; [reflexivity|]. cbn. intuition discriminate. Qed.

(** ** Joining configurations in time *)
Definition increasing (bs : list R) : Prop := forall i j a b, (i < j)%nat -> nth_error bs i = Some a -> nth_error bs j = Some b -> a < b.
Theorem C60_find_interval bs t i : increasing bs -> (i <= length bs)%nat ->
  (forall b, nth_error bs (i - 1) = Some b -> (0 < i)%nat -> b <= t) -> (forall b, nth_error bs i = Some b -> t < b) ->
  find_interval t bs = i.
Proof.
  intros INC Hi L U. unfold find_interval. rewrite <- (firstn_skipn i bs), filter_app, app_length.
  assert (F1 : filter (fun b => if Rle_dec b t then true else false) (firstn i bs) = firstn i bs).
  { assert (G : forall l, (forall b, In b l -> b <= t) -> filter (fun b => if Rle_dec b t then true else false) l = l).
    { induction l as [|b l IH]; intros H; [reflexivity|]. cbn [filter]. destruct (Rle_dec b t) as [_|N]; [|exfalso; apply N, H; now left]. f_equal. apply IH. intros x I. apply H. now right. }
    apply G. intros b I. apply In_nth_error in I. destruct I as (j & E).
    assert (Hj : (j < i)%nat). { pose proof (nth_lt _ _ _ E) as Q. rewrite firstn_length in Q. lia. }
    rewrite nth_error_firstn in E by exact Hj.
    destruct (nth_error bs (i - 1)) as [b'|] eqn:E'; [|apply nth_error_None in E'; lia].
    specialize (L b' eq_refl ltac:(lia)). destruct (Nat.eq_dec j (i - 1)) as [->|Nj]; [assert (b = b') by congruence; subst; lra|].
    pose proof (INC j (i - 1)%nat b b' ltac:(lia) E E'). lra. }
  assert (F2 : filter (fun b => if Rle_dec b t then true else false) (skipn i bs) = []).
  { assert (G : forall l, (forall b, In b l -> t < b) -> filter (fun b => if Rle_dec b t then true else false) l = []).
    { induction l as [|b l IH]; intros H; [reflexivity|]. cbn [filter]. destruct (Rle_dec b t) as [Y|_]; [specialize (H b (or_introl eq_refl)); lra|]. apply IH. intros x I. apply H. now right. }
    apply G. intros b I. apply In_nth_error in I. destruct I as (j & E). rewrite nth_error_skipn in E.
    destruct (nth_error bs i) as [b'|] eqn:E'.
    - specialize (U b' eq_refl). destruct j as [|j]; [rewrite Nat.add_0_r in E; assert (b = b') by congruence; subst; lra|].
      pose proof (INC i (i + S j)%nat b' b ltac:(lia) E' E). lra.
    - apply nth_error_None in E'. pose proof (nth_lt _ _ _ E). lia. }
  rewrite F1, F2. cbn [length]. rewrite Nat.add_0_r, firstn_length. lia.
Qed.

(** The joined value at time [t] is that of the configuration of the interval containing [t]. *)
Theorem C60_joined_value configs bs k v i t c x : new_value configs bs k = Ok v -> increasing bs -> length configs = (length bs + 1)%nat -> (i <= length bs)%nat ->
  (forall b, nth_error bs (i - 1) = Some b -> (0 < i)%nat -> b <= t) -> (forall b, nth_error bs i = Some b -> t < b) ->
  nth_error configs i = Some c -> get c k = Some (VNum x) -> to_float v t = Ok x.
Proof.
  intros H INC LC Hi L U Ec Ex. unfold new_value in H. apply bind_Ok in H. destruct H as (vs & Hv & H). apply bind_Ok in H. destruct H as (xs & Hx & H). injection H as <-.
  cbn [to_float]. rewrite (C60_find_interval bs t i INC Hi L U).
  apply mapM_spec in Hv. destruct Hv as (LV & Hv). apply mapM_spec in Hx. destruct Hx as (LX & Hx).
  destruct (Hv i c Ec) as (v' & Ev & Av). unfold attr, get in *. rewrite Ex in Av. injection Av as <-.
  destruct (Hx i _ Ev) as (x' & Ex' & Bx). injection Bx as <-. f_equal.
  replace (min i (length xs - 1)) with i by lia. now apply nth_error_nth.
Qed.
(** But no list of configurations can be joined: the dict of overwrites is not hashable. *)
Theorem C60_join_refuted eq configs bs :
  (forall c, In c configs -> exists d, get c "joint_type_specific_overwrites" = Some (VDict d)) ->
  exists e, join_motionconfigs eq configs bs = Err e.
Proof.
  intros H. destruct (join_motionconfigs eq configs bs) as [c|e] eqn:E; [exfalso|eauto]. unfold join_motionconfigs in E.
  apply bind_Ok in E. destruct E as (u0 & EA & E). apply bind_Ok in E. destruct E as (us & EM & _).
  destruct configs as [|c0 cs]; [cbn in EA; rewrite Nat.add_1_r in EA; discriminate|].
  apply mapM_spec in EM. destruct EM as (_ & EM).
  assert (I : In "joint_type_specific_overwrites" (filter (fun k => negb (memS k time_dependent)) (map fst default_config))) by (vm_compute; auto 60).
  apply In_nth_error in I. destruct I as (n & En). destruct (EM n _ En) as (u & _ & HU). apply bind_Ok in HU. destruct HU as (vs & HV & HU).
  unfold unique_value in HU. assert (HF : forallb hashable vs = false); [|rewrite HF in HU; discriminate].
  apply mapM_spec in HV. destruct HV as (LV & HV). destruct (HV 0%nat c0 eq_refl) as (v & Ev & Av).
  destruct (H c0 (or_introl eq_refl)) as (d & Hd). unfold attr, get in *. rewrite Hd in Av. injection Av as <-.
  destruct vs as [|v vs]; [discriminate|]. cbn in Ev. injection Ev as ->. reflexivity.
Qed.

(** ** The registry *)
Section Registry.
Context {A B J Gn : Type}.
Notation jmodel := (@jmodel A B J).
Notation reg := (@reg A B J Gn).

(** The same joint model, widths and gains. *)
Definition same_type (s s' : reg) (jt : string) : Prop :=
  dget String.eqb (r_types s') jt = dget String.eqb (r_types s) jt /\ dget String.eqb (r_q s') jt = dget String.eqb (r_q s) jt /\
  dget String.eqb (r_qd s') jt = dget String.eqb (r_qd s) jt /\ dget String.eqb (r_gains s') jt = dget String.eqb (r_gains s) jt.
Definition known (s : reg) (jt : string) : Prop := exists jm, dget String.eqb (r_types s) jt = Some jm.
(** Every joint type has its widths and one motion axis per velocity coordinate. *)
Definition wf_reg (s : reg) : Prop :=
  forall jt jm, dget String.eqb (r_types s) jt = Some jm -> jt <> "default" /\ (exists q, dget String.eqb (r_q s) jt = Some q) /\ dget String.eqb (r_qd s) jt = Some (jm_motion jm).
Definition keys_distinct (ch : changes) : Prop := NoDup (map fst ch).
Definition clash (ch ch' : changes) : Prop := exists k, In k (map fst ch) /\ In k (map fst ch').

Lemma dget_ddel {V} (d : list (string * V)) k k' : dget String.eqb (ddel String.eqb d k) k' = if String.eqb k' k then None else dget String.eqb d k'.
Proof.
  unfold ddel. induction d as [|[a v] d IH]; [now destruct (String.eqb k' k)|]. cbn [filter fst dget].
  destruct (String.eqb_spec k a) as [E1|E1]; destruct (String.eqb_spec k' a) as [E2|E2]; cbn [negb dget].
  - rewrite IH. destruct (String.eqb_spec k' k); [reflexivity|congruence].
  - exact IH.
  - destruct (String.eqb_spec k' a); [|congruence]. destruct (String.eqb_spec k' k); [congruence|reflexivity].
  - destruct (String.eqb_spec k' a); [congruence|exact IH].
Qed.
Lemma dmem_In {V} (d : list (string * V)) k : dmem String.eqb d k = true <-> In k (map fst d).
Proof.
  unfold dmem. destruct (dget String.eqb d k) as [v|] eqn:E.
  - split; [intros _|reflexivity]. apply dget_In_iff in E. apply in_map_iff. exists (k, v). auto.
  - split; [discriminate|]. intros I. apply dget_None_iff in E. contradiction.
Qed.
Lemma clash_dec prev ch : forallb (fun kv => negb (dmem String.eqb prev (fst kv))) ch = true <-> ~ clash prev ch.
Proof.
  rewrite forallb_forall. split.
  - intros H (k & I1 & I2). apply in_map_iff in I2. destruct I2 as ([k' v] & E & I2). cbn in E. subst k'. specialize (H _ I2). cbn [fst] in H.
    apply dmem_In in I1. rewrite I1 in H. discriminate.
  - intros H [k v] I. cbn [fst]. destruct (dmem String.eqb prev k) eqn:E; [|reflexivity]. exfalso. apply H. exists k. apply dmem_In in E. split; [exact E|].
    apply in_map_iff. exists (k, v). auto.
Qed.
Lemma dset_append {V} (d : list (string * V)) k v : ~ In k (map fst d) -> dset String.eqb d k v = d ++ [(k, v)].
Proof.
  induction d as [|[a b] d IH]; intros N; [reflexivity|]. cbn [dset]. destruct (String.eqb_spec k a) as [->|E]; [exfalso; apply N; now left|].
  cbn [app]. f_equal. apply IH. intros I. apply N. now right.
Qed.
Lemma update_app prev ch : keys_distinct ch -> ~ clash prev ch -> update prev ch = prev ++ ch.
Proof.
  unfold update. revert prev. induction ch as [|[k v] ch IH]; intros prev ND NC; [cbn; now rewrite app_nil_r|]. inversion ND as [|? ? N1 N2]; subst.
  cbn [fold_left fst snd]. rewrite dset_append. 2:{ intros I. apply NC. exists k. split; [exact I|now left]. }
  rewrite IH; [now rewrite <- app_assoc|exact N2|]. intros (k' & I1 & I2). rewrite map_app in I1. apply in_app_iff in I1. destruct I1 as [I1|[<-|[]]].
  - apply NC. exists k'. split; [exact I1|now right].
  - contradiction.
Qed.

(** What a call does, in all cases. *)
Lemma overwrite_ok (s : reg) jt ch jm q : wf_reg s -> dget String.eqb (r_types s) jt = Some jm -> dget String.eqb (r_q s) jt = Some q -> ~ clash (previous s jt) ch ->
  overwrite_for_joint_type jt ch s =
    (mkReg (dset String.eqb (ddel String.eqb (r_types s) jt) jt (overwritten ch jm)) (dset String.eqb (ddel String.eqb (r_q s) jt) jt q)
       (dset String.eqb (ddel String.eqb (r_qd s) jt) jt (jm_motion jm)) (dset String.eqb (r_changes s) jt (update (previous s jt) ch)) (r_gains s), Ok tt).
Proof.
  intros W E1 Q1 NC. destruct (W jt jm E1) as (ND & _ & Q2). apply clash_dec in NC.
  cbv beta iota zeta delta [overwrite_for_joint_type register_new_joint_type sbind lift modify raise ret get_joint_model dgetE pop_q pop_qd pop_type dmem r_types r_q r_qd r_changes r_gains].
  fold (r_types s) (r_q s) (r_qd s) (r_changes s) (r_gains s). fold (previous s jt).
  destruct s as [ts qs qds chs gs]. cbn [r_types r_q r_qd r_changes r_gains] in *.
  cbv delta [dmem] in NC. rewrite NC. cbn [negb].
  rewrite E1. cbv beta iota. rewrite Q1. cbv beta iota. rewrite Q2. cbv beta iota. rewrite (proj2 (String.eqb_neq _ _) ND), E1. cbn [andb].
  rewrite Q1. cbv beta iota. rewrite Q2. cbv beta iota. rewrite E1. cbv beta iota. cbn [jm_motion overwritten].
  rewrite Nat.eqb_refl. cbn [negb]. reflexivity.
Qed.

(** Registering a joint type: refused for a known name (unless it is to be replaced), for the name "default" and for a wrong number
    of motion axes; otherwise exactly this type is set. *)
Theorem C60_register (s : reg) jt jm qw qdw ow s' r : wf_reg s -> register_new_joint_type jt jm qw qdw ow s = (s', r) ->
  let qd := match qdw with Some n => n | None => qw end in
  (r = Ok tt <-> jt <> "default" /\ (known s jt -> ow = true) /\ jm_motion jm = qd) /\
  (forall jt', jt' <> jt -> same_type s s' jt') /\ r_changes s' = r_changes s /\ wf_reg s' /\
  (r = Ok tt -> dget String.eqb (r_types s') jt = Some jm /\ dget String.eqb (r_q s') jt = Some qw /\ dget String.eqb (r_qd s') jt = Some qd) /\
  (known s jt -> ow = false -> s' = s).
Proof.
  intros W. destruct s as [ts qs qds chs gs]. unfold register_new_joint_type. set (qd := match qdw with Some n => n | None => qw end).
  assert (WS : forall ts' qs' qds', (forall k, k <> jt -> dget String.eqb ts' k = dget String.eqb ts k /\ dget String.eqb qs' k = dget String.eqb qs k /\ dget String.eqb qds' k = dget String.eqb qds k) ->
     (dget String.eqb ts' jt = None \/ jt <> "default" /\ (exists q, dget String.eqb qs' jt = Some q) /\ exists m, dget String.eqb ts' jt = Some m /\ dget String.eqb qds' jt = Some (jm_motion m)) ->
     wf_reg (mkReg ts' qs' qds' chs gs)).
  { intros ts' qs' qds' H1 H2 k m E. cbn [r_types r_q r_qd] in *. destruct (String.eqb_spec k jt) as [->|N].
    - destruct H2 as [H2|(A1 & A2 & m' & A3 & A4)]; [congruence|]. assert (m' = m) by congruence. subst m'. auto.
    - destruct (H1 k N) as (B1 & B2 & B3). rewrite B1 in E. rewrite B2, B3. exact (W k m E). }
  destruct (String.eqb_spec jt "default") as [ED|ED].
  { intros [= <- <-]. split; [split; [discriminate|intros (X & _); congruence]|]. split; [intros; repeat split|]. split; [reflexivity|]. split; [exact W|]. split; [discriminate|reflexivity]. }
  cbv beta iota zeta delta [sbind lift modify raise ret dgetE pop_q pop_qd pop_type dmem r_types r_q r_qd r_changes r_gains].
  destruct (dget String.eqb ts jt) as [jm0|] eqn:ET.
  - destruct (W jt jm0 ET) as (_ & (q & EQ) & EQD). cbn [r_q r_qd] in EQ, EQD. destruct ow; cbn [andb].
    + rewrite EQ. cbv beta iota. rewrite EQD. cbv beta iota. rewrite ET. cbv beta iota.
      destruct (Nat.eqb_spec (jm_motion jm) qd) as [EM|EM]; cbn [negb]; intros [= <- <-]; cbn [r_types r_q r_qd r_changes r_gains].
      * split; [split; auto|]. split; [intros k N; unfold same_type; cbn [r_types r_q r_qd r_gains]; rewrite !dget_dset_eq, !dget_ddel; apply String.eqb_neq in N; now rewrite N|].
        split; [reflexivity|]. rewrite !dget_dset_eq, String.eqb_refl. split; [|split; [auto|intros; discriminate]].
        apply WS; [intros k N; rewrite !dget_dset_eq, !dget_ddel; apply String.eqb_neq in N; now rewrite N|]. right. rewrite !dget_dset_eq, String.eqb_refl. split; [exact ED|]. split; [eauto|]. exists jm. rewrite EM. auto.
      * split; [split; [discriminate|intros (_ & _ & X); congruence]|]. split; [intros k N; unfold same_type; cbn [r_types r_q r_qd r_gains]; rewrite !dget_ddel; apply String.eqb_neq in N; now rewrite N|].
        split; [reflexivity|]. split; [|split; [discriminate|intros; discriminate]].
        apply WS; [intros k N; rewrite !dget_ddel; apply String.eqb_neq in N; now rewrite N|]. left. now rewrite dget_ddel, String.eqb_refl.
    + intros [= <- <-]. split; [split; [discriminate|intros (_ & X & _); assert (KN : known (mkReg ts qs qds chs gs) jt) by (exists jm0; exact ET); discriminate (X KN)]|].
      split; [intros; repeat split|]. split; [reflexivity|]. split; [exact W|]. split; [discriminate|reflexivity].
  - assert (NK : ~ known (mkReg ts qs qds chs gs) jt) by (intros (m & E); cbn in E; congruence). cbn [andb].
    destruct (Nat.eqb_spec (jm_motion jm) qd) as [EM|EM]; cbn [negb]; intros [= <- <-]; cbn [r_types r_q r_qd r_changes r_gains].
    + split; [split; [intros _; split; [exact ED|]; split; [intros K; contradiction|exact EM]|auto]|].
      split; [intros k N; unfold same_type; cbn [r_types r_q r_qd r_gains]; rewrite !dget_dset_eq; apply String.eqb_neq in N; now rewrite N|].
      split; [reflexivity|]. rewrite !dget_dset_eq, String.eqb_refl. split; [|split; [auto|intros K; contradiction]].
      apply WS; [intros k N; rewrite !dget_dset_eq; apply String.eqb_neq in N; now rewrite N|]. right. rewrite !dget_dset_eq, String.eqb_refl. split; [exact ED|]. split; [eauto|]. exists jm. rewrite EM. auto.
    + split; [split; [discriminate|intros (_ & _ & X); congruence]|]. split; [intros; repeat split|]. split; [reflexivity|]. split; [exact W|]. split; [discriminate|intros K; contradiction].
Qed.

(** A call succeeds exactly for a known joint type none of whose fields was changed before.  Then only this joint type's draw function
    changes: it draws with the new values put into its configuration.  A call that fails on a known joint type has no effect. *)
Theorem C60_overwrite (s : reg) jt ch s' r : wf_reg s -> overwrite_for_joint_type jt ch s = (s', r) ->
  (r = Ok tt <-> known s jt /\ ~ clash (previous s jt) ch) /\ (r = Ok tt \/ r = Err EAssertion) /\ wf_reg s' /\
  (forall jt', jt' <> jt -> same_type s s' jt' /\ previous s' jt' = previous s jt') /\
  (r = Ok tt -> exists jm, dget String.eqb (r_types s) jt = Some jm /\ dget String.eqb (r_types s') jt = Some (overwritten ch jm) /\
     dget String.eqb (r_q s') jt = dget String.eqb (r_q s) jt /\ dget String.eqb (r_qd s') jt = dget String.eqb (r_qd s) jt /\
     dget String.eqb (r_gains s') jt = dget String.eqb (r_gains s) jt /\ previous s' jt = update (previous s jt) ch) /\
  (r <> Ok tt -> same_type s s' jt /\ (known s jt -> s' = s)).
Proof.
  intros W H. destruct (dget String.eqb (r_types s) jt) as [jm|] eqn:E1.
  - destruct (forallb (fun kv => negb (dmem String.eqb (previous s jt) (fst kv))) ch) eqn:EC.
    + apply clash_dec in EC. destruct (W jt jm E1) as (ND & (q & Q1) & Q2). rewrite (overwrite_ok s jt ch jm q W E1 Q1 EC) in H. injection H as <- <-.
      split; [split; [intros _; split; [now exists jm|exact EC]|reflexivity]|]. split; [now left|].
      split; [|split; [|split; [|congruence]]].
      * intros jt' jm'. cbn [r_types r_q r_qd]. rewrite !dget_dset_eq, !dget_ddel. destruct (String.eqb_spec jt' jt) as [->|N].
        { intros X. injection X as <-. cbn [jm_motion overwritten]. split; [exact ND|]. split; [now exists q|reflexivity]. }
        { apply W. }
      * intros jt' N. unfold same_type, previous. cbn [r_types r_q r_qd r_gains r_changes]. rewrite !dget_dset_eq, !dget_ddel.
        rewrite (proj2 (String.eqb_neq _ _) N). auto.
      * intros _. exists jm. cbn [r_types r_q r_qd r_gains]. rewrite !dget_dset_eq, String.eqb_refl. repeat (split; [congruence|]).
        unfold previous at 1. cbn [r_changes]. now rewrite dget_dset_eq, String.eqb_refl.
    + assert (HE : overwrite_for_joint_type jt ch s = (s, Err EAssertion)).
      { unfold overwrite_for_joint_type, sbind, lift. rewrite EC. reflexivity. }
      rewrite HE in H. injection H as <- <-. split; [split; [discriminate|intros (_ & N); apply clash_dec in N; congruence]|].
      split; [now right|]. split; [exact W|]. split; [intros; unfold same_type; auto 10|]. split; [discriminate|]. intros _. unfold same_type. auto 10.
  - assert (HE : exists st, overwrite_for_joint_type jt ch s = (st, Err EAssertion) /\ r_types st = r_types s /\ r_q st = r_q s /\ r_qd st = r_qd s /\ r_gains st = r_gains s /\
        forall jt', jt' <> jt -> previous st jt' = previous s jt').
    { unfold overwrite_for_joint_type, sbind, lift, modify, raise. destruct (negb _); [exists s; auto 10|]. unfold get_joint_model. cbn [r_types]. rewrite E1.
      eexists. split; [reflexivity|]. cbn [r_types r_q r_qd r_gains]. repeat (split; [reflexivity|]). intros jt' N. unfold previous. cbn [r_changes]. rewrite dget_dset_eq.
      now rewrite (proj2 (String.eqb_neq _ _) N). }
    destruct HE as (st & HE & T1 & T2 & T3 & T4 & T5). rewrite HE in H. injection H as <- <-.
    split; [split; [discriminate|intros ((jm & K) & _); congruence]|]. split; [now right|].
    split; [unfold wf_reg; rewrite T1, T2, T3; exact W|]. split; [intros jt' N; unfold same_type; rewrite T1, T2, T3, T4; auto 10|]. split; [discriminate|].
    intros _. unfold same_type. rewrite T1, T2, T3, T4. split; [auto|]. intros (jm & K). congruence.
Qed.

(** What is drawn after a successful call: the values take precedence over those of the configuration and over its own
    joint-type specific overwrites; a name that is not a field makes every draw raise TypeError. *)
Theorem C60_draw (s s' : reg) jt ch d jm ow c c1 a : wf_reg s -> overwrite_for_joint_type jt ch s = (s', Ok tt) ->
  dget String.eqb (r_types s) jt = Some jm -> jm_draw jm = Some d ->
  get c "joint_type_specific_overwrites" = Some (VDict ow) ->
  (match dget String.eqb ow jt with Some ch => replace c ch | None => Ok c end) = Ok c1 ->
  draw_link s c jt a = d c1 a /\
  (fields_of c ch -> draw_link s' c jt a = d (applied c1 ch) a) /\
  (~ fields_of c ch -> draw_link s' c jt a = Err EType).
Proof.
  intros W H E D O C1. destruct (C60_overwrite s jt ch s' (Ok tt) W H) as (_ & _ & _ & _ & K & _). destruct (K eq_refl) as (jm' & E' & EO & _).
  assert (jm' = jm) by congruence. subst jm'. unfold draw_link, get_joint_model, attr. unfold get in O. rewrite E, O, EO. destruct jm as [dr mo re]. cbn [jm_draw] in D. subst dr. cbn [bind jm_draw overwritten]. rewrite C1. cbn [bind].
  assert (KC : map fst c1 = map fst c).
  { destruct (dget String.eqb ow jt) as [ch0|]; [|congruence]. unfold replace in C1. destruct (forallb _ _); [|discriminate]. injection C1 as <-. apply applied_keys. }
  split; [reflexivity|]. split; intros F.
  - rewrite replace_ok by (unfold fields_of in *; now rewrite KC). reflexivity.
  - destruct (C60_replace c1 ch) as (_ & N). rewrite N; [reflexivity|]. unfold fields_of in *. now rewrite KC.
Qed.

(** ** Histories of calls *)
Fixpoint run_calls (calls : list (string * changes)) (s : reg) : reg :=
  match calls with [] => s | (jt, ch) :: r => run_calls r (fst (overwrite_for_joint_type jt ch s)) end.
(** The changes in force for a joint type: those of every call on it that changes no field already changed. *)
Definition clashb (acc ch : changes) : bool := existsb (fun kv => existsb (fun kv' => String.eqb (fst kv) (fst kv')) acc) ch.
Fixpoint accepted (jt : string) (acc : changes) (calls : list (string * changes)) : changes :=
  match calls with
  | [] => acc
  | (jt', ch) :: r => accepted jt (if String.eqb jt jt' then (if clashb acc ch then acc else acc ++ ch) else acc) r
  end.
Lemma clashb_spec acc ch : clashb acc ch = true <-> clash acc ch.
Proof.
  unfold clashb, clash. rewrite existsb_exists. split.
  - intros ([k v] & I & H). apply existsb_exists in H. destruct H as ([k' v'] & I' & E). cbn [fst] in E. apply String.eqb_eq in E. subst k'.
    exists k. split; apply in_map_iff; [exists (k, v') | exists (k, v)]; auto.
  - intros (k & I1 & I2). apply in_map_iff in I1, I2. destruct I1 as ([k1 v1] & <- & I1). destruct I2 as ([k2 v2] & E & I2). cbn [fst] in *. subst k2.
    exists (k1, v2). split; [exact I2|]. apply existsb_exists. exists (k1, v1). split; [exact I1|]. cbn. apply String.eqb_refl.
Qed.
Definition drawing (s : reg) (jt : string) (c : config) (a : A) : option (result B) :=
  match dget String.eqb (r_types s) jt with Some jm => match jm_draw jm with Some d => Some (d c a) | None => None end | None => None end.

(** After any history of calls, failing ones included: widths, gains and motion axes are the old ones, and every joint type draws as in the
    beginning from its configuration with the accepted changes. *)
Theorem C60_history calls : Forall (fun c => keys_distinct (snd c)) calls -> forall s0 : reg, wf_reg s0 -> (forall jt, previous s0 jt = []) ->
  let s := run_calls calls s0 in
  wf_reg s /\ (forall jt, known s jt <-> known s0 jt) /\ (forall jt, dget String.eqb (r_gains s) jt = dget String.eqb (r_gains s0) jt) /\
  forall jt jm d, dget String.eqb (r_types s0) jt = Some jm -> jm_draw jm = Some d ->
    previous s jt = accepted jt [] calls /\ dget String.eqb (r_q s) jt = dget String.eqb (r_q s0) jt /\ dget String.eqb (r_qd s) jt = dget String.eqb (r_qd s0) jt /\
    forall c a, (fields_of c (accepted jt [] calls) -> drawing s jt c a = Some (d (applied c (accepted jt [] calls)) a)) /\
                (~ fields_of c (accepted jt [] calls) -> drawing s jt c a = Some (Err EType)).
Proof.
  intros HD s0 W0 P0.
  assert (G : forall calls, Forall (fun c => keys_distinct (snd c)) calls -> forall s : reg, wf_reg s -> forall acc : string -> changes,
     (forall jt, known s jt <-> known s0 jt) -> (forall jt, dget String.eqb (r_gains s) jt = dget String.eqb (r_gains s0) jt) ->
     (forall jt jm d, dget String.eqb (r_types s0) jt = Some jm -> jm_draw jm = Some d ->
        previous s jt = acc jt /\ dget String.eqb (r_q s) jt = dget String.eqb (r_q s0) jt /\ dget String.eqb (r_qd s) jt = dget String.eqb (r_qd s0) jt /\
        forall c a, (fields_of c (acc jt) -> drawing s jt c a = Some (d (applied c (acc jt)) a)) /\ (~ fields_of c (acc jt) -> drawing s jt c a = Some (Err EType))) ->
     let s' := run_calls calls s in
     wf_reg s' /\ (forall jt, known s' jt <-> known s0 jt) /\ (forall jt, dget String.eqb (r_gains s') jt = dget String.eqb (r_gains s0) jt) /\
     forall jt jm d, dget String.eqb (r_types s0) jt = Some jm -> jm_draw jm = Some d ->
        previous s' jt = accepted jt (acc jt) calls /\ dget String.eqb (r_q s') jt = dget String.eqb (r_q s0) jt /\ dget String.eqb (r_qd s') jt = dget String.eqb (r_qd s0) jt /\
        forall c a, (fields_of c (accepted jt (acc jt) calls) -> drawing s' jt c a = Some (d (applied c (accepted jt (acc jt) calls)) a)) /\
                    (~ fields_of c (accepted jt (acc jt) calls) -> drawing s' jt c a = Some (Err EType))).
  { clear HD calls. induction calls as [|[jt0 ch] calls IH]; intros HD s W acc KN GA INV; [cbn; auto|].
    inversion HD as [|? ? HD1 HD2]; subst. cbn [snd] in HD1. cbn [run_calls accepted]. destruct (overwrite_for_joint_type jt0 ch s) as [s1 r] eqn:E. cbn [fst].
    destruct (C60_overwrite s jt0 ch s1 r W E) as (C1 & C2 & C3 & C4 & C5 & C6).
    assert (KS : forall jt, known s1 jt <-> known s jt).
    { intros jt. destruct (String.eqb_spec jt jt0) as [->|N].
      - destruct C2 as [->| ->].
        + destruct (C5 eq_refl) as (jm & H1 & H2 & _). unfold known. rewrite H1, H2. split; intros _; eexists; reflexivity.
        + destruct (C6 ltac:(discriminate)) as ((H1 & _) & _). unfold known. now rewrite H1.
      - destruct (C4 jt N) as ((H1 & _) & _). unfold known. now rewrite H1. }
    assert (GS : forall jt, dget String.eqb (r_gains s1) jt = dget String.eqb (r_gains s) jt).
    { intros jt. destruct (String.eqb_spec jt jt0) as [->|N].
      - destruct C2 as [->| ->].
        + destruct (C5 eq_refl) as (jm & _ & _ & _ & _ & H5 & _). exact H5.
        + destruct (C6 ltac:(discriminate)) as ((_ & _ & _ & H1) & _). exact H1.
      - destruct (C4 jt N) as ((_ & _ & _ & H1) & _). exact H1. }
    specialize (IH HD2 s1 C3 (fun jt => if String.eqb jt jt0 then (if clashb (acc jt) ch then acc jt else acc jt ++ ch) else acc jt)).
    cbv zeta beta in IH. apply IH; [intros jt; rewrite KS; apply KN | intros jt; rewrite GS; apply GA |]. clear IH. intros jt jm d E0 D0.
    destruct (INV jt jm d E0 D0) as (V1 & V2 & V3 & V4). destruct (String.eqb_spec jt jt0) as [->|N].
    - destruct (clashb (acc jt0) ch) eqn:CL.
      + assert (R1 : r <> Ok tt). { intros ->. destruct C1 as (C1 & _). destruct (C1 eq_refl) as (_ & NC). apply NC. rewrite V1. now apply clashb_spec. }
        destruct (C6 R1) as (_ & EQ). rewrite EQ; [auto|]. apply KN. now exists jm.
      + assert (R1 : r = Ok tt). { apply C1. split; [apply KN; now exists jm|]. rewrite V1. intros X. apply clashb_spec in X. congruence. }
        destruct (C5 R1) as (jm1 & H1 & H2 & H3 & H4 & _ & H6). split; [|split; [congruence|split; [congruence|]]].
        * rewrite H6, V1. apply update_app; [exact HD1|]. intros X. apply clashb_spec in X. congruence.
        * intros c a. unfold drawing. rewrite H2. cbn [jm_draw overwritten].
          assert (DR : forall c', drawing s jt0 c' a = match jm_draw jm1 with Some d => Some (d c' a) | None => None end) by (intros; unfold drawing; now rewrite H1).
          destruct (jm_draw jm1) as [d1|] eqn:D1.
          2:{ exfalso. destruct (V4 c a) as (P1 & P2). rewrite DR in P1, P2. destruct (fields_dec c (acc jt0)) as [F|F]; [specialize (P1 F) | specialize (P2 F)]; discriminate. }
          split; intros F.
          { apply fields_app in F. destruct F as (F1 & F2). rewrite (replace_ok _ _ F2). cbn [bind]. rewrite <- DR. destruct (V4 (applied c ch) a) as (P1 & _).
            rewrite P1 by now apply fields_applied. now rewrite applied_twice. }
          { destruct (fields_dec c ch) as [F2|F2].
            - rewrite (replace_ok _ _ F2). cbn [bind]. rewrite <- DR. destruct (V4 (applied c ch) a) as (_ & P2). apply P2. intros X. apply fields_applied in X. apply F, fields_app. auto.
            - destruct (C60_replace c ch) as (_ & N). now rewrite N. }
    - destruct (C4 jt N) as ((H1 & H2 & H3 & _) & H5). split; [congruence|]. split; [congruence|]. split; [congruence|].
      intros c a. unfold drawing. rewrite H1. apply V4. }
  apply (G calls HD s0 W0 (fun _ => [])); [reflexivity|reflexivity|]. intros jt jm d E D. split; [apply P0|]. split; [reflexivity|]. split; [reflexivity|].
  intros c a. unfold drawing. rewrite E, D, applied_nil. split; [reflexivity|]. intros X. exfalso. apply X. intros k v [].
Qed.
End Registry.

(** ** Subsystems *)
Lemma app_len (a b : string) : String.length (a ++ b) = (String.length a + String.length b)%nat.
Proof. induction a as [|x a IH]; cbn; [reflexivity|]. now rewrite IH. Qed.
Lemma app_inj_r (p a b : string) : (a ++ p)%string = (b ++ p)%string -> a = b.
Proof.
  revert b. induction a as [|x a IH]; intros [|y b] E; cbn in E; auto.
  - exfalso. assert (L : String.length p = String.length (String y (b ++ p))) by now rewrite <- E. cbn in L. rewrite app_len in L. lia.
  - exfalso. assert (L : String.length p = String.length (String x (a ++ p))) by now rewrite E. cbn in L. rewrite app_len in L. lia.
  - injection E as -> E. f_equal. now apply IH.
Qed.
Lemma not_default (a b : string) : (a ++ "_" ++ b)%string <> "default"%string.
Proof. intros E. do 8 (destruct a as [|? a]; cbn in E; [discriminate E|]; try discriminate E; injection E as _ E). Qed.

Section Subsystem.
Context {A B J Gn : Type}.
Notation reg := (@reg A B J Gn).
(** What one name has after the call: the model of [typ] with the changes, its widths, its gains. *)
Definition derived (s s' : reg) (typ nt : string) (ch : changes) : Prop :=
  exists jm q g, dget String.eqb (r_types s) typ = Some jm /\ dget String.eqb (r_q s) typ = Some q /\ dget String.eqb (r_gains s) typ = Some g /\
    dget String.eqb (r_types s') nt = Some (overwritten ch jm) /\ dget String.eqb (r_q s') nt = Some q /\ dget String.eqb (r_qd s') nt = Some (jm_motion jm) /\
    dget String.eqb (r_gains s') nt = Some g.
Lemma for_types_ok name ch : let p := ("_" ++ name)%string in forall jts (s : reg), wf_reg s -> NoDup jts ->
  (forall t, In t jts -> known s t /\ (exists g, dget String.eqb (r_gains s) t = Some g) /\ ~ known s (t ++ p) /\ previous s (t ++ p) = []) ->
  exists s', for_types p ch jts s = (s', Ok tt) /\ wf_reg s' /\
    (forall t, (forall u, In u jts -> t <> (u ++ p)%string) -> same_type s s' t /\ previous s' t = previous s t) /\
    forall t, In t jts -> derived s s' t (t ++ p) ch.
Proof.
  intros p. induction jts as [|t jts IH]; intros s W ND H.
  - exists s. split; [reflexivity|]. split; [exact W|]. split; [intros; unfold same_type; auto 10|]. intros u [].
  - inversion ND as [|? ? N1 N2]; subst. destruct (H t (or_introl eq_refl)) as ((jm & Ej) & (g & Eg) & NK & PV).
    destruct (W t jm Ej) as (_ & (q & Eq) & Ed). set (nt := (t ++ p)%string) in *.
    assert (NT : nt <> "default"%string) by (unfold nt, p; apply not_default).
    assert (ND' : dget String.eqb (r_types s) nt = None) by (destruct (dget String.eqb (r_types s) nt) eqn:E; [exfalso; apply NK; eexists; eauto|reflexivity]).
    set (s1 := mkReg (dset String.eqb (r_types s) nt jm) (dset String.eqb (r_q s) nt q) (dset String.eqb (r_qd s) nt (jm_motion jm)) (r_changes s) (r_gains s)).
    assert (R1 : register_new_joint_type nt jm q (Some (jm_motion jm)) false s = (s1, Ok tt)).
    { unfold register_new_joint_type, sbind, lift, modify, raise, ret. rewrite (proj2 (String.eqb_neq _ _) NT). unfold dmem. rewrite ND'. cbn [andb]. rewrite Nat.eqb_refl. reflexivity. }
    assert (W1 : wf_reg s1).
    { intros jt jm'. unfold s1. cbn [r_types r_q r_qd]. rewrite !dget_dset_eq. destruct (String.eqb_spec jt nt) as [->|N]; [|apply W].
      intros X. injection X as <-. split; [exact NT|]. split; [now exists q|reflexivity]. }
    assert (P1 : previous s1 nt = []) by exact PV.
    assert (E1 : dget String.eqb (r_types s1) nt = Some jm) by (unfold s1; cbn [r_types]; now rewrite dget_dset_eq, String.eqb_refl).
    assert (Q1 : dget String.eqb (r_q s1) nt = Some q) by (unfold s1; cbn [r_q]; now rewrite dget_dset_eq, String.eqb_refl).
    destruct (overwrite_for_joint_type nt ch s1) as [s2 r2] eqn:E2.
    destruct (C60_overwrite s1 nt ch s2 r2 W1 E2) as (C1 & _ & W2 & C4 & C5 & _).
    assert (r2 = Ok tt). { apply C1. split; [now exists jm|]. rewrite P1. intros (k & [] & _). } subst r2.
    destruct (C5 eq_refl) as (jm' & D1 & D2 & D3 & D4 & D5 & _). assert (jm' = jm) by congruence. subst jm'.
    assert (S2 : forall u, u <> nt -> same_type s s2 u /\ previous s2 u = previous s u).
    { intros u N. destruct (C4 u N) as ((T1 & T2 & T3 & T4) & T5). unfold same_type. rewrite T1, T2, T3, T4, T5. unfold s1, previous. cbn [r_types r_q r_qd r_gains r_changes].
      rewrite !dget_dset_eq, (proj2 (String.eqb_neq _ _) N). auto. }
    assert (TN : t <> nt) by (intros X; rewrite <- X in ND'; congruence).
    assert (G2 : dget String.eqb (r_gains s2) t = Some g) by (destruct (S2 t TN) as ((_ & _ & _ & T4) & _); congruence).
    set (s3 := mkReg (r_types s2) (r_q s2) (r_qd s2) (r_changes s2) (dset String.eqb (r_gains s2) nt g)).
    assert (S3 : forall u, u <> nt -> same_type s s3 u /\ previous s3 u = previous s u).
    { intros u N. destruct (S2 u N) as ((T1 & T2 & T3 & T4) & T5). unfold same_type, s3, previous in *. cbn [r_types r_q r_qd r_gains r_changes].
      rewrite dget_dset_eq, (proj2 (String.eqb_neq _ _) N). auto. }
    destruct (IH s3) as (s' & F & W' & SO & DE); [exact W2|exact N2| |].
    { intros u I. destruct (H u (or_intror I)) as ((jmu & Eju) & (gu & Egu) & NKu & PVu).
      assert (UN : u <> nt) by (intros ->; congruence). assert (UP : (u ++ p)%string <> nt) by (intros X; apply app_inj_r in X; subst u; contradiction).
      destruct (S3 u UN) as ((T1 & _ & _ & T4) & _). destruct (S3 _ UP) as ((T1' & _) & T5'). split; [exists jmu; congruence|]. split; [exists gu; congruence|].
      split; [|congruence]. intros (x & X). apply NKu. exists x. congruence. }
    exists s'. split; [|split; [exact W'|split]].
    + cbn [for_types]. unfold sbind, lift, modify. unfold get_joint_model. rewrite Ej. unfold dgetE. rewrite Eq, Ed. fold nt. rewrite R1, E2, G2. exact F.
    + intros u HU. assert (UN : u <> nt) by (apply HU; now left). destruct (S3 u UN) as ((T1 & T2 & T3 & T4) & T5).
      destruct (SO u) as ((T1' & T2' & T3' & T4') & T5'); [intros v I; apply HU; now right|]. unfold same_type. repeat split; congruence.
    + intros u [<-|I].
      * fold nt. assert (NS : forall u, In u jts -> nt <> (u ++ p)%string) by (intros u I X; apply app_inj_r in X; subst u; contradiction).
        destruct (SO nt NS) as ((T1 & T2 & T3 & T4) & _). exists jm, q, g. repeat (split; [assumption|]). rewrite T1, T2, T3, T4. unfold s3. cbn [r_types r_q r_qd r_gains].
        rewrite dget_dset_eq, String.eqb_refl. split; [exact D2|]. split; [congruence|]. split; [|reflexivity]. rewrite D4. unfold s1. cbn [r_qd]. now rewrite dget_dset_eq, String.eqb_refl.
      * destruct (DE u I) as (jmu & qu & gu & H1 & H2 & H3 & H4). exists jmu, qu, gu.
        assert (UN : u <> nt). { destruct (H u (or_intror I)) as ((jmx & Ejx) & _). intros ->. congruence. }
        destruct (S3 u UN) as ((T1 & T2 & T3 & T4) & _). repeat (split; [congruence|]). exact H4.
Qed.

Definition reg_widths (s : reg) : widths := mkW (dget String.eqb (r_q s)) (dget String.eqb (r_qd s)).
Context {K L G O : Type}.
Notation sysT := (System K L G O).

(** Exactly the links at or below the named one get a joint type of their own, frozen ones excepted; it draws as before, with the changes.
    All other joint types, and everything else of the system, stay as they are. *)
Theorem C60_subsystem order (sys : sysT) (s : reg) k name ch W : wf W sys -> wf_reg s -> nth_error (link_names sys) k = Some name ->
  (forall l, NoDup (order l) /\ forall t, In t (order l) <-> In t l) ->
  (forall i t, descends (link_parents sys) k i -> nth_error (link_types sys) i = Some t -> t <> "frozen"%string ->
     known s t /\ (exists g, dget String.eqb (r_gains s) t = Some g) /\ ~ known s (t ++ "_" ++ name) /\ previous s (t ++ "_" ++ name) = []) ->
  exists s' ts, overwrite_for_subsystem order sys name ch s = (s', Ok (with_types sys ts)) /\ wf_reg s' /\ length ts = num_links sys /\
    (forall i t, nth_error (link_types sys) i = Some t ->
       (descends (link_parents sys) k i -> t <> "frozen"%string -> nth_error ts i = Some (t ++ "_" ++ name)%string /\ derived s s' t (t ++ "_" ++ name) ch) /\
       (~ descends (link_parents sys) k i \/ t = "frozen"%string -> nth_error ts i = Some t)) /\
    (forall t, known s t -> same_type s s' t /\ previous s' t = previous s t).
Proof.
  intros WF WR Hk HO HT. destruct (C55_subsystem_indices W sys k name WF Hk) as (below & EB & _ & IB).
  pose proof (name_idx W sys k name WF Hk) as EN. assert (LT : length (link_types sys) = num_links sys) by (unfold num_links; apply (wf_types _ _ WF)).
  assert (KL : (k < length (link_parents sys))%nat) by (rewrite <- (wf_names _ _ WF); apply nth_error_Some; congruence).
  set (bodies := (below ++ [k])%list).
  assert (IBD : forall i, In i bodies <-> descends (link_parents sys) k i).
  { intros i. unfold bodies. rewrite in_app_iff, IB. cbn [In]. split.
    - intros [(D & _)|[<-|[]]]; [exact D|constructor].
    - intros D. destruct (Nat.eq_dec i k) as [->|N]; auto. }
  assert (GT : forall i, (i < num_links sys)%nat -> exists t, nth_error (link_types sys) i = Some t /\ py_get (link_types sys) (Z.of_nat i) = Ok t).
  { intros i Hi. destruct (nth_error_at (link_types sys) i) as (t & E); [lia|]. exists t. split; [exact E|].
    pose proof (nth_lt _ _ _ E) as HL. unfold py_get. rewrite (proj2 (Z.ltb_ge _ _)) by lia. rewrite (proj2 (Z.leb_le _ _)) by lia. rewrite (proj2 (Z.ltb_lt _ _)) by lia.
    cbn [andb]. rewrite Nat2Z.id, E. reflexivity. }
  assert (BN : forall i, In i bodies -> (i < num_links sys)%nat).
  { intros i I. apply IBD in I. unfold num_links. eapply desc_lt_length; eauto. }
  destruct (choose_list (fun _ i t => nth_error (link_types sys) i = Some t /\ py_get (link_types sys) (Z.of_nat i) = Ok t) bodies) as (ts0 & L0 & H0).
  { intros b i E. apply GT, BN. eauto using nth_error_In. }
  assert (M0 : mapM (fun i => py_get (link_types sys) (Z.of_nat i)) bodies = Ok ts0).
  { apply mapM_spec. split; [exact L0|]. intros b i E. destruct (H0 b i E) as (t & E1 & _ & E2). eauto. }
  set (jts := order (filter (fun t => negb (t =? "frozen")%string) ts0)).
  assert (IJ : forall t, In t jts <-> t <> "frozen"%string /\ exists i, descends (link_parents sys) k i /\ nth_error (link_types sys) i = Some t).
  { intros t. unfold jts. destruct (HO (filter (fun t => negb (t =? "frozen")%string) ts0)) as (_ & HI). rewrite HI, filter_In, negb_true_iff, String.eqb_neq. split.
    - intros (I & N). split; [exact N|]. apply In_nth_error in I. destruct I as (b & Eb). destruct (same_length_nth ts0 bodies b t (eq_sym L0) Eb) as (i & Ei).
      destruct (H0 b i Ei) as (t' & E1 & E2 & _). exists i. split; [apply IBD; eauto using nth_error_In|]. congruence.
    - intros (N & i & D & E). split; [|exact N]. apply IBD, In_nth_error in D. destruct D as (b & Eb). destruct (H0 b i Eb) as (t' & E1 & E2 & _).
      assert (t' = t) by congruence. subst t'. eauto using nth_error_In. }
  destruct (for_types_ok name ch jts s WR) as (s' & F & W' & SO & DE).
  { apply HO. }
  { intros t I. apply IJ in I. destruct I as (N & i & D & E). exact (HT i t D E N). }
  destruct (choose_list (fun i (_ : nat) t' => exists t, nth_error (link_types sys) i = Some t /\ py_get (link_types sys) (Z.of_nat i) = Ok t /\
     t' = (if mem_nat i bodies && negb (t =? "frozen")%string then (t ++ ("_" ++ name))%string else t)) (seq 0 (num_links sys))) as (ts & L1 & H1).
  { intros b i E. pose proof (nth_lt _ _ _ E) as Hb. rewrite seq_length in Hb. destruct (GT b Hb) as (t & E1 & E2). eauto. }
  rewrite seq_length in L1.
  assert (SEQ : forall n i, (i < n)%nat -> nth_error (seq 0 n) i = Some i).
  { intros n i Hi. rewrite (nth_error_nth' _ 0%nat) by (rewrite seq_length; lia). now rewrite seq_nth. }
  assert (M1 : mapM (fun i => do t <- py_get (link_types sys) (Z.of_nat i); Ok (if mem_nat i bodies && negb (t =? "frozen")%string then (t ++ ("_" ++ name))%string else t)) (seq 0 (num_links sys)) = Ok ts).
  { apply mapM_spec. rewrite seq_length. split; [exact L1|]. intros b i E. pose proof (nth_lt _ _ _ E) as Hb. rewrite seq_length in Hb. rewrite SEQ in E by lia. injection E as <-.
    destruct (H1 b b (SEQ _ _ Hb)) as (t' & E' & t & _ & E2 & ->). eexists. split; [exact E'|]. rewrite E2. reflexivity. }
  assert (MEM : forall i, mem_nat i bodies = true <-> descends (link_parents sys) k i).
  { intros i. unfold mem_nat. rewrite existsb_exists, <- IBD. split; [intros (x & I & E); apply Nat.eqb_eq in E; now subst|intros I; exists i; split; [exact I|apply Nat.eqb_refl]]. }
  exists s', ts. split; [|split; [exact W'|split; [exact L1|split]]].
  - unfold overwrite_for_subsystem, sbind, lift, ret. rewrite EB, EN. fold bodies. rewrite M0. fold jts. rewrite F, M1. reflexivity.
  - intros i t E. pose proof (nth_lt _ _ _ E) as Hi. rewrite LT in Hi. destruct (H1 i i (SEQ _ _ Hi)) as (t' & E' & t2 & E2 & _ & ->). assert (t2 = t) by congruence. subst t2. split.
    + intros D N. rewrite (proj2 (MEM i) D), (proj2 (String.eqb_neq _ _) N) in E'. cbn [andb negb] in E'. split; [exact E'|]. apply DE, IJ. eauto.
    + intros [D|X]; [|subst t].
      * destruct (mem_nat i bodies) eqn:EM; [apply MEM in EM; contradiction|]. exact E'.
      * rewrite String.eqb_refl, andb_comm in E'. exact E'.
  - intros t KT. apply SO. intros u I ->. apply IJ in I. destruct I as (N & i & D & E). destruct (HT i u D E N) as (_ & _ & NK & _). contradiction.
Qed.
End Subsystem.

(** ** A small registry: a draw function reports the largest angular velocity it is given. *)
Definition seen : option (config -> unit -> result value) := Some (fun c _ => attr c "dang_max").
Definition small : @reg unit value unit nat :=
  mkReg [("free", mkJM seen 6 tt); ("rx", mkJM seen 1 tt); ("ry", mkJM seen 1 tt); ("frozen", mkJM seen 0 tt); ("mine", mkJM seen 2 tt)]
        [("free", 7%nat); ("rx", 1%nat); ("ry", 1%nat); ("frozen", 0%nat); ("mine", 2%nat)]
        [("free", 6%nat); ("rx", 1%nat); ("ry", 1%nat); ("frozen", 0%nat); ("mine", 2%nat)]
        [] [("free", 60%nat); ("rx", 10%nat); ("ry", 10%nat)].
Ltac small_wf := intros t jm; cbn;
  repeat (match goal with |- context [if String.eqb ?a ?b then _ else _] => destruct (String.eqb_spec a b) as [->|?] end);
  intros X; try discriminate X; injection X as <-; (split; [discriminate|split; [eexists; reflexivity|reflexivity]]).
Example small_wf : wf_reg small.
Proof. small_wf. Qed.

(** An overwrite is seen by the draws of its joint type and by no other ones. *)
Example overwritten_draws : let s' := fst (overwrite_for_joint_type "rx" [("dang_max", VNum 1)] small) in
  draw_link s' default_config "rx" tt = Ok (VNum 1) /\ draw_link s' default_config "ry" tt = Ok (VNum 3) /\
  snd (overwrite_for_joint_type "rx" [("dang_min", VNum 0)] s') = Ok tt /\ snd (overwrite_for_joint_type "rx" [("dang_max", VNum 2)] s') = Err EAssertion.
Proof. repeat split. Qed.
Example history_nontrivial : let calls := [("rx", [("dang_max", VNum 1)]); ("ry", [("dang_max", VNum 2)]); ("rx", [("dang_max", VNum 5)]); ("rx", [("dang_min", VNum 0)])] in
  accepted "rx" [] calls = [("dang_max", VNum 1); ("dang_min", VNum 0)] /\ Forall (fun c => keys_distinct (snd c)) calls /\ (forall jt, previous small jt = []) /\
  fields_of default_config (accepted "rx" [] calls).
Proof.
  cbv zeta. split; [reflexivity|]. split; [|split; [reflexivity|]].
  - repeat (apply Forall_cons; [unfold keys_distinct; cbn; constructor; [intros []|constructor]|]). constructor.
  - change (accepted _ _ _) with [("dang_max", VNum 1); ("dang_min", VNum 0)]. intros k v I. cbn in I.
    repeat (destruct I as [I|I]; [injection I as <- _; cbn; auto 60|]). destruct I.
Qed.

(** A config names every joint type; the overwrite for the type comes after the config's own one. *)
Example overwrite_takes_precedence : exists c, replace default_config [("joint_type_specific_overwrites", VDict [("rx", [("dang_max", VNum 2)])])] = Ok c /\
  draw_link small c "rx" tt = Ok (VNum 2) /\ draw_link small c "ry" tt = Ok (VNum 3) /\
  draw_link (fst (overwrite_for_joint_type "rx" [("dang_max", VNum 1)] small)) c "rx" tt = Ok (VNum 1).
Proof. eexists. split; [reflexivity|]. repeat split. Qed.

(** C60 is false for rejected calls in general: one for a joint type that does not exist yet leaves its names behind,
    and the same call is refused once the type is registered. *)
Theorem C60_failing_effect_refuted : exists (s s1 s2 : @reg unit value unit nat) jt ch jm, wf_reg s /\ ~ known s jt /\
  overwrite_for_joint_type jt ch s = (s1, Err EAssertion) /\ register_new_joint_type jt jm 1 (Some 1%nat) false s1 = (s2, Ok tt) /\
  snd (overwrite_for_joint_type jt ch s2) = Err EAssertion /\
  snd (overwrite_for_joint_type jt ch (fst (register_new_joint_type jt jm 1 (Some 1%nat) false s))) = Ok tt.
Proof.
  set (s1 := fst (overwrite_for_joint_type "new" [("dang_max", VNum 1)] small)).
  exists small, s1, (fst (register_new_joint_type "new" (mkJM seen 1 tt) 1 (Some 1%nat) false s1)), "new", [("dang_max", VNum 1)], (mkJM seen 1 tt). split; [apply small_wf|]. split; [intros (x & X); discriminate X|].
  split; [reflexivity|]. split; [reflexivity|]. split; reflexivity.
Qed.

(** C60 is false for names that are no fields: the call succeeds, every later draw of that joint type fails, and no call can repair it. *)
Theorem C60_unknown_field_refuted : exists (s s' : @reg unit value unit nat) jt ch, wf_reg s /\ overwrite_for_joint_type jt ch s = (s', Ok tt) /\
  draw_link s default_config jt tt = Ok (VNum 3) /\
  forall calls, Forall (fun c => keys_distinct (snd c)) calls -> draw_link (run_calls calls s') default_config jt tt = Err EType.
Proof.
  exists small, (fst (overwrite_for_joint_type "rx" [("dang_maxx", VNum 1)] small)), "rx", [("dang_maxx", VNum 1)]. split; [apply small_wf|]. split; [reflexivity|]. split; [reflexivity|].
  intros calls KD. set (bad := [("dang_maxx", VNum 1)]).
  assert (KB : Forall (fun c : string * changes => keys_distinct (snd c)) (("rx", bad) :: calls)).
  { constructor; [|exact KD]. unfold keys_distinct, bad. cbn. constructor; [intros []|constructor]. }
  destruct (C60_history _ KB small small_wf (fun _ => eq_refl)) as (_ & _ & _ & H).
  destruct (H "rx" (mkJM seen 1 tt) (fun c _ => attr c "dang_max") eq_refl eq_refl) as (_ & _ & _ & D).
  destruct (D default_config tt) as (_ & D2).
  assert (SUB : forall calls acc kv, In kv acc -> In kv (accepted "rx" acc calls)).
  { clear. induction calls as [|[jt ch] calls IH]; intros acc kv I; cbn [accepted]; [exact I|].
    apply IH. destruct (String.eqb _ _); [|exact I]. destruct (clashb _ _); [exact I|]. apply in_app_iff. now left. }
  assert (NP : ~ fields_of default_config (accepted "rx" [] (("rx", bad) :: calls))).
  { intros F. assert (I : In "dang_maxx" (map fst default_config)).
    { apply (F _ (VNum 1)). cbn [accepted]. apply SUB. now left. }
    cbn in I. repeat (destruct I as [I|I]; [discriminate I|]). exact I. }
  specialize (D2 NP). change (run_calls (("rx", bad) :: calls) small) with (run_calls calls (fst (overwrite_for_joint_type "rx" bad small))) in D2.
  set (s2 := run_calls calls _) in *. unfold drawing in D2. unfold draw_link, get_joint_model.
  destruct (dget String.eqb (r_types s2) "rx") as [jm|] eqn:E; [|discriminate]. cbn [bind].
  destruct (jm_draw jm) as [d|]; [|discriminate]. change (d default_config tt = Err EType). now injection D2.
Qed.

(** C60 is false for re-registrations: one that is refused because of its widths has already removed the old joint type. *)
Theorem C60_register_refuted : exists (s s' : @reg unit value unit nat) jt jm, wf_reg s /\ known s jt /\
  register_new_joint_type jt jm 1 (Some 2%nat) true s = (s', Err EAssertion) /\ ~ known s' jt /\ draw_link s' default_config jt tt = Err EAssertion.
Proof.
  exists small, (fst (register_new_joint_type "rx" (mkJM seen 1 tt) 1 (Some 2%nat) true small)), "rx", (mkJM seen 1 tt). split; [apply small_wf|]. split; [eexists; reflexivity|]. split; [reflexivity|]. split; [intros (x & X); discriminate X|reflexivity].
Qed.

(** C60 is false for rest configurations that carry changes for single joint types: these still move. *)
Theorem C60_nomotion_overwrites_refuted : exists c c', feasible c /\ to_nomotion_config c = Ok c' /\
  draw_link small c' "rx" tt = Ok (VNum 0) /\ draw_link small c' "ry" tt = Ok (VNum (2 / 10)).
Proof.
  pose proof PI_RGT_0. set (ch := [("joint_type_specific_overwrites", VDict [("ry", [("dang_max", VNum (2 / 10))])])]). set (c := applied default_config ch).
  assert (N : forall k, k <> "joint_type_specific_overwrites" -> num c k = num default_config k).
  { intros k NE. unfold c. rewrite num_applied. cbn [dget ch]. apply String.eqb_neq in NE. rewrite NE. reflexivity. }
  assert (F : feasible c).
  { pose proof default_feasible as F. rewrite feasible_iff in F |- *. unfold c. rewrite !in_box_applied by reflexivity. fold c. unfold dx_check in *. rewrite !N by discriminate. exact F. }
  assert (FO : fields_of c zeroed) by (intros k v I; unfold c; rewrite applied_keys; eapply default_fields; exact I).
  destruct (C60_nomotion c (5 / 100) (2 * PI) (2 * PI) 0 F FO) as (c' & E & _ & K1 & K2 & K3); try (rewrite N by discriminate; reflexivity); try lra.
  exists c, c'. split; [exact F|]. split; [exact E|].
  assert (A1 : attr c' "joint_type_specific_overwrites" = Ok (VDict [("ry", [("dang_max", VNum (2 / 10))])])).
  { unfold attr, dgetE. fold (get c' "joint_type_specific_overwrites"). rewrite K3; [reflexivity|]. cbn. intuition discriminate. }
  assert (A2 : attr c' "dang_max" = Ok (VNum 0)).
  { unfold attr, dgetE. fold (get c' "dang_max"). rewrite K2; [reflexivity|]. cbn. auto 10. }
  split; unfold draw_link, get_joint_model, small; cbn [r_types dget]; rewrite A1; cbn; [exact A2|].
  assert (FO1 : fields_of c' [("dang_max", VNum (2 / 10))]).
  { intros k v [I|[]]. injection I as <- _. rewrite K1. unfold c. rewrite applied_keys. cbn. auto 10. }
  rewrite (replace_ok _ _ FO1). cbn [bind]. unfold attr, dgetE. fold (get (applied c' [("dang_max", VNum (2 / 10))]) "dang_max"). rewrite get_applied, K2 by (cbn; auto 10). reflexivity.
Qed.

(** ** A small system: a free base with two hinges and a fixed pad. *)
Definition chain : System unit unit unit unit :=
  mkSys [-1; 0; 1; 1]%Z [tt; tt; tt; tt] ["free"; "rx"; "frozen"; "ry"] (repeat tt 8) (repeat tt 8) (repeat tt 8) (repeat tt 9)
    tt [] [] "semi_implicit_euler" 0%nat ["seg1"; "seg2"; "pad"; "seg3"] None [tt; tt; tt; tt].
Definition small_W : widths := reg_widths small.
Example chain_wf : wf small_W chain.
Proof.
  constructor; try reflexivity.
  - repeat constructor; cbn; intuition discriminate.
  - intros i p E. do 4 (destruct i as [|i]; [injection E as <-; lia|]). destruct i; discriminate.
  - constructor.
  - exists [7; 1; 0; 1]%nat, [6; 1; 0; 1]%nat. repeat split; repeat constructor.
Qed.
Example subsystem_result : exists s', overwrite_for_subsystem (fun l => l) chain "seg2" [("dang_max", VNum 1)] small =
    (s', Ok (with_types chain ["free"; "rx_seg2"; "frozen"; "ry_seg2"])) /\
  map (fun t => draw_link s' default_config t tt) ["free"; "rx"; "ry"; "rx_seg2"; "ry_seg2"] = [Ok (VNum 3); Ok (VNum 3); Ok (VNum 3); Ok (VNum 1); Ok (VNum 1)].
Proof. exists (fst (overwrite_for_subsystem (fun l => l) chain "seg2" [("dang_max", VNum 1)] small)). split; reflexivity. Qed.

(** C60 is false for a subsystem that was changed before: the second call succeeds, but the first value stays. *)
Theorem C60_subsystem_twice_refuted : exists (s s1 s2 : @reg unit value unit nat) (sys sys1 sys2 : System unit unit unit unit) root1 root2, wf_reg s /\
  overwrite_for_subsystem (fun l => l) sys root1 [("dang_max", VNum 1)] s = (s1, Ok sys1) /\
  overwrite_for_subsystem (fun l => l) sys1 root2 [("dang_max", VNum 2)] s1 = (s2, Ok sys2) /\
  exists t, nth_error (link_types sys2) 1 = Some t /\ draw_link s2 default_config t tt = Ok (VNum 1).
Proof.
  set (r1 := overwrite_for_subsystem (fun l => l) chain "seg2" [("dang_max", VNum 1)] small).
  set (sys1 := with_types chain ["free"; "rx_seg2"; "frozen"; "ry_seg2"]).
  set (r2 := overwrite_for_subsystem (fun l => l) sys1 "seg1" [("dang_max", VNum 2)] (fst r1)).
  exists small, (fst r1), (fst r2), chain, sys1, (with_types chain ["free_seg1"; "rx_seg2_seg1"; "frozen"; "ry_seg2_seg1"]), "seg2", "seg1".
  split; [apply small_wf|]. split; [reflexivity|]. split; [reflexivity|]. exists "rx_seg2_seg1". split; reflexivity.
Qed.

(** C60 is false for joint types of the user: the call fails for want of P gains, but leaves the new type behind; giving gains does not help afterwards. *)
Theorem C60_subsystem_user_type_refuted : exists (s s1 : @reg unit value unit nat) (sys : System unit unit unit unit) root ch, wf_reg s /\
  overwrite_for_subsystem (fun l => l) sys root ch s = (s1, Err EKey) /\ known s1 "mine_arm" /\ ~ known s "mine_arm" /\
  snd (overwrite_for_subsystem (fun l => l) sys root ch (mkReg (r_types s1) (r_q s1) (r_qd s1) (r_changes s1) (("mine", 1%nat) :: r_gains s1))) = Err EAssertion.
Proof.
  set (sys := mkSys [-1]%Z [tt] ["mine"] (repeat tt 2) (repeat tt 2) (repeat tt 2) (repeat tt 2) tt [] [] "semi_implicit_euler" 0%nat ["arm"] None [tt] : System unit unit unit unit).
  exists small, (fst (overwrite_for_subsystem (fun l => l) sys "arm" [("dang_max", VNum 1)] small)), sys, "arm", [("dang_max", VNum 1)].
  split; [apply small_wf|]. split; [reflexivity|]. split; [eexists; reflexivity|]. split; [intros (x & X); discriminate X|reflexivity].
Qed.

Print Assumptions C60_subsystem.
Print Assumptions C60_history.
Print Assumptions C60_feasible.
