(** * Proofs about hiding the injected bodies again (C47). *)
From Coq Require Import Reals ZArith String Ascii Lia Bool List Permutation.
From Verif Require Import Prelude M_Sys M_Compose M_Math M_Geom M_Xml M_Pd S_Sys S_Morph P_Scan P_Sys P_Delete P_Delete2 P_Update P_Inject P_History P_Pd
  S_Xml P_Xml P_XmlTree P_XmlLoad C_Xml M_Artifact S_Artifact P_Morph M_Joint P_Run P_Artifact.
Import ListNotations.
Local Open Scope string_scope.
Local Open Scope list_scope.

(** ** Depth-first numbering *)
Lemma desc_trans lam a b c : descends lam a b -> descends lam b c -> descends lam a c.
Proof. intros H X. induction X; auto. eapply desc_step; eauto. Qed.
Lemma desc_le lam a i : topo lam -> descends lam a i -> (a <= i)%nat.
Proof. intros T H. induction H as [|i p E _ IH]; auto. specialize (T _ _ E). lia. Qed.
(** A subtree is an interval. *)
Lemma subtree_interval lam q j : topo lam -> depth_first lam -> descends lam q j -> forall i, (q <= i <= j)%nat -> descends lam q i.
Proof.
  intros T DF. induction j as [|j IH]; intros H i Hi.
  - assert (i = 0)%nat by lia. assert (q = 0)%nat by lia. subst. constructor.
  - destruct (Nat.eq_dec i (S j)) as [->|N]; [exact H|]. apply IH; [|lia]. inversion H as [E|i' p E D E']; [lia|].
    eapply desc_trans; [exact D|]. now apply DF.
Qed.

Section Hide.
Context {J : Type}.
Notation view := (link_view R (plink J) (option omc_link)).
Variable W : widths.
Variable jinit : list string -> result (list J).
Variable registered has_init : string -> bool.
Variable reload : xsys J -> result (xsys J).
Variable rs rd p ts td : R.
Hypothesis WD : qW W "frozen" = Some 0%nat /\ dW W "frozen" = Some 0%nat.
Hypothesis REG : registered "frozen" = true /\ has_init "frozen" = false.
Variable s mid s1 : xsys J.
Variable is order : list nat.
Hypothesis PS : parsed W xml_ops s.
Hypothesis SOME : link_parents s <> [].
Hypothesis DF : depth_first (link_parents s).
Hypothesis FROZEN : forall i n t, nth_error (link_names s) i = Some n -> nth_error (link_types s) i = Some t -> imu_name n -> t = "frozen".
Hypothesis WC : with_carriers W rs rd p ts td s mid is.
Hypothesis PM : parsed W xml_ops mid.
Hypothesis RL : reloaded W jinit mid s1 order.

Lemma frame_views : exists vs vs1 vs2 ws, views W s vs /\ views W mid (vs1 ++ vs2) /\ Forall2 (softened rs rd) vs vs1 /\
  Forall2 (fun i v' => exists v, nth_error vs i = Some v /\ carrier p ts td (v_name v) v') is vs2 /\
  views W s1 ws /\ Forall2 (fun i w => exists v, nth_error (vs1 ++ vs2) i = Some v /\ same_view v w) order ws /\
  length vs = num_links s /\ length vs1 = num_links s /\ length vs2 = length is /\ num_links mid = (num_links s + length is)%nat /\
  num_links s1 = num_links mid /\ length ws = num_links s1 /\ length order = num_links s1.
Proof.
  destruct (wc_views _ _ _ _ _ _ _ _ _ WC) as (vs & vs1 & vs2 & V & V' & S1 & S2). destruct (rl_views _ _ _ _ _ RL) as (us & ws & U & V1 & X).
  assert (us = vs1 ++ vs2) by (eapply views_unique; eauto). subst us. exists vs, vs1, vs2, ws.
  destruct (views_lengths W _ _ V) as (_ & _ & _ & _ & L). destruct (views_lengths W _ _ V') as (_ & _ & _ & _ & L'). destruct (views_lengths W _ _ V1) as (_ & _ & _ & _ & L1).
  pose proof (Forall2_length _ _ _ S1). pose proof (Forall2_length _ _ _ S2). pose proof (Forall2_length _ _ _ X).
  pose proof (Permutation_length (rl_permutation _ _ _ _ _ RL)) as LP. rewrite seq_length in LP. rewrite app_length in L'.
  repeat (split; [assumption|]). repeat split; lia.
Qed.

Lemma order_bij i : (i < num_links mid)%nat -> exists m, nth_error order m = Some i /\ (m < num_links s1)%nat.
Proof.
  intros H. assert (I : In i order). { eapply Permutation_in; [apply Permutation_sym; apply (rl_permutation _ _ _ _ _ RL)|]. apply in_seq. lia. }
  apply In_nth_error in I. destruct I as [m Hm]. exists m. split; auto. destruct frame_views as (vs & vs1 & vs2 & ws & _ & _ & _ & _ & _ & _ & _ & _ & _ & _ & _ & _ & L).
  rewrite <- L. apply nth_error_Some. congruence.
Qed.
Lemma order_lt m i : nth_error order m = Some i -> (i < num_links mid)%nat.
Proof. intros H. apply nth_error_In in H. eapply Permutation_in in H; [|apply (rl_permutation _ _ _ _ _ RL)]. apply in_seq in H. lia. Qed.
Lemma order_inj m m' i : nth_error order m = Some i -> nth_error order m' = Some i -> m = m'.
Proof.
  apply NoDup_nth_error_inj. eapply Permutation_NoDup; [apply Permutation_sym; apply (rl_permutation _ _ _ _ _ RL)|]. apply seq_NoDup.
Qed.

(** Link [m] of the system with attachments is an IMU exactly if it is one of the new links. *)
Lemma imu_link m i n : nth_error order m = Some i -> nth_error (link_names s1) m = Some n ->
  ((i < num_links s)%nat -> ~ imu_name n) /\
  ((num_links s <= i)%nat -> imu_name n /\ exists j, nth_error is (i - num_links s) = Some j /\ nth_error (link_names s) j = Some n).
Proof.
  destruct frame_views as (vs & vs1 & vs2 & ws & V & V' & S1 & S2 & V1 & X & L0 & L1 & L2 & L3 & L4 & L5 & L6). intros Em En.
  destruct (Forall2_nth_l _ _ _ _ _ X Em) as (w & Ew & v & Ev & (AN & _) & _). destruct V1 as (EN & _). rewrite EN, nth_error_map, Ew in En. cbn in En. injection En as <-. rewrite AN.
  split; intros Hi.
  - rewrite nth_error_app1 in Ev by lia. destruct (Forall2_nth_r _ _ _ _ _ S1 Ev) as (u & Eu & Y1 & Y2). destruct (is_imu_name (v_name u)) eqn:IM.
    + apply is_imu_name_spec in IM. destruct (Y1 IM) as [(Y & _) _]. rewrite Y. cbn [v_name]. apply ref_not_imu.
    + assert (NI : ~ imu_name (v_name u)) by (intros Z; apply is_imu_name_spec in Z; congruence). destruct (Y2 NI) as [(Y & _) _]. now rewrite Y.
  - rewrite nth_error_app2 in Ev by lia. rewrite L1 in Ev. destruct (Forall2_nth_r _ _ _ _ _ S2 Ev) as (j & Ej & u & Eu & (Y & _) & _). cbn [v_name] in Y.
    assert (NJ : nth_error (link_names s) j = Some (v_name v)) by (destruct V as (-> & _); rewrite nth_error_map, Eu; cbn; congruence).
    split; [|exists j; auto]. apply nth_error_In in Ej. apply (wc_imus _ _ _ _ _ _ _ _ _ WC) in Ej. destruct Ej as (n & En & IM). congruence.
Qed.

Lemma findall_spec n : In n (findall_imus s1) <-> exists m i, nth_error order m = Some i /\ (num_links s <= i)%nat /\ nth_error (link_names s1) m = Some n.
Proof.
  destruct frame_views as (vs & vs1 & vs2 & ws & V & V' & S1 & S2 & V1 & X & L0 & L1 & L2 & L3 & L4 & L5 & L6).
  unfold findall_imus. rewrite filter_In. split.
  - intros [H IM]. apply is_imu_name_spec in IM. apply In_nth_error in H. destruct H as [m Hm].
    assert (Lm : (m < length order)%nat). { rewrite L6, <- L5. destruct V1 as (EN & _). rewrite EN in Hm. rewrite <- (map_length v_name). apply nth_error_Some. congruence. }
    destruct (nth_error order m) as [i|] eqn:Ei; [|apply nth_error_None in Ei; lia]. exists m, i. split; auto. split; auto.
    destruct (Nat.lt_ge_cases i (num_links s)) as [Y|Y]; auto. exfalso. revert IM. eapply imu_link; eauto.
  - intros (m & i & Em & Hi & En). split; [eapply nth_error_In; eauto|]. apply is_imu_name_spec. eapply imu_link; eauto.
Qed.

(** The names of the IMUs are those of the original system. *)
Lemma findall_same n : In n (findall_imus s1) <-> In n (link_names s) /\ imu_name n.
Proof.
  destruct frame_views as (vs & vs1 & vs2 & ws & V & V' & S1 & S2 & V1 & X & L0 & L1 & L2 & L3 & L4 & L5 & L6). rewrite findall_spec. split.
  - intros (m & i & Em & Hi & En). destruct (imu_link m i n Em En) as [_ Y]. destruct (Y Hi) as (IM & j & _ & Ej). split; auto. eapply nth_error_In; eauto.
  - intros [H IM]. apply In_nth_error in H. destruct H as [j Hj]. assert (I : In j is) by (apply (wc_imus _ _ _ _ _ _ _ _ _ WC); eauto).
    apply In_nth_error in I. destruct I as [k Hk]. assert (Lk : (k < length is)%nat) by (apply nth_error_Some; congruence).
    destruct (order_bij (num_links s + k)) as (m & Em & Lm); [lia|]. exists m, (num_links s + k)%nat. split; auto. split; [lia|].
    destruct V1 as (EN & _). destruct (nth_error ws m) as [w|] eqn:Ew; [|apply nth_error_None in Ew; lia].
    rewrite EN, nth_error_map, Ew. cbn [option_map]. f_equal. destruct (Forall2_nth_l _ _ _ _ _ X Em) as (w' & Ew' & v & Ev & (AN & _) & _).
    assert (w' = w) by congruence. subst w'. rewrite nth_error_app2 in Ev by lia. replace (num_links s + k - length vs1)%nat with k in Ev by lia.
    destruct (Forall2_nth_l _ _ _ _ _ S2 Hk) as (v' & Ev' & u & Eu & (Y & _) & _). cbn [v_name] in Y.
    destruct V as (EN0 & _). rewrite EN0, nth_error_map, Eu in Hj. cbn in Hj. congruence.
Qed.

(** Parents in the system with attachments. *)
Lemma parent_s1 m i q : nth_error order m = Some i -> nth_error (link_parents s1) m = Some (Z.of_nat q) ->
  exists j, nth_error order q = Some j /\ (j < num_links s)%nat /\
    ((i < num_links s)%nat -> nth_error (link_parents s) i = Some (Z.of_nat j)).
Proof.
  intros Em Eq. destruct (Forall2_nth_l _ _ _ _ _ (rl_parents _ _ _ _ _ RL) Em) as (q' & Eq' & z & Ez & SP).
  assert (q' = Z.of_nat q) by congruence. subst q'. destruct SP as [[_ ?]|(m' & j & -> & E & Ej)]; [lia|]. apply Nat2Z.inj in E. subst m'.
  exists j. split; auto. rewrite (wc_parents _ _ _ _ _ _ _ _ _ WC) in Ez. unfold num_links. destruct (Nat.lt_ge_cases i (length (link_parents s))) as [L|L].
  - rewrite nth_error_app1 in Ez by auto. split; [|auto]. pose proof (wf_topo _ _ (pd_wf _ _ _ PS) _ _ Ez). lia.
  - rewrite nth_error_app2 in Ez by auto. rewrite nth_error_map in Ez. destruct (nth_error is (i - length (link_parents s))) as [k|] eqn:Ek; [|discriminate].
    cbn in Ez. injection Ez as Ez. apply Nat2Z.inj in Ez. subst k. apply nth_error_In in Ek. apply (wc_imus _ _ _ _ _ _ _ _ _ WC) in Ek. destruct Ek as (n & En & _).
    split; [|lia]. assert (j < length (link_names s))%nat by (apply nth_error_Some; congruence). pose proof (wf_names _ _ (pd_wf _ _ _ PS)). lia.
Qed.

Lemma survives_iff m : survives s1 (findall_imus s1) m <-> exists i, nth_error order m = Some i /\ (i < num_links s)%nat.
Proof.
  destruct frame_views as (vs & vs1 & vs2 & ws & V & V' & S1 & S2 & V1 & X & L0 & L1 & L2 & L3 & L4 & L5 & L6). split.
  - intros [Lm H]. destruct (nth_error order m) as [i|] eqn:Ei; [|apply nth_error_None in Ei; lia]. exists i. split; auto.
    destruct (Nat.lt_ge_cases i (num_links s)) as [Y|Y]; auto. exfalso.
    assert (exists n, nth_error (link_names s1) m = Some n) as [n En].
    { destruct (nth_error (link_names s1) m) eqn:E; eauto. apply nth_error_None in E. destruct V1 as (EN & _). rewrite EN, map_length in E. lia. }
    apply (H m n); auto; [|constructor]. apply findall_spec. eauto.
  - intros (i & Ei & Hi). split; [rewrite <- L6; apply nth_error_Some; congruence|]. intros k n Hn En D.
    apply findall_spec in Hn. destruct Hn as (k' & i' & Ek & Hi' & En').
    assert (k' = k) by (eapply NoDup_nth_error_inj; eauto; apply (wf_unique _ _ (pd_wf _ _ _ (rl_parsed _ _ _ _ _ RL)))). subst k'.
    assert (K : forall j, descends (link_parents s1) k j -> j = k).
    { intros j Hj. induction Hj as [|j q Eq _ IH]; auto. subst q. assert (Lj : (j < length order)%nat).
      { rewrite L6. unfold num_links. apply nth_error_Some. congruence. }
      destruct (nth_error order j) as [ij|] eqn:Ej; [|apply nth_error_None in Ej; lia].
      destruct (parent_s1 j ij k Ej Eq) as (jj & Ejj & Ljj & _). assert (jj = i') by congruence. lia. }
    apply K in D. subst k. assert (i' = i) by congruence. lia.
Qed.

(** Whatever the original order was, the result of deleting is in depth-first order. *)
Lemma deleted_depth_first s2 : delete_subsystem W xml_ops s1 (findall_imus s1) true = Ok s2 -> parsed W xml_ops s2 /\ depth_first (link_parents s2).
Proof.
  intros E2. pose proof (rl_parsed _ _ _ _ _ RL) as P1.
  destruct (delete_list_restricts W xml_ops xml_laws (findall_imus s1) s1 s2 true P1 E2) as (keep & P2 & RS & KEEP & _). split; [exact P2|].
  pose proof (rs_parents _ _ _ _ RS) as RP. apply Forall2_nth_iff in RP. destruct RP as [RPL RP].
  assert (T2 : topo (link_parents s2)) by apply (wf_topo _ _ (pd_wf _ _ _ P2)).
  intros i2 p2 Ep. assert (exists m, nth_error keep (S i2) = Some m) as [j1 K1].
  { destruct (nth_error keep (S i2)) eqn:E; eauto. apply nth_error_None in E. assert (S i2 < length (link_parents s2))%nat by (apply nth_error_Some; congruence). lia. }
  assert (exists m, nth_error keep i2 = Some m) as [j0 K0].
  { destruct (nth_error keep i2) eqn:E; eauto. apply nth_error_None in E. assert (S i2 < length keep)%nat by (apply nth_error_Some; congruence). lia. }
  destruct (RP _ _ _ K1 Ep) as (q1 & Eq1 & SP). destruct SP as [[_ Y]|(b & q & -> & Y & Eb)]; [lia|]. apply Nat2Z.inj in Y. subst b.
  pose proof (T2 _ _ Ep) as Lp. pose proof (rs_increasing _ _ _ _ RS) as INC. pose proof (INC i2 (S i2) j0 j1 ltac:(lia) K0 K1) as Lj.
  assert (Lq : (q <= j0)%nat). { destruct (Nat.eq_dec p2 i2) as [->|N]; [assert (q = j0) by congruence; lia|]. pose proof (INC p2 i2 q j0 ltac:(lia) Eb K0). lia. }
  apply (descends_restricts W s1 s2 keep p2 i2 q j0 RS Eb K0). destruct j1 as [|j1]; [lia|].
  apply (subtree_interval _ q j1); [apply (wf_topo _ _ (pd_wf _ _ _ P1))|apply (rl_depth_first _ _ _ _ _ RL)|now apply (rl_depth_first _ _ _ _ _ RL)|lia].
Qed.

(** Deleting the new links restores the original order. *)
Lemma deleted : exists s2 us vs, delete_subsystem W xml_ops s1 (findall_imus s1) true = Ok s2 /\ parsed W xml_ops s2 /\
  link_parents s2 = link_parents s /\ views W s vs /\ views W s2 us /\ Forall2 (softened rs rd) vs us /\
  (forall i, (i < num_links s)%nat -> attached (Z.of_nat i) (geoms s2) = if in_dec Nat.eq_dec i is then [] else attached (Z.of_nat i) (geoms s)) /\
  sys_dt s2 = sys_dt s /\ gravity s2 = gravity s /\ integration_method s2 = integration_method s /\ mass_mat_iters s2 = mass_mat_iters s /\
  model_name s2 = model_name s.
Proof.
  destruct frame_views as (vs & vs1 & vs2 & ws & V & V' & S1 & S2 & V1 & X & L0 & L1 & L2 & L3 & L4 & L5 & L6).
  pose proof (rl_parsed _ _ _ _ _ RL) as P1.
  assert (NZ : (0 < num_links s)%nat) by (unfold num_links; destruct (link_parents s); [congruence|cbn; lia]).
  destruct (delete_strict_total W xml_ops xml_laws (findall_imus s1) s1 P1) as (s2 & E2).
  { destruct (order_bij 0) as (m & Em & _); [lia|]. exists m. apply survives_iff. eauto. }
  { intros n H. apply findall_spec in H. destruct H as (m & i & _ & _ & H). eapply nth_error_In; eauto. }
  { intros a b na nb ka kb Hab Ha Hb Ka Kb D. assert (Ina : In na (findall_imus s1)) by (eapply nth_error_In; eauto). assert (Inb : In nb (findall_imus s1)) by (eapply nth_error_In; eauto).
    apply findall_spec in Ina. destruct Ina as (m & i & Em & Hi & En). assert (m = ka) by (eapply NoDup_nth_error_inj; eauto; apply (wf_unique _ _ (pd_wf _ _ _ P1))). subst m.
    assert (ka <> kb). { intros ->. assert (na = nb) by congruence. subst nb. assert (ND : NoDup (findall_imus s1)) by (apply NoDup_filter; apply (wf_unique _ _ (pd_wf _ _ _ P1))).
      pose proof (NoDup_nth_error_inj _ _ _ _ ND Ha Hb). lia. }
    inversion D as [|j q Eq D' Ej]; subst; [congruence|]. assert (K : forall j, descends (link_parents s1) ka j -> j = ka).
    { clear - Em Hi L6 PS WC RL. intros j Hj. induction Hj as [|j q Eq _ IH]; auto. subst q. assert (Lj : (j < length order)%nat).
      { rewrite L6. unfold num_links. apply nth_error_Some. congruence. }
      destruct (nth_error order j) as [ij|] eqn:Ej; [|apply nth_error_None in Ej; lia].
      destruct (parent_s1 j ij ka Ej Eq) as (jj & Ejj & Ljj & _). assert (jj = i) by congruence. lia. }
    apply K in D. congruence. }
  destruct (delete_list_restricts W xml_ops xml_laws (findall_imus s1) s1 s2 true P1 E2) as (keep & P2 & RS & KEEP & _).
  assert (KE : forall m2 m, nth_error keep m2 = Some m -> exists i, nth_error order m = Some i /\ (i < num_links s)%nat).
  { intros m2 m H. apply nth_error_In in H. apply KEEP, survives_iff in H. exact H. }
  set (order2 := map (fun m => nth m order 0%nat) keep).
  assert (O2 : forall m2 m, nth_error keep m2 = Some m -> exists i, nth_error order m = Some i /\ nth_error order2 m2 = Some i /\ (i < num_links s)%nat).
  { intros m2 m H. destruct (KE m2 m H) as (i & Ei & Li). exists i. split; auto. split; auto. unfold order2. rewrite nth_error_map, H. cbn. f_equal. now apply nth_error_nth. }
  assert (O2' : forall m2 i, nth_error order2 m2 = Some i -> exists m, nth_error keep m2 = Some m /\ nth_error order m = Some i /\ (i < num_links s)%nat).
  { intros m2 i H. destruct (nth_error keep m2) as [m|] eqn:Ek; [|unfold order2 in H; rewrite nth_error_map, Ek in H; discriminate].
    destruct (O2 m2 m Ek) as (i' & A & B & C). exists m. assert (i' = i) by congruence. subst i'. auto. }
  assert (NDK : NoDup keep) by (apply increasing_NoDup; apply (rs_increasing _ _ _ _ RS)).
  assert (PM2 : Permutation order2 (seq 0 (length (link_parents s)))).
  { apply NoDup_Permutation; [|apply seq_NoDup|].
    - apply NoDup_nth_error. intros a b La E. destruct (nth_error order2 a) as [i|] eqn:Ea; [|apply nth_error_None in Ea; lia]. symmetry in E.
      destruct (O2' _ _ Ea) as (ma & Ka & Oa & _). destruct (O2' _ _ E) as (mb & Kb & Ob & _). pose proof (order_inj _ _ _ Oa Ob). subst mb. eapply NoDup_nth_error_inj; eauto.
    - intros i. rewrite in_seq. split.
      + intros H. apply In_nth_error in H. destruct H as [a Ha]. destruct (O2' _ _ Ha) as (m & _ & _ & H). unfold num_links in H. lia.
      + intros H. destruct (order_bij i) as (m & Em & _); [unfold num_links in *; lia|]. assert (K : In m keep) by (apply KEEP, survives_iff; exists i; split; auto; unfold num_links; lia).
        apply In_nth_error in K. destruct K as [a Ha]. destruct (O2 _ _ Ha) as (i' & A & B & _). assert (i' = i) by congruence. subst i'. eapply nth_error_In; eauto. }
  pose proof (rs_parents _ _ _ _ RS) as RP. apply Forall2_nth_iff in RP. destruct RP as [RPL RP].
  assert (PAR : Forall2 (fun i p' => exists q, nth_error (link_parents s) i = Some q /\ same_parent order2 q p') order2 (link_parents s2)).
  { apply Forall2_nth_iff. unfold order2 at 1. rewrite map_length. split; [exact RPL|]. intros a i q2 Ea Eq.
    destruct (O2' _ _ Ea) as (m & Ka & Om & Li). destruct (RP a m q2 Ka Eq) as (q1 & Eq1 & SP).
    destruct (Forall2_nth_l _ _ _ _ _ (rl_parents _ _ _ _ _ RL) Om) as (q1' & Eq1' & z & Ez & SP'). assert (q1' = q1) by congruence. subst q1'.
    rewrite (wc_parents _ _ _ _ _ _ _ _ _ WC), nth_error_app1 in Ez by (exact Li). exists z. split; auto.
    destruct SP' as [[-> ->]|(m' & j & -> & -> & Ej)].
    - destruct SP as [[_ ->]|(b & c & Y & _)]; [left; auto|lia].
    - destruct SP as [[Y _]|(b & c & Y & -> & Eb)]; [lia|]. apply Nat2Z.inj in Y. subst c. right. exists b, j. split; auto. split; auto.
      destruct (O2 _ _ Eb) as (j' & A & B & _). congruence. }
  destruct (deleted_depth_first s2 E2) as [_ D2]. assert (T2 : topo (link_parents s2)) by apply (wf_topo _ _ (pd_wf _ _ _ P2)).
  assert (OID : order2 = seq 0 (length (link_parents s))).
  { apply (order_identity (link_parents s) (link_parents s2)); auto; [apply (wf_topo _ _ (pd_wf _ _ _ PS))|].
    intros a b q ia ib Hab Qa Qb Ia Ib. destruct (O2' _ _ Ia) as (ma & Ka & Oa & _). destruct (O2' _ _ Ib) as (mb & Kb & Ob & _).
    destruct (RP _ _ _ Ka Qa) as (qa & Eqa & SPa). destruct (RP _ _ _ Kb Qb) as (qb & Eqb & SPb).
    assert (qa = qb). { destruct SPa as [[-> ->]|(x & y & -> & -> & Ex)], SPb as [[-> Y]|(x' & y' & -> & Y & Ex')]; try lia. apply Nat2Z.inj in Y. subst x'. congruence. }
    subst qb. eapply (rl_siblings _ _ _ _ _ RL ma mb); eauto. eapply (rs_increasing _ _ _ _ RS); eauto. }
  assert (LK : length keep = num_links s). { rewrite <- (map_length (fun m => nth m order 0%nat)). fold order2. rewrite OID. apply seq_length. }
  assert (KI : forall i, (i < num_links s)%nat -> exists m, nth_error keep i = Some m /\ nth_error order m = Some i).
  { intros i Hi. assert (Ei : nth_error order2 i = Some i) by (rewrite OID; rewrite nth_error_nth' with (d := 0%nat) by (rewrite seq_length; exact Hi); now rewrite seq_nth).
    destruct (O2' _ _ Ei) as (m & A & B & _). eauto. }
  destruct (rs_views _ _ _ _ RS) as (ws' & us & V1' & U & PK). assert (ws' = ws) by (eapply views_unique; eauto). subst ws'.
  exists s2, us, vs. split; [exact E2|]. split; [exact P2|]. split.
  { rewrite OID in PAR. apply Forall2_nth_iff in PAR. destruct PAR as [PL PAR]. rewrite seq_length in PL. apply nth_error_ext. intros i.
    destruct (nth_error (link_parents s2) i) as [z|] eqn:Ez.
    - assert (Li : (i < length (link_parents s))%nat) by (rewrite PL; apply nth_error_Some; congruence).
      assert (Es : nth_error (seq 0 (length (link_parents s))) i = Some i) by (rewrite nth_error_nth' with (d := 0%nat) by (rewrite seq_length; exact Li); now rewrite seq_nth).
      destruct (PAR i i z Es Ez) as (q & Eq & SP). rewrite Eq. f_equal. destruct SP as [[-> ->]|(a & b & -> & -> & Eb)]; [reflexivity|]. f_equal.
      assert (La : (a < length (link_parents s))%nat). { rewrite <- (seq_length (length (link_parents s)) 0). apply nth_error_Some. congruence. }
      rewrite nth_error_nth' with (d := 0%nat) in Eb by (rewrite seq_length; exact La). rewrite seq_nth in Eb by exact La. injection Eb as <-. lia.
    - apply nth_error_None in Ez. symmetry. apply nth_error_None. lia. }
  split; [exact V|]. split; [exact U|]. split.
  { apply Forall2_nth_iff. unfold picks in PK. pose proof (Forall2_length _ _ _ PK). split; [lia|]. intros i v u Ev Eu.
    assert (Li : (i < num_links s)%nat) by (rewrite <- L0; apply nth_error_Some; congruence). destruct (KI i Li) as (m & Km & Om).
    destruct (Forall2_nth_l _ _ _ _ _ PK Km) as (u' & Eu' & Ew). assert (u' = u) by congruence. subst u'.
    destruct (Forall2_nth_l _ _ _ _ _ X Om) as (w' & Ew' & x & Ex & AG & SL). assert (w' = u) by congruence. subst w'.
    rewrite nth_error_app1 in Ex by lia. destruct (Forall2_nth_l _ _ _ _ _ S1 Ev) as (x' & Ex' & Y1 & Y2). assert (x' = x) by congruence. subst x'.
    assert (SJ : same_joint x u). { split; [exact AG|]. destruct SL as (A & B & C & _). repeat split; auto. }
    split; intros IM; eapply same_joint_trans; eauto. }
  destruct (wc_geoms _ _ _ _ _ _ _ _ _ WC) as (G1 & G2 & _ & _).
  split.
  { intros i Li. destruct (KI i Li) as (m & Km & Om). rewrite (rs_geoms _ _ _ _ RS i m Km), (rl_geoms _ _ _ _ _ RL m i Om).
    destruct (in_dec Nat.eq_dec i is) as [I|I]; auto. }
  destruct (rs_global _ _ _ _ RS) as (A1 & A2 & A3 & A4 & A5), (rl_global _ _ _ _ _ RL) as (B1 & B2 & B3 & B4 & B5), (wc_global _ _ _ _ _ _ _ _ _ WC) as (C1 & C2 & C3 & C4 & C5).
  repeat split; congruence.
Qed.

(** ** Renaming and freezing *)
Definition hide_step (t : xsys J) (imu : string) : result (xsys J) :=
  do t <- change_link_name t (imu_reference_link_name imu) imu;
  change_joint_type W xml_ops registered has_init reload t imu "frozen" None None None None.

Definition restored (done : list string) (v w : view) : Prop :=
  (imu_name (v_name v) -> (In (v_name v) done -> same_joint v w) /\ (~ In (v_name v) done -> softened rs rd v w)) /\
  (~ imu_name (v_name v) -> same_joint v w).
Definition hinv (s2 : xsys J) (vs : list view) (done : list string) (t : xsys J) : Prop :=
  parsed W xml_ops t /\ same_frame s2 t /\ exists us, views W t us /\ Forall2 (restored done) vs us.

Lemma frozen_arrays vs i v : views W s vs -> nth_error vs i = Some v -> v_type v = "frozen" ->
  v_damping v = [] /\ v_armature v = [] /\ v_stiffness v = [] /\ v_zeropoint v = [].
Proof.
  intros (A1 & A2 & A3 & A4 & A5 & qs & ds & Q & D & [A6 _] & [A7 _] & [A8 _] & [A9 _]) Ev T.
  assert (Et : nth_error (link_types s) i = Some "frozen") by (rewrite A2, nth_error_map, Ev; cbn; congruence).
  destruct (Forall2_nth_l _ _ _ _ _ Q Et) as (a & Ea & Wa). destruct (Forall2_nth_l _ _ _ _ _ D Et) as (b & Eb & Wb).
  destruct WD as [W1 W2]. assert (a = 0)%nat by congruence. assert (b = 0)%nat by congruence. subst a b.
  assert (K : forall (f : view -> list R) (l : list nat), map (@length R) (map f vs) = l -> nth_error l i = Some 0%nat -> f v = []).
  { intros f l <- E. rewrite map_map, nth_error_map, Ev in E. cbn in E. injection E as E. now apply length_zero_iff_nil in E. }
  repeat split; eapply K; eauto.
Qed.

Lemma hinv_step s2 vs done t i v : views W s vs -> hinv s2 vs done t -> nth_error vs i = Some v -> imu_name (v_name v) -> ~ In (v_name v) done ->
  exists t', hide_step t (v_name v) = Ok t' /\ hinv s2 vs (v_name v :: done) t'.
Proof.
  intros V (P & FR & us & U & RE) Ev IM ND. pose proof (wf_unique _ _ (pd_wf _ _ _ PS)) as NDN.
  assert (Nv : forall j u, nth_error vs j = Some u -> v_name u = v_name v -> j = i).
  { intros j u Eu En. destruct V as (EN & _). rewrite EN in NDN. eapply (NoDup_nth_error_inj _ j i (v_name v) NDN); rewrite nth_error_map; [rewrite Eu|rewrite Ev]; cbn; congruence. }
  apply Forall2_nth_iff in RE. destruct RE as [LE RE].
  assert (Li : (i < length us)%nat) by (rewrite <- LE; apply nth_error_Some; congruence).
  destruct (nth_error us i) as [w|] eqn:Ew; [|apply nth_error_None in Ew; lia]. destruct (RE i v w Ev Ew) as [R1 _]. destruct (R1 IM) as [_ R2]. destruct (R2 ND) as [R3 _]. specialize (R3 IM).
  assert (NW : v_name w = String "_" (v_name v)) by (destruct R3 as [(Z & _) _]; exact Z).
  assert (FREE : ~ In (v_name v) (link_names t)).
  { intros H. destruct U as (EU & _). rewrite EU in H. apply in_map_iff in H. destruct H as (u & En & Hu). apply In_nth_error in Hu. destruct Hu as [j Hj].
    assert (Lj : (j < length vs)%nat) by (rewrite LE; apply nth_error_Some; congruence). destruct (nth_error vs j) as [x|] eqn:Ex; [|apply nth_error_None in Ex; lia].
    destruct (RE j x u Ex Hj) as [X1 X2]. assert (C : same_joint x u \/ v_name u = String "_" (v_name x)).
    { destruct (is_imu_name (v_name x)) eqn:IX.
      - apply is_imu_name_spec in IX. destruct (X1 IX) as [Y1 Y2]. destruct (in_dec string_dec (v_name x) done) as [I|I]; [left; auto|right].
        destruct (Y2 I) as [Y3 _]. destruct (Y3 IX) as [(Z & _) _]. exact Z.
      - left. apply X2. intros Z. apply is_imu_name_spec in Z. congruence. }
    destruct C as [[(Z & _) _]|Z].
    - assert (j = i) by (apply (Nv j x); congruence). subst j. assert (u = w) by congruence. subst u.
      assert (C : v_name v = String "_" (v_name v)) by congruence. clear - C. induction (v_name v) as [|a n IH]; [discriminate|]. injection C as -> C. auto.
    - rewrite Z in En. apply (ref_not_imu (v_name x)). rewrite En. exact IM. }
  destruct (change_name_views W t us i w (v_name v) P U Ew FREE) as (t1 & E1 & P1 & V1 & A1 & A2 & _ & A3 & A4 & A5 & A6 & A7).
  destruct WD as [W1 W2]. destruct (change_joint_type_total W xml_ops xml_laws registered has_init reload t1 _ (v_name v) "frozen" None None None None 0 0 P1 V1)
    as (t2 & E2 & P2 & SF & V2); auto.
  { intros X. apply (f_equal (@length _)) in X. rewrite length_list_set in X. cbn in X. lia. } { apply REG. } { apply REG. }
  { intros a [X|[X|[X|[]]]]; discriminate. } { discriminate. } { discriminate. }
  assert (E1' : nth_error (list_set us i (set_v_name (v_name v) w)) i = Some (set_v_name (v_name v) w)) by (rewrite nth_error_list_set by auto; now destruct (Nat.eq_dec i i)).
  assert (ND1 : NoDup (map v_name (list_set us i (set_v_name (v_name v) w)))) by (destruct V1 as (<- & _); apply (wf_unique _ _ (pd_wf _ _ _ P1))).
  pose proof (at_name_list_set _ (changed_view xml_ops "frozen" 0 0 None None None None) i _ ND1 E1') as AL. cbn [set_v_name v_name] in AL. rewrite AL in V2. clear AL.
  exists t2. split.
  { unfold hide_step, imu_reference_link_name. rewrite NW in E1. rewrite E1. cbn [bind]. exact E2. }
  split; [exact P2|]. split.
  { destruct FR as (B1 & B2 & B3 & B4 & B5 & B6 & B7), SF as (C1 & C2 & C3 & C4 & C5 & C6 & C7). repeat split; congruence. }
  eexists. split; [exact V2|]. apply Forall2_nth_iff. rewrite !length_list_set. split; [exact LE|]. intros j x u Ex Eu.
  rewrite !nth_error_list_set in Eu by (rewrite ?length_list_set; auto). destruct (Nat.eq_dec j i) as [->|N].
  - assert (x = v) by congruence. subst x. injection Eu as <-. split; [|tauto]. intros _. split; [intros _|intros X; exfalso; apply X; now left].
    assert (T : v_type v = "frozen"). { destruct V as (B1 & B2 & _). apply (FROZEN i (v_name v)); auto; [rewrite B1|rewrite B2]; rewrite nth_error_map, Ev; reflexivity. }
    destruct (frozen_arrays vs i v V Ev T) as (B1 & B2 & B3 & B4). destruct R3 as [(C1 & C2 & C3 & C4 & C5 & C6 & C7) C8]. cbn [v_link v_omc] in C3, C8.
    split; [|exact C8]. unfold agree_but_link, changed_view. cbn [v_name v_type v_omc v_damping v_armature v_stiffness v_zeropoint set_v_name].
    rewrite B1, B2, B3, B4, T. repeat split; auto.
  - destruct (RE j x u Ex Eu) as [X1 X2]. split; [|exact X2]. intros IX. destruct (X1 IX) as [Y1 Y2]. split.
    + intros [Y|Y]; auto. exfalso. apply N. symmetry in Y. eapply Nv; eauto.
    + intros Y. apply Y2. intros Z. apply Y. now right.
Qed.

Lemma hinv_loop s2 vs : views W s vs -> forall names done t, hinv s2 vs done t -> NoDup names -> (forall n, In n names -> ~ In n done) ->
  (forall n, In n names -> imu_name n /\ exists i v, nth_error vs i = Some v /\ v_name v = n) ->
  exists t', foldM hide_step t names = Ok t' /\ hinv s2 vs (rev names ++ done) t'.
Proof.
  intros V. induction names as [|n names IH]; intros done t I ND NI H; [exists t; split; [reflexivity|exact I]|].
  destruct (H n) as (IM & i & v & Ev & En); [now left|]. subst n. inversion ND as [|? ? N1 N2]; subst.
  destruct (hinv_step s2 vs done t i v V I Ev IM) as (t1 & E1 & I1); [apply NI; now left|].
  destruct (IH (v_name v :: done) t1 I1 N2) as (t' & E' & I').
  { intros n Hn [X|X]; [subst n; contradiction|]. apply (NI n); auto. now right. } { intros n Hn. apply H. now right. }
  exists t'. split; [cbn [foldM]; rewrite E1; exact E'|]. cbn [rev]. rewrite <- app_assoc. exact I'.
Qed.

Lemma hidden : exists s2 s', delete_subsystem W xml_ops s1 (findall_imus s1) true = Ok s2 /\ foldM hide_step s2 (findall_imus s1) = Ok s' /\ hidden_again W s s'.
Proof.
  destruct deleted as (s2 & us & vs & E2 & P2 & PA & V & U & SO & GE & GL).
  destruct (hinv_loop s2 vs V (findall_imus s1) [] s2) as (s' & E' & P' & FR & us' & U' & RE).
  { split; [exact P2|]. split; [repeat split|]. exists us. split; [exact U|]. clear - SO. induction SO as [|v u vs us H _ IH]; constructor; auto. split; [|apply H]. intros _. split; [intros []|auto]. }
  { apply NoDup_filter. apply (wf_unique _ _ (pd_wf _ _ _ (rl_parsed _ _ _ _ _ RL))). }
  { intros n _ []. }
  { intros n H. apply findall_same in H. destruct H as [H IM]. split; auto. destruct V as (EN & _). rewrite EN in H. apply in_map_iff in H. destruct H as (v & En & Hv).
    apply In_nth_error in Hv. destruct Hv as [i Hi]. eauto. }
  rewrite app_nil_r in RE. exists s2, s'. split; [exact E2|]. split; [exact E'|].
  assert (SJ : Forall2 same_joint vs us').
  { apply Forall2_nth_iff in RE. destruct RE as [LE RE]. apply Forall2_nth_iff. split; [exact LE|]. intros i v u Ev Eu. destruct (RE i v u Ev Eu) as [X Y].
    destruct (is_imu_name (v_name v)) eqn:IM.
    - apply is_imu_name_spec in IM. apply (proj1 (X IM)). apply in_rev. rewrite rev_involutive. apply findall_same. split; auto.
      destruct V as (-> & _). apply in_map. eapply nth_error_In; eauto.
    - apply Y. intros Z. apply is_imu_name_spec in Z. congruence. }
  destruct FR as (F1 & F2 & F3 & F4 & F5 & F6 & F7). destruct GL as (G1 & G2 & G3 & G4 & G5).
  split.
  - destruct V as (-> & _), U' as (-> & _). clear - SJ. induction SJ as [|v u vs us [(X & _) _] _ IH]; cbn [map]; [reflexivity|]. now rewrite X, IH.
  - destruct V as (_ & -> & _), U' as (_ & -> & _). clear - SJ. induction SJ as [|v u vs us [(_ & X & _) _] _ IH]; cbn [map]; [reflexivity|]. now rewrite X, IH.
  - congruence.
  - eauto.
  - intros i n En. rewrite F2. assert (Li : (i < num_links s)%nat).
    { unfold num_links. rewrite <- (wf_names _ _ (pd_wf _ _ _ PS)). apply nth_error_Some. congruence. }
    rewrite GE by exact Li. assert (I : In i is <-> imu_name n).
    { rewrite (wc_imus _ _ _ _ _ _ _ _ _ WC i). split; [intros (n' & En' & H); congruence|eauto]. }
    destruct (in_dec Nat.eq_dec i is); tauto.
  - repeat split; congruence.
  - exact P'.
Qed.
End Hide.

(** ** Coordinates and poses by name *)
Section Match.
Context {J : Type}.
Variable W : widths.
Hypothesis WF : qW W "frozen" = Some 0%nat.

Lemma concat_filter {A B} (f : A -> bool) (g : A -> list B) l :
  concat (map g (filter f l)) = concat (map (fun a => if f a then g a else []) l).
Proof. induction l as [|a l IH]; cbn [filter map concat]; [reflexivity|]. destruct (f a); cbn [map concat]; rewrite IH; reflexivity. Qed.

Lemma match_ok {X} (small large : xsys J) skip nq (q : list (list R)) (x : list (list X)) :
  wf W small -> wf W large -> incl (link_names small) (link_names large) ->
  (forall n, In n (link_names small) -> (In n skip <-> imu_name n)) ->
  (forall i m n, nth_error (link_names small) i = Some n -> nth_error (link_names large) m = Some n -> ~ imu_name n ->
     nth_error (link_types small) i = nth_error (link_types large) m) ->
  (forall i n t, nth_error (link_names small) i = Some n -> nth_error (link_types small) i = Some t -> imu_name n -> t = "frozen") ->
  (exists n, In n (link_names small) /\ ~ imu_name n) ->
  q_size W large = Ok nq -> Forall (fun r => length r = nq) q -> Forall (fun r => length r = num_links large) x ->
  exists q' x', match_q_x W small q x large skip = Ok (q', x') /\
    Forall2 (coords_by_name W small large) q' q /\ Forall2 (poses_by_name small large) x' x.
Proof.
  intros WS WL INC SK TY FR (n0 & H0 & NI0) EQ RQ RX.
  destruct (wf_arrays _ _ WL) as (ws & _ & HW & _). destruct (wf_arrays _ _ WS) as (ws' & _ & HW' & _).
  assert (NL : length (link_names large) = num_links large) by apply (wf_names _ _ WL).
  assert (NS : length (link_names small) = num_links small) by apply (wf_names _ _ WS).
  assert (TL : length (link_types large) = num_links large) by apply (wf_types _ _ WL).
  assert (TS : length (link_types small) = num_links small) by apply (wf_types _ _ WS).
  assert (Lw : length ws = num_links large) by (rewrite <- TL; symmetry; eapply have_widths_length; eauto).
  assert (Lw' : length ws' = num_links small) by (rewrite <- TS; symmetry; eapply have_widths_length; eauto).
  assert (SQ : nq = list_sum ws).
  { assert (E : q_size W large = Ok (list_sum ws)) by (apply total_width_Ok; eauto). congruence. }
  set (sls := slices_from 0 ws). set (slice_of := fun n => match dget String.eqb (combine (link_names large) sls) n with Some sl => sl | None => (0, 0)%nat end).
  set (idx_of := fun n => match indexS n (link_names large) with Ok i => i | Err _ => 0%nat end).
  assert (IDX : forall n, In n (link_names small) -> exists m, nth_error (link_names large) m = Some n /\ (m < num_links large)%nat /\
      name_to_idx large n = Ok m /\ idx_of n = m /\ dgetE String.eqb (combine (link_names large) sls) n = Ok (slice_of n) /\ nth_error sls m = Some (slice_of n)).
  { intros n Hn. apply INC in Hn. apply In_nth_error in Hn. destruct Hn as [m Hm]. exists m. split; auto.
    assert (Lm : (m < num_links large)%nat) by (rewrite <- NL; apply nth_error_Some; congruence). split; auto.
    assert (EI : indexS n (link_names large) = Ok m) by (apply indexS_NoDup; auto; apply (wf_unique _ _ WL)).
    destruct (nth_error sls m) as [sl|] eqn:Es; [|apply nth_error_None in Es; unfold sls in Es; rewrite slices_from_length in Es; lia].
    pose proof (dget_combine (link_names large) sls m n sl (wf_unique _ _ WL) Hm Es) as DG.
    unfold name_to_idx, idx_of, dgetE, slice_of. rewrite EI, DG. auto. }
  assert (E1 : mapM (name_to_idx large) (link_names small) = Ok (map idx_of (link_names small))).
  { revert IDX. generalize (link_names small). induction l as [|n l IH]; intros H; [reflexivity|]. cbn [mapM map].
    destruct (H n (or_introl eq_refl)) as (m & _ & _ & -> & -> & _). cbn [bind]. rewrite IH; [reflexivity|]. intros k Hk. apply H. now right. }
  set (keep := fun n => negb (memS n skip)).
  assert (E2 : mapM (dgetE String.eqb (combine (link_names large) sls)) (filter keep (link_names small)) = Ok (map slice_of (filter keep (link_names small)))).
  { assert (H : forall n, In n (filter keep (link_names small)) -> dgetE String.eqb (combine (link_names large) sls) n = Ok (slice_of n)).
    { intros n Hn. apply filter_In in Hn. destruct (IDX n (proj1 Hn)) as (m & _ & _ & _ & _ & Y & _). exact Y. }
    revert H. generalize (filter keep (link_names small)). induction l as [|n l IH]; intros H; [reflexivity|]. cbn [mapM map]. rewrite (H n) by (now left). cbn [bind].
    rewrite IH; [reflexivity|]. intros k Hk. apply H. now right. }
  assert (KE : forall n, In n (link_names small) -> (keep n = true <-> ~ imu_name n)).
  { intros n Hn. unfold keep. rewrite negb_true_iff, <- not_true_iff_false, memS_In, (SK n Hn). reflexivity. }
  assert (NE : map slice_of (filter keep (link_names small)) <> []).
  { intros Y. apply map_eq_nil in Y. assert (In n0 (filter keep (link_names small))) by (apply filter_In; split; auto; now apply KE). rewrite Y in H. contradiction. }
  rewrite Forall_forall in RQ, RX.
  destruct (mapM_exists (fun row => mapM (get_nat row) (map idx_of (link_names small))) x) as [x' E3].
  { intros row Hr. apply mapM_exists. intros i Hi. apply in_map_iff in Hi. destruct Hi as (n & <- & Hn). destruct (IDX n Hn) as (m & _ & Lm & _ & -> & _).
    unfold get_nat. destruct (nth_error row m) eqn:E; [eauto|]. apply nth_error_None in E. rewrite (RX row Hr) in E. lia. }
  exists (map (fun row => concat (map (take_slice row) (map slice_of (filter keep (link_names small))))) q), x'. split; [|split].
  - unfold match_q_x. rewrite EQ. cbn [bind]. rewrite (proj2 (forallb_forall _ q)) by (intros r Hr; apply Nat.eqb_eq; auto). cbn [assert_ bind].
    rewrite (proj2 (forallb_forall _ x)) by (intros r Hr; apply Nat.eqb_eq; auto). cbn [assert_ bind].
    rewrite (idx_dict_spec (qW W) large ws) by (auto; apply (wf_unique _ _ WL)). cbn [bind]. rewrite NS, Nat.eqb_refl. cbn [assert_ bind]. rewrite E1. cbn [bind].
    fold keep. fold sls. rewrite E2. cbn [bind]. destruct (map slice_of (filter keep (link_names small))) as [|a l] eqn:EL; [congruence|]. cbn [bind]. rewrite E3. reflexivity.
  - apply Forall2_nth_iff. rewrite map_length. split; [reflexivity|]. intros k q' row Eq' Er. rewrite nth_error_map, Er in Eq'. cbn in Eq'. injection Eq' as <-.
    assert (Lr : length row = list_sum ws) by (rewrite <- SQ; apply RQ; eapply nth_error_In; eauto).
    set (ps' := map (fun n => if keep n then take_slice row (slice_of n) else []) (link_names small)).
    assert (PI : forall i n m, nth_error (link_names small) i = Some n -> nth_error (link_names large) m = Some n -> ~ imu_name n -> nth_error ps' i = nth_error (split_by ws row) m).
    { intros i n m Ei Em NI. assert (Hn : In n (link_names small)) by (eapply nth_error_In; eauto). destruct (IDX n Hn) as (m' & Em' & _ & _ & _ & _ & Es).
      assert (m' = m) by (exact (NoDup_nth_error_inj (link_names large) m' m n (wf_unique _ _ WL) Em' Em)). subst m'. unfold ps'. rewrite nth_error_map, Ei. cbn [option_map]. rewrite (proj2 (KE n Hn) NI).
      change row with (skipn 0 row) at 2. rewrite <- map_take_slices. fold sls. rewrite nth_error_map, Es. reflexivity. }
    assert (PN : forall i n, nth_error (link_names small) i = Some n -> imu_name n -> nth_error ps' i = Some []).
    { intros i n Ei IM. assert (Hn : In n (link_names small)) by (eapply nth_error_In; eauto). unfold ps'. rewrite nth_error_map, Ei. cbn [option_map].
      destruct (keep n) eqn:K; [|reflexivity]. apply (KE n Hn) in K. contradiction. }
    exists ws, ws', (split_by ws row), ps'. split; [exact HW|]. split; [now apply split_by_splits|]. split; [exact HW'|]. split.
    + split.
      * apply nth_error_ext. intros i. rewrite nth_error_map. destruct (nth_error (link_names small) i) as [n|] eqn:Ei.
        -- assert (Li : (i < num_links small)%nat) by (rewrite <- NS; apply nth_error_Some; congruence). assert (Hn : In n (link_names small)) by (eapply nth_error_In; eauto).
           destruct (nth_error ws' i) as [w'|] eqn:Ew; [|apply nth_error_None in Ew; lia]. destruct (Forall2_nth_r _ _ _ _ _ HW' Ew) as (t & Et & Wt).
           destruct (is_imu_name n) eqn:IM.
           ++ apply is_imu_name_spec in IM. rewrite (PN i n Ei IM). cbn. assert (t = "frozen") by eauto. subst t. congruence.
           ++ assert (NI : ~ imu_name n) by (intros Z; apply is_imu_name_spec in Z; congruence). destruct (IDX n Hn) as (m & Em & Lm & _).
              rewrite (PI i n m Ei Em NI). rewrite <- nth_error_map. rewrite (proj1 (split_by_splits ws row Lr)).
              rewrite (TY i m n Ei Em NI) in Et. destruct (Forall2_nth_l _ _ _ _ _ HW Et) as (w & Ew' & Wt'). congruence.
        -- apply nth_error_None in Ei. rewrite (proj2 (nth_error_None ps' i)) by (unfold ps'; rewrite map_length; exact Ei). cbn. symmetry. apply nth_error_None. lia.
      * unfold ps'. rewrite map_map, concat_filter. reflexivity.
    + intros i n m Ei Em. split; eauto.
  - apply mapM_Ok_iff in E3. apply Forall2_nth_iff in E3. destruct E3 as [LX E3]. apply Forall2_nth_iff. split; [auto|]. intros k y row Ey Er. specialize (E3 k row y Er Ey). cbn beta in E3.
    apply mapM_Ok_iff in E3. pose proof (Forall2_length _ _ _ E3) as LY. rewrite map_length in LY. split; [congruence|]. intros i n m Ei Em.
    assert (Hn : In n (link_names small)) by (eapply nth_error_In; eauto). destruct (IDX n Hn) as (m' & Em' & _ & _ & Eidx & _).
    assert (m' = m) by (exact (NoDup_nth_error_inj (link_names large) m' m n (wf_unique _ _ WL) Em' Em)). subst m'.
    assert (Ex : nth_error (map idx_of (link_names small)) i = Some m) by (rewrite nth_error_map, Ei; cbn; congruence).
    destruct (Forall2_nth_l _ _ _ _ _ E3 Ex) as (b & Eb & G). unfold get_nat in G. destruct (nth_error row m) as [c|]; [|discriminate]. congruence.
Qed.
End Match.
