(** * Deleting several names; restriction is a preorder (C03, C04, C08). *)
From Coq Require Import String ZArith Lia Bool FinFun List.
From Verif Require Import Prelude M_Sys M_Compose S_Sys P_Scan P_Sys P_Delete.
Import ListNotations.
Local Open Scope Z_scope.

Section R.
Context {K L G O : Type}.
Variable W : widths.
Variable ops : parse_ops K L G.
Implicit Type s : System K L G O.

Lemma picks_seq {A} (l : list A) : picks (seq 0 (length l)) l l.
Proof.
  apply Forall2_of_nth; [now rewrite seq_length|]. intros i a b Ha Hb.
  assert (Hi : (i < length l)%nat) by (apply nth_error_Some; congruence).
  rewrite nth_error_nth' with (d := 0%nat) in Ha by (rewrite seq_length; auto).
  rewrite seq_nth in Ha by auto. injection Ha as <-. auto.
Qed.

Lemma nth_seq0 n i : (i < n)%nat -> nth_error (seq 0 n) i = Some i.
Proof. intros H. rewrite nth_error_nth' with (d := 0%nat) by (rewrite seq_length; auto). now rewrite seq_nth. Qed.

Lemma nth_seq0_inv n i j : nth_error (seq 0 n) i = Some j -> j = i /\ (i < n)%nat.
Proof.
  intros H. assert (Hi : (i < n)%nat) by (rewrite <- (seq_length n 0); apply nth_error_Some; congruence).
  rewrite nth_seq0 in H by auto. injection H as <-. auto.
Qed.

Lemma restricts_refl s : wf W s -> restricts W s s (seq 0 (num_links s)).
Proof.
  intros WF. destruct (wf_views _ _ WF) as (vs & V). destruct (views_lengths _ _ _ V) as (_ & _ & _ & _ & L5).
  constructor; auto.
  - intros a b i j Hab Ha Hb. apply nth_seq0_inv in Ha, Hb. lia.
  - exists vs, vs. split; auto. split; auto. rewrite <- L5. apply picks_seq.
  - apply Forall2_of_nth; [now rewrite seq_length|]. intros i a b Ha Hb.
    apply nth_seq0_inv in Ha. destruct Ha as [-> Hi]. exists b. split; auto.
    pose proof (wf_topo _ _ WF _ _ Hb) as T. destruct (Z.eq_dec b (-1)) as [->|]; [left; auto|].
    right. exists (Z.to_nat b), (Z.to_nat b). repeat split; try lia. apply nth_seq0. lia.
  - intros m i H. apply nth_seq0_inv in H. destruct H as [-> _]. auto.
Qed.

Lemma picks_compose {A} k1 k2 k (l l1 l2 : list A) :
  picks k1 l l1 -> picks k2 l1 l2 -> picks k2 k1 k -> picks k l l2.
Proof.
  intros H1 H2 H3. apply Forall2_of_nth.
  - rewrite (picks_length _ _ _ H2), (picks_length _ _ _ H3). auto.
  - intros m i a Hm Ha. destruct (Forall2_nth_r _ _ _ _ _ H3 Hm) as (j & Hj & Ej).
    pose proof (picks_nth _ _ _ _ _ H2 Hj) as X. pose proof (picks_nth _ _ _ _ _ H1 Ej) as Y. congruence.
Qed.

Lemma restricts_trans s s1 s2 k1 k2 : restricts W s s1 k1 -> restricts W s1 s2 k2 ->
  exists k, restricts W s s2 k /\ picks k2 k1 k.
Proof.
  intros R1 R2. destruct (rs_views _ _ _ _ R1) as (vs & vs1 & V & V1 & P1).
  destruct (rs_views _ _ _ _ R2) as (vs1' & vs2 & V1' & V2 & P2).
  rewrite (views_unique _ _ _ _ V1' V1) in *.
  assert (EX : exists k, picks k2 k1 k).
  { assert (Lk : Forall (fun i => (i < length k1)%nat) k2).
    { apply Forall_forall. intros i Hi. apply In_nth_error in Hi. destruct Hi as [m Hm].
      destruct (Forall2_nth_l _ _ _ _ _ P2 Hm) as (v & _ & Hv). rewrite <- (picks_length _ _ _ P1).
      apply nth_error_Some. congruence. }
    clear -Lk. induction Lk as [|i k2 Hi F IH].
    - exists []. constructor.
    - destruct IH as [k IH]. apply nth_error_Some in Hi. destruct (nth_error k1 i) as [j|] eqn:E; [|tauto].
      exists (j :: k). constructor; auto. }
  destruct EX as [k Pk]. exists k. split; auto.
  assert (NDk1 := increasing_NoDup _ (rs_increasing _ _ _ _ R1)).
  constructor.
  - intros a b i j Hab Ha Hb.
    destruct (Forall2_nth_r _ _ _ _ _ Pk Ha) as (x & Hx & Ex).
    destruct (Forall2_nth_r _ _ _ _ _ Pk Hb) as (y & Hy & Ey).
    pose proof (rs_increasing _ _ _ _ R2 _ _ _ _ Hab Hx Hy) as Lxy.
    exact (rs_increasing _ _ _ _ R1 _ _ _ _ Lxy Ex Ey).
  - exists vs, vs2. split; auto. split; auto. eapply picks_compose; eauto.
  - apply Forall2_of_nth.
    + rewrite (picks_length _ _ _ Pk). exact (Forall2_length _ _ _ (rs_parents _ _ _ _ R2)).
    + intros m i p2 Hm Hp2. destruct (Forall2_nth_r _ _ _ _ _ Pk Hm) as (x & Hx & Ex).
      destruct (Forall2_nth _ _ _ _ _ _ (rs_parents _ _ _ _ R2) Hx Hp2) as (p1 & Hp1 & S1).
      destruct (Forall2_nth _ _ _ _ _ _ (rs_parents _ _ _ _ R1) Ex Hp1) as (p & Hp & S0).
      exists p. split; auto. destruct S1 as [[-> ->]|(m1 & i1 & -> & -> & N1)].
      * destruct S0 as [[-> _]|(m0 & i0 & _ & X & _)]; [left; auto|lia].
      * destruct S0 as [[_ X]|(m0 & i0 & -> & X & N0)]; [lia|]. apply Nat2Z.inj in X. subst m0.
        right. exists m1, i0. repeat split; auto. rewrite (picks_nth _ _ _ _ _ Pk N1). auto.
  - intros m i Hm. destruct (Forall2_nth_r _ _ _ _ _ Pk Hm) as (x & Hx & Ex).
    rewrite (rs_geoms _ _ _ _ R2 _ _ Hx). apply (rs_geoms _ _ _ _ R1 _ _ Ex).
  - destruct (rs_global _ _ _ _ R1) as (? & ? & ? & ? & ?). destruct (rs_global _ _ _ _ R2) as (? & ? & ? & ? & ?).
    repeat split; congruence.
Qed.

Lemma descends_restricts s s' keep a' i' a i : restricts W s s' keep ->
  nth_error keep a' = Some a -> nth_error keep i' = Some i ->
  (descends (link_parents s') a' i' <-> descends (link_parents s) a i).
Proof.
  intros R Ha Hi. assert (ND := increasing_NoDup _ (rs_increasing _ _ _ _ R)). split.
  - intros D. revert i Hi. induction D as [|i' p' Hp' D IH]; intros i Hi.
    + rewrite Ha in Hi. injection Hi as ->. constructor.
    + destruct (Forall2_nth _ _ _ _ _ _ (rs_parents _ _ _ _ R) Hi Hp') as (p & Hp & [[_ X]|(m & j & -> & X & N)]); [lia|].
      apply Nat2Z.inj in X. subst m. econstructor; eauto.
  - intros D. revert i' Hi. induction D as [|i p Hp D IH]; intros i' Hi.
    + assert (i' = a') by (eapply NoDup_nth_error_inj; eauto). subst. constructor.
    + destruct (Forall2_nth_l _ _ _ _ _ (rs_parents _ _ _ _ R) Hi) as (p' & Hp' & q & Hq & S0).
      rewrite Hp in Hq. injection Hq as <-. destruct S0 as [[X _]|(m & j & X & -> & N)]; [lia|].
      apply Nat2Z.inj in X. subst j. econstructor; eauto.
Qed.

Lemma restricts_names s s' keep : restricts W s s' keep -> picks keep (link_names s) (link_names s').
Proof.
  intros R. destruct (rs_views _ _ _ _ R) as (vs & vs' & (A & _) & (B & _) & P).
  rewrite A, B. now apply picks_map.
Qed.

Lemma restricts_num_links s s' keep : restricts W s s' keep -> num_links s' = length keep.
Proof. intros R. unfold num_links. symmetry. apply (Forall2_length _ _ _ (rs_parents _ _ _ _ R)). Qed.

Lemma restricts_In_lt s s' keep i : restricts W s s' keep -> In i keep -> (i < num_links s)%nat.
Proof.
  intros R Hi. apply In_nth_error in Hi. destruct Hi as [m Hm].
  destruct (Forall2_nth_l _ _ _ _ _ (rs_parents _ _ _ _ R) Hm) as (p' & _ & p & Hp & _).
  apply nth_error_Some. congruence.
Qed.

Hypothesis laws : ops_laws ops.

(** [survives s names i]: no link called by one of [names] is link [i] or an ancestor of it. *)

Lemma survives_step s s1 keep nm k names i :
  parsed W ops s -> restricts W s s1 keep -> nth_error (link_names s) k = Some nm ->
  (forall i, In i keep <-> (i < num_links s)%nat /\ ~ descends (link_parents s) k i) ->
  (survives s (nm :: names) i <-> exists m, nth_error keep m = Some i /\ survives s1 names m).
Proof.
  intros PD R Hk KS. pose proof (restricts_names _ _ _ R) as PN. split.
  - intros [Hi S0].
    assert (In i keep) by (apply KS; split; auto; apply (S0 k nm); [now left|auto]).
    apply In_nth_error in H. destruct H as [m Hm]. exists m. split; auto.
    split; [rewrite (restricts_num_links _ _ _ R); apply nth_error_Some; congruence|].
    intros k' nm' Hin Hk' D.
    destruct (Forall2_nth_r _ _ _ _ _ PN Hk') as (k0 & Hk0 & Ek0).
    apply (descends_restricts _ _ _ _ _ _ _ R Hk0 Hm) in D. apply (S0 k0 nm'); auto. now right.
  - intros (m & Hm & Hm1 & S1).
    assert (Hin : In i keep) by (eapply nth_error_In; eauto). pose proof (proj1 (KS i) Hin) as [Hi Nd].
    split; auto. intros k' nm' [<-|Hin'] Hk' D.
    + assert (k' = k) by (eapply NoDup_nth_error_inj; eauto; apply PD). subst. auto.
    + assert (Kk : In k' keep).
      { apply KS. split; [unfold num_links; rewrite <- (wf_names _ _ (pd_wf _ _ _ PD)); apply nth_error_Some; congruence|].
        intros D'. apply Nd. clear -D D'. induction D; auto. econstructor; eauto. }
      apply In_nth_error in Kk. destruct Kk as [m' Hm'].
      apply (S1 m' nm'); auto.
      * rewrite (picks_nth _ _ _ _ _ PN Hm'). auto.
      * apply (descends_restricts _ _ _ _ _ _ _ R Hm' Hm). auto.
Qed.

Theorem delete_list_restricts names : forall s s' strict,
  parsed W ops s -> delete_subsystem W ops s names strict = Ok s' ->
  exists keep, parsed W ops s' /\ restricts W s s' keep /\
    (forall i, In i keep <-> survives s names i) /\
    (strict = true -> forall nm, In nm names -> In nm (link_names s)).
Proof.
  unfold delete_subsystem. induction names as [|nm names IH]; intros s s' strict PD H; cbn [foldM] in H.
  - injection H as <-. exists (seq 0 (num_links s)). split; auto. split; [apply restricts_refl, PD|].
    split; [|intros _ ? []]. intros i. rewrite in_seq. unfold survives. split; [intros [_ X]|intros [X _]]; [split|]; simpl in *; try tauto; lia.
  - apply bind_Ok in H. destruct H as (s1 & H1 & H).
    destruct (in_dec string_dec nm (link_names s)) as [Hin|Hout].
    + apply In_nth_error in Hin. destruct Hin as [k Hk].
      destruct (delete_one_parsed W ops laws s nm k PD Hk) as (KS & HE & HN).
      set (keep1 := keepers (num_links s) (find_subsystem_indices (link_parents s) k)) in *.
      destruct keep1 as [|x xs] eqn:EK.
      { rewrite HE in * by auto. destruct strict; [rewrite HE in H1 by auto; discriminate|].
        unfold delete_one_nonstrict in H1. rewrite HE in H1 by auto. discriminate. }
      destruct HN as (s2 & E2 & PD2 & R2 & _); [discriminate|].
      assert (s1 = s2).
      { destruct strict; [congruence|]. unfold delete_one_nonstrict in H1. rewrite E2 in H1. congruence. }
      subst s2. destruct (IH _ _ _ PD2 H) as (keep2 & PD3 & R3 & K3 & N3).
      destruct (restricts_trans _ _ _ _ _ R2 R3) as (keep & R & PK).
      exists keep. split; auto. split; auto. split.
      * intros i. rewrite (survives_step s s1 (x :: xs) nm k names i PD R2 Hk KS). split.
        -- intros Hi. apply In_nth_error in Hi. destruct Hi as [m Hm].
           destruct (Forall2_nth_r _ _ _ _ _ PK Hm) as (j & Hj & Ej). exists j. split; auto.
           apply K3. eapply nth_error_In; eauto.
        -- intros (m & Hm & Sm). apply K3 in Sm. apply In_nth_error in Sm. destruct Sm as [m2 Hm2].
           apply nth_error_In with (n := m2). rewrite (picks_nth _ _ _ _ _ PK Hm2). auto.
      * intros -> nm' [<-|Hin']; [eapply nth_error_In; eauto|].
        apply (picks_In _ _ _ _ (restricts_names _ _ _ R2)). auto.
    + destruct strict.
      { rewrite (delete_one_missing W ops s nm Hout) in H1. discriminate. }
      unfold delete_one_nonstrict in H1. rewrite (delete_one_missing W ops s nm Hout) in H1. injection H1 as <-.
      destruct (IH _ _ false PD H) as (keep & PD3 & R3 & K3 & N3). exists keep. split; auto. split; auto.
      split; [|discriminate]. intros i. rewrite K3. unfold survives. split; intros [A B]; split; auto.
      * intros k nm' [<-|Hin] Hk; [|eauto]. exfalso. apply Hout. eapply nth_error_In; eauto.
      * intros k nm' Hin Hk. apply (B k nm'); auto. now right.
Qed.

(** Non-strict deletion only fails when nothing would be left. *)
Theorem delete_nonstrict_total names : forall s,
  parsed W ops s -> (exists i, survives s names i) -> exists s', delete_subsystem W ops s names false = Ok s'.
Proof.
  unfold delete_subsystem. induction names as [|nm names IH]; intros s PD [i Hs]; cbn [foldM]; [eauto|].
  destruct (in_dec string_dec nm (link_names s)) as [Hin|Hout].
  - apply In_nth_error in Hin. destruct Hin as [k Hk].
    destruct (delete_one_parsed W ops laws s nm k PD Hk) as (KS & HE & HN).
    set (keep1 := keepers (num_links s) (find_subsystem_indices (link_parents s) k)) in *.
    assert (Hin : In i keep1).
    { apply KS. destruct Hs as [Hi S0]. split; auto. apply (S0 k nm); auto. now left. }
    destruct HN as (s2 & E2 & PD2 & R2 & _); [intros X; rewrite X in Hin; destruct Hin|].
    unfold delete_one_nonstrict. rewrite E2. cbn [bind]. apply IH; auto.
    apply (survives_step s s2 keep1 nm k names i PD R2 Hk KS) in Hs. destruct Hs as (m & _ & Sm). eauto.
  - unfold delete_one_nonstrict. rewrite (delete_one_missing W ops s nm Hout). cbn [bind].
    apply IH; auto. exists i. destruct Hs as [A B]. split; auto. intros k' nm' H1 H2. apply (B k' nm'); auto. now right.
Qed.

(** Strict deletion succeeds when the names are links, none below or equal to an earlier one. *)
Theorem delete_strict_total names : forall s,
  parsed W ops s -> (exists i, survives s names i) ->
  (forall nm, In nm names -> In nm (link_names s)) ->
  (forall a b na nb ka kb, (a < b)%nat -> nth_error names a = Some na -> nth_error names b = Some nb ->
     nth_error (link_names s) ka = Some na -> nth_error (link_names s) kb = Some nb ->
     ~ descends (link_parents s) ka kb) ->
  exists s', delete_subsystem W ops s names true = Ok s'.
Proof.
  unfold delete_subsystem. induction names as [|nm names IH]; intros s PD [i Hs] HN0 HD; cbn [foldM]; [eauto|].
  assert (Hin0 : In nm (link_names s)) by (apply HN0; now left).
  apply In_nth_error in Hin0. destruct Hin0 as [k Hk].
  destruct (delete_one_parsed W ops laws s nm k PD Hk) as (KS & HE & HN).
  set (keep1 := keepers (num_links s) (find_subsystem_indices (link_parents s) k)) in *.
  assert (Hin : In i keep1).
  { apply KS. destruct Hs as [Hi S0]. split; auto. apply (S0 k nm); auto. now left. }
  destruct HN as (s2 & E2 & PD2 & R2 & _); [intros X; rewrite X in Hin; destruct Hin|].
  rewrite E2. cbn [bind]. pose proof (restricts_names _ _ _ R2) as PN. apply IH; auto.
  - apply (survives_step s s2 keep1 nm k names i PD R2 Hk KS) in Hs. destruct Hs as (m & _ & Sm). eauto.
  - intros nm' Hn'. assert (X : In nm' (link_names s)) by (apply HN0; now right).
    apply In_nth_error in X. destruct X as [k' Hk']. apply In_nth_error in Hn'. destruct Hn' as [b Hb].
    assert (Y : In k' keep1).
    { apply KS. split; [unfold num_links; rewrite <- (wf_names _ _ (pd_wf _ _ _ PD)); apply nth_error_Some; congruence|].
      apply (HD 0%nat (S b) nm nm' k k'); auto. lia. }
    apply In_nth_error in Y. destruct Y as [m Hm]. apply nth_error_In with (n := m).
    rewrite (picks_nth _ _ _ _ _ PN Hm). auto.
  - intros a b na nb ka kb Hab Ha Hb Hka Hkb D.
    destruct (Forall2_nth_r _ _ _ _ _ PN Hka) as (xa & Hxa & Exa).
    destruct (Forall2_nth_r _ _ _ _ _ PN Hkb) as (xb & Hxb & Exb).
    apply (descends_restricts _ _ _ _ _ _ _ R2 Hxa Hxb) in D.
    apply (HD (S a) (S b) na nb xa xb); auto. lia.
Qed.

(** Systems are determined by their views, parents, geometries and global settings. *)
Lemma system_ext s s' vs : views W s vs -> views W s' vs -> link_parents s = link_parents s' ->
  geoms s = geoms s' -> sys_dt s = sys_dt s' -> gravity s = gravity s' ->
  integration_method s = integration_method s' -> mass_mat_iters s = mass_mat_iters s' ->
  model_name s = model_name s' -> s = s'.
Proof.
  intros (A1 & A2 & A3 & A4 & A5 & qs & ds & Q & D & A6 & A7 & A8 & A9)
         (B1 & B2 & B3 & B4 & B5 & qs' & ds' & Q' & D' & B6 & B7 & B8 & B9).
  destruct A6 as [_ A6], A7 as [_ A7], A8 as [_ A8], A9 as [_ A9].
  destruct B6 as [_ B6], B7 as [_ B7], B8 as [_ B8], B9 as [_ B9].
  destruct s, s'; simpl in *. intros; subst. congruence.
Qed.

End R.
