(** * C27, C28, C29: kinematics. *)
From Coq Require Import Reals Lra String ZArith Lia Bool List.
From Verif Require Import Prelude M_Sys S_Sys P_Scan P_Run M_Math P_Math P_Trig M_Geom M_Joint M_Kin S_Kin P_Joint P_Kin X_Demo.
Import ListNotations.

Section C27.
Context {P O : Type}.
Variable W : widths.
Variable jt : joint_table P.
Notation link := (plink (params P)).
Notation rsys := (System R link geometry O).

(** C27: the result for each link is the composition of joint transforms and link offsets along its chain to the
    world, the links are updated with exactly these transforms, and nothing else of the system changes. *)
Theorem C27_poses (s s' : rsys) q n xs : wf W s -> q_size W s = Ok n -> length q = n ->
  forward_kinematics_transforms W jt s q = Ok (xs, s') ->
  length xs = num_links s /\
  (exists ls, s' = with_links s ls /\ length ls = num_links s) /\
  forall i l, nth_error (links s) i = Some l ->
    exists x t2, nth_error xs i = Some x /\ pose W jt s q (Z.of_nat i) x /\ joint_at W jt s q i t2 /\
      nth_error (links s') i = Some (set_transforms l (t_mul t2 (pl_t1 l)) t2).
Proof.
  intros WF Hn Hq H. destruct (wf_lean W s WF) as (qs & ds & LN).
  apply total_width_Ok in Hn. destruct Hn as (ws & Hw & ->).
  rewrite (have_widths_unique _ _ _ _ Hw (ln_q _ _ _ _ LN)) in Hq.
  destruct (fk_spec W jt s qs ds q xs s' LN Hq H) as (A & ls & -> & B & C). split; auto. split; eauto.
  intros i l Hi. assert (Hn : i < num_links s).
  { rewrite <- (ln_links _ _ _ _ LN). apply nth_error_Some. congruence. }
  destruct (C i Hn) as (x & t2 & X1 & X2 & X3 & X4). exists x, t2.
  rewrite (lnk_spec W s qs ds LN i Hn) in Hi. injection Hi as <-. auto.
Qed.

(** The composition is unique. *)
Theorem C27_pose_unique (s : rsys) q z x x' : wf W s -> pose W jt s q z x -> pose W jt s q z x' -> x = x'.
Proof.
  intros WF H H'. destruct (wf_lean W s WF) as (qs & ds & LN). exact (pose_unique W jt s q z x H x' H').
Qed.

(** Forward kinematics never fails on a well-formed system with known joint types and a coordinate vector of the
    right size; a wrong size is rejected. *)
Theorem C27_total (s : rsys) q n : wf W s -> joints_known jt s -> q_size W s = Ok n ->
  (length q = n -> exists xs s', forward_kinematics_transforms W jt s q = Ok (xs, s')) /\
  (length q <> n -> forward_kinematics_transforms W jt s q = Err EAssertion).
Proof.
  intros WF JK Hn. destruct (wf_lean W s WF) as (qs & ds & LN).
  apply total_width_Ok in Hn. destruct Hn as (ws & Hw & ->). split; intros Hq.
  - rewrite (have_widths_unique _ _ _ _ Hw (ln_q _ _ _ _ LN)) in Hq. exact (fk_ok W jt s qs ds q LN Hq JK).
  - unfold forward_kinematics_transforms.
    rewrite (scan_rejects_sizes W s _ _ _ _ _ ws ds); auto.
    + apply LN.
    + cbn. intuition discriminate.
    + right. exists TQ, (map ANum q). split; [now left|]. now rewrite map_length.
Qed.

(** The pose of a link depends only on the coordinates of its ancestors and itself. *)
Theorem C27_local (s s1 s2 : rsys) q q' n xs xs' i : wf W s -> q_size W s = Ok n -> length q = n -> length q' = n ->
  forward_kinematics_transforms W jt s q = Ok (xs, s1) ->
  forward_kinematics_transforms W jt s q' = Ok (xs', s2) ->
  (forall a sl, descends (link_parents s) a i -> link_coords (qW W) s q a sl -> link_coords (qW W) s q' a sl) ->
  nth_error xs i = nth_error xs' i.
Proof.
  intros WF Hn Hq Hq' H H' A.
  assert (AT : forall a sl, descends (link_parents s) a i -> link_coords (qW W) s q a sl -> link_coords (qW W) s q' a sl) by exact A.
  destruct (wf_lean W s WF) as (qs & ds & LN). apply total_width_Ok in Hn. destruct Hn as (ws & Hw & ->).
  rewrite (have_widths_unique _ _ _ _ Hw (ln_q _ _ _ _ LN)) in Hq, Hq'.
  destruct (fk_spec W jt s qs ds q xs s1 LN Hq H) as (L1 & ls1 & _ & _ & F1).
  destruct (fk_spec W jt s qs ds q' xs' s2 LN Hq' H') as (L2 & ls2 & _ & _ & F2).
  destruct (lt_dec i (num_links s)) as [Hi|Hi].
  - destruct (F1 i Hi) as (x & t2a & E1 & P1 & _). destruct (F2 i Hi) as (x' & t2b & E2 & P2 & _).
    rewrite E1, E2. f_equal. apply (pose_unique W jt s q' (Z.of_nat i)); auto.
    clear F1 F2 E2 P2 H H' x' L1 L2 E1 t2a t2b.
    assert (G : forall z x, pose W jt s q z x -> forall j, z = Z.of_nat j -> descends (link_parents s) j i -> pose W jt s q' z x).
    { clear x P1 A. induction 1 as [|j p l t2 xp B1 B2 B3 B4 IH]; intros j' E D; [lia|].
      apply Nat2Z.inj in E. subst j'. eapply pose_link; eauto.
      - destruct B3 as (typ & l' & sl & pr & jm & C1 & C2 & C3 & C4). exists typ, l', sl, pr, jm. auto.
      - pose proof (ln_topo _ _ _ _ LN j p B1) as T. destruct (Z.eq_dec p (-1)) as [->|N].
        + inversion B4; [constructor|lia].
        + apply (IH (Z.to_nat p)); [lia|]. clear -D B1 N T.
          assert (S1 : nth_error (link_parents s) j = Some (Z.of_nat (Z.to_nat p))) by (rewrite Z2Nat.id by lia; auto).
          clear B1. induction D.
          * econstructor; eauto. constructor.
          * econstructor; eauto. }
    eapply G; eauto. constructor.
  - rewrite (proj2 (nth_error_None xs i)), (proj2 (nth_error_None xs' i)) by lia. reflexivity.
Qed.
End C27.

(** Reading of the composition: a point fixed to the link is carried through all the frames of the chain. *)
Theorem C27_points a b p : to_world (t_mul a b) p = to_world b (to_world a p) /\ to_world t_zero p = p.
Proof.
  unfold to_world. cbn [t_mul t_pos t_rot t_zero]. split.
  - rewrite qinv_mul, rotate_mul, rotate_add, vadd_assoc. reflexivity.
  - rewrite qinv_one, rotate_one. apply vadd_0_l.
Qed.

(** ** C28: inverse kinematics *)
Section C28.
Context {P O : Type}.
Notation link := (plink (params P)).
Notation rsys := (System R link geometry O).
Notation W := builtin_widths.
Notation jt := (@builtin_table P).

(** Coordinates with unit quaternions. *)
Definition unit_coords_all (s : rsys) (q : list R) : Prop :=
  forall i typ sl, nth_error (link_types s) i = Some typ -> link_coords (qW W) s q i sl -> unit_coords typ sl.
Definition unit_offsets (s : rsys) : Prop := forall l, In l (links s) -> tunit (pl_t1 l).

Lemma poses_unit (s : rsys) q : wf W s -> unit_coords_all s q -> unit_offsets s ->
  forall z x, pose W jt s q z x -> tunit x.
Proof.
  intros WF UC UO z x H. induction H as [|i p l t2 xp A B C D IH]; [apply tunit_zero|].
  apply tunit_mul; auto. apply tunit_mul; [|apply UO; eapply nth_error_In; eauto].
  destruct C as (typ & l' & sl & pr & jm & C1 & C2 & C3 & C4 & C5 & ->).
  pose proof C3 as C3'. destruct C3' as (ws & ps & W1 & [W2 _] & W3).
  eapply (builtin_tunit typ jm (length sl)); eauto.
  assert (E : nth_error ws i = Some (length sl)) by (rewrite <- W2, nth_error_map, W3; reflexivity).
  clear -W1 C1 E. eapply have_width_at; eauto.
Qed.

Theorem C28_ik_inverts_fk_partial (s : rsys) q qd x0 : wf W s -> joints_known jt s -> num_links s <> 0 ->
  (forall typ, In typ (link_types s) -> In typ inv_types) -> unit_offsets s ->
  q_size W s = Ok (length q) -> unit_coords_all s q ->
  exists s1 xs q',
    forward_kinematics W jt s (mkState q qd x0) = Ok (s1, mkState q qd xs) /\
    inverse_kinematics W jt s (mkState q qd xs) = Ok (mkState q' qd xs) /\
    length q' = length q /\
    forward_kinematics_transforms W jt s q' = Ok (xs, s1) /\
    forall i typ sl sl', nth_error (link_types s) i = Some typ ->
      link_coords (qW W) s q i sl -> link_coords (qW W) s q' i sl' -> same_coords typ sl sl'.
Proof.
  intros WF JK N IT UO Hq UC. destruct (wf_lean W s WF) as (qs & ds & LN).
  assert (Hq' := Hq). apply total_width_Ok in Hq'. destruct Hq' as (ws & Hw & Hlen).
  rewrite (have_widths_unique _ _ _ _ Hw (ln_q _ _ _ _ LN)) in Hlen. clear Hw ws.
  destruct (fk_ok W jt s qs ds q LN Hlen JK) as (xs & s1 & FK).
  destruct (fk_spec W jt s qs ds q xs s1 LN Hlen FK) as (Lx & ls & -> & Ll & F).
  (* the joint coordinates recovered for each link *)
  assert (G : forall i, i < num_links s -> exists sl',
     ik_at jt s xs i = Ok sl' /\ nth_error qs i = Some (length sl') /\ same_coords (typ_ s i) (cut qs q i) sl' /\
     forall q', length q' = list_sum qs -> cut qs q' i = sl' -> t2_at jt s qs q' i = t2_at jt s qs q i).
  { intros i Hi. destruct (F i Hi) as (x & t2 & E1 & E2 & E3 & _).
    assert (E3' := E3). apply (t2_at_spec W jt s qs ds LN) in E3'; auto.
    unfold t2_at, jcalc_transform, joint_lookup in E3'. apply bind_Ok in E3'. destruct E3' as (pr & D1 & E3').
    apply bind_Ok in E3'. destruct E3' as (jm & D2 & E3'). injection E3' as D3.
    destruct (jt (typ_ s i)) as [jm'|] eqn:D4; [|discriminate]. injection D2 as ->.
    assert (IN : In (typ_ s i) inv_types).
    { apply IT. eapply nth_error_In. apply (typ_spec W s qs ds LN i Hi). }
    assert (WD : exists w, nth_error qs i = Some w /\ qW W (typ_ s i) = Some w).
    { destruct (nth_error qs i) as [w|] eqn:E.
      - exists w. split; auto. eapply have_width_at; [apply LN|apply (typ_spec W s qs ds LN i Hi)|exact E].
      - apply nth_error_None in E. rewrite (ln_qs_length W s qs ds LN) in E. lia. }
    destruct WD as (w & WD1 & WD2).
    assert (CL : length (cut qs q i) = w) by (apply cut_length; auto).
    destruct (joint_inverts (typ_ s i) jm w (cut qs q i) pr IN D4 WD2 CL) as (ik & sl' & K1 & K2 & K3 & K4 & K5).
    exists sl'. split; [|split; [congruence|split; [exact K5|]]].
    - unfold ik_at.
      assert (XP : exists xp, (if (par s i =? -1)%Z then Ok t_zero else py_get xs (par s i)) = Ok xp /\
                   x = t_mul (t_mul t2 (pl_t1 (lnk s i))) xp /\ tunit xp).
      { inversion E2 as [EE|i' p l t2' xp A B C D EE EX]; [lia|]. apply Nat2Z.inj in EE. subst i'.
        rewrite (par_spec s i Hi) in A. injection A as <-. rewrite (lnk_spec W s qs ds LN i Hi) in B. injection B as <-.
        rewrite (joint_at_unique W jt s q i t2 t2' E3 C). exists xp.
        split; [|split; [reflexivity|eapply poses_unit; eauto]].
        pose proof (par_range W s qs ds LN i Hi) as PR. destruct (Z.eqb_spec (par s i) (-1)) as [PE|PE].
        - rewrite PE in D. inversion D; [reflexivity|lia].
        - assert (PL : Z.to_nat (par s i) < num_links s) by lia.
          destruct (F _ PL) as (y & _ & Y1 & Y2 & _). rewrite Z2Nat.id in Y2 by lia.
          rewrite (pose_unique W jt s q _ _ D _ Y2). unfold py_get.
          destruct (Z.ltb_spec (par s i) 0); [lia|].
          destruct (Z.leb_spec 0 (par s i)); [|lia]. destruct (Z.ltb_spec (par s i) (Z.of_nat (length xs))); [|lia].
          cbn [andb]. now rewrite Y1. }
      destruct XP as (xp & -> & -> & UX). cbn [bind]. rewrite D1. cbn [bind].
      unfold get_joint_model. rewrite D4. cbn [bind]. rewrite K1.
      apply nth_error_nth with (d := t_zero) in E1. rewrite E1, <- D3.
      assert (T2 : t_mul (t_mul (t_mul (t_mul t2 (pl_t1 (lnk s i))) xp) (t_inv xp)) (t_inv (pl_t1 (lnk s i))) = t2).
      { assert (UT : tunit (pl_t1 (lnk s i))).
        { apply UO. eapply nth_error_In. apply (lnk_spec W s qs ds LN i Hi). }
        rewrite <- (t_mul_assoc _ xp), t_mul_inv_r, t_mul_0_r by auto.
        rewrite <- t_mul_assoc, t_mul_inv_r, t_mul_0_r by auto. reflexivity. }
      rewrite D3, T2. rewrite <- D3. exact K2.
    - intros q' Hq' E. unfold t2_at, jcalc_transform, joint_lookup. rewrite D1, D4, E. cbn [bind]. now rewrite K4. }
  (* assemble *)
  assert (M : exists vs, mapM (ik_at jt s xs) (seq 0 (num_links s)) = Ok vs).
  { apply mapM_exists. intros i Hi. apply in_seq in Hi. destruct (G i ltac:(lia)) as (sl' & -> & _). eauto. }
  destruct M as [vs M]. pose proof (mapM_nth _ _ _ M) as [Lv V]. rewrite seq_length in Lv.
  assert (V' : forall i, i < num_links s -> exists sl', nth_error vs i = Some sl' /\ ik_at jt s xs i = Ok sl').
  { intros i Hi. apply (V i i). rewrite nth_error_nth' with (d := 0) by now rewrite seq_length. now rewrite seq_nth. }
  assert (LW : map (@length R) vs = qs).
  { apply nth_error_ext. intros i. rewrite nth_error_map. destruct (lt_dec i (num_links s)) as [Hi|Hi].
    - destruct (V' i Hi) as (sl' & E1 & E2). destruct (G i Hi) as (sl2 & E3 & E4 & _). rewrite E2 in E3. injection E3 as <-.
      rewrite E1. cbn. congruence.
    - rewrite (proj2 (nth_error_None vs i)) by lia. cbn. symmetry. apply nth_error_None.
      rewrite (ln_qs_length W s qs ds LN). lia. }
  assert (LQ : length (concat vs) = list_sum qs) by (apply (splits_length qs (concat vs) vs); split; auto).
  assert (CV : forall i sl', nth_error vs i = Some sl' -> cut qs (concat vs) i = sl').
  { intros i sl' E. rewrite cut_concat by auto. now apply nth_error_nth. }
  assert (JJ : forall i t2, joint_at W jt s (concat vs) i t2 <-> joint_at W jt s q i t2).
  { intros i t2. destruct (lt_dec i (num_links s)) as [Hi|Hi].
    - rewrite <- !(t2_at_spec W jt s qs ds LN) by auto.
      destruct (V' i Hi) as (sl' & E1 & E2). destruct (G i Hi) as (sl2 & E3 & _ & _ & E4). rewrite E2 in E3. injection E3 as <-.
      rewrite (E4 (concat vs) LQ (CV _ _ E1)). reflexivity.
    - assert (X : nth_error (link_types s) i = None) by (apply nth_error_None; rewrite (ln_types _ _ _ _ LN); lia).
      split; intros (typ & l & sl & pr & jm & A & _); congruence. }
  assert (PP : forall z x, pose W jt s q z x -> pose W jt s (concat vs) z x).
  { induction 1; econstructor; eauto. now apply JJ. }
  exists (with_links s ls), xs, (concat vs).
  split; [unfold forward_kinematics; cbn [st_q st_qd]; rewrite FK; reflexivity|].
  split.
  { unfold inverse_kinematics. cbn [st_x st_qd]. rewrite (ik_scan W jt s qs ds LN) by auto. rewrite M. cbn [bind snd].
    rewrite (proj2 (concatenate_Ok vs (concat vs))).
    - cbn [bind]. rewrite Hq. cbn [bind]. rewrite LQ, Hlen, Nat.eqb_refl. reflexivity.
    - split; auto. intros ->. simpl in Lv. lia. }
  split; [lia|]. split.
  { destruct (fk_ok W jt s qs ds (concat vs) LN LQ JK) as (xs' & s' & FK').
    destruct (fk_spec W jt s qs ds _ xs' s' LN LQ FK') as (Lx' & ls' & -> & Ll' & F').
    rewrite FK'. f_equal. f_equal.
    - apply nth_error_ext. intros i. destruct (lt_dec i (num_links s)) as [Hi|Hi].
      + destruct (F i Hi) as (x & ? & A & B & _). destruct (F' i Hi) as (x' & ? & A' & B' & _). rewrite A, A'. f_equal.
        symmetry. eapply (pose_unique W jt s (concat vs)); [apply PP|]; eauto.
      + rewrite (proj2 (nth_error_None xs i)), (proj2 (nth_error_None xs' i)) by lia. reflexivity.
    - f_equal. apply nth_error_ext. intros i. destruct (lt_dec i (num_links s)) as [Hi|Hi].
      + destruct (F i Hi) as (? & t2 & _ & _ & B & C). destruct (F' i Hi) as (? & t2' & _ & _ & B' & C'). rewrite C, C'.
        apply JJ in B'. rewrite (joint_at_unique W jt s q i t2 t2' B B'). reflexivity.
      + rewrite (proj2 (nth_error_None ls i)), (proj2 (nth_error_None ls' i)) by lia. reflexivity. }
  intros i typ sl sl' T C C'.
  assert (Hi : i < num_links s).
  { rewrite <- (ln_types _ _ _ _ LN). apply nth_error_Some. congruence. }
  rewrite (typ_spec W s qs ds LN i Hi) in T. injection T as <-.
  rewrite <- (coords_unique s _ _ _ _ _ (coords_cut W s qs ds LN q i Hlen Hi) C).
  rewrite <- (coords_unique s _ _ _ _ _ (coords_cut W s qs ds LN (concat vs) i LQ Hi) C').
  destruct (V' i Hi) as (sl3 & E1 & E2). destruct (G i Hi) as (sl2 & E3 & _ & E4 & _). rewrite E2 in E3. injection E3 as <-.
  rewrite (CV _ _ E1). exact E4.
Qed.

(** The property fails for the joint types free_2d (TypeError), cor and saddle (no inverse kinematics): no system
    containing such a joint has inverse kinematics, at any poses. *)
Theorem C28_other_joints_refuted (s : rsys) st typ : wf W s -> In typ (link_types s) ->
  In typ ["free_2d"; "cor"; "saddle"]%string -> forall st', inverse_kinematics W jt s st <> Ok st'.
Proof.
  intros WF I T st' H. destruct (wf_lean W s WF) as (qs & ds & LN).
  unfold inverse_kinematics in H. apply bind_Ok in H. destruct H as (r & H & _).
  destruct (Nat.eq_dec (length (st_x st)) (num_links s)) as [E|E].
  2:{ rewrite (scan_rejects_sizes W s _ _ _ _ _ qs ds) in H; try apply LN; [discriminate|cbn; intuition discriminate|].
      right. exists TL, (map ATr (st_x st)). split; [right; now left|now rewrite map_length]. }
  rewrite (ik_scan W jt s qs ds LN) in H by auto. apply bind_Ok in H. destruct H as (vs & M & _).
  apply In_nth_error in I. destruct I as [i Hi].
  assert (Hin : i < num_links s) by (rewrite <- (ln_types _ _ _ _ LN); apply nth_error_Some; congruence).
  apply mapM_nth in M. destruct M as [_ M].
  destruct (M i i) as (y & _ & Y).
  { rewrite nth_error_nth' with (d := 0) by now rewrite seq_length. now rewrite seq_nth. }
  unfold ik_at in Y. apply bind_Ok in Y. destruct Y as (xp & _ & Y). apply bind_Ok in Y. destruct Y as (pr & _ & Y).
  rewrite (typ_spec W s qs ds LN i Hin) in Hi. injection Hi as Hi. rewrite Hi in Y.
  cbn [In] in T. destruct T as [<-|[<-|[<-|[]]]]; cbn in Y; discriminate.
Qed.
End C28.
Print Assumptions C27_poses.
Print Assumptions C27_pose_unique.
Print Assumptions C27_total.
Print Assumptions C27_local.
Print Assumptions C27_points.
Print Assumptions C28_ik_inverts_fk_partial.
Print Assumptions C28_other_joints_refuted.

(** The demo system meets the hypotheses: the poses exist and are recovered. *)
Lemma demo_unit_offsets : unit_offsets demo.
Proof.
  intros l. cbn [demo links In]. intros [<-|[<-|[<-|[<-|[]]]]]; unfold tunit, demo_link; cbn [pl_t1 t_rot];
    first [apply qtilt_unit | apply qunit_one].
Qed.
Lemma demo_unit_coords : unit_coords_all demo demo_q.
Proof.
  intros i typ sl T (ws & ps & HW & [SL SC] & N).
  assert (HW' : have_widths (qW builtin_widths) (link_types demo) [7; 1; 4; 1]).
  { repeat apply Forall2_cons; try reflexivity; apply Forall2_nil. }
  rewrite (have_widths_unique _ _ _ _ HW HW') in SL. clear HW HW' ws.
  destruct ps as [|a [|b [|c [|d [|]]]]]; try discriminate. injection SL as L1 L2 L3 L4.
  unfold demo_q in SC. lens. cbn [concat app] in SC. injection SC. intros. subst.
  destruct i as [|[|[|[|i]]]]; cbn in T, N; [..|destruct i; discriminate]; injection T as <-; injection N as <-;
    unfold unit_coords, has_quat; cbn [In]; intros H; try (exfalso; intuition discriminate);
    unfold qunit, qnorm2, qdot, q4_of, getR; cbn; field.
Qed.
Example C27_example : exists xs s1 y,
  forward_kinematics_transforms builtin_widths builtin_table demo demo_q = Ok (xs, s1) /\ length xs = 4 /\
  nth_error xs 2 = Some y /\ pose builtin_widths builtin_table demo demo_q 2 y.
Proof.
  destruct (C27_total builtin_widths builtin_table demo demo_q _ demo_wf demo_known demo_q_size) as [H _].
  destruct (H eq_refl) as (xs & s1 & E). exists xs, s1.
  destruct (C27_poses builtin_widths builtin_table demo s1 demo_q _ xs demo_wf demo_q_size eq_refl E) as (L & _ & F).
  destruct (F 2%nat _ eq_refl) as (y & _ & A & B & _). exists y. split; [exact E|]. split; [exact L|]. split; [exact A|exact B].
Qed.
Example C28_example : exists s1 xs q',
  forward_kinematics builtin_widths builtin_table demo (mkState demo_q [] []) = Ok (s1, mkState demo_q [] xs) /\
  inverse_kinematics builtin_widths builtin_table demo (mkState demo_q [] xs) = Ok (mkState q' [] xs) /\
  forward_kinematics_transforms builtin_widths builtin_table demo q' = Ok (xs, s1).
Proof.
  destruct (C28_ik_inverts_fk_partial demo demo_q [] [] demo_wf demo_known) as (s1 & xs & q' & A & B & _ & C & _).
  - discriminate.
  - cbn [demo link_types In]. intros t H. repeat (destruct H as [<-|H]; [cbn [inv_types In]; tauto|]). contradiction.
  - exact demo_unit_offsets.
  - exact demo_q_size.
  - exact demo_unit_coords.
  - now exists s1, xs, q'.
Qed.
