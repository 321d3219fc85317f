(** * C32: simulation steps; C61: forward dynamics. *)
From Coq Require Import Reals Lra String ZArith Lia Bool List.
From Verif Require Import Prelude M_Sys S_Sys P_Scan P_Run M_Math P_Math P_Trig P_Rot M_Geom P_Geom M_Joint M_Kin M_Dyn S_Kin P_Joint P_Kin P_Mat S_Dyn P_Dyn P_Mass P_Rnea C_Kin C_State C_Mass C_Rnea P_Step C_Spring X_Demo.
Import ListNotations.

(** ** Specification *)
Section Spec.
Context {P O : Type}.
Notation rsys := (System R (plink (params P)) geometry O).
(** The state has the sizes of the system. *)
Definition fits (s : rsys) (st : State) : Prop :=
  q_size builtin_widths s = Ok (length (st_q st)) /\ qd_size builtin_widths s = Ok (length (st_qd st)).
(** No quaternion coordinate is the zero quaternion. *)
Definition nonzero_quats (s : rsys) (q : list R) : Prop :=
  forall i typ sl, nth_error (link_types s) i = Some typ -> has_quat typ -> link_coords (qW builtin_widths) s q i sl ->
    q4_of (firstn 4 sl) <> Q4 0 0 0 0.
End Spec.
(** [f] applied [k] times; the first error ends the repetition. *)
Fixpoint repeatM {A} (k : nat) (f : A -> result A) (a : A) : result A :=
  match k with 0 => Ok a | S k' => do b <- f a; repeatM k' f b end.

Lemma Forall2_of_nth {A B} (R : A -> B -> Prop) : forall la lb, length la = length lb ->
  (forall i a, nth_error la i = Some a -> exists b, nth_error lb i = Some b /\ R a b) -> Forall2 R la lb.
Proof.
  induction la as [|a la IH]; intros [|b lb] L F; try discriminate; constructor.
  - destruct (F 0 a eq_refl) as (b' & E & C). injection E as <-. exact C.
  - apply IH; [cbn in L; lia|]. intros i x Hx. exact (F (S i) x Hx).
Qed.
Lemma assert_Ok c u : assert_ c = Ok u -> c = true.
Proof. destruct c; [auto|discriminate]. Qed.

Section C32.
Context {P O : Type}.
Notation link := (plink (params P)).
Notation rsys := (System R link geometry O).
Notation W := builtin_widths.
Notation jt := (@builtin_table P).
Variable solve : nat -> mat -> mat.

Lemma fits_lean (s : rsys) st : wf W s -> fits s st -> exists qs ds, lean W s qs ds /\ length (st_q st) = list_sum qs /\ length (st_qd st) = list_sum ds.
Proof.
  intros WF [A B]. destruct (wf_lean W s WF) as (qs & ds & LN). exists qs, ds. split; auto.
  apply total_width_Ok in A, B. destruct A as (a & A & ->), B as (b & B & ->).
  now rewrite (have_widths_unique _ _ _ _ A (ln_q _ _ _ _ LN)), (have_widths_unique _ _ _ _ B (ln_d _ _ _ _ LN)).
Qed.
Lemma wf_with_links (s : rsys) ls : wf W s -> length ls = length (links s) -> wf W (with_links s ls).
Proof. intros WF L. destruct WF. constructor; auto. cbn [with_links links]. now rewrite L. Qed.
Lemma fk_core (s s' : rsys) st st' : wf W s -> fits s st -> forward_kinematics W jt s st = Ok (s', st') ->
  exists ls xs, s' = with_links s ls /\ Forall2 same_core (links s) ls /\ st' = mkState (st_q st) (st_qd st) xs /\
    forward_kinematics_transforms W jt s (st_q st) = Ok (xs, s').
Proof.
  intros WF [Hq _] H. unfold forward_kinematics in H. apply bind_Ok in H. destruct H as ([xs s1] & FK & H).
  cbn [fst snd] in H. injection H as <- <-. destruct (C27_poses _ _ s s1 _ _ xs WF Hq eq_refl FK) as (Lx & (ls & -> & Ll) & F).
  exists ls, xs. split; [reflexivity|]. split; [|split; [reflexivity|exact FK]].
  assert (L : length (links s) = length ls). { rewrite (wf_links _ _ WF). unfold num_links in Ll. lia. }
  cbn [with_links links] in F. clear -F L. revert F. revert L. generalize (links s). intros l0. revert ls.
  intros ls L F. apply Forall2_of_nth; auto. intros i a Ha. destruct (F i a Ha) as (x & t2 & _ & _ & _ & E). eexists. split; [exact E|]. eexists. eexists. reflexivity.
Qed.
Lemma fits_with_links (s : rsys) ls st : fits (with_links s ls) st <-> fits s st.
Proof. reflexivity. Qed.

(** *** One integration step *)
Lemma q4_nonzero q : q <> Q4 0 0 0 0 -> (0 < qnorm2 q)%R.
Proof.
  intros H. destruct (Rlt_le_dec 0 (qnorm2 q)) as [G|G]; auto. exfalso. apply H. destruct q as [a b c d]. unfold qnorm2, qdot in G. cbn [qw qx qy qz] in G.
  pose proof (Rle_0_sqr a). pose proof (Rle_0_sqr b). pose proof (Rle_0_sqr c). pose proof (Rle_0_sqr d). unfold Rsqr in *.
  assert (forall x, x * x = 0 -> x = 0)%R by (intros x E; apply Rmult_integral in E; tauto).
  f_equal; apply H4; lra.
Qed.
Lemma integrate_unit dt typ q qd : quat_width typ (length q) (length qd) -> is_free_or_cor_or_spherical typ = true ->
  (Rabs dt <= 10 ^ 8)%R -> (0 < qnorm2 (q4_of (firstn 4 q)))%R -> qunit (q4_of (firstn 4 (integrate_link dt typ q qd))).
Proof.
  unfold quat_width, integrate_link, is_free_or_cor_or_spherical. intros A B D Q. destruct (is_free_or_cor typ).
  - rewrite firstn_app. cbn [q4_list length Nat.sub]. rewrite firstn_O, app_nil_r. rewrite firstn_all2 by reflexivity.
    change (qunit (q4_of (q4_list (strapdown (q4_of (firstn 4 q)) (v3_of (firstn 3 qd)) dt)))). rewrite q4_of_list. now apply strapdown_unit.
  - cbn [orb] in B. rewrite B in *. rewrite firstn_all2 in Q by lia. rewrite firstn_all2 by (cbn; lia). rewrite q4_of_list. now apply strapdown_unit.
Qed.
Lemma euler_spec (s : rsys) st taus st' : wf W s -> fits s st -> semi_implicit_euler W jt solve s st taus = Ok st' ->
  fits s st' /\ ((Rabs (sys_dt s) <= 10 ^ 8)%R -> nonzero_quats s (st_q st) -> unit_coords_all s (st_q st')).
Proof.
  intros WF Ft H. destruct (fits_lean s st WF Ft) as (qs & ds & LN & Lq & Ld).
  unfold semi_implicit_euler in H. apply bind_Ok in H. destruct H as ([qdd inv] & FD & H). cbn [fst] in H.
  assert (Lqdd : length qdd = list_sum ds).
  { unfold forward_dynamics in FD. apply bind_Ok in FD. destruct FD as (qf & _ & FD). apply bind_Ok in FD. destruct FD as (M & _ & FD).
    apply bind_Ok in FD. destruct FD as (m & Em & FD). injection FD as <- _. unfold mat_vec. rewrite map_length, seq_length.
    destruct Ft as [_ Ft]. congruence. }
  set (qd' := ladd (st_qd st) (lscale (sys_dt s) qdd)) in *.
  assert (Lqd' : length qd' = list_sum ds) by (unfold qd'; rewrite ladd_length, lscale_length; lia).
  destruct (integrate_scan W s qs ds (sys_dt s) (st_q st) qd' LN Lq Lqd') as (us & E). rewrite E in H. cbn [bind snd] in H.
  set (g := fun i => integrate_link (sys_dt s) (typ_ s i) (cut qs (st_q st) i) (cut ds qd' i)) in *.
  apply bind_Ok in H. destruct H as (q' & C & H). injection H as <-. cbn [st_q st_qd].
  apply concatenate_Ok in C. destruct C as [_ ->].
  assert (G : forall i, i < num_links s -> exists a b, nth_error qs i = Some a /\ nth_error ds i = Some b /\
     quat_width (typ_ s i) (length (cut qs (st_q st) i)) (length (cut ds qd' i)) /\ (has_quat (typ_ s i) <-> is_free_or_cor_or_spherical (typ_ s i) = true) /\
     length (cut qs (st_q st) i) = a).
  { intros i Hi. destruct (both_widths s qs ds i LN Hi) as (a & b & B1 & B2 & _ & _ & B3 & B4). exists a, b.
    rewrite (cut_length qs (st_q st) i a), (cut_length ds qd' i b) by auto. auto 10. }
  destruct (blocks qs g (num_links s) (ln_qs_length W s qs ds LN)) as [L Cu].
  { intros i Hi. destruct (G i Hi) as (a & b & B1 & B2 & B3 & B4 & B5). unfold g. rewrite integrate_length by auto. rewrite B5. symmetry. now apply nth_error_nth. }
  split.
  - destruct Ft as [F1 F2]. split; [rewrite F1; f_equal; cbn [st_q]; lia|rewrite F2; f_equal; cbn [st_qd]; lia].
  - intros D NZ i typ sl T Hs Q.
    assert (Hi : i < num_links s) by (rewrite <- (ln_types _ _ _ _ LN); apply nth_error_Some; congruence).
    rewrite (typ_spec W s qs ds LN i Hi) in T. injection T as <-.
    rewrite <- (coords_unique s _ _ _ _ _ (coords_cut W s qs ds LN _ i L Hi) Hs). rewrite Cu by auto.
    destruct (G i Hi) as (a & b & B1 & B2 & B3 & B4 & B5). unfold g. apply integrate_unit; auto; [now apply B4|].
    apply q4_nonzero. eapply NZ; [apply (typ_spec W s qs ds LN i Hi)|exact Q|]. now apply (coords_cut W s qs ds LN).
Qed.
Lemma unit_nonzero (s : rsys) q : unit_coords_all s q -> nonzero_quats s q.
Proof.
  intros U i typ sl T Q C E. specialize (U i typ sl T C Q). rewrite E in U. unfold qunit, qnorm2, qdot in U. cbn [qw qx qy qz] in U. lra.
Qed.

(** *** Sub-steps *)
Lemma substeps_spec k : forall (s : rsys) st taus st', wf W s -> fits s st -> substeps W jt solve k s st taus = Ok st' ->
  fits s st' /\ ((Rabs (sys_dt s) <= 10 ^ 8)%R -> nonzero_quats s (st_q st) -> k <> 0 -> unit_coords_all s (st_q st')).
Proof.
  induction k as [|k IH]; intros s st taus st' WF Ft H; cbn [substeps] in H.
  - injection H as <-. split; auto. congruence.
  - apply bind_Ok in H. destruct H as ([s' st1] & FK & H). destruct (fk_core s s' st st1 WF Ft FK) as (ls & xs & -> & SC & -> & _).
    apply bind_Ok in H. destruct H as (st2 & EU & H). pose proof (wf_with_links s ls WF (eq_sym (Forall2_length _ _ _ SC))) as WF'.
    assert (Ft1 : fits (with_links s ls) (mkState (st_q st) (st_qd st) xs)) by exact Ft.
    destruct (euler_spec _ _ _ _ WF' Ft1 EU) as [Ft2 U2]. destruct (IH _ _ _ _ WF' Ft2 H) as [Ft3 U3].
    split; [exact Ft3|]. intros D NZ _. specialize (U2 D NZ). destruct k as [|k]; [cbn [substeps] in H; injection H as <-; exact U2|].
    apply U3; [exact D|now apply unit_nonzero|discriminate].
Qed.
Lemma substeps_core k (s : rsys) ls st taus : wf W s -> fits s st -> Forall2 same_core (links s) ls ->
  substeps W jt solve k (with_links s ls) st taus = substeps W jt solve k s st taus.
Proof.
  intros WF Ft SC. destruct k as [|k]; [reflexivity|]. cbn [substeps]. rewrite fk_again; auto; [now apply wf_lean|apply Ft].
Qed.
Lemma substeps_iter k : forall (s : rsys) st taus, wf W s -> fits s st ->
  substeps W jt solve k s st taus = repeatM k (fun st => substeps W jt solve 1 s st taus) st.
Proof.
  induction k as [|k IH]; intros s st taus WF Ft; [reflexivity|]. cbn [repeatM]. cbn [substeps].
  destruct (forward_kinematics W jt s st) as [[s' st1]|e] eqn:FK; cbn [bind]; auto.
  destruct (fk_core s s' st st1 WF Ft FK) as (ls & xs & -> & SC & -> & _).
  destruct (semi_implicit_euler _ _ _ _ _ _) as [st2|e] eqn:EU; cbn [bind]; auto.
  pose proof (wf_with_links s ls WF (eq_sym (Forall2_length _ _ _ SC))) as WF'.
  destruct (euler_spec _ _ _ _ WF' (Ft : fits (with_links s ls) (mkState (st_q st) (st_qd st) xs)) EU) as [Ft2 _].
  rewrite substeps_core by auto. now rewrite IH.
Qed.

(** *** Success *)
Record simulable (s : rsys) : Prop := {
  si_wf : wf W s;
  si_known : joints_known jt s;
  si_offsets : unit_offsets s;
  si_inertias : symmetric_inertias s;
  si_links : links s <> [] }.

Lemma num_links_pos (s : rsys) : wf W s -> links s <> [] -> num_links s <> 0.
Proof. intros WF NE. unfold num_links. pose proof (wf_links _ _ WF) as L. unfold num_links in L. destruct (links s); cbn in *; congruence. Qed.
Lemma fd_total (s : rsys) q qd tau nd : wf W s -> joints_known jt s -> unit_transforms s -> symmetric_inertias s -> links s <> [] ->
  q_size W s = Ok (length q) -> qd_size W s = Ok nd -> length qd = nd -> length tau = nd ->
  exists bias sp H inv,
    inverse_dynamics W jt s qd (zeros nd) = Ok bias /\ spring_force W s q = Ok sp /\ compute_mass_matrix W jt s = Ok H /\
    length bias = nd /\ length sp = nd /\
    inv = (if (mass_mat_iters s =? 0) then solve nd (regularised_mass_matrix s H) else inv_approximate nd H eye (mass_mat_iters s)) /\
    forward_dynamics W jt solve s q qd tau = Ok (mat_vec nd inv
      (ladd (lsub tau bias) (ladd (lmul (map Ropp (link_damping s)) qd) (lmul (link_spring_stiffness s) sp))), inv).
Proof.
  intros WF JK UT SI NE Hq Hd Lqd Ltau.
  assert (Lz : length (zeros nd) = nd) by apply repeat_length.
  destruct (C31_affine _ _ s nd qd (zeros nd) WF JK builtin_fit UT SI NE Hd Lqd Lz) as (H & _ & bias & EH & _ & Eb & _).
  destruct (C33_force s q WF (num_links_pos s WF NE) Hq) as (sp & Es & Ls & _). rewrite Hd in Ls. injection Ls as Ls.
  exists bias, sp, H. eexists. split; [exact Eb|]. split; [exact Es|]. split; [exact EH|].
  split; [eapply C31_sizes; eauto using builtin_fit|]. split; [auto|]. split; [reflexivity|].
  unfold forward_dynamics, smooth_force. rewrite Lqd, Eb. cbn [bind]. rewrite Es. cbn [bind]. rewrite EH. cbn [bind]. rewrite Hd. reflexivity.
Qed.
Lemma euler_total (s : rsys) st tau : wf W s -> joints_known jt s -> unit_transforms s -> symmetric_inertias s -> links s <> [] ->
  fits s st -> length tau = length (st_qd st) -> exists st', semi_implicit_euler W jt solve s st tau = Ok st'.
Proof.
  intros WF JK UT SI NE Ft Lt. destruct (fits_lean s st WF Ft) as (qs & ds & LN & Lq & Ld).
  destruct Ft as [F1 F2]. destruct (fd_total s _ _ _ _ WF JK UT SI NE F1 F2 eq_refl Lt) as (bias & sp & H & inv & _ & _ & _ & _ & _ & _ & E).
  unfold semi_implicit_euler. rewrite E. cbn [bind fst]. clear E.
  match goal with |- context [ladd (st_qd st) (lscale (sys_dt s) ?x)] => set (qdd := x) end.
  set (qd' := ladd (st_qd st) (lscale (sys_dt s) qdd)).
  assert (Lqd' : length qd' = list_sum ds). { unfold qd'. rewrite ladd_length, lscale_length. unfold qdd, mat_vec. rewrite map_length, seq_length. lia. }
  destruct (integrate_scan W s qs ds (sys_dt s) (st_q st) qd' LN Lq Lqd') as (us & E). rewrite E. cbn [bind snd].
  match goal with |- context [M_Kin.concatenate ?l] => assert (C : M_Kin.concatenate l = Ok (concat l)) end.
  { apply concatenate_Ok. split; auto. intros X. apply map_eq_nil in X. pose proof (num_links_pos s WF NE). destruct (num_links s); [congruence|discriminate]. }
  rewrite C. cbn [bind]. eauto.
Qed.
Lemma simulable_core (s : rsys) ls : Forall2 same_core (links s) ls -> simulable s -> simulable (with_links s ls).
Proof.
  intros SC [WF JK UO SI NE]. constructor.
  - apply wf_with_links; auto. symmetry. now apply (Forall2_length _ _ _ SC).
  - intros i typ l T L. cbn [with_links links link_types] in T, L. clear - JK SC T L.
    assert (exists l0, nth_error (links s) i = Some l0 /\ same_core l0 l) as (l0 & L0 & t & t2 & ->).
    { clear JK T. revert i L. induction SC as [|a b la lb H F IH]; intros [|i] L; cbn in L |- *; try discriminate; [injection L as <-; eauto|now apply IH]. }
    destruct (JK i typ l0 T L0) as (J1 & J2). split; [exact J1|exact J2].
  - intros l Hl. cbn [with_links links] in Hl. clear - UO SC Hl. revert UO. unfold unit_offsets. generalize dependent ls. intros ls SC Hl UO.
    induction SC as [|a b la lb H F IH]; [destruct Hl|]. destruct Hl as [<-|Hl].
    + destruct H as (t & t2 & ->). exact (UO a (or_introl eq_refl)).
    + apply IH; auto. intros l0 H0. apply UO. now right.
  - intros l Hl. cbn [with_links links] in Hl. clear - SI SC Hl. unfold symmetric_inertias in SI.
    induction SC as [|a b la lb H F IH]; [destruct Hl|]. destruct Hl as [<-|Hl].
    + destruct H as (t & t2 & ->). exact (SI a (or_introl eq_refl)).
    + apply IH; auto. intros l0 H0. apply SI. now right.
  - cbn [with_links links]. intros ->. inversion SC. congruence.
Qed.
Lemma substeps_total k : forall (s : rsys) st tau, simulable s -> (Rabs (sys_dt s) <= 10 ^ 8)%R -> fits s st -> unit_coords_all s (st_q st) ->
  length tau = length (st_qd st) -> exists st', substeps W jt solve k s st tau = Ok st'.
Proof.
  induction k as [|k IH]; intros s st tau SIM D Ft U Lt; cbn [substeps]; [eauto|].
  pose proof SIM as [WF JK UO SI NE].
  destruct (proj1 (C27_total _ _ s (st_q st) _ WF JK (proj1 Ft)) eq_refl) as (xs & s1 & FK).
  unfold forward_kinematics at 1. rewrite FK. cbn [bind fst snd].
  assert (FK' : forward_kinematics W jt s st = Ok (s1, mkState (st_q st) (st_qd st) xs)) by (unfold forward_kinematics; now rewrite FK).
  destruct (fk_core s s1 st _ WF Ft FK') as (ls & xs' & -> & SC & E & _). injection E as <-.
  destruct (fk_unit_transforms s _ _ _ WF UO U (proj1 Ft) FK) as (UT & _).
  pose proof (simulable_core s ls SC SIM) as SIM'. destruct SIM' as [WF' JK' UO' SI' NE'].
  assert (Ft1 : fits (with_links s ls) (mkState (st_q st) (st_qd st) xs)) by exact Ft.
  destruct (euler_total _ _ tau WF' JK' UT SI' NE' Ft1 Lt) as (st2 & E2). rewrite E2. cbn [bind].
  destruct (euler_spec _ _ _ _ WF' Ft1 E2) as [Ft2 U2].
  apply IH; auto; [constructor; auto|now apply U2, unit_nonzero|].
  destruct Ft as [_ G], Ft2 as [_ G2]. rewrite Lt. change (qd_size W (with_links s ls)) with (qd_size W s) in G2. congruence.
Qed.

(** ** Theorems *)
(** The next state has the same sizes, and all quaternion coordinates are normalised: for any state whose
    quaternions are not zero, and any step size up to 1e8 seconds. *)
Theorem C32_next_state (s : rsys) st taus n st' : wf W s -> step W jt solve s st taus n = Ok st' ->
  length (st_q st') = length (st_q st) /\ length (st_qd st') = length (st_qd st) /\
  ((Rabs (sys_dt s) <= INR n * 10 ^ 8)%R -> nonzero_quats s (st_q st) -> unit_coords_all s (st_q st')).
Proof.
  intros WF H. unfold step in H. apply bind_Ok in H. destruct H as (nq & Hq & H). apply bind_Ok in H. destruct H as (? & A1 & H).
  apply bind_Ok in H. destruct H as (nd & Hd & H). apply bind_Ok in H. destruct H as (? & A2 & H). apply bind_Ok in H. destruct H as (? & A3 & H).
  apply assert_Ok in A1, A2. apply Nat.eqb_eq in A1. apply andb_prop in A2. destruct A2 as [A2 _]. apply Nat.eqb_eq in A2. subst nq nd.
  destruct (Nat.eqb_spec n 0) as [E|E]; [discriminate|].
  assert (Ft : fits (with_dt s (sys_dt s / INR n)) st) by (split; assumption).
  assert (WF' : wf W (with_dt s (sys_dt s / INR n))) by (destruct WF; constructor; assumption).
  destruct (substeps_spec n _ _ _ _ WF' Ft H) as [[F1 F2] U].
  change (q_size W (with_dt s (sys_dt s / INR n))) with (q_size W s) in F1. change (qd_size W (with_dt s (sys_dt s / INR n))) with (qd_size W s) in F2.
  rewrite Hq in F1. rewrite Hd in F2. split; [congruence|]. split; [congruence|]. intros D NZ. apply U; auto.
  cbn [with_dt sys_dt]. unfold Rdiv. rewrite Rabs_mult. assert (N : (0 < INR n)%R) by (apply lt_0_INR; lia).
  rewrite (Rabs_pos_eq (/ INR n)) by (left; now apply Rinv_0_lt_compat). apply (Rmult_le_reg_r (INR n)); auto.
  rewrite Rmult_assoc, Rinv_l by lra. lra.
Qed.

(** [n] sub-steps are [n] steps of a system with the [n]-th part of the step size. *)
Theorem C32_substeps (s : rsys) st taus n : wf W s -> n <> 0 ->
  step W jt solve s st taus n = repeatM n (fun st => step W jt solve (with_dt s (sys_dt s / INR n)) st taus 1) st.
Proof.
  intros WF N. set (sd := with_dt s (sys_dt s / INR n)).
  assert (WF' : wf W sd) by (destruct WF; constructor; assumption).
  assert (SD : with_dt sd (sys_dt sd / INR 1) = sd) by (unfold sd, with_dt; cbn; f_equal; field; apply not_0_INR; auto).
  assert (ONE : forall st, step W jt solve sd st taus 1 =
    do nq <- q_size W s; do _ <- assert_ (nq =? length (st_q st)); do nd <- qd_size W s;
    do _ <- assert_ ((nd =? length (st_qd st)) && (length (st_qd st) =? length (match taus with Some t => t | None => zeros (length (st_qd st)) end)));
    do _ <- assert_ (String.eqb (lower (integration_method s)) "semi_implicit_euler"%string);
    substeps W jt solve 1 sd st (match taus with Some t => t | None => zeros (length (st_qd st)) end)).
  { intros st0. unfold step. rewrite SD. reflexivity. }
  destruct n as [|n]; [congruence|]. cbn [repeatM]. rewrite ONE. unfold step. cbn [Nat.eqb]. fold sd.
  destruct (q_size W s) as [nq|e] eqn:Hq; cbn [bind]; auto. unfold assert_.
  destruct (Nat.eqb_spec nq (length (st_q st))) as [Eq|]; cbn [bind]; auto.
  destruct (qd_size W s) as [nd|e] eqn:Hd; cbn [bind]; auto.
  destruct (Nat.eqb_spec nd (length (st_qd st))) as [Ed|]; cbn [bind andb]; auto.
  set (tv := match taus with Some t => t | None => zeros (length (st_qd st)) end).
  destruct (Nat.eqb_spec (length (st_qd st)) (length tv)) as [Et|]; cbn [bind andb]; auto.
  destruct (String.eqb (lower (integration_method s)) "semi_implicit_euler"%string) eqn:Em; cbn [bind]; auto.
  assert (Ft : fits sd st) by (split; [change (q_size W sd) with (q_size W s); congruence|change (qd_size W sd) with (qd_size W s); congruence]).
  rewrite (substeps_iter (S n)) by auto. cbn [repeatM].
  destruct (substeps W jt solve 1 sd st tv) as [st1|e] eqn:S1; cbn [bind]; auto.
  destruct (substeps_spec 1 sd st tv st1 WF' Ft S1) as [Ft1 _]. clear S1.
  assert (L1 : length (st_qd st1) = length (st_qd st)) by (destruct Ft as [_ F2], Ft1 as [_ F2']; congruence).
  assert (G : forall k st1, fits sd st1 -> length (st_qd st1) = length (st_qd st) ->
     repeatM k (fun st => substeps W jt solve 1 sd st tv) st1 = repeatM k (fun st => step W jt solve sd st taus 1) st1).
  { clear st1 Ft1 L1. induction k as [|k IH]; intros st1 Ft1 L1; [reflexivity|]. cbn [repeatM]. rewrite ONE. cbn [bind].
    assert (TV : match taus with Some t => t | None => zeros (length (st_qd st1)) end = tv) by (unfold tv; rewrite L1; reflexivity).
    rewrite TV. pose proof Ft1 as [F1 F2]. change (q_size W sd) with (q_size W s) in F1. change (qd_size W sd) with (qd_size W s) in F2.
    rewrite Hq in F1. injection F1 as F1. rewrite Hd in F2. injection F2 as F2. unfold assert_.
    rewrite F1, Nat.eqb_refl. cbn [bind]. rewrite F2, Nat.eqb_refl. rewrite L1, (proj2 (Nat.eqb_eq _ _) Et). cbn [bind andb].
    destruct (substeps W jt solve 1 sd st1 tv) as [st2|e] eqn:S2; cbn [bind]; auto.
    destruct (substeps_spec 1 sd st1 tv st2 WF' Ft1 S2) as [Ft2 _]. apply IH; auto.
    destruct Ft1 as [_ G1], Ft2 as [_ G2]. congruence. }
  now apply G.
Qed.

(** Wrongly sized states or torques, other integrators and zero sub-steps are rejected. *)
Theorem C32_rejects (s : rsys) st taus n nq nd : q_size W s = Ok nq -> qd_size W s = Ok nd ->
  (length (st_q st) <> nq \/ length (st_qd st) <> nd \/ (exists t, taus = Some t /\ length t <> nd) \/
   lower (integration_method s) <> "semi_implicit_euler"%string -> step W jt solve s st taus n = Err EAssertion) /\
  (n = 0 -> forall st', step W jt solve s st taus n <> Ok st').
Proof.
  intros Hq Hd. unfold step. rewrite Hq, Hd. cbn [bind]. unfold assert_. split.
  - intros H. destruct (Nat.eqb_spec nq (length (st_q st))) as [E1|E1]; cbn [bind]; auto.
    destruct (Nat.eqb_spec nd (length (st_qd st))) as [E2|E2]; cbn [bind andb]; auto.
    destruct H as [H|[H|[(t & -> & H)|H]]]; try congruence.
    + destruct (Nat.eqb_spec (length (st_qd st)) (length t)); [congruence|]. reflexivity.
    + apply String.eqb_neq in H. rewrite H. destruct (_ =? _); reflexivity.
  - intros -> st'. cbn [Nat.eqb]. destruct (nq =? _); cbn [bind]; [|discriminate]. destruct (_ && _); cbn [bind]; [|discriminate].
    destruct (String.eqb _ _); cbn [bind]; discriminate.
Qed.
(** For systems of built-in joints every step from a valid state succeeds, whatever the solver returns. *)
Theorem C32_total (s : rsys) st tau n : simulable s -> fits s st -> unit_coords_all s (st_q st) -> n <> 0 ->
  (Rabs (sys_dt s) <= INR n * 10 ^ 8)%R -> lower (integration_method s) = "semi_implicit_euler"%string ->
  match tau with Some t => length t = length (st_qd st) | None => True end ->
  exists st', step W jt solve s st tau n = Ok st' /\ fits s st' /\ unit_coords_all s (st_q st').
Proof.
  intros SIM Ft U N D M T. assert (E : exists st', step W jt solve s st tau n = Ok st').
  { unfold step. destruct Ft as [F1 F2]. rewrite F1, F2. cbn [bind]. unfold assert_. rewrite !Nat.eqb_refl. cbn [bind andb].
    set (tv := match tau with Some t => t | None => zeros (length (st_qd st)) end).
    assert (Lt : length tv = length (st_qd st)) by (unfold tv; destruct tau; [exact T|apply repeat_length]).
    rewrite Lt, Nat.eqb_refl. cbn [bind]. rewrite M, String.eqb_refl. cbn [bind]. destruct (Nat.eqb_spec n 0); [congruence|].
    apply substeps_total; auto.
    - destruct SIM as [WF JK UO SI NE]. constructor; auto. destruct WF; constructor; assumption.
    - cbn [with_dt sys_dt]. unfold Rdiv. rewrite Rabs_mult. assert (Np : (0 < INR n)%R) by (apply lt_0_INR; lia).
      rewrite (Rabs_pos_eq (/ INR n)) by (left; now apply Rinv_0_lt_compat). apply (Rmult_le_reg_r (INR n)); auto.
      rewrite Rmult_assoc, Rinv_l by lra. lra.
    - split; assumption. }
  destruct E as (st' & E). exists st'. destruct (C32_next_state s st tau n st' (si_wf _ SIM) E) as (L1 & L2 & U').
  split; [exact E|]. split; [|apply U'; auto; now apply unit_nonzero]. destruct Ft as [F1 F2]. split; congruence.
Qed.
End C32.

Lemma demo_simulable : simulable demo.
Proof.
  constructor; [exact demo_wf|exact demo_known|exact demo_unit_offsets| |discriminate].
  destruct demo_posed as (s1 & xs & E & _ & _ & UT & SI & _).
  destruct (fk_unit_transforms demo s1 demo_q xs demo_wf demo_unit_offsets demo_unit_coords demo_q_size E) as (_ & _ & _ & MI & _).
  intros l Hl. apply (in_map pl_inertia) in Hl. rewrite <- MI in Hl. apply in_map_iff in Hl. destruct Hl as (l1 & <- & H1). now apply SI.
Qed.
(** Five sub-steps of the demo system with a constant torque, for any solver. *)
Example C32_example solve : exists st', step builtin_widths (@builtin_table unit) solve demo (mkState demo_q (repeat 1%R 11) []) (Some (repeat 2%R 11)) 5 = Ok st' /\
  length (st_q st') = 13 /\ unit_coords_all demo (st_q st').
Proof.
  assert (D : (Rabs (sys_dt demo) <= INR 5 * 10 ^ 8)%R) by (cbn [demo sys_dt]; rewrite Rabs_pos_eq by lra; cbn [INR]; lra).
  destruct (C32_total solve demo (mkState demo_q (repeat 1%R 11) []) (Some (repeat 2%R 11)) 5 demo_simulable
    (conj eq_refl eq_refl) demo_unit_coords (Nat.neq_succ_0 4) D eq_refl eq_refl) as (st' & E & [F _] & U).
  exists st'. split; [exact E|]. split; [injection F; auto|exact U].
Qed.
Print Assumptions C32_next_state.
Print Assumptions C32_substeps.
Print Assumptions C32_rejects.
Print Assumptions C32_total.
