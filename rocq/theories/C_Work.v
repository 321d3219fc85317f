(** * C89: the dynamics obey the laws of mechanics: work is the change of energy. *)
From Coq Require Import Reals Lra String ZArith Lia Bool List.
From Verif Require Import Prelude M_Sys S_Sys P_Scan P_Run M_Math P_Math M_Geom P_Geom M_Joint M_Kin M_Dyn S_Kin P_Joint P_Kin P_Mat S_Dyn P_Dyn P_Mass P_Rnea
  C_Kin C_State C_Mass C_Rnea P_Step C_Spring C_Step P_Spd C_Fwd S_Deriv P_Deriv C_Deriv S_Work P_Motion.
Import ListNotations.
Local Open Scope R_scope.

Lemma const_moves c t : moves_with (fun _ => c) t szero.
Proof. intros u. eapply vlim_eq; [|apply vlim_const]. cbn [szero ang vel]. generalize (seen_from c u). clear. vring. Qed.
Lemma slim_dual f t d : (forall m, D (fun s => m_dot m (f s)) t (m_dot m d)) -> slim f t d.
Proof.
  intros H. split; (split; [|split]);
    [pose proof (H (Sp (V3 1 0 0) vzero)) as K|pose proof (H (Sp (V3 0 1 0) vzero)) as K|pose proof (H (Sp (V3 0 0 1) vzero)) as K|
     pose proof (H (Sp vzero (V3 1 0 0))) as K|pose proof (H (Sp vzero (V3 0 1 0))) as K|pose proof (H (Sp vzero (V3 0 0 1))) as K];
    (eapply D_eq; [|eapply D_ext; [|exact K]]; [|intros s]; unfold m_dot, dot, vzero; cbn [ang vel vx vy vz]; ring).
Qed.

Section One.
Context {P O : Type}.
Notation link := (plink (params P)).
Notation rsys := (System R link geometry O).
Notation W := builtin_widths.
Notation jt := (@builtin_table P).

Lemma fk_facts (s s' : rsys) qs ds q xs : lean W s qs ds -> length q = list_sum qs -> forward_kinematics_transforms W jt s q = Ok (xs, s') ->
  lean W s' qs ds /\ length xs = num_links s /\ (exists ls, s' = with_links s ls) /\
  forall i, (i < num_links s)%nat -> pose W jt s q (Z.of_nat i) (nth i xs t_zero) /\ joint_at W jt s q i (pl_t2 (lnk s' i)) /\
    lnk s' i = set_transforms (lnk s i) (t_mul (pl_t2 (lnk s' i)) (pl_t1 (lnk s i))) (pl_t2 (lnk s' i)).
Proof.
  intros LN Hq H. destruct (fk_spec W jt s qs ds q xs s' LN Hq H) as (L & ls & -> & Ll & F).
  split; [destruct LN; constructor; auto|]. split; [exact L|]. split; [eauto|]. intros i Hi. destruct (F i Hi) as (x & t2 & A & B & C & E).
  assert (EL : lnk (with_links s ls) i = set_transforms (lnk s i) (t_mul t2 (pl_t1 (lnk s i))) t2) by (unfold lnk at 1; cbn [with_links links]; now apply nth_error_nth).
  rewrite EL. cbn [set_transforms pl_t2]. rewrite (nth_error_nth xs i t_zero A). auto.
Qed.

Section Motion.
Variable s : rsys.
Variables qs ds : list nat.
Hypothesis LN : lean W s qs ds.
Hypothesis JK : joints_known jt s.
Hypothesis UO : unit_offsets s.
Variables q qd : R -> list R.
Variable xs : R -> list transform.
Variable Ps : R -> rsys.
Hypothesis Lq : forall u, length (q u) = list_sum qs.
Hypothesis Lqd : forall u, length (qd u) = list_sum ds.
Hypothesis FK : forall u, forward_kinematics_transforms W jt s (q u) = Ok (xs u, Ps u).
Hypothesis UC : forall u, unit_coords_all s (q u).
Notation n := (num_links s).
Notation X u := (Xs (Ps u)).
Notation x u i := (nth i (xs u) t_zero).
Notation ms := (ms_of jt s).
Notation J u := (jv ds ms (getR (qd u))).
Notation v u := (fun i => field (par s) (X u) (S i) (J u) i).
Notation facts u := (fk_facts s (Ps u) qs ds (q u) (xs u) LN (Lq u) (FK u)).

Lemma known' u : joints_known jt (Ps u).
Proof.
  destruct (facts u) as (LN' & _ & (ls & E) & F). intros i typ l A B.
  assert (Hi : (i < n)%nat). { rewrite <- (ln_types _ _ _ _ LN). rewrite E in A. apply nth_error_Some. cbn [with_links link_types] in A. congruence. }
  assert (NL : num_links (Ps u) = n) by now rewrite E.
  rewrite (lnk_spec W (Ps u) qs ds LN' i) in B by lia. injection B as <-. destruct (F i Hi) as (_ & _ & ->). cbn [set_transforms pl_params].
  eapply JK; [|apply (lnk_spec W s qs ds LN i Hi)]. rewrite E in A. exact A.
Qed.
Lemma ms' u i : (i < n)%nat -> ms_of jt (Ps u) i = ms i.
Proof.
  intros Hi. destruct (facts u) as (_ & _ & (ls & E) & F). destruct (F i Hi) as (_ & _ & F3). unfold ms_of. rewrite F3. cbn [set_transforms pl_params].
  now rewrite E.
Qed.
Lemma It' u i : (i < n)%nat -> It (Ps u) i = It s i.
Proof. intros Hi. destruct (facts u) as (_ & _ & _ & F). destruct (F i Hi) as (_ & _ & F3). unfold It. now rewrite F3. Qed.
Lemma par' u i : par (Ps u) i = par s i.
Proof. destruct (facts u) as (_ & _ & (ls & E) & _). now rewrite E. Qed.
Lemma n' u : num_links (Ps u) = n.
Proof. destruct (facts u) as (_ & _ & (ls & E) & _). now rewrite E. Qed.
Lemma X_is u i : (i < n)%nat -> X u i = t_mul (pl_t2 (lnk (Ps u) i)) (pl_t1 (lnk s i)).
Proof. intros Hi. destruct (facts u) as (_ & _ & _ & F). destruct (F i Hi) as (_ & _ & F3). unfold Xs. rewrite F3 at 1. reflexivity. Qed.
Lemma t2_unit u i : (i < n)%nat -> tunit (pl_t2 (lnk (Ps u) i)).
Proof.
  intros Hi. destruct (facts u) as (_ & _ & _ & F). destruct (F i Hi) as (_ & (typ & l' & sl & pr & jm & C1 & C2 & C3 & C4 & C5 & ->) & _).
  pose proof C3 as C3'. destruct C3' as (ws & ps & W1 & [W2 _] & W3).
  eapply (builtin_tunit typ jm (length sl)); eauto.
  - assert (E : nth_error ws i = Some (length sl)) by (rewrite <- W2, nth_error_map, W3; reflexivity).
    clear -W1 C1 E. eapply have_width_at; eauto.
  - eapply UC; eauto.
Qed.
Lemma t1_unit i : (i < n)%nat -> tunit (pl_t1 (lnk s i)).
Proof. intros Hi. apply UO. eapply nth_error_In. apply (lnk_spec W s qs ds LN i Hi). Qed.
Lemma X_unit u i : (i < n)%nat -> tunit (X u i).
Proof. intros Hi. rewrite X_is by auto. apply tunit_mul; [now apply t2_unit|now apply t1_unit]. Qed.
Lemma PRs i : (i < n)%nat -> (-1 <= par s i < Z.of_nat i)%Z. Proof. apply (par_range W s qs ds LN). Qed.
Lemma x_is u i : (i < n)%nat -> x u i = t_mul (X u i) (if (par s i =? -1)%Z then t_zero else x u (Z.to_nat (par s i))).
Proof.
  intros Hi. destruct (facts u) as (_ & _ & _ & F). destruct (F i Hi) as (A & B & _). pose proof (PRs i Hi) as PI.
  set (xp := if (par s i =? -1)%Z then t_zero else x u (Z.to_nat (par s i))).
  assert (XP : pose W jt s (q u) (par s i) xp).
  { unfold xp. destruct (Z.eqb_spec (par s i) (-1)) as [->|]; [constructor|]. replace (par s i) with (Z.of_nat (Z.to_nat (par s i))) at 1 by lia. apply F. lia. }
  rewrite X_is by auto. eapply (P_Kin.pose_unique W jt s); [exact A|].
  econstructor; [apply (par_spec s i Hi)|apply (lnk_spec W s qs ds LN i Hi)|exact B|exact XP].
Qed.
Lemma v_is u : is_field n (par s) (X u) (J u) (v u).
Proof. apply field_is, PRs. Qed.
Lemma field' u y w : is_field (num_links (Ps u)) (par (Ps u)) (X u) (jv ds (ms_of jt (Ps u)) y) w <-> is_field n (par s) (X u) (jv ds ms y) w.
Proof.
  unfold is_field. rewrite n'. split; intros H i Hi; (rewrite (H i Hi); unfold up; rewrite par'; unfold jv; rewrite ms' by auto; reflexivity).
Qed.

Section At.
Variable t : R.
Variable qdd : list R.
Hypothesis EX : forall typ, In typ (link_types s) -> In typ exact_types.
Hypothesis MV : moving W s q t (qd t).
Lemma joint_moves i : (i < n)%nat -> moves_with (fun u => X u i) t (J t i).
Proof.
  intros Hi. eapply moves_ext; [intros u; symmetry; now apply X_is|].
  replace (J t i) with (sadd (J t i) (t_motion (pl_t2 (lnk (Ps t) i)) szero)) by (rewrite P_Dyn.t_motion_zero; apply sadd_0_r).
  apply (compose_moves (fun u => pl_t2 (lnk (Ps u) i)) (fun _ => pl_t1 (lnk s i))); [intros; now apply t2_unit|intros; now apply t1_unit| |apply const_moves].
  pose proof (typ_spec W s qs ds LN i Hi) as T.
  eapply (C57_exact_joints (typ_ s i) (fun u => cut qs (q u) i) t (cut ds (qd t) i) (pl_params (lnk s i))).
  - apply EX. eapply nth_error_In. exact T.
  - eapply MV; [exact T| |].
    + intros u. apply (coords_cut W s qs ds LN); auto.
    + apply (coords_cut_d W s qs ds LN); auto.
  - intros u. apply (t2_at_spec W jt s qs ds LN); auto. now apply (facts u).
  - apply (motion_ok W jt s qs ds LN JK); auto.
Qed.
Lemma pose_moves_with i : (i < n)%nat -> moves_with (fun u => x u i) t (v t i).
Proof.
  apply (tree_moves n (par s) (fun u => X u) (fun u => J u) (fun u => v u) (fun u i => x u i) PRs X_unit x_is v_is t joint_moves).
Qed.
Hypothesis AC : rates qd t qdd.
Lemma joint_acc i : (i < n)%nat -> slim (fun u => J u i) t (jv ds ms (getR qdd) i).
Proof.
  intros Hi. apply slim_dual. intros m.
  assert (HS := fun i Hi => ms_len W jt s qs ds LN JK builtin_fit i Hi).
  eapply D_ext; [intros u; symmetry; apply (dot_jv n ds ms HS); auto|]. rewrite (dot_jv n ds ms HS) by auto.
  apply D_sum. intros c _. apply D_scal. apply AC.
Qed.
Hypothesis SI : symmetric_inertias s.
Hypothesis Lqdd : length qdd = list_sum ds.
Lemma power_law tau : n <> 0%nat -> inverse_dynamics W jt (Ps t) (qd t) qdd = Ok tau ->
  D (fun u => sumR n (fun i => / 2 * m_dot (v u i) (i_mul (It s i) (v u i))) + sumR n (fun i => dot (v3_of (gravity s)) (mass_moment (It s i) (x u i)))) t
    (sumR (list_sum ds) (fun b => getR (qd t) b * getR tau b)).
Proof.
  intros Hn Ht. destruct (facts t) as (LN' & _ & (ls & E) & F).
  assert (UT : unit_transforms (Ps t)).
  { intros l Hl. apply In_nth_error in Hl. destruct Hl as [i Hl]. assert (Hi : (i < n)%nat).
    { rewrite <- (n' t), <- (ln_links _ _ _ _ LN'). apply nth_error_Some. congruence. }
    rewrite (lnk_spec W (Ps t) qs ds LN' i) in Hl by (rewrite n'; auto). injection Hl as <-. apply (X_unit t i Hi). }
  destruct (acc_exists W (Ps t) qs ds LN' (Sp vzero (v3_of (gravity (Ps t)))) (jv ds (ms_of jt (Ps t)) (getR (qd t))) (jv ds (ms_of jt (Ps t)) (getR qdd)) (v t)) as [a Ha].
  assert (FV : is_field (num_links (Ps t)) (par (Ps t)) (X t) (jv ds (ms_of jt (Ps t)) (getR (qd t))) (v t)) by (apply field', v_is).
  destruct (rnea_spec W jt (Ps t) qs ds LN' (known' t) builtin_fit UT (qd t) qdd (v t) a (Lqd t) Lqdd) as (tau' & T1 & _ & T2); [rewrite n'; exact Hn|exact FV|exact Ha|].
  rewrite Ht in T1. injection T1 as <-. rewrite (T2 (getR (qd t)) (v t) FV). rewrite n'.
  eapply D_eq; [|apply (tree_power n (par s) (fun u => X u) (fun u => J u) (fun u => v u) (fun u i => x u i) (v3_of (gravity s)) PRs X_unit x_is v_is t joint_moves
     (jv ds ms (getR qdd)) a)].
  - apply sumR_ext. intros i Hi. unfold frc. now rewrite It'.
  - exact joint_acc.
  - intros i Hi. rewrite (Ha i) by (rewrite n'; auto). rewrite par'. unfold jv. rewrite ms' by auto. now rewrite E.
  - intros i Hi. apply bsym_isym, SI. eapply nth_error_In. apply (lnk_spec W s qs ds LN i Hi).
Qed.
End At.

Hypothesis SI : symmetric_inertias s.
Lemma energy_is u K : kinetic_energy W jt (Ps u) (qd u) = Ok K ->
  K = sumR n (fun i => / 2 * m_dot (v u i) (i_mul (It s i) (v u i))) + sumR (list_sum ds) (fun a => / 2 * getR (link_armature s) a * getR (qd u) a * getR (qd u) a).
Proof.
  destruct (facts u) as (LN' & _ & (ls & E) & F).
  assert (UT : unit_transforms (Ps u)).
  { intros l Hl. apply In_nth_error in Hl. destruct Hl as [i Hl]. assert (Hi : (i < n)%nat).
    { rewrite <- (n' u), <- (ln_links _ _ _ _ LN'). apply nth_error_Some. congruence. }
    rewrite (lnk_spec W (Ps u) qs ds LN' i) in Hl by (rewrite n'; auto). injection Hl as <-. apply (X_unit u i Hi). }
  assert (SI' : forall l, In l (links (Ps u)) -> bsym (pl_inertia l)).
  { intros l Hl. apply In_nth_error in Hl. destruct Hl as [i Hl]. assert (Hi : (i < n)%nat).
    { rewrite <- (n' u), <- (ln_links _ _ _ _ LN'). apply nth_error_Some. congruence. }
    rewrite (lnk_spec W (Ps u) qs ds LN' i) in Hl by (rewrite n'; auto). injection Hl as <-. change (bsym (It (Ps u) i)). rewrite It' by auto.
    apply bsym_isym, SI. eapply nth_error_In. apply (lnk_spec W s qs ds LN i Hi). }
  destruct (mass_spec W jt (Ps u) qs ds LN' (known' u) builtin_fit UT SI') as (H & EH & _ & B).
  assert (FV : is_field (num_links (Ps u)) (par (Ps u)) (X u) (jv ds (ms_of jt (Ps u)) (getR (qd u))) (v u)) by (apply field', v_is).
  specialize (B _ _ _ _ FV FV). unfold kinetic_energy. rewrite EH. cbn [bind]. intros HK. apply bind_Ok in HK. destruct HK as (nd & Hnd & HK). injection HK as <-.
  apply total_width_Ok in Hnd. destruct Hnd as (ws & Hw & ->). rewrite (have_widths_unique _ _ _ _ Hw (ln_d _ _ _ _ LN')). clear Hw ws.
  unfold quad_form. unfold bil in B. rewrite sumR_swap in B.
  rewrite (sumR_ext _ _ (fun b => sumR (list_sum ds) (fun a => getR (qd u) a * H a b * getR (qd u) b))) by (intros; symmetry; apply sumR_scale_r).
  rewrite B, n', Rmult_plus_distr_l, <- !sumR_scale. f_equal.
  - apply sumR_ext. intros i Hi. now rewrite It'.
  - apply sumR_ext. intros i Hi. rewrite E. cbn [with_links link_armature]. ring.
Qed.
End Motion.

Lemma potential_is (s : rsys) (ls : list link) xs : length ls = length xs ->
  weights (v3_of (gravity s)) ls xs = sumR (length ls) (fun i => dot (v3_of (gravity s)) (mass_moment (pl_inertia (nth i ls dlink)) (nth i xs t_zero))).
Proof.
  revert xs. induction ls as [|l ls IH]; intros [|x xs] H; try discriminate; [reflexivity|].
  cbn [weights length]. change (S (length ls)) with (1 + length ls)%nat. rewrite sumR_app. cbn [sumR nth Nat.add]. rewrite IH by (cbn in H; lia). ring.
Qed.

(** The velocities that the dynamics compute for the links are the velocities of the poses from forward kinematics. *)
Theorem C89_velocity (s : rsys) q qd t xs Ps vs : wf W s -> joints_known jt s -> unit_offsets s ->
  (forall typ, In typ (link_types s) -> In typ exact_types) ->
  (forall u, q_size W s = Ok (length (q u))) -> (forall u, unit_coords_all s (q u)) -> qd_size W s = Ok (length qd) ->
  (forall u, forward_kinematics_transforms W jt s (q u) = Ok (xs u, Ps u)) ->
  moving W s q t qd -> body_vels W jt (Ps t) qd vs ->
  forall i v, nth_error vs i = Some v -> moves_with (fun u => nth i (xs u) t_zero) t v.
Proof.
  intros WF JK UO EX Hq UC Hd FK MV BV i v Hv. destruct (wf_lean W s WF) as (qs & ds & LN).
  assert (Lq : forall u, length (q u) = list_sum qs).
  { intros u. specialize (Hq u). apply total_width_Ok in Hq. destruct Hq as (ws & Hw & ->). now rewrite (have_widths_unique _ _ _ _ Hw (ln_q _ _ _ _ LN)). }
  assert (Lqd : length qd = list_sum ds).
  { apply total_width_Ok in Hd. destruct Hd as (ws & Hw & ->). now rewrite (have_widths_unique _ _ _ _ Hw (ln_d _ _ _ _ LN)). }
  destruct (fk_facts s (Ps t) qs ds (q t) (xs t) LN (Lq t) (FK t)) as (LN' & _).
  assert (Hi : (i < num_links s)%nat).
  { rewrite <- (n' s qs ds LN q xs Ps Lq FK t), <- (ln_links _ _ _ _ LN'), <- (proj1 BV). apply nth_error_Some. congruence. }
  pose proof (body_field W jt (Ps t) qs ds LN' (known' s qs ds LN JK q xs Ps Lq FK t) builtin_fit qd vs Lqd BV) as BF.
  apply (field' s qs ds LN q xs Ps Lq FK t) in BF.
  pose proof (pose_moves_with s qs ds LN JK UO q (fun _ => qd) xs Ps Lq (fun _ => Lqd) FK UC t EX MV i Hi) as M. cbv beta in M.
  rewrite (field_unique (num_links s) (par s) (Xs (Ps t)) (PRs s qs ds LN) _ _ _ (field_is (num_links s) (par s) (Xs (Ps t)) (PRs s qs ds LN) _) BF i Hi) in M.
  rewrite (nth_error_nth vs i szero Hv) in M. exact M.
Qed.

(** Work-energy theorem: the power of the forces from inverse dynamics (with the inertia of the drives) is the rate
    at which kinetic energy and energy of the weight change. *)
Theorem C89_power (s : rsys) q qd qdd t xs Ps K tau : wf W s -> joints_known jt s -> unit_offsets s -> symmetric_inertias s -> num_links s <> 0%nat ->
  (forall typ, In typ (link_types s) -> In typ exact_types) ->
  (forall u, q_size W s = Ok (length (q u))) -> (forall u, unit_coords_all s (q u)) -> (forall u, qd_size W s = Ok (length (qd u))) -> qd_size W s = Ok (length qdd) ->
  (forall u, forward_kinematics_transforms W jt s (q u) = Ok (xs u, Ps u)) ->
  (forall u, kinetic_energy W jt (Ps u) (qd u) = Ok (K u)) ->
  moving W s q t (qd t) -> rates qd t qdd ->
  inverse_dynamics W jt (Ps t) (qd t) qdd = Ok tau ->
  derivable_pt_lim (fun u => K u + potential s (xs u)) t
    (sumR (length qdd) (fun a => getR (qd t) a * (getR tau a + getR (link_armature s) a * getR qdd a))).
Proof.
  intros WF JK UO SI Hn EX Hq UC Hd Hdd FK HK MV AC HT. destruct (wf_lean W s WF) as (qs & ds & LN).
  assert (Lq : forall u, length (q u) = list_sum qs).
  { intros u. specialize (Hq u). apply total_width_Ok in Hq. destruct Hq as (ws & Hw & ->). now rewrite (have_widths_unique _ _ _ _ Hw (ln_q _ _ _ _ LN)). }
  assert (Lqd : forall u, length (qd u) = list_sum ds).
  { intros u. specialize (Hd u). apply total_width_Ok in Hd. destruct Hd as (ws & Hw & ->). now rewrite (have_widths_unique _ _ _ _ Hw (ln_d _ _ _ _ LN)). }
  assert (Lqdd : length qdd = list_sum ds).
  { apply total_width_Ok in Hdd. destruct Hdd as (ws & Hw & ->). now rewrite (have_widths_unique _ _ _ _ Hw (ln_d _ _ _ _ LN)). }
  rewrite Lqdd. pose proof (power_law s qs ds LN JK UO q qd xs Ps Lq Lqd FK UC t qdd EX MV AC SI Lqdd tau Hn HT) as PW.
  eapply D_ext; [intros u; symmetry; rewrite (energy_is s qs ds LN JK UO q qd xs Ps Lq FK UC SI u (K u) (HK u)); reflexivity|].
  assert (AR : D (fun u => sumR (list_sum ds) (fun a => / 2 * getR (link_armature s) a * getR (qd u) a * getR (qd u) a)) t
     (sumR (list_sum ds) (fun a => getR (link_armature s) a * getR (qd t) a * getR qdd a))).
  { apply D_sum. intros a _. pose proof (AC a) as A. eapply D_eq; [|eapply D_mult; [eapply D_mult; [apply D_const|exact A]|exact A]]. cbv beta. field. }
  eapply D_eq; [|eapply D_ext; [|apply D_plus; [exact PW|exact AR]]].
  - rewrite <- sumR_add. apply sumR_ext. intros. ring.
  - intros u. cbv beta. unfold potential. rewrite (potential_is s (links s) (xs u)).
    + rewrite (ln_links _ _ _ _ LN). unfold It, lnk. ring.
    + destruct (fk_facts s (Ps u) qs ds (q u) (xs u) LN (Lq u) (FK u)) as (_ & -> & _). apply LN.
Qed.

(** ** Simulated motions *)
(** Joint types whose coordinates have their own velocities as rates. *)
Definition plain_types : list string := ["rx"; "ry"; "rz"; "px"; "py"; "pz"; "p3d"; "frozen"]%string.
Lemma plain_exact typ : In typ plain_types -> In typ exact_types /\ ~ has_quat typ /\ qW W typ = dW W typ /\ is_free_or_cor typ = false /\ is_spherical typ = false.
Proof.
  unfold plain_types, exact_types, has_quat. cbn [In].
  intros [<-|[<-|[<-|[<-|[<-|[<-|[<-|[<-|[]]]]]]]]]; (split; [tauto|]; split; [intros [H|[H|[H|[]]]]; discriminate|repeat split]).
Qed.
Lemma plain_widths types qs ds : (forall typ, In typ types -> In typ plain_types) -> have_widths (qW W) types qs -> have_widths (dW W) types ds -> qs = ds.
Proof.
  intros H A B. refine (have_widths_unique (dW W) types qs ds _ B). clear B. revert qs A. induction types as [|a types IH]; intros qs A; inversion A; subst; constructor.
  - rewrite <- (proj1 (proj2 (proj2 (plain_exact a (H a (or_introl eq_refl)))))). assumption.
  - apply IH; auto. intros typ I. apply H. now right.
Qed.
Lemma zipw_pieces f ws : forall a b, length a = list_sum ws -> length b = list_sum ws ->
  concat (map (fun i => zipw f (cut ws a i) (cut ws b i)) (seq 0 (length ws))) = zipw f a b.
Proof.
  induction ws as [|w ws IH]; intros a b A B.
  - cbn in A. apply length_zero_iff_nil in A. subst. reflexivity.
  - cbn [length seq map concat]. rewrite <- seq_shift, map_map. unfold cut in *. cbn [split_by nth].
    change (list_sum (w :: ws)) with (w + list_sum ws)%nat in A, B. rewrite IH by (rewrite skipn_length; lia).
    assert (G : forall k (u y : list R), zipw f (firstn k u) (firstn k y) ++ zipw f (skipn k u) (skipn k y) = zipw f u y).
    { clear. induction k as [|k IH]; intros u y; [reflexivity|]. destruct u, y; cbn [firstn skipn zipw app]; try reflexivity.
      - now destruct (skipn k u). - now rewrite IH. }
    apply G.
Qed.
Lemma plain_spring (s : rsys) qs ds q : lean W s qs ds -> num_links s <> 0%nat -> (forall typ, In typ (link_types s) -> In typ plain_types) ->
  length q = list_sum qs -> length (link_spring_zeropoint s) = list_sum qs -> spring_force W s q = Ok (zipw Rminus (link_spring_zeropoint s) q).
Proof.
  intros LN NZ PT Hq Hz. rewrite (spring_scan W s qs ds q LN Hq Hz).
  rewrite (map_ext_in _ (fun i => zipw Rminus (cut qs (link_spring_zeropoint s) i) (cut qs q i))).
  - rewrite <- (ln_qs_length W s qs ds LN), <- (zipw_pieces Rminus qs _ q Hz Hq). unfold M_Kin.concatenate.
    rewrite (ln_qs_length W s qs ds LN). destruct (num_links s); [congruence|reflexivity].
  - intros i Hi. apply in_seq in Hi. destruct (plain_exact (typ_ s i)) as (_ & _ & _ & A & B).
    { apply PT. eapply nth_error_In. apply (typ_spec W s qs ds LN i). lia. }
    unfold spring_force_link. now rewrite A, B.
Qed.
Lemma rates_cut (s : rsys) ds q t qd i : lean W s ds ds -> (i < num_links s)%nat -> (forall u, length (q u) = list_sum ds) -> length qd = list_sum ds ->
  rates q t qd -> rates (fun u => cut ds (q u) i) t (cut ds qd i).
Proof.
  intros LN Hi Lq Ld H k. rewrite (cut_get W s ds ds LN qd i Ld Hi). unfold getR at 2.
  destruct (lt_dec k (wd ds i)) as [Hk|Hk].
  - rewrite (nth_error_nth (map _ (seq 0 (wd ds i))) k 0 (x := getR qd (off ds i + k))) by now rewrite nth_map_seq.
    eapply D_ext; [|exact (H (off ds i + k)%nat)]. intros u. rewrite (cut_get W s ds ds LN (q u) i (Lq u) Hi). unfold getR at 2.
    rewrite (nth_error_nth (map _ (seq 0 (wd ds i))) k 0 (x := getR (q u) (off ds i + k))) by now rewrite nth_map_seq. reflexivity.
  - rewrite nth_overflow by (rewrite map_length, seq_length; lia). eapply D_ext; [|apply (D_const 0)]. intros u.
    rewrite (cut_get W s ds ds LN (q u) i (Lq u) Hi). unfold getR at 1. rewrite nth_overflow; [reflexivity|rewrite map_length, seq_length; lia].
Qed.
Lemma springs_sum k : forall z q, length k = length q -> length z = length q ->
  springs k z q = sumR (length q) (fun a => / 2 * getR k a * (getR q a - getR z a) * (getR q a - getR z a)).
Proof.
  induction k as [|a k IH]; intros [|b z] [|c q] A B; try discriminate; [reflexivity|].
  cbn [springs length]. change (S (length q)) with (1 + length q)%nat. rewrite sumR_app, IH by (cbn in A, B; lia).
  unfold getR. cbn [sumR nth Nat.add]. ring.
Qed.

(** A motion at the accelerations that forward dynamics returns changes the stored energy by the power of the applied
    forces less the power lost in the dampers. *)
Theorem C89_simulation solve (s : rsys) q qd qdd t xs Ps K tau inv : solves solve -> mass_mat_iters s = 0%nat ->
  wf W s -> joints_known jt s -> unit_offsets s -> symmetric_inertias s -> (forall l, In l (links s) -> ipsd (pl_inertia l)) ->
  Forall (fun c => 0 <= c) (link_armature s) -> Forall (fun c => 0 <= c) (link_damping s) -> 0 <= sys_dt s -> num_links s <> 0%nat ->
  (forall typ, In typ (link_types s) -> In typ plain_types) ->
  (forall u, q_size W s = Ok (length (q u))) -> (forall u, qd_size W s = Ok (length (qd u))) -> qd_size W s = Ok (length tau) ->
  (forall u, forward_kinematics_transforms W jt s (q u) = Ok (xs u, Ps u)) ->
  (forall u, kinetic_energy W jt (Ps u) (qd u) = Ok (K u)) ->
  forward_dynamics W jt solve (Ps t) (q t) (qd t) tau = Ok (qdd, inv) ->
  rates q t (qd t) -> rates qd t qdd ->
  derivable_pt_lim (fun u => stored s (K u) (xs u) (q u) (qd u)) t
    (sumR (length tau) (fun a => getR tau a * getR (qd t) a) - sumR (length tau) (fun a => getR (link_damping s) a * getR (qd t) a * getR (qd t) a)).
Proof.
  intros SO MI WF JK UO SI IP AR DA DT NZ PT Hq Hd Ht FK HK FD RQ RD. destruct (wf_arrays _ _ WF) as (qs & ds & A1 & A2 & LA & LD & LS & AZ).
  assert (LN : lean W s qs ds) by (destruct (wf_lean W s WF) as (qs' & ds' & LN); rewrite (have_widths_unique _ _ _ _ A1 (ln_q _ _ _ _ LN)), (have_widths_unique _ _ _ _ A2 (ln_d _ _ _ _ LN)); exact LN).
  pose proof (plain_widths _ _ _ PT A1 A2) as ->.
  assert (Lq : forall u, length (q u) = list_sum ds).
  { intros u. specialize (Hq u). apply total_width_Ok in Hq. destruct Hq as (ws & Hw & ->). now rewrite (have_widths_unique _ _ _ _ Hw A1). }
  assert (Lqd : forall u, length (qd u) = list_sum ds).
  { intros u. specialize (Hd u). apply total_width_Ok in Hd. destruct Hd as (ws & Hw & ->). now rewrite (have_widths_unique _ _ _ _ Hw A2). }
  assert (Lt : length tau = list_sum ds).
  { apply total_width_Ok in Ht. destruct Ht as (ws & Hw & ->). now rewrite (have_widths_unique _ _ _ _ Hw A2). }
  assert (UC : forall u, unit_coords_all s (q u)).
  { intros u i typ sl T _ HQ. exfalso. apply (proj1 (proj2 (plain_exact typ (PT typ (nth_error_In _ _ T))))). exact HQ. }
  destruct (fk_facts s (Ps t) ds ds (q t) (xs t) LN (Lq t) (FK t)) as (LN' & _ & (ls & E) & F).
  assert (NL : num_links (Ps t) = num_links s) by now rewrite E.
  assert (LNK : forall l, In l (links (Ps t)) -> exists i, (i < num_links s)%nat /\ l = lnk (Ps t) i).
  { intros l Hl. apply In_nth_error in Hl. destruct Hl as [i Hl]. assert (Hi : (i < num_links s)%nat).
    { rewrite <- NL, <- (ln_links _ _ _ _ LN'). apply nth_error_Some. congruence. }
    exists i. split; auto. rewrite (lnk_spec W (Ps t) ds ds LN' i) in Hl by (rewrite NL; auto). now injection Hl. }
  assert (OLD : forall i, (i < num_links s)%nat -> In (lnk s i) (links s)) by (intros i Hi; eapply nth_error_In; apply (lnk_spec W s ds ds LN i Hi)).
  assert (INE : forall i, (i < num_links s)%nat -> pl_inertia (lnk (Ps t) i) = pl_inertia (lnk s i)) by (intros i Hi; destruct (F i Hi) as (_ & _ & ->); reflexivity).
  assert (WF' : wf W (Ps t)). { rewrite E. apply wf_with_links; auto. pose proof (ln_links _ _ _ _ LN') as L1. rewrite E in L1. cbn [with_links links] in L1. rewrite L1. symmetry. apply LN. }
  assert (UT : unit_transforms (Ps t)).
  { intros l Hl. destruct (LNK l Hl) as (i & Hi & ->). apply (X_unit s ds ds LN UO q xs Ps Lq FK UC t i Hi). }
  assert (NE : links (Ps t) <> []). { intros N. pose proof (ln_links _ _ _ _ LN') as L1. rewrite N, NL in L1. cbn in L1. congruence. }
  assert (SI' : symmetric_inertias (Ps t)) by (intros l Hl; destruct (LNK l Hl) as (i & Hi & ->); rewrite (INE i Hi); apply SI, OLD, Hi).
  assert (IP' : forall l, In l (links (Ps t)) -> ipsd (pl_inertia l)) by (intros l Hl; destruct (LNK l Hl) as (i & Hi & ->); rewrite (INE i Hi); apply IP, OLD, Hi).
  assert (AR' : link_armature (Ps t) = link_armature s) by now rewrite E.
  assert (DA' : link_damping (Ps t) = link_damping s) by now rewrite E.
  assert (ST' : link_spring_stiffness (Ps t) = link_spring_stiffness s) by now rewrite E.
  assert (ZE' : link_spring_zeropoint (Ps t) = link_spring_zeropoint s) by now rewrite E.
  assert (TY' : link_types (Ps t) = link_types s) by now rewrite E.
  assert (DT' : sys_dt (Ps t) = sys_dt s) by now rewrite E.
  assert (MI' : mass_mat_iters (Ps t) = 0%nat) by (rewrite E; exact MI).
  assert (HQ' : q_size W (Ps t) = Ok (length (q t))) by (rewrite E; apply Hq).
  assert (HD' : qd_size W (Ps t) = Ok (list_sum ds)) by (rewrite E, <- (Lqd t); apply Hd).
  destruct (C61_equations_of_motion solve (Ps t) (list_sum ds) (q t) (qd t) tau SO MI' WF' (known' s ds ds LN JK q xs Ps Lq FK t) UT SI' IP'
    ltac:(now rewrite AR') ltac:(now rewrite DA') ltac:(now rewrite DT') NE HQ' HD' (Lqd t) Lt) as (qdd' & inv' & f & id & FD' & Lqdd & SF & ID & EQ).
  rewrite FD in FD'. injection FD' as <- <-.
  rewrite (plain_spring (Ps t) ds ds (q t) LN' ltac:(rewrite NL; auto) ltac:(rewrite TY'; auto) (Lq t) ltac:(rewrite ZE'; auto)) in SF. injection SF as <-.
  rewrite AR', DA', ST', ZE', DT' in EQ.
  assert (MV : moving W s q t (qd t)).
  { intros i typ c d T C1 C2. pose proof (plain_exact typ (PT typ (nth_error_In _ _ T))) as (_ & NQ & _). split; [intros; contradiction|]. intros _.
    assert (Hi : (i < num_links s)%nat) by (rewrite <- (ln_types _ _ _ _ LN); apply nth_error_Some; congruence).
    rewrite (coords_unique s (dW W) (qd t) i d _ C2 (coords_cut_d W s ds ds LN (qd t) i (Lqd t) Hi)).
    intros k. eapply D_ext; [|exact (rates_cut s ds q t (qd t) i LN Hi Lq (Lqd t) RQ k)]. intros u. cbv beta.
    now rewrite (coords_unique s (qW W) (q u) i (c u) _ (C1 u) (coords_cut W s ds ds LN (q u) i (Lq u) Hi)). }
  pose proof (C89_power s q qd qdd t xs Ps K id WF JK UO SI NZ (fun typ H => proj1 (plain_exact typ (PT typ H))) Hq UC Hd
    ltac:(rewrite Lqdd, <- (Lqd t); apply Hd) FK HK MV RD ID) as PW. rewrite Lqdd in PW.
  assert (SP : D (fun u => springs (link_spring_stiffness s) (link_spring_zeropoint s) (q u)) t
     (sumR (list_sum ds) (fun a => getR (link_spring_stiffness s) a * (getR (q t) a - getR (link_spring_zeropoint s) a) * getR (qd t) a))).
  { eapply D_ext; [intros u; symmetry; apply springs_sum; rewrite Lq; auto|]. eapply D_ext; [intros u; now rewrite (Lq u)|]. apply D_sum. intros a _. pose proof (RQ a) as A.
    assert (B : D (fun u => getR (q u) a - getR (link_spring_zeropoint s) a) t (getR (qd t) a)).
    { eapply D_eq; [|apply D_minus; [exact A|apply D_const]]. ring. }
    eapply D_eq; [|eapply D_mult; [eapply D_mult; [apply D_const|exact B]|exact B]]. cbv beta. field. }
  assert (AD : D (fun u => sumR (length (qd u)) (fun a => / 2 * (/ 10 ^ 6 + sys_dt s * getR (link_damping s) a) * getR (qd u) a * getR (qd u) a)) t
     (sumR (list_sum ds) (fun a => (/ 10 ^ 6 + sys_dt s * getR (link_damping s) a) * getR (qd t) a * getR qdd a))).
  { eapply D_ext; [intros u; now rewrite (Lqd u)|]. apply D_sum. intros a _. pose proof (RD a) as A.
    eapply D_eq; [|eapply D_mult; [eapply D_mult; [apply D_const|exact A]|exact A]]. cbv beta. field. }
  eapply D_eq; [|apply (D_plus _ _ _ _ _ (D_plus _ _ _ _ _ PW SP) AD)].
  rewrite Lt. rewrite <- !sumR_add.
  match goal with |- ?L = sumR ?m ?f - sumR ?m ?g => replace (sumR m f - sumR m g) with (sumR m (fun a => f a - g a)) end.
  - apply sumR_ext. intros a Ha. specialize (EQ a Ha). rewrite getR_zipw in EQ by (rewrite ?Lq; lia). cbv beta in *.
    match type of EQ with ?l = _ => replace (getR id a + getR (link_armature s) a * getR qdd a) with l by ring end. rewrite EQ. ring.
  - generalize (list_sum ds). clear. intros m. induction m as [|m IH]; cbn [sumR]; [ring|rewrite IH; ring].
Qed.

(** A system that is left alone never gains energy; without damping it loses none. *)
Theorem C89_passive solve (s : rsys) q qd qdd a b xs Ps K tau inv : solves solve -> mass_mat_iters s = 0%nat ->
  wf W s -> joints_known jt s -> unit_offsets s -> symmetric_inertias s -> (forall l, In l (links s) -> ipsd (pl_inertia l)) ->
  Forall (fun c => 0 <= c) (link_armature s) -> Forall (fun c => 0 <= c) (link_damping s) -> 0 <= sys_dt s -> num_links s <> 0%nat ->
  (forall typ, In typ (link_types s) -> In typ plain_types) ->
  (forall u, q_size W s = Ok (length (q u))) -> (forall u, qd_size W s = Ok (length (qd u))) -> qd_size W s = Ok (length tau) -> Forall (fun c => c = 0) tau ->
  (forall u, forward_kinematics_transforms W jt s (q u) = Ok (xs u, Ps u)) ->
  (forall u, kinetic_energy W jt (Ps u) (qd u) = Ok (K u)) -> a <= b ->
  (forall u, a <= u <= b -> forward_dynamics W jt solve (Ps u) (q u) (qd u) tau = Ok (qdd u, inv u) /\ rates q u (qd u) /\ rates qd u (qdd u)) ->
  stored s (K b) (xs b) (q b) (qd b) <= stored s (K a) (xs a) (q a) (qd a) /\
  (Forall (fun c => c = 0) (link_damping s) -> stored s (K b) (xs b) (q b) (qd b) = stored s (K a) (xs a) (q a) (qd a)).
Proof.
  intros SO MI WF JK UO SI IP AR DA DT NZ PT Hq Hd Ht Z FK HK [AB| ->] H; [|split; [lra|auto]].
  set (e u := stored s (K u) (xs u) (q u) (qd u)).
  set (e' u := sumR (length tau) (fun c => getR tau c * getR (qd u) c) - sumR (length tau) (fun c => getR (link_damping s) c * getR (qd u) c * getR (qd u) c)).
  assert (De : forall u, a <= u <= b -> derivable_pt_lim e u (e' u)).
  { intros u Hu. destruct (H u Hu) as (H1 & H2 & H3). exact (C89_simulation solve s q qd (qdd u) u xs Ps K tau (inv u) SO MI WF JK UO SI IP AR DA DT NZ PT Hq Hd Ht FK HK H1 H2 H3). }
  destruct (MVT_cor2 e e' a b AB De) as (c & EC & _). change (e b <= e a /\ (Forall (fun c => c = 0) (link_damping s) -> e b = e a)).
  assert (ZT : forall k, getR tau k = 0).
  { intros k. unfold getR. destruct (nth_in_or_default k tau 0) as [I|I]; [|exact I]. rewrite Forall_forall in Z. now apply Z. }
  assert (E' : e' c = - sumR (length tau) (fun k => getR (link_damping s) k * getR (qd c) k * getR (qd c) k)).
  { unfold e'. rewrite (sumR_0 _ (fun c0 => getR tau c0 * getR (qd c) c0)) by (intros; rewrite ZT; ring). ring. }
  assert (ND : 0 <= sumR (length tau) (fun k => getR (link_damping s) k * getR (qd c) k * getR (qd c) k)).
  { apply sumR_nonneg. intros k _. assert (0 <= getR (link_damping s) k).
    { unfold getR. destruct (nth_in_or_default k (link_damping s) 0) as [I|I]; [|rewrite I; lra]. rewrite Forall_forall in DA. now apply DA. }
    pose proof (Rle_0_sqr (getR (qd c) k)) as Q. unfold Rsqr in Q. rewrite Rmult_assoc. now apply Rmult_le_pos. }
  split; [nra|]. intros ZD.
  assert (Z0 : sumR (length tau) (fun k => getR (link_damping s) k * getR (qd c) k * getR (qd c) k) = 0).
  { apply sumR_0. intros k _.
    assert (D0 : getR (link_damping s) k = 0). { unfold getR. destruct (nth_in_or_default k (link_damping s) 0) as [I|I]; [|exact I]. rewrite Forall_forall in ZD. now apply ZD. }
    rewrite D0. ring. }
  rewrite E', Z0 in EC. lra.
Qed.
End One.

(** A mass that falls along a vertical slider: its motion at the accelerations of forward dynamics is the parabola,
    with an acceleration that the regularisation makes slightly smaller than that of gravity, and its energy is kept. *)
Definition drop_link (t t2 : transform) : plink (params unit) :=
  mkPL t_zero vzero vzero [("default"%string, tt)] (In3 (M3 (V3 1 0 0) (V3 0 1 0) (V3 0 0 1)) vzero 2) t2 t.
Definition drop_at (t t2 : transform) : System R (plink (params unit)) geometry unit :=
  mkSys [-1]%Z [drop_link t t2] ["pz"]%string [0] [0] [0] [0] (1/100) [] [0; 0; 981/100] "semi_implicit_euler" 0 ["a"]%string None [tt].
Definition drop : System R (plink (params unit)) geometry unit := drop_at t_zero t_zero.
Definition lifted (z : R) : System R (plink (params unit)) geometry unit := drop_at (t_mul (t_of_pos (vscale z z_unit)) t_zero) (t_of_pos (vscale z z_unit)).
Definition height (z : R) : transform := t_mul (t_mul (t_of_pos (vscale z z_unit)) t_zero) t_zero.
Lemma drop_fk z : forward_kinematics_transforms builtin_widths (@builtin_table unit) drop [z] = Ok ([height z], lifted z). Proof. reflexivity. Qed.
Lemma drop_id z v a : inverse_dynamics builtin_widths (@builtin_table unit) (lifted z) [v] [a] = Ok [2 * (a + 981/100)].
Proof. unfold inverse_dynamics. cbv -[Rplus Rmult Ropp Rinv IZR Rminus Rdiv]. do 2 f_equal. field. Qed.
Lemma drop_K z v : kinetic_energy builtin_widths (@builtin_table unit) (lifted z) [v] = Ok (v * v).
Proof. unfold kinetic_energy. cbv -[Rplus Rmult Ropp Rinv IZR Rminus Rdiv]. f_equal. field. Qed.
Lemma drop_wf t t2 : wf builtin_widths (drop_at t t2).
Proof.
  constructor; try reflexivity.
  - cbn [drop_at link_names]. repeat constructor. cbn [In]. tauto.
  - unfold drop_at, topo. cbn [link_parents]. intros [|[|i]] p H; cbn in H; try discriminate. injection H as <-. lia.
  - constructor.
  - exists [1]%nat, [1]%nat. repeat split; repeat constructor.
Qed.
Lemma drop_known t t2 : joints_known (@builtin_table unit) (drop_at t t2).
Proof. intros [|[|i]] typ l A B; cbn in A, B; try discriminate. injection A as <-. injection B as <-. split; [eexists; reflexivity|exists tt; right; split; reflexivity]. Qed.
Lemma drop_isym t t2 : symmetric_inertias (drop_at t t2).
Proof. intros l [<-|[]]. unfold isym, drop_link. cbn [pl_inertia i_3x3]. repeat split. Qed.
Lemma drop_ipsd t t2 l : In l (links (drop_at t t2)) -> ipsd (pl_inertia l).
Proof.
  intros [<-|[]] [[a b c] [d e f]]. unfold energy2, drop_link. cbn [pl_inertia]. vunfold.
  pose proof (Rle_0_sqr a). pose proof (Rle_0_sqr b). pose proof (Rle_0_sqr c). pose proof (Rle_0_sqr d). pose proof (Rle_0_sqr e). pose proof (Rle_0_sqr f). unfold Rsqr in *. lra.
Qed.
Definition fall : R := 981 / 50 / (2 + / 10 ^ 6).
Lemma drop_fd z v : exists inv, forward_dynamics builtin_widths (@builtin_table unit) solve_gauss (lifted z) [z] [v] [0] = Ok ([- fall], inv).
Proof.
  destruct (C61_equations_of_motion solve_gauss (lifted z) 1 [z] [v] [0] solve_gauss_solves eq_refl (drop_wf _ _) (drop_known _ _)) as (qdd & inv & f & id & A & B & C & D & E);
    try reflexivity; try (repeat constructor; lra).
  - intros l [<-|[]]. cbn [drop_link pl_t]. apply tunit_mul; [apply qunit_one|apply tunit_zero].
  - apply drop_isym.
  - apply drop_ipsd.
  - cbn. lra.
  - discriminate.
  - destruct qdd as [|a [|]]; try discriminate. exists inv. rewrite A. rewrite drop_id in D. injection D as <-. specialize (E 0%nat ltac:(lia)).
    unfold getR in E. cbn [nth lifted drop_at link_armature link_spring_stiffness link_damping sys_dt] in E. do 2 f_equal. f_equal.
    unfold fall. assert (N : 2 + / 10 ^ 6 <> 0) by (assert (0 < / 10 ^ 6) by (apply Rinv_0_lt_compat, pow_lt; lra); lra).
    revert N E. generalize (/ 10 ^ 6). intros e N E. apply (Rmult_eq_reg_r (2 + e)); [|exact N].
    replace (- (981 / 50 / (2 + e)) * (2 + e)) with (- (981 / 50)) by (field; exact N). lra.
Qed.
Lemma D_fall (u : R) : D (fun u => - fall * u * u / 2) u (- fall * u).
Proof. eapply D_eq; [|apply (D_mult (fun u => - fall * u * u) (fun _ => / 2)); [apply (D_mult (fun u => - fall * u) (fun u => u)); [apply D_scal, D_id|apply D_id]|apply D_const]]. cbv beta. field. Qed.
Example C89_example : exists xs K,
  (forall u, forward_kinematics_transforms builtin_widths (@builtin_table unit) drop [- fall * u * u / 2] = Ok (xs u, lifted (- fall * u * u / 2))) /\
  (forall u, kinetic_energy builtin_widths (@builtin_table unit) (lifted (- fall * u * u / 2)) [- fall * u] = Ok (K u)) /\
  forall a b, a <= b -> stored drop (K b) (xs b) [- fall * b * b / 2] [- fall * b] = stored drop (K a) (xs a) [- fall * a * a / 2] [- fall * a].
Proof.
  exists (fun u => [height (- fall * u * u / 2)]), (fun u => (- fall * u) * (- fall * u)).
  split; [intros; apply drop_fk|]. split; [intros; apply drop_K|]. intros a b AB.
  assert (CH : forall u, exists inv, forward_dynamics builtin_widths (@builtin_table unit) solve_gauss (lifted (- fall * u * u / 2)) [- fall * u * u / 2] [- fall * u] [0] = Ok ([- fall], inv)) by (intros; apply drop_fd).
  set (inv u := match forward_dynamics builtin_widths (@builtin_table unit) solve_gauss (lifted (- fall * u * u / 2)) [- fall * u * u / 2] [- fall * u] [0] with Ok (_, i) => i | _ => eye end).
  apply (C89_passive solve_gauss drop (fun u => [- fall * u * u / 2]) (fun u => [- fall * u]) (fun _ => [- fall]) a b (fun u => [height (- fall * u * u / 2)])
    (fun u => lifted (- fall * u * u / 2)) (fun u => (- fall * u) * (- fall * u)) [0] inv); try reflexivity; try exact AB; try (repeat constructor; lra).
  - apply solve_gauss_solves.
  - apply drop_wf.
  - apply drop_known.
  - intros l [<-|[]]. apply tunit_zero.
  - apply drop_isym.
  - apply drop_ipsd.
  - cbn. lra.
  - discriminate.
  - intros typ [<-|[]]. cbn. tauto.
  - intros u. apply drop_K.
  - intros u _. split; [unfold inv; destruct (CH u) as (i & ->); reflexivity|]. split; intros [|k]; unfold getR; cbn [nth].
    + apply D_fall.
    + destruct k; apply D_const.
    + eapply D_eq; [|apply D_scal, D_id]. ring.
    + destruct k; apply D_const.
Qed.
Print Assumptions C89_velocity.
Print Assumptions C89_power.
Print Assumptions C89_simulation.
Print Assumptions C89_passive.
Print Assumptions C89_example.
