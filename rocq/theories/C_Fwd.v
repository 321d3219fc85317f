(** * C61: forward dynamics solves the equations of motion; systems at rest stay at rest. *)
From Coq Require Import Reals Lra String ZArith Lia Bool List.
From Verif Require Import Prelude M_Sys S_Sys P_Scan P_Run M_Math P_Math P_Trig P_Rot M_Geom P_Geom M_Joint M_Kin M_Dyn S_Kin P_Joint P_Kin P_Mat S_Dyn P_Dyn P_Mass P_Rnea C_Kin C_State C_Mass C_Rnea P_Step C_Spring C_Step P_Spd X_Demo.
Import ListNotations.

Lemma getR_zipw f a b k : length a = length b -> k < length a -> getR (zipw f a b) k = f (getR a k) (getR b k).
Proof.
  unfold getR. revert b k. induction a as [|x a IH]; intros [|y b] k L K; cbn in L, K; try lia.
  destruct k as [|k]; cbn [zipw nth]; [reflexivity|]. apply IH; lia.
Qed.
Lemma getR_map f a k : k < length a -> getR (map f a) k = f (getR a k).
Proof. unfold getR. revert k. induction a as [|x a IH]; intros [|k] K; cbn in K |- *; try lia; auto. apply IH. lia. Qed.
Lemma nth_map_seq0 n (g : nat -> R) k : k < n -> nth k (map g (seq 0 n)) 0%R = g k.
Proof.
  intros H. rewrite nth_indep with (d' := g 0) by (rewrite map_length, seq_length; auto).
  rewrite (map_nth g (seq 0 n) 0 k), seq_nth by auto. reflexivity.
Qed.
Lemma getR_mat_vec n M v k : k < n -> getR (mat_vec n M v) k = sumR n (fun b => M k b * getR v b)%R.
Proof. intros H. unfold mat_vec, getR at 1. now rewrite nth_map_seq0. Qed.
Lemma lmul_length a b : length (lmul a b) = Nat.min (length a) (length b). Proof. apply zipw_length. Qed.

Lemma spd_regularised n M dt D : (forall a b, M a b = M b a) -> (forall x, 0 <= sumR n (fun a => sumR n (fun b => x a * M a b * x b)))%R ->
  (0 <= dt)%R -> (forall a, 0 <= getR D a)%R ->
  spd n (mat_add (mat_add M (mat_scale dt (mat_diag D))) (mat_scale (/ 10 ^ 6) eye)).
Proof.
  intros Sy Po Hdt HD. split.
  - intros a b _ _. unfold mat_add, mat_scale, mat_diag, eye. rewrite (Sy a b), (Nat.eqb_sym a b). destruct (Nat.eqb_spec b a); subst; reflexivity.
  - intros x (a0 & Ha0 & Hx). change (0 < bil n (mat_add (mat_add M (mat_scale dt (mat_diag D))) (mat_scale (/ 10 ^ 6) eye)) x x)%R.
    rewrite !bil_add. assert (A : (0 <= bil n M x x)%R) by apply Po.
    assert (B : (bil n (mat_scale dt (mat_diag D)) x x = dt * sumR n (fun a => x a * getR D a * x a))%R).
    { rewrite <- bil_diag. unfold bil. rewrite <- sumR_scale. apply sumR_ext. intros a _. rewrite <- sumR_scale. apply sumR_ext. intros. unfold mat_scale. ring. }
    assert (C : (bil n (mat_scale (/ 10 ^ 6) eye) x x = / 10 ^ 6 * sumR n (fun a => x a * x a))%R).
    { unfold bil. rewrite <- sumR_scale. apply sumR_ext. intros a Ha. rewrite (sumR_delta n a); auto.
      - unfold mat_scale, eye. rewrite Nat.eqb_refl. ring.
      - intros j _ Hj. unfold mat_scale, eye. destruct (Nat.eqb_spec a j); [congruence|ring]. }
    rewrite B, C.
    assert (Bp : (0 <= dt * sumR n (fun a => x a * getR D a * x a))%R).
    { apply Rmult_le_pos; auto. apply sumR_nonneg. intros k _. specialize (HD k). pose proof (Rle_0_sqr (x k)). unfold Rsqr in *. nra. }
    assert (Cp : (0 < sumR n (fun a => x a * x a))%R).
    { clear -Ha0 Hx. induction n as [|n IH]; [lia|]. cbn [sumR].
      assert (N : (0 <= sumR n (fun a => x a * x a))%R) by (apply sumR_nonneg; intros; apply Rle_0_sqr).
      destruct (Nat.eq_dec a0 n) as [->|NE]; [pose proof (Rsqr_pos_lt _ Hx); unfold Rsqr in *; lra|].
      pose proof (IH ltac:(lia)). pose proof (Rle_0_sqr (x n)). unfold Rsqr in *. lra. }
    assert (0 < / 10 ^ 6)%R by (apply Rinv_0_lt_compat, pow_lt; lra). nra.
Qed.

Section C61.
Context {P O : Type}.
Notation link := (plink (params P)).
Notation rsys := (System R link geometry O).
Notation W := builtin_widths.
Notation jt := (@builtin_table P).

Lemma quad_list n (H : mat) : (forall x, length x = n -> 0 <= sumR n (fun a => sumR n (fun b => getR x a * H a b * getR x b)))%R ->
  forall x, (0 <= sumR n (fun a => sumR n (fun b => x a * H a b * x b)))%R.
Proof.
  intros A x. specialize (A (map x (seq 0 n))). rewrite map_length, seq_length in A. specialize (A eq_refl).
  erewrite sumR_ext; [exact A|]. intros a Ha. cbv beta. apply sumR_ext. intros b Hb. unfold getR.
  now rewrite !nth_map_seq0.
Qed.

(** The matrix handed to the solver is symmetric positive definite. *)
Theorem C61_solvable (s : rsys) nd H : wf W s -> joints_known jt s -> unit_transforms s ->
  symmetric_inertias s -> (forall l, In l (links s) -> ipsd (pl_inertia l)) -> Forall (fun c => 0 <= c)%R (link_armature s) ->
  Forall (fun c => 0 <= c)%R (link_damping s) -> (0 <= sys_dt s)%R ->
  qd_size W s = Ok nd -> compute_mass_matrix W jt s = Ok H -> spd nd (regularised_mass_matrix s H).
Proof.
  intros WF JK UT SI IP AR DA DT Hd EH. unfold regularised_mass_matrix. apply spd_regularised; auto.
  - destruct (C30_mass_matrix _ _ s nd WF JK builtin_fit UT SI Hd) as (H' & EH' & Sy & _). congruence.
  - apply quad_list. intros x Lx. eapply C30_positive_semidefinite; eauto using builtin_fit.
  - intros a. unfold getR. destruct (nth_in_or_default a (link_damping s) 0%R) as [I|E]; [|rewrite E; lra].
    rewrite Forall_forall in DA. now apply DA.
Qed.

(** The accelerations returned by forward dynamics, put into inverse dynamics, give the applied torques plus the
    passive forces: springs, damping at the end of the step (the scheme is implicit in the damping), armature,
    and the regularisation 1e-6. *)
Theorem C61_equations_of_motion solve (s : rsys) nd q qd tau : solves solve -> mass_mat_iters s = 0 ->
  wf W s -> joints_known jt s -> unit_transforms s ->
  symmetric_inertias s -> (forall l, In l (links s) -> ipsd (pl_inertia l)) -> Forall (fun c => 0 <= c)%R (link_armature s) ->
  Forall (fun c => 0 <= c)%R (link_damping s) -> (0 <= sys_dt s)%R -> links s <> [] ->
  q_size W s = Ok (length q) -> qd_size W s = Ok nd -> length qd = nd -> length tau = nd ->
  exists qdd inv f id, forward_dynamics W jt solve s q qd tau = Ok (qdd, inv) /\ length qdd = nd /\
    spring_force W s q = Ok f /\ inverse_dynamics W jt s qd qdd = Ok id /\
    forall a, a < nd ->
      (getR id a + getR (link_armature s) a * getR qdd a =
       getR tau a + getR (link_spring_stiffness s) a * getR f a
       - getR (link_damping s) a * (getR qd a + sys_dt s * getR qdd a) - / 10 ^ 6 * getR qdd a)%R.
Proof.
  intros SO MI WF JK UT SI IP AR DA DT NE Hq Hd Lqd Lt.
  destruct (fd_total solve s q qd tau nd WF JK UT SI NE Hq Hd Lqd Lt) as (bias & sp & H & inv & Eb & Es & EH & Lb & Ls & Ei & E).
  rewrite MI in Ei. cbn [Nat.eqb] in Ei. set (qf := ladd _ _) in E. exists (mat_vec nd inv qf), inv, sp.
  assert (Lqdd : length (mat_vec nd inv qf) = nd) by (unfold mat_vec; rewrite map_length, seq_length; auto).
  destruct (C31_affine _ _ s nd qd (mat_vec nd inv qf) WF JK builtin_fit UT SI NE Hd Lqd Lqdd) as (H' & id & bias' & EH' & Eid & Eb' & AF).
  rewrite EH in EH'. injection EH' as <-. rewrite Eb in Eb'. injection Eb' as <-.
  exists id. split; [exact E|]. split; [exact Lqdd|]. split; [exact Es|]. split; [exact Eid|]. intros a Ha. rewrite (AF a Ha).
  pose proof (C61_solvable s nd H WF JK UT SI IP AR DA DT Hd EH) as SP.
  set (A := regularised_mass_matrix s H) in *. set (qdd := mat_vec nd inv qf) in *.
  assert (EQ : sumR nd (fun c => A a c * getR qdd c)%R = getR qf a).
  { rewrite (sumR_ext nd _ (fun c => sumR nd (fun b => A a c * inv c b * getR qf b)%R)).
    2:{ intros c Hc. unfold qdd. rewrite getR_mat_vec by auto. rewrite <- sumR_scale. apply sumR_ext. intros. ring. }
    rewrite sumR_swap. rewrite (sumR_ext nd _ (fun b => eye a b * getR qf b)%R).
    2:{ intros b Hb. rewrite sumR_scale_r. f_equal. subst inv. now apply SO. }
    rewrite (sumR_delta nd a); auto; unfold eye; [rewrite Nat.eqb_refl; ring|].
    intros j _ Hj. destruct (Nat.eqb_spec a j); [congruence|ring]. }
  assert (EA : sumR nd (fun c => A a c * getR qdd c)%R = (sumR nd (fun c => H a c * getR qdd c) + sys_dt s * getR (link_damping s) a * getR qdd a + / 10 ^ 6 * getR qdd a)%R).
  { unfold A, regularised_mass_matrix, mat_add.
    rewrite (sumR_ext nd _ (fun c => H a c * getR qdd c + (if a =? c then sys_dt s * getR (link_damping s) a * getR qdd c + / 10 ^ 6 * getR qdd c else 0))%R).
    2:{ intros c _. unfold mat_scale, mat_diag, eye. destruct (Nat.eqb_spec a c); [subst|]; ring. }
    rewrite sumR_add. rewrite (sumR_delta nd a (fun c => if a =? c then _ else _)); auto; [rewrite Nat.eqb_refl; ring|].
    intros j _ Hj. destruct (Nat.eqb_spec a j); [congruence|reflexivity]. }
  destruct (wf_arrays _ _ WF) as (qs & ds & A1 & A2 & LA & LD & LS & AZ).
  assert (ND : nd = list_sum ds). { apply total_width_Ok in Hd. destruct Hd as (ws & Hw & ->). now rewrite (have_widths_unique _ _ _ _ Hw A2). }
  assert (EF : getR qf a = (getR tau a - getR bias a + (- getR (link_damping s) a * getR qd a + getR (link_spring_stiffness s) a * getR sp a))%R).
  { unfold qf, ladd, lsub. rewrite !getR_zipw; unfold lmul; rewrite ?zipw_length, ?map_length; try lia.
    rewrite !getR_zipw; rewrite ?map_length; try lia. rewrite getR_map by lia. reflexivity. }
  rewrite EF in EQ. rewrite EQ in EA. lra.
Qed.

(** ** Equilibria *)
Lemma strapdown_rest q dt : qunit q -> (Rabs dt <= 10 ^ 8)%R -> strapdown q vzero dt = q.
Proof.
  intros Hq Hd. unfold strapdown. set (m := (vnorm vzero + / 10 ^ 8)%R).
  assert (Z : vscale (/ m) vzero = vzero) by vring. rewrite Z.
  unfold quat_rot_axis. rewrite (safe_normalize_close _ vclose0_zero). cbv zeta.
  assert (M0 : vnorm vzero = 0%R). { unfold vnorm. replace (dot vzero vzero) with 0%R by vring. apply sqrt_0. }
  assert (Em : m = (/ 10 ^ 8)%R) by (unfold m; rewrite M0; ring).
  assert (E : (0 < / 10 ^ 8)%R) by (apply Rinv_0_lt_compat, pow_lt; lra).
  assert (C : (0 < cos (- (m * dt) / 2))%R).
  { assert (A : (Rabs (m * dt) <= 1)%R).
    { rewrite Rabs_mult, Em, (Rabs_pos_eq (/ 10 ^ 8)) by lra. apply Rle_trans with (/ 10 ^ 8 * 10 ^ 8)%R; [apply Rmult_le_compat_l; lra|].
      rewrite Rinv_l; [lra|apply pow_nonzero; lra]. }
    pose proof PI2_3_2 as P3. revert A. unfold Rabs. destruct (Rcase_abs (m * dt)); intros A; apply cos_gt_0; lra. }
  set (c := cos (- (m * dt) / 2)) in *. cbn [vzero vx vy vz].
  match goal with |- context [qmul ?r q] => assert (R : qmul r q = qscale c q) by (destruct q; vring) end. rewrite R.
  assert (N : qnorm2 (qscale c q) = (c * c)%R). { unfold qunit in Hq. transitivity (c * c * qnorm2 q)%R; [destruct q; vring|rewrite Hq; ring]. }
  rewrite N, sqrt_square by lra. destruct q as [w x y z]. unfold qscale. cbn [qw qx qy qz]. f_equal; field; lra.
Qed.
Lemma ladd_zero l c n : n = length l -> ladd l (lscale c (zeros n)) = l.
Proof. intros ->. unfold ladd, lscale, zeros. induction l as [|x l IH]; cbn [length repeat map zipw]; [reflexivity|]. f_equal; [ring|exact IH]. Qed.
Lemma q4_list_of_4 l : length l = 4 -> q4_list (q4_of l) = l.
Proof. destruct l as [|a [|b [|c [|d [|]]]]]; try discriminate. reflexivity. Qed.
Lemma skipn_zeros k n : skipn k (zeros n) = zeros (n - k).
Proof. unfold zeros. revert k. induction n; intros [|k]; cbn; auto. Qed.
Lemma firstn_zeros k n : k <= n -> firstn k (zeros n) = zeros k.
Proof. unfold zeros. revert k. induction n; intros [|k] H; cbn; auto; try lia. f_equal. apply IHn. lia. Qed.
Lemma integrate_rest dt typ q b : quat_width typ (length q) b -> (is_free_or_cor_or_spherical typ = true -> qunit (q4_of (firstn 4 q))) ->
  (Rabs dt <= 10 ^ 8)%R -> integrate_link dt typ q (zeros b) = q.
Proof.
  intros Wd U D. unfold quat_width, integrate_link, is_free_or_cor_or_spherical in *. destruct (is_free_or_cor typ).
  - destruct Wd as [A B]. rewrite firstn_zeros, skipn_zeros by lia. change (v3_of (zeros 3)) with vzero. rewrite strapdown_rest by auto.
    rewrite q4_list_of_4 by (rewrite firstn_length; lia). rewrite ladd_zero by (rewrite skipn_length; lia). apply firstn_skipn.
  - destruct (is_spherical typ).
    + destruct Wd as [A ->]. rewrite firstn_all2 in U by lia. change (v3_of (zeros 3)) with vzero. rewrite strapdown_rest by auto. now apply q4_list_of_4.
    + apply ladd_zero. auto.
Qed.
Lemma ladd_zeros n : ladd (zeros n) (zeros n) = zeros n.
Proof. unfold ladd, zeros. induction n; cbn; auto. f_equal; [ring|auto]. Qed.
Lemma lsub_zeros n : lsub (zeros n) (zeros n) = zeros n.
Proof. unfold lsub, zeros. induction n; cbn; auto. f_equal; [ring|auto]. Qed.
Lemma lmul_zeros l n : length l = n -> lmul l (zeros n) = zeros n.
Proof. intros <-. unfold lmul, zeros. induction l; cbn; auto. f_equal; [ring|auto]. Qed.
Lemma lscale_zeros c n : lscale c (zeros n) = zeros n.
Proof. unfold lscale, zeros. induction n; cbn; auto. f_equal; [ring|auto]. Qed.
Lemma mat_vec_zeros n M : mat_vec n M (zeros n) = zeros n.
Proof.
  unfold mat_vec. apply nth_ext with (d := 0%R) (d' := 0%R); [unfold zeros; now rewrite map_length, seq_length, repeat_length|].
  intros k Hk. rewrite map_length, seq_length in Hk. change (getR (mat_vec n M (zeros n)) k = getR (zeros n) k).
  rewrite getR_mat_vec, getR_zeros by auto. apply sumR_0. intros. rewrite getR_zeros. ring.
Qed.

Lemma euler_rest solve (s : rsys) nd x : wf W s -> joints_known jt s -> unit_transforms s -> symmetric_inertias s -> links s <> [] ->
  gravity s = [0; 0; 0]%R -> unit_coords_all s (link_spring_zeropoint s) -> (Rabs (sys_dt s) <= 10 ^ 8)%R -> qd_size W s = Ok nd ->
  semi_implicit_euler W jt solve s (mkState (link_spring_zeropoint s) (zeros nd) x) (zeros nd) = Ok (mkState (link_spring_zeropoint s) (zeros nd) x).
Proof.
  intros WF JK UT SI NE G U D Hd.
  destruct (wf_arrays _ _ WF) as (qs & ds & A1 & A2 & LA & LD & LS & AZ).
  destruct (wf_lean W s WF) as (qs' & ds' & LN). rewrite <- (have_widths_unique _ _ _ _ A1 (ln_q _ _ _ _ LN)), <- (have_widths_unique _ _ _ _ A2 (ln_d _ _ _ _ LN)) in LN. clear qs' ds'.
  assert (ND : nd = list_sum ds). { apply total_width_Ok in Hd. destruct Hd as (ws & Hw & ->). now rewrite (have_widths_unique _ _ _ _ Hw A2). }
  assert (Hq : q_size W s = Ok (length (link_spring_zeropoint s))) by (rewrite AZ; apply total_width_Ok; eauto).
  assert (Lz : length (zeros nd) = nd) by apply repeat_length.
  destruct (fd_total solve s (link_spring_zeropoint s) (zeros nd) (zeros nd) nd WF JK UT SI NE Hq Hd Lz Lz) as (bias & sp & H & inv & Eb & Es & EH & Lb & Ls & Ei & E).
  rewrite (C33_zero_at_zeropoint s nd WF (num_links_pos s WF NE) Hd U) in Es. injection Es as <-.
  pose proof (C31_rest _ _ s nd WF JK builtin_fit UT NE Hd) as R.
  assert (SG : with_gravity s [0;0;0]%R = s) by (destruct s; cbn in G; subst; reflexivity). rewrite SG, Eb in R. injection R as ->.
  unfold semi_implicit_euler. cbn [st_q st_qd]. rewrite E. cbn [bind fst]. clear E.
  rewrite lsub_zeros, lmul_zeros by (rewrite map_length; lia). rewrite lmul_zeros by lia. rewrite !ladd_zeros, mat_vec_zeros, lscale_zeros, ladd_zeros.
  assert (Lzd : length (zeros nd) = list_sum ds) by lia.
  destruct (integrate_scan W s qs ds (sys_dt s) (link_spring_zeropoint s) (zeros nd) LN AZ Lzd) as (us & Eu). rewrite Eu. cbn [bind snd].
  assert (M : map (fun i => integrate_link (sys_dt s) (typ_ s i) (cut qs (link_spring_zeropoint s) i) (cut ds (zeros nd) i)) (seq 0 (num_links s))
            = map (cut qs (link_spring_zeropoint s)) (seq 0 (num_links s))).
  { apply map_ext_in. intros i Hi. apply in_seq in Hi. assert (Hi' : i < num_links s) by lia.
    destruct (both_widths s qs ds i LN Hi') as (a & b & B1 & B2 & _ & _ & B3 & B4).
    assert (CZ : cut ds (zeros nd) i = zeros b).
    { pose proof (cut_length ds (zeros nd) i b Lzd B2) as L. apply nth_ext with (d := 0%R) (d' := 0%R); [rewrite L; unfold zeros; now rewrite repeat_length|].
      intros k Hk. assert (Z : forall y, In y (cut ds (zeros nd) i) -> y = 0%R).
      { intros y Hy. apply (repeat_spec nd). fold (zeros nd). rewrite <- (concat_cuts ds (zeros nd) Lzd).
        apply in_concat. exists (cut ds (zeros nd) i). split; auto. apply in_map, in_seq. rewrite (ln_ds_length W s qs ds LN). lia. }
      change (zeros b) with (repeat 0%R b). rewrite nth_repeat. apply Z, nth_In. lia. }
    rewrite CZ. apply integrate_rest; auto; [now rewrite (cut_length qs _ i a AZ B1)|].
    intros Q. apply B4 in Q. exact (U i _ _ (typ_spec W s qs ds LN i Hi') (coords_cut W s qs ds LN _ i AZ Hi') Q). }
  rewrite M. pose proof (concat_cuts qs (link_spring_zeropoint s) AZ) as CS. rewrite (ln_qs_length W s qs ds LN) in CS.
  match goal with |- context [M_Kin.concatenate ?l] => assert (C : M_Kin.concatenate l = Ok (link_spring_zeropoint s)) end.
  { apply concatenate_Ok. split; auto. intros X. apply map_eq_nil in X. pose proof (num_links_pos s WF NE). destruct (num_links s); [congruence|discriminate]. }
  rewrite C. reflexivity.
Qed.

(** Without gravity and torques, a system resting with all springs at their zero points does not move, whatever
    the solver, the step size and the number of sub-steps. *)
Theorem C61_equilibrium solve (s : rsys) nd x n : simulable s -> gravity s = [0; 0; 0]%R ->
  unit_coords_all s (link_spring_zeropoint s) -> (Rabs (sys_dt s) <= INR n * 10 ^ 8)%R -> qd_size W s = Ok nd -> n <> 0 ->
  lower (integration_method s) = "semi_implicit_euler"%string ->
  exists x', step W jt solve s (mkState (link_spring_zeropoint s) (zeros nd) x) None n = Ok (mkState (link_spring_zeropoint s) (zeros nd) x').
Proof.
  intros SIM G U D Hd N M.
  assert (Hq : q_size W s = Ok (length (link_spring_zeropoint s))).
  { destruct (wf_arrays _ _ (si_wf _ SIM)) as (qs & ds & A1 & A2 & LA & LD & LS & AZ). rewrite AZ. apply total_width_Ok. eauto. }
  assert (Lz : length (zeros nd) = nd) by apply repeat_length.
  unfold step. cbn [st_q st_qd]. rewrite Hq, Hd. cbn [bind]. unfold assert_. rewrite !Lz, !Nat.eqb_refl. cbn [bind andb].
  rewrite M, String.eqb_refl. cbn [bind]. destruct (Nat.eqb_spec n 0); [congruence|].
  assert (D' : (Rabs (sys_dt (with_dt s (sys_dt s / INR n))) <= 10 ^ 8)%R).
  { cbn [with_dt sys_dt]. unfold Rdiv. rewrite Rabs_mult. assert (Np : (0 < INR n)%R) by (apply lt_0_INR; lia).
    rewrite (Rabs_pos_eq (/ INR n)) by (left; now apply Rinv_0_lt_compat). apply (Rmult_le_reg_r (INR n)); auto.
    rewrite Rmult_assoc, Rinv_l by lra. lra. }
  assert (SIM' : simulable (with_dt s (sys_dt s / INR n))).
  { destruct SIM as [WF JK UO SI NE]. constructor; auto. destruct WF; constructor; assumption. }
  assert (GEN : forall k (s : rsys) x, simulable s -> gravity s = [0;0;0]%R -> unit_coords_all s (link_spring_zeropoint s) ->
     (Rabs (sys_dt s) <= 10 ^ 8)%R -> qd_size W s = Ok nd -> q_size W s = Ok (length (link_spring_zeropoint s)) ->
     exists x', substeps W jt solve k s (mkState (link_spring_zeropoint s) (zeros nd) x) (zeros nd) = Ok (mkState (link_spring_zeropoint s) (zeros nd) x')).
  { clear - Lz. induction k as [|k IH]; intros s x SIM G U D Hd Hq; cbn [substeps]; [eauto|]. pose proof SIM as [WF JK UO SI NE].
    destruct (proj1 (C27_total _ _ s (link_spring_zeropoint s) _ WF JK Hq) eq_refl) as (xs & s1 & FK).
    assert (FK' : forward_kinematics W jt s (mkState (link_spring_zeropoint s) (zeros nd) x) = Ok (s1, mkState (link_spring_zeropoint s) (zeros nd) xs)) by (unfold forward_kinematics; cbn [st_q st_qd]; now rewrite FK).
    rewrite FK'. cbn [bind].
    assert (Ft : fits s (mkState (link_spring_zeropoint s) (zeros nd) x)) by (split; cbn [st_q st_qd]; [exact Hq|congruence]).
    destruct (fk_core s s1 _ _ WF Ft FK') as (ls & xs' & -> & SC & E & _). injection E as <-.
    destruct (fk_unit_transforms s _ _ _ WF UO U Hq FK) as (UT & _). pose proof (simulable_core s ls SC SIM) as SIM'.
    pose proof SIM' as [WF' JK' UO' SI' NE'].
    pose proof (euler_rest solve (with_links s ls) nd xs WF' JK' UT SI' NE' G U D Hd) as E2.
    change (link_spring_zeropoint (with_links s ls)) with (link_spring_zeropoint s) in E2. rewrite E2. cbn [bind].
    exact (IH (with_links s ls) xs SIM' G U D Hd Hq). }
  apply (GEN n (with_dt s (sys_dt s / INR n))); auto.
Qed.
End C61.

(** The solver contract can be met. *)
Theorem C61_solver_exists : solves solve_gauss. Proof. exact solve_gauss_solves. Qed.

Example C61_example : exists (s1 : System R (plink (params unit)) geometry unit) qdd inv f id, length (links s1) = 4 /\
  forward_dynamics builtin_widths (@builtin_table unit) solve_gauss s1 demo_q (repeat 1%R 11) (repeat 2%R 11) = Ok (qdd, inv) /\
  spring_force builtin_widths s1 demo_q = Ok f /\ inverse_dynamics builtin_widths (@builtin_table unit) s1 (repeat 1%R 11) qdd = Ok id /\
  forall a, a < 11 ->
      (getR id a + getR (link_armature s1) a * getR qdd a =
       getR (repeat 2%R 11%nat) a + getR (link_spring_stiffness s1) a * getR f a
       - getR (link_damping s1) a * (getR (repeat 1%R 11%nat) a + sys_dt s1 * getR qdd a) - / 10 ^ 6 * getR qdd a)%R.
Proof.
  destruct demo_posed as (s1 & xs & E & A & B & C & D & F & G & AR). exists s1.
  destruct (C27_poses _ _ demo s1 demo_q _ xs demo_wf demo_q_size eq_refl E) as (_ & (ls & Es & L) & _).
  assert (L4 : length (links s1) = 4) by (rewrite Es; exact L).
  assert (NE : links s1 <> []) by (intros X; rewrite X in L4; discriminate).
  assert (FA : Forall (fun c => 0 <= c)%R (link_armature s1)) by (rewrite AR; cbn [demo link_armature]; apply Forall_forall; intros y Hy; apply repeat_spec in Hy; subst; lra).
  assert (FD : Forall (fun c => 0 <= c)%R (link_damping s1)) by (rewrite Es; cbn [demo with_links link_damping]; apply Forall_forall; intros y Hy; apply repeat_spec in Hy; subst; lra).
  assert (FT : (0 <= sys_dt s1)%R) by (rewrite Es; cbn [demo with_links sys_dt]; lra).
  assert (FM : mass_mat_iters s1 = 0) by (rewrite Es; reflexivity).
  assert (FQ : q_size builtin_widths s1 = Ok (length demo_q)) by (rewrite Es; exact demo_q_size).
  destruct (C61_equations_of_motion solve_gauss s1 11 demo_q (repeat 1%R 11) (repeat 2%R 11) solve_gauss_solves FM A B C D F FA FD FT NE FQ G eq_refl eq_refl)
    as (qdd & inv & f & id & Q1 & Q2 & Q3 & Q4 & Q5).
  exists qdd, inv, f, id. auto 10.
Qed.
Example C61_equilibrium_example solve : exists x', step builtin_widths (@builtin_table unit) solve (with_gravity demo [0;0;0]%R)
  (mkState (link_spring_zeropoint demo) (zeros 11) []) None 7 = Ok (mkState (link_spring_zeropoint demo) (zeros 11) x').
Proof.
  assert (D : (Rabs (sys_dt (with_gravity demo [0;0;0]%R)) <= INR 7 * 10 ^ 8)%R) by (cbn [demo with_gravity sys_dt]; rewrite Rabs_pos_eq by lra; cbn [INR]; lra).
  assert (SIM : simulable (with_gravity demo [0;0;0]%R)).
  { destruct demo_simulable as [WF JK UO SI NE]. constructor; auto. destruct WF; constructor; assumption. }
  exact (C61_equilibrium solve (with_gravity demo [0;0;0]%R) 11 [] 7 SIM eq_refl demo_unit_zero D eq_refl (Nat.neq_succ_0 6) eq_refl).
Qed.
Print Assumptions C61_solvable.
Print Assumptions C61_equations_of_motion.
Print Assumptions C61_equilibrium.
Print Assumptions C61_solver_exists.
