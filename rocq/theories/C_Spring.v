(** * C33: springs rest at their zero point. *)
From Coq Require Import Reals Lra String ZArith Lia Bool List.
From Verif Require Import Prelude M_Sys S_Sys P_Scan P_Run M_Math P_Math P_Trig P_Rot M_Geom M_Joint M_Kin M_Dyn S_Kin P_Joint P_Kin P_Mat S_Dyn P_Dyn P_Mass P_Rnea C_Kin C_State C_Mass C_Rnea P_Step X_Demo.
Import ListNotations.
Local Open Scope R_scope.

(** ** One quaternion *)
Lemma sin_abs_le x : Rabs (sin x) <= Rabs x.
Proof.
  assert (G : forall y, 0 <= y -> sin y <= y).
  { intros y [Hy|Hy]; [left; now apply sin_lt_x|subst; rewrite sin_0; lra]. }
  assert (G2 : forall y, 0 <= y -> - y <= sin y).
  { intros y Hy. destruct (Rle_dec y PI).
    - pose proof (sin_ge_0 y Hy r). lra.
    - pose proof (SIN_bound y). pose proof PI2_3_2. lra. }
  destruct (Rle_dec 0 x) as [H|H].
  - rewrite (Rabs_pos_eq x) by auto. apply Rabs_le. split; [now apply G2|now apply G].
  - rewrite (Rabs_left x) by lra. apply Rabs_le. assert (Hx : 0 <= - x) by lra. pose proof (G _ Hx). pose proof (G2 _ Hx). rewrite sin_neg in *. lra.
Qed.
Lemma spring_far z q : qunit z -> qunit q -> ~ vclose0 (qvec (qmul z (qinv q))) ->
  forall n a, quat_to_rot_axis (qmul z (qinv q)) = (n, a) ->
  dot n n = 1 /\ Rabs a <= PI /\ ~ vclose0 (vscale a n) /\
  (qmul (quat_rot_axis (vscale a n) (vnorm (vscale a n))) q = z \/ qmul (quat_rot_axis (vscale a n) (vnorm (vscale a n))) q = qneg z).
Proof.
  intros Hz Hq N n a E. assert (HE : qunit (qmul z (qinv q))) by auto using qunit_mul, qunit_inv.
  pose proof (axis_angle_roundtrip _ HE N) as RT. rewrite E in RT. pose proof (safe_normalize_unit _ N) as UN.
  unfold quat_to_rot_axis in E. injection E as E1 E2. rewrite E1 in UN. split; [exact UN|].
  assert (B : Rabs a <= PI).
  { pose proof (wrap_range (2 * arctan2 (safe_norm (qvec (qmul z (qinv q)))) (qw (qmul z (qinv q))))) as B.
    change (- PI <= quat_angle (qmul z (qinv q)) < PI) in B. apply Rabs_le. lra. }
  split; [exact B|].
  assert (F : ~ vclose0 (vscale a n)).
  { intros C. apply N. rewrite (rot_axis_unit n a UN) in RT.
    assert (Q : forall x, close0 (a * x) -> close0 (sin (- a / 2) * x)).
    { intros x. unfold close0. rewrite !Rabs_mult. intros Hx. eapply Rle_trans; [|exact Hx].
      apply Rmult_le_compat_r; [apply Rabs_pos|]. eapply Rle_trans; [apply sin_abs_le|].
      replace (- a / 2) with (- (a / 2)) by field. rewrite Rabs_Ropp. unfold Rdiv. rewrite Rabs_mult, (Rabs_pos_eq (/ 2)) by lra. pose proof (Rabs_pos a). lra. }
    assert (C' : vclose0 (qvec (rot n (- a / 2)))).
    { rewrite qvec_rot. unfold vclose0, vscale in *. cbn [vx vy vz] in *. destruct C as (C1 & C2 & C3). auto. }
    destruct RT as [R|R]; rewrite R in C'; [exact C'|]. revert C'. generalize (qmul z (qinv q)). intros [w x y u] C'.
    unfold vclose0, qvec, qneg, close0 in *. cbn [vx vy vz qx qy qz] in *. now rewrite !Rabs_Ropp in C'. }
  split; [exact F|].
  assert (R : quat_rot_axis (vscale a n) (vnorm (vscale a n)) = quat_rot_axis n a).
  { rewrite vnorm_scale, (vnorm_unit n UN), Rmult_1_r. unfold quat_rot_axis. cbv zeta. rewrite (safe_normalize_unit_id n UN).
    unfold safe_normalize. destruct (vclose0_dec (vscale a n)) as [C|_]; [contradiction|].
    rewrite vnorm_scale, (vnorm_unit n UN), Rmult_1_r, vscale_vscale.
    assert (A0 : a <> 0). { intros ->. apply F. rewrite vscale_0. apply vclose0_zero. }
    unfold Rabs. destruct (Rcase_abs a).
    - replace (/ - a * a) with (-1) by (field; auto). replace (- - a / 2) with (- (- a / 2)) by field. rewrite cos_neg, sin_neg.
      destruct n as [n1 n2 n3]. unfold vscale. cbn [vx vy vz]. f_equal; ring.
    - replace (/ a * a) with 1 by (field; auto). now rewrite vscale_1. }
  rewrite R. destruct RT as [->| ->]; [left|right]; rewrite ?qmul_neg_l, <- qmul_assoc, qmul_inv_l, qmul_1_r by auto; auto.
Qed.

(** The quaternion spring: either the joint is within the tolerance 1e-8 of its zero point and the force is zero, or
    rotating by the force as a rotation vector leads to the zero point (as a rotation: up to sign) and the force is
    the shortest such rotation (at most half a turn). *)
Theorem C33_quaternion z q : length z = 4%nat -> length q = 4%nat -> qunit (q4_of z) -> qunit (q4_of q) ->
  let f := v3_of (quaternion_spring_force z q) in
  length (quaternion_spring_force z q) = 3%nat /\
  ((vclose0 (qvec (qmul (q4_of z) (qinv (q4_of q)))) /\ f = vzero) \/
   (~ vclose0 f /\ vnorm f <= PI /\
    (qmul (quat_rot_axis f (vnorm f)) (q4_of q) = q4_of z \/ qmul (quat_rot_axis f (vnorm f)) (q4_of q) = qneg (q4_of z)))).
Proof.
  intros _ _ Hz Hq. cbv zeta. unfold quaternion_spring_force.
  destruct (quat_to_rot_axis (qmul (q4_of z) (qinv (q4_of q)))) as [n a] eqn:E. split; [reflexivity|].
  change (v3_of (v3_list (vscale a n))) with (vscale a n).
  destruct (vclose0_dec (qvec (qmul (q4_of z) (qinv (q4_of q))))) as [C|C].
  - left. split; auto. unfold quat_to_rot_axis in E. injection E as <- <-. rewrite (safe_normalize_close _ C). vring.
  - right. destruct (spring_far _ _ Hz Hq C n a E) as (U & B & F & R). split; [exact F|]. split; [|exact R].
    rewrite vnorm_scale, (vnorm_unit n U). lra.
Qed.
Lemma quaternion_spring_zero z : qunit (q4_of z) -> quaternion_spring_force z z = [0; 0; 0].
Proof.
  intros H. unfold quaternion_spring_force. rewrite (qmul_inv_r _ H). unfold quat_to_rot_axis.
  assert (C : vclose0 (qvec qone)) by apply vclose0_zero.
  rewrite (safe_normalize_close _ C). unfold v3_list, vscale. cbn [vzero vx vy vz]. now rewrite Rmult_0_r.
Qed.
Lemma lsub_self l : lsub l l = zeros (length l).
Proof. induction l as [|x l IH]; [reflexivity|]. unfold lsub, zeros in *. cbn [zipw length repeat]. rewrite IH. f_equal. ring. Qed.
Lemma zeros_app a b : zeros a ++ zeros b = zeros (a + b). Proof. unfold zeros. now rewrite repeat_app. Qed.
Lemma spring_zero typ z b : quat_width typ (length z) b -> (is_free_or_cor_or_spherical typ = true -> qunit (q4_of (firstn 4 z))) ->
  spring_force_link typ z z = zeros b.
Proof.
  unfold quat_width, spring_force_link, is_free_or_cor_or_spherical. destruct (is_free_or_cor typ).
  - intros [A B] U. rewrite quaternion_spring_zero by auto. rewrite lsub_self, skipn_length. change [0; 0; 0] with (zeros 3).
    rewrite zeros_app. f_equal. lia.
  - destruct (is_spherical typ).
    + intros [A ->] U. rewrite firstn_all2 in U by lia. rewrite quaternion_spring_zero by auto. reflexivity.
    + intros <- _. apply lsub_self.
Qed.

(** ** Whole systems *)
Section C33.
Context {P O : Type}.
Notation rsys := (System R (plink (params P)) geometry O).
Notation W := builtin_widths.

Lemma both_widths (s : rsys) qs ds i : lean W s qs ds -> (i < num_links s)%nat ->
  exists a b, nth_error qs i = Some a /\ nth_error ds i = Some b /\ qW W (typ_ s i) = Some a /\ dW W (typ_ s i) = Some b /\
    quat_width (typ_ s i) a b /\ (has_quat (typ_ s i) <-> is_free_or_cor_or_spherical (typ_ s i) = true).
Proof.
  intros LN Hi. destruct (width_at s qs ds i LN Hi) as (a & A1 & A2).
  destruct (nth_error ds i) as [b|] eqn:B1.
  2:{ apply nth_error_None in B1. rewrite (ln_ds_length W s qs ds LN) in B1. lia. }
  assert (B2 : dW W (typ_ s i) = Some b) by (eapply have_width_at; [apply LN|apply (typ_spec W s qs ds LN i Hi)|exact B1]).
  exists a, b. destruct (builtin_quat_width _ _ _ A2 B2). auto 10.
Qed.

(** At the zero point (whose quaternions are unit, as System.parse checks) the spring force vanishes. *)
Theorem C33_zero_at_zeropoint (s : rsys) nd : wf W s -> num_links s <> 0%nat -> qd_size W s = Ok nd ->
  unit_coords_all s (link_spring_zeropoint s) ->
  spring_force W s (link_spring_zeropoint s) = Ok (zeros nd).
Proof.
  intros WF N Hnd U. destruct (wf_arrays _ _ WF) as (qs & ds & A1 & A2 & _ & _ & _ & AZ).
  destruct (wf_lean W s WF) as (qs' & ds' & LN). rewrite <- (have_widths_unique _ _ _ _ A1 (ln_q _ _ _ _ LN)), <- (have_widths_unique _ _ _ _ A2 (ln_d _ _ _ _ LN)) in LN. clear qs' ds'.
  apply total_width_Ok in Hnd. destruct Hnd as (ws & Hw & ->). rewrite (have_widths_unique _ _ _ _ Hw A2). clear Hw ws.
  rewrite (spring_scan W s qs ds _ LN AZ AZ).
  assert (G : forall i, (i < num_links s)%nat -> spring_force_link (typ_ s i) (cut qs (link_spring_zeropoint s) i) (cut qs (link_spring_zeropoint s) i) = zeros (nth i ds 0%nat)).
  { intros i Hi. destruct (both_widths s qs ds i LN Hi) as (a & b & B1 & B2 & _ & _ & B3 & B4).
    rewrite (nth_error_nth _ _ 0%nat B2). apply spring_zero; [now rewrite (cut_length qs _ i a AZ B1)|].
    intros Q. apply B4 in Q. exact (U i _ _ (typ_spec W s qs ds LN i Hi) (coords_cut W s qs ds LN _ i AZ Hi) Q). }
  rewrite (map_ext_in _ (fun i => zeros (nth i ds 0%nat)) (seq 0 (num_links s))).
  2:{ intros i Hi. apply in_seq in Hi. apply G. lia. }
  unfold M_Kin.concatenate. destruct (map _ _) eqn:E.
  { apply map_eq_nil in E. destruct (num_links s); [congruence|discriminate]. }
  rewrite <- E. f_equal. rewrite <- (ln_ds_length W s qs ds LN). clear. induction ds as [|d ds IH] using rev_ind; [reflexivity|].
  rewrite app_length. cbn [length]. rewrite Nat.add_1_r, seq_S, map_app, concat_app. cbn [map concat Nat.add].
  rewrite app_nil_r, (app_nth2 ds [d]), Nat.sub_diag by lia. cbn [nth].
  rewrite (map_ext_in _ (fun i => zeros (nth i ds 0%nat))).
  2:{ intros i Hi. apply in_seq in Hi. now rewrite app_nth1 by lia. }
  rewrite IH, zeros_app. f_equal. rewrite list_sum_app. cbn. lia.
Qed.

(** Everywhere: the force of each link is computed from its own coordinates and zero point; quaternion joints as
    in [C33_quaternion], other coordinates by the difference. *)
Theorem C33_force (s : rsys) q : wf W s -> num_links s <> 0%nat -> q_size W s = Ok (length q) ->
  exists f, spring_force W s q = Ok f /\ qd_size W s = Ok (length f) /\
  forall i typ sl zl fl, nth_error (link_types s) i = Some typ -> link_coords (qW W) s q i sl ->
    link_coords (qW W) s (link_spring_zeropoint s) i zl -> link_coords (dW W) s f i fl ->
    (has_quat typ -> firstn 3 fl = quaternion_spring_force (firstn 4 zl) (firstn 4 sl) /\
       skipn 3 fl = zipw Rminus (skipn 4 zl) (skipn 4 sl)) /\
    (~ has_quat typ -> fl = zipw Rminus zl sl).
Proof.
  intros WF N Hq. destruct (wf_arrays _ _ WF) as (qs & ds & A1 & A2 & _ & _ & _ & AZ).
  destruct (wf_lean W s WF) as (qs' & ds' & LN). rewrite <- (have_widths_unique _ _ _ _ A1 (ln_q _ _ _ _ LN)), <- (have_widths_unique _ _ _ _ A2 (ln_d _ _ _ _ LN)) in LN. clear qs' ds'.
  apply total_width_Ok in Hq. destruct Hq as (ws & Hw & Hlen). rewrite (have_widths_unique _ _ _ _ Hw A1) in Hlen. clear Hw ws.
  rewrite (spring_scan W s qs ds _ LN Hlen AZ). set (g := fun i => spring_force_link (typ_ s i) (cut qs q i) (cut qs (link_spring_zeropoint s) i)).
  assert (G : forall i, (i < num_links s)%nat -> length (g i) = nth i ds 0%nat).
  { intros i Hi. destruct (both_widths s qs ds i LN Hi) as (a & b & B1 & B2 & _ & _ & B3 & B4). unfold g.
    rewrite (nth_error_nth _ _ 0%nat B2). apply spring_length; rewrite !(cut_length qs _ i a) by auto; auto. }
  destruct (blocks ds g (num_links s) (ln_ds_length W s qs ds LN) G) as [L C].
  exists (concat (map g (seq 0 (num_links s)))). split; [|split].
  - apply concatenate_Ok. split; auto. intros E. apply map_eq_nil in E. destruct (num_links s); [congruence|discriminate].
  - rewrite L. apply total_width_Ok. exists ds. auto.
  - intros i typ sl zl fl T Hs Hz Hf.
    assert (Hi : (i < num_links s)%nat) by (rewrite <- (ln_types _ _ _ _ LN); apply nth_error_Some; congruence).
    rewrite (typ_spec W s qs ds LN i Hi) in T. injection T as <-.
    rewrite <- (coords_unique s _ _ _ _ _ (coords_cut W s qs ds LN q i Hlen Hi) Hs).
    rewrite <- (coords_unique s _ _ _ _ _ (coords_cut W s qs ds LN _ i AZ Hi) Hz).
    rewrite <- (coords_unique s _ _ _ _ _ (coords_cut_d W s qs ds LN _ i L Hi) Hf). rewrite C by auto.
    destruct (both_widths s qs ds i LN Hi) as (a & b & B1 & B2 & _ & _ & B3 & B4). unfold g.
    pose proof (cut_length qs q i a Hlen B1) as Lq. pose proof (cut_length qs _ i a AZ B1) as Lz.
    assert (Q3 : forall u v, length (quaternion_spring_force u v) = 3%nat) by (intros; unfold quaternion_spring_force; destruct (quat_to_rot_axis _); reflexivity).
    unfold spring_force_link. unfold is_free_or_cor_or_spherical, quat_width in *. destruct (is_free_or_cor (typ_ s i)); cbn [orb] in B4.
    + split; [|tauto]. intros _. destruct B3 as [B3 _]. rewrite firstn_app, skipn_app, Q3, Nat.sub_diag, firstn_O, app_nil_r.
      rewrite (firstn_all2 (quaternion_spring_force _ _)), (skipn_all2 (quaternion_spring_force _ _)) by now rewrite Q3. split; reflexivity.
    + destruct (is_spherical (typ_ s i)).
      * split; [|tauto]. intros _. destruct B3 as [-> _]. rewrite !firstn_all2, !skipn_all2 by (rewrite ?Q3; lia). split; reflexivity.
      * split; [intros X; apply B4 in X; discriminate|]. intros _. reflexivity.
Qed.
End C33.

(** A ball joint turned by a quarter turn about x from its zero point. *)
Example C33_quaternion_example : let q := [sqrt 2 / 2; sqrt 2 / 2; 0; 0] in let z := [1; 0; 0; 0] in
  qunit (q4_of q) /\ qunit (q4_of z) /\ ~ vclose0 (qvec (qmul (q4_of z) (qinv (q4_of q)))).
Proof.
  assert (S : sqrt 2 * sqrt 2 = 2) by (apply sqrt_sqrt; lra). assert (1 < sqrt 2) by (rewrite <- sqrt_1 at 1; apply sqrt_lt_1; lra).
  cbv zeta. unfold qunit, q4_of, getR. cbn [nth]. vunfold. split; [field_simplify; lra|]. split; [lra|].
  unfold vclose0, close0, atol. cbn [vx vy vz]. intros [C _]. revert C. 
  match goal with |- Rabs ?e <= _ -> _ => replace e with (- (sqrt 2 / 2)) by field end. rewrite Rabs_Ropp, Rabs_pos_eq by lra. lra.
Qed.
Print Assumptions C33_quaternion.
Print Assumptions C33_zero_at_zeropoint.
Print Assumptions C33_force.
Lemma demo_unit_zero : unit_coords_all demo (link_spring_zeropoint demo).
Proof.
  intros i typ sl T (ws & ps & HW & [SL SC] & N).
  assert (HW' : have_widths (qW builtin_widths) (link_types demo) [7; 1; 4; 1]%nat).
  { repeat apply Forall2_cons; try reflexivity; apply Forall2_nil. }
  rewrite (have_widths_unique _ _ _ _ HW HW') in SL. clear HW HW' ws.
  destruct ps as [|a [|b [|c [|d [|]]]]]; try discriminate. injection SL as L1 L2 L3 L4.
  cbn [demo link_spring_zeropoint] in SC. lens. cbn [concat app] in SC. injection SC. intros. subst.
  destruct i as [|[|[|[|i]]]]; cbn in T, N; [..|destruct i; discriminate]; injection T as <-; injection N as <-;
    unfold unit_coords, has_quat; cbn [In]; intros H; try (exfalso; intuition discriminate);
    unfold qunit, qnorm2, qdot, q4_of, getR; cbn; field.
Qed.
Example C33_example : spring_force builtin_widths demo (link_spring_zeropoint demo) = Ok (zeros 11).
Proof. apply C33_zero_at_zeropoint; [exact demo_wf|discriminate|reflexivity|exact demo_unit_zero]. Qed.
