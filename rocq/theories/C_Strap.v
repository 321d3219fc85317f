(** * C95: a recording can be rebuilt from the readings of the simulated IMU. *)
From Coq Require Import Reals Lra Lia Bool List.
From Verif Require Import Prelude M_Sys M_Math P_Math P_Trig P_Rot C_Rot C_Gym M_Geom M_Joint M_Sens C_Sens S_Drift C_Drift S_Strap.
Import ListNotations.
Local Open Scope R_scope.

(** ** One step *)
Lemma turned_by_zero : turned_by vzero = qone.
Proof.
  unfold turned_by. destruct (Req_EM_T (vnorm vzero) 0) as [_|N]; [reflexivity|]. exfalso. apply N. unfold vnorm.
  replace (dot vzero vzero) with 0 by vring. apply sqrt_0.
Qed.
Lemma vnorm_scale n a : dot n n = 1 -> vnorm (vscale a n) = Rabs a.
Proof.
  intros U. unfold vnorm. replace (dot (vscale a n) (vscale a n)) with (Rsqr a).
  - apply sqrt_Rsqr_abs.
  - replace (dot (vscale a n) (vscale a n)) with (a * a * dot n n) by (clear U; destruct n; vunfold; ring). rewrite U. unfold Rsqr. ring.
Qed.
Lemma turned_by_axis n a : dot n n = 1 -> turned_by (vscale a n) = rot n (- a / 2).
Proof.
  intros U. unfold turned_by. rewrite vnorm_scale by auto. unfold rot, vscale. cbn [vx vy vz].
  destruct (Req_EM_T (Rabs a) 0) as [Z|N].
  - assert (a = 0) as -> by (destruct (Req_dec a 0); auto; exfalso; now apply (Rabs_no_R0 a)).
    replace (- 0 / 2) with 0 by field. rewrite cos_0, sin_0. unfold qone. f_equal; ring.
  - assert (a <> 0) by (intros ->; apply N, Rabs_R0). replace (- a / 2) with (- (a / 2)) by field. rewrite cos_neg, sin_neg. unfold Rabs. destruct (Rcase_abs a).
    + replace (- a / 2) with (- (a / 2)) by field. rewrite cos_neg, sin_neg. f_equal; field; auto.
    + f_equal; field; auto.
Qed.
Lemma perceptible n a : dot n n = 1 -> - PI < a <= PI -> ~ vclose0 (qvec (quat_rot_axis n a)) -> / 10 ^ 10 < Rabs a.
Proof.
  intros U Ha NC. apply Rnot_le_lt. intros B. apply NC. rewrite rot_axis_unit, qvec_rot by auto.
  assert (SB : Rabs (sin (- a / 2)) <= / 10 ^ 8).
  { assert (Rabs (sin (- a / 2)) <= Rabs (- a / 2)).
    { destruct (Rle_dec 0 (- a / 2)) as [P|P].
      - rewrite (Rabs_pos_eq (- a / 2)) by auto. pose proof PI_RGT_0. rewrite Rabs_pos_eq by (apply sin_ge_0; lra).
        destruct P as [P|P]; [left; now apply sin_lt_x|rewrite <- P, sin_0; lra].
      - rewrite (Rabs_left (- a / 2)) by lra. pose proof PI_RGT_0. rewrite Rabs_left; [|apply sin_lt_0_var; lra].
        rewrite <- sin_neg. left. apply sin_lt_x. lra. }
    replace (- a / 2) with (- (a / 2)) in * by field. rewrite Rabs_Ropp in *. unfold Rdiv in *. rewrite Rabs_mult, (Rabs_pos_eq (/ 2)) in H by lra. lra. }
  assert (N1 : Rabs (vx n) <= 1 /\ Rabs (vy n) <= 1 /\ Rabs (vz n) <= 1).
  { destruct n as [x y z]. unfold dot in U. cbn [vx vy vz] in *. assert (Q : forall u, u * u <= 1 -> Rabs u <= 1).
    { intros u Hu. apply Rabs_le. nra. } pose proof (Rle_0_sqr x). pose proof (Rle_0_sqr y). pose proof (Rle_0_sqr z). unfold Rsqr in *.
    repeat split; apply Q; lra. }
  destruct N1 as (N1 & N2 & N3). pose proof (Rabs_pos (sin (- a / 2))). pose proof (Rabs_pos (vx n)). pose proof (Rabs_pos (vy n)). pose proof (Rabs_pos (vz n)).
  unfold vclose0, vscale, close0. cbn [vx vy vz]. rewrite atol_val, !Rabs_mult. repeat split; nra.
Qed.
Lemma vclose0_neg q : vclose0 (qvec (qneg q)) <-> vclose0 (qvec q).
Proof. unfold vclose0, close0, qvec, qneg. cbn [vx vy vz qx qy qz]. now rewrite !Rabs_Ropp. Qed.
Lemma vscale_vscale a b v : vscale a (vscale b v) = vscale (a * b) v. Proof. vring. Qed.
Lemma vscale_vzero a : vscale a vzero = vzero. Proof. vring. Qed.

(** A turn that the library can tell from none is read exactly; every other one reads zero. *)
Lemma step_seen dt dq : dt <> 0 -> qunit dq -> ~ vclose0 (qvec dq) -> same_rot dq (turned_by (vscale dt (gyro_reading dt dq))).
Proof.
  intros Hd U NC. pose proof (C22_quat_roundtrip dq U NC) as H. unfold gyro_reading. destruct (quat_to_rot_axis dq) as [n a].
  destruct H as (N & A & E). assert (NC' : ~ vclose0 (qvec (quat_rot_axis n a))) by (destruct E as [-> | ->]; rewrite ?vclose0_neg; auto).
  pose proof (perceptible n a N A NC') as P. destruct (Rlt_dec _ _) as [_|B]; [|contradiction].
  rewrite !vscale_vscale. replace (dt * / dt * a) with a by (field; auto).
  rewrite turned_by_axis, <- rot_axis_unit by auto. exact E.
Qed.
Lemma step_unseen dt dq : qunit dq -> vclose0 (qvec dq) -> turned_by (vscale dt (gyro_reading dt dq)) = qone.
Proof. intros U C. rewrite gyro_reading_slow, vscale_vzero by auto. apply turned_by_zero. Qed.
Lemma qunit_turned_by v : qunit (turned_by v).
Proof.
  unfold turned_by. destruct (Req_EM_T (vnorm v) 0) as [Z|N]; [apply qunit_one|].
  assert (Q : vnorm v * vnorm v = dot v v). { apply sqrt_sqrt. destruct v as [x y z]. unfold dot. cbn [vx vy vz]. nra. }
  revert N Q. generalize (vnorm v). intros a N Q. pose proof (sin2_cos2 (a / 2)) as X. unfold Rsqr in X. revert X. generalize (sin (a / 2)), (cos (a / 2)). intros s c X.
  unfold qunit. destruct v as [x y z]. unfold dot in Q. unfold qnorm2. cbn [vx vy vz qw qx qy qz] in *.
  transitivity (c * c + s * s / (a * a) * (x * x + y * y + z * z)); [unfold qdot; cbn [qw qx qy qz]; field; auto|].
  rewrite <- Q. replace (s * s / (a * a) * (a * a)) with (s * s) by (field; auto). lra.
Qed.
Lemma step_near dt dq : dt <> 0 -> qunit dq -> turn (turned_by (vscale dt (gyro_reading dt dq))) dq <= 5 * atol.
Proof.
  intros Hd U. pose proof atol_pos. pose proof (qunit_turned_by (vscale dt (gyro_reading dt dq))) as UT. destruct (vclose0_dec (qvec dq)) as [C|C].
  - rewrite step_unseen by auto. pose proof (rotation_angle_all dq U) as B. rewrite quat_angle_close in B by auto.
    rewrite turn_angle. replace (qmul (qinv qone) dq) with dq by (clear; vring). apply abs_le_inv in B. rewrite Rabs_R0 in B. lra.
  - destruct (C94_distance dq _ qone U UT qunit_one) as (_ & S & Z & _). rewrite <- S. rewrite (proj2 Z (step_seen dt dq Hd U C)). lra.
Qed.

(** ** Orientations *)
(** What the first-order gyroscope reads at every sample but the last. *)
Lemma first_order q dt : (1 < length q)%nat ->
  exists out, gyroscope q dt false = Ok out /\ length out = length q /\
    forall k, (S k < length q)%nat -> nth k out vzero = gyro_reading dt (qmul (q_at q (S k)) (qinv (q_at q k))).
Proof.
  intros HN. destruct (C35_reading q dt false HN) as (out & E & L & H). exists out. split; [auto|split; [auto|]].
  intros k Hk. specialize (H k ltac:(lia)). cbv zeta in H. unfold gyro_from, gyro_step, gyro_dt in H.
  destruct (Nat.eqb_spec k (length q - 1)); [lia|]. rewrite Nat.add_1_r in H. now apply nth_error_nth.
Qed.
Lemma undo a b : qunit a -> qmul (qmul b (qinv a)) a = b.
Proof. intros U. rewrite <- qmul_assoc, qmul_inv_l by auto. apply qmul_1_r. Qed.
Lemma qunit_at q k : Forall qunit q -> qunit (q_at q k).
Proof.
  intros U. unfold q_at. destruct (Nat.lt_ge_cases k (length q)) as [L|L]; [|rewrite nth_overflow by auto; apply qunit_one].
  rewrite Forall_forall in U. apply U, nth_In, L.
Qed.
Lemma qunit_reckoned dt out q0 k : qunit q0 -> qunit (reckoned_rot dt out q0 k).
Proof. intros U. induction k as [|k IH]; cbn [reckoned_rot]; auto using qunit_mul, qunit_turned_by. Qed.

(** Dead reckoning from the start: off by at most 5e-8 per sample. *)
Theorem C95_orientations q dt : (1 < length q)%nat -> dt <> 0 -> Forall qunit q ->
  exists gyr, gyroscope q dt false = Ok gyr /\
    forall k, (k < length q)%nat -> turn (reckoned_rot dt gyr (q_at q 0) k) (q_at q k) <= INR k * (5 * atol).
Proof.
  intros HN Hd U. destruct (first_order q dt HN) as (out & E & L & H). exists out. split; [auto|].
  induction k as [|k IH]; intros Hk.
  - cbn [reckoned_rot INR]. destruct (C94_distance (q_at q 0) (q_at q 0) qone) as (_ & _ & Z & _); auto using qunit_at, qunit_one.
    rewrite (proj2 Z (or_introl eq_refl)). lra.
  - cbn [reckoned_rot]. rewrite H by auto. specialize (IH ltac:(lia)).
    set (p := reckoned_rot dt out (q_at q 0) k) in *. set (d := qmul (q_at q (S k)) (qinv (q_at q k))).
    assert (Up : qunit p) by (apply qunit_reckoned; auto using qunit_at). assert (Uk : qunit (q_at q k)) by auto using qunit_at.
    assert (Ud : qunit d) by (unfold d; auto using qunit_mul, qunit_inv, qunit_at).
    assert (Ek : q_at q (S k) = qmul d (q_at q k)) by (unfold d; now rewrite undo). rewrite Ek.
    set (t := turned_by (vscale dt (gyro_reading dt d))). assert (Ut : qunit t) by apply qunit_turned_by.
    destruct (C94_distance (qmul t p) (qmul d p) (qmul d (q_at q k))) as (_ & _ & _ & T & _); auto using qunit_mul.
    destruct (C94_distance t d p) as (_ & _ & _ & _ & _ & R1 & _); auto. destruct (C94_distance p (q_at q k) d) as (_ & _ & _ & _ & L1 & _); auto.
    rewrite R1, L1 in T. pose proof (step_near dt d Hd Ud) as S1. fold t in S1. rewrite S_INR. lra.
Qed.

(** Exact when no step is too small to be seen: then every step is at rest or reads exactly. *)
Definition no_hidden_step (q : list quat) : Prop :=
  forall k, (S k < length q)%nat -> same_rot (q_at q k) (q_at q (S k)) \/ ~ vclose0 (qvec (qmul (q_at q (S k)) (qinv (q_at q k)))).
Lemma same_rot_mul a b p q : same_rot a b -> same_rot p q -> same_rot (qmul a p) (qmul b q).
Proof. unfold same_rot. intros [-> | ->] [-> | ->]; rewrite ?qmul_neg_l, ?qmul_neg_r, ?qneg_neg; auto. Qed.
Lemma same_rot_trans a b c : same_rot a b -> same_rot b c -> same_rot a c.
Proof. unfold same_rot. intros [-> | ->] [-> | ->]; rewrite ?qneg_neg; auto. Qed.
Lemma same_rot_sym a b : same_rot a b -> same_rot b a.
Proof. unfold same_rot. intros [-> | ->]; rewrite ?qneg_neg; auto. Qed.
Lemma close_one : vclose0 (qvec qone).
Proof. pose proof atol_pos. unfold vclose0, close0, qvec, qone. cbn [vx vy vz qx qy qz]. rewrite Rabs_R0. lra. Qed.
Theorem C95_orientations_exact q dt : (1 < length q)%nat -> dt <> 0 -> Forall qunit q -> no_hidden_step q ->
  exists gyr, gyroscope q dt false = Ok gyr /\ forall k, (k < length q)%nat -> same_rot (q_at q k) (reckoned_rot dt gyr (q_at q 0) k).
Proof.
  intros HN Hd U NH. destruct (first_order q dt HN) as (out & E & L & H). exists out. split; [auto|].
  induction k as [|k IH]; intros Hk; [now left|]. cbn [reckoned_rot]. rewrite H by auto. specialize (IH ltac:(lia)).
  assert (Uk : qunit (q_at q k)) by auto using qunit_at. assert (Ud : qunit (qmul (q_at q (S k)) (qinv (q_at q k)))) by auto using qunit_mul, qunit_inv, qunit_at.
  rewrite <- (undo (q_at q k) (q_at q (S k)) Uk) at 1. apply same_rot_mul; auto. destruct (NH k Hk) as [Z|C]; [|now apply step_seen].
  assert (G : same_rot qone (qmul (q_at q (S k)) (qinv (q_at q k)))).
  { destruct Z as [-> | ->]; [left|right]; rewrite ?qmul_neg_l, qmul_inv_r by auto; reflexivity. }
  rewrite step_unseen; [apply same_rot_sym; auto|auto|]. destruct G as [-> | ->]; rewrite ?vclose0_neg; apply close_one.
Qed.
(** Two recordings that start alike and read alike are alike. *)
Theorem C95_readings_determine p q dt gyr : (1 < length p)%nat -> length q = length p -> dt <> 0 -> Forall qunit p -> Forall qunit q ->
  q_at p 0 = q_at q 0 -> gyroscope p dt false = Ok gyr -> gyroscope q dt false = Ok gyr ->
  forall k, (k < length p)%nat -> turn (q_at p k) (q_at q k) <= INR k * (10 * atol).
Proof.
  intros HN L Hd Up Uq E0 Ep Eq k Hk. destruct (C95_orientations p dt HN Hd Up) as (g1 & G1 & A). destruct (C95_orientations q dt ltac:(lia) Hd Uq) as (g2 & G2 & B).
  rewrite Ep in G1. rewrite Eq in G2. injection G1 as <-. injection G2 as <-. specialize (A k Hk). specialize (B k ltac:(lia)). rewrite <- E0 in B.
  set (r := reckoned_rot dt gyr (q_at p 0) k) in *. assert (Ur : qunit r) by (apply qunit_reckoned; auto using qunit_at).
  destruct (C94_distance (q_at p k) r (q_at q k)) as (_ & S & _ & T & _); auto using qunit_at. lra.
Qed.

(** ** Positions *)
Lemma rotate_same v p q : same_rot p q -> rotate v (qinv q) = rotate v (qinv p).
Proof. intros [-> | ->]; [reflexivity|]. clear. vring. Qed.
Lemma double_step dt p a b g r : dt <> 0 -> qunit r ->
  next_pos dt g (rotate (vadd (vscale (/ ((1 * dt) ^ 2)) (vsub (vadd p b) (vscale 2 a))) g) r) r p a = b.
Proof.
  intros Hd U. unfold next_pos. rewrite rotate_inv_l by auto. clear U. destruct p as [p1 p2 p3], a as [a1 a2 a3], b as [b1 b2 b3], g as [g1 g2 g3]. unfold vadd, vsub, vscale. cbn [vx vy vz]. f_equal; field; auto.
Qed.
(** Everything from the IMU, gravity, the first orientation and the first two positions. *)
Theorem C95_poses xs g dt : (3 <= length xs)%nat -> dt <> 0 -> Forall (fun x => qunit (t_rot x)) xs -> no_hidden_step (map t_rot xs) ->
  exists acc gyr, accelerometer xs g dt 1 = Ok acc /\ gyroscope (map t_rot xs) dt false = Ok gyr /\
    let rot := reckoned_rot dt gyr (t_rot (at_ xs 0)) in
    forall k, (k < length xs)%nat -> same_rot (t_rot (at_ xs k)) (rot k) /\
      fst (reckoned_pos dt g acc rot (pos_at xs 0) (pos_at xs 1) k) = pos_at xs k.
Proof.
  intros HN Hd U NH. assert (U' : Forall qunit (map t_rot xs)) by (rewrite Forall_map; auto).
  destruct (C34_reading xs g dt 1 ltac:(lia) ltac:(lia)) as (acc & Ea & La & Ha).
  destruct (C95_orientations_exact (map t_rot xs) dt ltac:(rewrite map_length; lia) Hd U' NH) as (gyr & Eg & Hg).
  exists acc, gyr. split; [auto|split; [auto|]]. cbv zeta.
  assert (QA : forall k, q_at (map t_rot xs) k = t_rot (at_ xs k)). { intros k. unfold q_at, at_. apply (map_nth t_rot xs t_zero). }
  rewrite QA in Hg. set (ro := reckoned_rot dt gyr (t_rot (at_ xs 0))) in *.
  assert (HR : forall k, (k < length xs)%nat -> same_rot (t_rot (at_ xs k)) (ro k)). { intros k Hk. rewrite <- QA. apply Hg. now rewrite map_length. }
  assert (P : forall k, (S k < length xs)%nat -> reckoned_pos dt g acc ro (pos_at xs 0) (pos_at xs 1) k = (pos_at xs k, pos_at xs (S k))).
  { induction k as [|k IH]; intros Hk; [reflexivity|]. cbn [reckoned_pos]. rewrite IH by lia. f_equal.
    specialize (Ha (S k) ltac:(lia)). apply nth_error_nth with (d := vzero) in Ha. rewrite Ha.
    assert (EC : centre 1 (length xs) (S k) = S k). { unfold centre. destruct (Nat.ltb_spec (S k) 1); [lia|]. destruct (Nat.ltb_spec (S k) (length xs - 1)); [auto|lia]. }
    rewrite EC. unfold second_diff. replace (S k - 1)%nat with k by lia. rewrite Nat.add_1_r. change (INR 1) with 1.
    unfold next_pos at 1. rewrite (rotate_same _ _ _ (HR (S k) ltac:(lia))). apply double_step; auto.
    rewrite <- QA. now apply qunit_at. }
  intros k Hk. split; [auto|]. destruct k as [|k]; [reflexivity|]. cbn [reckoned_pos]. rewrite P by lia. reflexivity.
Qed.

(** ** The second-order gyroscope does not determine the motion *)
(** A body that flips back and forth by a half turn at every sample reads like a body at rest. *)
Theorem C95_second_order_refuted : exists p q, length p = length q /\ Forall qunit p /\ Forall qunit q /\ q_at p 0 = q_at q 0 /\
  (forall dt, gyroscope p dt true = gyroscope q dt true /\ exists gyr, gyroscope p dt true = Ok gyr) /\ turn (q_at p 1) (q_at q 1) = PI.
Proof.
  set (i := Q4 0 1 0 0). exists [qone; i; qone; i], [qone; qone; qone; qone].
  assert (Ui : qunit i) by (unfold i, qunit, qnorm2; vunfold; ring).
  assert (E : qmul i (qinv i) = qone) by now apply qmul_inv_r. assert (E1 : qmul qone (qinv qone) = qone) by (apply qmul_inv_r, qunit_one).
  split; [reflexivity|]. split; [repeat constructor; auto using qunit_one|]. split; [repeat constructor; auto using qunit_one|]. split; [reflexivity|]. split.
  - intros dt. assert (G : gyroscope [qone; i; qone; i] dt true = gyroscope [qone; qone; qone; qone] dt true).
    { unfold gyroscope. cbn [skipn upto_neg Nat.eqb firstn length Nat.sub zipwith combine map fst snd]. unfold zipwith, upto_neg.
      cbn [skipn Nat.eqb firstn length Nat.sub combine map fst snd]. now rewrite E, E1. }
    split; auto. destruct (C35_reading [qone; i; qone; i] dt true) as (o & Eo & _); [cbn; lia|]. eauto.
  - unfold q_at. cbn [nth]. unfold turn. replace (qdot i qone) with 0 by (unfold i, qdot, qone; cbn; ring). rewrite Rabs_R0, acos_0. field.
Qed.

(** A body that turns by 1 rad per sample about z while it falls meets the conditions. *)
Example C95_example : let x k := Tr (V3 0 0 (- k * k)) (rot (V3 0 0 1) (k / 2)) in let xs := map x [0; 1; 2; 3] in
  Forall (fun x => qunit (t_rot x)) xs /\ no_hidden_step (map t_rot xs).
Proof.
  assert (U : dot (V3 0 0 1) (V3 0 0 1) = 1) by (unfold dot; cbn; ring). cbv zeta. split.
  - repeat constructor; cbn [t_rot]; now apply rot_unit.
  - intros k Hk. right. cbn [map t_rot length] in *.
    assert (E : qmul (q_at [rot (V3 0 0 1) (0 / 2); rot (V3 0 0 1) (1 / 2); rot (V3 0 0 1) (2 / 2); rot (V3 0 0 1) (3 / 2)] (S k))
                     (qinv (q_at [rot (V3 0 0 1) (0 / 2); rot (V3 0 0 1) (1 / 2); rot (V3 0 0 1) (2 / 2); rot (V3 0 0 1) (3 / 2)] k)) = rot (V3 0 0 1) (1 / 2)).
    { assert (G : forall a, qmul (rot (V3 0 0 1) ((a + 1) / 2)) (qinv (rot (V3 0 0 1) (a / 2))) = rot (V3 0 0 1) (1 / 2)).
      { intros a. replace (1 / 2) with ((a + 1) / 2 - a / 2) by field. unfold rot, qmul, qinv. cbn [qw qx qy qz vx vy vz]. rewrite cos_minus, sin_minus. f_equal; ring. }
      destruct k as [|[|[|k]]]; [transitivity (qmul (rot (V3 0 0 1) ((0 + 1) / 2)) (qinv (rot (V3 0 0 1) (0 / 2)))); [|apply G]|transitivity (qmul (rot (V3 0 0 1) ((1 + 1) / 2)) (qinv (rot (V3 0 0 1) (1 / 2)))); [|apply G]|transitivity (qmul (rot (V3 0 0 1) ((2 + 1) / 2)) (qinv (rot (V3 0 0 1) (2 / 2)))); [|apply G]|lia]; unfold q_at; cbn [nth]; f_equal; f_equal; lra. }
    rewrite E. rewrite qvec_rot. intros (_ & _ & C). unfold close0, vscale in C. cbn [vz] in C. rewrite atol_val in C.
    assert (0 < sin (1 / 2)) by (pose proof PI2_3_2; apply sin_gt_0; lra).
    pose proof (sin_lb_gt_0 (1/2)). rewrite Rmult_1_r, Rabs_pos_eq in C by lra.
    assert (S5 : 5 / 12 <= sin (1 / 2)).
    { pose proof PI2_3_2. pose proof (abs_sin_half (- 1) ltac:(lra)) as X. replace (- -1 / 2) with (1 / 2) in X by field. rewrite (Rabs_pos_eq (sin _)) in X by lra.
      replace (Rabs (-1)) with 1 in X by (rewrite Rabs_left; lra). unfold Rmin in X. destruct (Rle_dec (1 / 2) 1); lra. }
    assert (/ 10 ^ 8 <= / 10). { apply Rinv_le_contravar; lra. } lra.
Qed.
Print Assumptions C95_poses.
