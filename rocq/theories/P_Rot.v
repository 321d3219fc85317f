(** * Axis-angle, projections, Euler angles and the low-pass filter. *)
From Coq Require Import Reals Lra Lia ZArith List Nsatz.
From Verif Require Import M_Math P_Math P_Trig.
Import ListNotations.
Local Open Scope R_scope.

Lemma wrap_ext a b : cos a = cos b -> sin a = sin b -> wrap_to_pi a = wrap_to_pi b.
Proof.
  intros C S. pose proof (wrap_range a). pose proof (wrap_range b). apply same_angle; [| |lra].
  - now rewrite !cos_wrap.
  - now rewrite !sin_wrap.
Qed.
Lemma wrap_idem a : wrap_to_pi (wrap_to_pi a) = wrap_to_pi a.
Proof. apply wrap_id, wrap_range. Qed.
Lemma wrap_abs_neg a : Rabs (wrap_to_pi (- a)) = Rabs (wrap_to_pi a).
Proof.
  pose proof (wrap_range a) as B. pose proof PI_pos. destruct (wrap_congruent a) as [k E].
  destruct (Req_dec (wrap_to_pi a) (- PI)) as [P|P].
  - rewrite (wrap_unique (- a) (- PI) (- k + -1)), P; auto; [lra|]. rewrite plus_IZR, opp_IZR. rewrite E in P. simpl. lra.
  - rewrite (wrap_unique (- a) (- wrap_to_pi a) (- k)); [apply Rabs_Ropp|lra|]. rewrite E, opp_IZR. ring.
Qed.
Lemma wrap_abs_le a : Rabs (wrap_to_pi a) <= PI.
Proof. pose proof (wrap_range a). unfold Rabs. destruct (Rcase_abs _); lra. Qed.

Lemma dbl_cos_sin a b : cos a = cos b -> sin a = sin b -> cos (2 * a) = cos (2 * b) /\ sin (2 * a) = sin (2 * b).
Proof. intros C S. rewrite !cos_2a, !sin_2a, C, S. auto. Qed.

(** ** Axis and angle of an axis-angle quaternion *)
Lemma qvec_rot n h : qvec (rot n h) = vscale (sin h) n.
Proof. reflexivity. Qed.
Lemma vnorm_qvec_rot n h : dot n n = 1 -> vnorm (qvec (rot n h)) = Rabs (sin h).
Proof. intros H. rewrite qvec_rot, vnorm_scale, vnorm_unit by auto. ring. Qed.

Lemma quat_angle_rot n h : dot n n = 1 -> ~ vclose0 (qvec (rot n h)) ->
  (0 < sin h /\ quat_angle (rot n h) = wrap_to_pi (2 * h) /\ safe_normalize (qvec (rot n h)) = n) \/
  (sin h < 0 /\ quat_angle (rot n h) = wrap_to_pi (- (2 * h)) /\ safe_normalize (qvec (rot n h)) = vneg n).
Proof.
  intros U N. pose proof (not_close_norm _ N) as P. rewrite vnorm_qvec_rot in P by auto.
  destruct (quat_angle_far (rot n h) (rot_unit n h U) N) as (al & B & C & S & A & E). rewrite vnorm_qvec_rot in S by auto.
  cbn [qw rot] in C.
  assert (SN : safe_normalize (qvec (rot n h)) = vscale (sin h / Rabs (sin h)) n).
  { unfold safe_normalize. destruct (vclose0_dec _); [contradiction|]. rewrite vnorm_qvec_rot, qvec_rot, vscale_vscale by auto.
    f_equal. unfold Rdiv. ring. }
  destruct (Rtotal_order (sin h) 0) as [L|[L|L]].
  - right. rewrite Rabs_left in S, SN by auto. split; auto. split.
    + rewrite A. destruct (dbl_cos_sin al (- h)) as [X Y]; [now rewrite cos_neg|now rewrite sin_neg|].
      replace (- (2 * h)) with (2 * - h) by ring. now apply wrap_ext.
    + rewrite SN. replace (sin h / - sin h) with (-1) by (field; lra). vring.
  - rewrite L, Rabs_R0 in P. lra.
  - left. rewrite Rabs_right in S, SN by lra. split; auto. split.
    + rewrite A. destruct (dbl_cos_sin al h) as [X Y]; auto. now apply wrap_ext.
    + rewrite SN. replace (sin h / sin h) with 1 by (field; lra). apply vscale_1.
Qed.

Lemma quat_angle_rot_axis n a : dot n n = 1 -> ~ vclose0 (qvec (quat_rot_axis n a)) ->
  Rabs (quat_angle (quat_rot_axis n a)) = Rabs (wrap_to_pi a).
Proof.
  intros U. rewrite rot_axis_unit by auto. intros N.
  destruct (quat_angle_rot n (- a / 2) U N) as [(_ & -> & _)|(_ & -> & _)].
  - replace (2 * (- a / 2)) with (- a) by field. apply wrap_abs_neg.
  - replace (- (2 * (- a / 2))) with a by field. reflexivity.
Qed.

Lemma sin_neg_half a : - PI < a < PI -> (0 < sin (- a / 2) -> a < 0) /\ (sin (- a / 2) < 0 -> 0 < a).
Proof.
  intros B. pose proof PI_pos. split; intros H0.
  - destruct (Rlt_dec a 0); auto. exfalso. assert (0 <= sin (a / 2)) by (apply sin_ge_0; lra).
    replace (- a / 2) with (- (a / 2)) in H0 by field. rewrite sin_neg in H0. lra.
  - destruct (Rlt_dec 0 a); auto. exfalso. assert (0 <= sin (- a / 2)) by (apply sin_ge_0; lra). lra.
Qed.
Lemma axis_angle_of_rot n a : dot n n = 1 -> - PI < a < PI -> ~ vclose0 (qvec (quat_rot_axis n a)) ->
  quat_to_rot_axis (quat_rot_axis n a) = (n, a) \/ quat_to_rot_axis (quat_rot_axis n a) = (vneg n, - a).
Proof.
  intros U B. rewrite rot_axis_unit by auto. intros N. unfold quat_to_rot_axis. destruct (sin_neg_half a B) as [S1 S2].
  destruct (quat_angle_rot n (- a / 2) U N) as [(S & -> & ->)|(S & -> & ->)]; [left|right]; f_equal.
  - replace (2 * (- a / 2)) with (- a) by field. specialize (S1 S). rewrite wrap_id by lra. ring.
  - replace (- (2 * (- a / 2))) with a by field. specialize (S2 S). rewrite wrap_id by lra. ring.
Qed.

Lemma quat_angle_neg q : qunit q -> Rabs (quat_angle (qneg q)) = Rabs (quat_angle q).
Proof.
  intros H. assert (V : qvec (qneg q) = vneg (qvec q)) by reflexivity.
  destruct (vclose0_dec (qvec q)) as [C|C].
  - rewrite !quat_angle_close; auto; [now apply qunit_neg|]. rewrite V. now apply vclose0_neg.
  - assert (C' : ~ vclose0 (qvec (qneg q))) by (rewrite V; intros X; apply C; now apply vclose0_neg).
    destruct (quat_angle_far q H C) as (al & B & Ca & Sa & A & E).
    destruct (quat_angle_far (qneg q) (qunit_neg _ H) C') as (be & B' & Cb & Sb & A' & E').
    rewrite V, vnorm_neg in Sb. rewrite A, A'. rewrite <- (wrap_abs_neg (2 * al)).
    f_equal. destruct (dbl_cos_sin be (PI - al)) as [X Y].
    + rewrite Rtrigo_facts.cos_pi_minus. rewrite Cb, Ca. reflexivity.
    + rewrite Rtrigo_facts.sin_pi_minus. congruence.
    + apply wrap_ext.
      * rewrite X. rewrite <- (cos_periodZ _ (-1)). f_equal. simpl. ring.
      * rewrite Y. rewrite <- (sin_periodZ _ (-1)). f_equal. simpl. ring.
Qed.

(** ** quat_project *)
Section Project.
Variable q : quat.
Variable k : vec3.
Hypothesis U : dot k k = 1.
Let c := dot (qvec q) k.
Let be := arctan2 c (qw q).
Lemma project_pri : fst (quat_project q k) = rot k be.
Proof.
  unfold quat_project. cbv zeta. cbn [fst]. rewrite rot_axis_unit by auto. f_equal. unfold be, c. field.
Qed.
Lemma project_res : snd (quat_project q k) = qmul q (rot k (- be)).
Proof.
  change (snd (quat_project q k)) with (qmul q (qinv (fst (quat_project q k)))). rewrite project_pri, rot_inv. reflexivity.
Qed.
Lemma qw_mul_rot g : qw (qmul q (rot k g)) = qw q * cos g - c * sin g.
Proof. unfold rot, c. destruct q, k. vunfold. ring. Qed.
Lemma dot_mul_rot g : dot (qvec (qmul q (rot k g))) k = qw q * sin g + c * cos g.
Proof.
  unfold rot, c. destruct q as [w x y z], k as [a b d]. vunfold.
  transitivity (w * sin g * (a * a + b * b + d * d) + (x * a + y * b + z * d) * cos g); [ring|]. rewrite U. ring.
Qed.
Lemma project_polar : exists r, 0 <= r /\ r * cos be = qw q /\ r * sin be = c /\ r * r = qw q * qw q + c * c.
Proof.
  exists (sqrt (qw q * qw q + c * c)). split; [apply sqrt_pos|].
  assert (P : 0 <= qw q * qw q + c * c) by nra. rewrite sqrt_sqrt by auto. unfold be.
  destruct (Req_dec (qw q * qw q + c * c) 0) as [E|E].
  - rewrite E, sqrt_0. assert (qw q = 0) by nra. assert (c = 0) by nra. rewrite H, H0. lra.
  - destruct (arctan2_spec c (qw q)) as (A & B & _); auto.
Qed.
Lemma project_split : qmul (snd (quat_project q k)) (fst (quat_project q k)) = q.
Proof.
  rewrite project_res, project_pri, <- qmul_assoc, rot_add by auto. rewrite Rplus_opp_l, rot_0. apply qmul_1_r.
Qed.
Lemma project_no_component : dot (qvec (snd (quat_project q k))) k = 0.
Proof.
  rewrite project_res, dot_mul_rot, sin_neg, cos_neg. destruct project_polar as (r & _ & A & B & _). rewrite <- A, <- B. ring.
Qed.
Lemma project_w : 0 <= qw (snd (quat_project q k)) /\
  qw (snd (quat_project q k)) * qw (snd (quat_project q k)) = qw q * qw q + c * c.
Proof.
  rewrite project_res, qw_mul_rot, sin_neg, cos_neg. destruct project_polar as (r & P & A & B & E).
  pose proof (sin2_cos2 be) as X. unfold Rsqr in X.
  replace (qw q * cos be - c * - sin be) with r; [lra|]. rewrite <- A, <- B.
  transitivity (r * (sin be * sin be + cos be * cos be)); [rewrite X; ring|ring].
Qed.
Lemma project_max r g : qmul r (rot k g) = q -> Rabs (qw r) <= qw (snd (quat_project q k)).
Proof.
  intros E. assert (R : r = qmul q (rot k (- g))).
  { rewrite <- E, <- qmul_assoc, rot_add, Rplus_opp_r, rot_0 by auto. symmetry. apply qmul_1_r. }
  rewrite R, qw_mul_rot, sin_neg, cos_neg. destruct project_w as [P Q]. set (W := qw (snd (quat_project q k))) in *.
  pose proof (sin2_cos2 g) as X. unfold Rsqr in X.
  assert ((qw q * cos g - c * - sin g) * (qw q * cos g - c * - sin g) <= W * W).
  { rewrite Q. assert (H : 0 <= (qw q * sin g - c * cos g) * (qw q * sin g - c * cos g)) by apply Rle_0_sqr.
    assert (qw q * qw q + c * c = (qw q * cos g - c * - sin g) * (qw q * cos g - c * - sin g) + (qw q * sin g - c * cos g) * (qw q * sin g - c * cos g)); [|lra].
    transitivity ((qw q * qw q + c * c) * (sin g * sin g + cos g * cos g)); [rewrite X; ring|ring]. }
  apply Rsqr_le_abs_0 in H. rewrite (Rabs_right W) in H by lra. auto.
Qed.
Lemma be_range : - PI < be <= PI.
Proof.
  unfold be. destruct (Req_dec (qw q * qw q + c * c) 0) as [E|E].
  - assert (qw q = 0) by nra. assert (c = 0) by nra. rewrite H, H0, arctan2_00. pose proof PI_pos. lra.
  - now destruct (arctan2_spec c (qw q)).
Qed.
End Project.

(** ** Euler angles *)
Lemma euler_composition a1 a2 a3 :
  euler_to_quat a1 a2 a3 = qmul (quat_rot_axis z_unit a3) (qmul (quat_rot_axis y_unit a2) (quat_rot_axis x_unit a1)).
Proof.
  rewrite !rot_axis_unit by (vunfold; ring). unfold euler_to_quat, rot. cbv zeta.
  replace (- a1 / 2) with (- (a1 / 2)) by field. replace (- a2 / 2) with (- (a2 / 2)) by field. replace (- a3 / 2) with (- (a3 / 2)) by field.
  rewrite !cos_neg, !sin_neg. vunfold. f_equal; ring.
Qed.
Lemma euler_unit a1 a2 a3 : qunit (euler_to_quat a1 a2 a3).
Proof.
  rewrite euler_composition. repeat apply qunit_mul; rewrite rot_axis_unit by (vunfold; ring); apply rot_unit; vunfold; ring.
Qed.

(** The five expressions quat_to_euler inspects. *)
Lemma euler_entries a1 a2 a3 : let q := qinv (euler_to_quat a1 a2 a3) in
  -2 * qx q * qy q + 2 * qw q * qz q = cos a2 * sin a3 /\
  qx q * qx q + qw q * qw q - qz q * qz q - qy q * qy q = cos a2 * cos a3 /\
  2 * qx q * qz q + 2 * qw q * qy q = sin a2 /\
  -2 * qy q * qz q + 2 * qw q * qx q = cos a2 * sin a1 /\
  qz q * qz q - qy q * qy q - qx q * qx q + qw q * qw q = cos a2 * cos a1.
Proof.
  unfold euler_to_quat. cbv zeta. rewrite qinv_inv. cbn [qw qx qy qz].
  assert (D : forall a, sin a = 2 * sin (a / 2) * cos (a / 2) /\ cos a = cos (a / 2) * cos (a / 2) - sin (a / 2) * sin (a / 2)
    /\ cos (a / 2) * cos (a / 2) + sin (a / 2) * sin (a / 2) = 1).
  { intros a. pose proof (sin2_cos2 (a / 2)) as X. unfold Rsqr in X.
    rewrite <- sin_2a, <- cos_2a. replace (2 * (a / 2)) with a by field. repeat split; lra. }
  destruct (D a1) as (-> & -> & E1), (D a2) as (-> & -> & E2), (D a3) as (-> & -> & E3).
  set (c1 := cos (a1 / 2)) in *. set (s1 := sin (a1 / 2)) in *. set (c2 := cos (a2 / 2)) in *. set (s2 := sin (a2 / 2)) in *.
  set (c3 := cos (a3 / 2)) in *. set (s3 := sin (a3 / 2)) in *. clearbody c1 s1 c2 s2 c3 s3. clear D.
  repeat split; nsatz.
Qed.
Lemma clip_id x : -1 <= x <= 1 -> clip x (-1) 1 = x.
Proof. intros H. unfold clip. rewrite Rmax_left, Rmin_left; lra. Qed.

Lemma quat_to_euler_inverts a1 a2 a3 : - PI < a1 <= PI -> - (PI / 2) < a2 < PI / 2 -> - PI < a3 <= PI ->
  quat_to_euler (euler_to_quat a1 a2 a3) = (a1, a2, a3).
Proof.
  intros H1 H2 H3. unfold quat_to_euler. cbv zeta. destruct (euler_entries a1 a2 a3) as (-> & -> & -> & -> & ->).
  assert (0 < cos a2) by (apply cos_gt_0; lra). rewrite !arctan2_cos_sin by auto. rewrite clip_id by apply SIN_bound.
  rewrite asin_sin by lra. reflexivity.
Qed.

(** The converse: away from gimbal lock the angles of [q] rebuild [q] up to sign. *)
Lemma sum_sq_half w y a : w * w + y * y = 1 -> w * w - y * y = cos a -> 2 * w * y = sin a -> - (PI / 2) < a < PI / 2 ->
  (w = cos (a / 2) /\ y = sin (a / 2)) \/ (w = - cos (a / 2) /\ y = - sin (a / 2)).
Proof.
  intros U C S B. pose proof (sin2_cos2 (a / 2)) as X. unfold Rsqr in X.
  assert (C2 : cos a = cos (a / 2) * cos (a / 2) - sin (a / 2) * sin (a / 2)) by (rewrite <- cos_2a; f_equal; field).
  assert (S2 : sin a = 2 * sin (a / 2) * cos (a / 2)) by (rewrite <- sin_2a; f_equal; field).
  assert (P : 0 < cos (a / 2)) by (apply cos_gt_0; lra).
  set (c := cos (a / 2)) in *. set (s := sin (a / 2)) in *. rewrite C2 in C. rewrite S2 in S. clear C2 S2 B.
  assert (W : (w - c) * (w + c) = 0) by nra.
  apply Rmult_integral in W. destruct W as [W|W].
  - left. assert (w = c) by lra. subst w. split; auto. apply Rmult_eq_reg_l with c; lra.
  - right. assert (w = - c) by lra. subst w. split; auto. apply Rmult_eq_reg_l with c; lra.
Qed.
(** Entries of the rotation matrix as quadratic forms, and their change under rotations about z and x. *)
Definition e11 q := qw q * qw q + qx q * qx q - qy q * qy q - qz q * qz q.
Definition e12 q := 2 * (qx q * qy q - qw q * qz q).
Definition e13 q := 2 * (qx q * qz q + qw q * qy q).
Definition e23 q := 2 * (qy q * qz q - qw q * qx q).
Definition e33 q := qw q * qw q - qx q * qx q - qy q * qy q + qz q * qz q.
Lemma e_rz p h : let t := qmul p (rot z_unit h) in
  e11 t = e11 p * cos (2 * h) + e12 p * sin (2 * h) /\ e12 t = - e11 p * sin (2 * h) + e12 p * cos (2 * h) /\ e13 t = e13 p /\ e23 t = e23 p /\ e33 t = e33 p.
Proof.
  cbv zeta. rewrite cos_2a, sin_2a. pose proof (sin2_cos2 h) as X. unfold Rsqr in X. unfold e11, e12, e13, e23, e33, rot.
  set (c := cos h) in *. set (s := sin h) in *. clearbody c s. destruct p as [w x y z]. vunfold.
  split; [ring|]. split; [ring|]. replace (s * 0) with 0 by ring. replace (s * 1) with s by ring.
  split; [transitivity (2 * (x * z + w * y) * (s * s + c * c)); [ring|rewrite X; ring]|].
  split; [transitivity (2 * (y * z - w * x) * (s * s + c * c)); [ring|rewrite X; ring]|].
  transitivity ((w * w - x * x - y * y + z * z) * (s * s + c * c)); [ring|rewrite X; ring].
Qed.
Lemma e_rx p h : let t := qmul (rot x_unit h) p in
  e23 t = e23 p * cos (2 * h) - e33 p * sin (2 * h) /\ e33 t = e23 p * sin (2 * h) + e33 p * cos (2 * h) /\ e11 t = e11 p /\ e12 t = e12 p /\ e13 t = e13 p.
Proof.
  cbv zeta. rewrite cos_2a, sin_2a. pose proof (sin2_cos2 h) as X. unfold Rsqr in X. unfold e11, e12, e13, e23, e33, rot.
  set (c := cos h) in *. set (s := sin h) in *. clearbody c s. destruct p as [w x y z]. vunfold.
  split; [ring|]. split; [ring|]. replace (s * 0) with 0 by ring. replace (s * 1) with s by ring.
  split; [transitivity ((w * w + x * x - y * y - z * z) * (s * s + c * c)); [ring|rewrite X; ring]|].
  split; [transitivity (2 * (x * y - w * z) * (s * s + c * c)); [ring|rewrite X; ring]|].
  transitivity (2 * (x * z + w * y) * (s * s + c * c)); [ring|rewrite X; ring].
Qed.
Lemma quat_to_euler_rebuild q : qunit q ->
  (let p := qinv q in -1 < 2 * qx p * qz p + 2 * qw p * qy p < 1) ->
  let '(a1, a2, a3) := quat_to_euler q in
  (euler_to_quat a1 a2 a3 = q \/ euler_to_quat a1 a2 a3 = qneg q) /\
  - PI < a1 <= PI /\ - (PI / 2) < a2 < PI / 2 /\ - PI < a3 <= PI.
Proof.
  intros U G. cbv zeta in G. unfold quat_to_euler. cbv zeta. pose proof (qunit_inv _ U) as UP.
  rewrite clip_id by lra. set (p := qinv q) in *.
  assert (QP : q = qinv p) by (unfold p; now rewrite qinv_inv). clearbody p. subst q.
  set (s := 2 * qx p * qz p + 2 * qw p * qy p) in *.
  set (u := -2 * qx p * qy p + 2 * qw p * qz p). set (v := qx p * qx p + qw p * qw p - qz p * qz p - qy p * qy p).
  set (u' := -2 * qy p * qz p + 2 * qw p * qx p). set (v' := qz p * qz p - qy p * qy p - qx p * qx p + qw p * qw p).
  assert (UU : qw p * qw p + qx p * qx p + qy p * qy p + qz p * qz p = 1) by exact UP.
  assert (N1 : v * v + u * u = 1 - s * s) by (unfold u, v, s; nsatz).
  assert (N2 : v' * v' + u' * u' = 1 - s * s) by (unfold u', v', s; nsatz).
  assert (P0 : 0 < 1 - s * s) by nra.
  destruct (arctan2_spec u v) as (C3 & S3 & B3); [lra|]. destruct (arctan2_spec u' v') as (C1 & S1 & B1); [lra|].
  rewrite N1 in C3, S3. rewrite N2 in C1, S1.
  set (a3 := arctan2 u v) in *. set (a1 := arctan2 u' v') in *.
  assert (BA : - (PI / 2) < asin s < PI / 2).
  { pose proof (asin_bound s) as BB. pose proof (sin_asin s) as SS. rewrite sin_asin in SS by lra.
    destruct BB as [[L|L] [R|R]]; try lra.
    - exfalso. assert (E : sin (asin s) = sin (PI / 2)) by (f_equal; lra). rewrite sin_asin, sin_PI2 in E by lra. lra.
    - exfalso. assert (E : sin (asin s) = sin (- (PI / 2))) by (f_equal; lra). rewrite sin_asin, sin_neg, sin_PI2 in E by lra. lra. }
  assert (CA : cos (asin s) = sqrt (1 - s * s)) by (rewrite cos_asin by lra; reflexivity).
  assert (SA : sin (asin s) = s) by (apply sin_asin; lra).
  split; [|auto]. set (a2 := asin s) in *. clearbody a1 a2 a3. set (c := sqrt (1 - s * s)) in *.
  assert (CP : 0 < c) by (apply sqrt_lt_R0; auto). assert (CC : c * c = 1 - s * s) by (apply sqrt_sqrt; lra). clearbody c.
  (* t = Rx(-a1) p Rz(-a3) *)
  assert (ux : dot x_unit x_unit = 1) by (vunfold; ring). assert (uy : dot y_unit y_unit = 1) by (vunfold; ring).
  assert (uz : dot z_unit z_unit = 1) by (vunfold; ring).
  set (t := qmul (rot x_unit (- (a1 / 2))) (qmul p (rot z_unit (- (a3 / 2))))).
  assert (TE : p = qmul (rot x_unit (a1 / 2)) (qmul t (rot z_unit (a3 / 2)))).
  { unfold t. rewrite !qmul_assoc. rewrite <- !(qmul_assoc _ (rot z_unit _) (rot z_unit _)), !rot_add, !Rplus_opp_l, !Rplus_opp_r by auto.
    rewrite !rot_0. now rewrite qmul_1_l, !qmul_1_r. }
  assert (TU : qunit t) by (unfold t; auto using qunit_mul, rot_unit).
  assert (T0 : e11 t = c /\ e12 t = 0 /\ e13 t = s /\ e23 t = 0 /\ e33 t = c).
  { unfold t. destruct (e_rx (qmul p (rot z_unit (- (a3 / 2)))) (- (a1 / 2))) as (-> & -> & -> & -> & ->).
    destruct (e_rz p (- (a3 / 2))) as (-> & -> & -> & -> & ->).
    replace (2 * - (a1 / 2)) with (- a1) by field. replace (2 * - (a3 / 2)) with (- a3) by field. rewrite !cos_neg, !sin_neg.
    assert (X1 : e11 p = c * cos a3) by (rewrite C3; unfold v, e11; ring).
    assert (X2 : e12 p = - (c * sin a3)) by (rewrite S3; unfold u, e12; ring).
    assert (X3 : e13 p = s) by (unfold s, e13; ring).
    assert (X4 : e23 p = - (c * sin a1)) by (rewrite S1; unfold u', e23; ring).
    assert (X5 : e33 p = c * cos a1) by (rewrite C1; unfold v', e33; ring).
    rewrite X1, X2, X3, X4, X5. pose proof (sin2_cos2 a1) as Y1. pose proof (sin2_cos2 a3) as Y3. unfold Rsqr in *.
    split; [transitivity (c * (sin a3 * sin a3 + cos a3 * cos a3)); [ring|rewrite Y3; ring]|].
    split; [ring|]. split; auto. split; [ring|].
    transitivity (c * (sin a1 * sin a1 + cos a1 * cos a1)); [ring|rewrite Y1; ring]. }
  destruct T0 as (T1 & T2 & T3 & T4 & T5). unfold e11, e12, e13, e23, e33 in *.
  assert (TN : qw t * qw t + qx t * qx t + qy t * qy t + qz t * qz t = 1) by exact TU.
  assert (Z : qx t = 0 /\ qz t = 0).
  { clear - T1 T2 T3 T4 T5 TN P0. destruct t as [w x y z]. cbn [qw qx qy qz] in *.
    assert (XZ : (x - z) * (x + z) = 0) by lra.
    apply Rmult_integral in XZ. destruct XZ as [XZ|XZ].
    - assert (z = x) by lra. subst z. assert (x * (y - w) = 0) by lra. apply Rmult_integral in H. destruct H as [H|H]; [auto|].
      exfalso. assert (y = w) by lra. subst y. nra.
    - assert (z = - x) by lra. subst z. assert (x * (y + w) = 0) by lra. apply Rmult_integral in H. destruct H as [H|H]; [subst; split; lra|].
      exfalso. assert (y = - w) by lra. subst y. nra. }
  destruct Z as [Z1 Z2]. rewrite Z1, Z2 in *.
  destruct (sum_sq_half (qw t) (qy t) a2) as [[W Y]|[W Y]]; try lra.
  - left. rewrite euler_composition, !rot_axis_unit by auto. rewrite TE, !qinv_mul, !rot_inv.
    assert (t = rot y_unit (a2 / 2)) as ->.
    { destruct t as [w x y z]. cbn [qw qx qy qz] in *. subst. unfold rot. vunfold. f_equal; ring. }
    rewrite !rot_inv, qmul_assoc. f_equal; [f_equal|]; f_equal; field.
  - right. rewrite euler_composition, !rot_axis_unit by auto. rewrite TE, !qinv_mul, !rot_inv.
    assert (t = qneg (rot y_unit (a2 / 2))) as ->.
    { destruct t as [w x y z]. cbn [qw qx qy qz] in *. subst. unfold rot. vunfold. f_equal; ring. }
    replace (qinv (qneg (rot y_unit (a2 / 2)))) with (qneg (rot y_unit (- (a2 / 2)))) by (rewrite <- rot_inv; vring).
    rewrite qmul_neg_r, qmul_neg_l, qneg_neg, qmul_assoc. f_equal; [f_equal|]; f_equal; field.
Qed.

(** ** Low-pass filter *)
Lemma quat_rot_axis_0 n : quat_rot_axis n 0 = qone.
Proof.
  unfold quat_rot_axis. cbv zeta. replace (-0 / 2) with 0 by field. rewrite cos_0, sin_0. unfold qone. f_equal; ring.
Qed.

(** One step: along the shortest rotation from [y] to [x], by the fraction [alpha] of the angle. *)
Lemma lowpass_step_spec alpha y x : qunit y -> qunit x ->
  lowpass_step alpha y x = y /\ vclose0 (qvec (qmul x (qinv y))) \/
  exists n a, dot n n = 1 /\ 0 <= a <= PI /\
    (qmul (quat_rot_axis n a) y = x \/ qmul (quat_rot_axis n a) y = qneg x) /\
    lowpass_step alpha y x = qmul (quat_rot_axis n (a * alpha)) y.
Proof.
  intros Hy Hx. assert (HE : qunit (qmul x (qinv y))) by auto using qunit_mul, qunit_inv.
  unfold lowpass_step. cbv zeta. destruct (vclose0_dec (qvec (qmul x (qinv y)))) as [C|C].
  - left. split; auto. unfold quat_to_rot_axis. rewrite quat_angle_close by auto. destruct (Rlt_dec (- 0) 0); [lra|].
    replace (- 0 * alpha) with 0 by ring. rewrite quat_rot_axis_0. apply qmul_1_l.
  - right. pose proof (axis_angle_roundtrip _ HE C) as RT. pose proof (safe_normalize_unit _ C) as UN.
    unfold quat_to_rot_axis in *. set (n := safe_normalize (qvec (qmul x (qinv y)))) in *.
    pose proof (wrap_range (2 * arctan2 (safe_norm (qvec (qmul x (qinv y)))) (qw (qmul x (qinv y))))) as B.
    change (- PI <= quat_angle (qmul x (qinv y)) < PI) in B. set (a := quat_angle (qmul x (qinv y))) in *. clearbody n a.
    assert (RT' : qmul (quat_rot_axis n (- a)) y = x \/ qmul (quat_rot_axis n (- a)) y = qneg x).
    { destruct RT as [->| ->]; [left|right]; rewrite ?qmul_neg_l, <- qmul_assoc, qmul_inv_l, qmul_1_r by auto; auto. }
    destruct (Rlt_dec (- a) 0) as [L|L].
    + exists (vneg n), (- - a). split; [replace (dot (vneg n) (vneg n)) with (dot n n) by vring; auto|]. split; [lra|]. split; [|reflexivity].
      assert (UN' : dot (vneg n) (vneg n) = 1) by (replace (dot (vneg n) (vneg n)) with (dot n n) by vring; auto).
      rewrite rot_axis_unit in * by auto. rewrite rot_neg. replace (- (- - - a / 2)) with (- - a / 2) by field. auto.
    + exists n, (- a). split; auto. split; [lra|]. auto.
Qed.
Lemma lowpass_step_unit alpha y x : qunit y -> qunit x -> qunit (lowpass_step alpha y x).
Proof.
  intros Hy Hx. destruct (lowpass_step_spec alpha y x Hy Hx) as [[-> _]|(n & a & U & _ & _ & ->)]; auto.
  apply qunit_mul; auto. rewrite rot_axis_unit by auto. now apply rot_unit.
Qed.
Lemma lowpass_step_const alpha y : qunit y -> lowpass_step alpha y y = y.
Proof.
  intros Hy. unfold lowpass_step. rewrite qmul_inv_r by auto. cbv zeta. unfold quat_to_rot_axis.
  rewrite quat_angle_close by (apply qunit_one || apply vclose0_zero). destruct (Rlt_dec (- 0) 0); [lra|].
  replace (- 0 * alpha) with 0 by ring. rewrite quat_rot_axis_0. apply qmul_1_l.
Qed.
Lemma lowpass_loop_unit alpha xs : forall y, qunit y -> Forall qunit xs -> Forall qunit (lowpass_loop alpha y xs).
Proof.
  induction xs as [|x xs IH]; intros y Hy H; cbn; constructor; inversion H; subst.
  - now apply lowpass_step_unit.
  - apply IH; auto. now apply lowpass_step_unit.
Qed.
Lemma lowpass_loop_length alpha xs : forall y, length (lowpass_loop alpha y xs) = length xs.
Proof. induction xs; intros y; cbn; auto. Qed.
Lemma lowpass_loop_const alpha y n : qunit y -> lowpass_loop alpha y (repeat y n) = repeat y n.
Proof. intros H. induction n; cbn [lowpass_loop repeat]; auto. cbv zeta. rewrite lowpass_step_const by auto. now rewrite IHn. Qed.
Lemma qnormalize_unit_id q : qunit q -> qnormalize q = q.
Proof. unfold qunit, qnormalize. intros ->. rewrite sqrt_1, Rinv_1. apply qscale_1. Qed.
Lemma map_qnormalize l : Forall qunit l -> map qnormalize l = l.
Proof. induction 1; cbn; auto. now rewrite qnormalize_unit_id, IHForall. Qed.
Lemma lowpass_pass_unit c f qs : Forall qunit qs -> Forall qunit (lowpass_pass c f qs) /\
  length (lowpass_pass c f qs) = length qs /\ nth_error (lowpass_pass c f qs) 0 = nth_error qs 0.
Proof.
  intros H. unfold lowpass_pass. cbv zeta. destruct qs as [|q0 r]; [auto|]. inversion H; subst.
  assert (F : Forall qunit (q0 :: lowpass_loop (2 * PI * c / f / (1 + 2 * PI * c / f)) q0 r)).
  { constructor; auto. now apply lowpass_loop_unit. }
  rewrite map_qnormalize by auto. split; auto. cbn. now rewrite lowpass_loop_length.
Qed.
Lemma lowpass_pass_const c f q n : qunit q -> lowpass_pass c f (repeat q n) = repeat q n.
Proof.
  intros H. destruct n; cbn [repeat lowpass_pass]; auto. rewrite lowpass_loop_const by auto. apply map_qnormalize.
  change (q :: repeat q n) with (repeat q (S n)). apply Forall_forall. intros x Hx. apply repeat_spec in Hx. now subst.
Qed.
Lemma rev_repeat {A} (x : A) n : rev (repeat x n) = repeat x n.
Proof.
  induction n; cbn; auto. rewrite IHn. clear. induction n; cbn; auto. now rewrite IHn.
Qed.

(** ** A lower bound of the sine *)
Lemma sin_lower x : 0 <= x <= PI / 2 -> 5 / 6 * Rmin x 1 <= sin x.
Proof.
  intros H. assert (S1 : forall y, 0 <= y <= 1 -> 5 / 6 * y <= sin y).
  { intros y Hy. pose proof PI2_1 as P1. destruct (sin_bound y 0) as [L _]; [lra|lra|].
    unfold sin_approx, sin_term in L. cbn in L. nra. }
  unfold Rmin. destruct (Rle_dec x 1); [apply S1; lra|].
  apply Rle_trans with (sin 1); [specialize (S1 1); lra|]. pose proof PI_pos. apply sin_incr_1; lra.
Qed.
