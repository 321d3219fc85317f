(** * Angles: wrap_to_pi, arctan2, axis-angle quaternions. *)
From Coq Require Import Reals Lra Lia ZArith List Nsatz.
From Verif Require Import M_Math P_Math.
Local Open Scope R_scope.

Lemma PI_pos : 0 < PI. Proof. apply PI_RGT_0. Qed.

(** ** Periodicity over the integers *)
Lemma cos_periodZ x k : cos (x + 2 * IZR k * PI) = cos x.
Proof.
  destruct (Z.le_gt_cases 0 k).
  - rewrite <- (Z2Nat.id k), <- INR_IZR_INZ by auto. apply cos_period.
  - rewrite <- (cos_period (x + 2 * IZR k * PI) (Z.to_nat (- k))). f_equal.
    rewrite INR_IZR_INZ, Z2Nat.id, opp_IZR by lia. ring.
Qed.
Lemma sin_periodZ x k : sin (x + 2 * IZR k * PI) = sin x.
Proof.
  destruct (Z.le_gt_cases 0 k).
  - rewrite <- (Z2Nat.id k), <- INR_IZR_INZ by auto. apply sin_period.
  - rewrite <- (sin_period (x + 2 * IZR k * PI) (Z.to_nat (- k))). f_equal.
    rewrite INR_IZR_INZ, Z2Nat.id, opp_IZR by lia. ring.
Qed.

(** An angle is determined by its cosine and sine up to full turns. *)
Lemma same_angle a b : cos a = cos b -> sin a = sin b -> - (2 * PI) < a - b < 2 * PI -> a = b.
Proof.
  intros C S H.
  assert (E : cos (a - b) = 1).
  { rewrite cos_minus, C, S. pose proof (sin2_cos2 b) as X. unfold Rsqr in X. lra. }
  assert (E2 : sin ((a - b) / 2) = 0).
  { replace (a - b) with (2 * ((a - b) / 2)) in E by field. rewrite cos_2a_sin in E. nra. }
  destruct (Rtotal_order a b) as [L|[E3|L]]; auto; exfalso.
  - assert (0 < sin ((b - a) / 2)) by (apply sin_gt_0; lra).
    replace ((b - a) / 2) with (- ((a - b) / 2)) in H0 by field. rewrite sin_neg in H0. lra.
  - assert (0 < sin ((a - b) / 2)) by (apply sin_gt_0; lra). lra.
Qed.

(** ** wrap_to_pi *)
Lemma wrap_range x : - PI <= wrap_to_pi x < PI.
Proof.
  unfold wrap_to_pi, fmod. destruct (base_Int_part ((x + PI) / (2 * PI))) as [A B].
  set (k := IZR (Int_part ((x + PI) / (2 * PI)))) in *. pose proof PI_pos.
  assert (E : x + PI = (x + PI) / (2 * PI) * (2 * PI)) by (field; lra).
  set (u := (x + PI) / (2 * PI)) in *. split; nra.
Qed.
Lemma wrap_congruent x : exists k, wrap_to_pi x = x + 2 * IZR k * PI.
Proof.
  unfold wrap_to_pi, fmod. exists (- Int_part ((x + PI) / (2 * PI)))%Z. rewrite opp_IZR. ring.
Qed.
Lemma cos_wrap x : cos (wrap_to_pi x) = cos x.
Proof. destruct (wrap_congruent x) as [k ->]. apply cos_periodZ. Qed.
Lemma sin_wrap x : sin (wrap_to_pi x) = sin x.
Proof. destruct (wrap_congruent x) as [k ->]. apply sin_periodZ. Qed.
Lemma wrap_unique x y k : - PI <= y < PI -> y = x + 2 * IZR k * PI -> wrap_to_pi x = y.
Proof.
  intros H E. pose proof (wrap_range x). apply same_angle; [| |lra].
  - rewrite cos_wrap, E. symmetry. apply cos_periodZ.
  - rewrite sin_wrap, E. symmetry. apply sin_periodZ.
Qed.
Lemma wrap_id x : - PI <= x < PI -> wrap_to_pi x = x.
Proof. intros H. apply (wrap_unique x x 0); auto. simpl. ring. Qed.
Lemma wrap_2PI : wrap_to_pi (2 * PI) = 0.
Proof. pose proof PI_pos. apply (wrap_unique _ _ (-1)); [lra|]. simpl. ring. Qed.
Lemma wrap_0 : wrap_to_pi 0 = 0.
Proof. pose proof PI_pos. apply wrap_id. lra. Qed.

(** ** arctan2 *)
Lemma sqrt_sq_pos x : 0 < x -> sqrt (x * x) = x.
Proof. intros H. replace (x * x) with (Rsqr x) by reflexivity. apply sqrt_Rsqr. lra. Qed.

Lemma atan_polar y x : x <> 0 ->
  cos (atan (y / x)) = Rabs x / sqrt (x * x + y * y) /\ sin (atan (y / x)) = y / x * (Rabs x / sqrt (x * x + y * y)).
Proof.
  intros H.
  assert (E : 1 + Rsqr (y / x) = (x * x + y * y) / (x * x)) by (unfold Rsqr; field; auto).
  assert (P : 0 < x * x) by nra. assert (0 < sqrt (x * x + y * y)) by (apply sqrt_lt_R0; nra).
  assert (S : sqrt (1 + Rsqr (y / x)) = sqrt (x * x + y * y) / Rabs x).
  { rewrite E, sqrt_div_alt by auto. f_equal. replace (x * x) with (Rsqr x) by reflexivity. apply sqrt_Rsqr_abs. }
  assert (Rabs x <> 0) by now apply Rabs_no_R0.
  rewrite cos_atan, sin_atan, S. split; field; lra.
Qed.

Lemma arctan2_spec y x : x * x + y * y <> 0 ->
  sqrt (x * x + y * y) * cos (arctan2 y x) = x /\ sqrt (x * x + y * y) * sin (arctan2 y x) = y /\
  - PI < arctan2 y x <= PI.
Proof.
  intros N. pose proof PI_pos as PP. assert (SP : 0 < sqrt (x * x + y * y)) by (apply sqrt_lt_R0; nra).
  unfold arctan2. pose proof (atan_bound (y / x)) as AB.
  destruct (Rlt_dec 0 x) as [X|X]; [|destruct (Rlt_dec x 0) as [X'|X']].
  - destruct (atan_polar y x) as [C S]; [lra|]. rewrite C, S, Rabs_right by lra. split; [|split]; [field; lra|field; lra|lra].
  - destruct (atan_polar y x) as [C S]; [lra|]. rewrite Rabs_left in C, S by auto.
    destruct (Rle_dec 0 y) as [Y|Y].
    + rewrite neg_cos, neg_sin, C, S. split; [field; lra|]. split; [field; lra|].
      assert (atan (y / x) <= 0).
      { destruct (Rle_lt_or_eq_dec 0 y Y) as [L|<-].
        - left. rewrite <- atan_0. apply atan_increasing. unfold Rdiv. pose proof (Rinv_lt_0_compat x X'). nra.
        - unfold Rdiv. rewrite Rmult_0_l, atan_0. lra. }
      lra.
    + replace (atan (y / x) - PI) with (- (- atan (y / x) + PI)) by ring.
      rewrite cos_neg, sin_neg, neg_cos, neg_sin, cos_neg, sin_neg, C, S. split; [field; lra|]. split; [field; lra|].
      assert (0 < atan (y / x)).
      { rewrite <- atan_0. apply atan_increasing. unfold Rdiv. pose proof (Rinv_lt_0_compat x X'). nra. }
      lra.
  - assert (x = 0) by lra. subst x. replace (0 * 0 + y * y) with (y * y) in * by ring.
    destruct (Rlt_dec 0 y) as [Y|Y]; [|destruct (Rlt_dec y 0) as [Y'|Y']; [|exfalso; apply N; assert (y = 0) by lra; subst; ring]].
    + rewrite cos_PI2, sin_PI2, sqrt_sq_pos by auto. lra.
    + rewrite cos_neg, sin_neg, cos_PI2, sin_PI2. replace (y * y) with ((- y) * (- y)) by ring. rewrite sqrt_sq_pos by lra. lra.
Qed.

(** On the unit circle. *)
Lemma arctan2_unit y x : x * x + y * y = 1 -> cos (arctan2 y x) = x /\ sin (arctan2 y x) = y /\ - PI < arctan2 y x <= PI.
Proof.
  intros E. destruct (arctan2_spec y x) as (C & S & B); [lra|]. rewrite E, sqrt_1 in C, S. split; [lra|split; [lra|lra]].
Qed.
Lemma arctan2_cos_sin r a : 0 < r -> - PI < a <= PI -> arctan2 (r * sin a) (r * cos a) = a.
Proof.
  intros R H. pose proof (sin2_cos2 a) as X. unfold Rsqr in X.
  assert (E : r * cos a * (r * cos a) + r * sin a * (r * sin a) = r * r) by nra.
  destruct (arctan2_spec (r * sin a) (r * cos a)) as (C & S & B); [nra|].
  rewrite E, sqrt_sq_pos in C, S by auto. apply same_angle; [| |lra].
  - apply Rmult_eq_reg_l with r; lra.
  - apply Rmult_eq_reg_l with r; lra.
Qed.
Lemma arctan2_00 : arctan2 0 0 = 0.
Proof. unfold arctan2. destruct (Rlt_dec 0 0); lra. Qed.
Lemma arctan2_nonneg y x : 0 <= y -> 0 <= arctan2 y x.
Proof.
  intros H. unfold arctan2. pose proof PI_pos. pose proof (atan_bound (y / x)).
  destruct (Rlt_dec 0 x).
  - destruct (Req_dec y 0) as [->|]; [unfold Rdiv; rewrite Rmult_0_l, atan_0; lra|].
    left. rewrite <- atan_0. apply atan_increasing. apply Rdiv_lt_0_compat; lra.
  - destruct (Rlt_dec x 0); [destruct (Rle_dec 0 y); lra|]. destruct (Rlt_dec 0 y); [lra|]. destruct (Rlt_dec y 0); lra.
Qed.

(** ** Normalisation *)
Lemma atol_pos : 0 < atol. Proof. unfold atol. apply Rinv_0_lt_compat. lra. Qed.
Lemma atol_small : atol < 1 / 1000. Proof. unfold atol. lra. Qed.
Lemma vclose0_zero : vclose0 vzero.
Proof. pose proof atol_pos. unfold vclose0, close0. simpl. rewrite Rabs_R0. lra. Qed.
Lemma not_close_norm a : ~ vclose0 a -> 0 < vnorm a.
Proof.
  intros H. apply sqrt_lt_R0. pose proof (dot_nonneg a). destruct (Req_dec (dot a a) 0) as [E|E]; [|lra].
  apply dot_0 in E. subst. exfalso. apply H. apply vclose0_zero.
Qed.
Lemma unit_not_close a : dot a a = 1 -> ~ vclose0 a.
Proof.
  intros H (A & B & C). unfold close0 in *. pose proof atol_small. pose proof atol_pos.
  assert (S : forall x, Rabs x <= atol -> x * x <= 1 / 1000).
  { intros x Hx. assert (-atol <= x <= atol) by (unfold Rabs in Hx; destruct (Rcase_abs x); lra). nra. }
  apply S in A, B, C. destruct a as [x y z]. vunfold. lra.
Qed.
Lemma vnorm_unit a : dot a a = 1 -> vnorm a = 1.
Proof. intros H. unfold vnorm. rewrite H. apply sqrt_1. Qed.
Lemma safe_normalize_unit_id a : dot a a = 1 -> safe_normalize a = a.
Proof.
  intros H. unfold safe_normalize. destruct (vclose0_dec a) as [C|C]; [exfalso; now apply (unit_not_close a)|].
  rewrite vnorm_unit by auto. rewrite Rinv_1. apply vscale_1.
Qed.
Lemma vnorm_sq a : vnorm a * vnorm a = dot a a.
Proof. unfold vnorm. apply sqrt_sqrt. apply dot_nonneg. Qed.
Lemma safe_normalize_unit a : ~ vclose0 a -> dot (safe_normalize a) (safe_normalize a) = 1.
Proof.
  intros H. unfold safe_normalize. destruct (vclose0_dec a); [contradiction|]. pose proof (not_close_norm a H).
  pose proof (vnorm_sq a).
  replace (dot (vscale (/ vnorm a) a) (vscale (/ vnorm a) a)) with (/ vnorm a * / vnorm a * dot a a) by vring.
  rewrite <- H1. field. lra.
Qed.
Lemma safe_normalize_close a : vclose0 a -> safe_normalize a = vzero.
Proof. intros H. unfold safe_normalize. destruct (vclose0_dec a); tauto. Qed.
Lemma safe_normalize_far a : ~ vclose0 a -> a = vscale (vnorm a) (safe_normalize a).
Proof.
  intros H. unfold safe_normalize. destruct (vclose0_dec a); [contradiction|]. pose proof (not_close_norm a H).
  rewrite vscale_vscale, Rinv_r, vscale_1 by lra. reflexivity.
Qed.
Lemma vclose0_neg a : vclose0 (vneg a) <-> vclose0 a.
Proof. unfold vclose0, close0. simpl. rewrite !Rabs_Ropp. tauto. Qed.
Lemma vnorm_neg a : vnorm (vneg a) = vnorm a.
Proof. unfold vnorm. f_equal. vring. Qed.
Lemma safe_normalize_neg a : safe_normalize (vneg a) = vneg (safe_normalize a).
Proof.
  unfold safe_normalize. destruct (vclose0_dec (vneg a)) as [C|C], (vclose0_dec a) as [D|D].
  - vring.
  - exfalso. now apply D, vclose0_neg.
  - exfalso. now apply C, vclose0_neg.
  - rewrite vnorm_neg. vring.
Qed.
Lemma vnorm_scale c a : vnorm (vscale c a) = Rabs c * vnorm a.
Proof.
  unfold vnorm. replace (dot (vscale c a) (vscale c a)) with (Rsqr c * dot a a) by (unfold Rsqr; vring).
  rewrite sqrt_mult_alt by apply Rle_0_sqr. now rewrite sqrt_Rsqr_abs.
Qed.

(** ** Axis-angle quaternions *)
Definition rot (n : vec3) (h : R) : quat := Q4 (cos h) (sin h * vx n) (sin h * vy n) (sin h * vz n).
Lemma rot_axis_unit n a : dot n n = 1 -> quat_rot_axis n a = rot n (- a / 2).
Proof. intros H. unfold quat_rot_axis. rewrite safe_normalize_unit_id by auto. reflexivity. Qed.
Lemma rot_unit n h : dot n n = 1 -> qunit (rot n h).
Proof.
  intros H. unfold qunit, rot. pose proof (sin2_cos2 h) as X. unfold Rsqr in X. destruct n as [x y z]. vunfold.
  transitivity (cos h * cos h + sin h * sin h * (x * x + y * y + z * z)); [ring|]. rewrite H. lra.
Qed.
Lemma rot_add n a b : dot n n = 1 -> qmul (rot n a) (rot n b) = rot n (a + b).
Proof.
  intros H. unfold rot. rewrite cos_plus, sin_plus. destruct n as [x y z]. vunfold. f_equal; try ring.
  transitivity (cos a * cos b - sin a * sin b * (x * x + y * y + z * z)); [ring|]. rewrite H. ring.
Qed.
Lemma rot_0 n : rot n 0 = qone.
Proof. unfold rot. rewrite cos_0, sin_0. destruct n. vunfold. f_equal; ring. Qed.
Lemma rot_inv n a : qinv (rot n a) = rot n (- a).
Proof. unfold rot. rewrite cos_neg, sin_neg. vring. Qed.
Lemma rot_neg n a : rot (vneg n) a = rot n (- a).
Proof. unfold rot. rewrite cos_neg, sin_neg. vring. Qed.
Lemma rot_PI n a : rot n (a + PI) = qneg (rot n a).
Proof. unfold rot. rewrite neg_cos, neg_sin. vring. Qed.
(** The rotation by quat_rot_axis of either a normalised or a degenerate axis is a unit quaternion when the
    axis is not degenerate. *)
Lemma quat_rot_axis_unit a h : ~ vclose0 a -> qunit (quat_rot_axis a h).
Proof. intros H. apply (rot_unit (safe_normalize a)). now apply safe_normalize_unit. Qed.

(** Rodrigues' formula. *)
Lemma rotate_rot n h v : dot n n = 1 ->
  rotate v (rot n h) = vadd (vadd (vscale (cos (2 * h)) v) (vscale (sin (2 * h)) (cross n v)))
                            (vscale ((1 - cos (2 * h)) * dot n v) n).
Proof.
  intros H. rewrite cos_2a, sin_2a. pose proof (sin2_cos2 h) as X. unfold Rsqr in X.
  unfold rot. set (c := cos h) in *. set (s := sin h) in *. clearbody c s.
  destruct n as [x y z], v as [a b d]. vunfold. f_equal; nsatz.
Qed.

(** Polar form of a unit quaternion. *)
Lemma qunit_polar q : qunit q -> qw q * qw q + vnorm (qvec q) * vnorm (qvec q) = 1.
Proof. intros H. rewrite vnorm_sq. unfold qunit in H. destruct q. vunfold. lra. Qed.
Lemma vnorm_nonneg a : 0 <= vnorm a. Proof. apply sqrt_pos. Qed.

Lemma quat_angle_far q : qunit q -> ~ vclose0 (qvec q) ->
  exists al, 0 < al < PI /\ cos al = qw q /\ sin al = vnorm (qvec q) /\ quat_angle q = wrap_to_pi (2 * al) /\
    q = rot (safe_normalize (qvec q)) al.
Proof.
  intros H N. pose proof (qunit_polar q H) as P. pose proof (not_close_norm _ N) as NP.
  destruct (arctan2_unit _ _ P) as (C & S & B). exists (arctan2 (vnorm (qvec q)) (qw q)).
  pose proof (arctan2_nonneg (vnorm (qvec q)) (qw q) (vnorm_nonneg _)) as Q.
  split; [|split; [|split; [|split]]]; auto.
  - split.
    + destruct Q as [Q|Q]; auto. rewrite <- Q, sin_0 in S. lra.
    + destruct B as [_ [B|B]]; auto. rewrite B, sin_PI in S. lra.
  - unfold quat_angle, safe_norm. destruct (vclose0_dec (qvec q)); [contradiction|]. reflexivity.
  - unfold rot. rewrite C, S. pose proof (safe_normalize_far _ N) as F.
    destruct q as [w x y z]. unfold qvec in *. cbn [qw qx qy qz vx vy vz] in *.
    set (n := safe_normalize (V3 x y z)) in *. clearbody n. destruct n as [a b c].
    unfold vscale in F. cbn [vx vy vz] in F. injection F as F1 F2 F3. cbn [vx vy vz]. f_equal; assumption.
Qed.
Lemma quat_angle_close q : qunit q -> vclose0 (qvec q) -> quat_angle q = 0.
Proof.
  intros H N. unfold quat_angle, safe_norm. destruct (vclose0_dec (qvec q)); [|contradiction].
  destruct (Rlt_dec 0 (qw q)) as [W|W].
  - unfold arctan2. destruct (Rlt_dec 0 (qw q)); [|contradiction]. unfold Rdiv. rewrite Rmult_0_l, atan_0, Rmult_0_r. apply wrap_0.
  - assert (qw q < 0).
    { destruct (Req_dec (qw q) 0) as [E|E]; [|lra]. exfalso. apply (unit_not_close (qvec q)); auto.
      unfold qunit in H. destruct q. vunfold. rewrite E in H. lra. }
    unfold arctan2. destruct (Rlt_dec 0 (qw q)); [contradiction|]. destruct (Rlt_dec (qw q) 0); [|contradiction].
    destruct (Rle_dec 0 0); [|lra]. unfold Rdiv. rewrite Rmult_0_l, atan_0. rewrite Rplus_0_l. apply wrap_2PI.
Qed.

(** Axis and angle extracted from [q] rebuild [q] or [-q]. *)
Lemma axis_angle_roundtrip q : qunit q -> ~ vclose0 (qvec q) ->
  let '(n, a) := quat_to_rot_axis q in quat_rot_axis n a = q \/ quat_rot_axis n a = qneg q.
Proof.
  intros H N. unfold quat_to_rot_axis. destruct (quat_angle_far q H N) as (al & B & C & S & A & E).
  pose proof (safe_normalize_unit _ N) as U. rewrite rot_axis_unit, Ropp_involutive, A by auto.
  pose proof PI_pos. destruct (Rlt_dec al (PI / 2)) as [L|L].
  - left. rewrite wrap_id by lra. replace (2 * al / 2) with al by field. auto.
  - right. rewrite (wrap_unique (2 * al) (2 * al - 2 * PI) (-1)) by (simpl; lra).
    rewrite E at 2. replace (qneg (rot (safe_normalize (qvec q)) al)) with (rot (safe_normalize (qvec q)) (al - PI)); [f_equal; field|].
    rewrite <- (qneg_neg (rot _ (al - PI))), <- rot_PI. do 2 f_equal. ring.
Qed.
