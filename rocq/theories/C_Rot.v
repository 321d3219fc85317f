(** * C21-C26, C56: angles, axis-angle form, projections, heading, filtering, Euler angles. *)
From Coq Require Import Reals Lra Lia ZArith List.
From Verif Require Import M_Math P_Math P_Trig P_Rot.
Import ListNotations.
Local Open Scope R_scope.

(** ** C21 *)
Theorem C21_wrap_to_pi phi :
  - PI <= wrap_to_pi phi < PI /\ (exists k : Z, wrap_to_pi phi = phi + 2 * IZR k * PI) /\
  (- PI <= phi < PI -> wrap_to_pi phi = phi) /\ wrap_to_pi (wrap_to_pi phi) = wrap_to_pi phi.
Proof. auto using wrap_range, wrap_congruent, wrap_id, wrap_idem. Qed.
(** ... and these facts determine it. *)
Theorem C21_wrap_unique phi y (k : Z) : - PI <= y < PI -> y = phi + 2 * IZR k * PI -> wrap_to_pi phi = y.
Proof. apply wrap_unique. Qed.
Example C21_example : wrap_to_pi (7 * PI / 2) = - (PI / 2) /\ wrap_to_pi PI = - PI.
Proof.
  pose proof PI_pos. split; [apply (wrap_unique _ _ (-2)); simpl; lra|apply (wrap_unique _ _ (-1)); simpl; lra].
Qed.

(** ** C22 *)
(** quat_rot_axis yields unit quaternions; by its convention it rotates vectors by minus the angle (Rodrigues). *)
Theorem C22_rot_axis_unit n a : dot n n = 1 -> qunit (quat_rot_axis n a) /\
  forall v, rotate v (quat_rot_axis n a) =
    vadd (vadd (vscale (cos (- a)) v) (vscale (sin (- a)) (cross n v))) (vscale ((1 - cos (- a)) * dot n v) n).
Proof.
  intros H. rewrite rot_axis_unit by auto. split; [now apply rot_unit|]. intros v. rewrite rotate_rot by auto.
  replace (2 * (- a / 2)) with (- a) by field. reflexivity.
Qed.
Theorem C22_rot_axis_unit_any n a : ~ vclose0 n -> qunit (quat_rot_axis n a).
Proof. apply quat_rot_axis_unit. Qed.

(** Quaternion to axis-angle and back, exactly, unless the vector part is numerically zero. *)
Theorem C22_quat_roundtrip q : qunit q -> ~ vclose0 (qvec q) ->
  let '(n, a) := quat_to_rot_axis q in
  dot n n = 1 /\ - PI < a <= PI /\ (quat_rot_axis n a = q \/ quat_rot_axis n a = qneg q).
Proof.
  intros H N. pose proof (axis_angle_roundtrip q H N) as E. unfold quat_to_rot_axis in *. split; [now apply safe_normalize_unit|].
  split; auto. pose proof (wrap_range (2 * arctan2 (safe_norm (qvec q)) (qw q))). unfold quat_angle. lra.
Qed.

(** For every unit quaternion up to the zero tolerance of 1e-8. *)
Definition qnear (e : R) (p q : quat) : Prop :=
  Rabs (qw p - qw q) <= e /\ Rabs (qx p - qx q) <= e /\ Rabs (qy p - qy q) <= e /\ Rabs (qz p - qz q) <= e.
Lemma qnear_refl e q : 0 <= e -> qnear e q q.
Proof. intros H. unfold qnear. rewrite !Rminus_eq_0, Rabs_R0. auto. Qed.
Theorem C22_quat_roundtrip_all q : qunit q ->
  let '(n, a) := quat_to_rot_axis q in
  qnear atol (quat_rot_axis n a) q \/ qnear atol (quat_rot_axis n a) (qneg q).
Proof.
  intros H. pose proof atol_pos as AP. pose proof atol_small as AS. destruct (vclose0_dec (qvec q)) as [C|C].
  - unfold quat_to_rot_axis. rewrite quat_angle_close, Ropp_0, quat_rot_axis_0 by auto.
    destruct q as [w x y z]. destruct C as (C1 & C2 & C3). unfold close0, qvec in *. cbn [vx vy vz qw qx qy qz] in *.
    unfold qunit in H. vunfold.
    assert (Sq : forall u, Rabs u <= atol -> u * u <= atol * atol).
    { intros u Hu. replace (u * u) with (Rabs u * Rabs u) by (rewrite <- Rabs_mult; apply Rabs_right; nra).
      apply Rmult_le_compat; auto using Rabs_pos. }
    pose proof (Sq _ C1). pose proof (Sq _ C2). pose proof (Sq _ C3).
    assert (AA : atol * atol <= atol / 1000) by nra.
    unfold qnear. cbn [qw qx qy qz]. destruct (Rle_dec 0 w); [left|right]; (split; [|split; [|split]]).
    + assert (w * w <= 1) by nra. assert (w <= 1) by nra. rewrite Rabs_right by lra. nra.
    + replace (0 - x) with (- x) by ring. now rewrite Rabs_Ropp.
    + replace (0 - y) with (- y) by ring. now rewrite Rabs_Ropp.
    + replace (0 - z) with (- z) by ring. now rewrite Rabs_Ropp.
    + assert (-1 <= w) by nra. rewrite Rabs_right by lra. nra.
    + now replace (0 - - x) with x by ring.
    + now replace (0 - - y) with y by ring.
    + now replace (0 - - z) with z by ring.
  - pose proof (axis_angle_roundtrip q H C) as E. unfold quat_to_rot_axis in *. destruct E as [-> | ->]; [left|right]; apply qnear_refl; lra.
Qed.

(** Axis-angle to quaternion and back: the same axis and angle, or both negated. *)
Theorem C22_axis_angle_roundtrip n a : dot n n = 1 -> - PI < a < PI -> ~ vclose0 (qvec (quat_rot_axis n a)) ->
  quat_to_rot_axis (quat_rot_axis n a) = (n, a) \/ quat_to_rot_axis (quat_rot_axis n a) = (vneg n, - a).
Proof. apply axis_angle_of_rot. Qed.

(** quat_angle recovers the wrapped angle, exactly away from zero ... *)
Theorem C22_angle_recovered n a : dot n n = 1 -> ~ vclose0 (qvec (quat_rot_axis n a)) ->
  Rabs (quat_angle (quat_rot_axis n a)) = Rabs (wrap_to_pi a).
Proof. apply quat_angle_rot_axis. Qed.
(** ... and within 5e-8 for every angle. *)
Theorem C22_angle_recovered_all n a : dot n n = 1 ->
  Rabs (Rabs (quat_angle (quat_rot_axis n a)) - Rabs (wrap_to_pi a)) <= 5 * atol.
Proof.
  intros U. pose proof atol_pos as AP. destruct (vclose0_dec (qvec (quat_rot_axis n a))) as [C|C].
  2:{ rewrite quat_angle_rot_axis, Rminus_eq_0, Rabs_R0 by auto. lra. }
  rewrite rot_axis_unit in * by auto. rewrite quat_angle_close by auto using rot_unit. rewrite Rabs_R0.
  rewrite Rminus_0_l, Rabs_Ropp, Rabs_Rabsolu.
  (* the sine of the half angle is small *)
  assert (S : sin (- a / 2) * sin (- a / 2) <= 3 * (atol * atol)).
  { destruct C as (C1 & C2 & C3). unfold close0 in *. rewrite qvec_rot in *.
    assert (Sq : forall u, Rabs u <= atol -> u * u <= atol * atol).
    { intros u Hu. replace (u * u) with (Rabs u * Rabs u) by (rewrite <- Rabs_mult; apply Rabs_right; nra).
      apply Rmult_le_compat; auto using Rabs_pos. }
    apply Sq in C1, C2, C3. destruct n as [x y z]. vunfold. set (s := sin (- a / 2)) in *.
    replace (s * s) with (s * s * (x * x + y * y + z * z)) by (rewrite U; ring). nra. }
  set (w := Rabs (wrap_to_pi a)). pose proof (wrap_abs_le a) as WB. fold w in WB.
  assert (SW : sin (w / 2) * sin (w / 2) = sin (- a / 2) * sin (- a / 2)).
  { assert (X : forall t, sin t * sin t = (1 - cos (2 * t)) / 2) by (intros t; rewrite cos_2a_sin; field).
    rewrite !X. f_equal. f_equal. replace (2 * (w / 2)) with w by field. replace (2 * (- a / 2)) with (- a) by field.
    rewrite cos_neg. unfold w. unfold Rabs. destruct (Rcase_abs (wrap_to_pi a)); rewrite ?cos_neg; apply cos_wrap. }
  assert (0 <= w) by apply Rabs_pos. pose proof (sin_lower (w / 2)) as SL. specialize (SL ltac:(lra)).
  pose proof atol_small. assert (N : 0 <= sin (w / 2)) by (apply sin_ge_0; lra).
  assert (SB : sin (w / 2) <= 2 * atol) by nra.
  unfold Rmin in SL. destruct (Rle_dec (w / 2) 1); lra.
Qed.

(** Exactness does fail near the identity: a rotation by 2e-9 is reported as no rotation at all. *)
Theorem C22_exact_refuted : exists q, qunit q /\
  let '(n, a) := quat_to_rot_axis q in quat_rot_axis n a <> q /\ quat_rot_axis n a <> qneg q.
Proof.
  set (e := / 10 ^ 9). assert (E : 0 < e < 1 / 1000) by (unfold e; split; [apply Rinv_0_lt_compat; lra|lra]).
  exists (Q4 (sqrt (1 - e * e)) e 0 0). assert (S : sqrt (1 - e * e) * sqrt (1 - e * e) = 1 - e * e) by (apply sqrt_sqrt; nra).
  assert (U : qunit (Q4 (sqrt (1 - e * e)) e 0 0)) by (unfold qunit; vunfold; lra). split; auto.
  unfold quat_to_rot_axis. rewrite quat_angle_close; auto.
  - rewrite Ropp_0, quat_rot_axis_0. split; intros H; injection H as _ H; lra.
  - unfold vclose0, close0. cbn. rewrite Rabs_R0, Rabs_right by lra. pose proof atol_pos. unfold atol, e in *. lra.
Qed.

(** The error angle between unit quaternions: in [0, pi], symmetric, blind to the sign of either argument,
    and zero exactly when the two are the same rotation (up to the tolerance). *)
Theorem C22_angle_error p q : qunit p -> qunit q ->
  0 <= angle_error p q <= PI /\ angle_error p q = angle_error q p /\ angle_error p (qneg q) = angle_error p q /\
  angle_error p p = 0 /\ (angle_error p q = 0 -> vclose0 (qvec (qmul (qinv p) q))).
Proof.
  intros Hp Hq. unfold angle_error. assert (U : qunit (qmul (qinv p) q)) by auto using qunit_mul, qunit_inv.
  split; [split; [apply Rabs_pos|apply wrap_abs_le]|]. split; [|split; [|split]].
  - assert (E : qmul (qinv q) p = qinv (qmul (qinv p) q)) by (rewrite qinv_mul, qinv_inv; auto). rewrite E.
    set (r := qmul (qinv p) q) in *. clearbody r. unfold quat_angle. f_equal. f_equal. f_equal.
    unfold safe_norm. destruct (vclose0_dec (qvec r)) as [C|C], (vclose0_dec (qvec (qinv r))) as [D|D].
    + reflexivity.
    + exfalso. apply D. change (qvec (qinv r)) with (vneg (qvec r)). now apply vclose0_neg.
    + exfalso. apply C. change (qvec (qinv r)) with (vneg (qvec r)) in D. now apply vclose0_neg.
    + change (qvec (qinv r)) with (vneg (qvec r)). now rewrite vnorm_neg.
  - rewrite qmul_neg_r. now apply quat_angle_neg.
  - rewrite qmul_inv_l, quat_angle_close by (auto using qunit_one || apply vclose0_zero). apply Rabs_R0.
  - intros Z. destruct (vclose0_dec (qvec (qmul (qinv p) q))) as [C|C]; auto. exfalso.
    destruct (quat_angle_far _ U C) as (al & B & _ & _ & A & _). rewrite A in Z.
    destruct (Rlt_dec al (PI / 2)).
    + rewrite wrap_id in Z by lra. rewrite Rabs_right in Z by lra. lra.
    + rewrite (wrap_unique (2 * al) (2 * al - 2 * PI) (-1)) in Z by (simpl; lra). rewrite Rabs_left in Z by lra. lra.
Qed.

(** quat_angle_constantAxisOverTime: for rotations about a fixed axis the reported angles all use the orientation
    of the axis seen in the first sample. *)
Theorem C22_constant_axis n hs : dot n n = 1 -> (forall h, In h hs -> ~ vclose0 (qvec (rot n h))) ->
  quat_angle_constantAxisOverTime (map (rot n) hs) =
  match hs with
  | [] => []
  | h0 :: _ => map (fun h => if Rlt_dec 0 (sin h0) then (if Rlt_dec 0 (sin h) then wrap_to_pi (2 * h) else - wrap_to_pi (- (2 * h)))
                             else if Rlt_dec (sin h) 0 then wrap_to_pi (- (2 * h)) else - wrap_to_pi (2 * h)) hs
  end.
Proof.
  intros U F. destruct hs as [|h0 hs]; [reflexivity|]. unfold quat_angle_constantAxisOverTime. cbn [map]. cbv zeta.
  assert (N0 : vnorm vzero = 0) by (unfold vnorm; replace (dot vzero vzero) with 0 by vring; apply sqrt_0).
  assert (N2 : vnorm (vscale 2 n) = 2) by (rewrite vnorm_scale, vnorm_unit, Rabs_right by (auto; lra); ring).
  assert (N2' : vnorm (vscale (-2) n) = 2) by (rewrite vnorm_scale, vnorm_unit, Rabs_left by (auto; lra); ring).
  assert (V1 : vsub n n = vzero) by vring. assert (V2 : vadd n n = vscale 2 n) by vring.
  assert (V3 : vsub n (vneg n) = vscale 2 n) by vring. assert (V4 : vadd n (vneg n) = vzero) by vring.
  assert (V5 : vsub (vneg n) n = vscale (-2) n) by vring. assert (V6 : vadd (vneg n) n = vzero) by vring.
  assert (V7 : vsub (vneg n) (vneg n) = vzero) by vring. assert (V8 : vadd (vneg n) (vneg n) = vscale (-2) n) by vring.
  assert (G : forall h, In h (h0 :: hs) ->
    (if Rlt_dec (vnorm (vadd (safe_normalize (qvec (rot n h0))) (safe_normalize (qvec (rot n h)))))
                (vnorm (vsub (safe_normalize (qvec (rot n h0))) (safe_normalize (qvec (rot n h)))))
     then - quat_angle (rot n h) else quat_angle (rot n h)) =
    (if Rlt_dec 0 (sin h0) then (if Rlt_dec 0 (sin h) then wrap_to_pi (2 * h) else - wrap_to_pi (- (2 * h)))
     else if Rlt_dec (sin h) 0 then wrap_to_pi (- (2 * h)) else - wrap_to_pi (2 * h))).
  { intros h Hh. pose proof (F h Hh) as C. pose proof (F h0 (or_introl eq_refl)) as C0.
    destruct (quat_angle_rot n h0 U C0) as [(S0 & _ & ->)|(S0 & _ & ->)], (quat_angle_rot n h U C) as [(S & -> & ->)|(S & -> & ->)];
      rewrite ?V1, ?V2, ?V3, ?V4, ?V5, ?V6, ?V7, ?V8, ?N0, ?N2, ?N2';
      destruct (Rlt_dec 0 (sin h0)), (Rlt_dec 0 (sin h)), (Rlt_dec (sin h) 0); try lra;
      match goal with |- context [Rlt_dec ?a ?b] => destruct (Rlt_dec a b) end; try lra; reflexivity. }
  rewrite map_map. f_equal; [apply G; now left|]. apply map_ext_in. intros h Hh. apply G. now right.
Qed.

(** A concrete rotation: 60 degrees about the diagonal. *)
Example C22_example : let n := V3 (3 / 5) 0 (4 / 5) in
  dot n n = 1 /\ - PI < PI / 3 < PI /\ ~ vclose0 (qvec (quat_rot_axis n (PI / 3))).
Proof.
  pose proof PI_pos. split; [vunfold; field|]. split; [lra|]. rewrite rot_axis_unit by (vunfold; field).
  replace (- (PI / 3) / 2) with (- (PI / 6)) by field. rewrite qvec_rot, sin_neg, sin_PI6. intros (C & _). unfold close0 in C.
  cbn in C. rewrite Rabs_left in C by lra. pose proof atol_small. lra.
Qed.

(** ** C23 *)
(** The angle of the rotation described by a unit quaternion, in [0, pi]. *)
Definition rotation_angle (q : quat) : R := 2 * acos (Rabs (qw q)).
Lemma rotation_angle_code q : qunit q -> ~ vclose0 (qvec q) -> Rabs (quat_angle q) = rotation_angle q.
Proof.
  intros H N. destruct (quat_angle_far q H N) as (al & B & C & S & A & E). rewrite A. unfold rotation_angle. rewrite <- C.
  pose proof PI_pos. destruct (Rlt_dec al (PI / 2)) as [L|L].
  - rewrite wrap_id, Rabs_right by lra. rewrite Rabs_right; [|left; apply cos_gt_0; lra]. rewrite acos_cos by lra. reflexivity.
  - rewrite (wrap_unique (2 * al) (2 * al - 2 * PI) (-1)) by (simpl; lra). rewrite Rabs_left by lra.
    rewrite Rabs_left1 by (apply cos_le_0; lra). rewrite <- Rtrigo_facts.cos_pi_minus, acos_cos by lra. ring.
Qed.

(** [q = residual * rotation about k], and the residual has no component along the axis. *)
Theorem C23_project_split q k : dot k k = 1 ->
  let '(pri, res) := quat_project q k in
  qmul res pri = q /\ (exists phi, - PI < phi / 2 <= PI /\ pri = quat_rot_axis k (- phi)) /\ dot (qvec res) k = 0.
Proof.
  intros U. destruct (quat_project q k) as [pri res] eqn:E. pose proof (project_split q k U). pose proof (project_no_component q k U).
  rewrite E in *. cbn [fst snd] in *. split; auto. split; auto.
  exists (2 * arctan2 (dot (qvec q) k) (qw q)). split.
  - replace (2 * arctan2 (dot (qvec q) k) (qw q) / 2) with (arctan2 (dot (qvec q) k) (qw q)) by field. apply be_range.
  - unfold quat_project in E. cbv zeta in E. now injection E as <- _.
Qed.

(** Among all ways of writing q as a residual times a rotation about k, the returned residual turns least. *)
Theorem C23_project_minimal q k res' phi : qunit q -> dot k k = 1 ->
  q = qmul res' (quat_rot_axis k phi) ->
  qunit (snd (quat_project q k)) /\ rotation_angle (snd (quat_project q k)) <= rotation_angle res'.
Proof.
  intros H U E. rewrite rot_axis_unit in E by auto. pose proof (project_max q k U res' _ (eq_sym E)) as M.
  destruct (project_w q k U) as [W _].
  assert (UR : qunit (snd (quat_project q k))) by (rewrite project_res by auto; apply qunit_mul; auto using rot_unit).
  assert (B : qw (snd (quat_project q k)) <= 1).
  { unfold qunit in UR. destruct (snd (quat_project q k)) as [w x y z]. vunfold. nra. }
  split; auto. unfold rotation_angle. rewrite (Rabs_right (qw (snd _))) by lra.
  pose proof (Rabs_pos (qw res')). apply Rmult_le_compat_l; [lra|].
  destruct (Req_dec (Rabs (qw res')) (qw (snd (quat_project q k)))) as [->|N]; [lra|].
  apply Rnot_lt_le. intros L. assert (X : cos (acos (Rabs (qw res'))) > cos (acos (qw (snd (quat_project q k))))).
  { apply cos_decreasing_1; try apply acos_bound; auto. }
  rewrite !cos_acos in X by lra. lra.
Qed.

(** The axis has to be a unit vector: the projection uses [k] without normalising it, so for a longer axis the
    residual keeps a component along it. *)
Theorem C23_nonunit_axis_refuted : exists q k, qunit q /\ ~ vclose0 k /\
  dot (qvec (snd (quat_project q k))) k <> 0.
Proof.
  set (h := sqrt 2 / 2). assert (E : sqrt 2 * sqrt 2 = 2) by (apply sqrt_sqrt; lra). assert (HP : 0 < sqrt 2) by (apply sqrt_lt_R0; lra).
  set (b := arctan2 (h * sqrt 3) h). assert (E3 : sqrt 3 * sqrt 3 = 3) by (apply sqrt_sqrt; lra). assert (HP3 : 0 < sqrt 3) by (apply sqrt_lt_R0; lra).
  exists (Q4 h 0 0 h), (V3 0 0 (sqrt 3)). split; [unfold qunit, h; vunfold; nra|].
  assert (K : ~ vclose0 (V3 0 0 (sqrt 3))).
  { intros (_ & _ & C). unfold close0 in C. cbn in C. rewrite Rabs_right in C by lra. pose proof atol_small. nra. }
  split; auto. unfold quat_project. cbv zeta. cbn [snd]. unfold quat_rot_axis. cbv zeta.
  assert (N : safe_normalize (V3 0 0 (sqrt 3)) = z_unit).
  { unfold safe_normalize. destruct (vclose0_dec _); [contradiction|]. unfold vnorm.
    replace (dot (V3 0 0 (sqrt 3)) (V3 0 0 (sqrt 3))) with 3 by (vunfold; lra). vunfold. f_equal; try ring. field. lra. }
  rewrite N. replace (dot (qvec (Q4 h 0 0 h)) (V3 0 0 (sqrt 3))) with (h * sqrt 3) by (vunfold; ring). cbn [qw].
  assert (AT : arctan2 (h * sqrt 3) h = PI / 3).
  { assert (P6 : 0 < PI) by apply PI_pos. replace h with (2 * h * cos (PI / 3)) at 2 by (rewrite cos_PI3; field).
    replace (h * sqrt 3) with (2 * h * sin (PI / 3)) by (rewrite sin_PI3; field). apply arctan2_cos_sin; [unfold h; lra|lra]. }
  rewrite AT. replace (- - (2 * (PI / 3)) / 2) with (PI / 3) by field. rewrite cos_PI3, sin_PI3. unfold h. vunfold. intros X.
  assert (Y : sqrt 2 * ((1 - sqrt 3) * sqrt 3) = 0) by lra.
  assert (1 < sqrt 3) by nra. apply Rmult_integral in Y. destruct Y as [Y|Y]; [lra|]. apply Rmult_integral in Y. lra.
Qed.

Example C23_example : let q := euler_to_quat (PI / 3) (PI / 4) (PI / 6) in
  qunit q /\ dot z_unit z_unit = 1 /\ q = qmul q (quat_rot_axis z_unit 0).
Proof.
  split; [apply euler_unit|]. split; [vunfold; ring|]. rewrite quat_rot_axis_0. now rewrite qmul_1_r.
Qed.

(** ** C24 *)
(** [q_to] has a heading: it does not turn the vertical axis upside down. *)
Definition has_heading (q : quat) : Prop := qw q <> 0 \/ qz q <> 0.
Lemma uz : dot z_unit z_unit = 1. Proof. vunfold. ring. Qed.
Lemma dot_z q : dot (qvec q) z_unit = qz q. Proof. destruct q. vunfold. ring. Qed.

Theorem C24_transfer_heading_partial q_from q_to : qunit q_from -> qunit q_to -> has_heading q_to ->
  let q := quat_transfer_heading q_from q_to in
  qunit q /\ fst (quat_project q z_unit) = fst (quat_project q_from z_unit) /\
  snd (quat_project q z_unit) = snd (quat_project q_to z_unit) /\
  quat_headingAngle q = quat_headingAngle q_from /\ quat_inclinationAngle q = quat_inclinationAngle q_to.
Proof.
  intros Hf Ht HH. cbv zeta.
  assert (G : fst (quat_project (quat_transfer_heading q_from q_to) z_unit) = fst (quat_project q_from z_unit) /\
              snd (quat_project (quat_transfer_heading q_from q_to) z_unit) = snd (quat_project q_to z_unit)).
  { unfold quat_transfer_heading. cbv zeta. rewrite (project_pri q_from z_unit uz). set (b := arctan2 (dot (qvec q_from) z_unit) (qw q_from)).
    assert (Bb : - PI < b <= PI) by apply be_range.
    set (r := snd (quat_project q_to z_unit)). pose proof (project_no_component q_to z_unit uz) as NC. fold r in NC.
    destruct (project_w q_to z_unit uz) as [W1 W2]. fold r in W1, W2. rewrite dot_z in W2.
    assert (P : 0 < qw r) by (destruct HH; nra).
    assert (A : arctan2 (dot (qvec (qmul r (rot z_unit b))) z_unit) (qw (qmul r (rot z_unit b))) = b).
    { rewrite (dot_mul_rot r z_unit uz), (qw_mul_rot r z_unit uz), NC.
      replace (qw r * sin b + 0 * cos b) with (qw r * sin b) by ring. replace (qw r * cos b - 0 * sin b) with (qw r * cos b) by ring.
      now apply arctan2_cos_sin. }
    rewrite (project_pri _ z_unit uz), (project_res _ z_unit uz), A. split; auto.
    rewrite <- qmul_assoc, rot_add, Rplus_opp_r, rot_0 by apply uz. apply qmul_1_r. }
  destruct G as [G1 G2]. split; [|split; [auto|split; [auto|]]].
  - unfold quat_transfer_heading. cbv zeta. rewrite (project_pri _ _ uz), (project_res _ _ uz).
    auto using qunit_mul, rot_unit, uz.
  - exact (conj (f_equal quat_angle G1) (f_equal quat_angle G2)).
Qed.

(** The inclination is that of [q_to] in every case. *)
Theorem C24_inclination q_from q_to : qunit q_from -> qunit q_to ->
  quat_inclinationAngle (quat_transfer_heading q_from q_to) = quat_inclinationAngle q_to.
Proof.
  intros Hf Ht. destruct (Req_dec (qw q_to) 0) as [E1|N1]; [destruct (Req_dec (qz q_to) 0) as [E2|N2]|].
  - (* upside down *)
    assert (PR : forall q, qw q = 0 -> qz q = 0 -> qunit q -> quat_inclinationAngle q = - PI).
    { intros q W Z Hq. unfold quat_inclinationAngle. rewrite (project_res _ _ uz), dot_z, W, Z, arctan2_00, Ropp_0, rot_0, qmul_1_r.
      unfold quat_angle. assert (N : vnorm (qvec q) = 1).
      { apply vnorm_unit. unfold qunit in Hq. destruct q. vunfold. rewrite W in Hq. lra. }
      unfold safe_norm. destruct (vclose0_dec (qvec q)) as [C|C].
      - exfalso. apply (unit_not_close (qvec q)); auto. unfold qunit in Hq. destruct q. vunfold. rewrite W in Hq. lra.
      - rewrite N, W. unfold arctan2. destruct (Rlt_dec 0 0); [lra|]. destruct (Rlt_dec 0 1); [|lra].
        pose proof PI_pos. apply (wrap_unique _ _ (-1)); simpl; lra. }
    rewrite (PR q_to) by auto. unfold quat_transfer_heading. cbv zeta. rewrite (project_pri q_from _ uz), (project_res q_to _ uz).
    rewrite dot_z, E1, E2, arctan2_00, Ropp_0, rot_0, qmul_1_r. set (b := arctan2 _ _). apply PR.
    + rewrite (qw_mul_rot _ _ uz), dot_z, E1, E2. ring.
    + rewrite <- dot_z, dot_mul_rot, dot_z, E1, E2 by apply uz. ring.
    + auto using qunit_mul, rot_unit, uz.
  - apply C24_transfer_heading_partial; auto. now right.
  - apply C24_transfer_heading_partial; auto. now left.
Qed.

(** Without a heading in [q_to] the transferred heading is lost: turning the body upside down about x and asking for the
    heading of a quarter turn yields heading zero. *)
Theorem C24_upside_down_refuted : exists q_from q_to, qunit q_from /\ qunit q_to /\
  quat_headingAngle (quat_transfer_heading q_from q_to) <> quat_headingAngle q_from.
Proof.
  pose proof PI_pos as PP. exists (rot z_unit (PI / 4)), (Q4 0 1 0 0). split; [apply rot_unit, uz|]. split; [unfold qunit; vunfold; ring|].
  assert (PF : fst (quat_project (rot z_unit (PI / 4)) z_unit) = rot z_unit (PI / 4)).
  { rewrite (project_pri _ _ uz). f_equal. rewrite dot_z. replace (qz (rot z_unit (PI / 4))) with (1 * sin (PI / 4)) by (unfold rot; vunfold; ring).
    replace (qw (rot z_unit (PI / 4))) with (1 * cos (PI / 4)) by (unfold rot; vunfold; ring). apply arctan2_cos_sin; lra. }
  unfold quat_headingAngle at 2. rewrite PF.
  assert (PT : snd (quat_project (Q4 0 1 0 0) z_unit) = Q4 0 1 0 0).
  { rewrite (project_res _ _ uz), dot_z. cbn [qw qz]. rewrite arctan2_00, Ropp_0, rot_0. apply qmul_1_r. }
  unfold quat_transfer_heading. cbv zeta. rewrite PF, PT. unfold quat_headingAngle. rewrite (project_pri _ _ uz), (dot_mul_rot _ _ uz), (qw_mul_rot _ _ uz), dot_z.
  cbn [qw qz]. replace (0 * sin (PI / 4) + 0 * cos (PI / 4)) with 0 by ring. replace (0 * cos (PI / 4) - 0 * sin (PI / 4)) with 0 by ring.
  rewrite arctan2_00, rot_0, quat_angle_close by (apply qunit_one || apply vclose0_zero).
  destruct (quat_angle_rot z_unit (PI / 4) uz) as [(_ & -> & _)|(S & _)].
  - rewrite qvec_rot. intros (_ & _ & C). unfold close0 in C. cbn in C. rewrite sin_PI4 in C.
    assert (E : sqrt 2 * sqrt 2 = 2) by (apply sqrt_sqrt; lra). assert (0 < sqrt 2) by (apply sqrt_lt_R0; lra). pose proof atol_small.
    rewrite Rabs_right in C; [|apply Rle_ge; rewrite Rmult_1_r; left; apply Rdiv_lt_0_compat; lra].
    assert (1 / sqrt 2 = sqrt 2 / 2) by (field_simplify_eq; [nra|lra]). nra.
  - rewrite wrap_id by lra. lra.
  - exfalso. assert (0 < sin (PI / 4)) by (apply sin_gt_0; lra). lra.
Qed.

Example C24_example : has_heading (euler_to_quat 0 0 (PI / 3)).
Proof.
  left. unfold euler_to_quat. cbv zeta. vunfold. replace (0 / 2) with 0 by field. rewrite cos_0, sin_0.
  assert (0 < cos (PI / 3 / 2)) by (pose proof PI_pos; apply cos_gt_0; lra). lra.
Qed.

(** ** C25 *)
Theorem C25_lowpass cutoff samp filtfilt qs : Forall qunit qs ->
  length (quat_lowpassfilter cutoff samp filtfilt qs) = length qs /\
  Forall qunit (quat_lowpassfilter cutoff samp filtfilt qs).
Proof.
  intros H. destruct (lowpass_pass_unit cutoff samp qs H) as (U & L & _). unfold quat_lowpassfilter. destruct filtfilt; auto.
  destruct (lowpass_pass_unit cutoff samp (rev (lowpass_pass cutoff samp qs))) as (U' & L' & _); [now apply Forall_rev|].
  rewrite rev_length, L', rev_length. split; auto. now apply Forall_rev.
Qed.
Theorem C25_constant cutoff samp filtfilt q n : qunit q ->
  quat_lowpassfilter cutoff samp filtfilt (repeat q n) = repeat q n.
Proof.
  intros H. unfold quat_lowpassfilter. destruct filtfilt; rewrite ?lowpass_pass_const by auto; auto.
  rewrite rev_repeat, lowpass_pass_const by auto. apply rev_repeat.
Qed.
(** The single pass starts at the first input. *)
Theorem C25_start_partial cutoff samp qs : Forall qunit qs ->
  nth_error (quat_lowpassfilter cutoff samp false qs) 0 = nth_error qs 0.
Proof. intros H. now destruct (lowpass_pass_unit cutoff samp qs H) as (_ & _ & S). Qed.

(** Every later output moves from the previous output towards the input along the shortest rotation, by the fraction
    alpha = w/(1+w), w = 2 pi cutoff/samp, of the angle. *)
Theorem C25_step cutoff samp qs i y x y' : Forall qunit qs -> qs <> [] ->
  let out := quat_lowpassfilter cutoff samp false qs in
  let w := 2 * PI * cutoff / samp in
  nth_error out i = Some y -> nth_error qs (S i) = Some x -> nth_error out (S i) = Some y' ->
  (y' = y /\ vclose0 (qvec (qmul x (qinv y)))) \/
  exists n a, dot n n = 1 /\ 0 <= a <= PI /\
    (qmul (quat_rot_axis n a) y = x \/ qmul (quat_rot_axis n a) y = qneg x) /\
    y' = qmul (quat_rot_axis n (a * (w / (1 + w)))) y.
Proof.
  intros H NE. cbv zeta. unfold quat_lowpassfilter, lowpass_pass. cbv zeta. destruct qs as [|q0 r]; [congruence|].
  inversion H as [|? ? H0 Hr]; subst. set (alpha := 2 * PI * cutoff / samp / _).
  rewrite map_qnormalize by (constructor; auto; now apply lowpass_loop_unit).
  clear NE H. cbn [nth_error]. revert q0 H0 i. induction Hr as [|x0 r Hx0 Hr IH]; intros q0 H0 i E1 E2 E3; [destruct i; discriminate|].
  cbn [lowpass_loop] in E1, E3. cbv zeta in E1, E3. destruct i as [|i].
  - cbn in E1, E2. injection E1 as <-. injection E2 as <-. injection E3 as <-. now apply lowpass_step_spec.
  - cbn [nth_error] in E1, E2, E3. apply (IH (lowpass_step alpha q0 x0)) with i; auto. now apply lowpass_step_unit.
Qed.

(** With filtfilt the first output is not the first input. *)
Theorem C25_filtfilt_start_refuted : exists cutoff samp qs, 0 < cutoff /\ 0 < samp /\ Forall qunit qs /\
  nth_error (quat_lowpassfilter cutoff samp true qs) 0 <> nth_error qs 0.
Proof.
  pose proof PI_pos as PP. exists 1, (2 * PI), [rot z_unit (- (PI / 4)); qone].
  split; [lra|]. split; [lra|]. assert (U : qunit (rot z_unit (- (PI / 4)))) by apply rot_unit, uz.
  assert (F : Forall qunit [rot z_unit (- (PI / 4)); qone]) by (repeat constructor; auto using qunit_one).
  split; auto. unfold quat_lowpassfilter.
  assert (AL : 2 * PI * 1 / (2 * PI) / (1 + 2 * PI * 1 / (2 * PI)) = 1 / 2) by (field; lra).
  (* one step from rotation by angle 2b to the identity, with alpha 1/2, gives half the rotation *)
  assert (S4 : forall b, 0 < b <= PI / 4 -> ~ vclose0 (qvec (rot z_unit b)) ->
    lowpass_step (1 / 2) (rot z_unit (- b)) qone = rot z_unit (- (b / 2)) /\
    lowpass_step (1 / 2) (rot z_unit (- b)) (rot z_unit (- (2 * b))) = rot z_unit (- (3 * b / 2))).
  { intros b Bb NC. assert (SP : 0 < sin b) by (apply sin_gt_0; lra).
    unfold lowpass_step. rewrite qmul_1_l, !rot_inv, rot_add by apply uz. cbv zeta.
    replace (- (2 * b) + - - b) with (- b) by ring. rewrite Ropp_involutive. unfold quat_to_rot_axis.
    split.
    - destruct (quat_angle_rot z_unit b uz NC) as [(_ & -> & ->)|(S & _)]; [|lra]. rewrite wrap_id by lra.
      destruct (Rlt_dec (- (2 * b)) 0); [|lra]. rewrite rot_axis_unit by (vunfold; ring). rewrite rot_neg, rot_add by apply uz. f_equal. field.
    - assert (NC' : ~ vclose0 (qvec (rot z_unit (- b)))).
      { rewrite qvec_rot, sin_neg. replace (vscale (- sin b) z_unit) with (vneg (vscale (sin b) z_unit)) by vring.
        rewrite <- qvec_rot. intros X. apply NC. now apply vclose0_neg. }
      destruct (quat_angle_rot z_unit (- b) uz NC') as [(S & _)|(_ & -> & ->)]; [rewrite sin_neg in S; lra|].
      replace (- (2 * - b)) with (2 * b) by ring. rewrite wrap_id by lra.
      destruct (Rlt_dec (- (2 * b)) 0); [|lra]. rewrite rot_axis_unit by (vunfold; ring). rewrite rot_neg, rot_neg, rot_add by apply uz. f_equal. field. }
  assert (NC : forall b, PI / 8 <= b <= PI / 4 -> ~ vclose0 (qvec (rot z_unit b))).
  { intros b Bb (_ & _ & C). unfold close0 in C. cbn in C. rewrite Rmult_1_r in C.
    assert (0 < sin b) by (apply sin_gt_0; lra). rewrite Rabs_right in C by lra. pose proof (sin_lower b) as L. specialize (L ltac:(lra)).
    pose proof atol_small. unfold Rmin in L. destruct (Rle_dec b 1); [|lra]. pose proof PI2_1. lra. }
  assert (P1 : lowpass_pass 1 (2 * PI) [rot z_unit (- (PI / 4)); qone] = [rot z_unit (- (PI / 4)); rot z_unit (- (PI / 8))]).
  { unfold lowpass_pass. cbv zeta. rewrite AL. cbn [lowpass_loop]. cbv zeta. destruct (S4 (PI / 4)) as [-> _]; [lra|apply NC; lra|].
    rewrite map_qnormalize; [do 3 f_equal; field|]. repeat constructor; apply rot_unit, uz. }
  rewrite P1. cbn [rev app].
  assert (P2 : lowpass_pass 1 (2 * PI) [rot z_unit (- (PI / 8)); rot z_unit (- (PI / 4))] = [rot z_unit (- (PI / 8)); rot z_unit (- (3 * PI / 16))]).
  { unfold lowpass_pass. cbv zeta. rewrite AL. cbn [lowpass_loop]. cbv zeta.
    replace (PI / 4) with (2 * (PI / 8)) by field. destruct (S4 (PI / 8)) as [_ ->]; [lra|apply NC; lra|].
    rewrite map_qnormalize; [do 3 f_equal; field|]. repeat constructor; apply rot_unit, uz. }
  rewrite P2. cbn [rev app nth_error]. intros X. injection X as X _. rewrite !cos_neg in X.
  assert (cos (PI / 4) < cos (3 * PI / 16)) by (apply cos_decreasing_1; lra). lra.
Qed.

Example C25_example : Forall qunit [qone; euler_to_quat 1 2 3; euler_to_quat (-1) 2 3].
Proof. repeat constructor; auto using qunit_one, euler_unit. Qed.

(** ** C26 *)
Theorem C26_euler_to_quat a1 a2 a3 : qunit (euler_to_quat a1 a2 a3) /\
  euler_to_quat a1 a2 a3 = qmul (quat_rot_axis z_unit a3) (qmul (quat_rot_axis y_unit a2) (quat_rot_axis x_unit a1)) /\
  euler_to_quat a1 a2 a3 = quat_euler AX AY AZ a1 a2 a3 true.
Proof. split; [apply euler_unit|]. split; apply euler_composition. Qed.

Theorem C26_quat_to_euler_inverts a1 a2 a3 : - PI < a1 <= PI -> - (PI / 2) < a2 < PI / 2 -> - PI < a3 <= PI ->
  quat_to_euler (euler_to_quat a1 a2 a3) = (a1, a2, a3).
Proof. apply quat_to_euler_inverts. Qed.

(** Away from gimbal lock (the image of the inner z axis along x is not +-1) the angles rebuild the quaternion. *)
Theorem C26_rebuild q : qunit q -> -1 < vx (rotate z_unit (qinv q)) < 1 ->
  let '(a1, a2, a3) := quat_to_euler q in
  (euler_to_quat a1 a2 a3 = q \/ euler_to_quat a1 a2 a3 = qneg q) /\
  - PI < a1 <= PI /\ - (PI / 2) < a2 < PI / 2 /\ - PI < a3 <= PI.
Proof.
  intros H G. apply quat_to_euler_rebuild; auto. cbv zeta. pose proof (qunit_inv _ H) as UP. set (p := qinv q) in *. clearbody p.
  rewrite <- rotate_3x3, quat_to_3x3_unit in G by auto. destruct p as [w x y z]. unfold qunit in UP. vunfold. lra.
Qed.

(** quat_euler: intrinsic rotations compose right to left in the order given; extrinsic is the reverse order. *)
Theorem C26_quat_euler c1 c2 c3 a1 a2 a3 :
  qunit (quat_euler c1 c2 c3 a1 a2 a3 true) /\
  quat_euler c1 c2 c3 a1 a2 a3 false = quat_euler c3 c2 c1 a3 a2 a1 true /\
  forall v, rotate v (quat_euler c1 c2 c3 a1 a2 a3 true) =
    rotate (rotate (rotate v (quat_rot_axis (unit_vector c1) a1)) (quat_rot_axis (unit_vector c2) a2)) (quat_rot_axis (unit_vector c3) a3).
Proof.
  assert (UV : forall c, dot (unit_vector c) (unit_vector c) = 1) by (intros []; vunfold; cbn; ring).
  assert (RU : forall c a, qunit (quat_rot_axis (unit_vector c) a)) by (intros; rewrite rot_axis_unit by auto; now apply rot_unit).
  split; [|split].
  - unfold quat_euler. cbv zeta. auto using qunit_mul.
  - reflexivity.
  - intros v. unfold quat_euler. cbv zeta. now rewrite !rotate_mul.
Qed.

Example C26_example : -1 < vx (rotate z_unit (qinv (euler_to_quat 1 0 2))) < 1.
Proof.
  rewrite <- rotate_3x3, quat_to_3x3_unit by auto using qunit_inv, euler_unit.
  pose proof (euler_entries 1 0 2) as E. cbv zeta in E. destruct E as (_ & _ & E & _). rewrite sin_0 in E.
  destruct (qinv (euler_to_quat 1 0 2)) as [w x y z]. vunfold. lra.
Qed.

(** ** C56 *)
(** safe_norm and safe_normalize: defined everywhere, the plain functions away from zero, zero near it. *)
Theorem C56_safe_norm a :
  (~ vclose0 a -> safe_norm a = vnorm a /\ 0 < vnorm a /\ safe_normalize a = vscale (/ vnorm a) a /\ vnorm (safe_normalize a) = 1) /\
  (vclose0 a -> safe_norm a = 0 /\ safe_normalize a = vzero /\ vnorm a <= 2 * atol) /\
  Rabs (safe_norm a - vnorm a) <= 2 * atol.
Proof.
  pose proof atol_pos as AP.
  assert (CL : vclose0 a -> vnorm a <= 2 * atol).
  { intros (C1 & C2 & C3). unfold close0 in *.
    assert (Sq : forall u, Rabs u <= atol -> u * u <= atol * atol).
    { intros u Hu. replace (u * u) with (Rabs u * Rabs u) by (rewrite <- Rabs_mult; apply Rabs_right; nra).
      apply Rmult_le_compat; auto using Rabs_pos. }
    apply Sq in C1, C2, C3. pose proof (vnorm_nonneg a). pose proof (vnorm_sq a) as V. destruct a as [x y z]. unfold dot in V. cbn [vx vy vz] in *. nra. }
  split; [|split].
  - intros N. unfold safe_norm. pose proof (not_close_norm a N). split; [now destruct (vclose0_dec a)|]. split; auto.
    split; [unfold safe_normalize; now destruct (vclose0_dec a)|]. apply vnorm_unit. now apply safe_normalize_unit.
  - intros C. split; [unfold safe_norm; now destruct (vclose0_dec a)|]. split; [now apply safe_normalize_close|auto].
  - unfold safe_norm. destruct (vclose0_dec a) as [C|C].
    + rewrite Rminus_0_l, Rabs_Ropp, Rabs_right; auto. apply Rle_ge, vnorm_nonneg.
    + rewrite Rminus_eq_0, Rabs_R0. lra.
Qed.

Lemma clip_grad_bound x : -1 + / 10 ^ 7 <= clip_grad x <= 1 - / 10 ^ 7.
Proof.
  unfold clip_grad, clip. split; [apply Rmin_glb; [apply Rmax_r|lra]|apply Rmin_r].
Qed.

(** The differentiation rules: same tangent as the true derivative inside the clipping range; the divisor never
    vanishes, for any input; safe_arccos keeps its primal value. *)
Theorem C56_jvp_partial x dx :
  safe_arccos x = arccos x /\ safe_arcsin x = arcsin x /\
  fst (safe_arccos_jvp x dx) = safe_arccos x /\
  0 < sqrt (1 - clip_grad x ^ 2) /\
  (-1 + / 10 ^ 7 <= x <= 1 - / 10 ^ 7 ->
     derivable_pt_lim acos x (snd (safe_arccos_jvp x 1)) /\ derivable_pt_lim asin x (snd (safe_arcsin_jvp x 1)) /\
     snd (safe_arccos_jvp x dx) = snd (safe_arccos_jvp x 1) * dx /\ snd (safe_arcsin_jvp x dx) = snd (safe_arcsin_jvp x 1) * dx).
Proof.
  split; [reflexivity|]. split; [reflexivity|]. split; [reflexivity|].
  assert (P : 0 < sqrt (1 - clip_grad x ^ 2)).
  { apply sqrt_lt_R0. pose proof (clip_grad_bound x). assert (0 < / 10 ^ 7 < 1) by (split; [apply Rinv_0_lt_compat; lra|lra]). nra. }
  split; auto. intros H. unfold safe_arccos_jvp, safe_arcsin_jvp. cbn [snd].
  assert (E : clip_grad x = x) by (unfold clip_grad, clip; rewrite Rmax_left, Rmin_left by lra; auto). rewrite E in *.
  assert (0 < / 10 ^ 7 < 1) by (split; [apply Rinv_0_lt_compat; lra|lra]).
  split; [|split; [|split; field; lra]].
  - assert (B : -1 < x < 1) by lra. pose proof (derive_pt_acos x B) as D. apply (derive_pt_eq_1 _ _ _ (derivable_pt_acos x B)).
    rewrite D. unfold Rsqr. replace (x ^ 2) with (x * x) by ring. reflexivity.
  - assert (B : -1 < x < 1) by lra. pose proof (derive_pt_asin x B) as D. apply (derive_pt_eq_1 _ _ _ (derivable_pt_asin x B)).
    rewrite D. unfold Rsqr. replace (x ^ 2) with (x * x) by ring. reflexivity.
Qed.

(** Differentiating safe_arcsin changes its value: the rule returns the arc cosine. *)
Theorem C56_arcsin_primal_refuted : exists x dx, -1 < x < 1 /\ fst (safe_arcsin_jvp x dx) <> safe_arcsin x.
Proof.
  exists 0, 1. split; [lra|]. unfold safe_arcsin_jvp, safe_arccos, safe_arcsin, arccos, arcsin. cbn [fst].
  destruct (Rle_dec (-1) 0); [|lra]. destruct (Rle_dec 0 1); [|lra]. rewrite acos_0, asin_0. intros H. injection H as H. pose proof PI_pos. lra.
Qed.
Example C56_example : arccos 2 = None /\ safe_arccos (1 / 2) = Some (PI / 3) /\ ~ vclose0 (V3 1 0 0).
Proof.
  unfold safe_arccos, arccos. destruct (Rle_dec (-1) 2); [|lra]. destruct (Rle_dec 2 1); [lra|]. split; auto.
  destruct (Rle_dec (-1) (1 / 2)); [|lra]. destruct (Rle_dec (1 / 2) 1); [|lra]. split.
  - f_equal. rewrite <- cos_PI3. apply acos_cos. pose proof PI_pos. lra.
  - apply unit_not_close. vunfold. ring.
Qed.

Print Assumptions C21_wrap_to_pi.
Print Assumptions C22_quat_roundtrip_all.
Print Assumptions C23_project_minimal.
Print Assumptions C24_transfer_heading_partial.
Print Assumptions C25_lowpass.
Print Assumptions C25_filtfilt_start_refuted.
Print Assumptions C26_rebuild.
Print Assumptions C56_jvp_partial.
