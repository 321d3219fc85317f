(** * C64: the knee joint's transform is a rigid motion with the Grood-Suntay geometry. *)
From Coq Require Import Reals Lra Lia Nsatz Bool String List.
From Verif Require Import Prelude M_Math P_Math P_Trig C_Math M_Suntay.
Import ListNotations.
Local Open Scope R_scope.

(** ** Specification: three successive rotations about coordinate axes, as unit quaternions. *)
Definition qx_half (a : R) : quat := Q4 (cos (a / 2)) (sin (a / 2)) 0 0.
Definition qy_half (a : R) : quat := Q4 (cos (a / 2)) 0 (sin (a / 2)) 0.
Definition qz_half (a : R) : quat := Q4 (cos (a / 2)) 0 0 (sin (a / 2)).
(** external rotation about z, abduction about y, flexion about x *)
Definition knee_rot (flexion abduction external : R) : quat :=
  qmul (qz_half external) (qmul (qy_half (- abduction)) (qx_half flexion)).

(** ** Proofs *)
Lemma sc1 a : sin a * sin a + cos a * cos a = 1.
Proof. pose proof (sin2_cos2 a) as H. unfold Rsqr in H. exact H. Qed.
Lemma halves a : sin a = 2 * sin (a / 2) * cos (a / 2) /\ cos a = cos (a / 2) * cos (a / 2) - sin (a / 2) * sin (a / 2).
Proof.
  split.
  - replace a with (2 * (a / 2)) at 1 by field. apply sin_2a.
  - replace a with (2 * (a / 2)) at 1 by field. apply cos_2a.
Qed.
Lemma qx_unit a : qunit (qx_half a).
Proof. unfold qunit, qx_half. vunfold. pose proof (sc1 (a / 2)). nra. Qed.
Lemma qy_unit a : qunit (qy_half a).
Proof. unfold qunit, qy_half. vunfold. pose proof (sc1 (a / 2)). nra. Qed.
Lemma qz_unit a : qunit (qz_half a).
Proof. unfold qunit, qz_half. vunfold. pose proof (sc1 (a / 2)). nra. Qed.
Lemma knee_unit f a e : qunit (knee_rot f a e).
Proof. unfold knee_rot. auto using qunit_mul, qx_unit, qy_unit, qz_unit. Qed.

Lemma rot_x a v : rotate v (qx_half a) = V3 (vx v) (cos a * vy v - sin a * vz v) (sin a * vy v + cos a * vz v).
Proof.
  destruct (halves a) as [S C]. rewrite S, C. pose proof (sc1 (a / 2)) as E. unfold qx_half.
  set (s := sin (a / 2)) in *. set (c := cos (a / 2)) in *. clearbody s c. destruct v as [x y z]. vunfold. f_equal; try ring.
  transitivity ((s * s + c * c) * x); [ring|rewrite E; ring].
Qed.
Lemma rot_y a v : rotate v (qy_half a) = V3 (cos a * vx v + sin a * vz v) (vy v) (- sin a * vx v + cos a * vz v).
Proof.
  destruct (halves a) as [S C]. rewrite S, C. pose proof (sc1 (a / 2)) as E. unfold qy_half.
  set (s := sin (a / 2)) in *. set (c := cos (a / 2)) in *. clearbody s c. destruct v as [x y z]. vunfold. f_equal; try ring.
  transitivity ((s * s + c * c) * y); [ring|rewrite E; ring].
Qed.
Lemma rot_z a v : rotate v (qz_half a) = V3 (cos a * vx v - sin a * vy v) (sin a * vx v + cos a * vy v) (vz v).
Proof.
  destruct (halves a) as [S C]. rewrite S, C. pose proof (sc1 (a / 2)) as E. unfold qz_half.
  set (s := sin (a / 2)) in *. set (c := cos (a / 2)) in *. clearbody s c. destruct v as [x y z]. vunfold. f_equal; try ring.
  transitivity ((s * s + c * c) * z); [ring|rewrite E; ring].
Qed.

Lemma beta_sin b : sin (PI / 2 + - b) = cos b.
Proof. replace (PI / 2 + - b) with (PI / 2 - b) by ring. apply sin_shift. Qed.
Lemma beta_cos b : cos (PI / 2 + - b) = sin b.
Proof. replace (PI / 2 + - b) with (PI / 2 - b) by ring. apply cos_shift. Qed.

Lemma RT_rot f b e v : mvmul (suntay_RT f (PI / 2 + - b) e) v = rotate v (knee_rot f b e).
Proof.
  unfold knee_rot. rewrite !rotate_mul, rot_x, rot_y, rot_z. unfold suntay_RT. cbv zeta. rewrite beta_sin, beta_cos, sin_neg, cos_neg.
  destruct v as [x y z]. vunfold. f_equal; ring.
Qed.
Lemma mat_ext (m n : mat3) : (forall v, mvmul m v = mvmul n v) -> m = n.
Proof.
  intros H. pose proof (H x_unit) as A. pose proof (H y_unit) as B. pose proof (H z_unit) as C. clear H.
  destruct m as [[a b c] [d e f] [g h i]], n as [[a' b' c'] [d' e' f'] [g' h' i']]. vunfold.
  injection A as A1 A2 A3. injection B as B1 B2 B3. injection C as C1 C2 C3.
  repeat f_equal; lra.
Qed.
Lemma RT_eq f b e : suntay_RT f (PI / 2 + - b) e = quat_to_3x3 (knee_rot f b e).
Proof. apply mat_ext. intros v. rewrite RT_rot. symmetry. apply rotate_3x3. apply knee_unit. Qed.

Lemma knee_w f b e : qw (knee_rot f b e) = cos (e / 2) * cos (b / 2) * cos (f / 2) - sin (e / 2) * sin (b / 2) * sin (f / 2).
Proof.
  unfold knee_rot, qz_half, qy_half, qx_half. replace (- b / 2) with (- (b / 2)) by field. rewrite sin_neg, cos_neg. vunfold. ring.
Qed.

Section Knee.
Variables f_S1 f_S2 f_S3 f_abd f_ext : R -> R.
Variable q : R.
Let t := suntay_transform f_S1 f_S2 f_S3 f_abd f_ext q.

(** C64.  The rotation from femur to tibia is flexion, then abduction, then external rotation, each about its
    axis, up to the sign of the quaternion; in particular the transform is rigid. *)
Theorem C64_rotation : qw (knee_rot q (f_abd q) (f_ext q)) <> 0 ->
  (t_rot t = knee_rot q (f_abd q) (f_ext q) \/ t_rot t = qneg (knee_rot q (f_abd q) (f_ext q))) /\ tunit t /\
  forall v, rotate v (t_rot t) = mvmul (suntay_RT q (PI / 2 + - f_abd q) (f_ext q)) v.
Proof.
  intros W. assert (A : t_rot t = knee_rot q (f_abd q) (f_ext q) \/ t_rot t = qneg (knee_rot q (f_abd q) (f_ext q))).
  { unfold t, suntay_transform, suntay_angles. cbn [t_rot]. rewrite RT_eq. apply C17_matrix_roundtrip; auto. apply knee_unit. }
  split; auto. pose proof (knee_unit q (f_abd q) (f_ext q)) as U. split.
  - unfold tunit. destruct A as [-> | ->]; auto. unfold qunit in *. destruct (knee_rot _ _ _). vunfold. lra.
  - intros v. rewrite RT_rot. destruct A as [-> | ->]; auto. destruct (knee_rot _ _ _), v. vunfold. f_equal; ring.
Qed.

(** The half-turn case is excluded whenever flexion stays within 120 degrees and the other two angles within
    60 degrees, as in the default configuration. *)
Theorem C64_default_range : Rabs q <= 2 * PI / 3 -> Rabs (f_abd q) <= PI / 3 -> Rabs (f_ext q) <= PI / 3 ->
  qw (knee_rot q (f_abd q) (f_ext q)) <> 0.
Proof.
  intros Hq Ha He. rewrite knee_w. pose proof PI_RGT_0.
  assert (C : forall x b c, Rabs x <= b -> 0 <= b / 2 -> b / 2 <= PI -> cos (b / 2) = c -> c <= cos (x / 2)).
  { intros x b c Hx B1 B2 <-. assert (Hx' : - b <= x <= b) by (unfold Rabs in Hx; destruct (Rcase_abs x); lra). clear Hx.
    assert (cos (x / 2) = cos (Rabs (x / 2))) as ->. { unfold Rabs. destruct (Rcase_abs (x / 2)); [now rewrite cos_neg|reflexivity]. }
    apply cos_decr_1; try (apply Rabs_pos); unfold Rabs; destruct (Rcase_abs (x / 2)); lra. }
  assert (Q : 1 / 2 <= cos (q / 2)). { apply (C q (2 * PI / 3)); auto; try lra. replace (2 * PI / 3 / 2) with (PI / 3) by field. apply cos_PI3. }
  assert (P6 : cos (PI / 3 / 2) = sqrt 3 / 2). { replace (PI / 3 / 2) with (PI / 6) by field. apply cos_PI6. }
  assert (A : sqrt 3 / 2 <= cos (f_abd q / 2)). { apply (C (f_abd q) (PI / 3)); auto; lra. }
  assert (E : sqrt 3 / 2 <= cos (f_ext q / 2)). { apply (C (f_ext q) (PI / 3)); auto; lra. }
  pose proof (sqrt_sqrt 3) as S3. assert (S0 : 0 < sqrt 3) by (apply sqrt_lt_R0; lra). specialize (S3 ltac:(lra)).
  pose proof (sc1 (q / 2)) as Eq. pose proof (sc1 (f_abd q / 2)) as Ea. pose proof (sc1 (f_ext q / 2)) as Ee.
  set (cq := cos (q / 2)) in *. set (ca := cos (f_abd q / 2)) in *. set (ce := cos (f_ext q / 2)) in *.
  set (sq := sin (q / 2)) in *. set (sa := sin (f_abd q / 2)) in *. set (se := sin (f_ext q / 2)) in *.
  assert (CC : 3 / 4 <= ce * ca) by nra. assert (M : 3 / 8 <= ce * ca * cq) by nra.
  assert (Sa : sa * sa <= 1 / 4) by nra. assert (Se : se * se <= 1 / 4) by nra. assert (Sq : sq * sq <= 1) by nra.
  assert (B : - (1 / 4) <= se * sa <= 1 / 4) by nra. assert (B2 : -1 <= sq <= 1) by nra.
  assert (N : se * sa * sq <= 1 / 4) by nra. lra.
Qed.

(** C64.  The translation: along the femoral flexion axis, the floating axis perpendicular to both, and the tibial
    long axis, by exactly the three drawn distances; the two body axes enclose the angle given by abduction. *)
Theorem C64_translation : qw (knee_rot q (f_abd q) (f_ext q)) <> 0 -> 0 < cos (f_abd q) ->
  let e1 := x_unit in
  let e3 := rotate z_unit (qinv (t_rot t)) in
  let e2 := vscale (/ vnorm (cross e3 e1)) (cross e3 e1) in
  t_pos t = vadd (vscale (f_S1 q) e1) (vadd (vscale (f_S2 q) e2) (vscale (f_S3 q) e3)) /\
  dot e1 e3 = cos (PI / 2 - f_abd q) /\ dot e3 e3 = 1 /\ dot e2 e2 = 1 /\ dot e1 e2 = 0 /\ dot e2 e3 = 0.
Proof.
  intros W CA e1 e3 e2. destruct (C64_rotation W) as (_ & U & RV). unfold tunit in U.
  assert (E3 : e3 = V3 (sin (f_abd q)) (sin q * cos (f_abd q)) (cos q * cos (f_abd q))).
  { unfold e3. set (v := V3 _ _ _). assert (Z : rotate v (t_rot t) = z_unit).
    { rewrite RV. unfold suntay_RT, v. cbv zeta. rewrite beta_sin, beta_cos. pose proof (sc1 q) as E1. pose proof (sc1 (f_abd q)) as E2.
      set (sa := sin q) in *. set (ca := cos q) in *. set (sb := sin (f_abd q)) in *. set (cb := cos (f_abd q)) in *.
      set (sg := sin (f_ext q)). set (cg := cos (f_ext q)). clear - E1 E2. clearbody sa ca sb cb sg cg. vunfold. f_equal; nsatz. }
    rewrite <- Z. apply rotate_inv_l. exact U. }
  assert (X : cross e3 e1 = vscale (cos (f_abd q)) (V3 0 (cos q) (- sin q))).
  { rewrite E3. unfold e1. vunfold. f_equal; ring. }
  assert (N : vnorm (cross e3 e1) = cos (f_abd q)).
  { rewrite X. unfold vnorm. pose proof (sc1 q). replace (dot _ _) with (Rsqr (cos (f_abd q))).
    - apply sqrt_Rsqr. lra.
    - unfold Rsqr. vunfold. nra. }
  assert (E2 : e2 = V3 0 (cos q) (- sin q)).
  { unfold e2. rewrite N, X. vunfold. f_equal; field; lra. }
  rewrite E2, E3. unfold t, suntay_transform, suntay_angles. cbn [t_pos]. unfold suntay_H. cbv zeta. rewrite beta_sin, beta_cos.
  replace (PI / 2 - f_abd q) with (PI / 2 + - f_abd q) by ring. rewrite beta_cos.
  pose proof (sc1 q). pose proof (sc1 (f_abd q)). split; [|split; [|split; [|split; [|split]]]]; unfold e1; vunfold; try (f_equal; ring); nra.
Qed.

(** C64.  The reported clinical translations Q are the projections of the translation on the three axes. *)
Theorem C64_projections : qw (knee_rot q (f_abd q) (f_ext q)) <> 0 -> 0 < cos (f_abd q) ->
  let e1 := x_unit in
  let e3 := rotate z_unit (qinv (t_rot t)) in
  let e2 := vscale (/ vnorm (cross e3 e1)) (cross e3 e1) in
  suntay_Q (PI / 2 + - f_abd q) (V3 (f_S1 q) (f_S2 q) (f_S3 q)) = V3 (dot (t_pos t) e1) (dot (t_pos t) e2) (- dot (t_pos t) e3).
Proof.
  intros W CA e1 e3 e2. destruct (C64_translation W CA) as (P & D13 & D33 & D22 & D12 & D23). fold e1 e3 in P, D13, D33, D22, D12, D23. fold e2 in P, D22, D12, D23.
  assert (D11 : dot e1 e1 = 1) by (unfold e1; vunfold; ring).
  replace (PI / 2 - f_abd q) with (PI / 2 + - f_abd q) in D13 by ring.
  rewrite P. unfold suntay_Q. rewrite <- D13. clearbody e1 e2 e3. cbn [vx vy vz].
  destruct e1 as [a b c], e2 as [d e f], e3 as [g h i]. vunfold.
  f_equal.
  - replace (f_S1 q) with (f_S1 q * (a * a + b * b + c * c)) at 1 by (rewrite D11; ring).
    replace (f_S1 q * (a * a + b * b + c * c)) with (f_S1 q * (a * a + b * b + c * c) + f_S2 q * (a * d + b * e + c * f)) by (rewrite D12; ring). ring.
  - replace (f_S2 q) with (f_S2 q * (d * d + e * e + f * f) + f_S1 q * (a * d + b * e + c * f) + f_S3 q * (d * g + e * h + f * i)) at 1 by (rewrite D22, D12, D23; ring). ring.
  - replace (- f_S3 q) with (- (f_S3 q * (g * g + h * h + i * i) + f_S2 q * (d * g + e * h + f * i))) by (rewrite D33, D23; ring). ring.
Qed.
End Knee.

(** The default limits, in degrees: flexion -5..95, abduction -4..4, external rotation -10..10. *)
Example C64_example : let t := suntay_transform (fun _ => 0) (fun _ => 0) (fun _ => -1) (fun _ => PI / 90) (fun x => x / 10) (PI / 2) in tunit t.
Proof.
  cbv zeta. assert (P := PI_RGT_0). apply C64_rotation. apply (C64_default_range (fun _ => PI / 90) (fun x => x / 10)); rewrite Rabs_right; lra.
Qed.

(** ** The lookup of the knee joint *)
Lemma find_spec name : forall links found r, find_suntay name found links = Ok r ->
  match found with
  | Some n => r = n /\ Forall (fun l => snd l <> name) links
  | None => exists pre post, links = pre ++ (r, name) :: post /\ Forall (fun l => snd l <> name) (pre ++ post)
  end.
Proof.
  induction links as [|[ln lt] links IH]; intros found r; cbn [find_suntay].
  - destruct found; [|discriminate]. intros E. injection E as ->. split; [reflexivity|constructor].
  - destruct (String.eqb_spec lt name) as [->|NE].
    + destruct found; [discriminate|]. intros H. apply IH in H. destruct H as [-> F]. exists [], links. split; [reflexivity|exact F].
    + intros H. apply IH in H. destruct found.
      * destruct H as [-> F]. split; [reflexivity|]. constructor; auto.
      * destruct H as (pre & post & -> & F). exists ((ln, lt) :: pre), post. split; [reflexivity|]. cbn [app]. constructor; auto.
Qed.
(** C64.  The lookup returns the one link of that joint type, and fails when there is none or more than one. *)
Theorem C64_find_joint name names types : length names = length types ->
  (forall r, find_suntay_joint name names types = Ok r ->
     exists i, nth_error names i = Some r /\ nth_error types i = Some name /\ forall j, nth_error types j = Some name -> j = i) /\
  (forall i, nth_error types i = Some name -> (forall j, nth_error types j = Some name -> j = i) ->
     exists r, find_suntay_joint name names types = Ok r /\ nth_error names i = Some r).
Proof.
  intros L. split.
  - intros r H. apply find_spec in H. destruct H as (pre & post & E & F). exists (length pre).
    assert (NE : forall i, nth_error (combine names types) i = match nth_error names i, nth_error types i with Some a, Some b => Some (a, b) | _, _ => None end).
    { clear E F. revert types L. induction names as [|a names IH]; intros [|b types] L i; try discriminate; [destruct i; reflexivity|].
      destruct i; cbn; [reflexivity|]. apply IH. cbn in L. congruence. }
    assert (EI : nth_error (combine names types) (length pre) = Some (r, name)).
    { rewrite E, nth_error_app2, Nat.sub_diag by lia. reflexivity. }
    rewrite NE in EI. destruct (nth_error names (length pre)) eqn:E1; [|discriminate]. destruct (nth_error types (length pre)) eqn:E2; [|discriminate].
    injection EI as -> ->. split; auto. split; auto. intros j Hj. assert (Lj : (j < length names)%nat) by (rewrite L; apply nth_error_Some; congruence).
    destruct (nth_error names j) as [nj|] eqn:Ej; [|apply nth_error_None in Ej; lia].
    assert (EJ : nth_error (combine names types) j = Some (nj, name)) by now rewrite NE, Ej, Hj.
    rewrite Forall_forall in F. destruct (Nat.lt_trichotomy j (length pre)) as [C|[C|C]]; auto; exfalso.
    + rewrite E, nth_error_app1 in EJ by auto. apply nth_error_In in EJ. apply (F (nj, name)); [apply in_app_iff; auto|reflexivity].
    + rewrite E, nth_error_app2 in EJ by lia. destruct (j - length pre)%nat as [|k] eqn:Ek; [lia|]. cbn in EJ. apply nth_error_In in EJ.
      apply (F (nj, name)); [apply in_app_iff; auto|reflexivity].
  - unfold find_suntay_joint. revert types L. induction names as [|a names IH]; intros [|b types] L i Hi Hu; try discriminate; [destruct i; discriminate|].
    cbn [combine find_suntay]. destruct i as [|i].
    + cbn in Hi. injection Hi as ->. rewrite String.eqb_refl. exists a. split; [|reflexivity].
      assert (FA : forall l, Forall (fun x => snd x <> name) l -> find_suntay name (Some a) l = Ok a).
      { induction l as [|[ln lt] l IHl]; intros F; [reflexivity|]. inversion F; subst. cbn [find_suntay]. destruct (String.eqb_spec lt name); [contradiction|]. auto. }
      apply FA. apply Forall_forall. intros [x y] Hxy E. cbn in E. subst y. apply in_combine_r in Hxy. apply In_nth_error in Hxy. destruct Hxy as (k & Hk).
      specialize (Hu (S k) Hk). discriminate.
    + destruct (String.eqb_spec b name) as [->|NE]; [specialize (Hu 0%nat eq_refl); discriminate|].
      apply (IH types ltac:(cbn in L; congruence) i Hi). intros j Hj. specialize (Hu (S j) Hj). congruence.
Qed.
Print Assumptions C64_translation.
