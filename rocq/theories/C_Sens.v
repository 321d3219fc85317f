(** * C34, C35: accelerometer and gyroscope. *)
From Coq Require Import Reals Lra Lia Bool List.
From Verif Require Import Prelude M_Sys M_Math P_Math P_Trig P_Rot M_Geom M_Joint M_Sens.
Import ListNotations.
Local Open Scope R_scope.

(** ** Lists *)
Lemma nth_error_zipwith {A B C} (f : A -> B -> C) : forall a b k,
  nth_error (zipwith f a b) k = match nth_error a k, nth_error b k with Some x, Some y => Some (f x y) | _, _ => None end.
Proof.
  induction a as [|x a IH]; intros [|y b] [|k]; cbn; auto; [destruct (nth_error a k); auto|]. apply IH.
Qed.
Lemma zipwith_length {A B C} (f : A -> B -> C) a b : length (zipwith f a b) = Nat.min (length a) (length b).
Proof. unfold zipwith. now rewrite map_length, combine_length. Qed.
Lemma bcast2_eq {A B C} (f : A -> B -> C) a b : length a = length b -> bcast2 f a b = Ok (zipwith f a b).
Proof. intros E. unfold bcast2. now rewrite E, Nat.eqb_refl. Qed.
Lemma nth_error_skipn {A} k : forall (l : list A) j, nth_error (skipn k l) j = nth_error l (k + j).
Proof. induction k; intros [|x l] j; cbn; auto. now destruct j. Qed.
Lemma nth_error_firstn {A} k : forall (l : list A) j, (j < k)%nat -> nth_error (firstn k l) j = nth_error l j.
Proof. induction k; intros [|x l] [|j] H; cbn; auto; try lia. apply IHk. lia. Qed.
Lemma upto_neg_length {A} k (l : list A) : (0 < k)%nat -> length (upto_neg k l) = (length l - k)%nat.
Proof. intros H. unfold upto_neg. destruct (Nat.eqb_spec k 0); [lia|]. rewrite firstn_length. lia. Qed.
Lemma nth_error_upto {A} k (l : list A) j : (0 < k)%nat -> (j < length l - k)%nat -> nth_error (upto_neg k l) j = nth_error l j.
Proof. intros H J. unfold upto_neg. destruct (Nat.eqb_spec k 0); [lia|]. now apply nth_error_firstn. Qed.

(** ** Accelerometer *)
(** The sample around which the second difference of reading [k] is taken: [k] itself, except at the ends. *)
Definition centre (n N k : nat) : nat := if (k <? n)%nat then (k + n)%nat else if (k <? N - n)%nat then k else (k - n)%nat.
Definition at_ (xs : list transform) (k : nat) : transform := nth k xs t_zero.
Definition pos_at xs k := t_pos (at_ xs k).
(** Second difference quotient of the position. *)
Definition second_diff (xs : list transform) (h : R) (n c : nat) : vec3 :=
  vscale (/ (h ^ 2)) (vsub (vadd (pos_at xs (c - n)) (pos_at xs (c + n))) (vscale 2 (pos_at xs c))).

Theorem C34_reading xs g dt n : (0 < n)%nat -> (3 * n <= length xs)%nat ->
  exists out, accelerometer xs g dt n = Ok out /\ length out = length xs /\
    forall k, (k < length xs)%nat ->
      nth_error out k = Some (rotate (vadd (second_diff xs (INR n * dt) n (centre n (length xs) k)) g) (t_rot (at_ xs k))).
Proof.
  intros Hn HN. set (N := length xs) in *. set (pos := map t_pos xs). assert (LP : length pos = N) by (unfold pos; apply map_length).
  assert (PA : forall j, (j < N)%nat -> nth_error pos j = Some (pos_at xs j)).
  { intros j Hj. unfold pos. rewrite nth_error_map, nth_error_nth' with (d := t_zero) by auto. reflexivity. }
  unfold accelerometer. fold pos.
  assert (L1 : length (upto_neg (2 * n) pos) = (N - 2 * n)%nat) by (rewrite upto_neg_length; lia).
  rewrite bcast2_eq by (rewrite L1, skipn_length; lia). cbn [bind].
  assert (L2 : length (inner n pos) = (N - 2 * n)%nat) by (unfold inner; rewrite skipn_length, upto_neg_length; lia).
  assert (L3 : length (zipwith vadd (upto_neg (2 * n) pos) (skipn (2 * n) pos)) = (N - 2 * n)%nat) by (rewrite zipwith_length, L1, skipn_length; lia).
  rewrite bcast2_eq by (rewrite L2, L3; auto). cbn [bind].
  set (acc := map (fun v => vadd (vscale (/ (INR n * dt) ^ 2) v) g) (zipwith _ _ _)).
  assert (LA : length acc = (N - 2 * n)%nat) by (unfold acc; rewrite map_length, zipwith_length, L2, L3; lia).
  assert (AA : forall j, (j < N - 2 * n)%nat -> nth_error acc j = Some (vadd (second_diff xs (INR n * dt) n (j + n)) g)).
  { intros j Hj. unfold acc. rewrite nth_error_map, !nth_error_zipwith. unfold inner. rewrite !nth_error_skipn, !nth_error_upto by lia.
    rewrite !PA by lia. cbn [option_map]. unfold second_diff. replace (j + n - n)%nat with j by lia.
    replace (2 * n + j)%nat with (j + n + n)%nat by lia. now rewrite (Nat.add_comm n j). }
  set (rows := firstn n acc ++ acc ++ last_n n acc).
  assert (LF : length (firstn n acc) = n) by (rewrite firstn_length; lia).
  assert (LL : length (last_n n acc) = n) by (unfold last_n; destruct (Nat.eqb_spec n 0); [lia|]; rewrite skipn_length; lia).
  assert (LR : length rows = N) by (unfold rows; rewrite !app_length, LF, LL, LA; lia).
  assert (RA : forall k, (k < N)%nat -> nth_error rows k = Some (vadd (second_diff xs (INR n * dt) n (centre n N k)) g)).
  { intros k Hk. unfold rows, centre. destruct (Nat.ltb_spec k n).
    - rewrite nth_error_app1 by lia. rewrite nth_error_firstn by auto. apply AA. lia.
    - rewrite nth_error_app2, LF by lia. destruct (Nat.ltb_spec k (N - n)).
      + rewrite nth_error_app1 by lia. rewrite AA by lia. now replace (k - n + n)%nat with k by lia.
      + rewrite nth_error_app2, LA by lia. unfold last_n. destruct (Nat.eqb_spec n 0); [lia|].
        rewrite nth_error_skipn, LA, AA by lia. do 3 f_equal. lia. }
  rewrite bcast2_eq by (rewrite LR, map_length; auto). eexists. split; [reflexivity|].
  split; [rewrite zipwith_length, LR, map_length; fold N; lia|].
  intros k Hk. rewrite nth_error_zipwith, RA, nth_error_map, (nth_error_nth' xs t_zero) by auto. reflexivity.
Qed.
Lemma centre_range n N k : (0 < n)%nat -> (3 * n <= N)%nat -> (k < N)%nat -> (n <= centre n N k /\ centre n N k + n < N)%nat.
Proof. intros. unfold centre. destruct (Nat.ltb_spec k n), (Nat.ltb_spec k (N - n)); lia. Qed.

(** Exact for constant acceleration [a]: gravity plus acceleration in sensor coordinates. *)
Theorem C34_constant_acceleration xs g dt n p v a : (0 < n)%nat -> (3 * n <= length xs)%nat -> dt <> 0 ->
  (forall k, (k < length xs)%nat -> pos_at xs k = vadd p (vadd (vscale (INR k * dt) v) (vscale ((INR k * dt) ^ 2 / 2) a))) ->
  exists out, accelerometer xs g dt n = Ok out /\ length out = length xs /\
    forall k, (k < length xs)%nat -> nth_error out k = Some (rotate (vadd a g) (t_rot (at_ xs k))).
Proof.
  intros Hn HN Hdt HP. destruct (C34_reading xs g dt n Hn HN) as (out & E & L & R). exists out. split; [exact E|]. split; [exact L|].
  intros k Hk. rewrite (R k Hk). do 3 f_equal. destruct (centre_range n _ k Hn HN Hk) as [C1 C2]. set (c := centre n (length xs) k) in *.
  unfold second_diff. rewrite !HP by lia. rewrite minus_INR, plus_INR by lia. assert (In0 : INR n <> 0) by (apply not_0_INR; lia).
  destruct p, v, a. vunfold. f_equal; field; auto.
Qed.
(** At rest or in uniform motion: gravity. *)
Theorem C34_uniform_motion xs g dt n p v : (0 < n)%nat -> (3 * n <= length xs)%nat -> dt <> 0 ->
  (forall k, (k < length xs)%nat -> pos_at xs k = vadd p (vscale (INR k * dt) v)) ->
  exists out, accelerometer xs g dt n = Ok out /\ length out = length xs /\
    forall k, (k < length xs)%nat -> nth_error out k = Some (rotate g (t_rot (at_ xs k))).
Proof.
  intros Hn HN Hdt HP. destruct (C34_constant_acceleration xs g dt n p v vzero Hn HN Hdt) as (out & E & L & R).
  { intros k Hk. rewrite (HP k Hk). destruct p, v. vring. }
  exists out. split; [exact E|]. split; [exact L|]. intros k Hk. rewrite (R k Hk). do 2 f_equal. destruct g. vring.
Qed.
(** Shorter trajectories are rejected. *)
Theorem C34_too_short xs g dt n : (0 < n)%nat -> (length xs < 3 * n)%nat -> (2 <= length xs)%nat -> accelerometer xs g dt n = Err EValue.
Proof.
  intros Hn HN H2. set (N := length xs) in *. unfold accelerometer. set (pos := map t_pos xs). assert (LP : length pos = N) by (unfold pos; apply map_length).
  assert (L1 : length (upto_neg (2 * n) pos) = (N - 2 * n)%nat) by (rewrite upto_neg_length; lia).
  rewrite bcast2_eq by (rewrite L1, skipn_length; lia). cbn [bind].
  assert (L2 : length (inner n pos) = (N - 2 * n)%nat) by (unfold inner; rewrite skipn_length, upto_neg_length; lia).
  assert (L3 : length (zipwith vadd (upto_neg (2 * n) pos) (skipn (2 * n) pos)) = (N - 2 * n)%nat) by (rewrite zipwith_length, L1, skipn_length; lia).
  rewrite bcast2_eq by (rewrite L2, L3; auto). cbn [bind].
  set (acc := map (fun v => vadd (vscale (/ (INR n * dt) ^ 2) v) g) (zipwith _ _ _)).
  assert (LA : length acc = (N - 2 * n)%nat) by (unfold acc; rewrite map_length, zipwith_length, L2, L3; lia).
  set (rows := firstn n acc ++ acc ++ last_n n acc).
  assert (LR : length rows = (3 * (N - 2 * n))%nat).
  { unfold rows, last_n. destruct (Nat.eqb_spec n 0); [lia|]. rewrite !app_length, firstn_length, skipn_length, LA. lia. }
  unfold bcast2. rewrite LR, map_length. fold N. destruct (Nat.eqb_spec (3 * (N - 2 * n)) N); [lia|].
  destruct rows as [|r1 [|r2 rr]]; cbn [length] in LR; try lia;
    (destruct xs as [|x1 [|x2 xr]]; cbn [length] in N; [unfold N in *; lia|unfold N in *; lia|reflexivity]).
Qed.
(** Nothing depends on the choice of the world frame. *)
Theorem C34_world_frame xs g dt n r t : qunit r -> (0 < n)%nat -> (3 * n <= length xs)%nat ->
  accelerometer (map (fun x => Tr (vadd (rotate (t_pos x) r) t) (qmul (t_rot x) (qinv r))) xs) (rotate g r) dt n = accelerometer xs g dt n.
Proof.
  intros Hr Hn HN. set (f := fun x => _). destruct (C34_reading xs g dt n Hn HN) as (out & E & L & R).
  destruct (C34_reading (map f xs) (rotate g r) dt n Hn) as (out' & E' & L' & R'); [now rewrite map_length|]. rewrite map_length in *.
  rewrite E, E'. f_equal. apply nth_error_ext. intros k. destruct (Nat.lt_ge_cases k (length xs)) as [Hk|Hk].
  2:{ rewrite !(proj2 (nth_error_None _ _)); auto; lia. }
  rewrite R, R' by auto. f_equal. destruct (centre_range n _ k Hn HN Hk) as [C1 C2]. set (c := centre n (length xs) k) in *.
  assert (A : forall j, (j < length xs)%nat -> at_ (map f xs) j = f (at_ xs j)).
  { intros j Hj. unfold at_. rewrite nth_indep with (d' := f t_zero) by now rewrite map_length. apply map_nth. }
  unfold second_diff, pos_at. rewrite !A by lia. unfold f. cbn [t_pos t_rot]. set (h := INR n * dt).
  transitivity (rotate (rotate (vadd (vscale (/ h ^ 2) (vsub (vadd (t_pos (at_ xs (c - n))) (t_pos (at_ xs (c + n)))) (vscale 2 (t_pos (at_ xs c))))) g) r) (qmul (t_rot (at_ xs k)) (qinv r))).
  - f_equal. rewrite rotate_add, rotate_scale, rotate_sub, rotate_add, rotate_scale.
    generalize (rotate (t_pos (at_ xs (c - n))) r), (rotate (t_pos (at_ xs (c + n))) r), (rotate (t_pos (at_ xs c)) r), (rotate g r).
    intros [] [] [] []. destruct t. vring.
  - rewrite rotate_mul, rotate_inv_l by auto. reflexivity.
Qed.

(** ** Gyroscope *)
Definition q_at (q : list quat) (k : nat) : quat := nth k q qone.
(** The two samples compared for reading [k]. *)
Definition gyro_from (second : bool) (N k : nat) : nat :=
  if second then (if (k =? 0)%nat then 0 else if (k =? N - 1)%nat then k - 2 else k - 1)%nat
  else (if (k =? N - 1)%nat then k - 1 else k)%nat.
Definition gyro_step (second : bool) : nat := if second then 2%nat else 1%nat.
Definition gyro_dt (second : bool) (dt : R) : R := if second then 2 * dt else dt.

Lemma last_nth {A} (l : list A) d : last l d = nth (length l - 1) l d.
Proof. induction l as [|x [|y l] IH]; auto. cbn [last] in *. rewrite IH. cbn [length]. now replace (S (S (length l)) - 1)%nat with (S (S (length l) - 1)) by lia. Qed.
Theorem C35_reading q dt (second : bool) : (gyro_step second < length q)%nat ->
  exists out, gyroscope q dt second = Ok out /\ length out = length q /\
    forall k, (k < length q)%nat -> let j := gyro_from second (length q) k in
      nth_error out k = Some (gyro_reading (gyro_dt second dt) (qmul (q_at q (j + gyro_step second)) (qinv (q_at q j)))).
Proof.
  intros HN. set (N := length q) in *. unfold gyroscope. fold (gyro_step second). set (m := gyro_step second) in *.
  assert (Hm : (0 < m)%nat) by (unfold m, gyro_step; destruct second; lia).
  set (dq := zipwith (fun a b => qmul a (qinv b)) (skipn m q) (upto_neg m q)).
  assert (LD : length dq = (N - m)%nat) by (unfold dq; rewrite zipwith_length, skipn_length, upto_neg_length by auto; fold N; lia).
  assert (DA : forall j, (j < N - m)%nat -> nth_error dq j = Some (qmul (q_at q (j + m)) (qinv (q_at q j)))).
  { intros j Hj. unfold dq. rewrite nth_error_zipwith, nth_error_skipn, nth_error_upto by (auto; fold N; lia).
    rewrite !(nth_error_nth' q qone) by (fold N; lia). unfold q_at. now rewrite (Nat.add_comm m j). }
  destruct dq as [|d0 dr] eqn:ED; [cbn in LD; lia|]. rewrite <- ED in *.
  assert (D0 : d0 = qmul (q_at q (0 + m)) (qinv (q_at q 0))). { specialize (DA 0%nat ltac:(lia)). rewrite ED in DA. injection DA as ->. reflexivity. }
  assert (DL : last dq d0 = qmul (q_at q (N - 1 - m + m)) (qinv (q_at q (N - 1 - m)))).
  { rewrite last_nth. apply nth_error_nth. rewrite LD. replace (N - m - 1)%nat with (N - 1 - m)%nat by lia. apply DA. lia. }
  unfold gyro_dt, gyro_from. destruct second.
  - assert (m = 2%nat) by reflexivity. eexists. split; [reflexivity|]. split; [rewrite map_length; cbn [length]; rewrite app_length, LD; cbn; lia|].
    intros k Hk. rewrite nth_error_map. destruct k as [|k]; [cbn [nth_error option_map Nat.eqb]; now rewrite D0|]. cbn [nth_error]. change (S k =? 0)%nat with false.
    destruct (Nat.eqb_spec (S k) (N - 1)) as [Ek|Ek].
    + rewrite nth_error_app2, LD by lia. replace (k - (N - m))%nat with 0%nat by lia. cbn [nth_error option_map]. rewrite DL. cbv zeta. now replace (S k - 2)%nat with (N - 1 - m)%nat by lia.
    + rewrite nth_error_app1 by lia. rewrite DA by lia. cbn [option_map]. cbv zeta. now replace (S k - 1)%nat with k by lia.
  - assert (m = 1%nat) by reflexivity. eexists. split; [reflexivity|]. split; [rewrite map_length, app_length, LD; cbn; lia|].
    intros k Hk. rewrite nth_error_map. destruct (Nat.eqb_spec k (N - 1)) as [Ek|Ek].
    + rewrite nth_error_app2, LD by lia. replace (k - (N - m))%nat with 0%nat by lia. cbn [nth_error option_map]. rewrite DL. cbv zeta. now replace (k - 1)%nat with (N - 1 - m)%nat by lia.
    + rewrite nth_error_app1 by lia. rewrite DA by lia. reflexivity.
Qed.
Lemma gyro_from_range second N k : (gyro_step second < N)%nat -> (k < N)%nat -> (gyro_from second N k + gyro_step second < N)%nat.
Proof. unfold gyro_from, gyro_step. destruct second; destruct (Nat.eqb_spec k 0), (Nat.eqb_spec k (N - 1)); lia. Qed.

(** Zero for constant orientation. *)
Lemma gyro_reading_one dt : gyro_reading dt qone = vzero.
Proof.
  unfold gyro_reading, quat_to_rot_axis. assert (U : qunit qone) by (unfold qunit; vring).
  rewrite (quat_angle_close qone U vclose0_zero). destruct (Rlt_dec _ _) as [H|H]; [|reflexivity].
  rewrite Ropp_0, Rabs_R0 in H. assert (0 < / 10 ^ 10) by (apply Rinv_0_lt_compat, pow_lt; lra). lra.
Qed.
Theorem C35_constant_orientation q0 n dt second : qunit q0 -> (gyro_step second < n)%nat ->
  gyroscope (repeat q0 n) dt second = Ok (repeat vzero n).
Proof.
  intros U H. destruct (C35_reading (repeat q0 n) dt second) as (out & E & L & R); [now rewrite repeat_length|]. rewrite repeat_length in *.
  rewrite E. f_equal. apply nth_error_ext. intros k. destruct (Nat.lt_ge_cases k n) as [Hk|Hk].
  2:{ rewrite !(proj2 (nth_error_None _ _)); auto; rewrite ?repeat_length; lia. }
  rewrite R by auto. cbv zeta. pose proof (gyro_from_range second n k H Hk) as B. unfold q_at.
  assert (A : forall j, (j < n)%nat -> nth j (repeat q0 n) qone = q0).
  { intros j Hj. apply (repeat_spec n). apply nth_In. now rewrite repeat_length. }
  rewrite !A by lia. rewrite qmul_inv_r, gyro_reading_one by auto. rewrite nth_error_repeat by auto. reflexivity.
Qed.
(** No dependence on the choice of the world frame. *)
Theorem C35_world_frame q dt second r : qunit r -> (gyro_step second < length q)%nat ->
  gyroscope (map (fun x => qmul x r) q) dt second = gyroscope q dt second.
Proof.
  intros Hr H. destruct (C35_reading q dt second H) as (out & E & L & R).
  destruct (C35_reading (map (fun x => qmul x r) q) dt second) as (out' & E' & L' & R'); [now rewrite map_length|]. rewrite map_length in *.
  rewrite E, E'. f_equal. apply nth_error_ext. intros k. destruct (Nat.lt_ge_cases k (length q)) as [Hk|Hk].
  2:{ rewrite !(proj2 (nth_error_None _ _)); auto; lia. }
  rewrite R, R' by auto. cbv zeta. pose proof (gyro_from_range second _ k H Hk) as B. unfold q_at.
  assert (A : forall j, (j < length q)%nat -> nth j (map (fun x => qmul x r) q) qone = qmul (nth j q qone) r).
  { intros j Hj. rewrite nth_indep with (d' := (fun x => qmul x r) qone) by now rewrite map_length. apply (map_nth (fun x => qmul x r)). }
  rewrite !A by lia. do 2 f_equal. rewrite qinv_mul, <- !qmul_assoc. f_equal. rewrite qmul_assoc, qmul_inv_r, qmul_1_l by auto. reflexivity.
Qed.

(** Constant rate. *)
Lemma third n : dot n n = 1 -> / 2 <= Rabs (vx n) \/ / 2 <= Rabs (vy n) \/ / 2 <= Rabs (vz n).
Proof.
  intros H. destruct n as [x y z]. unfold dot in H. cbn [vx vy vz] in *.
  assert (S : forall u, Rabs u < / 2 -> u * u <= / 4). { intros u Hu. replace (u * u) with (Rabs u * Rabs u) by (unfold Rabs; destruct (Rcase_abs u); ring). pose proof (Rabs_pos u). nra. }
  destruct (Rle_dec (/ 2) (Rabs x)); auto. destruct (Rle_dec (/ 2) (Rabs y)); auto. destruct (Rle_dec (/ 2) (Rabs z)); auto. exfalso.
  pose proof (S x ltac:(lra)). pose proof (S y ltac:(lra)). pose proof (S z ltac:(lra)). lra.
Qed.
Lemma abs_sin_half a : - PI < a < PI -> 5 / 6 * Rmin (Rabs a / 2) 1 <= Rabs (sin (- a / 2)).
Proof.
  intros Ha. assert (B : Rabs a < PI) by (apply Rabs_def1; lra). pose proof (Rabs_pos a).
  pose proof (sin_lower (Rabs a / 2) ltac:(lra)) as S. eapply Rle_trans; [exact S|]. clear S.
  unfold Rabs at 1. destruct (Rcase_abs a).
  - replace (- a / 2) with (- a / 2) by reflexivity. apply Rle_abs.
  - replace (- a / 2) with (- (a / 2)) by field. rewrite sin_neg, Rabs_Ropp. apply Rle_abs.
Qed.
Lemma atol_val : atol = / 10 ^ 8. Proof. reflexivity. Qed.
Lemma fast_enough n a : dot n n = 1 -> - PI < a < PI -> / 10 ^ 7 <= Rabs a -> ~ vclose0 (qvec (quat_rot_axis n a)).
Proof.
  intros U Ha Hb C. rewrite rot_axis_unit, qvec_rot in C by auto. unfold vclose0, vscale, close0 in C. cbn [vx vy vz] in C. rewrite atol_val in C.
  rewrite !Rabs_mult in C. pose proof (abs_sin_half a Ha) as S.
  assert (T : 5 / 12 * / 10 ^ 7 <= Rabs (sin (- a / 2))).
  { eapply Rle_trans; [|exact S]. unfold Rmin. destruct (Rle_dec (Rabs a / 2) 1); lra. }
  destruct C as (C1 & C2 & C3). assert (P7 : / 10 ^ 7 = 10 * / 10 ^ 8) by lra. rewrite P7 in *.
  assert (G : forall u, / 2 <= u -> Rabs (sin (- a / 2)) * u <= / 10 ^ 8 -> False).
  { intros u Hu Hc. assert (0 < / 10 ^ 8) by (apply Rinv_0_lt_compat, pow_lt; lra). nra. }
  destruct (third n U) as [K|[K|K]]; eauto.
Qed.
Lemma slow_enough n a : dot n n = 1 -> - PI < a < PI -> vclose0 (qvec (quat_rot_axis n a)) -> Rabs a <= 5 * / 10 ^ 8.
Proof.
  intros U Ha C. rewrite rot_axis_unit, qvec_rot in C by auto. unfold vclose0, vscale, close0 in C. cbn [vx vy vz] in C. rewrite atol_val in C.
  rewrite !Rabs_mult in C. pose proof (abs_sin_half a Ha) as S. destruct C as (C1 & C2 & C3).
  assert (T : Rabs (sin (- a / 2)) <= 2 * / 10 ^ 8).
  { pose proof (Rabs_pos (sin (- a / 2))). destruct (third n U) as [K|[K|K]]; nra. }
  assert (S2 : 5 / 6 * Rmin (Rabs a / 2) 1 <= 2 * / 10 ^ 8) by lra. revert S2. unfold Rmin. destruct (Rle_dec (Rabs a / 2) 1); lra.
Qed.
Lemma gyro_reading_rate n a dt : dot n n = 1 -> - PI < a < PI -> ~ vclose0 (qvec (quat_rot_axis n a)) ->
  gyro_reading dt (quat_rot_axis n a) = vscale (a / dt) n.
Proof.
  intros U Ha NC. assert (A10 : / 10 ^ 10 < Rabs a).
  { apply Rnot_le_lt. intros B. apply NC. rewrite rot_axis_unit, qvec_rot by auto.
    assert (SB : Rabs (sin (- a / 2)) <= / 10 ^ 8).
    { assert (Rabs (sin (- a / 2)) <= Rabs (- a / 2)).
      { destruct (Rle_dec 0 (- a / 2)) as [P|P].
        - rewrite (Rabs_pos_eq (- a / 2)) by auto. pose proof PI_RGT_0. rewrite Rabs_pos_eq by (apply sin_ge_0; lra).
          destruct P as [P|P]; [left; now apply sin_lt_x|rewrite <- P, sin_0; lra].
        - rewrite (Rabs_left (- a / 2)) by lra. pose proof PI_RGT_0. rewrite Rabs_left; [|apply sin_lt_0_var; lra].
          rewrite <- sin_neg. left. apply sin_lt_x. lra. }
      replace (- a / 2) with (- (a / 2)) in * by field. rewrite Rabs_Ropp in *. unfold Rdiv in *. rewrite Rabs_mult, (Rabs_pos_eq (/ 2)) in H by lra. lra. }
    assert (N1 : Rabs (vx n) <= 1 /\ Rabs (vy n) <= 1 /\ Rabs (vz n) <= 1).
    { destruct n as [x y z]. unfold dot in U. cbn [vx vy vz] in *. assert (Q : forall u, u * u <= 1 -> Rabs u <= 1).
      { intros u Hu. apply Rabs_le. nra. } pose proof (Rle_0_sqr x). pose proof (Rle_0_sqr y). pose proof (Rle_0_sqr z). unfold Rsqr in *.
      repeat split; apply Q; lra. }
    destruct N1 as (N1 & N2 & N3). pose proof (Rabs_pos (sin (- a / 2))). pose proof (Rabs_pos (vx n)). pose proof (Rabs_pos (vy n)). pose proof (Rabs_pos (vz n)).
    unfold vclose0, vscale, close0. cbn [vx vy vz]. rewrite atol_val, !Rabs_mult. repeat split; nra. }
  unfold gyro_reading. destruct (axis_angle_of_rot n a U Ha NC) as [E|E]; rewrite E; clear E; rewrite ?Rabs_Ropp;
    (destruct (Rlt_dec _ _) as [_|B]; [|contradiction]); unfold vscale, vneg; cbn [vx vy vz]; f_equal; unfold Rdiv; ring.
Qed.
Lemma gyro_reading_slow q dt : qunit q -> vclose0 (qvec q) -> gyro_reading dt q = vzero.
Proof.
  intros U C. unfold gyro_reading, quat_to_rot_axis. rewrite (quat_angle_close q U C). destruct (Rlt_dec _ _) as [H|H]; [|reflexivity].
  rewrite Ropp_0, Rabs_R0 in H. assert (0 < / 10 ^ 10) by (apply Rinv_0_lt_compat, pow_lt; lra). lra.
Qed.

(** [q] turns about the sensor-fixed axis [n] at [w] radians per second. *)
Definition constant_rate (q : list quat) (dt w : R) (n : vec3) (q0 : quat) : Prop :=
  forall k, (k < length q)%nat -> q_at q k = qmul (quat_rot_axis n (INR k * (w * dt))) q0.
Lemma rate_dq q dt w n q0 j m : dot n n = 1 -> qunit q0 -> constant_rate q dt w n q0 -> (j + m < length q)%nat ->
  qmul (q_at q (j + m)) (qinv (q_at q j)) = quat_rot_axis n (INR m * (w * dt)).
Proof.
  intros U U0 C H. rewrite !C by lia. rewrite !rot_axis_unit by auto. rewrite qinv_mul, rot_inv.
  rewrite <- qmul_assoc, (qmul_assoc q0), qmul_inv_r, qmul_1_l, rot_add by auto. f_equal. rewrite plus_INR. field.
Qed.
(** Rates between 1e-7 radians and half a turn per compared pair of samples are exact. *)
Theorem C35_rate_partial q dt w n q0 second : dot n n = 1 -> qunit q0 -> (gyro_step second < length q)%nat ->
  constant_rate q dt w n q0 -> dt <> 0 ->
  let a := INR (gyro_step second) * (w * dt) in
  / 10 ^ 7 <= Rabs a < PI ->
  gyroscope q dt second = Ok (repeat (vscale w n) (length q)).
Proof.
  intros U U0 H C Hdt a [A1 A2]. destruct (C35_reading q dt second H) as (out & E & L & R). rewrite E. f_equal.
  apply nth_error_ext. intros k. destruct (Nat.lt_ge_cases k (length q)) as [Hk|Hk].
  2:{ rewrite !(proj2 (nth_error_None _ _)); auto; rewrite ?repeat_length; lia. }
  rewrite (R k Hk). cbv zeta. pose proof (gyro_from_range second _ k H Hk) as B. rewrite (rate_dq q dt w n q0) by auto. fold a.
  assert (Ha : - PI < a < PI) by (apply Rabs_def2 in A2; lra).
  rewrite gyro_reading_rate by auto using fast_enough. rewrite nth_error_repeat by auto. do 2 f_equal.
  unfold a, gyro_dt, gyro_step. destruct second; cbn [INR]; field; auto.
Qed.
(** In general the reading of a constant rate is off by at most 5e-8 radians per compared pair. *)
Theorem C35_rate_error q dt w n q0 second : dot n n = 1 -> qunit q0 -> (gyro_step second < length q)%nat ->
  constant_rate q dt w n q0 -> dt <> 0 -> Rabs (INR (gyro_step second) * (w * dt)) < PI ->
  exists out, gyroscope q dt second = Ok out /\ length out = length q /\
    forall y, In y out -> vnorm (vsub y (vscale w n)) <= 5 * / 10 ^ 8 / Rabs (gyro_dt second dt).
Proof.
  intros U U0 H C Hdt A2. destruct (C35_reading q dt second H) as (out & E & L & R). exists out. split; [exact E|]. split; [exact L|].
  intros y Hy. apply In_nth_error in Hy. destruct Hy as (k & Hy). assert (Hk : (k < length q)%nat) by (rewrite <- L; apply nth_error_Some; congruence).
  rewrite (R k Hk) in Hy. injection Hy as <-. pose proof (gyro_from_range second _ k H Hk) as B. rewrite (rate_dq q dt w n q0) by auto.
  set (a := INR (gyro_step second) * (w * dt)) in *. assert (Ha : - PI < a < PI) by (apply Rabs_def2 in A2; lra).
  assert (W : w = a / gyro_dt second dt). { unfold a, gyro_dt, gyro_step. destruct second; cbn [INR]; field; auto. }
  assert (D0 : gyro_dt second dt <> 0) by (unfold gyro_dt; destruct second; lra). pose proof (Rabs_pos_lt _ D0) as DP.
  assert (P8 : 0 < / 10 ^ 8) by (apply Rinv_0_lt_compat, pow_lt; lra).
  destruct (vclose0_dec (qvec (quat_rot_axis n a))) as [C0|C0].
  - rewrite gyro_reading_slow; auto. 2:{ rewrite rot_axis_unit by auto. now apply rot_unit. }
    replace (vsub vzero (vscale w n)) with (vscale (- w) n) by (destruct n; vring). rewrite vnorm_scale, vnorm_unit, Rmult_1_r, Rabs_Ropp by auto.
    rewrite W. unfold Rdiv. rewrite Rabs_mult, Rabs_inv. apply Rmult_le_compat_r; [left; now apply Rinv_0_lt_compat|]. now apply (slow_enough n a).
  - rewrite gyro_reading_rate, W by auto. match goal with |- vnorm ?v <= _ => replace v with vzero by (destruct n; vring) end.
    assert (Z : vnorm vzero = 0). { unfold vnorm. replace (dot vzero vzero) with 0 by vring. apply sqrt_0. } rewrite Z.
    left. apply Rmult_lt_0_compat; [lra|now apply Rinv_0_lt_compat].
Qed.
(** Rates below 1e-8 radians per compared pair are read as zero. *)
Theorem C35_slow_refuted q dt w n q0 second : dot n n = 1 -> qunit q0 -> (gyro_step second < length q)%nat ->
  constant_rate q dt w n q0 -> dt <> 0 ->
  0 < Rabs (INR (gyro_step second) * (w * dt)) <= / 10 ^ 8 ->
  gyroscope q dt second = Ok (repeat vzero (length q)) /\ vscale w n <> vzero.
Proof.
  intros U U0 H C Hdt [A1 A2]. set (a := INR (gyro_step second) * (w * dt)) in *. split.
  - destruct (C35_reading q dt second H) as (out & E & L & R). rewrite E. f_equal.
    apply nth_error_ext. intros k. destruct (Nat.lt_ge_cases k (length q)) as [Hk|Hk].
    2:{ rewrite !(proj2 (nth_error_None _ _)); auto; rewrite ?repeat_length; lia. }
    rewrite (R k Hk). cbv zeta. pose proof (gyro_from_range second _ k H Hk) as B. rewrite (rate_dq q dt w n q0) by auto. fold a.
    rewrite nth_error_repeat by auto. f_equal. apply gyro_reading_slow; [rewrite rot_axis_unit by auto; now apply rot_unit|].
    rewrite rot_axis_unit, qvec_rot by auto. assert (P8 : 0 < / 10 ^ 8) by (apply Rinv_0_lt_compat, pow_lt; lra). assert (P8' : / 10 ^ 8 <= / 1000) by (apply Rinv_le_contravar; lra).
    assert (SB : Rabs (sin (- a / 2)) <= / 10 ^ 8).
    { pose proof PI2_3_2. assert (- / 10 ^ 8 <= a <= / 10 ^ 8) by (unfold Rabs in A2; destruct (Rcase_abs a); lra).
      assert (G : forall u, 0 <= u <= / 10 ^ 8 -> Rabs (sin u) <= / 10 ^ 8).
      { intros u Hu. rewrite Rabs_pos_eq by (apply sin_ge_0; lra). destruct (Req_dec u 0) as [->|N0]; [rewrite sin_0; lra|]. pose proof (sin_lt_x u ltac:(lra)). lra. }
      destruct (Rle_dec a 0); [apply G; lra|]. replace (- a / 2) with (- (a / 2)) by field. rewrite sin_neg, Rabs_Ropp. apply G. lra. }
    assert (N1 : Rabs (vx n) <= 1 /\ Rabs (vy n) <= 1 /\ Rabs (vz n) <= 1).
    { destruct n as [x y z]. unfold dot in U. cbn [vx vy vz] in *. assert (Q : forall u, u * u <= 1 -> Rabs u <= 1).
      { intros u Hu. apply Rabs_le. nra. } pose proof (Rle_0_sqr x). pose proof (Rle_0_sqr y). pose proof (Rle_0_sqr z). unfold Rsqr in *.
      repeat split; apply Q; lra. }
    destruct N1 as (N1 & N2 & N3). pose proof (Rabs_pos (sin (- a / 2))). pose proof (Rabs_pos (vx n)). pose proof (Rabs_pos (vy n)). pose proof (Rabs_pos (vz n)).
    unfold vclose0, vscale, close0. cbn [vx vy vz]. rewrite atol_val, !Rabs_mult. repeat split; nra.
  - intros Z. assert (W0 : w <> 0). { intros ->. unfold a in A1. replace (INR (gyro_step second) * (0 * dt)) with 0 in A1 by ring. rewrite Rabs_R0 in A1. lra. }
    destruct n as [x y z]. unfold vscale, vzero in Z. cbn [vx vy vz] in Z. injection Z as Zx Zy Zz.
    apply Rmult_integral in Zx, Zy, Zz. unfold dot in U. cbn [vx vy vz] in U. destruct Zx, Zy, Zz; try contradiction. subst. lra.
Qed.

(** ** Examples *)
Example C34_example g : exists out,
  accelerometer (map (fun k => Tr (V3 (INR k * (1 / 100)) (3 * ((INR k * (1 / 100)) ^ 2 / 2)) 5) (Q4 (3 / 5) 0 (4 / 5) 0)) (seq 0 12)) g (1 / 100) 4 = Ok out /\
  out = repeat (rotate (vadd (V3 0 3 0) g) (Q4 (3 / 5) 0 (4 / 5) 0)) 12.
Proof.
  set (xs := map _ _). destruct (C34_constant_acceleration xs g (1 / 100) 4 (V3 0 0 5) (V3 1 0 0) (V3 0 3 0)) as (out & E & L & R).
  - lia.
  - unfold xs. rewrite map_length, seq_length. lia.
  - lra.
  - intros k Hk. unfold xs in *. rewrite map_length, seq_length in Hk. unfold pos_at, at_.
    set (f := fun k0 : nat => _). rewrite nth_indep with (d' := f 0%nat) by now rewrite map_length, seq_length.
    rewrite map_nth, seq_nth by auto. unfold f. cbn [t_pos]. rewrite Nat.add_0_l. vunfold. f_equal; ring.
  - exists out. split; [exact E|]. apply nth_error_ext. intros k. assert (N : length xs = 12%nat) by (unfold xs; now rewrite map_length, seq_length).
    destruct (Nat.lt_ge_cases k (length xs)) as [Hk|Hk].
    + rewrite (R k Hk), nth_error_repeat by lia. do 2 f_equal. unfold at_, xs. set (f := fun k0 : nat => _).
      rewrite nth_indep with (d' := f 0%nat) by (rewrite map_length, seq_length; lia). rewrite map_nth. reflexivity.
    + rewrite !(proj2 (nth_error_None _ _)); auto; rewrite ?repeat_length; lia.
Qed.
Lemma constant_rate_list dt w n q0 N : constant_rate (map (fun k => qmul (quat_rot_axis n (INR k * (w * dt))) q0) (seq 0 N)) dt w n q0.
Proof.
  intros k Hk. rewrite map_length, seq_length in Hk. unfold q_at. set (f := fun k0 : nat => _).
  rewrite nth_indep with (d' := f 0%nat) by now rewrite map_length, seq_length. rewrite map_nth, seq_nth by auto. reflexivity.
Qed.
Example C35_example : gyroscope (map (fun k => qmul (quat_rot_axis y_unit (INR k * (2 * (1 / 100)))) qone) (seq 0 50)) (1 / 100) true
  = Ok (repeat (V3 0 2 0) 50).
Proof.
  rewrite (C35_rate_partial _ (1 / 100) 2 y_unit qone true).
  - rewrite map_length, seq_length. do 2 f_equal. unfold y_unit. vring.
  - unfold y_unit. vring.
  - apply qunit_one.
  - rewrite map_length, seq_length. cbn [gyro_step]. lia.
  - apply constant_rate_list.
  - lra.
  - cbv zeta. cbn [gyro_step INR]. rewrite Rabs_pos_eq by lra. pose proof PI2_1. lra.
Qed.
Example C35_slow_example : let q := map (fun k => qmul (quat_rot_axis y_unit (INR k * (/ 10 ^ 6 * (1 / 100)))) qone) (seq 0 5) in
  gyroscope q (1 / 100) false = Ok (repeat vzero 5) /\ V3 0 (/ 10 ^ 6) 0 <> vzero.
Proof.
  cbv zeta. destruct (C35_slow_refuted (map (fun k => qmul (quat_rot_axis y_unit (INR k * (/ 10 ^ 6 * (1 / 100)))) qone) (seq 0 5)) (1 / 100) (/ 10 ^ 6) y_unit qone false) as [A B].
  - unfold y_unit. vring.
  - apply qunit_one.
  - rewrite map_length, seq_length. cbn [gyro_step]. lia.
  - apply constant_rate_list.
  - lra.
  - cbn [gyro_step INR]. rewrite Rabs_pos_eq by lra. lra.
  - rewrite map_length, seq_length in A. split; [exact A|]. intros E. injection E as E. lra.
Qed.
Print Assumptions C34_world_frame.
Print Assumptions C35_rate_error.
