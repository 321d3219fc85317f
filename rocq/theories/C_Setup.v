(** * C67: randomising a system changes only what it should, within the declared limits. *)
From Coq Require Import Reals Lra Lia ZArith Bool String List.
From Verif Require Import Prelude M_Sys M_Math M_Geom M_Joint M_Random M_Artifact M_Setup S_Sys S_Random S_Setup P_Math P_Trig P_Rot P_Scan P_Sys P_Random P_Inject P_Update P_Morph P_History P_Delete P_Pd P_Xml P_XmlTree P_XmlLoad C_Xml P_Artifact M_Pd X_Demo C_Random.
Import ListNotations.
Local Open Scope R_scope.

Lemma scaled_in u lo hi : 0 <= u < 1 -> lo <= hi -> lo <= scaled u lo hi <= hi.
Proof. intros U H. unfold scaled. split; [apply Rmax_l|]. apply Rmax_lub; nra. Qed.

(** ** Random rotations *)
Lemma sq_zero x : x * x <= 0 -> x = 0.
Proof. intros H. apply Rsqr_0_uniq. unfold Rsqr. nra. Qed.
Lemma normalize4_unit q : ~ qclose0 q -> qunit (safe_normalize4 q).
Proof.
  intros N. unfold safe_normalize4. destruct (qclose0_dec q) as [C|_]; [contradiction|].
  assert (P : 0 < qnorm2 q).
  { destruct (Rle_lt_dec (qnorm2 q) 0) as [L|L]; [|exact L]. exfalso. apply N. destruct q as [w x y z]. unfold qnorm2, qdot in L. cbn in L.
    assert (w = 0) by (apply sq_zero; nra). assert (x = 0) by (apply sq_zero; nra). assert (y = 0) by (apply sq_zero; nra). assert (z = 0) by (apply sq_zero; nra). subst.
    assert (Z : close0 0) by (unfold close0, atol; rewrite Rabs_R0; lra). unfold qclose0, vclose0. cbn. auto. }
  pose proof (sqrt_sqrt (qnorm2 q) ltac:(lra)) as S. pose proof (sqrt_lt_R0 _ P) as SP.
  set (r := sqrt (qnorm2 q)) in *. unfold qunit, qnorm2, qdot, qscale in *. cbn [qw qx qy qz].
  replace (/ r * qw q * (/ r * qw q) + / r * qx q * (/ r * qx q) + / r * qy q * (/ r * qy q) + / r * qz q * (/ r * qz q))
    with (/ r * / r * (qw q * qw q + qx q * qx q + qy q * qy q + qz q * qz q)) by ring.
  rewrite <- S. clearbody r. field. lra.
Qed.

Lemma turn_opp n a : turn (vneg n) (- a) = turn n a.
Proof.
  unfold turn, vneg. destruct n as [x y z]. cbn. replace (- a / 2) with (- (a / 2)) by field. rewrite cos_neg, sin_neg. f_equal; ring.
Qed.
(** Every unit quaternion is a rotation by at most pi. *)
Lemma unit_turn q : qunit q -> turn_within PI q.
Proof.
  intros U. pose proof PI_RGT_0 as PP. unfold qunit, qnorm2, qdot in U.
  destruct (Rle_dec (dot (qvec q) (qvec q)) 0) as [L|L].
  - assert (X : qx q = 0 /\ qy q = 0 /\ qz q = 0) by (unfold dot, qvec in L; cbn in L; repeat split; apply sq_zero; nra). destruct X as (X & Y & Z).
    exists (V3 1 0 0), 0. split; [unfold dot; cbn; ring|]. split; [rewrite Rabs_R0; lra|].
    unfold turn. replace (0 / 2) with 0 by field. rewrite cos_0, sin_0. destruct q as [w x y z]. cbn in *. subst x y z.
    assert (H : (w - 1) * (w + 1) = 0) by nra. apply Rmult_integral in H. unfold qneg. cbn. destruct H; [left|right]; f_equal; lra.
  - apply Rnot_le_lt in L. set (v := qvec q) in *. assert (SV : vnorm v * vnorm v = dot v v) by (unfold vnorm; apply sqrt_sqrt; lra).
    assert (PV : 0 < vnorm v) by (unfold vnorm; now apply sqrt_lt_R0).
    assert (SU : qw q * qw q + vnorm v * vnorm v = 1) by (rewrite SV; unfold dot, v, qvec; cbn; lra).
    destruct (arctan2_unit (vnorm v) (qw q) SU) as (C & S & B).
    pose proof (arctan2_nonneg (vnorm v) (qw q) ltac:(lra)) as HN. set (h := arctan2 (vnorm v) (qw q)) in *. clearbody h.
    set (n := vscale (/ vnorm v) v).
    assert (UN : dot n n = 1).
    { unfold n. revert SV PV. generalize (vnorm v) as r. intros r SV PV. unfold dot, vscale in *. cbn [vx vy vz].
      replace (/ r * vx v * (/ r * vx v) + / r * vy v * (/ r * vy v) + / r * vz v * (/ r * vz v)) with (/ r * / r * (vx v * vx v + vy v * vy v + vz v * vz v)) by ring.
      rewrite <- SV. field. lra. }
    assert (EQ : q = Q4 (cos h) (sin h * vx n) (sin h * vy n) (sin h * vz n)).
    { rewrite C, S. unfold n, v, vscale in *. destruct q as [w x y z]. cbn in *. f_equal; field; lra. }
    destruct (Rle_dec h (PI / 2)) as [HL|HL].
    + exists n, (2 * h). split; [exact UN|]. split; [rewrite Rabs_right; lra|]. left. unfold turn. replace (2 * h / 2) with h by field. exact EQ.
    + exists n, (2 * h - 2 * PI). split; [exact UN|]. split; [rewrite Rabs_left1; lra|]. right. unfold turn. replace ((2 * h - 2 * PI) / 2) with (h - PI) by field.
      rewrite EQ. rewrite cos_minus, sin_minus, cos_PI, sin_PI. unfold qneg. cbn. f_equal; ring.
Qed.

(** A random quaternion is a rotation by at most [maxval]; for [maxval = pi] the four draws must not vanish. *)
Lemma random_turn m q : 0 <= m <= PI -> (m = PI -> ~ qclose0 q) -> turn_within m (quat_random_of m q).
Proof.
  intros Hm HP. pose proof PI_RGT_0 as PP. unfold quat_random_of.
  destruct (Req_EM_T m PI) as [E|NE]; [subst m; apply unit_turn, normalize4_unit, HP; reflexivity|].
  unfold quat_to_rot_axis. set (r := safe_normalize4 q).
  destruct (vclose0_dec (qvec r)) as [C|C].
  - assert (A : quat_angle r = 0).
    { destruct (qclose0_dec q) as [Z|Z]; [|apply quat_angle_close; [apply normalize4_unit, Z|exact C]].
      unfold r, safe_normalize4. destruct (qclose0_dec q); [|contradiction]. unfold quat_angle, safe_norm.
      destruct (vclose0_dec (qvec (Q4 0 0 0 0))) as [_|X]; [|exfalso; apply X, vclose0_zero]. cbn [qw]. rewrite arctan2_00, Rmult_0_r. apply wrap_0. }
    rewrite A. replace (- 0 * m / PI) with 0 by (field; lra). rewrite quat_rot_axis_0.
    exists (V3 1 0 0), 0. split; [unfold dot; cbn; ring|]. split; [rewrite Rabs_R0; lra|]. left. unfold turn, qone.
    replace (0 / 2) with 0 by field. rewrite cos_0, sin_0. f_equal; ring.
  - pose proof (safe_normalize_unit _ C) as U. set (n := safe_normalize (qvec r)) in *.
    pose proof (wrap_range (2 * arctan2 (safe_norm (qvec r)) (qw r))) as B. change (- PI <= quat_angle r < PI) in B.
    exists n, (- (- quat_angle r * m / PI)). split; [exact U|]. split.
    + replace (- (- quat_angle r * m / PI)) with (quat_angle r * (m / PI)) by (field; lra). rewrite Rabs_mult.
      assert (0 <= m / PI) by (apply Rmult_le_pos; [lra|]; apply Rlt_le, Rinv_0_lt_compat; lra).
      rewrite (Rabs_right (m / PI)) by lra.
      replace m with (PI * (m / PI)) at 2 by (field; lra). apply Rmult_le_compat_r; [lra|]. apply Rabs_le. lra.
    + left. unfold quat_rot_axis. rewrite safe_normalize_unit_id by exact U. reflexivity.
Qed.

Section Setup.
Context {K : Type}.
Variable g : rng K.
Variable gauss : R -> R.
Hypothesis FAIR : fair g.
Context {P G O : Type}.
Notation rsys := (System R (plink (params P)) G O).

(** ** Positions *)
Theorem C67_positions key (s : rsys) : exists s', randomize_positions g key s = Ok s' /\ same_frame s s' /\ same_springs s s' /\
  Forall2 (fun l l' => exists p, moved l p l' /\ (corners (pl_pmin l) (pl_pmax l) -> in_box (pl_pmin l) (pl_pmax l) p)) (links s) (links s').
Proof.
  eexists. split; [reflexivity|]. split; [repeat split|]. split; [repeat split|]. cbn [links with_links].
  generalize (links s) as ls. intros ls. revert key. induction ls as [|l ls IH]; intros key; cbn [positions_loop draw_pos_uniform]; [constructor|].
  constructor; [|apply IH]. eexists. split; [repeat split|]. intros (C1 & C2 & C3).
  unfold in_box. cbn [vx vy vz]. repeat split; apply scaled_in; auto; apply (fair_unif _ FAIR).
Qed.

(** ** Rotations *)
Lemma set_rot_nth i q (l : list quat) j : (i < length l)%nat -> nth_error (set_rot i q l) j = if Nat.eq_dec j i then Some q else nth_error l j.
Proof. intros H. unfold set_rot. rewrite <- list_set_split by exact H. now apply nth_error_list_set. Qed.
Lemma set_rots (names : list string) : NoDup names -> forall imus rots, (forall n, In n imus -> In n names) -> length rots = length names ->
  exists rots', foldM (fun rots imu => do i <- indexS imu names; Ok (set_rot i qone rots)) rots imus = Ok rots' /\ length rots' = length names /\
    forall i n, nth_error names i = Some n -> nth_error rots' i = if memS n imus then Some qone else nth_error rots i.
Proof.
  intros ND. induction imus as [|m imus IH]; intros rots IN L; cbn [foldM].
  - exists rots. split; [reflexivity|]. split; [exact L|reflexivity].
  - destruct (In_nth_error names m (IN m (or_introl eq_refl))) as (k & Hk).
    assert (Lk : (k < length rots)%nat) by (rewrite L; apply nth_error_Some; congruence).
    rewrite (proj2 (indexS_NoDup _ _ k ND) Hk). cbn [bind].
    destruct (IH (set_rot k qone rots)) as (rots' & E & L' & H).
    + intros n Hn. apply IN. now right.
    + unfold set_rot. rewrite <- list_set_split, length_list_set by exact Lk. exact L.
    + exists rots'. split; [exact E|]. split; [exact L'|]. intros i n Hi. rewrite (H i n Hi), set_rot_nth by exact Lk.
      cbn [memS existsb]. unfold memS. destruct (existsb (String.eqb n) imus) eqn:M; [now rewrite orb_true_r|]. rewrite orb_false_r.
      destruct (Nat.eq_dec i k) as [->|N].
      * replace n with m by congruence. now rewrite String.eqb_refl.
      * destruct (String.eqb_spec n m) as [->|]; [|reflexivity]. exfalso. apply N. eapply NoDup_nth_error; [exact ND| |congruence].
        apply nth_error_Some. congruence.
Qed.

Theorem C67_rotations key (s : rsys) maxval not_imus : length (links s) = num_links s -> length (link_names s) = num_links s -> NoDup (link_names s) ->
  0 <= maxval <= PI -> (maxval = PI -> forall i, (i < num_links s)%nat -> ~ qclose0 (quat_of_row (normals g gauss key (4 * num_links s)) i)) ->
  exists s', randomize_transform1_rot g gauss key s maxval not_imus = Ok s' /\ same_frame s s' /\ same_springs s s' /\ length (links s') = num_links s /\
    forall i n l l', nth_error (link_names s) i = Some n -> nth_error (links s) i = Some l -> nth_error (links s') i = Some l' ->
    exists q, turned l q l' /\ if not_imus && is_imu_name n then q = qone else turn_within maxval q.
Proof.
  intros LL LN ND M NZ. unfold randomize_transform1_rot. set (rots := quats_random g gauss key (num_links s) maxval).
  assert (LR : length rots = length (link_names s)) by (unfold rots, quats_random; rewrite map_length, seq_length; lia).
  assert (TR : forall i q, nth_error rots i = Some q -> turn_within maxval q).
  { intros i q E. unfold rots, quats_random in E. rewrite nth_error_map in E.
    destruct (nth_error (seq 0 (num_links s)) i) as [k|] eqn:Ek; [|discriminate]. cbn in E. injection E as <-.
    apply random_turn; [exact M|]. intros EP. apply (NZ EP). apply nth_error_In, in_seq in Ek. lia. }
  assert (X : exists rots', (if not_imus then foldM (fun rots imu => do i <- name_to_idx s imu; Ok (set_rot i qone rots)) rots (filter is_imu_name (link_names s)) else Ok rots) = Ok rots'
     /\ length rots' = length (link_names s) /\ forall i n, nth_error (link_names s) i = Some n -> nth_error rots' i = if not_imus && is_imu_name n then Some qone else nth_error rots i).
  { destruct not_imus.
    - destruct (set_rots (link_names s) ND (filter is_imu_name (link_names s)) rots) as (rots' & E & L' & H); [intros n Hn; now apply filter_In in Hn|exact LR|].
      exists rots'. split; [exact E|]. split; [exact L'|]. intros i n Hi. rewrite (H i n Hi). cbn [andb].
      destruct (is_imu_name n) eqn:IM.
      + replace (memS n (filter is_imu_name (link_names s))) with true; [reflexivity|]. symmetry. apply memS_In, filter_In. split; [|exact IM]. eapply nth_error_In; eauto.
      + replace (memS n (filter is_imu_name (link_names s))) with false; [reflexivity|]. symmetry. apply memS_false. intros Y. apply filter_In in Y. destruct Y. congruence.
    - exists rots. split; [reflexivity|]. split; [exact LR|reflexivity]. }
  destruct X as (rots' & -> & L' & H). cbn [bind]. rewrite (proj2 (Nat.eqb_eq (length rots') (length (links s)))) by lia. cbn [bind].
  eexists. split; [reflexivity|]. split; [repeat split|]. split; [repeat split|]. cbn [links with_links].
  split; [rewrite map_length, combine_length; lia|].
  intros i n l l' Hn Hl Hl'. rewrite nth_error_map in Hl'.
  assert (Hr : exists q, nth_error rots' i = Some q).
  { destruct (nth_error rots' i) as [q|] eqn:Y; [eauto|]. apply nth_error_None in Y. assert (i < length (link_names s))%nat by (apply nth_error_Some; congruence). lia. }
  destruct Hr as (q & Hq). rewrite (nth_combine _ _ i l q Hl Hq) in Hl'. cbn in Hl'. injection Hl' as <-.
  exists q. split; [repeat split|]. rewrite (H i n Hn) in Hq. destruct (not_imus && is_imu_name n); [congruence|]. eauto.
Qed.

(** ** Joint parameters *)
(** ** Attachments of IMUs *)
Lemma put_all_length idx : forall arr v, length (put_all arr idx v) = length arr.
Proof.
  induction idx as [|i idx IH]; intros arr [|x v]; cbn [put_all]; auto. rewrite IH. destruct (Nat.ltb_spec i (length arr)); [|reflexivity].
  rewrite <- list_set_split by assumption. apply length_list_set.
Qed.
Lemma put_all_app idx1 : forall arr v1 idx2 v2, length v1 = length idx1 -> put_all arr (idx1 ++ idx2) (v1 ++ v2) = put_all (put_all arr idx1 v1) idx2 v2.
Proof. induction idx1 as [|i idx IH]; intros arr [|x v] idx2 v2 L; cbn in L; try discriminate; cbn [app put_all]; [reflexivity|]. apply IH. lia. Qed.
Lemma put_all_seq v : forall arr o, (o + length v <= length arr)%nat -> put_all arr (seq o (length v)) v = firstn o arr ++ v ++ skipn (o + length v) arr.
Proof.
  induction v as [|x v IH]; intros arr o L; cbn [length seq put_all app] in *.
  - rewrite Nat.add_0_r. symmetry. apply firstn_skipn.
  - rewrite (proj2 (Nat.ltb_lt o (length arr))) by lia. rewrite IH by (rewrite app_length, firstn_length; cbn [length]; rewrite skipn_length; lia).
    replace (firstn (S o) (firstn o arr ++ x :: skipn (S o) arr)) with (firstn o arr ++ [x]).
    + rewrite <- app_assoc. cbn [app]. do 3 f_equal. rewrite skipn_app, skipn_firstn_comm. rewrite firstn_length, Nat.min_l by lia.
      replace (o - (S o + length v))%nat with 0%nat by lia. cbn [firstn app]. replace (S o + length v - o)%nat with (S (length v)) by lia.
      change (skipn (S (length v)) (x :: skipn (S o) arr)) with (skipn (length v) (skipn (S o) arr)).
      rewrite skipn_skipn. f_equal. lia.
    + rewrite firstn_app, firstn_firstn, firstn_length. rewrite (Nat.min_l o (length arr)) by lia. replace (S o - o)%nat with 1%nat by lia. now rewrite Nat.min_r by lia.
Qed.
Lemma put_piece ws xs ps i p v : splits ws xs ps -> nth_error ps i = Some p -> length v = length p ->
  exists sl, nth_error (slices_from 0 ws) i = Some sl /\ (snd sl - fst sl = length v)%nat /\
    put_all xs (seq (fst sl) (length v)) v = concat (list_set ps i v) /\ splits ws (concat (list_set ps i v)) (list_set ps i v).
Proof.
  intros SP E L. destruct (set_slice_piece ws xs ps i p v SP E L) as (sl & E1 & E2 & E3). exists sl. split; [exact E1|].
  destruct SP as [A B]. assert (Ew : nth_error ws i = Some (length p)) by (rewrite <- A, nth_error_map, E; reflexivity).
  rewrite (nth_slices_from ws 0 i _ Ew) in E1. cbn [Nat.add] in E1. injection E1 as <-. cbn [fst snd].
  split; [lia|]. split; [|exact E3].
  assert (LX : (list_sum (firstn i ws) + length p <= length xs)%nat).
  { rewrite <- B, concat_length, A. clear -Ew. unfold list_sum. revert i Ew. induction ws as [|w ws IH]; intros [|i] E; cbn in *; try discriminate; [injection E as ->; lia|]. specialize (IH i E). lia. }
  rewrite put_all_seq by lia. unfold set_slice, take_slice in E2. cbn [fst snd] in E2.
  rewrite firstn_length, skipn_length in E2. replace (Nat.min (list_sum (firstn i ws) + length p - list_sum (firstn i ws)) (length xs - list_sum (firstn i ws))) with (length p) in E2 by lia.
  rewrite L, Nat.eqb_refl in E2. injection E2 as <-. now rewrite L.
Qed.

Section Attach.
Variable W : widths.
Notation view := (link_view R (plink (params P)) O).

Lemma idx_map_d_spec (s : rsys) ws : length (link_names s) = num_links s -> length (link_types s) = num_links s -> NoDup (link_names s) ->
  have_widths (dW W) (link_types s) ws -> idx_map_d W s = Ok (combine (link_names s) (slices_from 0 ws)).
Proof.
  intros L3 L1 ND H. unfold idx_map_d. rewrite L3, Nat.eqb_refl. cbn [assert_ bind].
  rewrite (proj2 (idx_slices_spec (dW W) s (slices_from 0 ws) L1)) by eauto. cbn [bind]. f_equal.
  rewrite fold_dset_NoDup; [reflexivity|]. cbn [app].
  assert (L : length (link_names s) = length (slices_from 0 ws)).
  { rewrite slices_from_length. apply have_widths_length in H. lia. }
  revert ND L. clear. generalize (slices_from 0 ws) as l. induction (link_names s) as [|m ns IH]; intros [|x l] ND L; try discriminate; [constructor|].
  cbn [combine map fst]. inversion ND as [|? ? N1 N2]; subst. constructor.
  - intros Y. apply N1. apply in_map_iff in Y. destruct Y as ((a & b) & E & Y). cbn in E. subst a. eapply in_combine_l; eauto.
  - apply IH; auto.
Qed.

Definition respring (st d : list R) (v : view) : view :=
  mkView (v_name v) (v_type v) (v_link v) (v_omc v) d (v_armature v) st (v_zeropoint v).
Lemma respring_views (s : rsys) vs i j vi vj st1 st2 d1 d2 : views W s vs -> NoDup (link_names s) -> nth_error vs i = Some vi -> nth_error vs j = Some vj -> i <> j ->
  length st1 = length (v_stiffness vi) -> length d1 = length (v_damping vi) -> length st2 = length (v_stiffness vj) -> length d2 = length (v_damping vj) ->
  exists m a b st' d', idx_map_d W s = Ok m /\ dgetE String.eqb m (v_name vi) = Ok a /\ dgetE String.eqb m (v_name vj) = Ok b /\
    set_at_all (link_spring_stiffness s) (r_ a b) (st1 ++ st2) = Ok st' /\ set_at_all (link_damping s) (r_ a b) (d1 ++ d2) = Ok d' /\
    views W (with_springs d' st' s) (list_set (list_set vs i (respring st1 d1 vi)) j (respring st2 d2 vj)).
Proof.
  intros V ND Ei Ej NE L1 L2 L3 L4. destruct (views_lengths W _ _ V) as (N1 & N2 & N3 & N4 & N5).
  assert (Li : (i < length vs)%nat) by (apply nth_error_Some; congruence). assert (Lj : (j < length vs)%nat) by (apply nth_error_Some; congruence).
  pose proof V as (A1 & A2 & A3 & A4 & A5 & qs & ds & Q & D & A6 & A7 & A8 & A9).
  destruct (put_piece ds _ _ i (v_stiffness vi) st1 A8) as (sa & E1 & E2 & E3 & E4); [rewrite nth_error_map, Ei; reflexivity|auto|].
  destruct (put_piece ds _ _ i (v_damping vi) d1 A6) as (sa' & F1 & F2 & F3 & F4); [rewrite nth_error_map, Ei; reflexivity|auto|].
  assert (sa' = sa) by congruence. subst sa'.
  destruct (put_piece ds _ _ j (v_stiffness vj) st2 E4) as (sb & G1 & G2 & G3 & G4);
    [rewrite nth_error_list_set by (rewrite map_length; exact Li); destruct (Nat.eq_dec j i); [congruence|]; rewrite nth_error_map, Ej; reflexivity|auto|].
  destruct (put_piece ds _ _ j (v_damping vj) d2 F4) as (sb' & H1 & H2 & H3 & H4);
    [rewrite nth_error_list_set by (rewrite map_length; exact Li); destruct (Nat.eq_dec j i); [congruence|]; rewrite nth_error_map, Ej; reflexivity|auto|].
  assert (sb' = sb) by congruence. subst sb'.
  eexists _, sa, sb, _, _. split; [apply idx_map_d_spec; eauto|].
  split. { unfold dgetE. rewrite (dget_combine _ _ i (v_name vi) sa); auto. rewrite A1, nth_error_map, Ei. reflexivity. }
  split. { unfold dgetE. rewrite (dget_combine _ _ j (v_name vj) sb); auto. rewrite A1, nth_error_map, Ej. reflexivity. }
  assert (P1 : set_at_all (link_spring_stiffness s) (r_ sa sb) (st1 ++ st2) = Ok (concat (list_set (list_set (map v_stiffness vs) i st1) j st2))).
  { unfold set_at_all, r_. rewrite E2, G2. rewrite !app_length, !seq_length, Nat.eqb_refl. rewrite put_all_app by now rewrite seq_length. now rewrite E3, G3. }
  assert (P2 : set_at_all (link_damping s) (r_ sa sb) (d1 ++ d2) = Ok (concat (list_set (list_set (map v_damping vs) i d1) j d2))).
  { unfold set_at_all, r_. rewrite F2, H2. rewrite !app_length, !seq_length, Nat.eqb_refl. rewrite put_all_app by now rewrite seq_length. now rewrite F3, H3. }
  split; [exact P1|]. split; [exact P2|].
  unfold views, with_springs. cbn [link_names link_types links omc link_parents link_damping link_armature link_spring_stiffness link_spring_zeropoint].
  rewrite !length_list_set, !map_list_set. cbn [respring v_name v_type v_link v_omc v_damping v_armature v_stiffness v_zeropoint].
  assert (X : forall {B} (f : view -> B), list_set (list_set (map f vs) i (f vi)) j (f vj) = map f vs).
  { intros B f. rewrite (list_set_same (map f vs) i) by now rewrite nth_error_map, Ei. apply list_set_same. now rewrite nth_error_map, Ej. }
  rewrite !X. repeat (split; [assumption|]). exists qs, ds. auto 10.
Qed.

Lemma log_uniforms_in key n lo hi : 0 < lo <= hi -> exists l, log_uniforms g key n lo hi = Ok l /\ length l = n /\ Forall (fun x => lo <= x <= hi) l.
Proof.
  intros H. unfold log_uniforms, rle. destruct (Rle_dec 0 lo); [|lra]. destruct (Rle_dec lo hi); [|lra]. cbn [andb assert_ bind].
  eexists. split; [reflexivity|]. unfold uniforms. destruct (fair_units _ FAIR key n) as [L U]. split; [now rewrite !map_length|].
  apply Forall_map, Forall_map. eapply Forall_impl; [|exact U]. intros u Hu. cbv beta.
  assert (LL : ln lo <= ln hi) by (destruct (Req_dec lo hi) as [->|]; [lra|apply Rlt_le, ln_increasing; lra]).
  pose proof (scaled_in u (ln lo) (ln hi) Hu LL) as [B1 B2].
  split; [rewrite <- (exp_ln lo) at 1 by lra|rewrite <- (exp_ln hi) at 2 by lra].
  - destruct B1 as [B1| <-]; [apply Rlt_le, exp_increasing; exact B1|lra].
  - destruct B2 as [B2|B2]; [apply Rlt_le, exp_increasing; exact B2|rewrite B2; lra].
Qed.
Lemma three {A} (l : list A) : length l = 3%nat -> exists a b c, l = [a; b; c].
Proof. destruct l as [|a [|b [|c [|]]]]; cbn; intros H; try discriminate. eauto. Qed.
Lemma soft_of lo hi st fs : length st = 3%nat -> length fs = 3%nat -> Forall (fun x => lo <= x <= hi) st -> Forall (fun f => 5 / 100 <= f <= 5 / 10) fs ->
  soft_spring lo hi st (map (fun xy => fst xy * snd xy) (combine st fs)).
Proof.
  intros L1 L2 F1 F2. destruct (three _ L1) as (a & b & c & ->). destruct (three _ L2) as (x & y & z & ->).
  inversion F1 as [|? ? A1 F1']; subst. inversion F1' as [|? ? A2 F1'']; subst. inversion F1'' as [|? ? A3 _]; subst.
  inversion F2 as [|? ? B1 F2']; subst. inversion F2' as [|? ? B2 F2'']; subst. inversion F2'' as [|? ? B3 _]; subst.
  split; [reflexivity|]. split; [reflexivity|]. intros [|[|[|k]]] Hk; cbn [nth map combine fst snd]; [eauto|eauto|eauto|lia].
Qed.
Lemma nonrigid_soft key : exists rs rd ts td, stif_damp_nonrigid g key = Ok (rs ++ ts, rd ++ td) /\ soft_spring (2 / 10) 10 rs rd /\ soft_spring 25 1000 ts td.
Proof.
  unfold stif_damp_nonrigid.
  destruct (log_uniforms_in (r_split g key 3 0) 3 (2 / 10) 10) as (rs & -> & L1 & F1); [lra|]. cbn [bind].
  destruct (log_uniforms_in (r_split g key 3 1) 3 25 1000) as (ts & -> & L2 & F2); [lra|]. cbn [bind].
  destruct (log_uniforms_in (r_split g key 3 2) 6 (5 / 100) (5 / 10)) as (fs & -> & L3 & F3); [lra|]. cbn [bind].
  pose proof (firstn_skipn 3 fs) as EF. assert (La : length (firstn 3 fs) = 3%nat) by (rewrite firstn_length; lia). assert (Lb : length (skipn 3 fs) = 3%nat) by (rewrite skipn_length; lia).
  rewrite <- EF in F3. apply Forall_app in F3. destruct F3 as [Fa Fb].
  exists rs, (map (fun xy => fst xy * snd xy) (combine rs (firstn 3 fs))), ts, (map (fun xy => fst xy * snd xy) (combine ts (skipn 3 fs))).
  split; [|split; now apply soft_of]. do 2 f_equal. rewrite <- map_app. f_equal. rewrite <- EF at 1.
  destruct (three _ L1) as (a & b & c & ->). destruct (three _ La) as (x & y & z & ->). reflexivity.
Qed.

(** The loop over the IMUs. *)
Lemma ref_neq n m : is_imu_name m = true -> imu_reference_link_name n <> m.
Proof. intros H <-. unfold is_imu_name, prefix_eqb, imu_reference_link_name in H. cbn in H. destruct (substring 0 2 n); discriminate. Qed.
Lemma ref_inj n m : imu_reference_link_name n = imu_reference_link_name m -> n = m.
Proof. unfold imu_reference_link_name. congruence. Qed.

Lemma step_one o m key isr trig st d n (s : rsys) vs : views W (with_springs d st s) vs -> NoDup (link_names s) -> idx_map_d W s = Ok m -> is_imu_name n = true -> has_attachment vs n ->
  exists r isr' trig' st' d' vs', damp_step g o m (key, isr, trig, st, d) n = Ok (r_split g key 3 0, isr', trig', st', d') /\
    views W (with_springs d' st' s) vs' /\ length vs' = length vs /\
    (forall k v v', nth_error vs k = Some v -> nth_error vs' k = Some v' -> respringed v v' /\ (v_name v <> n -> v_name v <> imu_reference_link_name n -> v' = v) /\
        (length (v_stiffness v) = 3%nat -> length (v_stiffness v') = 3%nat) /\ (length (v_damping v) = 3%nat -> length (v_damping v') = 3%nat)) /\
    (forall ref imu, In ref vs' -> In imu vs' -> v_name ref = imu_reference_link_name n -> v_name imu = n -> attached r ref imu) /\
    (if rlt 0 (do_prob o) then
       trig' = trig ++ (if memS n (do_surely o) then [n] else []) /\ (memS n (do_surely o) = true -> r = true) /\
       (do_all o = true -> isr' = isr /\ (memS n (do_surely o) = false -> r = isr))
     else trig' = trig /\ r = false).
Proof.
  intros V ND EM IM (i & j & vi & vj & Ei & Ej & Ni & Nj & L1 & L2 & L3 & L4).
  change (String.append "_" n) with (imu_reference_link_name n) in Ni.
  assert (NE : i <> j). { intros ->. rewrite Ei in Ej. injection Ej as ->. apply (ref_neq n n IM). congruence. }
  assert (Li : (i < length vs)%nat) by (apply nth_error_Some; congruence). assert (Lj : (j < length vs)%nat) by (apply nth_error_Some; congruence).
  assert (PUT : forall rs ts rd td, length rs = 3%nat -> length ts = 3%nat -> length rd = 3%nat -> length td = 3%nat ->
    exists a b st' d', dgetE String.eqb m (imu_reference_link_name n) = Ok a /\ dgetE String.eqb m n = Ok b /\
      set_at_all st (r_ a b) (rs ++ ts) = Ok st' /\ set_at_all d (r_ a b) (rd ++ td) = Ok d' /\
      views W (with_springs d' st' s) (list_set (list_set vs i (respring rs rd vi)) j (respring ts td vj))).
  { intros rs ts rd td H1 H2 H3 H4.
    destruct (respring_views (with_springs d st s) vs i j vi vj rs ts rd td V ND Ei Ej NE) as (m' & a & b & st' & d' & E1 & E2 & E3 & E4 & E5 & E6); [congruence..|].
    change (idx_map_d W (with_springs d st s)) with (idx_map_d W s) in E1. assert (m' = m) by congruence. subst m'.
    exists a, b, st', d'. rewrite Ni in E2. rewrite Nj in E3. auto. }
  assert (KEEP : forall rs ts rd td r, length rs = 3%nat -> length ts = 3%nat -> length rd = 3%nat -> length td = 3%nat -> attached r (respring rs rd vi) (respring ts td vj) ->
    let vs' := list_set (list_set vs i (respring rs rd vi)) j (respring ts td vj) in
    length vs' = length vs /\
    (forall k v v', nth_error vs k = Some v -> nth_error vs' k = Some v' -> respringed v v' /\ (v_name v <> n -> v_name v <> imu_reference_link_name n -> v' = v) /\
        (length (v_stiffness v) = 3%nat -> length (v_stiffness v') = 3%nat) /\ (length (v_damping v) = 3%nat -> length (v_damping v') = 3%nat)) /\
    (forall ref imu, In ref vs' -> In imu vs' -> v_name ref = imu_reference_link_name n -> v_name imu = n -> attached r ref imu)).
  { intros rs ts rd td r H1 H2 H3 H4 AT vs'. assert (LV : length vs' = length vs) by (unfold vs'; now rewrite !length_list_set).
    assert (NV : forall k v', nth_error vs' k = Some v' -> (k = j /\ v' = respring ts td vj) \/ (k = i /\ v' = respring rs rd vi) \/ (k <> i /\ k <> j /\ nth_error vs k = Some v')).
    { intros k v' E. unfold vs' in E. rewrite nth_error_list_set in E by (rewrite length_list_set; exact Lj). destruct (Nat.eq_dec k j) as [->|]; [left; split; congruence|].
      rewrite nth_error_list_set in E by exact Li. destruct (Nat.eq_dec k i) as [->|]; [right; left; split; congruence|]. auto. }
    assert (NU : forall k v v2, nth_error vs k = Some v -> forall k2, nth_error vs k2 = Some v2 -> v_name v = v_name v2 -> k = k2).
    { intros k v v2 E k2 E2 X. destruct V as (A1 & _). cbn [link_names with_springs] in A1. rewrite A1 in ND. eapply (NoDup_nth_error_inj _ k k2 (v_name v) ND); rewrite nth_error_map; [rewrite E|rewrite E2]; cbn; congruence. }
    split; [exact LV|]. split.
    - intros k v v' E E'. destruct (NV k v' E') as [(-> & ->)|[(-> & ->)|(N1 & N2 & E2)]].
      + assert (v = vj) by congruence. subst v. split; [repeat split|]. split; [congruence|]. cbn. auto.
      + assert (v = vi) by congruence. subst v. split; [repeat split|]. split; [congruence|]. cbn. auto.
      + assert (v = v') by congruence. subst v. split; [repeat split|]. auto.
    - intros ref imu I1 I2 X1 X2. apply In_nth_error in I1. destruct I1 as (k1 & K1). apply In_nth_error in I2. destruct I2 as (k2 & K2).
      assert (ref = respring rs rd vi).
      { destruct (NV k1 ref K1) as [(-> & ->)|[(-> & ->)|(N1 & N2 & E2)]]; [|reflexivity|].
        - exfalso. cbn in X1. apply (ref_neq n n IM). congruence.
        - exfalso. apply N1. eapply NU; eauto. congruence. }
      assert (imu = respring ts td vj).
      { destruct (NV k2 imu K2) as [(-> & ->)|[(-> & ->)|(N1 & N2 & E2)]]; [reflexivity| |].
        - exfalso. cbn in X2. apply (ref_neq n n IM). congruence.
        - exfalso. apply N2. eapply NU; eauto. congruence. }
      subst. exact AT. }
  assert (RIGID : exists rs rd ts td, stif_damp_rigid = (rs ++ ts, rd ++ td) /\ length rs = 3%nat /\ length ts = 3%nat /\ length rd = 3%nat /\ length td = 3%nat /\
     attached true (respring rs rd vi) (respring ts td vj)).
  { exists (repeat 200 3), (repeat (200 / 5) 3), (repeat 20000 3), (repeat (20000 / 5) 3). split.
    - unfold stif_damp_rigid. cbn [repeat app map]. do 2 f_equal; try lra. repeat (f_equal; try lra).
    - repeat (split; [reflexivity|]). split; split; reflexivity. }
  assert (SOFT : exists rs rd ts td, stif_damp_nonrigid g (r_split g key 3 2) = Ok (rs ++ ts, rd ++ td) /\ length rs = 3%nat /\ length ts = 3%nat /\ length rd = 3%nat /\ length td = 3%nat /\
     attached false (respring rs rd vi) (respring ts td vj)).
  { destruct (nonrigid_soft (r_split g key 3 2)) as (rs & rd & ts & td & E & S1 & S2). exists rs, rd, ts, td. pose proof S1 as (H1 & H2 & _). pose proof S2 as (H3 & H4 & _).
    split; [exact E|]. do 4 (split; [assumption|]). split; [exact S1|exact S2]. }
  assert (GO : forall r isr' trig' rs rd ts td,
     (if rlt 0 (do_prob o) then
             if memS n (do_surely o) then Ok (isr, trig ++ [n], stif_damp_rigid)
             else let is_rigid := if do_all o then isr else bernoulli g (r_split g key 3 1) (do_prob o) in
                  do sd <- (if is_rigid then Ok stif_damp_rigid else stif_damp_nonrigid g (r_split g key 3 2)); Ok (is_rigid, trig, sd)
           else do sd <- stif_damp_nonrigid g (r_split g key 3 2); Ok (isr, trig, sd)) = Ok (isr', trig', (rs ++ ts, rd ++ td)) ->
     length rs = 3%nat -> length ts = 3%nat -> length rd = 3%nat -> length td = 3%nat -> attached r (respring rs rd vi) (respring ts td vj) ->
     exists st' d' vs', damp_step g o m (key, isr, trig, st, d) n = Ok (r_split g key 3 0, isr', trig', st', d') /\
    views W (with_springs d' st' s) vs' /\ length vs' = length vs /\
    (forall k v v', nth_error vs k = Some v -> nth_error vs' k = Some v' -> respringed v v' /\ (v_name v <> n -> v_name v <> imu_reference_link_name n -> v' = v) /\
        (length (v_stiffness v) = 3%nat -> length (v_stiffness v') = 3%nat) /\ (length (v_damping v) = 3%nat -> length (v_damping v') = 3%nat)) /\
    (forall ref imu, In ref vs' -> In imu vs' -> v_name ref = imu_reference_link_name n -> v_name imu = n -> attached r ref imu)).
  { intros r isr' trig' rs rd ts td ER H1 H2 H3 H4 AT. destruct (PUT rs ts rd td H1 H2 H3 H4) as (a & b & st' & d' & E2 & E3 & E4 & E5 & E6).
    destruct (KEEP rs ts rd td r H1 H2 H3 H4 AT) as (K1 & K2 & K3).
    exists st', d', (list_set (list_set vs i (respring rs rd vi)) j (respring ts td vj)). split; [|auto].
    unfold damp_step. rewrite E2, E3. cbn [bind]. cbv zeta in ER |- *. rewrite ER. cbn [bind]. rewrite E4, E5. reflexivity. }
  destruct RIGID as (rs & rd & ts & td & ER & R1 & R2 & R3 & R4 & R5). destruct SOFT as (rs' & rd' & ts' & td' & ES & S1 & S2 & S3 & S4 & S5).
  rewrite ER, ES in GO. clear PUT KEEP.
  destruct (rlt 0 (do_prob o)).
  - destruct (memS n (do_surely o)) eqn:MS.
    + destruct (GO true isr (trig ++ [n]) rs rd ts td eq_refl R1 R2 R3 R4 R5) as (st' & d' & vs' & X). exists true, isr, (trig ++ [n]), st', d', vs'.
      destruct X as (X1 & X2 & X3 & X4 & X5). repeat (split; [assumption|]). split; [reflexivity|]. split; [reflexivity|]. intros _. split; [reflexivity|discriminate].
    + set (b := if do_all o then isr else bernoulli g (r_split g key 3 1) (do_prob o)) in *.
      assert (BI : do_all o = true -> b = isr) by (unfold b; intros ->; reflexivity). clearbody b. destruct b.
      * destruct (GO true true trig rs rd ts td eq_refl R1 R2 R3 R4 R5) as (st' & d' & vs' & X1 & X2 & X3 & X4 & X5). exists true, true, trig, st', d', vs'.
        repeat (split; [assumption|]). rewrite app_nil_r. split; [reflexivity|]. split; [discriminate|]. auto.
      * destruct (GO false false trig rs' rd' ts' td' eq_refl S1 S2 S3 S4 S5) as (st' & d' & vs' & X1 & X2 & X3 & X4 & X5). exists false, false, trig, st', d', vs'.
        repeat (split; [assumption|]). rewrite app_nil_r. split; [reflexivity|]. split; [discriminate|]. auto.
  - destruct (GO false isr trig rs' rd' ts' td' eq_refl S1 S2 S3 S4 S5) as (st' & d' & vs' & X1 & X2 & X3 & X4 & X5). exists false, isr, trig, st', d', vs'. auto 10.
Qed.

Lemma idx_map_views (s : rsys) vs : views W s vs -> NoDup (link_names s) -> exists m, idx_map_d W s = Ok m.
Proof.
  intros V ND. destruct (views_lengths W _ _ V) as (N1 & N2 & N3 & N4 & N5). pose proof V as (A1 & A2 & A3 & A4 & A5 & qs & ds & Q & D & _).
  eexists. apply idx_map_d_spec; eauto.
Qed.
Lemma damp_loop o m (s : rsys) : NoDup (link_names s) -> idx_map_d W s = Ok m -> forall l key isr trig st d vs,
  views W (with_springs d st s) vs -> Forall (fun n => is_imu_name n = true) l -> NoDup l -> (forall n, In n l -> has_attachment vs n) ->
  exists (rigid : string -> bool) key' isr' trig' st' d' vs', foldM (damp_step g o m) (key, isr, trig, st, d) l = Ok (key', isr', trig', st', d') /\
    views W (with_springs d' st' s) vs' /\ length vs' = length vs /\
    (forall k v v', nth_error vs k = Some v -> nth_error vs' k = Some v' -> respringed v v' /\
        ((forall n, In n l -> v_name v <> n /\ v_name v <> imu_reference_link_name n) -> v' = v)) /\
    (forall n ref imu, In n l -> In ref vs' -> In imu vs' -> v_name ref = imu_reference_link_name n -> v_name imu = n -> attached (rigid n) ref imu) /\
    (if rlt 0 (do_prob o) then
       trig' = trig ++ filter (fun n => memS n (do_surely o)) l /\
       (forall n, In n l -> In n (do_surely o) -> rigid n = true) /\
       (do_all o = true -> forall n, In n l -> ~ In n (do_surely o) -> rigid n = isr)
     else trig' = trig /\ forall n, In n l -> rigid n = false).
Proof.
  intros ND EM. induction l as [|n l IH]; intros key isr trig st d vs V IM NL HA; cbn [foldM].
  - exists (fun _ => false), key, isr, trig, st, d, vs. split; [reflexivity|]. split; [exact V|]. split; [reflexivity|].
    split; [intros k v v' E E'; assert (v' = v) by congruence; subst; split; [repeat split|reflexivity]|]. split; [intros ? ? ? []|].
    destruct (rlt 0 (do_prob o)); [cbn [filter]; rewrite app_nil_r|]; repeat (split; [reflexivity|]); [split; intros; contradiction|intros ? []].
  - inversion IM as [|? ? I1 I2]; subst. inversion NL as [|? ? N1 N2]; subst.
    destruct (step_one o m key isr trig st d n s vs V ND EM I1 (HA n (or_introl eq_refl))) as (r & isr1 & trig1 & st1 & d1 & vs1 & E1 & V1 & L1 & K1 & A1 & P1).
    rewrite E1. cbn [bind].
    destruct (IH (r_split g key 3 0) isr1 trig1 st1 d1 vs1 V1 I2 N2) as (rigid & key2 & isr2 & trig2 & st2 & d2 & vs2 & E2 & V2 & L2 & K2 & A2 & P2).
    { intros x Hx. destruct (HA x (or_intror Hx)) as (i & j & vi & vj & Ei & Ej & Ni & Nj & X1 & X2 & X3 & X4).
      destruct (nth_error vs1 i) as [wi|] eqn:Wi; [|apply nth_error_None in Wi; assert (i < length vs)%nat by (apply nth_error_Some; congruence); lia].
      destruct (nth_error vs1 j) as [wj|] eqn:Wj; [|apply nth_error_None in Wj; assert (j < length vs)%nat by (apply nth_error_Some; congruence); lia].
      destruct (K1 i vi wi Ei Wi) as ((Y1 & _) & _ & Y2 & Y3). destruct (K1 j vj wj Ej Wj) as ((Z1 & _) & _ & Z2 & Z3).
      exists i, j, wi, wj. split; [exact Wi|]. split; [exact Wj|]. split; [congruence|]. split; [congruence|]. auto. }
    exists (fun x => if String.eqb x n then r else rigid x), key2, isr2, trig2, st2, d2, vs2.
    split; [exact E2|]. split; [exact V2|]. split; [congruence|].
    assert (SAME : forall k w, nth_error vs2 k = Some w -> (v_name w = n \/ v_name w = imu_reference_link_name n) -> nth_error vs1 k = Some w).
    { intros k w Ew D. destruct (nth_error vs1 k) as [w1|] eqn:W1; [|apply nth_error_None in W1; assert (k < length vs2)%nat by (apply nth_error_Some; congruence); lia].
      destruct (K2 k w1 w W1 Ew) as ((Y1 & _) & Y2). rewrite Y2; [reflexivity|]. rewrite Forall_forall in I2. intros x Hx. rewrite <- Y1. specialize (I2 x Hx). destruct D as [-> | ->]; split.
      - congruence.
      - intros Z. apply (ref_neq x n I1). now symmetry.
      - now apply ref_neq.
      - intros Z. apply ref_inj in Z. congruence. }
    split; [|split].
    + intros k v v' E E'. destruct (nth_error vs1 k) as [w|] eqn:Wk; [|apply nth_error_None in Wk; assert (k < length vs)%nat by (apply nth_error_Some; congruence); lia].
      destruct (K1 k v w E Wk) as ((Y1 & Y2 & Y3 & Y4 & Y5 & Y6) & Y & _). destruct (K2 k w v' Wk E') as ((Z1 & Z2 & Z3 & Z4 & Z5 & Z6) & Z).
      split; [repeat split; congruence|]. intros F. rewrite Z; [apply Y|]; [apply (F n); now left|apply (F n); now left|]. intros x Hx. rewrite Y1. apply F. now right.
    + intros x ref imu Hx I3 I4 X1 X2. destruct (String.eqb_spec x n) as [->|NE].
      * apply In_nth_error in I3. destruct I3 as (k3 & I3). apply In_nth_error in I4. destruct I4 as (k4 & I4).
        apply A1; auto; eapply nth_error_In; eapply SAME; eauto.
      * destruct Hx as [Hx|Hx]; [congruence|]. now apply A2.
    + destruct (rlt 0 (do_prob o)).
      * destruct P1 as (-> & P12 & P13). destruct P2 as (-> & P22 & P23). split; [|split].
        -- rewrite <- app_assoc. cbn [filter]. destruct (memS n (do_surely o)); reflexivity.
        -- intros x Hx Sx. destruct (String.eqb_spec x n) as [->|NE]; [apply P12; now apply memS_In|]. destruct Hx as [Hx|Hx]; [congruence|]. now apply P22.
        -- intros AL x Hx Sx. destruct (P13 AL) as [-> Q]. destruct (String.eqb_spec x n) as [->|NE]; [apply Q; now apply memS_false|]. destruct Hx as [Hx|Hx]; [congruence|]. now apply P23.
      * destruct P1 as (-> & ->). destruct P2 as (-> & P22). split; [reflexivity|]. intros x Hx. destruct (String.eqb_spec x n); [reflexivity|]. destruct Hx as [Hx|Hx]; [congruence|]. now apply P22.
Qed.

(** The attachments of the IMUs, and the requests that are refused. *)
Theorem C67_attachments o key (s : rsys) vs : views W s vs -> NoDup (link_names s) -> (forall n, In n (findall_imus s) -> has_attachment vs n) ->
  0 <= do_prob o < 1 -> (do_prob o = 0 -> do_surely o = []) -> NoDup (do_surely o) -> (forall n, In n (do_surely o) -> In n (findall_imus s)) ->
  exists s' vs' (rigid : string -> bool), randomize_damping_stiffness g W o key s = Ok s' /\ views W s' vs' /\ same_frame s s' /\ links s' = links s /\
    Forall2 (fun v v' => respringed v v' /\ ((forall n, In n (findall_imus s) -> v_name v <> n /\ v_name v <> String.append "_" n) -> v' = v)) vs vs' /\
    (forall n ref imu, In n (findall_imus s) -> In ref vs' -> In imu vs' -> v_name ref = String.append "_" n -> v_name imu = n -> attached (rigid n) ref imu) /\
    (forall n, In n (do_surely o) -> rigid n = true) /\
    (do_prob o = 0 -> forall n, In n (findall_imus s) -> rigid n = false) /\
    (do_all o = true -> forall n n', In n (findall_imus s) -> In n' (findall_imus s) -> ~ In n (do_surely o) -> ~ In n' (do_surely o) -> rigid n = rigid n').
Proof.
  intros V ND HA PR P0 NS IS. unfold randomize_damping_stiffness, rle.
  destruct (Rle_dec 0 (do_prob o)); [|lra]. destruct (Rle_dec (do_prob o) 1); [|lra]. cbn [andb assert_ bind].
  destruct (Req_EM_T (do_prob o) 1) as [P1|P1]; [lra|]. cbn [assert_ bind].
  replace (if Req_EM_T (do_prob o) 0 then assert_ (Datatypes.length (do_surely o) =? 0)%nat else Ok tt) with (@Ok unit tt) by (destruct (Req_EM_T (do_prob o) 0); [rewrite P0 by assumption|]; reflexivity).
  cbn [bind]. destruct (idx_map_views s vs V ND) as (m & EM). rewrite EM. cbn [bind].
  assert (V0 : views W (with_springs (link_damping s) (link_spring_stiffness s) s) vs) by (destruct s; exact V).
  destruct (damp_loop o m s ND EM (findall_imus s) (r_split g key 2 0) (bernoulli g (r_split g key 2 1) (do_prob o)) [] (link_spring_stiffness s) (link_damping s) vs V0) as (rigid & key2 & isr2 & trig2 & st2 & d2 & vs2 & E2 & V2 & L2 & K2 & A2 & P2).
  { apply Forall_forall. intros n Hn. apply filter_In in Hn. apply Hn. }
  { unfold findall_imus. now apply NoDup_filter. }
  { exact HA. }
  rewrite E2. cbn [bind].
  assert (T : (length (do_surely o) =? length trig2)%nat = true /\ forallb (fun n => memS n trig2) (do_surely o) = true).
  { unfold rlt in P2. destruct (Rlt_dec 0 (do_prob o)) as [PP|PP].
    - destruct P2 as (-> & _). cbn [app].
      assert (X : forall n, In n (do_surely o) <-> In n (filter (fun n => memS n (do_surely o)) (findall_imus s))).
      { intros n. rewrite filter_In, memS_In. split; [intros H; split; [now apply IS|exact H]|tauto]. }
      split; [|apply forallb_forall; intros n Hn; apply memS_In; now apply X].
      apply Nat.eqb_eq. apply Nat.le_antisymm; apply NoDup_incl_length; try assumption; [intros n Hn; now apply X|apply NoDup_filter; unfold findall_imus; now apply NoDup_filter|intros n Hn; now apply X].
    - destruct P2 as (-> & _). rewrite P0 by lra. split; reflexivity. }
  destruct T as [T1 T2]. rewrite T1, T2. cbn [assert_ bind].
  exists (with_springs d2 st2 s), vs2, rigid. split; [reflexivity|]. split; [exact V2|]. split; [repeat split|]. split; [reflexivity|].
  split; [|split; [exact A2|split; [|split]]].
  - apply Forall2_nth_iff. split; [congruence|]. intros k v v' E E'. now apply (K2 k).
  - intros n Hn. unfold rlt in P2. destruct (Rlt_dec 0 (do_prob o)) as [PP|PP]; [apply P2; auto|]. rewrite P0 in Hn by lra. destruct Hn.
  - intros Z n Hn. unfold rlt in P2. destruct (Rlt_dec 0 (do_prob o)) as [PP|PP]; [lra|]. now apply P2.
  - intros AL n n' H1 H2 H3 H4. unfold rlt in P2. destruct (Rlt_dec 0 (do_prob o)) as [PP|PP].
    + destruct P2 as (_ & _ & P2). now rewrite !P2.
    + destruct P2 as (_ & P2). now rewrite !P2.
Qed.
Theorem C67_attachments_refused o key (s s' : rsys) vs : views W s vs -> NoDup (link_names s) -> (forall n, In n (findall_imus s) -> has_attachment vs n) ->
  randomize_damping_stiffness g W o key s = Ok s' ->
  0 <= do_prob o < 1 /\ (do_prob o = 0 -> do_surely o = []) /\ NoDup (do_surely o) /\ (forall n, In n (do_surely o) -> In n (findall_imus s)).
Proof.
  intros V ND HA. unfold randomize_damping_stiffness, rle.
  destruct (Rle_dec 0 (do_prob o)); [|discriminate]. destruct (Rle_dec (do_prob o) 1); [|discriminate]. cbn [andb assert_ bind].
  destruct (Req_EM_T (do_prob o) 1) as [P1|P1]; [discriminate|]. cbn [assert_ bind].
  intros H. apply bind_Ok in H. destruct H as (u & H0 & H).
  assert (P0 : do_prob o = 0 -> do_surely o = []).
  { intros Z. destruct (Req_EM_T (do_prob o) 0); [|contradiction]. destruct (do_surely o); [reflexivity|discriminate]. }
  destruct (idx_map_views s vs V ND) as (m & EM). rewrite EM in H. cbn [bind] in H.
  assert (V0 : views W (with_springs (link_damping s) (link_spring_stiffness s) s) vs) by (destruct s; exact V).
  destruct (damp_loop o m s ND EM (findall_imus s) (r_split g key 2 0) (bernoulli g (r_split g key 2 1) (do_prob o)) [] (link_spring_stiffness s) (link_damping s) vs V0) as (rigid & key2 & isr2 & trig2 & st2 & d2 & vs2 & E2 & V2 & L2 & K2 & A2 & P2).
  { apply Forall_forall. intros n Hn. apply filter_In in Hn. apply Hn. }
  { unfold findall_imus. now apply NoDup_filter. }
  { exact HA. }
  rewrite E2 in H. cbn [bind] in H.
  destruct (length (do_surely o) =? length trig2)%nat eqn:T1; [|discriminate]. cbn [assert_ bind] in H.
  destruct (forallb (fun n => memS n trig2) (do_surely o)) eqn:T2; [|discriminate]. clear H.
  apply Nat.eqb_eq in T1. rewrite forallb_forall in T2. split; [lra|]. split; [exact P0|].
  unfold rlt in P2. destruct (Rlt_dec 0 (do_prob o)) as [PP|PP]; [|rewrite P0 by lra; split; [constructor|intros ? []]].
  destruct P2 as (-> & _). cbn [app] in T1, T2. split.
  - eapply NoDup_incl_NoDup; [|rewrite <- T1; apply Nat.le_refl|].
    + apply NoDup_filter. unfold findall_imus. now apply NoDup_filter.
    + intros n Hn. apply filter_In in Hn. now apply memS_In.
  - intros n Hn. specialize (T2 n Hn). apply memS_In in T2. apply filter_In in T2. apply T2.
Qed.
End Attach.

Section Params.
Variable inits : string -> option (option (K -> P)).
Variable pdefault : P.

Lemma init_fns_spec types : forall acc, (forall t, In t types -> inits t <> None) -> (forall t f, dget String.eqb acc t = Some f -> inits t = Some (Some f)) ->
  exists fns, init_fns inits types acc = Ok fns /\ forall t f, dget String.eqb fns t = Some f <-> (dget String.eqb acc t = Some f \/ (In t types /\ inits t = Some (Some f))).
Proof.
  induction types as [|typ r IH]; intros acc R A; cbn [init_fns].
  - exists acc. split; [reflexivity|]. intros t f. split; [auto|]. intros [X|[[] _]]. exact X.
  - destruct (dmem String.eqb acc typ) eqn:M.
    + destruct (IH acc) as (fns & E & H); [intros t Ht; apply R; now right|exact A|]. exists fns. split; [exact E|]. intros t f. rewrite H. split.
      * intros [X|[X Y]]; [now left|right; split; [now right|exact Y]].
      * intros [X|[[<-|X] Y]]; [now left| |right; auto]. left. unfold dmem in M. destruct (dget String.eqb acc typ) as [f0|] eqn:D; [|discriminate].
        apply A in D as D'. congruence.
    + assert (D : dget String.eqb acc typ = None) by (unfold dmem in M; destruct (dget String.eqb acc typ); congruence).
      destruct (inits typ) as [[f0|]|] eqn:IT; [| |exfalso; apply (R typ); [now left|exact IT]].
      * assert (DA : forall t, dget String.eqb (acc ++ [(typ, f0)]) t = match dget String.eqb acc t with Some f => Some f | None => if String.eqb t typ then Some f0 else None end).
        { clear. intros t. induction acc as [|[a b] l IH]; cbn [dget app]; [reflexivity|]. destruct (String.eqb t a); [reflexivity|exact IH]. }
        destruct (IH (acc ++ [(typ, f0)])) as (fns & E & H).
        -- intros t Ht. apply R. now right.
        -- intros t f. rewrite DA. destruct (dget String.eqb acc t) eqn:Y; [intros Z; injection Z as <-; now apply A|].
           destruct (String.eqb_spec t typ) as [->|]; [intros Z; injection Z as <-; exact IT|discriminate].
        -- exists fns. split; [exact E|]. intros t f. rewrite H, DA. split.
           ++ intros [X|[X Y]]; [|right; split; [now right|exact Y]].
              destruct (dget String.eqb acc t) eqn:Y; [now left|]. destruct (String.eqb_spec t typ) as [->|]; [|discriminate]. right. split; [now left|]. congruence.
           ++ intros [X|[[<-|X] Y]]; [left; now rewrite X| |right; auto]. left. rewrite D, String.eqb_refl. congruence.
      * destruct (IH acc) as (fns & E & H); [intros t Ht; apply R; now right|exact A|]. exists fns. split; [exact E|]. intros t f. rewrite H. split.
        -- intros [X|[X Y]]; [now left|right; split; [now right|exact Y]].
        -- intros [X|[[<-|X] Y]]; [now left|congruence|right; auto].
Qed.
Lemma init_loop_get (fns : list (string * (K -> P))) : forall (key : K) (n i : nat) t,
  match dget String.eqb fns t with
  | Some f => exists k, dget String.eqb (init_loop g key n fns i) t = Some (f k)
  | None => dget String.eqb (init_loop g key n fns i) t = None end.
Proof.
  induction fns as [|[a f] r IH]; intros key n i t; cbn [dget init_loop]; [reflexivity|].
  destruct (String.eqb t a); [eauto|]. apply IH.
Qed.

Theorem C67_parameters key (s : rsys) : length (links s) = num_links s -> length (link_types s) = num_links s ->
  ((exists t, In t (link_types s) /\ inits t = None) -> init_joint_params g inits pdefault key s = Err EKey) /\
  ((forall t, In t (link_types s) -> inits t <> None) ->
   exists s', init_joint_params g inits pdefault key s = Ok s' /\ same_frame s s' /\ same_springs s s' /\ length (links s') = num_links s /\
     forall i t l l', nth_error (link_types s) i = Some t -> nth_error (links s) i = Some l -> nth_error (links s') i = Some l' -> t <> "default"%string ->
     exists j, parametrised l j l' /\
       match inits t with
       | Some (Some draw) => exists k, limit_scope t j = Ok (draw k)
       | _ => limit_scope t j = Ok pdefault
       end).
Proof.
  intros LL LT. split.
  - intros (t & IN & N). unfold init_joint_params.
    enough (init_fns inits (link_types s) [] = Err EKey) as -> by reflexivity.
    clear LT. assert (D : dget String.eqb (@nil (string * (K -> P))) t = None) by reflexivity. revert D IN. generalize (@nil (string * (K -> P))) as acc.
    induction (link_types s) as [|u r IH]; intros acc D IN; [destruct IN|]. cbn [init_fns].
    destruct (String.eqb_spec t u) as [<-|NE]; [unfold dmem; now rewrite D, N|].
    assert (IN' : In t r) by (destruct IN as [X|X]; [congruence|exact X]). clear IN.
    assert (X : forall f, dget String.eqb (acc ++ [(u, f)]) t = None).
    { intros f. clear -D NE. induction acc as [|[a b] l IHl]; cbn [dget app] in *; [apply String.eqb_neq in NE; now rewrite NE|]. destruct (String.eqb t a); [discriminate|auto]. }
    destruct (dmem String.eqb acc u); [now apply IH|]. destruct (inits u) as [[f|]|]; [|now apply IH|reflexivity]. apply IH; [apply X|exact IN'].
  - intros R. unfold init_joint_params. destruct (init_fns_spec (link_types s) [] R) as (fns & -> & H); [discriminate|]. cbn [bind].
    rewrite (proj2 (Nat.eqb_eq (num_links s) (length (links s)))) by lia. cbn [bind].
    eexists. split; [reflexivity|]. split; [repeat split|]. split; [repeat split|]. cbn [links with_links].
    split; [rewrite map_length, combine_length, seq_length; lia|].
    intros i t l l' Ht Hl Hl' ND. rewrite nth_error_map in Hl'.
    assert (Li : (i < num_links s)%nat) by (rewrite <- LL; apply nth_error_Some; congruence).
    assert (Hs : nth_error (seq 0 (num_links s)) i = Some i) by (rewrite nth_error_nth' with (d := 0%nat) by (rewrite seq_length; exact Li); now rewrite seq_nth).
    rewrite (nth_combine _ _ i i l Hs Hl) in Hl'. cbn [option_map fst snd] in Hl'. injection Hl' as <-.
    exists (dset String.eqb (init_loop g key (num_links s) fns i) "default"%string pdefault). split; [repeat split|].
    pose proof (init_loop_get fns key (num_links s) i t) as Y.
    assert (IN : In t (link_types s)) by (eapply nth_error_In; eauto).
    unfold limit_scope, dmem, dgetE. rewrite (dget_dset_other _ String.eqb_eq) by exact ND. rewrite (dget_dset_same _ String.eqb_eq).
    destruct (dget String.eqb fns t) as [f|] eqn:DF.
    + apply H in DF. destruct DF as [DF|[_ DF]]; [discriminate|]. rewrite DF. destruct Y as (k & ->). now exists k.
    + rewrite Y. destruct (inits t) as [[f|]|] eqn:IT; [|reflexivity..]. exfalso. assert (dget String.eqb fns t = Some f) by (apply H; auto). congruence.
Qed.
End Params.
End Setup.

(** ** A concrete case: a body with an IMU attached by springs; the middle generator. *)
Definition sprung : System R (plink (params unit)) geometry unit :=
  mkSys [-1; 0; 1]%Z
    [demo_link vzero qone [demo_box]; demo_link (V3 1 0 0) qtilt []; demo_link (V3 0 1 0) qone [demo_ball]]
    ["ry"; "spherical"; "p3d"]%string
    (repeat 0 7) (repeat 0 7) (repeat 1 7) [0; 1; 0; 0; 0; 0; 0; 0] (1 / 100)
    [(0%Z, demo_box); (2%Z, demo_ball)]
    [0; 0; 981 / 100] "semi_implicit_euler" 0 ["arm"; "_imu1"; "imu1"]%string None [tt; tt; tt].
Definition sprung_views : list (link_view R (plink (params unit)) unit) :=
  [mkView "arm" "ry" (demo_link vzero qone [demo_box]) tt [0] [0] [1] [0];
   mkView "_imu1" "spherical" (demo_link (V3 1 0 0) qtilt []) tt [0; 0; 0] [0; 0; 0] [1; 1; 1] [1; 0; 0; 0];
   mkView "imu1" "p3d" (demo_link (V3 0 1 0) qone [demo_ball]) tt [0; 0; 0] [0; 0; 0] [1; 1; 1] [0; 0; 0]]%string.
Lemma sprung_ok : views builtin_widths sprung sprung_views.
Proof.
  unfold views. do 5 (split; [reflexivity|]). exists [1; 4; 3]%nat, [1; 3; 3]%nat.
  split; [repeat apply Forall2_cons; try reflexivity; apply Forall2_nil|]. split; [repeat apply Forall2_cons; try reflexivity; apply Forall2_nil|].
  repeat split.
Qed.
Lemma sprung_names : NoDup (link_names sprung). Proof. cbn. repeat constructor; cbn [In]; intuition discriminate. Qed.
Lemma sprung_attached n : In n (findall_imus sprung) -> has_attachment sprung_views n.
Proof. intros [<-|[]]. exists 1%nat, 2%nat, (nth 1 sprung_views (nth 0 sprung_views (mkView "" "" (demo_link vzero qone []) tt [] [] [] []))), (nth 2 sprung_views (nth 0 sprung_views (mkView "" "" (demo_link vzero qone []) tt [] [] [] []))). repeat split. Qed.
Example C67_attachments_nonvacuous : exists s', randomize_damping_stiffness middle builtin_widths (mkDampO (1 / 2) false ["imu1"%string]) tt sprung = Ok s' /\
  link_spring_stiffness s' = [1; 200; 200; 200; 20000; 20000; 20000] /\ link_damping s' = [0; 200 / 5; 200 / 5; 200 / 5; 20000 / 5; 20000 / 5; 20000 / 5].
Proof.
  destruct (C67_attachments middle middle_fair builtin_widths (mkDampO (1 / 2) false ["imu1"%string]) tt sprung sprung_views sprung_ok sprung_names sprung_attached) as (s' & vs' & rigid & E & V & _ & _ & F & A & S & _).
  - cbn. lra.
  - cbn. lra.
  - repeat constructor; intros [].
  - intros n [<-|[]]. now left.
  - exists s'. split; [exact E|]. specialize (S "imu1"%string (or_introl eq_refl)).
    inversion F as [|? v0 ? l0 [[B0 _] K0] F0]; subst. inversion F0 as [|? v1 ? l1 [[B1 _] K1] F1]; subst. inversion F1 as [|? v2 ? l2 [[B2 _] K2] F2]; subst. inversion F2; subst.
    specialize (A "imu1"%string v1 v2 (or_introl eq_refl) (or_intror (or_introl eq_refl)) (or_intror (or_intror (or_introl eq_refl))) B1 B2). rewrite S in A.
    destruct A as [[X1 X2] [X3 X4]]. specialize (K0 ltac:(intros n [<-|[]]; split; discriminate)). subst v0.
    destruct V as (_ & _ & _ & _ & _ & qs & ds & _ & _ & (_ & D1) & _ & (_ & D2) & _). cbn [map concat] in D1, D2. rewrite X2, X4 in D1. rewrite X1, X3 in D2. cbn in D1, D2.
    split; [now symmetry|now symmetry].
Qed.
Example C67_attachments_refused_nonvacuous : exists e, randomize_damping_stiffness middle builtin_widths (mkDampO (1 / 2) false ["imu1"; "imu2"]%string) tt sprung = Err e.
Proof.
  destruct (randomize_damping_stiffness middle builtin_widths (mkDampO (1 / 2) false ["imu1"; "imu2"]%string) tt sprung) as [s'|e] eqn:E; [|eauto]. exfalso.
  destruct (C67_attachments_refused middle middle_fair builtin_widths _ tt sprung s' sprung_views sprung_ok sprung_names sprung_attached E) as (_ & _ & _ & X).
  destruct (X "imu2"%string) as [Y|[]]; [right; now left|discriminate].
Qed.
Example C67_positions_nonvacuous : Forall (fun l => corners (pl_pmin l) (pl_pmax l)) (links demo).
Proof. repeat constructor; cbn; lra. Qed.
Example C67_parameters_nonvacuous : forall t, In t (link_types demo) -> (fun t => if String.eqb t "ry" then Some (Some (fun _ : unit => tt)) else Some None) t <> None.
Proof. intros t _. cbv beta. destruct (String.eqb t "ry"); discriminate. Qed.

(** Not excluded by the code: when all four normal numbers are zero and full turns are allowed, the drawn "rotation" is the zero quaternion. *)
Theorem C67_rotations_refuted : exists gauss s', randomize_transform1_rot middle gauss tt sprung PI false = Ok s' /\ exists l', nth_error (links s') 0 = Some l' /\ t_rot (pl_t1 l') = Q4 0 0 0 0.
Proof.
  exists (fun _ => 0). eexists. split; [reflexivity|]. eexists. split; [reflexivity|]. cbn [t_rot pl_t1 with_t1 snd].
  unfold quat_random_of, safe_normalize4. destruct (qclose0_dec _) as [|N]; [|exfalso; apply N; unfold qclose0, vclose0, close0; cbn [quat_of_row normals middle r_units map repeat nth Nat.mul Nat.add qw qx qy qz qvec vx vy vz]; cbn; rewrite Rabs_R0; unfold atol; repeat split; lra].
  destruct (Req_EM_T PI PI); [reflexivity|contradiction].
Qed.
