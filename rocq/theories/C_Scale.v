(** * C81: randomize_to_world_pos_rot and scale_xs. *)
From Coq Require Import Reals Lra String ZArith Lia Bool List.
From Verif Require Import Prelude M_Sys M_Math P_Math P_Trig P_Rot M_Sens P_Scan P_Run S_Sys P_Sys P_Kin C_Sens M_Target C_Target C_Xs C_Rot X_Demo M_Scale S_Scale.
Import ListNotations.
Local Open Scope nat_scope.

Lemma inS_In x l : inS x l = true <-> In x l.
Proof.
  unfold inS. rewrite existsb_exists. split; [intros (y & I & E); apply String.eqb_eq in E; now subst|intros I; exists x; now rewrite String.eqb_refl].
Qed.
Lemma inS_false x l : inS x l = false <-> ~ In x l.
Proof. rewrite <- inS_In. destruct (inS x l); intuition congruence. Qed.

Local Open Scope R_scope.
Theorem scale_transform_scaled x typ factor : scaled typ factor x (scale_transform x typ factor).
Proof.
  unfold scale_transform, slides, turns. constructor; cbn [t_pos t_rot].
  - intros H. now rewrite (proj2 (inS_In _ _) H).
  - intros H. now rewrite (proj2 (inS_false _ _) H).
  - intros H n a U B NC E. rewrite (proj2 (inS_In _ _) H), E. destruct (axis_angle_of_rot n a U B NC) as [-> | ->]; [f_equal; ring|].
    rewrite !rot_axis_unit by (auto; vunfold; destruct n; cbn in *; lra). unfold rot. clear. destruct n as [u v w]. vunfold.
    replace (- (- a * factor) / 2) with (- (- (factor * a) / 2)) by field. rewrite cos_neg, sin_neg. f_equal; ring.
  - intros H U C. rewrite (proj2 (inS_In _ _) H). unfold quat_to_rot_axis. rewrite (quat_angle_close _ U C).
    replace (- 0 * factor) with 0 by ring. apply quat_rot_axis_0.
  - intros H. now rewrite (proj2 (inS_false _ _) H).
Qed.
Local Open Scope nat_scope.

Section Scaling.
Context {K L G O : Type} (W : widths) (s : System K L G O).
Hypothesis WF : wf W s.
Notation n := (num_links s).

Definition ty_ (i : nat) : string := nth i (link_types s) ""%string.
Lemma scan_types {Y St} (f : option Y -> idx_map -> list (piece targ) -> St -> result (Y * St)) st :
  exists im, scan W s f [TL; TL] [ids n; map GStr (link_types s)] false st =
    do r <- run f im None st (map (fun i => [One (GInt (Z.of_nat i)); One (GStr (ty_ i))]) (seq 0 n)); Ok (fst r, snd r).
Proof.
  destruct (wf_arrays _ _ WF) as (qs & ds & Hq & Hd & _). eexists.
  rewrite (scan_run W s qs ds (wf_types _ _ WF) Hq Hd _ _ _ [fun i => One (GInt (Z.of_nat i)); tcol GStr (link_types s) ""%string]); [reflexivity|reflexivity|].
  cbn [combine]. repeat apply Forall2_cons; [..|apply Forall2_nil]; cbn [fst snd]; [apply ids_ok|apply tcol_ok; apply WF].
Qed.

Definition scaled_link (factor : R) (exclude : list string) (row : list transform) (i : nat) : transform :=
  let x := nth i row t_zero in if negb (inS (ty_ i) exclude) then scale_transform x (ty_ i) factor else x.
Lemma scale_row_ok factor exclude row : length row = n ->
  scale_row W s factor exclude row = Ok (map (scaled_link factor exclude row) (seq 0 n)).
Proof.
  intros Lr. unfold scale_row. destruct (scan_types (scale_step row factor exclude) tt) as (im & ->).
  assert (A : forall m k y, k + m = n -> run (scale_step row factor exclude) im y tt (map (fun i => [One (GInt (Z.of_nat i)); One (GStr (ty_ i))]) (seq k m)) =
    Ok (map (scaled_link factor exclude row) (seq k m), tt)).
  { induction m as [|m IH]; intros k y Hk; [reflexivity|]. cbn [seq map run].
    assert (S1 : scale_step row factor exclude y im [One (GInt (Z.of_nat k)); One (GStr (ty_ k))] tt = Ok (scaled_link factor exclude row k, tt)).
    { unfold scale_step. rewrite (proj2 (py_get_nonneg row (Z.of_nat k) (nth k row t_zero) ltac:(lia))); [reflexivity|]. rewrite Nat2Z.id. apply nth_nth_error. lia. }
    rewrite S1. cbn [bind fst snd]. rewrite IH by lia. reflexivity. }
  rewrite A by lia. reflexivity.
Qed.

(** Links of an excluded joint type are left alone, the others scaled as their joint type allows. *)
Theorem C81_scale xs factor exclude : tr_links xs = n -> Forall (fun row => length row = n) (tr_rows xs) ->
  exists ys, scale_xs W s xs factor exclude = Ok ys /\ tr_links ys = n /\ length (tr_rows ys) = length (tr_rows xs) /\
    forall k row, nth_error (tr_rows xs) k = Some row -> exists row', nth_error (tr_rows ys) k = Some row' /\ length row' = n /\
      forall i typ x, nth_error (link_types s) i = Some typ -> nth_error row i = Some x ->
        exists y, nth_error row' i = Some y /\ (In typ exclude -> y = x) /\ (~ In typ exclude -> scaled typ factor x y).
Proof.
  intros L1 F. unfold scale_xs, check_series, assert_. rewrite L1, Nat.eqb_refl. cbn [bind].
  assert (E : mapM (scale_row W s factor exclude) (tr_rows xs) = Ok (map (fun row => map (scaled_link factor exclude row) (seq 0 n)) (tr_rows xs))).
  { apply mapM_Ok_iff. clear L1. induction F as [|row r H F IH]; constructor; auto using scale_row_ok. }
  rewrite E. cbn [bind]. eexists. split; [reflexivity|]. cbn [tr_links tr_rows]. split; [reflexivity|]. split; [apply map_length|].
  intros k row Hk. rewrite nth_error_map, Hk. cbn [option_map]. eexists. split; [reflexivity|]. split; [now rewrite map_length, seq_length|].
  intros i typ x Ht Hx. assert (Hi : i < n) by (unfold num_links; rewrite <- (wf_types _ _ WF); apply nth_error_Some; congruence).
  rewrite nth_map_seq by exact Hi. eexists. split; [reflexivity|]. unfold scaled_link, ty_. rewrite (nth_error_nth _ _ _ Ht), (nth_error_nth _ _ _ Hx).
  split; intros I.
  - now rewrite (proj2 (inS_In _ _) I).
  - rewrite (proj2 (inS_false _ _) I). cbn [negb]. apply scale_transform_scaled.
Qed.

(** Without an [exclude] argument no position changes, hinges and ball joints turn [factor] times as far, and every other link keeps its pose. *)
Theorem C81_default xs factor : tr_links xs = n -> Forall (fun row => length row = n) (tr_rows xs) ->
  exists ys, scale_xs W s xs factor exclude_default = Ok ys /\ length (tr_rows ys) = length (tr_rows xs) /\
    forall k row, nth_error (tr_rows xs) k = Some row -> exists row', nth_error (tr_rows ys) k = Some row' /\ length row' = n /\
      forall i typ x, nth_error (link_types s) i = Some typ -> nth_error row i = Some x ->
        exists y, nth_error row' i = Some y /\ t_pos y = t_pos x /\
          (In typ ["rx"; "ry"; "rz"; "spherical"]%string -> scaled typ factor x y) /\
          (~ In typ ["rx"; "ry"; "rz"; "spherical"]%string -> y = x).
Proof.
  intros L1 F. destruct (C81_scale xs factor exclude_default L1 F) as (ys & E & _ & L2 & H).
  exists ys. split; [exact E|]. split; [exact L2|]. intros k row Hk. destruct (H k row Hk) as (row' & Hk' & L3 & P).
  exists row'. split; [exact Hk'|]. split; [exact L3|]. intros i typ x Ht Hx. destruct (P i typ x Ht Hx) as (y & Hy & A & B).
  exists y. split; [exact Hy|].
  destruct (in_dec string_dec typ exclude_default) as [I|N].
  - rewrite (A I). split; [reflexivity|]. split; [|reflexivity]. intros J. exfalso. cbn in I, J. intuition congruence.
  - specialize (B N). split; [apply (sc_stays _ _ _ _ B); exact N|]. split; [intros _; exact B|].
    intros J. assert (T : ~ turns typ) by (intros T; cbn in N, J, T; intuition congruence).
    destruct x as [px rx], y as [py ry]. f_equal; [apply (sc_stays _ _ _ _ B N)|apply (sc_keeps _ _ _ _ B T)].
Qed.

(** ** randomize_to_world_pos_rot *)
Lemma roots_only : roots s = 1 <-> exists r, only_root s r.
Proof.
  unfold roots, only_root. clear WF. generalize (link_parents s) as ps. clear. intros ps. split.
  - intros H. destruct (filter (Z.eqb (-1)) ps) as [|a [|]] eqn:E; try discriminate. clear H.
    revert E. induction ps as [|p r IH]; intros E; [discriminate|]. cbn [filter] in E. destruct (Z.eqb_spec (-1) p) as [<-|N].
    + injection E as _ E. exists 0. split; [reflexivity|]. intros [|i] Hi; [reflexivity|]. cbn in Hi. exfalso.
      apply nth_error_In in Hi. assert (I : In (-1)%Z (filter (Z.eqb (-1)) r)) by (apply filter_In; auto). rewrite E in I. destruct I.
    + destruct (IH E) as (k & A & B). exists (S k). split; [exact A|]. intros [|i] Hi; cbn in Hi; [congruence|]. f_equal. now apply B.
  - intros (k & A & B). revert k A B. induction ps as [|p r IH]; intros k A B; [destruct k; discriminate|]. cbn [filter].
    destruct (Z.eqb_spec (-1) p) as [<-|N].
    + assert (k = 0) by (symmetry; now apply B). subst k. cbn [length]. f_equal. destruct (filter (Z.eqb (-1)) r) as [|q l] eqn:E; [reflexivity|].
      assert (I : In q (filter (Z.eqb (-1)) r)) by (rewrite E; now left). apply filter_In in I. destruct I as [I Q]. apply Z.eqb_eq in Q. subst q.
      apply In_nth_error in I. destruct I as (i & Hi). specialize (B (S i) Hi). discriminate.
    + destruct k as [|k]; [cbn in A; congruence|]. apply (IH k); [exact A|]. intros i Hi. specialize (B (S i) Hi). congruence.
Qed.
Lemma index_root_only r : only_root s r -> index_root (link_parents s) = r.
Proof.
  unfold only_root. generalize (link_parents s) as ps. intros ps. revert r. induction ps as [|p t IH]; intros r [A B]; [destruct r; discriminate|].
  cbn [index_root]. destruct (Z.eqb_spec p (-1)) as [->|N].
  - now apply B.
  - destruct r as [|r]; [cbn in A; congruence|]. f_equal. apply IH. split; [exact A|]. intros i Hi. specialize (B (S i) Hi). congruence.
Qed.

Lemma t_solve a b c : tunit a -> tunit b -> tunit c -> t_mul a (t_inv b) = c -> a = t_mul c b.
Proof. intros Ua Ub Uc <-. rewrite <- t_mul_assoc, t_mul_inv_l, t_mul_0_r by auto using tunit_inv. reflexivity. Qed.

(** The whole figure is moved rigidly such that its root follows the drawn motion. *)
Theorem C81_randomize xs free r : poses_of s xs -> only_root s r -> length free = length (tr_rows xs) -> Forall tunit free ->
  exists ys, randomize_to_world W s xs free = Ok ys /\ poses_of s ys /\ length (tr_rows ys) = length (tr_rows xs) /\
    forall k row x, nth_error (tr_rows xs) k = Some row -> nth_error free k = Some x ->
      exists row', nth_error (tr_rows ys) k = Some row' /\ nth_error row' r = Some x /\
        forall i xi xr, nth_error row i = Some xi -> nth_error row r = Some xr -> nth_error row' i = Some (t_mul (t_mul xi (t_inv xr)) x).
Proof.
  intros P OR LF UF. pose proof (proj1 OR) as Hr. assert (Hrn : r < n) by (apply nth_error_Some; congruence).
  unfold randomize_to_world, check_series, assert_. rewrite (proj1 P), Nat.eqb_refl. cbn [bind].
  rewrite (proj2 roots_only (ex_intro _ r OR)), Nat.eqb_refl. cbn [bind]. rewrite LF, Nat.eqb_refl. cbn [bind]. rewrite (index_root_only r OR).
  destruct (overwrite_ok W s WF xs free r P LF UF Hrn) as (ys & E & PY & LY & F). exists ys. split; [exact E|]. split; [exact PY|]. split; [exact LY|].
  intros k row x Hk Hx. destruct (F k row x Hk Hx) as (row' & Ek' & [LR' UR'] & H). exists row'. split; [exact Ek'|].
  destruct P as [_ P]. rewrite Forall_forall in P. destruct (P row (nth_error_In _ _ Hk)) as [LR UR].
  assert (Ux : tunit x) by (rewrite Forall_forall in UF; apply UF; eapply nth_error_In; eauto).
  set (xr := nth r row t_zero). assert (Uxr : tunit xr) by now apply nth_unit.
  assert (A : forall m i, i < m -> i < n -> nth i row' t_zero = t_mul (t_mul (nth i row t_zero) (t_inv xr)) x).
  { induction m as [|m IH]; intros i Hm Hi; [lia|]. pose proof (H i Hi) as Hi'. pose proof (pr_spec s i Hi) as PE.
    destruct (Nat.eqb_spec i r) as [->|N].
    - rewrite Hr in PE. injection PE as PE. unfold rel in Hi'. rewrite <- PE in Hi'. change (-1 =? -1)%Z with true in Hi'. cbv iota in Hi'. rewrite Hi'.
      fold xr. rewrite t_mul_inv_r by exact Uxr. now rewrite t_mul_0_l.
    - unfold rel in Hi'. destruct (Z.eqb_spec (pr_ s i) (-1)) as [E1|E1]; [rewrite E1 in PE; exfalso; apply N; now apply OR|].
      pose proof (pr_range W s WF i Hi) as PR. set (p := Z.to_nat (pr_ s i)) in *. assert (Hp : p < n) by lia.
      apply t_solve in Hi'; auto using nth_unit, tunit_mul, tunit_inv. rewrite Hi', (IH p) by lia.
      set (xi := nth i row t_zero). set (xp := nth p row t_zero).
      assert (Ui : tunit xi) by now apply nth_unit. assert (Up : tunit xp) by now apply nth_unit.
      rewrite !t_mul_assoc by auto using tunit_mul, tunit_inv. f_equal. f_equal.
      rewrite <- t_mul_assoc, t_mul_inv_l, t_mul_0_r by auto using tunit_inv. reflexivity. }
  assert (B : forall i, i < n -> nth_error row' i = Some (nth i row' t_zero)) by (intros i Hi; apply nth_nth_error; lia).
  split.
  - rewrite B, (A n r) by lia. fold xr. rewrite t_mul_inv_r by exact Uxr. now rewrite t_mul_0_l.
  - intros i xi xr' Hi Hr'. assert (Hin : i < n) by (rewrite <- LR; apply nth_error_Some; congruence).
    rewrite B, (A n i) by lia. unfold xr. now rewrite (nth_error_nth _ _ _ Hi), (nth_error_nth _ _ _ Hr').
Qed.

(** A single drawn pose is used for all times. *)
Theorem C81_randomize_one xs x : randomize_to_world W s xs [x] = randomize_to_world W s xs (repeat x (length (tr_rows xs))).
Proof.
  unfold randomize_to_world. destruct (check_series s xs); [|reflexivity]. cbn [bind]. destruct (assert_ _); [|reflexivity]. cbn [bind].
  rewrite repeat_length, Nat.eqb_refl. cbn [length nth]. destruct (Nat.eqb_spec 1 (length (tr_rows xs))) as [<-|N]; [reflexivity|].
  rewrite Nat.eqb_refl. reflexivity.
Qed.

(** Refused: another number of time steps than drawn, no or several links connected to the world. *)
Theorem C81_refused xs free : tr_links xs = n ->
  (~ (exists r, only_root s r) -> randomize_to_world W s xs free = Err EAssertion) /\
  ((exists r, only_root s r) -> length free <> length (tr_rows xs) -> length free <> 1 -> randomize_to_world W s xs free = Err EValue).
Proof.
  intros L1. unfold randomize_to_world, check_series, assert_. rewrite L1, Nat.eqb_refl. cbn [bind]. split.
  - intros N. destruct (Nat.eqb_spec (roots s) 1) as [E|E]; [exfalso; apply N; now apply roots_only|]. reflexivity.
  - intros R A B. rewrite (proj2 roots_only R), Nat.eqb_refl. cbn [bind].
    destruct (Nat.eqb_spec (length free) (length (tr_rows xs))); [contradiction|]. destruct (Nat.eqb_spec (length free) 1); [contradiction|]. reflexivity.
Qed.
Theorem C81_links_refused xs factor exclude free : tr_links xs <> n ->
  scale_xs W s xs factor exclude = Err EAssertion /\ randomize_to_world W s xs free = Err EAssertion.
Proof.
  intros H. unfold scale_xs, randomize_to_world, check_series, assert_. destruct (Nat.eqb_spec (tr_links xs) n); [contradiction|]. split; reflexivity.
Qed.
End Scaling.

(** ** Scaling a hinge *)
Local Open Scope R_scope.
(** Scaling by one changes nothing but the sign of the quaternion; scaling by zero takes the turn away. *)
Theorem C81_one typ x : qunit (t_rot x) -> ~ vclose0 (qvec (t_rot x)) ->
  t_pos (scale_transform x typ 1) = t_pos x /\
  (t_rot (scale_transform x typ 1) = t_rot x \/ t_rot (scale_transform x typ 1) = qneg (t_rot x)).
Proof.
  intros U C. unfold scale_transform. cbn [t_pos t_rot]. split; [destruct (inS typ _); [unfold vscale; rewrite !Rmult_1_l; now destruct (t_pos x)|reflexivity]|].
  destruct (inS typ _); [|now left]. pose proof (C22_quat_roundtrip (t_rot x) U C) as H. destruct (quat_to_rot_axis (t_rot x)) as [m a].
  rewrite Rmult_1_r. apply H.
Qed.
(** A turn of more than half a revolution is first replaced by the shorter turn, and that is scaled: half of a hinge angle of
    3/2 pi is not 3/4 pi but - 1/4 pi. *)
Theorem C81_large_angle_refuted :
  t_rot (scale_transform (Tr vzero (quat_rot_axis x_unit (3 * PI / 2))) "rx" (1 / 2)) = quat_rot_axis x_unit (- PI / 4) /\
  quat_rot_axis x_unit (- PI / 4) <> quat_rot_axis x_unit (1 / 2 * (3 * PI / 2)) /\
  quat_rot_axis x_unit (- PI / 4) <> qneg (quat_rot_axis x_unit (1 / 2 * (3 * PI / 2))).
Proof.
  assert (U : dot x_unit x_unit = 1) by (unfold x_unit; vring). pose proof PI_RGT_0 as PP.
  assert (S4 : 1 / 2 < sin (PI / 4)).
  { rewrite sin_PI4. assert (sqrt 2 < 2) by (rewrite <- (sqrt_square 2) at 2 by lra; apply sqrt_lt_1; lra). assert (0 < sqrt 2) by (apply sqrt_lt_R0; lra).
    unfold Rdiv. rewrite !Rmult_1_l. apply Rinv_lt_contravar; nra. }
  assert (SE : sin (- (3 * PI / 2) / 2) = - sin (PI / 4)).
  { replace (- (3 * PI / 2) / 2) with (- (PI - PI / 4)) by field. rewrite sin_neg, sin_PI_x. reflexivity. }
  split.
  - unfold scale_transform. cbn [t_rot]. change (inS "rx" ["rx"; "ry"; "rz"; "spherical"; "free"]%string) with true. cbv iota.
    rewrite (rot_axis_unit x_unit (3 * PI / 2)) by exact U.
    destruct (quat_angle_rot x_unit (- (3 * PI / 2) / 2) U) as [(A & _)|(_ & A & B)].
    + unfold rot, x_unit, vclose0, close0. cbn [qvec vx vy vz qx qy qz]. intros (A & _). rewrite SE in A. pose proof atol_small.
      replace (- sin (PI / 4) * 1) with (- sin (PI / 4)) in A by ring. rewrite Rabs_Ropp, Rabs_right in A by lra. lra.
    + rewrite SE in A. lra.
    + unfold quat_to_rot_axis. rewrite A, B. replace (- (2 * (- (3 * PI / 2) / 2))) with (- PI / 2 + 2 * PI) by field.
      rewrite (wrap_unique _ (- PI / 2) (-1)) by lra. rewrite !rot_axis_unit by (unfold x_unit, vneg; vunfold; lra). unfold rot, x_unit, vneg. vunfold.
      replace (- (- (- PI / 2) * (1 / 2)) / 2) with (- (PI / 8)) by field. replace (- (- PI / 4) / 2) with (PI / 8) by field. rewrite cos_neg, sin_neg. f_equal; ring.
  - rewrite !rot_axis_unit by exact U. unfold rot, x_unit. vunfold. replace (- (- PI / 4) / 2) with (PI / 8) by field.
    replace (- (1 / 2 * (3 * PI / 2)) / 2) with (- (3 * PI / 8)) by field. rewrite !cos_neg.
    assert (C1 : cos (3 * PI / 8) < cos (PI / 8)) by (apply cos_decreasing_1; lra).
    assert (C2 : 0 < cos (3 * PI / 8)) by (apply cos_gt_0; lra).
    split; intros X; injection X as X _; lra.
Qed.

(** ** Examples: the demo system (base free, arm ry, hand spherical, tool px) *)
Definition demo_turns : traj := mkTraj 4
  [[Tr (V3 1 2 3) (quat_rot_axis x_unit 1); Tr (V3 4 5 6) (quat_rot_axis y_unit 1); Tr (V3 7 8 9) qone; Tr (V3 10 11 12) qone]].
Example C81_example : exists ys row, scale_xs builtin_widths demo demo_turns 2 ["free"]%string = Ok ys /\ nth_error (tr_rows ys) 0 = Some row /\
  nth_error row 0 = Some (Tr (V3 1 2 3) (quat_rot_axis x_unit 1)) /\
  nth_error row 1 = Some (Tr (V3 4 5 6) (quat_rot_axis y_unit 2)) /\ nth_error row 3 = Some (Tr (V3 20 22 24) qone).
Proof.
  destruct (C81_scale builtin_widths demo demo_wf demo_turns 2 ["free"]%string) as (ys & E & _ & _ & F); [reflexivity|repeat constructor|].
  destruct (F 0%nat _ eq_refl) as (row & Er & _ & H). exists ys, row. split; [exact E|]. split; [exact Er|]. split; [|split].
  - destruct (H 0%nat _ _ eq_refl eq_refl) as (y & Hy & A & _). rewrite Hy, A by now left. reflexivity.
  - destruct (H 1%nat _ _ eq_refl eq_refl) as (y & Hy & _ & B). destruct B as [_ B2 B3 _ _]; [cbn; intuition discriminate|]. rewrite Hy. f_equal.
    apply transform_ext; [apply B2; unfold slides; cbn; intuition discriminate|]. cbn [t_rot]. replace 2 with (2 * 1) by ring.
    assert (U : dot y_unit y_unit = 1) by (unfold y_unit; vring). pose proof PI2_1 as P2. pose proof PI_RGT_0.
    apply B3; [unfold turns; cbn; tauto|exact U|lra| |reflexivity].
    rewrite rot_axis_unit by exact U. unfold rot, y_unit, vclose0, close0. cbn [qvec vx vy vz qx qy qz]. intros (_ & A & _).
    replace (- (1) / 2) with (- (1 / 2)) in A by lra. rewrite sin_neg in A. pose proof (sin_lower (1 / 2) ltac:(lra)) as S. unfold Rmin in S.
    destruct (Rle_dec (1 / 2) 1); [|lra]. pose proof atol_small. replace (- sin (1 / 2) * 1) with (- sin (1 / 2)) in A by ring. rewrite Rabs_Ropp, Rabs_right in A by lra. lra.
  - destruct (H 3%nat _ _ eq_refl eq_refl) as (y & Hy & _ & B). destruct B as [B1 _ _ _ B5]; [cbn; intuition discriminate|]. rewrite Hy. f_equal.
    apply transform_ext; [rewrite B1 by (unfold slides; cbn; tauto); vunfold; f_equal; ring|]. apply B5. unfold turns. cbn. intuition discriminate.
Qed.
Example C81_randomize_example : exists ys row, randomize_to_world builtin_widths demo demo_motion [t_zero; Tr (V3 0 0 1) qone] = Ok ys /\
  nth_error (tr_rows ys) 1 = Some row /\ nth_error row 0 = Some (Tr (V3 0 0 1) qone) /\ nth_error row 2 = Some (Tr (V3 1 (-2) 8) qtilt).
Proof.
  assert (OR : only_root demo 0). { split; [reflexivity|]. intros [|[|[|[|i]]]] Hi; cbn in Hi; try discriminate; [reflexivity|destruct i; discriminate]. }
  destruct (C81_randomize builtin_widths demo demo_wf demo_motion [t_zero; Tr (V3 0 0 1) qone] 0 demo_motion_ok OR eq_refl) as (ys & E & _ & _ & F).
  { repeat constructor; unfold tunit; cbn [t_rot]; apply qunit_one. }
  destruct (F 1%nat _ _ eq_refl eq_refl) as (row & Er & R0 & H). exists ys, row. split; [exact E|]. split; [exact Er|]. split; [exact R0|].
  rewrite (H 2%nat _ _ eq_refl eq_refl). f_equal. apply transform_ext; unfold qtilt; vunfold; f_equal; field.
Qed.
Print Assumptions C81_randomize.
