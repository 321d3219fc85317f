(** * Springs, forward dynamics and integration of whole systems. *)
From Coq Require Import Reals Lra String ZArith Lia Bool List.
From Verif Require Import Prelude M_Sys S_Sys P_Scan P_Run M_Math P_Math P_Trig P_Rot M_Geom M_Joint M_Kin M_Dyn S_Kin P_Joint P_Kin P_Mat S_Dyn P_Dyn P_Mass P_Rnea C_Kin C_State C_Mass C_Rnea.
Import ListNotations.

Lemma blocks ws g m : length ws = m -> (forall i, i < m -> length (g i) = nth i ws 0) ->
  length (concat (map g (seq 0 m))) = list_sum ws /\ forall i, i < m -> cut ws (concat (map g (seq 0 m))) i = g i.
Proof.
  intros L H. assert (E : map (@length R) (map g (seq 0 m)) = ws).
  { apply nth_error_ext. intros i. rewrite map_map, nth_error_map. destruct (lt_dec i m) as [Hi|Hi].
    - rewrite nth_error_nth' with (d := 0) by now rewrite seq_length. rewrite seq_nth by auto. cbn [option_map Nat.add].
      rewrite H by auto. symmetry. apply nth_error_nth'. lia.
    - rewrite (proj2 (nth_error_None (seq 0 m) i)) by (rewrite seq_length; lia). symmetry. apply nth_error_None. lia. }
  split; [apply (splits_length ws (concat (map g (seq 0 m))) (map g (seq 0 m))); split; auto|].
  intros i Hi. rewrite cut_concat by auto. apply nth_error_nth. now apply nth_map_seq.
Qed.

(** ** Quaternion kinematics *)
Lemma q4_list_of a b c d : q4_of [a; b; c; d] = Q4 a b c d. Proof. reflexivity. Qed.
Lemma q4_of_list q : q4_of (q4_list q) = q. Proof. destruct q. reflexivity. Qed.
Lemma qnormalize_unit q : (0 < qnorm2 q)%R -> qunit (qscale (/ sqrt (qnorm2 q)) q).
Proof.
  intros H. unfold qunit. assert (E : forall c, qnorm2 (qscale c q) = (c * c * qnorm2 q)%R) by (intros; vring).
  rewrite E. assert (0 < sqrt (qnorm2 q))%R by now apply sqrt_lt_R0.
  rewrite <- (sqrt_sqrt (qnorm2 q)) at 3 by lra. field. lra.
Qed.
Lemma qnorm2_nonneg q : (0 <= qnorm2 q)%R.
Proof. destruct q. vunfold. nra. Qed.
Lemma pow108 : (10 ^ 8 = 100000000)%R. Proof. lra. Qed.
Lemma dang_small d : vclose0 (vscale (/ (vnorm d + / 10 ^ 8)) d) -> (vnorm d + / 10 ^ 8 <= 3 / 2 * / 10 ^ 8)%R.
Proof.
  set (e := (/ 10 ^ 8)%R). assert (He : (0 < e)%R) by (unfold e; apply Rinv_0_lt_compat; apply pow_lt; lra).
  assert (He2 : (e <= / 1000)%R) by (unfold e; apply Rinv_le_contravar; lra).
  pose proof (vnorm_nonneg d) as N. set (m := (vnorm d + e)%R). assert (Hm : (0 < m)%R) by (unfold m; lra).
  intros C. assert (G : forall x, close0 (/ m * x) -> (Rabs x <= e * m)%R).
  { intros x Hx. unfold close0 in Hx. replace atol with e in Hx by (unfold e, atol; reflexivity).
    rewrite Rabs_mult, (Rabs_pos_eq (/ m)) in Hx by (left; now apply Rinv_0_lt_compat).
    apply (Rmult_le_compat_l m) in Hx; [|lra]. rewrite <- Rmult_assoc, Rinv_r, Rmult_1_l in Hx by lra. lra. }
  unfold vclose0, vscale in C. cbn [vx vy vz] in C. destruct C as (C1 & C2 & C3). apply G in C1, C2, C3.
  assert (S : (vnorm d * vnorm d <= 3 * ((e * m) * (e * m)))%R).
  { rewrite vnorm_sq. unfold dot. assert (Q : forall x, (Rabs x <= e * m -> x * x <= (e * m) * (e * m))%R).
    { intros x Hx. pose proof (Rabs_pos x). replace (x * x)%R with (Rabs x * Rabs x)%R by (unfold Rabs; destruct (Rcase_abs x); ring). nra. }
    apply Q in C1, C2, C3. lra. }
  assert (S2 : (vnorm d <= 2 * (e * m))%R). { apply Rnot_lt_le. intros B. pose proof (Rmult_lt_0_compat e m He Hm). nra. }
  unfold m in *. nra.
Qed.
Lemma strapdown_unit q d dt : (0 < qnorm2 q)%R -> (Rabs dt <= 10 ^ 8)%R -> qunit (strapdown q d dt).
Proof.
  intros Hq Hd. unfold strapdown. apply qnormalize_unit. rewrite qnorm2_mul. apply Rmult_lt_0_compat; auto.
  set (m := (vnorm d + / 10 ^ 8)%R). destruct (vclose0_dec (vscale (/ m) d)) as [C|C].
  - pose proof (dang_small d C) as B. fold m in B. unfold quat_rot_axis. rewrite (safe_normalize_close _ C).
    assert (P : (0 < cos (- (m * dt) / 2))%R).
    { pose proof (vnorm_nonneg d) as N. assert (E : (0 < / 10 ^ 8)%R) by (apply Rinv_0_lt_compat, pow_lt; lra).
      assert (A : (Rabs (m * dt) <= 3 / 2)%R).
      { rewrite Rabs_mult, (Rabs_pos_eq m) by (unfold m; lra). apply Rle_trans with (3 / 2 * / 10 ^ 8 * 10 ^ 8)%R.
        - apply Rmult_le_compat; try lra; [unfold m; lra|apply Rabs_pos].
        - rewrite Rmult_assoc, Rinv_l; [lra|]. apply pow_nonzero. lra. }
      pose proof PI2_3_2 as P3. revert A. unfold Rabs. destruct (Rcase_abs (m * dt)); intros A; apply cos_gt_0; lra. }
    unfold qnorm2, qdot. cbn [qw qx qy qz vzero vx vy vz]. nra.
  - pose proof (quat_rot_axis_unit _ (m * dt) C) as U. unfold qunit in U. rewrite U. lra.
Qed.

(** ** Widths *)
Definition quat_width (typ : string) (a b : nat) : Prop :=
  if is_free_or_cor typ then 4 <= a /\ a = b + 1 else if is_spherical typ then a = 4 /\ b = 3 else a = b.
Lemma builtin_quat_width typ a b : qW builtin_widths typ = Some a -> dW builtin_widths typ = Some b ->
  quat_width typ a b /\ (has_quat typ <-> is_free_or_cor_or_spherical typ = true).
Proof.
  intros H K. apply dget_In in H. unfold builtin_Q in H. cbn [In] in H.
  repeat (destruct H as [H|H]; [injection H as <- <-; cbv in K; injection K as <-;
    (split; [cbv; auto; split; lia || reflexivity|split; [intros _; reflexivity|intros _; unfold has_quat; cbn [In]; tauto]]) ||
    (split; [cbv; auto|split; [intros Hx; no_case Hx|intros Hx; discriminate Hx]])|]). contradiction.
Qed.
Lemma zipw_length f a : forall b, length (zipw f a b) = Nat.min (length a) (length b).
Proof. induction a; intros [|y b]; cbn; auto. Qed.
Lemma ladd_length a b : length (ladd a b) = Nat.min (length a) (length b).
Proof. apply zipw_length. Qed.
Lemma lscale_length c a : length (lscale c a) = length a. Proof. apply map_length. Qed.
Lemma lsub_length a b : length (lsub a b) = Nat.min (length a) (length b).
Proof. apply zipw_length. Qed.
Lemma integrate_length dt typ q qd : quat_width typ (length q) (length qd) -> length (integrate_link dt typ q qd) = length q.
Proof.
  unfold quat_width, integrate_link. destruct (is_free_or_cor typ).
  - intros [A B]. rewrite app_length, ladd_length, lscale_length, !skipn_length. cbn [q4_list length]. lia.
  - destruct (is_spherical typ); [intros [A B]; rewrite A; reflexivity|]. intros A. rewrite ladd_length, lscale_length. lia.
Qed.
Lemma spring_length typ q z : length q = length z -> forall b, quat_width typ (length q) b -> length (spring_force_link typ q z) = b.
Proof.
  unfold quat_width, spring_force_link. intros E b. destruct (is_free_or_cor typ).
  - intros [A B]. rewrite app_length, lsub_length, !skipn_length, <- E, Nat.min_id. unfold quaternion_spring_force.
    destruct (quat_to_rot_axis _). cbn [v3_list length]. lia.
  - destruct (is_spherical typ); [intros [A B]; unfold quaternion_spring_force; destruct (quat_to_rot_axis _); rewrite B; reflexivity|].
    intros A. rewrite lsub_length. lia.
Qed.

(** ** The scans *)
Section Sys.
Context {P O : Type}.
Notation link := (plink (params P)).
Notation rsys := (System R link geometry O).
Variable W : widths.

Lemma spring_scan (s : rsys) qs ds q : lean W s qs ds -> length q = list_sum qs -> length (link_spring_zeropoint s) = list_sum qs ->
  spring_force W s q = M_Kin.concatenate (map (fun i => spring_force_link (typ_ s i) (cut qs q i) (cut qs (link_spring_zeropoint s) i)) (seq 0 (num_links s))).
Proof.
  intros LN Hq Hz. unfold spring_force.
  rewrite (scan_run W s qs ds) with (cs := [numcol qs q; numcol qs (link_spring_zeropoint s); col AStr (link_types s) ""%string]); try apply LN; try reflexivity.
  2:{ repeat apply Forall2_cons; [now apply arg_ok_q|now apply arg_ok_q|apply arg_ok_col; apply LN|apply Forall2_nil]. }
  cbv zeta. rewrite (run_append _ _ _ (fun i => Ok (spring_force_link (typ_ s i) (cut qs q i) (cut qs (link_spring_zeropoint s) i)))).
  - rewrite (mapM_all_Ok _ (fun i => spring_force_link (typ_ s i) (cut qs q i) (cut qs (link_spring_zeropoint s) i))) by auto. reflexivity.
  - intros y st i _. cbn [map spring_step bind]. unfold col, numcol. now rewrite !nums_map.
Qed.
Lemma integrate_scan (s : rsys) qs ds dt q qd : lean W s qs ds -> length q = list_sum qs -> length qd = list_sum ds ->
  exists us, scan W s (@integrate_step P dt) [TQ; TD; TL] [map ANum q; map ANum qd; map AStr (link_types s)] false [] =
    Ok (us, map (fun i => integrate_link dt (typ_ s i) (cut qs q i) (cut ds qd i)) (seq 0 (num_links s))).
Proof.
  intros LN Hq Hd.
  rewrite (scan_run W s qs ds) with (cs := [numcol qs q; numcol ds qd; col AStr (link_types s) ""%string]); try apply LN; try reflexivity.
  2:{ repeat apply Forall2_cons; [now apply arg_ok_q|now apply arg_ok_d|apply arg_ok_col; apply LN|apply Forall2_nil]. }
  cbv zeta. rewrite (run_append _ _ _ (fun i => Ok (integrate_link dt (typ_ s i) (cut qs q i) (cut ds qd i)))).
  - rewrite (mapM_all_Ok _ (fun i => integrate_link dt (typ_ s i) (cut qs q i) (cut ds qd i))) by auto. cbn [bind fst snd app]. eauto.
  - intros y st i _. cbn [map integrate_step bind]. unfold col, numcol. now rewrite !nums_map.
Qed.

(** ** Forward kinematics does not read the transforms it writes. *)
Definition same_core (l l' : link) : Prop := exists t t2, l' = set_transforms l t t2.
Lemma run_ext {V Y St} (f : option Y -> idx_map -> list (piece V) -> St -> result (Y * St)) im (r1 r2 : nat -> list (piece V)) order :
  (forall y st i, In i order -> f y im (r1 i) st = f y im (r2 i) st) ->
  forall y st, run f im y st (map r1 order) = run f im y st (map r2 order).
Proof.
  induction order as [|i r IH]; intros H y st; cbn [map run]; auto. rewrite H by now left.
  destruct (f y im (r2 i) st) as [[y1 s1]|e]; cbn [bind]; auto. rewrite IH; auto. intros. apply H. now right.
Qed.
Lemma fk_again jt (s : rsys) ls st : (exists qs ds, lean W s qs ds) -> q_size W s = Ok (length (st_q st)) ->
  Forall2 same_core (links s) ls ->
  forward_kinematics W jt (with_links s ls) st = forward_kinematics W jt s st.
Proof.
  intros (qs & ds & LN) Hq F. apply total_width_Ok in Hq. destruct Hq as (ws & Hw & Hlen).
  rewrite (have_widths_unique _ _ _ _ Hw (ln_q _ _ _ _ LN)) in Hlen. clear Hw ws.
  assert (LN' : lean W (with_links s ls) qs ds).
  { destruct LN. constructor; auto. cbn [with_links links num_links link_parents]. rewrite <- (Forall2_length _ _ _ F). exact ln_links. }
  unfold forward_kinematics, forward_kinematics_transforms.
  rewrite (fk_scan W jt s qs ds LN (st_q st) _ Hlen), (fk_scan W jt (with_links s ls) qs ds LN' (st_q st) _ Hlen).
  change (num_links (with_links s ls)) with (num_links s).
  rewrite (run_ext _ _ (fk_row (with_links s ls) qs (st_q st)) (fk_row s qs (st_q st))).
  - destruct (run _ _ _ _ _); reflexivity.
  - intros y d i Hi. apply in_seq in Hi. assert (Hi' : i < num_links s) by lia.
    pose proof (lnk_spec W s qs ds LN i Hi') as A. pose proof (lnk_spec W (with_links s ls) qs ds LN' i Hi') as B.
    cbn [with_links links] in B. assert (C : same_core (lnk s i) (lnk (with_links s ls) i)).
    { revert A B. generalize (lnk s i), (lnk (with_links s ls) i). clear -F. revert i.
      induction F as [|a b la lb H F IH]; intros [|i] x x' A B; cbn in A, B; try discriminate; [congruence|eauto]. }
    destruct C as (t & t2 & C). unfold fk_row, fk_step. rewrite C. reflexivity.
Qed.
End Sys.
