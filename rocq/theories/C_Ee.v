(** * C72: inverse kinematics of an end effector. *)
From Coq Require Import Reals Lra Psatz String ZArith Lia Bool List.
From Verif Require Import Prelude M_Sys S_Sys P_Sys P_Scan P_Run M_Math P_Math P_Trig P_Rot M_Geom M_Joint M_Kin S_Kin P_Joint P_Kin C_Rot C_Kin C_State X_Demo M_Ee.
Import ListNotations.
Local Open Scope R_scope.

(** ** Specification *)
(** Distance of two points, and the weighted distance of two poses. *)
Definition distance (a b : vec3) : R := sqrt (Rsqr (vx a - vx b) + Rsqr (vy a - vy b) + Rsqr (vz a - vz b)).
Definition pose_distance (wr wp : R) (x y : transform) : R :=
  wr * angle_error (t_rot x) (t_rot y) + wp * distance (t_pos x) (t_pos y).

Section Spec.
Context {P O : Type}.
Variable W : widths.
Variable jt : joint_table P.
Notation rsys := (System R (plink (params P)) geometry O).
(** [xe] is the pose of the link called [name] at the coordinates [q]. *)
Definition reaches (s : rsys) (name : string) (q : list R) (xe : transform) : Prop :=
  exists i, nth_error (link_names s) i = Some name /\ pose W jt s q (Z.of_nat i) xe.
Definition valid_config (s : rsys) (q : list R) : Prop :=
  forall i typ sl, nth_error (link_types s) i = Some typ -> link_coords (qW W) s q i sl -> valid_coords typ sl.
(** No quaternion of [v] is close to zero. *)
Definition no_tiny (s : rsys) (v : list R) : Prop :=
  forall i typ sl, nth_error (link_types s) i = Some typ -> has_quat typ -> link_coords (qW W) s v i sl -> ~ tiny_quat sl.
(** The valid coordinates [q] stand for the unconstrained vector [v]. *)
Definition stands_for (s : rsys) (v q : list R) : Prop :=
  length q = length v /\
  forall i typ sl sl', nth_error (link_types s) i = Some typ ->
    link_coords (qW W) s v i sl -> link_coords (qW W) s q i sl' -> projects typ sl sl'.
End Spec.

(** ** argmin *)
Lemma argmin_from_spec r : forall l best b i,
  nth_error l best = Some b -> length l = i -> (forall j v, nth_error l j = Some v -> b <= v) ->
  (forall j v, (j < best)%nat -> nth_error l j = Some v -> b < v) ->
  exists w, nth_error (l ++ r) (argmin_from best b i r) = Some w /\
    (forall j v, nth_error (l ++ r) j = Some v -> w <= v) /\
    (forall j v, (j < argmin_from best b i r)%nat -> nth_error (l ++ r) j = Some v -> w < v).
Proof.
  induction r as [|x r IH]; intros l best b i E L H H'.
  - rewrite app_nil_r. exists b. cbn [argmin_from]. auto.
  - cbn [argmin_from]. replace (l ++ x :: r) with ((l ++ [x]) ++ r) by now rewrite <- app_assoc.
    assert (A : forall j v, nth_error (l ++ [x]) j = Some v -> nth_error l j = Some v \/ v = x).
    { intros j v Hj. destruct (lt_dec j (length l)) as [Hl|Hl].
      - left. now rewrite nth_error_app1 in Hj.
      - right. rewrite nth_error_app2 in Hj by lia. destruct (j - length l)%nat as [|k]; [now injection Hj|destruct k; discriminate]. }
    destruct (Rlt_dec x b) as [X|X].
    + apply IH.
      * rewrite nth_error_app2 by lia. rewrite L, Nat.sub_diag. reflexivity.
      * rewrite app_length. cbn. lia.
      * intros j v Hj. destruct (A j v Hj) as [B| ->]; [|lra]. specialize (H j v B). lra.
      * intros j v Hi Hj. rewrite nth_error_app1 in Hj by lia. specialize (H j v Hj). lra.
    + assert (LB : (best < length l)%nat) by (apply nth_error_Some; congruence). apply IH.
      * rewrite nth_error_app1; auto.
      * rewrite app_length. cbn. lia.
      * intros j v Hj. destruct (A j v Hj) as [B| ->]; [eauto|lra].
      * intros j v Hi Hj. rewrite nth_error_app1 in Hj by lia. eauto.
Qed.
Lemma argmin_spec l b : argmin l = Ok b ->
  exists w, nth_error l b = Some w /\ (forall j v, nth_error l j = Some v -> w <= v) /\
    (forall j v, (j < b)%nat -> nth_error l j = Some v -> w < v).
Proof.
  destruct l as [|x r]; [discriminate|]. cbn [argmin]. intros H. injection H as <-.
  apply (argmin_from_spec r [x] 0 x 1); auto.
  - intros [|j] v H; [injection H as <-; lra|destruct j; discriminate].
  - intros j v H. lia.
Qed.

Lemma py_get_of_nat {A} (l : list A) i a : py_get l (Z.of_nat i) = Ok a -> nth_error l i = Some a.
Proof.
  unfold py_get. destruct (Z.ltb_spec (Z.of_nat i) 0); [lia|]. destruct (_ && _); [|discriminate].
  rewrite Nat2Z.id. destruct (nth_error l i); [congruence|discriminate].
Qed.

Section General.
Context {P O K : Type}.
Variable W : widths.
Variable jt : joint_table P.
Notation rsys := (System R (plink (params P)) geometry O).
Variable solver : (list R -> result R) -> list R -> result (list R).
Variable normal : K -> nat -> nat -> list (list R).
Notation ik := (inverse_kinematics_endeffector W jt solver normal).

Lemma fk_length (s : rsys) q r n : wf W s -> q_size W s = Ok n -> forward_kinematics_transforms W jt s q = Ok r -> length q = n.
Proof.
  intros WF Hn H. destruct (wf_lean W s WF) as (qs & ds & LN).
  apply total_width_Ok in Hn. destruct Hn as (ws & Hw & ->).
  destruct (Nat.eq_dec (length q) (list_sum ws)) as [E|E]; auto. exfalso.
  unfold forward_kinematics_transforms in H.
  rewrite (scan_rejects_sizes W s _ _ _ _ _ ws ds) in H; auto; try discriminate.
  - apply LN.
  - cbn. intuition discriminate.
  - right. exists TQ, (map ANum q). split; [now left|]. now rewrite map_length.
Qed.

Lemma objective_spec (s : rsys) name x wr wp custom v e n : wf W s -> q_size W s = Ok n ->
  objective W jt s name x wr wp custom v = Ok e ->
  exists q xe, coordinate_vector_to_q W jt s v custom = Ok q /\ length q = n /\ reaches W jt s name q xe /\
    e = pose_distance wr wp x xe.
Proof.
  intros WF Hn H. unfold objective in H. apply bind_Ok in H. destruct H as (q & Q & H).
  apply bind_Ok in H. destruct H as ((xs & s1) & F & H). apply bind_Ok in H. destruct H as (i & I & H).
  apply bind_Ok in H. destruct H as (xe & X & H). injection H as <-. cbn [fst] in X. apply py_get_of_nat in X.
  assert (L := fk_length s q _ n WF Hn F).
  destruct (C27_poses W jt s s1 q n xs WF Hn L F) as (Lx & _ & G).
  assert (Hi : (i < num_links s)%nat) by (rewrite <- Lx; apply nth_error_Some; congruence).
  destruct (nth_error (links s) i) as [l|] eqn:EL.
  2:{ apply nth_error_None in EL. destruct (wf_lean W s WF) as (qs & ds & LN). rewrite (ln_links _ _ _ _ LN) in EL. lia. }
  destruct (G i l EL) as (x' & t2 & X1 & X2 & _). rewrite X in X1. injection X1 as <-.
  exists q, xe. split; [exact Q|]. split; [exact L|]. split.
  - exists i. split; [|exact X2]. apply indexS_NoDup; [apply (wf_unique _ _ WF)|exact I].
  - reflexivity.
Qed.

Lemma run_spec (s : rsys) name x wr wp custom q0 q v p n : wf W s -> q_size W s = Ok n ->
  ee_run W jt solver s name x wr wp custom q0 = Ok (q, v, p) ->
  solver (objective W jt s name x wr wp custom) q0 = Ok p /\ coordinate_vector_to_q W jt s p custom = Ok q /\
  objective W jt s name x wr wp custom p = Ok v /\
  length q = n /\ exists xe, reaches W jt s name q xe /\ v = pose_distance wr wp x xe.
Proof.
  intros WF Hn H. unfold ee_run in H. apply bind_Ok in H. destruct H as (p' & S1 & H).
  apply bind_Ok in H. destruct H as (q' & Q & H). apply bind_Ok in H. destruct H as (v' & V & H).
  injection H as <- <- <-. split; [exact S1|]. split; [exact Q|]. split; [exact V|].
  destruct (objective_spec s name x wr wp custom p' v' n WF Hn V) as (q2 & xe & Q2 & L & R1 & R2).
  rewrite Q in Q2. injection Q2 as <-. split; [exact L|]. eauto.
Qed.

(** Every successful call comes from one run of the optimiser. *)
Lemma ik_from_run (s : rsys) name x wr wp q0 starts key custom q v ps :
  ik s name x wr wp q0 starts key custom = Ok (q, v, ps) ->
  exists p q1, In p ps /\ ee_run W jt solver s name x wr wp custom q1 = Ok (q, v, p).
Proof.
  unfold inverse_kinematics_endeffector. intros H. apply bind_Ok in H. destruct H as (_ & _ & H).
  assert (F : forall q1, (do r <- ee_from W jt solver s name x wr wp custom q1; Ok (fst r, [snd r])) = Ok (q, v, ps) ->
     exists p q1, In p ps /\ ee_run W jt solver s name x wr wp custom q1 = Ok (q, v, p)).
  { intros q1 E. apply bind_Ok in E. destruct E as (((q' & v') & p) & E & G). injection G as <- <- <-.
    unfold ee_from in E. apply bind_Ok in E. destruct E as (n & _ & E). apply bind_Ok in E. destruct E as (_ & _ & E).
    exists p, q1. split; [now left|exact E]. }
  assert (D : (do st <- state_create W jt s None None None None [];
      do r <- ee_run W jt solver s name x wr wp custom (st_q st); Ok (fst r, [snd r])) = Ok (q, v, ps) ->
     exists p q1, In p ps /\ ee_run W jt solver s name x wr wp custom q1 = Ok (q, v, p)).
  { intros E. apply bind_Ok in E. destruct E as (st & _ & E).
    apply bind_Ok in E. destruct E as (((q' & v') & p) & E & G). injection G as <- <- <-. exists p, (st_q st). split; [now left|exact E]. }
  destruct q0 as [q1|]; [exact (F q1 H)|]. destruct starts as [n|]; [|exact (D H)]. destruct key as [k|]; [|exact (D H)].
  apply bind_Ok in H. destruct H as (m & _ & H). apply bind_Ok in H. destruct H as (rs & M & H).
  apply bind_Ok in H. destruct H as (b & B & H). apply bind_Ok in H. destruct H as (((q' & v') & p) & G & H).
  injection H as <- <- <-. apply py_get_of_nat in G.
  apply mapM_Ok_iff in M. destruct (Forall2_nth_r _ _ _ _ _ M G) as (q1 & _ & E).
  unfold ee_from in E. apply bind_Ok in E. destruct E as (n' & _ & E). apply bind_Ok in E. destruct E as (_ & _ & E).
  exists p, q1. split; [|exact E]. apply in_map_iff. exists (q', v', p). split; [reflexivity|]. eapply nth_error_In; eauto.
Qed.

(** The residual is the weighted distance of the end effector from the wanted pose at the returned coordinates,
    whatever the optimiser, the joints and the starting points are. *)
Theorem C72_residual (s : rsys) name x wr wp q0 starts key custom q v ps n : wf W s -> q_size W s = Ok n ->
  ik s name x wr wp q0 starts key custom = Ok (q, v, ps) ->
  length q = n /\ exists xe, reaches W jt s name q xe /\ v = pose_distance wr wp x xe.
Proof.
  intros WF Hn H. destruct (ik_from_run _ _ _ _ _ _ _ _ _ _ _ _ H) as (p & q1 & _ & E).
  destruct (run_spec _ _ _ _ _ _ _ _ _ _ _ WF Hn E) as (_ & _ & _ & L & G). auto.
Qed.

(** With random starts the result is that of the first start with the smallest residual; the optimiser results are those
    of all starts, in order. *)
Theorem C72_best_start (s : rsys) name x wr wp n key custom q v ps m : q_size W s = Ok m ->
  ik s name x wr wp None (Some n) (Some key) custom = Ok (q, v, ps) ->
  exists rs : list (list R * R * list R),
    Forall2 (fun a r => ik s name x wr wp (Some a) None None custom = Ok (fst r, [snd r])) (normal key n m) rs /\
    ps = map snd rs /\
    exists b, option_map fst (nth_error rs b) = Some (q, v) /\
      (forall j r, nth_error rs j = Some r -> v <= snd (fst r)) /\
      (forall j r, (j < b)%nat -> nth_error rs j = Some r -> v < snd (fst r)).
Proof.
  intros Hm H. unfold inverse_kinematics_endeffector in H. cbn [assert_ bind] in H. rewrite Hm in H. cbn [bind] in H.
  apply bind_Ok in H. destruct H as (rs & M & H). apply bind_Ok in H. destruct H as (b & B & H).
  apply bind_Ok in H. destruct H as (((q' & v') & p) & G & H). injection H as <- <- <-. apply py_get_of_nat in G.
  exists rs. split; [|split; [reflexivity|]].
  - apply mapM_Ok_iff in M. clear -M. induction M as [|a r la lr E M IH]; [apply Forall2_nil|]. apply Forall2_cons; [|exact IH].
    unfold inverse_kinematics_endeffector. cbn [bind]. now rewrite E.
  - destruct (argmin_spec _ _ B) as (w & E & A1 & A2). rewrite nth_error_map, G in E. cbn in E. injection E as <-.
    exists b. rewrite G. split; [reflexivity|]. split.
    + intros j r Hj. apply (A1 j). now rewrite nth_error_map, Hj.
    + intros j r Hb Hj. apply (A2 j); auto. now rewrite nth_error_map, Hj.
Qed.

(** Calls that make no sense are rejected. *)
Theorem C72_rejects (s : rsys) name x wr wp custom :
  (forall q0 n key, ik s name x wr wp (Some q0) (Some n) key custom = Err EAssertion) /\
  (forall n, ik s name x wr wp None (Some n) None custom = Err EAssertion) /\
  (forall q0 key m, q_size W s = Ok m -> length q0 <> m -> ik s name x wr wp (Some q0) None key custom = Err EAssertion) /\
  (forall key, (forall m, normal key 0 m = []) -> forall m, q_size W s = Ok m ->
     ik s name x wr wp None (Some 0%nat) (Some key) custom = Err EValue) /\
  (forall n, wf W s -> q_size W s = Ok n -> ~ In name (link_names s) ->
     forall q0 starts key r, ik s name x wr wp q0 starts key custom <> Ok r).
Proof.
  split; [|split; [|split; [|split]]].
  - reflexivity.
  - reflexivity.
  - intros q0 key m Hm L. unfold inverse_kinematics_endeffector, ee_from. cbn [bind]. rewrite Hm. cbn [bind].
    apply Nat.eqb_neq in L. now rewrite L.
  - intros key N m Hm. unfold inverse_kinematics_endeffector. cbn [assert_ bind]. rewrite Hm. cbn [bind]. now rewrite N.
  - intros n WF Hn NI q0 starts key ((q & v) & ps) H.
    destruct (C72_residual _ _ _ _ _ _ _ _ _ _ _ _ _ WF Hn H) as (_ & xe & (i & I & _) & _). apply NI. eapply nth_error_In; eauto.
Qed.
End General.

(** ** Built-in joints *)
Section Builtin.
Context {P O K : Type}.
Notation W := builtin_widths.
Notation jt := (@builtin_table P).
Notation rsys := (System R (plink (params P)) geometry O).
Variable solver : (list R -> result R) -> list R -> result (list R).
Variable normal : K -> nat -> nat -> list (list R).
Notation ik := (inverse_kinematics_endeffector W jt solver normal).
(** The optimiser keeps the number of parameters. *)
Definition keeps_size : Prop := forall f a b, solver f a = Ok b -> length b = length a.
(** The optimiser does not end at a worse point than it started from. *)
Definition descends_to : Prop := forall f a b va vb, solver f a = Ok b -> f a = Ok va -> f b = Ok vb -> vb <= va.

(** The returned coordinates stand for the parameters that the optimiser found and are a valid configuration. *)
Theorem C72_feasible (s : rsys) name x wr wp q0 starts key q v ps : wf W s -> num_links s <> 0%nat ->
  ik s name x wr wp q0 starts key [] = Ok (q, v, ps) ->
  (forall p, In p ps -> q_size W s = Ok (length p) /\ no_tiny W s p) ->
  valid_config W s q /\ exists p, In p ps /\ stands_for W s p q.
Proof.
  intros WF N H T. destruct (ik_from_run _ _ _ _ _ _ _ _ _ _ _ _ _ _ _ _ H) as (p & q1 & I & E).
  destruct (T p I) as [Hp NT].
  destruct (run_spec _ _ _ _ _ _ _ _ _ _ _ _ _ _ WF Hp E) as (_ & Q & _ & L & _).
  destruct (C29_to_q_valid_partial s p WF N Hp NT) as (q' & Q' & L' & G). rewrite Q in Q'. injection Q' as <-.
  split.
  - intros i typ sl' Ht C'.
    assert (X : exists sl, link_coords (qW W) s p i sl).
    { destruct C' as (ws & ps' & Hw & [S1 S2] & Hs). destruct (wf_lean W s WF) as (qs & ds & LN).
      assert (Hi : (i < num_links s)%nat) by (rewrite <- (ln_types _ _ _ _ LN); apply nth_error_Some; congruence).
      apply total_width_Ok in Hp. destruct Hp as (ws2 & Hw2 & Hlen).
      rewrite (have_widths_unique _ _ _ _ Hw2 (ln_q _ _ _ _ LN)) in Hlen.
      eexists. apply (coords_cut W s qs ds LN p i Hlen Hi). }
    destruct X as [sl C]. exact (proj1 (G i typ sl sl' Ht C C')).
  - exists p. split; [exact I|]. split; [exact L|]. exact G.
Qed.

(** For positive weights the residual measures the pose error: it bounds both errors, and it vanishes exactly if
    the end effector is at the wanted position and orientation (up to sign and the tolerance of [angle_error]). *)
Theorem C72_zero_iff_reached (s : rsys) name x wr wp q0 starts key q v ps n xe : wf W s -> q_size W s = Ok n ->
  0 < wr -> 0 < wp -> tunit x -> unit_offsets s -> valid_config W s q ->
  ik s name x wr wp q0 starts key [] = Ok (q, v, ps) -> reaches W jt s name q xe ->
  0 <= v /\ distance (t_pos x) (t_pos xe) <= v / wp /\ angle_error (t_rot x) (t_rot xe) <= v / wr /\
  (v = 0 <-> t_pos xe = t_pos x /\ vclose0 (qvec (qmul (qinv (t_rot x)) (t_rot xe)))) /\
  (t_pos xe = t_pos x -> t_rot xe = t_rot x \/ t_rot xe = qneg (t_rot x) -> v = 0).
Proof.
  intros WF Hn Wr Wp U UO VC H RE.
  destruct (C72_residual W jt solver normal _ _ _ _ _ _ _ _ _ _ _ _ _ WF Hn H) as (_ & xe' & RE' & EV).
  assert (xe' = xe).
  { destruct RE as (i & A & B), RE' as (i' & A' & B').
    assert (i = i').
    { apply (proj1 (NoDup_nth_error (link_names s)) (wf_unique _ _ WF)); [apply nth_error_Some; congruence|congruence]. }
    subst i'. exact (C27_pose_unique W jt s q _ _ _ WF B' B). }
  subst xe'.
  assert (UX : qunit (t_rot xe)).
  { destruct RE as (i & A & B). eapply (poses_unit s q WF); eauto. intros j typ sl C D. exact (proj1 (VC j typ sl C D)). }
  unfold pose_distance in EV. set (e := angle_error (t_rot x) (t_rot xe)) in *. set (d := distance (t_pos x) (t_pos xe)) in *.
  assert (E0 : 0 <= e) by (apply (C22_angle_error (t_rot x) (t_rot xe)); auto).
  assert (D0 : 0 <= d) by apply sqrt_pos.
  assert (DE : d = 0 <-> t_pos xe = t_pos x).
  { unfold d, distance. destruct (t_pos x) as [a b c], (t_pos xe) as [a' b' c']. cbn [vx vy vz]. split.
    - intros Z. apply sqrt_eq_0 in Z.
      2:{ pose proof (Rle_0_sqr (a - a')). pose proof (Rle_0_sqr (b - b')). pose proof (Rle_0_sqr (c - c')). lra. }
      pose proof (Rle_0_sqr (a - a')) as A1. pose proof (Rle_0_sqr (b - b')) as A2. pose proof (Rle_0_sqr (c - c')) as A3.
      assert (X1 : Rsqr (a - a') = 0) by lra. assert (X2 : Rsqr (b - b') = 0) by lra. assert (X3 : Rsqr (c - c') = 0) by lra.
      apply Rsqr_0_uniq in X1, X2, X3. f_equal; lra.
    - intros Z. injection Z as -> -> ->. rewrite !Rminus_diag_eq by reflexivity. rewrite Rsqr_0, !Rplus_0_r. apply sqrt_0. }
  assert (EE : e = 0 <-> vclose0 (qvec (qmul (qinv (t_rot x)) (t_rot xe)))).
  { split; [apply (C22_angle_error (t_rot x) (t_rot xe)); auto|]. intros C. unfold e, angle_error.
    rewrite quat_angle_close; auto using Rabs_R0. apply qunit_mul; auto. now apply qunit_inv. }
  assert (P1 : 0 <= wr * e) by (apply Rmult_le_pos; lra). assert (P2 : 0 <= wp * d) by (apply Rmult_le_pos; lra).
  assert (V0 : v = 0 <-> e = 0 /\ d = 0).
  { split.
    - intros Z. split; [apply (Rmult_eq_reg_l wr)|apply (Rmult_eq_reg_l wp)]; lra.
    - intros [Ze Zd]. rewrite Ze, Zd in EV. lra. }
  split; [lra|]. split; [|split; [|split]].
  - apply (Rmult_le_reg_l wp); auto. replace (wp * (v / wp)) with v by (field; lra). lra.
  - apply (Rmult_le_reg_l wr); auto. replace (wr * (v / wr)) with v by (field; lra). lra.
  - rewrite V0, DE, EE. tauto.
  - intros HP HR. apply V0. split; [|now apply DE].
    destruct (C22_angle_error (t_rot x) (t_rot x) U U) as (_ & _ & N & Z & _). unfold e. destruct HR as [-> | ->]; [exact Z|]. now rewrite N.
Qed.

(** With an optimiser that never ends worse than it starts, the result is at least as good as every given or random start
    that is a valid configuration; in particular a start that reaches the wanted pose gives residual zero. *)
Theorem C72_improves (s : rsys) name x wr wp a q v p xa : wf W s -> joints_known jt s -> num_links s <> 0%nat ->
  q_size W s = Ok (length a) -> descends_to -> valid_config W s a -> reaches W jt s name a xa ->
  ik s name x wr wp (Some a) None None [] = Ok (q, v, p) ->
  v <= pose_distance wr wp x xa.
Proof.
  intros WF JK N Hn DT VC RA H. unfold inverse_kinematics_endeffector in H. cbn [bind] in H.
  apply bind_Ok in H. destruct H as (((q' & v') & p') & H & G). injection G as <- <- <-.
  unfold ee_from in H. rewrite Hn in H. cbn [bind] in H. rewrite Nat.eqb_refl in H. cbn [assert_ bind] in H.
  destruct (run_spec W jt solver s name x wr wp [] a q' v' p' _ WF Hn H) as (S1 & _ & V & _).
  refine (DT _ _ _ _ _ S1 _ V).
  unfold objective. rewrite (C29_to_q_idempotent s a WF N Hn VC). cbn [bind].
  destruct (proj1 (C27_total W jt s a _ WF JK Hn) eq_refl) as (xs & s1 & F). rewrite F. cbn [bind fst].
  destruct RA as (i & A & B). unfold name_to_idx. rewrite (proj2 (indexS_NoDup _ _ i (wf_unique _ _ WF)) A). cbn [bind].
  destruct (C27_poses W jt s s1 a _ xs WF Hn eq_refl F) as (Lx & _ & G).
  destruct (wf_lean W s WF) as (qs & ds & LN).
  destruct (nth_error (links s) i) as [l|] eqn:EL.
  2:{ apply nth_error_None in EL. rewrite (ln_links _ _ _ _ LN) in EL. assert (i < length (link_names s))%nat by (apply nth_error_Some; congruence).
      rewrite (wf_names _ _ WF) in *. unfold num_links in *. lia. }
  destruct (G i l EL) as (x' & t2 & X1 & X2 & _). rewrite (C27_pose_unique W jt s a _ _ _ WF X2 B) in X1.
  assert (PG : py_get xs (Z.of_nat i) = Ok xa).
  { apply py_get_nonneg; [lia|]. now rewrite Nat2Z.id. }
  rewrite PG. reflexivity.
Qed.

(** With known joints and a known end effector nothing fails unless the optimiser does. *)
Theorem C72_succeeds (s : rsys) name x wr wp a : wf W s -> joints_known jt s -> num_links s <> 0%nat ->
  q_size W s = Ok (length a) -> keeps_size -> (forall f b, exists p, solver f b = Ok p) -> In name (link_names s) ->
  exists r, ik s name x wr wp (Some a) None None [] = Ok r.
Proof.
  intros WF JK N Hn KS TS IN. unfold inverse_kinematics_endeffector. cbn [bind]. unfold ee_from. rewrite Hn. cbn [bind].
  rewrite Nat.eqb_refl. cbn [assert_ bind]. unfold ee_run. destruct (TS (objective W jt s name x wr wp []) a) as [p Sp]. rewrite Sp. cbn [bind].
  assert (Lp := KS _ _ _ Sp). assert (Hp : q_size W s = Ok (length p)) by now rewrite Lp.
  destruct (to_q_all s p WF N Hp) as (q & Q & Lq & _). rewrite Q. cbn [bind]. unfold objective. rewrite Q. cbn [bind].
  assert (Hq : q_size W s = Ok (length q)) by now rewrite Lq.
  destruct (proj1 (C27_total W jt s q _ WF JK Hq) eq_refl) as (xs & s1 & F). rewrite F. cbn [bind fst].
  apply In_nth_error in IN. destruct IN as [i Hi]. unfold name_to_idx. rewrite (proj2 (indexS_NoDup _ _ i (wf_unique _ _ WF)) Hi). cbn [bind].
  destruct (C27_poses W jt s s1 q _ xs WF Hq eq_refl F) as (Lx & _).
  assert (LI : (i < length xs)%nat).
  { rewrite Lx. unfold num_links. rewrite <- (wf_names _ _ WF). apply nth_error_Some. congruence. }
  destruct (nth_error xs i) as [xe|] eqn:E; [|apply nth_error_None in E; lia].
  assert (PG : py_get xs (Z.of_nat i) = Ok xe) by (apply py_get_nonneg; [lia|now rewrite Nat2Z.id]).
  rewrite PG. cbn [bind]. eauto.
Qed.
End Builtin.

(** ** A concrete case: an optimiser that stays where it starts, on the system [demo]; the second of two starts already reaches
    the wanted pose, so the returned residual is zero. *)
Definition stay (f : list R -> result R) (a : list R) : result (list R) := Ok a.
Lemma stay_keeps : keeps_size stay. Proof. intros f a b H. injection H as <-. reflexivity. Qed.
Lemma stay_descends : descends_to stay.
Proof. intros f a b va vb H A B. injection H as <-. rewrite A in B. injection B as <-. lra. Qed.
Definition demo_other : list R := [1; 0; 0; 0; 5; 2; 3; 1/3; 1; 0; 0; 0; 2].
Definition two_starts (_ : unit) (n m : nat) : list (list R) := firstn n [demo_other; demo_q].

Lemma demo_coords q i sl : length q = 13%nat -> link_coords (qW builtin_widths) demo q i sl ->
  (i = 0%nat /\ sl = firstn 7 q) \/ (i = 1%nat /\ sl = firstn 1 (skipn 7 q)) \/
  (i = 2%nat /\ sl = firstn 4 (skipn 8 q)) \/ (i = 3%nat /\ sl = skipn 12 q).
Proof.
  intros L (ws & ps & Hw & [S1 S2] & E).
  assert (HW : have_widths (qW builtin_widths) (link_types demo) [7; 1; 4; 1]%nat).
  { unfold have_widths. cbn [demo link_types]. repeat apply Forall2_cons; try reflexivity; apply Forall2_nil. }
  rewrite <- (have_widths_unique _ _ _ _ HW Hw) in S1. clear HW Hw ws.
  destruct ps as [|a [|b [|c [|d [|]]]]]; try discriminate S1. cbn [map] in S1. injection S1 as La Lb Lc Ld.
  cbn [concat] in S2. rewrite app_nil_r in S2. rewrite <- S2.
  destruct i as [|[|[|[|i]]]]; cbn [nth_error] in E; [..|destruct i; discriminate]; injection E as <-.
  - left. split; auto. rewrite <- La. now rewrite firstn_app, Nat.sub_diag, firstn_all, firstn_O, app_nil_r.
  - right; left. split; auto. rewrite <- La at 1. rewrite skipn_app, Nat.sub_diag, skipn_all, skipn_O. cbn [app].
    rewrite <- Lb. now rewrite firstn_app, Nat.sub_diag, firstn_all, firstn_O, app_nil_r.
  - right; right; left. split; auto. rewrite !app_assoc. rewrite <- (app_assoc (a ++ b)).
    replace 8%nat with (length (a ++ b)) by (rewrite app_length; lia). rewrite skipn_app, Nat.sub_diag, skipn_all, skipn_O. cbn [app].
    rewrite <- Lc. now rewrite firstn_app, Nat.sub_diag, firstn_all, firstn_O, app_nil_r.
  - right; right; right. split; auto. rewrite !app_assoc. replace 12%nat with (length ((a ++ b) ++ c)) by (rewrite !app_length; lia).
    now rewrite skipn_app, Nat.sub_diag, skipn_all, skipn_O.
Qed.
Lemma demo_valid q : length q = 13%nat -> qunit (q4_of (firstn 4 q)) -> qunit (q4_of (firstn 4 (skipn 8 q))) ->
  in_pi (nth 7 q 0) -> valid_config builtin_widths demo q.
Proof.
  intros L U1 U2 A i typ sl T C. apply demo_coords in C; auto.
  destruct C as [(-> & ->)|[(-> & ->)|[(-> & ->)|(-> & ->)]]]; cbn in T; injection T as <-; unfold valid_coords, has_quat, all_angles, angle_first; cbn [In].
  - rewrite firstn_firstn. cbn [Nat.min]. split; [auto|]. split; intros H; exfalso; intuition discriminate.
  - split; [intros H; exfalso; intuition discriminate|]. split; [|intros H; discriminate].
    intros _. destruct (skipn 7 q) as [|y r] eqn:E.
    + exfalso. apply (f_equal (@length R)) in E. rewrite skipn_length in E. cbn in E. lia.
    + cbn [firstn]. apply Forall_cons; [|apply Forall_nil]. rewrite <- (firstn_skipn 7 q), app_nth2 in A; rewrite firstn_length in *; [|lia].
      rewrite L, E in A. exact A.
  - rewrite firstn_firstn. cbn [Nat.min]. split; [auto|]. split; intros H; exfalso; intuition discriminate.
  - split; [|split]; intros H; exfalso; intuition discriminate.
Qed.
Lemma third_in_pi : in_pi (1 / 3). Proof. unfold in_pi. pose proof PI_RGT_0. pose proof PI2_3_2. lra. Qed.
Lemma demo_q_valid : valid_config builtin_widths demo demo_q.
Proof.
  apply demo_valid; [reflexivity|..|exact third_in_pi]; unfold qunit, qnorm2, qdot, q4_of, getR; cbn; field.
Qed.
Lemma demo_other_valid : valid_config builtin_widths demo demo_other.
Proof.
  apply demo_valid; [reflexivity|..|exact third_in_pi]; unfold qunit, qnorm2, qdot, q4_of, getR; cbn; ring.
Qed.

Example C72_nonvacuous : exists xe,
  reaches builtin_widths (@builtin_table unit) demo "hand" demo_q xe /\ tunit xe /\
  exists q, In q [demo_other; demo_q] /\
  inverse_kinematics_endeffector builtin_widths (@builtin_table unit) stay two_starts demo "hand" xe 2 3 None (Some 2%nat) (Some tt) [] =
    Ok (q, 0, [demo_other; demo_q]).
Proof.
  destruct (proj1 (C27_total _ _ demo demo_q 13 demo_wf demo_known eq_refl) eq_refl) as (xs & s1 & F).
  destruct (C27_poses _ _ demo s1 demo_q 13 xs demo_wf eq_refl eq_refl F) as (Lx & _ & G).
  destruct (G 2%nat _ eq_refl) as (xe & t2 & X1 & X2 & _). exists xe.
  assert (RE : reaches builtin_widths (@builtin_table unit) demo "hand" demo_q xe) by (exists 2%nat; split; [reflexivity|exact X2]).
  assert (U : tunit xe).
  { eapply (poses_unit demo demo_q demo_wf); [|exact demo_unit_offsets|exact X2].
    intros j typ sl C D. exact (proj1 (demo_q_valid j typ sl C D)). }
  split; [exact RE|]. split; [exact U|].
  assert (RUN : forall a, length a = 13%nat -> valid_config builtin_widths demo a ->
    exists xa, reaches builtin_widths (@builtin_table unit) demo "hand" a xa /\
      ee_from builtin_widths builtin_table stay demo "hand" xe 2 3 [] a = Ok (a, pose_distance 2 3 xe xa, a)).
  { intros a La Va. assert (Hn : q_size builtin_widths demo = Ok (length a)) by (rewrite La; reflexivity).
    destruct (proj1 (C27_total _ _ demo a _ demo_wf demo_known Hn) eq_refl) as (xs' & s1' & F').
    destruct (C27_poses _ _ demo s1' a _ xs' demo_wf Hn eq_refl F') as (Lx' & _ & G').
    destruct (G' 2%nat _ eq_refl) as (xa & t2' & Y1 & Y2 & _). exists xa. split; [exists 2%nat; split; [reflexivity|exact Y2]|].
    unfold ee_from. rewrite Hn. cbn [bind]. rewrite Nat.eqb_refl. cbn [assert_ bind]. unfold ee_run, stay. cbn [bind].
    unfold objective. rewrite (C29_to_q_idempotent demo a demo_wf ltac:(discriminate) Hn Va). cbn [bind]. rewrite F'. cbn [bind fst].
    change (name_to_idx demo "hand") with (@Ok nat 2%nat). cbn [bind].
    assert (PG : py_get xs' (Z.of_nat 2%nat) = Ok xa) by (apply py_get_nonneg; [lia|now rewrite Nat2Z.id]).
    rewrite PG. reflexivity. }
  destruct (RUN demo_other eq_refl demo_other_valid) as (xa & RA & RO). destruct (RUN demo_q eq_refl demo_q_valid) as (xe' & RE' & RQ).
  assert (xe' = xe).
  { destruct RE' as (i & A & B). destruct i as [|[|[|[|i]]]]; cbn in A; try discriminate A; [|destruct i; discriminate].
    exact (C27_pose_unique _ _ demo demo_q _ _ _ demo_wf B X2). }
  subst xe'.
  assert (Z : pose_distance 2 3 xe xe = 0).
  { unfold pose_distance, distance. rewrite !Rminus_diag_eq by reflexivity. rewrite Rsqr_0, !Rplus_0_r, sqrt_0.
    destruct (C22_angle_error (t_rot xe) (t_rot xe) U U) as (_ & _ & _ & -> & _). ring. }
  assert (POS : 0 <= pose_distance 2 3 xe xa).
  { unfold pose_distance. destruct RA as (i & _ & B).
    assert (UA : tunit xa).
    { eapply (poses_unit demo demo_other demo_wf); [|exact demo_unit_offsets|exact B].
      intros j typ sl C D. exact (proj1 (demo_other_valid j typ sl C D)). }
    destruct (C22_angle_error (t_rot xe) (t_rot xa) U UA) as ([A _] & _). pose proof (sqrt_pos : forall z, 0 <= sqrt z) as SP.
    specialize (SP (Rsqr (vx (t_pos xe) - vx (t_pos xa)) + Rsqr (vy (t_pos xe) - vy (t_pos xa)) + Rsqr (vz (t_pos xe) - vz (t_pos xa)))).
    fold (distance (t_pos xe) (t_pos xa)) in SP. lra. }
  unfold inverse_kinematics_endeffector. cbn [assert_ bind]. change (q_size builtin_widths demo) with (@Ok nat 13%nat). cbn [bind].
  change (two_starts tt 2%nat 13%nat) with [demo_other; demo_q]. cbn [mapM]. rewrite RO, RQ. cbn [bind mapM map fst snd].
  rewrite Z. cbn [argmin argmin_from]. destruct (Rlt_dec 0 (pose_distance 2 3 xe xa)) as [L|L].
  - exists demo_q. split; [now right; left|]. reflexivity.
  - exists demo_other. split; [now left|]. replace (pose_distance 2 3 xe xa) with 0 by lra. reflexivity.
Qed.

Print Assumptions C72_residual.
Print Assumptions C72_best_start.
Print Assumptions C72_rejects.
Print Assumptions C72_feasible.
Print Assumptions C72_zero_iff_reached.
Print Assumptions C72_improves.
Print Assumptions C72_succeeds.
