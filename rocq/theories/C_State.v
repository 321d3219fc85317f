(** * C29: default states and unconstrained coordinates. *)
From Coq Require Import Reals Lra String ZArith Lia Bool List.
From Verif Require Import Prelude M_Sys S_Sys P_Scan P_Run M_Math P_Math P_Trig M_Geom M_Joint M_Kin S_Kin P_Joint P_Kin C_Kin X_Demo.
Import ListNotations.

(** ** Specification *)
(** Default coordinates: identity quaternion and zeros. *)
Definition default_coords (typ : string) (sl : list R) : Prop :=
  (has_quat typ -> exists r, sl = [1; 0; 0; 0]%R ++ r /\ Forall (fun x => x = 0%R) r) /\
  (~ has_quat typ -> Forall (fun x => x = 0%R) sl).
Definition in_pi (a : R) : Prop := (- PI <= a < PI)%R.
(** Joint types with only angles, and with one angle in front. *)
Definition all_angles (typ : string) : Prop := In typ ["rx"; "ry"; "rz"; "saddle"]%string.
Definition angle_first (typ : string) : Prop := typ = "free_2d"%string.
(** Valid coordinates: unit quaternions, angles in [-pi, pi). *)
Definition valid_coords (typ : string) (sl : list R) : Prop :=
  (has_quat typ -> qunit (q4_of (firstn 4 sl))) /\
  (all_angles typ -> Forall in_pi sl) /\ (angle_first typ -> Forall in_pi (firstn 1 sl)).
Definition same_angles (a b : list R) : Prop := Forall2 (fun x y => exists k, y = (x + 2 * PI * IZR k)%R) a b.
(** [sl'] are the valid coordinates that [sl] stands for. *)
Definition projects (typ : string) (sl sl' : list R) : Prop :=
  valid_coords typ sl' /\
  (has_quat typ -> skipn 4 sl' = skipn 4 sl /\ exists c, (0 < c)%R /\ q4_of (firstn 4 sl) = qscale c (q4_of (firstn 4 sl'))) /\
  (all_angles typ -> same_angles sl sl') /\
  (angle_first typ -> same_angles (firstn 1 sl) (firstn 1 sl') /\ skipn 1 sl' = skipn 1 sl) /\
  (~ has_quat typ -> ~ all_angles typ -> ~ angle_first typ -> sl' = sl).
(** All four entries are at most 1e-8. *)
Definition tiny_quat (sl : list R) : Prop := Forall (fun x => (Rabs x <= / 10 ^ 8)%R) (firstn 4 sl).

(** ** Joint by joint *)
Lemma norm4 (a b c d : R) : ~ tiny_quat [a; b; c; d] -> (0 < a * a + (b * b + (c * c + (d * d + 0))))%R.
Proof.
  intros H. destruct (Rlt_le_dec 0 (a * a + (b * b + (c * c + (d * d + 0))))) as [G|G]; auto. exfalso. apply H.
  assert (T : (0 <= / 10 ^ 8)%R) by (left; apply Rinv_0_lt_compat, pow_lt; lra).
  pose proof (Rle_0_sqr a) as A1. pose proof (Rle_0_sqr b) as A2. pose proof (Rle_0_sqr c) as A3. pose proof (Rle_0_sqr d) as A4.
  unfold Rsqr in *.
  assert (Z : forall x, (x * x = 0)%R -> (Rabs x <= / 10 ^ 8)%R).
  { intros x E. apply Rmult_integral in E. assert (x = 0)%R by tauto. subst. now rewrite Rabs_R0. }
  unfold tiny_quat. cbn [firstn]. repeat apply Forall_cons; try apply Forall_nil; apply Z; lra.
Qed.
Lemma to_q_quat (a b c d : R) r : let sl := a :: b :: c :: d :: r in
  length (to_q_free_spherical_cor sl) = length sl /\
  skipn 4 (to_q_free_spherical_cor sl) = r /\
  (~ tiny_quat sl -> qunit (q4_of (firstn 4 (to_q_free_spherical_cor sl))) /\
    exists k, (0 < k)%R /\ q4_of [a; b; c; d] = qscale k (q4_of (firstn 4 (to_q_free_spherical_cor sl)))) /\
  (qunit (q4_of (firstn 4 sl)) -> to_q_free_spherical_cor sl = sl) /\
  (tiny_quat sl -> firstn 4 (to_q_free_spherical_cor sl) = [0; 0; 0; 0]%R).
Proof.
  intros sl. unfold to_q_free_spherical_cor, sl, tiny_quat, q4_of. cbn [firstn skipn].
  assert (U1 : (a * a + (b * b + (c * c + (d * d + 0))) = 1)%R -> ~ Forall close0 [a; b; c; d]).
  { intros E F. inversion F as [|? ? F1 F']; subst. inversion F' as [|? ? F2 F'']; subst.
    inversion F'' as [|? ? F3 F3']; subst. inversion F3' as [|? ? F4 _]; subst. clear F F' F'' F3'.
    assert (G : forall x, close0 x -> (x * x < / 4)%R).
    { intros x Hx. unfold close0, atol in Hx. assert (Rabs x < / 2)%R.
      { eapply Rle_lt_trans; [exact Hx|]. apply Rinv_lt_contravar; [|simpl; lra].
        apply Rmult_lt_0_compat; [lra|apply pow_lt; lra]. }
      rewrite <- (Rabs_pos_eq (x * x)) by (pose proof (Rle_0_sqr x); unfold Rsqr in *; lra).
      rewrite Rabs_mult. pose proof (Rabs_pos x). nra. }
    apply G in F1, F2, F3, F4. lra. }
  assert (L : forall k, lscale k [a; b; c; d] = [k * a; k * b; k * c; k * d]%R) by reflexivity.
  assert (LN : lnorm [a; b; c; d] = sqrt (a * a + (b * b + (c * c + (d * d + 0))))%R) by reflexivity.
  unfold lsafe_normalize. destruct (lclose0_dec [a; b; c; d]) as [C|C].
  - cbn [zeros repeat length app firstn skipn]. split; [reflexivity|]. split; [reflexivity|].
    split; [intros N; contradiction|]. split; [|reflexivity].
    intros U. exfalso. apply U1; auto. unfold qunit, qnorm2, qdot, getR in U. cbn [qw qx qy qz nth] in U. lra.
  - rewrite L, LN. cbn [length app firstn skipn].
    split; [reflexivity|]. split; [reflexivity|].
    split; [intros N; apply norm4 in N; split|split].
    + unfold qunit, qnorm2, qdot, getR. cbn [qw qx qy qz nth].
      set (m := (a * a + (b * b + (c * c + (d * d + 0))))%R) in *.
      assert (S : (sqrt m * sqrt m = m)%R) by (apply sqrt_sqrt; lra).
      assert (P : (0 < sqrt m)%R) by (apply sqrt_lt_R0; lra).
      transitivity (m * / (sqrt m * sqrt m))%R; [unfold m; field; fold m; lra|]. rewrite S. field. lra.
    + set (m := (a * a + (b * b + (c * c + (d * d + 0))))%R) in *.
      assert (P : (0 < sqrt m)%R) by (apply sqrt_lt_R0; lra).
      exists (sqrt m). split; auto. unfold qscale, getR. cbn [qw qx qy qz nth]. f_equal; field; lra.
    + intros U. unfold qunit, qnorm2, qdot, getR in U. cbn [qw qx qy qz nth] in U.
      replace (a * a + (b * b + (c * c + (d * d + 0))))%R with 1%R by lra. rewrite sqrt_1, Rinv_1, !Rmult_1_l. reflexivity.
    + intros T. contradiction.
Qed.

Lemma wrap_same l : same_angles l (map wrap_to_pi l).
Proof.
  induction l as [|a l IH]; [apply Forall2_nil|]. apply Forall2_cons; auto.
  destruct (wrap_congruent a) as [k ->]. exists k. ring.
Qed.
Lemma wrap_all l : Forall in_pi (map wrap_to_pi l).
Proof. induction l; [apply Forall_nil|]. apply Forall_cons; auto. apply wrap_range. Qed.
Lemma wrap_ids l : Forall in_pi l -> map wrap_to_pi l = l.
Proof. induction 1; cbn [map]; auto. rewrite wrap_id by auto. congruence. Qed.

Ltac no_case H := exfalso; unfold has_quat, all_angles, angle_first in H; cbn [In] in H; intuition discriminate.
Lemma builtin_to_q {P} typ w : qW builtin_widths typ = Some w ->
  exists jm f, @builtin_table P typ = Some jm /\ jm_to_q jm = Some f /\
    forall sl, length sl = w -> length (f sl) = w /\
      ((has_quat typ -> ~ tiny_quat sl) -> projects typ sl (f sl)) /\
      (valid_coords typ sl -> f sl = sl) /\
      (has_quat typ -> tiny_quat sl -> firstn 4 (f sl) = [0; 0; 0; 0]%R).
Proof.
  intros H. apply dget_In in H. cbn [builtin_Q In] in H.
  repeat (destruct H as [H|H]; [injection H as <- <-; eexists; eexists; split; [reflexivity|split; [reflexivity|]]; intros sl Hl|]);
    [..|contradiction].
  (* the identity *)
  all: try (match goal with |- context [to_q_id] => idtac end; unfold to_q_id, projects, valid_coords;
    split; [exact Hl|]; split; [|split; [reflexivity|intros Hx; no_case Hx]]; intros _;
    split; [split; [intros Hx; no_case Hx|split; intros Hx; no_case Hx]|];
    split; [intros Hx; no_case Hx|split; [intros Hx; no_case Hx|split; [intros Hx; no_case Hx|reflexivity]]]).
  (* angles *)
  all: try (match goal with |- context [to_q_wrap] => idtac end; unfold to_q_wrap, projects, valid_coords; rewrite map_length;
    match goal with |- context [all_angles ?t] => assert (HA : all_angles t) by (unfold all_angles; cbn [In]; tauto) end;
    split; [exact Hl|]; split; [|split; [intros (_ & V & _); apply wrap_ids, V, HA|intros Hx; no_case Hx]]; intros _;
    split; [split; [intros Hx; no_case Hx|split; [intros _; apply wrap_all|intros Hx; no_case Hx]]|];
    split; [intros Hx; no_case Hx|split; [intros _; apply wrap_same|split; [intros Hx; no_case Hx|]]];
    intros _ Hx; exfalso; exact (Hx HA)).
  (* quaternions *)
  all: try (match goal with |- context [to_q_free_spherical_cor] => idtac end; unfold projects, valid_coords;
    assert (Q : exists a b c d r, sl = a :: b :: c :: d :: r)
      by (destruct sl as [|a [|b [|c [|d r]]]]; try discriminate; eauto 6);
    destruct Q as (a & b & c & d & r & ->); destruct (to_q_quat a b c d r) as (A & B & C & D & E);
    match goal with |- context [has_quat ?t] => assert (HQ : has_quat t) by (unfold has_quat; cbn [In]; tauto) end;
    split; [rewrite A; exact Hl|]; split; [|split; [intros (V & _); apply D, V, HQ|intros _; exact E]];
    intros T; specialize (C (T HQ)); destruct C as [C1 C2];
    split; [split; [intros _; exact C1|split; intros Hx; no_case Hx]|];
    split; [intros _; split; [exact B|exact C2]|split; [intros Hx; no_case Hx|split; [intros Hx; no_case Hx|]]];
    intros Hx; exfalso; exact (Hx HQ)).
  (* free_2d *)
  unfold to_q_free_2d, projects, valid_coords. lens. cbn [firstn skipn map app length].
  split; [reflexivity|]. split; [|split; [|intros Hx; no_case Hx]].
  - intros _. split; [split; [intros Hx; no_case Hx|split; [intros Hx; no_case Hx|intros _; apply (wrap_all [_])]]|].
    split; [intros Hx; no_case Hx|split; [intros Hx; no_case Hx|split]].
    + intros _. split; [apply (wrap_same [_])|reflexivity].
    + intros _ _ Hx. exfalso. now apply Hx.
  - intros (_ & _ & V). rewrite wrap_id; auto. specialize (V eq_refl). now inversion V.
Qed.

(** ** Whole systems *)
Section State.
Context {P O : Type}.
Notation link := (plink (params P)).
Notation rsys := (System R link geometry O).
Notation W := builtin_widths.
Notation jt := (@builtin_table P).

Definition f_at (s : rsys) (v : list R) (qs : list nat) (i : nat) : result (list R) :=
  do jm <- get_joint_model jt (typ_ s i);
  match jm_to_q jm with None => Err ENotImpl | Some f => Ok (f (cut qs v i)) end.

Lemma to_q_scan (s : rsys) qs ds v : lean W s qs ds -> length v = list_sum qs ->
  coordinate_vector_to_q W jt s v [] =
  do vs <- mapM (f_at s v qs) (seq 0 (num_links s)); concatenate vs.
Proof.
  intros LN Hv. unfold coordinate_vector_to_q.
  rewrite (scan_run W s qs ds) with (cs := [col AStr (link_types s) ""%string; numcol qs v]); try apply LN; try reflexivity.
  2:{ repeat apply Forall2_cons; [apply arg_ok_col; apply LN|now apply arg_ok_q|apply Forall2_nil]. }
  cbv zeta. rewrite (run_append _ _ _ (f_at s v qs)).
  - destruct (mapM _ _); reflexivity.
  - intros y st i _. cbn [map to_q_step]. unfold col, numcol, f_at. fold (typ_ s i).
    destruct (get_joint_model jt (typ_ s i)); cbn [bind]; auto. cbn [dget]. destruct (jm_to_q a); auto.
    cbn [bind]. now rewrite nums_map.
Qed.

(** The width of each link. *)
Lemma width_at (s : rsys) qs ds i : lean W s qs ds -> i < num_links s ->
  exists w, nth_error qs i = Some w /\ qW W (typ_ s i) = Some w.
Proof.
  intros LN Hi. destruct (nth_error qs i) as [w|] eqn:E.
  - exists w. split; auto. eapply have_width_at; [apply LN|apply (typ_spec W s qs ds LN i Hi)|exact E].
  - apply nth_error_None in E. rewrite (ln_qs_length W s qs ds LN) in E. lia.
Qed.

Lemma to_q_all (s : rsys) v : wf W s -> num_links s <> 0 -> q_size W s = Ok (length v) ->
  exists q, coordinate_vector_to_q W jt s v [] = Ok q /\ length q = length v /\
    forall i typ sl sl', nth_error (link_types s) i = Some typ ->
      link_coords (qW W) s v i sl -> link_coords (qW W) s q i sl' ->
      ((has_quat typ -> ~ tiny_quat sl) -> projects typ sl sl') /\
      (valid_coords typ sl -> sl' = sl) /\
      (has_quat typ -> tiny_quat sl -> firstn 4 sl' = [0; 0; 0; 0]%R).
Proof.
  intros WF N Hq. destruct (wf_lean W s WF) as (qs & ds & LN).
  apply total_width_Ok in Hq. destruct Hq as (ws & Hw & Hlen).
  rewrite (have_widths_unique _ _ _ _ Hw (ln_q _ _ _ _ LN)) in Hlen. clear Hw ws.
  assert (G : forall i, i < num_links s -> exists w f, nth_error qs i = Some w /\ f_at s v qs i = Ok (f (cut qs v i)) /\
     length (f (cut qs v i)) = w /\
      ((has_quat (typ_ s i) -> ~ tiny_quat (cut qs v i)) -> projects (typ_ s i) (cut qs v i) (f (cut qs v i))) /\
      (valid_coords (typ_ s i) (cut qs v i) -> f (cut qs v i) = cut qs v i) /\
      (has_quat (typ_ s i) -> tiny_quat (cut qs v i) -> firstn 4 (f (cut qs v i)) = [0; 0; 0; 0]%R)).
  { intros i Hi. destruct (width_at s qs ds i LN Hi) as (w & W1 & W2).
    destruct (@builtin_to_q P _ _ W2) as (jm & f & J1 & J2 & J3).
    assert (CL : length (cut qs v i) = w) by (apply cut_length; auto). specialize (J3 _ CL).
    exists w, f. split; auto. split; [|exact J3]. unfold f_at, get_joint_model. rewrite J1. cbn [bind]. now rewrite J2. }
  assert (M : exists vs, mapM (f_at s v qs) (seq 0 (num_links s)) = Ok vs).
  { apply mapM_exists. intros i Hi. apply in_seq in Hi. destruct (G i ltac:(lia)) as (w & f & _ & -> & _). eauto. }
  destruct M as [vs M]. rewrite (to_q_scan s qs ds v LN Hlen), M. cbn [bind].
  pose proof (mapM_nth _ _ _ M) as [Lv V]. rewrite seq_length in Lv.
  assert (V' : forall i, i < num_links s -> exists sl', nth_error vs i = Some sl' /\ f_at s v qs i = Ok sl').
  { intros i Hi. apply (V i i). rewrite nth_error_nth' with (d := 0) by now rewrite seq_length. now rewrite seq_nth. }
  assert (LW : map (@length R) vs = qs).
  { apply nth_error_ext. intros i. rewrite nth_error_map. destruct (lt_dec i (num_links s)) as [Hi|Hi].
    - destruct (V' i Hi) as (sl' & E1 & E2). destruct (G i Hi) as (w & f & E3 & E4 & E5 & _). rewrite E2 in E4. injection E4 as ->.
      rewrite E1. cbn. congruence.
    - rewrite (proj2 (nth_error_None vs i)) by lia. cbn. symmetry. apply nth_error_None.
      rewrite (ln_qs_length W s qs ds LN). lia. }
  assert (LQ : length (concat vs) = list_sum qs) by (apply (splits_length qs (concat vs) vs); split; auto).
  exists (concat vs). split; [|split; [lia|]].
  { apply concatenate_Ok. split; auto. intros ->. simpl in Lv. lia. }
  intros i typ sl sl' T C C'.
  assert (Hi : i < num_links s) by (rewrite <- (ln_types _ _ _ _ LN); apply nth_error_Some; congruence).
  rewrite (typ_spec W s qs ds LN i Hi) in T. injection T as <-.
  rewrite <- (coords_unique s _ _ _ _ _ (coords_cut W s qs ds LN v i Hlen Hi) C).
  rewrite <- (coords_unique s _ _ _ _ _ (coords_cut W s qs ds LN (concat vs) i LQ Hi) C').
  rewrite cut_concat by auto. destruct (V' i Hi) as (sl3 & E1 & E2).
  destruct (G i Hi) as (w & f & _ & E4 & _ & E5). rewrite E2 in E4. injection E4 as ->.
  apply nth_error_nth with (d := []) in E1. rewrite E1. exact E5.
Qed.

(** Any vector of the right size becomes a valid coordinate vector that stands for it, as long as no quaternion
    has all entries within 1e-8 of zero. *)
Theorem C29_to_q_valid_partial (s : rsys) v : wf W s -> num_links s <> 0 -> q_size W s = Ok (length v) ->
  (forall i typ sl, nth_error (link_types s) i = Some typ -> has_quat typ -> link_coords (qW W) s v i sl -> ~ tiny_quat sl) ->
  exists q, coordinate_vector_to_q W jt s v [] = Ok q /\ length q = length v /\
    forall i typ sl sl', nth_error (link_types s) i = Some typ ->
      link_coords (qW W) s v i sl -> link_coords (qW W) s q i sl' -> projects typ sl sl'.
Proof.
  intros WF N Hq T. destruct (to_q_all s v WF N Hq) as (q & A & B & C). exists q.
  split; [exact A|]. split; [exact B|]. intros i typ sl sl' H1 H2 H3. apply (C i typ sl sl' H1 H2 H3). eauto.
Qed.

(** Valid coordinates are not changed. *)
Theorem C29_to_q_idempotent (s : rsys) v : wf W s -> num_links s <> 0 -> q_size W s = Ok (length v) ->
  (forall i typ sl, nth_error (link_types s) i = Some typ -> link_coords (qW W) s v i sl -> valid_coords typ sl) ->
  coordinate_vector_to_q W jt s v [] = Ok v.
Proof.
  intros WF N Hq T. destruct (to_q_all s v WF N Hq) as (q & A & B & C). rewrite A. f_equal.
  destruct (wf_lean W s WF) as (qs & ds & LN). apply total_width_Ok in Hq. destruct Hq as (ws & Hw & Hlen).
  rewrite (have_widths_unique _ _ _ _ Hw (ln_q _ _ _ _ LN)) in Hlen. clear Hw ws.
  rewrite <- (concat_cuts qs q), <- (concat_cuts qs v) by lia. f_equal. apply map_ext_in. intros i Hi. apply in_seq in Hi.
  rewrite (ln_qs_length W s qs ds LN) in Hi. assert (Hi' : i < num_links s) by lia.
  eapply (C i); [apply (typ_spec W s qs ds LN i Hi')|apply (coords_cut W s qs ds LN); auto|apply (coords_cut W s qs ds LN); auto; lia|].
  eapply T; [apply (typ_spec W s qs ds LN i Hi')|apply (coords_cut W s qs ds LN); auto].
Qed.

(** A (near-)zero quaternion becomes the zero quaternion, which is not valid. *)
Theorem C29_zero_quaternion_refuted (s : rsys) v i typ sl : wf W s -> q_size W s = Ok (length v) ->
  nth_error (link_types s) i = Some typ -> has_quat typ -> link_coords (qW W) s v i sl -> tiny_quat sl ->
  exists q, coordinate_vector_to_q W jt s v [] = Ok q /\
    forall sl', link_coords (qW W) s q i sl' -> ~ valid_coords typ sl'.
Proof.
  intros WF Hq T HQ Hs TQ.
  assert (N : num_links s <> 0).
  { intros N. unfold num_links in N. rewrite <- (wf_types _ _ WF) in N.
    destruct (link_types s); [destruct i; discriminate|discriminate]. }
  destruct (to_q_all s v WF N Hq) as (q & A & _ & C). exists q. split; auto. intros sl' Hs' V.
  destruct (C i typ sl sl' T Hs Hs') as (_ & _ & Z). specialize (Z HQ TQ).
  destruct V as [V _]. specialize (V HQ). rewrite Z in V. unfold qunit, qnorm2, qdot, q4_of, getR in V.
  cbn [qw qx qy qz nth] in V. lra.
Qed.

(** *** State.create *)
Definition block (typ : string) (w : nat) : list R :=
  if is_free_or_cor_or_spherical typ then 1%R :: zeros (w - 1) else zeros w.
Lemma block_default typ w : qW W typ = Some w -> default_coords typ (block typ w) /\ length (block typ w) = w /\
  (is_free_or_cor_or_spherical typ = true -> 1 <= w).
Proof.
  intros H. apply dget_In in H. cbn [builtin_Q In] in H.
  assert (Z : forall k, Forall (fun x => x = 0%R) (zeros k)).
  { intros k. apply Forall_forall. intros x Hx. now apply repeat_spec in Hx. }
  repeat (destruct H as [H|H]; [injection H as <- <-;
    (split; [split; intros Hx; unfold block; cbn [is_free_or_cor_or_spherical];
       first [ no_case Hx | apply Z | exists []; split; [reflexivity|apply Forall_nil]
             | exists [0;0;0]%R; split; [reflexivity|apply (Z 3)] | exists [0;0;0;0;0;0]%R; split; [reflexivity|apply (Z 6)]
             | exfalso; apply Hx; unfold has_quat; cbn [In]; tauto ]
     |split; [reflexivity|intros Y; first [discriminate|lia]]])|]). contradiction.
Qed.
Lemma set_at_app (a : list R) k r : 1 <= k ->
  set_at (a ++ zeros (k + r)) (length a) 1%R = a ++ (1%R :: zeros (k - 1)) ++ zeros r.
Proof.
  intros Hk. induction a as [|x a IH]; cbn [app length].
  - destruct k as [|k]; [lia|]. cbn. rewrite Nat.sub_0_r. unfold zeros. now rewrite repeat_app.
  - cbn [set_at]. now rewrite IH.
Qed.
Lemma firstn_S_sum qs i w : nth_error qs i = Some w -> list_sum (firstn (S i) qs) = list_sum (firstn i qs) + w.
Proof.
  revert i. induction qs as [|a r IH]; intros [|i] H; try discriminate; cbn [nth_error firstn list_sum fold_right] in *.
  - injection H as ->. cbn. lia.
  - rewrite IH by auto. fold (list_sum (firstn i r)). unfold list_sum. cbn [fold_right]. fold (list_sum (firstn i r)). lia.
Qed.

Lemma default_run (s : rsys) qs ds : lean W s qs ds -> forall m k y st, k + m = num_links s ->
  st = concat (map (fun i => block (typ_ s i) (nth i qs 0)) (seq 0 k)) ++ zeros (list_sum (skipn k qs)) ->
  exists ys, run (@unit_quat_step P) (mkIM (slices_from 0 qs) (slices_from 0 ds)) y st
    (map (fun i => map (fun c => c i) [col AStr (link_types s) ""%string; (fun i => One (AInt (Z.of_nat i)))]) (seq k m)) =
    Ok (ys, concat (map (fun i => block (typ_ s i) (nth i qs 0)) (seq 0 (num_links s)))).
Proof.
  intros LN. induction m as [|m IH]; intros k y st Hk ->.
  - cbn [seq map run]. exists []. rewrite skipn_all2 by (rewrite (ln_qs_length W s qs ds LN); lia).
    cbn [list_sum fold_right zeros repeat]. rewrite app_nil_r. do 3 f_equal. replace k with (num_links s) by lia. reflexivity.
  - cbn [seq map run]. assert (Hi : k < num_links s) by lia. destruct (width_at s qs ds k LN Hi) as (w & W1 & W2).
    destruct (block_default _ _ W2) as (_ & B2 & B3).
    assert (SK : list_sum (skipn k qs) = w + list_sum (skipn (S k) qs)).
    { clear -W1. revert k W1. induction qs as [|a r IH]; intros [|k] H; try discriminate; cbn [nth_error] in H.
      - injection H as ->. reflexivity.
      - cbn [skipn]. now apply IH. }
    assert (LC : forall j, j <= num_links s ->
       length (concat (map (fun i => block (typ_ s i) (nth i qs 0)) (seq 0 j))) = list_sum (firstn j qs)).
    { induction j as [|j IHj]; intros Hj; [reflexivity|].
      destruct (width_at s qs ds j LN Hj) as (w' & A & B). rewrite (firstn_S_sum _ _ _ A), seq_S, map_app, concat_app, app_length, IHj by lia.
      cbn [plus map concat]. rewrite app_nil_r, (nth_error_nth _ _ 0 A). destruct (block_default _ _ B) as (_ & -> & _). reflexivity. }
    assert (ST : unit_quat_step (P:=P) y (mkIM (slices_from 0 qs) (slices_from 0 ds))
       [col AStr (link_types s) ""%string k; One (AInt (Z.of_nat k))]
       (concat (map (fun i => block (typ_ s i) (nth i qs 0)) (seq 0 k)) ++ zeros (list_sum (skipn k qs))) =
       Ok (tt, concat (map (fun i => block (typ_ s i) (nth i qs 0)) (seq 0 (S k))) ++ zeros (list_sum (skipn (S k) qs)))).
    { unfold unit_quat_step, col. fold (typ_ s k). cbn [im_q]. rewrite Nat2Z.id, (nth_slices_from _ 0 _ _ W1). cbn [fst].
      rewrite seq_S, map_app, concat_app. cbn [plus map concat]. rewrite app_nil_r, (nth_error_nth _ _ 0 W1), SK.
      unfold block at 2 4. destruct (is_free_or_cor_or_spherical (typ_ s k)).
      - rewrite <- (LC k) by lia. rewrite set_at_app by auto. now rewrite app_assoc.
      - unfold zeros. now rewrite repeat_app, app_assoc. }
    cbn [map]. rewrite ST. cbn [bind fst snd].
    destruct (IH (S k) (Some tt) _ ltac:(lia) eq_refl) as [ys E]. cbn [map] in E. rewrite E. cbn [bind fst snd]. eauto.
Qed.

(** Without q and key: identity quaternions and zeros, in every link; velocities and poses default to zero. *)
Theorem C29_default_state (s : rsys) custom n nd : wf W s -> q_size W s = Ok n -> qd_size W s = Ok nd ->
  exists q, state_create W jt s None None None None custom = Ok (mkState q (repeat 0%R nd) (repeat t_zero (num_links s))) /\
    length q = n /\
    forall i typ sl, nth_error (link_types s) i = Some typ -> link_coords (qW W) s q i sl -> default_coords typ sl.
Proof.
  intros WF Hq Hd. destruct (wf_lean W s WF) as (qs & ds & LN). unfold state_create. rewrite Hq, Hd. cbn [bind].
  apply total_width_Ok in Hq. destruct Hq as (ws & Hw & Hlen).
  rewrite (have_widths_unique _ _ _ _ Hw (ln_q _ _ _ _ LN)) in Hlen. clear Hw ws.
  rewrite (scan_run W s qs ds) with (cs := [col AStr (link_types s) ""%string; (fun i => One (AInt (Z.of_nat i)))]); try apply LN; try reflexivity.
  2:{ repeat apply Forall2_cons; [apply arg_ok_col; apply LN|apply arg_ok_ints|apply Forall2_nil]. }
  cbv zeta. rewrite Hlen.
  destruct (default_run s qs ds LN (num_links s) 0 None (zeros (list_sum qs)) eq_refl eq_refl) as [ys ->].
  cbn [bind snd]. set (vs := map _ _). exists (concat vs). split; [reflexivity|].
  assert (LW : map (@length R) vs = qs).
  { unfold vs. rewrite map_map. transitivity (map (fun i => nth i qs 0) (seq 0 (length qs))); [|apply map_seq_nth].
    rewrite (ln_qs_length W s qs ds LN).
    apply map_ext_in. intros i Hi. apply in_seq in Hi. destruct (width_at s qs ds i LN ltac:(lia)) as (w & A & B).
    rewrite (nth_error_nth _ _ 0 A). now apply block_default. }
  assert (LQ : length (concat vs) = list_sum qs) by (apply (splits_length qs (concat vs) vs); split; auto).
  split; [exact LQ|]. intros i typ sl T C.
  assert (Hi : i < num_links s) by (rewrite <- (ln_types _ _ _ _ LN); apply nth_error_Some; congruence).
  rewrite (typ_spec W s qs ds LN i Hi) in T. injection T as <-.
  rewrite <- (coords_unique s _ _ _ _ _ (coords_cut W s qs ds LN (concat vs) i LQ Hi) C).
  rewrite cut_concat by auto. destruct (width_at s qs ds i LN Hi) as (w & A & B).
  unfold vs. rewrite nth_error_nth with (x := block (typ_ s i) (nth i qs 0)).
  - rewrite (nth_error_nth _ _ 0 A). now apply block_default.
  - now rewrite nth_map_seq.
Qed.

(** With a key, the drawn vector is made valid; giving both q and a key is rejected; q, qd, x are kept when given. *)
Theorem C29_create_given (s : rsys) custom n nd : wf W s -> q_size W s = Ok n -> qd_size W s = Ok nd ->
  (forall z, state_create W jt s None None None (Some z) custom =
     do q <- coordinate_vector_to_q W jt s z custom; Ok (mkState q (repeat 0%R nd) (repeat t_zero (num_links s)))) /\
  (forall q qd x z, state_create W jt s (Some q) qd x (Some z) custom = Err EAssertion) /\
  (forall q qd x, state_create W jt s (Some q) (Some qd) (Some x) None custom = Ok (mkState q qd x)).
Proof.
  intros WF Hq Hd. unfold state_create. rewrite Hd. repeat split; intros; cbn; auto.
Qed.
End State.

Example C29_example : exists q,
  state_create builtin_widths builtin_table demo None None None None [] =
    Ok (mkState q (repeat 0%R 11) (repeat t_zero 4)) /\ length q = 13 /\
  exists q', coordinate_vector_to_q builtin_widths builtin_table demo demo_q [] = Ok q' /\ length q' = 13.
Proof.
  destruct (C29_default_state demo [] 13 11 demo_wf eq_refl eq_refl) as (q & A & B & _). exists q.
  split; [exact A|]. split; [exact B|].
  destruct (to_q_all demo demo_q demo_wf ltac:(discriminate) demo_q_size) as (q' & C & D & _). now exists q'.
Qed.
(** A ball joint sent to the zero quaternion. *)
Example C29_refuted_example : exists q, coordinate_vector_to_q builtin_widths builtin_table demo (repeat 0%R 13) [] = Ok q /\
  forall sl', link_coords (qW builtin_widths) demo q 2 sl' -> ~ valid_coords "spherical" sl'.
Proof.
  apply (C29_zero_quaternion_refuted demo (repeat 0%R 13) 2 "spherical" [0;0;0;0]%R demo_wf eq_refl eq_refl).
  - unfold has_quat. cbn [In]. tauto.
  - exists [7; 1; 4; 1], [repeat 0%R 7; [0]%R; [0;0;0;0]%R; [0]%R]. split; [|split; [split; reflexivity|reflexivity]].
    repeat apply Forall2_cons; try reflexivity; apply Forall2_nil.
  - unfold tiny_quat. cbn [firstn]. assert (T : (Rabs 0 <= / 10 ^ 8)%R).
    { rewrite Rabs_R0. left. apply Rinv_0_lt_compat, pow_lt. lra. }
    repeat apply Forall_cons; auto.
Qed.
Print Assumptions C29_to_q_valid_partial.
Print Assumptions C29_to_q_idempotent.
Print Assumptions C29_zero_quaternion_refuted.
Print Assumptions C29_default_state.
Print Assumptions C29_create_given.
