(** * C31: inverse dynamics. *)
From Coq Require Import Reals Lra String ZArith Lia Bool List.
From Verif Require Import Prelude M_Sys S_Sys P_Scan P_Run M_Math P_Math M_Geom P_Geom M_Joint M_Kin M_Dyn S_Kin P_Joint P_Kin P_Mat S_Dyn P_Dyn P_Mass P_Rnea C_Kin X_Demo C_Mass.
Import ListNotations.

(** sys.replace(gravity=g) *)
Definition with_gravity {P O} (s : System R (plink (params P)) geometry O) (g : list R) : System R (plink (params P)) geometry O :=
  mkSys (link_parents s) (links s) (link_types s) (link_damping s) (link_armature s) (link_spring_stiffness s)
    (link_spring_zeropoint s) (sys_dt s) (geoms s) g (integration_method s) (mass_mat_iters s)
    (link_names s) (model_name s) (omc s).

Lemma sum4_sumR {A B C D} (f : A -> B -> C -> D -> R) : forall a b c d da db dc dd, length a = length b -> length b = length c -> length c = length d ->
  sum4 f a b c d = sumR (length a) (fun i => f (nth i a da) (nth i b db) (nth i c dc) (nth i d dd)).
Proof.
  induction a as [|x a IH]; intros [|y b] [|z c] [|w d] da db dc dd H1 H2 H3; try discriminate; [reflexivity|].
  cbn [sum4 length]. change (S (length a)) with (1 + length a). rewrite sumR_app. cbn [sumR nth].
  rewrite (IH b c d da db dc dd) by (cbn in *; lia). cbn [Nat.add nth]. ring.
Qed.
Lemma m_cross_star_zero a : m_cross_star szero a = szero. Proof. destruct a as [[] []]. vring. Qed.
Lemma sadd_ac a b c : sadd (sadd a b) c = sadd (sadd a c) b. Proof. vring. Qed.
Lemma getR_zeros m b : getR (zeros m) b = 0%R.
Proof. unfold getR, zeros. destruct (lt_dec b m); [|apply nth_overflow; rewrite repeat_length; lia]. now rewrite nth_repeat. Qed.
Lemma functional_unique m t t' : (forall x : nat -> R, sumR m (fun b => x b * t b) = sumR m (fun b => x b * t' b))%R ->
  forall b, b < m -> t b = t' b.
Proof.
  intros H b Hb. specialize (H (fun c => if c =? b then 1%R else 0%R)).
  rewrite !(sumR_delta m b) in H; auto; try (intros j _ Hj; destruct (Nat.eqb_spec j b); [contradiction|ring]).
  rewrite Nat.eqb_refl in H. lra.
Qed.

Lemma jv_zeros ds S_ m i : jv ds S_ (getR (zeros m)) i = szero.
Proof.
  unfold jv. rewrite (map_ext _ (fun _ => 0%R)) by (intros; apply getR_zeros).
  unfold motion_sum. generalize (S_ i). intros ms. generalize (seq 0 (length ms)). intros sq.
  assert (G : forall k, getR (map (fun _ => 0%R) (seq 0 (wd ds i))) k = 0%R).
  { intros k. unfold getR. destruct (nth_in_or_default k (map (fun _ => 0%R) (seq 0 (wd ds i))) 0%R) as [I|]; auto.
    apply in_map_iff in I. destruct I as (? & <- & _). reflexivity. }
  induction sq as [|k sq IH]; cbn [fold_left]; auto. rewrite G. replace (sadd szero (sscale 0 (nth k ms szero))) with szero; auto.
  destruct (nth k ms szero) as [[] []]. vring.
Qed.

Section C31.
Context {P O : Type}.
Variable W : widths.
Variable jt : joint_table P.
Notation link := (plink (params P)).
Notation rsys := (System R link geometry O).

Section One.
Variable s : rsys.
Variables qs ds : list nat.
Hypothesis LN : lean W s qs ds.
Hypothesis JK : joints_known jt s.
Hypothesis MF : motions_fit W jt.
Notation n := (num_links s).
Notation nd := (list_sum ds).
Notation J x := (jv ds (ms_of jt s) (getR x)).

Lemma acc_body qd qdd v a : length qd = nd -> length qdd = nd ->
  is_field n (par s) (Xs s) (J qd) v -> is_acc s (Sp vzero (v3_of (gravity s))) (J qd) (J qdd) v a ->
  forall i, i < n -> body_acc W jt s qd qdd (Z.of_nat i) (a i).
Proof.
  intros Hq Hqq F A i. induction i as [i IH] using lt_wf_ind. intros Hi. rewrite (A i Hi).
  pose proof (par_range W s qs ds LN i Hi) as PR.
  eapply acc_link; [apply par_spec; auto|apply (lnk_spec W s qs ds LN i Hi)|now apply (joint_vel_jv W jt s qs ds LN JK MF)|
    now apply (joint_vel_jv W jt s qs ds LN JK MF)|now apply (field_body W jt s qs ds LN JK MF)|].
  destruct (Z.eqb_spec (par s i) (-1)) as [->|E]; [apply acc_world|].
  rewrite <- (Z2Nat.id (par s i)) at 1 by lia. apply IH; lia.
Qed.
Lemma acc_body_unique qd qdd z a : length qd = nd -> length qdd = nd -> body_acc W jt s qd qdd z a ->
  forall a', body_acc W jt s qd qdd z a' -> a = a'.
Proof.
  intros Hq Hqq H. induction H as [|i p l vJ aJ v ap A B C C2 V D IH]; intros v' H'.
  - inversion H'; [reflexivity|lia].
  - inversion H' as [|i' p' l' vJ' aJ' v'' ap' A' B' C' C2' V' D' E']; [lia|]. apply Nat2Z.inj in E'. subst i'.
    assert (Hi : i < n) by (apply nth_error_Some; congruence).
    assert (p' = p) by congruence. assert (l' = l) by congruence. subst p' l'.
    apply (joint_vel_jv W jt s qs ds LN JK MF) in C, C', C2, C2'; auto.
    rewrite (body_unique W jt s qs ds LN JK MF qd _ _ Hq V _ V'). rewrite C, C', C2, C2'. f_equal. f_equal. f_equal. now apply IH.
Qed.
End One.

(** Principle of virtual work: the generalised forces do the same work on every virtual motion of the system as the
    forces each link needs for its acceleration. *)
Theorem C31_virtual_work (s : rsys) nd qd qdd vs accs : wf W s -> joints_known jt s -> motions_fit W jt -> unit_transforms s ->
  links s <> [] -> qd_size W s = Ok nd -> length qd = nd -> length qdd = nd ->
  body_vels W jt s qd vs -> body_accs W jt s qd qdd accs ->
  exists tau, inverse_dynamics W jt s qd qdd = Ok tau /\ length tau = nd /\
    forall x us, length x = nd -> body_vels W jt s x us ->
      sum2 Rmult x tau =
      sum4 (fun l u v a => m_dot u (sadd (i_mul (pl_inertia l) a) (m_cross_star v (i_mul (pl_inertia l) v)))) (links s) us vs accs.
Proof.
  intros WF JK MF UT NE Hnd Hq Hqq BV BA. destruct (wf_lean W s WF) as (qs & ds & LN).
  apply total_width_Ok in Hnd. destruct Hnd as (ws & Hw & ->). rewrite (have_widths_unique _ _ _ _ Hw (ln_d _ _ _ _ LN)) in *. clear Hw ws.
  pose proof (body_field W jt s qs ds LN JK MF qd vs Hq BV) as F.
  destruct (acc_exists W s qs ds LN (Sp vzero (v3_of (gravity s))) (jv ds (ms_of jt s) (getR qd)) (jv ds (ms_of jt s) (getR qdd)) (fun i => nth i vs szero)) as [a A].
  assert (Hn : num_links s <> 0). { rewrite <- (ln_links _ _ _ _ LN). destruct (links s); cbn; congruence. }
  destruct (rnea_spec W jt s qs ds LN JK MF UT qd qdd _ a Hq Hqq Hn F A) as (tau & E & L & V).
  exists tau. split; [exact E|]. split; [exact L|]. intros x us Hx BU. specialize (V _ _ (body_field W jt s qs ds LN JK MF x us Hx BU)).
  destruct BV as [LV BV]. destruct BA as [LA BA]. destruct BU as [LU BU].
  rewrite (sum2_sumR _ x tau 0%R 0%R) by lia. rewrite Hx. unfold getR in V. rewrite V.
  rewrite (sum4_sumR _ (links s) us vs accs dlink szero szero szero) by lia. rewrite (ln_links _ _ _ _ LN).
  apply sumR_ext. intros i Hi. unfold frc. do 2 f_equal. unfold It, lnk. f_equal.
  eapply (acc_body_unique s qs ds LN JK MF qd qdd (Z.of_nat i)); auto.
  - eapply (acc_body s qs ds LN JK MF); eauto.
  - apply BA. apply nth_error_nth'. rewrite LA, (ln_links _ _ _ _ LN). exact Hi.
Qed.

(** Generalised forces have the size of generalised velocities. *)
Lemma C31_sizes (s : rsys) nd qd qdd tau : wf W s -> joints_known jt s -> motions_fit W jt -> unit_transforms s ->
  links s <> [] -> qd_size W s = Ok nd -> inverse_dynamics W jt s qd qdd = Ok tau -> length qd = nd -> length qdd = nd -> length tau = nd.
Proof.
  intros WF JK MF UT NE Hnd E Hq Hqq. destruct (wf_lean W s WF) as (qs & ds & LN).
  apply total_width_Ok in Hnd. destruct Hnd as (ws & Hw & ->). rewrite (have_widths_unique _ _ _ _ Hw (ln_d _ _ _ _ LN)) in *. clear Hw ws.
  assert (Hn : num_links s <> 0). { rewrite <- (ln_links _ _ _ _ LN). destruct (links s); cbn; congruence. }
  assert (PR : forall i, i < num_links s -> (-1 <= par s i < Z.of_nat i)%Z) by (intros; now apply (par_range W s qs ds LN)).
  pose proof (field_is _ (par s) (Xs s) PR (jv ds (ms_of jt s) (getR qd))) as Fv.
  destruct (acc_exists W s qs ds LN (Sp vzero (v3_of (gravity s))) (jv ds (ms_of jt s) (getR qd)) (jv ds (ms_of jt s) (getR qdd))
    (fun i => field (par s) (Xs s) (S i) (jv ds (ms_of jt s) (getR qd)) i)) as [a A].
  destruct (rnea_spec W jt s qs ds LN JK MF UT qd qdd _ a Hq Hqq Hn Fv A) as (tau' & E' & L & _). congruence.
Qed.

(** Affine in the acceleration, with the mass matrix (without armature) as linear part. *)
Theorem C31_affine (s : rsys) nd qd qdd : wf W s -> joints_known jt s -> motions_fit W jt -> unit_transforms s ->
  symmetric_inertias s -> links s <> [] -> qd_size W s = Ok nd -> length qd = nd -> length qdd = nd ->
  exists H tau bias, compute_mass_matrix W jt s = Ok H /\ inverse_dynamics W jt s qd qdd = Ok tau /\
    inverse_dynamics W jt s qd (zeros nd) = Ok bias /\
    forall b, b < nd -> (getR tau b = sumR nd (fun c => H b c * getR qdd c) - getR (link_armature s) b * getR qdd b + getR bias b)%R.
Proof.
  intros WF JK MF UT SI NE Hnd Hq Hqq. destruct (wf_lean W s WF) as (qs & ds & LN).
  apply total_width_Ok in Hnd. destruct Hnd as (ws & Hw & ->). rewrite (have_widths_unique _ _ _ _ Hw (ln_d _ _ _ _ LN)) in *. clear Hw ws.
  assert (Hn : num_links s <> 0). { rewrite <- (ln_links _ _ _ _ LN). destruct (links s); cbn; congruence. }
  set (n := num_links s) in *. set (nd := list_sum ds) in *.
  destruct (mass_spec W jt s qs ds LN JK MF UT) as (H & EH & _ & B).
  { intros l Hl. apply bsym_isym, SI, Hl. }
  assert (PR : forall i, i < n -> (-1 <= par s i < Z.of_nat i)%Z) by (intros; now apply (par_range W s qs ds LN)).
  set (J := fun x => jv ds (ms_of jt s) (getR x)).
  set (v := fun i => field (par s) (Xs s) (S i) (J qd) i). pose proof (field_is n (par s) (Xs s) PR (J qd)) as Fv. fold v in Fv.
  set (w := fun i => field (par s) (Xs s) (S i) (J qdd) i). pose proof (field_is n (par s) (Xs s) PR (J qdd)) as Fw. fold w in Fw.
  destruct (acc_exists W s qs ds LN (Sp vzero (v3_of (gravity s))) (J qd) (J (zeros nd)) v) as [a0 A0].
  assert (Z : forall i, J (zeros nd) i = szero) by (intros i; apply jv_zeros).
  assert (A : is_acc s (Sp vzero (v3_of (gravity s))) (J qd) (J qdd) v (fun i => sadd (a0 i) (w i))).
  { intros i Hi. rewrite (A0 i Hi), (Fw i Hi). rewrite Z. unfold up. destruct (Z.eqb_spec (par s i) (-1)).
    - rewrite !sadd_0_r. apply sadd_ac.
    - rewrite t_motion_add, sadd_0_r. generalize (t_motion (Xs s i) (a0 (Z.to_nat (par s i)))), (t_motion (Xs s i) (w (Z.to_nat (par s i)))), (m_cross (v i) (J qd i)), (J qdd i).
      intros [[] []] [[] []] [[] []] [[] []]. vring. }
  destruct (rnea_spec W jt s qs ds LN JK MF UT qd qdd v _ Hq Hqq Hn Fv A) as (tau & E & L & V).
  destruct (rnea_spec W jt s qs ds LN JK MF UT qd (zeros nd) v a0 Hq ltac:(unfold zeros; apply repeat_length) Hn Fv A0) as (bias & E0 & L0 & V0).
  exists H, tau, bias. split; [exact EH|]. split; [exact E|]. split; [exact E0|].
  intros b Hb. pose proof (functional_unique nd (getR tau) (fun b => sumR nd (fun c => H b c * getR qdd c) - getR (link_armature s) b * getR qdd b + getR bias b)%R) as U.
  apply U; auto. clear U b Hb. intros x. pose proof (field_is n (par s) (Xs s) PR (jv ds (ms_of jt s) x)) as Fu.
  fold nd n in V, V0, B. rewrite (V x _ Fu). transitivity (bil nd H x (getR qdd) - sumR nd (fun a => x a * getR (link_armature s) a * getR qdd a) + sumR nd (fun b => x b * getR bias b))%R.
  - rewrite (B x (getR qdd) _ w Fu Fw), (V0 x _ Fu). match goal with |- _ = (?p + ?q - ?r + ?t)%R => replace (p + q - r + t)%R with (p + t)%R by (unfold nd; ring) end.
    rewrite <- sumR_add. apply sumR_ext. intros i Hi. unfold frc. rewrite <- m_dot_add_r. f_equal. rewrite i_mul_add.
    generalize (i_mul (It s i) (a0 i)), (i_mul (It s i) (w i)), (m_cross_star (v i) (i_mul (It s i) (v i))).
    intros [[] []] [[] []] [[] []]. vring.
  - unfold bil. rewrite <- sumR_sub, <- sumR_add. apply sumR_ext. intros a _. rewrite Rmult_plus_distr_l, Rmult_minus_distr_l, <- sumR_scale.
    f_equal. f_equal; [|ring]. apply sumR_ext. intros. ring.
Qed.

(** Gravity enters by the gravity load only: the torques that hold the resting system. *)
Theorem C31_gravity (s : rsys) nd qd qdd : wf W s -> joints_known jt s -> motions_fit W jt -> unit_transforms s ->
  links s <> [] -> qd_size W s = Ok nd -> length qd = nd -> length qdd = nd ->
  exists tau tau0 load, inverse_dynamics W jt s qd qdd = Ok tau /\
    inverse_dynamics W jt (with_gravity s [0;0;0]%R) qd qdd = Ok tau0 /\
    inverse_dynamics W jt s (zeros nd) (zeros nd) = Ok load /\
    forall b, b < nd -> (getR tau b = getR tau0 b + getR load b)%R.
Proof.
  intros WF JK MF UT NE Hnd Hq Hqq. destruct (wf_lean W s WF) as (qs & ds & LN).
  apply total_width_Ok in Hnd. destruct Hnd as (ws & Hw & ->). rewrite (have_widths_unique _ _ _ _ Hw (ln_d _ _ _ _ LN)) in *. clear Hw ws.
  assert (Hn : num_links s <> 0). { rewrite <- (ln_links _ _ _ _ LN). destruct (links s); cbn; congruence. }
  assert (LN' : lean W (with_gravity s [0;0;0]%R) qs ds) by (destruct LN; constructor; assumption).
  assert (Lz : length (zeros (list_sum ds)) = list_sum ds) by (unfold zeros; apply repeat_length).
  assert (PR : forall i, i < num_links s -> (-1 <= par s i < Z.of_nat i)%Z) by (intros; now apply (par_range W s qs ds LN)).
  set (n := num_links s) in *. set (nd := list_sum ds) in *. set (g := Sp vzero (v3_of (gravity s))).
  set (J := fun x => jv ds (ms_of jt s) (getR x)).
  set (v := fun i => field (par s) (Xs s) (S i) (J qd) i). pose proof (field_is n (par s) (Xs s) PR (J qd)) as Fv. fold v in Fv.
  assert (F0 : is_field n (par s) (Xs s) (J (zeros nd)) (fun _ => szero)).
  { intros i Hi. unfold J. rewrite jv_zeros. unfold up. destruct (par s i =? -1)%Z; rewrite ?t_motion_zero, sadd_0_r; reflexivity. }
  destruct (acc_exists W s qs ds LN (Sp vzero (v3_of [0;0;0]%R)) (J qd) (J qdd) v) as [a1 A1].
  destruct (acc_exists W s qs ds LN g (J (zeros nd)) (J (zeros nd)) (fun _ => szero)) as [a2 A2].
  assert (A : is_acc s g (J qd) (J qdd) v (fun i => sadd (a1 i) (a2 i))).
  { intros i Hi. rewrite (A1 i Hi), (A2 i Hi). unfold J at 3 4. rewrite !jv_zeros, m_cross_self, !sadd_0_r. destruct (Z.eqb_spec (par s i) (-1)).
    - replace (Sp vzero (v3_of [0;0;0]%R)) with szero by reflexivity. rewrite t_motion_zero.
      generalize (t_motion (Xs s i) g), (m_cross (v i) (J qd i)), (J qdd i). intros [[] []] [[] []] [[] []]. vring.
    - rewrite t_motion_add. generalize (t_motion (Xs s i) (a1 (Z.to_nat (par s i)))), (t_motion (Xs s i) (a2 (Z.to_nat (par s i)))), (m_cross (v i) (J qd i)), (J qdd i).
      intros [[] []] [[] []] [[] []] [[] []]. vring. }
  destruct (rnea_spec W jt s qs ds LN JK MF UT qd qdd v _ Hq Hqq Hn Fv A) as (tau & E & L & V).
  destruct (rnea_spec W jt (with_gravity s [0;0;0]%R) qs ds LN' JK MF UT qd qdd v a1 Hq Hqq Hn Fv A1) as (tau0 & E0 & L0 & V0).
  destruct (rnea_spec W jt s qs ds LN JK MF UT (zeros nd) (zeros nd) _ a2 Lz Lz Hn F0 A2) as (load & E2 & L2 & V2).
  exists tau, tau0, load. split; [exact E|]. split; [exact E0|]. split; [exact E2|].
  intros b Hb. pose proof (functional_unique nd (getR tau) (fun b => getR tau0 b + getR load b)%R) as U.
  apply U; auto. clear U b Hb. intros x. pose proof (field_is n (par s) (Xs s) PR (jv ds (ms_of jt s) x)) as Fu.
  transitivity (sumR nd (fun b => x b * getR tau0 b) + sumR nd (fun b => x b * getR load b))%R.
  2:{ rewrite <- sumR_add. apply sumR_ext. intros. ring. }
  fold nd n in V, V0, V2. rewrite (V x _ Fu), (V2 x _ Fu). pose proof (V0 x _ Fu) as Q. fold nd in Q. rewrite Q. clear Q.
  change (num_links (with_gravity s [0;0;0]%R)) with n.
  rewrite <- sumR_add. apply sumR_ext. intros i Hi. rewrite <- m_dot_add_r. f_equal. unfold frc. change (It (with_gravity s [0;0;0]%R) i) with (It s i).
  assert (E3 : i_mul (It s i) szero = szero) by (generalize (It s i); intros [[[] [] []] [] ?]; vring).
  rewrite E3, m_cross_star_zero, sadd_0_r, i_mul_add. apply sadd_ac.
Qed.

(** At rest without gravity there is no torque. *)
Theorem C31_rest (s : rsys) nd : wf W s -> joints_known jt s -> motions_fit W jt -> unit_transforms s ->
  links s <> [] -> qd_size W s = Ok nd ->
  inverse_dynamics W jt (with_gravity s [0;0;0]%R) (zeros nd) (zeros nd) = Ok (zeros nd).
Proof.
  intros WF JK MF UT NE Hnd.
  assert (WF' : wf W (with_gravity s [0;0;0]%R)) by (destruct WF; constructor; assumption).
  destruct (C31_gravity (with_gravity s [0;0;0]%R) nd (zeros nd) (zeros nd)) as (tau & tau0 & load & A & B & C & D); auto;
    try (unfold zeros; apply repeat_length).
  change (with_gravity (with_gravity s [0;0;0]%R) [0;0;0]%R) with (with_gravity s [0;0;0]%R) in B. rewrite A in B, C.
  injection B as <-. injection C as <-. rewrite A. f_equal. apply nth_ext with (d := 0%R) (d' := 0%R).
  - rewrite (C31_sizes _ _ _ _ _ WF' JK MF UT NE Hnd A); unfold zeros; now rewrite !repeat_length.
  - intros k Hk. change (getR tau k = getR (zeros nd) k). rewrite getR_zeros. destruct (lt_dec k nd) as [Hl|Hl].
    + specialize (D k Hl). lra.
    + unfold getR. apply nth_overflow. rewrite (C31_sizes _ _ _ _ _ WF' JK MF UT NE Hnd A) in *; unfold zeros; try apply repeat_length; lia.
Qed.
End C31.

Example C31_example : exists (s1 : System R (plink (params unit)) geometry unit) H tau bias, length (links s1) = 4 /\
  compute_mass_matrix builtin_widths (@builtin_table unit) s1 = Ok H /\
  inverse_dynamics builtin_widths (@builtin_table unit) s1 (repeat 1%R 11) (repeat 2%R 11) = Ok tau /\
  inverse_dynamics builtin_widths (@builtin_table unit) s1 (repeat 1%R 11) (zeros 11) = Ok bias /\
  forall b, b < 11 -> (getR tau b = sumR 11 (fun c => H b c * getR (repeat 2%R 11) c) - getR (link_armature s1) b * getR (repeat 2%R 11) b + getR bias b)%R.
Proof.
  destruct demo_posed as (s1 & xs & E & A & B & C & D & F & G & AR). exists s1.
  assert (L : length (links s1) = 4).
  { destruct (C27_poses _ _ demo s1 demo_q _ xs demo_wf demo_q_size eq_refl E) as (_ & (ls & -> & L) & _). exact L. }
  assert (NE : links s1 <> []) by (intros X; rewrite X in L; discriminate).
  destruct (C31_affine _ _ s1 11 (repeat 1%R 11) (repeat 2%R 11) A B builtin_fit C D NE G eq_refl eq_refl) as (H & tau & bias & Q).
  exists H, tau, bias. split; [exact L|exact Q].
Qed.
(** A system without links is rejected: jnp.concatenate of an empty list. *)
Example C31_no_links {P} : inverse_dynamics builtin_widths (@builtin_table P)
  (mkSys [] [] [] [] [] [] [] 0%R [] [0;0;0]%R "semi_implicit_euler"%string 0 [] None [] : System R (plink (params P)) geometry unit) [] [] = Err EValue.
Proof. reflexivity. Qed.
Print Assumptions C31_virtual_work.
Print Assumptions C31_affine.
Print Assumptions C31_gravity.
Print Assumptions C31_rest.
