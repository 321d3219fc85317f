(** * C30: the mass matrix. *)
From Coq Require Import Reals Lra String ZArith Lia Bool List.
From Verif Require Import Prelude M_Sys S_Sys P_Scan P_Run M_Math P_Math M_Geom P_Geom M_Joint M_Kin M_Dyn S_Kin P_Joint P_Kin P_Mat S_Dyn P_Dyn P_Mass C_Kin X_Demo.
Import ListNotations.

Lemma sum3_sumR {A B C} (f : A -> B -> C -> R) : forall a b c da db dc, length a = length b -> length b = length c ->
  sum3 f a b c = sumR (length a) (fun i => f (nth i a da) (nth i b db) (nth i c dc)).
Proof.
  induction a as [|x a IH]; intros [|y b] [|z c] da db dc H1 H2; try discriminate; [reflexivity|].
  cbn [sum3 length]. change (S (length a)) with (1 + length a). rewrite sumR_app. cbn [sumR nth].
  rewrite (IH b c da db dc) by (cbn in *; lia). cbn [Nat.add nth]. ring.
Qed.
Lemma sum2_sumR {A B} (f : A -> B -> R) : forall a b da db, length a = length b ->
  sum2 f a b = sumR (length a) (fun i => f (nth i a da) (nth i b db)).
Proof.
  induction a as [|x a IH]; intros [|y b] da db H1; try discriminate; [reflexivity|].
  cbn [sum2 length]. change (S (length a)) with (1 + length a). rewrite sumR_app. cbn [sumR nth].
  rewrite (IH b da db) by (cbn in *; lia). cbn [Nat.add nth]. ring.
Qed.

Section C30.
Context {P O : Type}.
Variable W : widths.
Variable jt : joint_table P.
Notation link := (plink (params P)).
Notation rsys := (System R link geometry O).

Definition symmetric_inertias (s : rsys) : Prop := forall l, In l (links s) -> isym (pl_inertia l).

(** The matrix exists, is symmetric, and its bilinear form is the sum over the links of the inner products of
    their velocities under the link inertias, plus the armature term. *)
Theorem C30_mass_matrix (s : rsys) nd : wf W s -> joints_known jt s -> motions_fit W jt -> unit_transforms s ->
  symmetric_inertias s -> qd_size W s = Ok nd ->
  exists H, compute_mass_matrix W jt s = Ok H /\ (forall a b, H a b = H b a) /\
    forall x y vx vy, length x = nd -> length y = nd -> body_vels W jt s x vx -> body_vels W jt s y vy ->
      (sumR nd (fun a => sumR nd (fun b => getR x a * H a b * getR y b)) =
       sum3 (fun l u w => m_dot u (i_mul (pl_inertia l) w)) (links s) vx vy +
       sum3 (fun c a b => c * a * b) (link_armature s) x y)%R.
Proof.
  intros WF JK MF UT SI Hnd. destruct (wf_arrays _ _ WF) as (qs0 & ds0 & A1 & A2 & _ & AA & _).
  destruct (wf_lean W s WF) as (qs & ds & LN).
  rewrite (have_widths_unique _ _ _ _ A2 (ln_d _ _ _ _ LN)) in AA. clear A1 A2 qs0 ds0.
  apply total_width_Ok in Hnd. destruct Hnd as (ws & Hw & ->). rewrite (have_widths_unique _ _ _ _ Hw (ln_d _ _ _ _ LN)). clear Hw ws.
  destruct (mass_spec W jt s qs ds LN JK MF UT) as (H & E & Sy & B).
  { intros l Hl. apply bsym_isym, SI, Hl. }
  exists H. split; [exact E|]. split; [exact Sy|]. intros x y vx vy Hx Hy BX BY.
  pose proof (body_field W jt s qs ds LN JK MF x vx Hx BX) as FX. pose proof (body_field W jt s qs ds LN JK MF y vy Hy BY) as FY.
  specialize (B (getR x) (getR y) _ _ FX FY). unfold bil in B. rewrite B. destruct BX as [LX _]. destruct BY as [LY _]. f_equal.
  - rewrite (sum3_sumR _ (links s) vx vy dlink szero szero) by lia. rewrite (ln_links _ _ _ _ LN). reflexivity.
  - rewrite (sum3_sumR _ (link_armature s) x y 0%R 0%R 0%R) by lia. rewrite AA. apply sumR_ext. intros. unfold getR. ring.
Qed.

(** The kinetic energy is the sum of the links' kinetic energies, plus the armature term. *)
Theorem C30_kinetic_energy (s : rsys) nd qd vs : wf W s -> joints_known jt s -> motions_fit W jt -> unit_transforms s ->
  symmetric_inertias s -> qd_size W s = Ok nd -> length qd = nd -> body_vels W jt s qd vs ->
  kinetic_energy W jt s qd =
  Ok (sum2 (fun l v => / 2 * m_dot v (i_mul (pl_inertia l) v)) (links s) vs +
      sum2 (fun c a => / 2 * c * a * a) (link_armature s) qd)%R.
Proof.
  intros WF JK MF UT SI Hnd Hq BV. destruct (C30_mass_matrix s nd WF JK MF UT SI Hnd) as (H & E & _ & B).
  unfold kinetic_energy. rewrite E, Hnd. cbn [bind]. f_equal. unfold quad_form.
  specialize (B qd qd vs vs Hq Hq BV BV). rewrite sumR_swap in B.
  transitivity (/ 2 * (sum3 (fun l u w => m_dot u (i_mul (pl_inertia l) w)) (links s) vs vs +
       sum3 (fun c a b => c * a * b) (link_armature s) qd qd))%R.
  - rewrite <- B. f_equal. apply sumR_ext. intros b _. rewrite <- sumR_scale_r. reflexivity.
  - rewrite Rmult_plus_distr_l. clear. f_equal.
    + generalize (links s). intros ls. revert vs. induction ls as [|l ls IH]; intros [|v vs]; cbn [sum3 sum2]; try ring.
      rewrite <- IH. ring.
    + generalize (link_armature s). intros ls. revert qd. induction ls as [|l ls IH]; intros [|v qd]; cbn [sum3 sum2]; try ring.
      rewrite <- IH. ring.
Qed.

(** For physical inertias (no negative energy) and non-negative armature the matrix is positive semidefinite. *)
Theorem C30_positive_semidefinite (s : rsys) nd H : wf W s -> joints_known jt s -> motions_fit W jt -> unit_transforms s ->
  symmetric_inertias s -> (forall l, In l (links s) -> ipsd (pl_inertia l)) -> Forall (fun c => 0 <= c)%R (link_armature s) ->
  qd_size W s = Ok nd -> compute_mass_matrix W jt s = Ok H ->
  forall x, length x = nd -> (0 <= sumR nd (fun a => sumR nd (fun b => getR x a * H a b * getR x b)))%R.
Proof.
  intros WF JK MF UT SI PS AR Hnd HH x Hx. destruct (C30_mass_matrix s nd WF JK MF UT SI Hnd) as (H' & E & _ & B).
  rewrite HH in E. injection E as <-.
  assert (V : exists vs, body_vels W jt s x vs).
  { destruct (wf_lean W s WF) as (qs & ds & LN). apply (body_vels_exist W jt s qs ds LN JK MF x).
    apply total_width_Ok in Hnd. destruct Hnd as (ws & Hw & ->). now rewrite <- (have_widths_unique _ _ _ _ Hw (ln_d _ _ _ _ LN)). }
  destruct V as [vs V]. rewrite (B x x vs vs Hx Hx V V). apply Rplus_le_le_0_compat.
  - clear -PS. revert PS. generalize (links s). intros ls PS. revert vs. induction ls as [|l ls IH]; intros [|v vs]; cbn [sum3]; try lra.
    pose proof (PS l (or_introl eq_refl) v) as A. unfold energy2 in A. assert (0 <= sum3 (fun l u w => m_dot u (i_mul (pl_inertia l) w)) ls vs vs)%R; [|lra].
    apply IH. intros l' Hl'. apply PS. now right.
  - clear -AR. revert AR. generalize (link_armature s). intros ls AR. revert x. induction AR as [|c ls Hc _ IH]; intros [|v x]; cbn [sum3]; try lra.
    specialize (IH x). pose proof (Rle_0_sqr v) as Q. unfold Rsqr in Q. assert (0 <= c * v * v)%R; [|lra]. rewrite Rmult_assoc. now apply Rmult_le_pos.
Qed.

(** Velocities of all links exist and are unique. *)
Theorem C30_body_velocities (s : rsys) nd x : wf W s -> joints_known jt s -> motions_fit W jt -> qd_size W s = Ok nd ->
  length x = nd -> exists vs, body_vels W jt s x vs /\ forall vs', body_vels W jt s x vs' -> vs' = vs.
Proof.
  intros WF JK MF Hnd Hx. destruct (wf_lean W s WF) as (qs & ds & LN).
  apply total_width_Ok in Hnd. destruct Hnd as (ws & Hw & ->). rewrite (have_widths_unique _ _ _ _ Hw (ln_d _ _ _ _ LN)) in Hx. clear Hw ws.
  destruct (body_vels_exist W jt s qs ds LN JK MF x Hx) as [vs [L V]]. exists vs. split; [split; auto|].
  intros vs' [L' V']. apply nth_error_ext. intros i. destruct (lt_dec i (length (links s))) as [Hi|Hi].
  - rewrite (nth_error_nth' vs szero), (nth_error_nth' vs' szero) by lia. f_equal.
    eapply (body_unique W jt s qs ds LN JK MF x); [exact Hx|apply V'|apply V]; apply nth_error_nth'; lia.
  - rewrite !(proj2 (nth_error_None _ i)) by lia. reflexivity.
Qed.
End C30.

(** Built-in joints have as many axes as velocity coordinates. *)
Lemma builtin_fit {P} : motions_fit builtin_widths (@builtin_table P).
Proof.
  intros typ jm H. apply dget_In in H. unfold builtin_joints in H. cbn [In] in H.
  repeat (destruct H as [H|H]; [injection H as <- <-; reflexivity|]). contradiction.
Qed.
(** Forward kinematics of unit offsets and unit coordinates gives unit transforms. *)
Lemma fk_unit_transforms {P O} (s s1 : System R (plink (params P)) geometry O) q xs : wf builtin_widths s -> unit_offsets s ->
  unit_coords_all s q -> q_size builtin_widths s = Ok (length q) ->
  forward_kinematics_transforms builtin_widths builtin_table s q = Ok (xs, s1) ->
  unit_transforms s1 /\ wf builtin_widths s1 /\ (joints_known (@builtin_table P) s -> joints_known (@builtin_table P) s1) /\
  map pl_inertia (links s1) = map pl_inertia (links s) /\ link_types s1 = link_types s /\ link_parents s1 = link_parents s.
Proof.
  intros WF UO UC Hq FK. destruct (C27_poses _ _ s s1 q _ xs WF Hq eq_refl FK) as (Lx & (ls & -> & Ll) & F).
  assert (G : forall i l', nth_error ls i = Some l' -> exists l t2, nth_error (links s) i = Some l /\ joint_at builtin_widths builtin_table s q i t2 /\
     l' = set_transforms l (t_mul t2 (pl_t1 l)) t2).
  { intros i l' E. destruct (nth_error (links s) i) as [l|] eqn:EL.
    - destruct (F i l EL) as (x & t2 & _ & _ & J & E2). exists l, t2. cbn [with_links links] in E2. repeat split; auto. congruence.
    - apply nth_error_None in EL. rewrite (wf_links _ _ WF) in EL. assert (i < length ls) by (apply nth_error_Some; congruence).
      unfold num_links in Ll. lia. }
  split; [|split; [|split; [|split; [|split; reflexivity]]]].
  - intros l' Hl. cbn [with_links links] in Hl. apply In_nth_error in Hl. destruct Hl as [i Hl].
    destruct (G i l' Hl) as (l & t2 & A & J & ->). cbn [set_transforms pl_t]. apply tunit_mul; [|apply UO; eapply nth_error_In; eauto].
    destruct J as (typ & l0 & sl & pr & jm & C1 & C2 & C3 & C4 & C5 & ->). pose proof C3 as C3'. destruct C3' as (ws & ps & W1 & [W2 _] & W3).
    eapply (builtin_tunit typ jm (length sl)); eauto.
    assert (E : nth_error ws i = Some (length sl)) by (rewrite <- W2, nth_error_map, W3; reflexivity). eapply have_width_at; eauto.
  - destruct WF. constructor; auto.
  - intros JK i typ l' A B. cbn [with_links links link_types] in *. destruct (G i l' B) as (l & t2 & C & _ & ->). exact (JK i typ l A C).
  - cbn [with_links links]. apply nth_error_ext. intros i. rewrite !nth_error_map. destruct (nth_error ls i) as [l'|] eqn:E.
    + destruct (G i l' E) as (l & t2 & A & _ & ->). rewrite A. reflexivity.
    + apply nth_error_None in E. rewrite (proj2 (nth_error_None (links s) i)); auto. rewrite (wf_links _ _ WF). unfold num_links in Ll. lia.
Qed.

(** The demo system in the pose demo_q. *)
Lemma demo_posed : exists (s1 : System R (plink (params unit)) geometry unit) xs, forward_kinematics_transforms builtin_widths builtin_table demo demo_q = Ok (xs, s1) /\
  wf builtin_widths s1 /\ joints_known (@builtin_table unit) s1 /\ unit_transforms s1 /\ symmetric_inertias s1 /\
  (forall l, In l (links s1) -> ipsd (pl_inertia l)) /\ qd_size builtin_widths s1 = Ok 11 /\ link_armature s1 = link_armature demo.
Proof.
  destruct (C27_total builtin_widths builtin_table demo demo_q _ demo_wf demo_known demo_q_size) as [H _].
  destruct (H eq_refl) as (xs & s1 & E). exists s1, xs. split; [exact E|].
  destruct (fk_unit_transforms demo s1 demo_q xs demo_wf demo_unit_offsets demo_unit_coords demo_q_size E) as (A & B & C & D & F & G).
  assert (T : tunit (g_transform demo_box) /\ tunit (g_transform demo_ball)) by (split; [apply qunit_one|apply tunit_zero]).
  assert (I : forall l, In l (links s1) -> exists g, In g [demo_box; demo_ball] /\ pl_inertia l = inertia_from_geometries [g]).
  { intros l Hl. apply (in_map pl_inertia) in Hl. rewrite D in Hl. cbn [demo links map demo_link pl_inertia In] in Hl.
    destruct Hl as [Hl|[Hl|[Hl|[Hl|[]]]]]; rewrite <- Hl; [exists demo_box|exists demo_box|exists demo_ball|exists demo_ball]; split; auto; cbn [In]; auto. }
  split; [exact B|]. split; [apply C, demo_known|]. split; [exact A|]. split; [|split; [|split]].
  - intros l Hl. destruct (I l Hl) as (g & Hg & ->). apply isym_from. apply Forall_cons; [|apply Forall_nil].
    cbn [In] in Hg. destruct Hg as [<-|[<-|[]]]; tauto.
  - intros l Hl. destruct (I l Hl) as (g & Hg & ->). apply ipsd_from. apply Forall_cons; [|apply Forall_nil].
    cbn [In] in Hg. destruct Hg as [<-|[<-|[]]]; (split; [tauto|]; cbn; lra).
  - unfold qd_size. rewrite F. reflexivity.
  - destruct (C27_poses _ _ demo s1 demo_q _ xs demo_wf demo_q_size eq_refl E) as (_ & (ls & -> & _) & _). reflexivity.
Qed.
Example C30_example : exists (s1 : System R (plink (params unit)) geometry unit) H, compute_mass_matrix builtin_widths (@builtin_table unit) s1 = Ok H /\ length (links s1) = 4 /\
  (forall a b, H a b = H b a) /\
  forall x, length x = 11 -> (0 <= sumR 11 (fun a => sumR 11 (fun b => getR x a * H a b * getR x b)))%R.
Proof.
  destruct demo_posed as (s1 & xs & E & A & B & C & D & F & G & AR). exists s1.
  destruct (C30_mass_matrix _ _ s1 11 A B builtin_fit C D G) as (H & M & Sy & _). exists H. split; [exact M|]. split.
  - destruct (C27_poses _ _ demo s1 demo_q _ xs demo_wf demo_q_size eq_refl E) as (_ & (ls & -> & L) & _). exact L.
  - split; [exact Sy|]. apply (C30_positive_semidefinite _ _ s1 11 H A B builtin_fit C D F); auto.
    rewrite AR. cbn [demo link_armature]. apply Forall_forall. intros x Hx. apply repeat_spec in Hx. subst. lra.
Qed.
Print Assumptions C30_mass_matrix.
Print Assumptions C30_kinetic_energy.
Print Assumptions C30_positive_semidefinite.
Print Assumptions C30_body_velocities.
