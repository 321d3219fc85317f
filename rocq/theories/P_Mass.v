(** * The mass matrix of a system. *)
From Coq Require Import Reals Lra String ZArith Lia Bool List.
From Verif Require Import Prelude M_Sys S_Sys P_Scan P_Run M_Math P_Math M_Geom P_Geom M_Joint M_Kin M_Dyn S_Kin P_Joint P_Kin P_Mat S_Dyn P_Dyn.
Import ListNotations.

Lemma nth_error_combine_Some {A B} (a : list A) (b : list B) : forall i x y, nth_error a i = Some x -> nth_error b i = Some y ->
  nth_error (combine a b) i = Some (x, y).
Proof.
  revert b. induction a as [|u a IH]; intros [|v b] [|i] x y; cbn; try discriminate; [congruence|apply IH].
Qed.

Section Mass.
Context {P O : Type}.
Variable W : widths.
Variable jt : joint_table P.
Notation link := (plink (params P)).
Notation rsys := (System R link geometry O).
Variable s : rsys.
Variables qs ds : list nat.
Hypothesis LN : lean W s qs ds.
Hypothesis JK : joints_known jt s.
Hypothesis MF : motions_fit W jt.
Notation n := (num_links s).
Notation nd := (list_sum ds).

(** The motion axes of link [i]. *)
Definition ms_of (i : nat) : list spatial :=
  match limit_scope (typ_ s i) (pl_params (lnk s i)), jt (typ_ s i) with
  | Ok pr, Some jm => map (fun m => m pr) (jm_motion jm)
  | _, _ => []
  end.
Definition Xs (i : nat) : transform := pl_t (lnk s i).

Lemma ds_len : length ds = n. Proof. exact (ln_ds_length W s qs ds LN). Qed.
Lemma known i : i < n -> exists pr jm, limit_scope (typ_ s i) (pl_params (lnk s i)) = Ok pr /\ jt (typ_ s i) = Some jm.
Proof.
  intros Hi. destruct (JK i _ _ (typ_spec W s qs ds LN i Hi) (lnk_spec W s qs ds LN i Hi)) as [[jm A] [pr B]].
  exists pr, jm. split; auto. now apply limit_scope_spec.
Qed.
Lemma ms_len i : i < n -> length (ms_of i) = nth i ds 0.
Proof.
  intros Hi. destruct (known i Hi) as (pr & jm & A & B). unfold ms_of. rewrite A, B, map_length.
  pose proof (MF _ _ B) as C. pose proof (ln_d _ _ _ _ LN) as D. pose proof (typ_spec W s qs ds LN i Hi) as T.
  assert (E : exists w, nth_error ds i = Some w).
  { destruct (nth_error ds i) as [w|] eqn:E; [eauto|]. apply nth_error_None in E. rewrite ds_len in E. lia. }
  destruct E as [w E]. rewrite (nth_error_nth ds i 0 E).
  assert (G : dW W (typ_ s i) = Some w).
  { exact (have_width_at _ _ _ D i _ _ T E). }
  congruence.
Qed.
Lemma Xs_unit : unit_transforms s -> forall i, i < n -> tunit (Xs i).
Proof. intros H i Hi. apply H. eapply nth_error_In. apply (lnk_spec W s qs ds LN i Hi). Qed.

(** *** Velocities *)
Lemma motions_of i : i < n -> motions_at jt s i (ms_of i).
Proof.
  intros Hi. destruct (known i Hi) as (pr & jm & A & B). exists (typ_ s i), (lnk s i), pr, jm.
  split; [apply (typ_spec W s qs ds LN i Hi)|]. split; [apply (lnk_spec W s qs ds LN i Hi)|].
  split; [now apply limit_scope_spec|]. split; auto. unfold ms_of. now rewrite A, B.
Qed.
Lemma motions_at_unique i ms : motions_at jt s i ms -> i < n -> ms = ms_of i.
Proof.
  intros (typ & l & pr & jm & A & B & C & D & ->) Hi.
  rewrite (typ_spec W s qs ds LN i Hi) in A. injection A as <-. rewrite (lnk_spec W s qs ds LN i Hi) in B. injection B as <-.
  apply limit_scope_spec in C. unfold ms_of. now rewrite C, D.
Qed.
Lemma coords_cut_d x i : length x = nd -> i < n -> link_coords (dW W) s x i (cut ds x i).
Proof.
  intros Hx Hi. exists ds, (split_by ds x). split; [apply LN|]. split; [now apply split_by_splits|].
  unfold cut. apply nth_error_nth'. rewrite split_by_length, ds_len. exact Hi.
Qed.
Lemma cut_get x i : length x = nd -> i < n ->
  cut ds x i = map (fun k => getR x (off ds i + k)) (seq 0 (wd ds i)).
Proof.
  intros Hx Hi. unfold cut, wd, off. assert (E : nth_error ds i = Some (nth i ds 0)) by (apply nth_error_nth'; rewrite ds_len; lia).
  rewrite (nth_split_by ds x i _ E). set (w := nth i ds 0) in *. set (o := list_sum (firstn i ds)).
  assert (B : o + w <= length x).
  { rewrite Hx. unfold o, w. pose proof (off_le n ds ds_len i Hi) as H. exact H. }
  apply nth_ext with (d := 0%R) (d' := 0%R).
  - rewrite firstn_length, skipn_length, map_length, seq_length. lia.
  - intros k Hk. rewrite firstn_length, skipn_length in Hk.
    rewrite (nth_error_nth (map _ (seq 0 w)) k 0%R (x := getR x (o + k))) by (rewrite nth_map_seq; [reflexivity|lia]).
    unfold getR. rewrite <- (firstn_skipn o x) at 2. rewrite app_nth2; rewrite firstn_length, Nat.min_l by lia; [|lia].
    replace (o + k - o) with k by lia. rewrite <- (firstn_skipn w (skipn o x)) at 2. rewrite app_nth1; auto.
    rewrite firstn_length, skipn_length. lia.
Qed.
Lemma combination_sum : forall ms sl, length sl = length ms -> combination ms sl = motion_sum ms sl.
Proof.
  intros ms sl H. apply spatial_dot_ext. intros m. rewrite dot_motion_sum. revert sl H.
  induction ms as [|a ms IH]; intros [|c sl] H; try discriminate.
  - cbn. now rewrite m_dot_zero_r.
  - cbn [combination length]. rewrite m_dot_add_r, m_dot_scale_r, IH by (cbn in H; lia).
    change (S (length ms)) with (1 + length ms). rewrite sumR_app. cbn [sumR nth getR]. unfold getR. cbn [nth].
    rewrite Rplus_0_l. f_equal.
Qed.
Lemma joint_vel_jv x i v : length x = nd -> i < n -> (joint_vel W jt s x i v <-> v = jv ds ms_of (getR x) i).
Proof.
  intros Hx Hi. assert (L : length (cut ds x i) = length (ms_of i)).
  { rewrite ms_len by auto. apply cut_length; auto. apply nth_error_nth'. rewrite ds_len. lia. }
  unfold jv. rewrite <- cut_get by auto. split.
  - intros (ms & sl & A & B & ->). rewrite (motions_at_unique i ms A Hi).
    rewrite <- (coords_unique s _ _ _ _ _ (coords_cut_d x i Hx Hi) B). now apply combination_sum.
  - intros ->. exists (ms_of i), (cut ds x i). split; [now apply motions_of|]. split; [now apply coords_cut_d|].
    symmetry. now apply combination_sum.
Qed.
Lemma field_body x v : length x = nd -> is_field n (par s) Xs (jv ds ms_of (getR x)) v ->
  forall i, i < n -> body_vel W jt s x (Z.of_nat i) (v i).
Proof.
  intros Hx F i. induction i as [i IH] using lt_wf_ind. intros Hi. rewrite (F i Hi). unfold up.
  pose proof (par_range W s qs ds LN i Hi) as PR.
  assert (E : exists vp, body_vel W jt s x (par s i) vp /\
     (if (par s i =? -1)%Z then szero else t_motion (Xs i) (v (Z.to_nat (par s i)))) = t_motion (Xs i) vp).
  { destruct (Z.eqb_spec (par s i) (-1)) as [->|E].
    - exists szero. split; [constructor|]. now rewrite t_motion_zero.
    - exists (v (Z.to_nat (par s i))). split; auto. rewrite <- (Z2Nat.id (par s i)) at 1 by lia. apply IH; lia. }
  destruct E as (vp & A & ->). econstructor; [apply par_spec; auto|apply (lnk_spec W s qs ds LN i Hi)| |exact A].
  now apply joint_vel_jv.
Qed.
Lemma body_unique x z v : length x = nd -> body_vel W jt s x z v -> forall v', body_vel W jt s x z v' -> v = v'.
Proof.
  intros Hx H. induction H as [|i p l vJ vp A B C D IH]; intros v' H'.
  - inversion H'; [reflexivity|lia].
  - inversion H' as [|i' p' l' vJ' vp' A' B' C' D' E']; [lia|]. apply Nat2Z.inj in E'. subst i'.
    assert (Hi : i < n) by (apply nth_error_Some; congruence).
    assert (p' = p) by congruence. assert (l' = l) by congruence. subst.
    apply joint_vel_jv in C, C'; auto. rewrite C, C'. f_equal. f_equal. now apply IH.
Qed.
Lemma body_field x vs : length x = nd -> body_vels W jt s x vs ->
  is_field n (par s) Xs (jv ds ms_of (getR x)) (fun i => nth i vs szero).
Proof.
  intros Hx [L B] i Hi. rewrite (ln_links _ _ _ _ LN) in L.
  assert (G : forall j, j < n -> body_vel W jt s x (Z.of_nat j) (nth j vs szero)).
  { intros j Hj. apply B. apply nth_error_nth'. lia. }
  eapply (body_unique x); eauto.
  pose proof (field_is n (par s) Xs (fun i Hi => par_range W s qs ds LN i Hi) (jv ds ms_of (getR x))) as F.
  pose proof (field_body x _ Hx F) as FB.
  assert (U : forall j, j < n -> nth j vs szero = field (par s) Xs (S j) (jv ds ms_of (getR x)) j).
  { intros j Hj. eapply (body_unique x); eauto. }
  pose proof (par_range W s qs ds LN i Hi) as PR.
  assert (E : sadd (jv ds ms_of (getR x) i) (up (par s) Xs (fun i => nth i vs szero) i) =
              sadd (jv ds ms_of (getR x) i) (up (par s) Xs (fun i => field (par s) Xs (S i) (jv ds ms_of (getR x)) i) i)).
  { f_equal. unfold up. destruct (Z.eqb_spec (par s i) (-1)); auto. rewrite U by lia. reflexivity. }
  rewrite E, <- (F i Hi). now apply FB.
Qed.
Lemma body_vels_exist x : length x = nd -> exists vs, body_vels W jt s x vs.
Proof.
  intros Hx. pose proof (field_is n (par s) Xs (fun i Hi => par_range W s qs ds LN i Hi) (jv ds ms_of (getR x))) as F.
  exists (map (fun i => field (par s) Xs (S i) (jv ds ms_of (getR x)) i) (seq 0 n)).
  split; [rewrite map_length, seq_length; symmetry; apply LN|].
  intros i v E. assert (Hi : i < n).
  { assert (X : nth_error (map (fun i => field (par s) Xs (S i) (jv ds ms_of (getR x)) i) (seq 0 n)) i <> None) by congruence.
    apply nth_error_Some in X. now rewrite map_length, seq_length in X. }
  rewrite nth_map_seq in E by auto. injection E as <-. exact (field_body x _ Hx F i Hi).
Qed.

(** *** The matrix *)
Definition ss_of (i : nat) : option (list spatial) := match ms_of i with [] => None | _ => Some (ms_of i) end.
Lemma motion_matrices : mapM (motion_matrix jt) (combine (links s) (link_types s)) = Ok (map ss_of (seq 0 n)).
Proof.
  assert (M : exists l, mapM (motion_matrix jt) (combine (links s) (link_types s)) = Ok l).
  { apply mapM_exists. intros [l t] H. apply In_nth_error in H. destruct H as [i H].
    assert (Hi : i < n). { assert (X : nth_error (combine (links s) (link_types s)) i <> None) by congruence.
      apply nth_error_Some in X. rewrite combine_length, (ln_links _ _ _ _ LN), (ln_types _ _ _ _ LN) in X. lia. }
    assert (nth_error (combine (links s) (link_types s)) i = Some (lnk s i, typ_ s i)).
    { apply nth_error_combine_Some; [apply (lnk_spec W s qs ds LN i Hi)|apply (typ_spec W s qs ds LN i Hi)]. }
    assert (E : (l, t) = (lnk s i, typ_ s i)) by congruence. injection E as -> ->.
    destruct (known i Hi) as (pr & jm & A & B). unfold motion_matrix. cbn [fst snd]. rewrite A. unfold get_joint_model. rewrite B. cbn. eauto. }
  destruct M as [l M]. rewrite M. f_equal. apply mapM_nth in M. destruct M as [L M].
  rewrite combine_length, (ln_links _ _ _ _ LN), (ln_types _ _ _ _ LN), Nat.min_id in L.
  apply nth_error_ext. intros i. destruct (lt_dec i n) as [Hi|Hi].
  - destruct (M i (lnk s i, typ_ s i)) as (y & A & B).
    { apply nth_error_combine_Some; [apply (lnk_spec W s qs ds LN i Hi)|apply (typ_spec W s qs ds LN i Hi)]. }
    rewrite A, nth_map_seq by auto. f_equal. unfold motion_matrix in B. cbn [fst snd] in B.
    destruct (known i Hi) as (pr & jm & C & D). rewrite C in B. unfold get_joint_model in B. rewrite D in B. cbn [bind] in B.
    injection B as <-. unfold ss_of, ms_of. rewrite C, D. reflexivity.
  - rewrite (proj2 (nth_error_None l i)) by lia. symmetry. apply nth_error_None. rewrite map_length, seq_length. lia.
Qed.

Definition It (i : nat) : inertia := pl_inertia (lnk s i).
Theorem mass_spec : unit_transforms s -> (forall l, In l (links s) -> bsym (pl_inertia l)) ->
  exists H, compute_mass_matrix W jt s = Ok H /\ (forall a b, H a b = H b a) /\
  forall x y v w, is_field n (par s) Xs (jv ds ms_of x) v -> is_field n (par s) Xs (jv ds ms_of y) w ->
    (bil nd H x y = sumR n (fun i => m_dot (v i) (i_mul (It i) (w i))) + sumR nd (fun a => x a * getR (link_armature s) a * y a))%R.
Proof.
  intros UT BS. set (l_to_p := map (fun l => t_inv (pl_t l)) (links s)).
  assert (PR : forall i, i < n -> (-1 <= par s i < Z.of_nat i)%Z) by (intros; now apply (par_range W s qs ds LN)).
  assert (LTP : length l_to_p = n /\ forall i, i < n -> nth i l_to_p t_zero = t_inv (Xs i)).
  { unfold l_to_p. rewrite map_length, (ln_links _ _ _ _ LN). split; auto. intros i Hi. apply nth_error_nth.
    rewrite nth_error_map, (lnk_spec W s qs ds LN i Hi). reflexivity. }
  pose proof (Xs_unit UT) as XU.
  set (im := mkIM (slices_from 0 qs) (slices_from 0 ds)).
  destruct (acc_run n (par s) Xs PR XU (P:=P) l_to_p LTP im n (map pl_inertia (links s)) None (le_n n))
    as (outs & its' & R1 & R2 & R3 & R4). { rewrite map_length. apply LN. }
  assert (GI : forall i, i < n -> gi (map pl_inertia (links s)) i = It i).
  { intros i Hi. unfold gi. apply nth_error_nth. rewrite nth_error_map, (lnk_spec W s qs ds LN i Hi). reflexivity. }
  assert (BI : forall i, i < n -> bsym (gi (rev outs) i)).
  { apply R3. intros i Hi. rewrite GI by auto. apply BS. eapply nth_error_In. apply (lnk_spec W s qs ds LN i Hi). }
  set (ss := map ss_of (seq 0 n)).
  assert (SS : length ss = n) by (unfold ss; now rewrite map_length, seq_length).
  assert (SSn : forall i, i < n -> nth i ss None = match ms_of i with [] => None | _ => Some (ms_of i) end).
  { intros i Hi. apply nth_error_nth. unfold ss. now rewrite nth_map_seq. }
  assert (PL : length (link_parents s) = n /\ forall i, i < n -> nth i (link_parents s) (-1)%Z = par s i) by (split; auto).
  assert (RL : length (rev outs) = n) by (rewrite rev_length; auto).
  assert (POP : forall y w, is_field n (par s) Xs (jv ds ms_of y) w -> _) by
    (intros y w Hw; exact (pop_run n (par s) Xs PR XU (P:=P) l_to_p LTP ds ds_len ms_of ms_len ss SS SSn (link_parents s) PL
       (rev outs) RL BI s eq_refl eq_refl y w (slices_from 0 qs) Hw n None mat_zero (le_n n)
       (fun _ _ _ => eq_refl) (fun _ _ _ => eq_refl))).
  fold im in POP.
  unfold compute_mass_matrix. fold l_to_p.
  rewrite (scan_run W s qs ds) with (cs := [(fun i => One (AInt (Z.of_nat i))); col AInt (link_parents s) (-1)%Z]); try apply LN; try reflexivity.
  2:{ repeat apply Forall2_cons; [apply arg_ok_ints|now apply arg_ok_col|apply Forall2_nil]. }
  cbv zeta. change (map (fun i => map (fun c => c i) _) (rev (seq 0 n))) with (map (prow (P:=P) (par s)) (rev (seq 0 n))).
  fold im. rewrite R1. cbn [bind fst snd]. rewrite motion_matrices. cbn [bind]. fold ss.
  rewrite (scan_run W s qs ds) with (cs := [(fun i => One (AInt (Z.of_nat i)))]); try apply LN; try reflexivity.
  2:{ repeat apply Forall2_cons; [apply arg_ok_ints|apply Forall2_nil]. }
  cbv zeta. fold im. cbn [map].
  pose proof (field_is n (par s) Xs PR (jv ds ms_of (fun _ => 0%R))) as F0.
  destruct (POP _ _ F0) as (o2 & H' & Q1 & Q2 & _). rewrite Q1. cbn [bind fst snd].
  eexists. split; [reflexivity|]. split.
  - intros a b. unfold mat_add, mat_trans, tril1, mat_diag. destruct (Nat.ltb_spec a b), (Nat.ltb_spec b a); try lia.
    + rewrite (Q2 a b) by lia. destruct (Nat.eqb_spec a b), (Nat.eqb_spec b a); try lia. ring.
    + rewrite (Q2 b a) by lia. destruct (Nat.eqb_spec a b), (Nat.eqb_spec b a); try lia. ring.
    + assert (a = b) by lia. subst. reflexivity.
  - intros x y v w Hv Hw. rewrite !bil_add, bil_diag, bil_trans, bil_tril1 by exact Q2.
    destruct (POP y w Hw) as (o3 & H3 & Q3 & _ & Q4). rewrite Q1 in Q3. injection Q3 as <- <-. specialize (Q4 x v Hv).
    specialize (R4 _ _ _ _ Hv Hw).
    rewrite <- R4 in Q4. rewrite (sumR_ext n (fun i => m_dot (v i) (i_mul (It i) (w i))) (fun i => m_dot (v i) (i_mul (gi (map pl_inertia (links s)) i) (w i))))
      by (intros; now rewrite GI).
    assert (Z1 : forall x y, bil nd mat_zero x y = 0%R).
    { intros. unfold bil. apply sumR_0. intros. apply sumR_0. intros. unfold mat_zero. ring. }
    assert (Z2 : forall x y, dia nd mat_zero x y = 0%R).
    { intros. unfold dia. apply sumR_0. intros. unfold mat_zero. ring. }
    rewrite !Z1, Z2 in Q4. assert (DS : dia nd H' y x = dia nd H' x y) by (unfold dia; apply sumR_ext; intros; ring).
    lra.
Qed.
End Mass.
