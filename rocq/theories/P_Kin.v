(** * Forward kinematics: proofs. *)
From Coq Require Import Reals String ZArith Lia Bool List.
From Verif Require Import Prelude M_Sys S_Sys P_Scan P_Run M_Math P_Math M_Geom M_Joint M_Kin S_Kin.
Import ListNotations.

Lemma dget_dset {V} (d : list (Z * V)) k v k' :
  dget Z.eqb (dset Z.eqb d k v) k' = if Z.eqb k' k then Some v else dget Z.eqb d k'.
Proof.
  induction d as [|[a b] r IH]; cbn [dset dget].
  - destruct (Z.eqb_spec k' k); auto.
  - destruct (Z.eqb_spec k a).
    + subst a. cbn [dget]. destruct (Z.eqb_spec k' k); auto.
    + cbn [dget]. destruct (Z.eqb_spec k' a); [|apply IH]. subst. destruct (Z.eqb_spec a k); congruence.
Qed.

Section Kin.
Context {P O : Type}.
Variable W : widths.
Variable jt : joint_table P.
Notation link := (plink (params P)).
Notation rsys := (System R link geometry O).

Lemma limit_scope_spec typ (p : params P) pr : limit_scope typ p = Ok pr <-> params_for typ p pr.
Proof.
  unfold limit_scope, params_for, dmem, dgetE. destruct (dget String.eqb p typ) as [x|] eqn:E.
  - split; [intros H; injection H as ->; now left|]. intros [H|[H _]]; congruence.
  - destruct (dget String.eqb p "default"%string) as [x|]; split; try discriminate.
    + intros H. injection H as ->. now right.
    + intros [H|[_ H]]; congruence.
    + intros [H|[_ H]]; congruence.
Qed.

Definition dlink : link := mkPL t_zero vzero vzero [] izero t_zero t_zero.
Definition par (s : rsys) i : Z := nth i (link_parents s) (-1)%Z.
Definition typ_ (s : rsys) i : string := nth i (link_types s) ""%string.
Definition lnk (s : rsys) i : link := nth i (links s) dlink.

(** What the algorithms need of a system; implied by [wf]. *)
Record lean (s : rsys) (qs ds : list nat) : Prop := {
  ln_types : length (link_types s) = num_links s;
  ln_links : length (links s) = num_links s;
  ln_q : have_widths (qW W) (link_types s) qs;
  ln_d : have_widths (dW W) (link_types s) ds;
  ln_topo : topo (link_parents s) }.

Lemma wf_lean s : wf W s -> exists qs ds, lean s qs ds.
Proof.
  intros H. destruct H. destruct wf_arrays as (qs & ds & A & B & _).
  exists qs, ds. constructor; auto.
Qed.

Section One.
Variables (s : rsys) (qs ds : list nat).
Hypothesis LN : lean s qs ds.
Notation n := (num_links s).
Notation im := (mkIM (slices_from 0 qs) (slices_from 0 ds)).

Lemma ln_qs_length : length qs = n.
Proof. rewrite <- (ln_types _ _ _ LN). symmetry. apply (have_widths_length (qW W)), LN. Qed.
Lemma ln_ds_length : length ds = n.
Proof. rewrite <- (ln_types _ _ _ LN). symmetry. apply (have_widths_length (dW W)), LN. Qed.
Lemma par_spec i : i < n -> nth_error (link_parents s) i = Some (par s i).
Proof. intros H. apply nth_error_nth'. exact H. Qed.
Lemma typ_spec i : i < n -> nth_error (link_types s) i = Some (typ_ s i).
Proof. intros H. apply nth_error_nth'. rewrite (ln_types _ _ _ LN). exact H. Qed.
Lemma lnk_spec i : i < n -> nth_error (links s) i = Some (lnk s i).
Proof. intros H. apply nth_error_nth'. rewrite (ln_links _ _ _ LN). exact H. Qed.
Lemma par_range i : i < n -> (-1 <= par s i < Z.of_nat i)%Z.
Proof. intros H. exact (ln_topo _ _ _ LN i _ (par_spec i H)). Qed.

Lemma coords_cut q i : length q = list_sum qs -> i < n -> link_coords (qW W) s q i (cut qs q i).
Proof.
  intros Hq Hi. exists qs, (split_by qs q). split; [apply LN|]. split; [now apply split_by_splits|].
  unfold cut. apply nth_error_nth'. now rewrite split_by_length, ln_qs_length.
Qed.
Lemma coords_unique w q i sl sl' : link_coords w s q i sl -> link_coords w s q i sl' -> sl = sl'.
Proof.
  intros (ws & ps & A & B & C) (ws' & ps' & A' & B' & C'). rewrite (have_widths_unique _ _ _ _ A' A) in B'.
  rewrite (splits_unique _ _ _ _ B' B) in C'. congruence.
Qed.

(** *** Forward kinematics *)
Definition t2_at (q : list R) i : result transform := jcalc_transform jt (typ_ s i) (cut qs q i) (pl_params (lnk s i)).

Lemma t2_at_spec q i t2 : length q = list_sum qs -> i < n -> (t2_at q i = Ok t2 <-> joint_at W jt s q i t2).
Proof.
  intros Hq Hi. unfold t2_at, jcalc_transform, joint_lookup. split.
  - intros H. inv_bind. apply limit_scope_spec in Hb. destruct (jt (typ_ s i)) as [jm|] eqn:E; [|discriminate].
    injection Hb0 as <-. exists (typ_ s i), (lnk s i), (cut qs q i), a, jm.
    auto 10 using typ_spec, lnk_spec, coords_cut.
  - intros (typ & l & sl & pr & jm & A & B & C & D & E & ->).
    rewrite typ_spec in A by auto. rewrite lnk_spec in B by auto. injection A as <-. injection B as <-.
    rewrite (coords_unique _ _ _ _ _ (coords_cut q i Hq Hi) C). apply limit_scope_spec in D.
    rewrite D, E. reflexivity.
Qed.

Definition fk_row (q : list R) (i : nat) : list (piece (arg P)) :=
  [Many (map ANum (cut qs q i)); One (ALink (lnk s i)); One (AInt (Z.of_nat i)); One (AInt (par s i)); One (AStr (typ_ s i))].

Lemma fk_scan q st0 : length q = list_sum qs ->
  scan W s (fk_step jt) [TQ; TL; TL; TL; TL]
      [map ANum q; map ALink (links s); ints n; map AInt (link_parents s); map AStr (link_types s)] false st0
  = do r <- run (fk_step jt) im None st0 (map (fk_row q) (seq 0 n)); Ok (fst r, snd r).
Proof.
  intros Hq. rewrite (scan_run W s qs ds (ln_types _ _ _ LN) (ln_q _ _ _ LN) (ln_d _ _ _ LN) _ _ _
    [numcol qs q; col ALink (links s) dlink; fun i => One (AInt (Z.of_nat i)); col AInt (link_parents s) (-1)%Z;
     col AStr (link_types s) ""%string]).
  - reflexivity.
  - reflexivity.
  - cbn [combine]. repeat apply Forall2_cons; [..|apply Forall2_nil]; cbn [fst snd].
    + now apply arg_ok_q.
    + apply arg_ok_col, LN.
    + apply arg_ok_ints.
    + now apply arg_ok_col.
    + apply arg_ok_col, LN.
Qed.

(** Invariant: after the first [k] links the dictionary holds their poses. *)
Definition fk_inv (q : list R) (k : nat) (st : list (Z * transform)) : Prop :=
  dget Z.eqb st (-1)%Z = Some t_zero /\
  forall i, i < k -> exists x, dget Z.eqb st (Z.of_nat i) = Some x /\ pose W jt s q (Z.of_nat i) x.

Lemma fk_inv_get q k st p : fk_inv q k st -> (-1 <= p < Z.of_nat k)%Z ->
  exists x, dget Z.eqb st p = Some x /\ pose W jt s q p x.
Proof.
  intros [A B] Hp. destruct (Z.eq_dec p (-1)) as [->|N].
  - exists t_zero. split; auto. constructor.
  - destruct (B (Z.to_nat p)) as (x & X1 & X2); [lia|]. rewrite Z2Nat.id in * by lia. eauto.
Qed.

Lemma fk_run q : length q = list_sum qs -> forall m k st y ys st', k + m = n -> fk_inv q k st ->
  run (fk_step jt) im y st (map (fk_row q) (seq k m)) = Ok (ys, st') ->
  length ys = m /\
  forall j x l, nth_error ys j = Some (x, l) ->
    exists t2, joint_at W jt s q (k + j) t2 /\ pose W jt s q (Z.of_nat (k + j)) x /\
      l = set_transforms (lnk s (k + j)) (t_mul t2 (pl_t1 (lnk s (k + j)))) t2.
Proof.
  intros Hq. induction m as [|m IH]; intros k st y ys st' Hk Inv H; cbn [seq map run] in H.
  - injection H as <- <-. split; auto. intros [|j]; discriminate.
  - inv_bind. destruct a as [[x l] st1]. cbn [fst snd] in *. cbn [fk_row fk_step] in Hb. rewrite nums_map in Hb.
    apply bind_Ok in Hb. destruct Hb as (t2 & E2 & Hb). cbv zeta in Hb.
    apply bind_Ok in Hb. destruct Hb as (xp & Ex & Hb). injection Hb as <- <- <-.
    assert (Hkn : k < n) by lia.
    destruct (fk_inv_get q k st (par s k) Inv (par_range k Hkn)) as (xp' & G1 & G2).
    unfold dgetE in Ex. rewrite G1 in Ex. injection Ex as <-.
    assert (J : joint_at W jt s q k t2) by (apply t2_at_spec; auto).
    assert (PO : pose W jt s q (Z.of_nat k) (t_mul (t_mul t2 (pl_t1 (lnk s k))) xp')).
    { eapply pose_link; eauto using par_spec, lnk_spec. }
    assert (Inv' : fk_inv q (S k) (dset Z.eqb st (Z.of_nat k) (t_mul (t_mul t2 (pl_t1 (lnk s k))) xp'))).
    { destruct Inv as [I1 I2]. split.
      - rewrite dget_dset. destruct (Z.eqb_spec (-1) (Z.of_nat k)); [lia|auto].
      - intros i Hi. rewrite dget_dset. destruct (Z.eqb_spec (Z.of_nat i) (Z.of_nat k)) as [E|E].
        + assert (i = k) by lia. subst i. eauto.
        + apply I2. lia. }
    destruct a0 as [ys1 st2]. cbn [fst snd] in *.
    destruct (IH (S k) _ _ _ _ ltac:(lia) Inv' Hb0) as [L F].
    split; [simpl; lia|]. intros [|j] x l E; cbn [nth_error] in E.
    + injection E as <- <-. exists t2. rewrite Nat.add_0_r. auto.
    + destruct (F _ _ _ E) as (t2' & A & B & C). exists t2'. rewrite <- plus_n_Sm. auto.
Qed.

Lemma fk_total q : length q = list_sum qs -> joints_known jt s -> forall m k st y, k + m = n -> fk_inv q k st ->
  exists ys st', run (fk_step jt) im y st (map (fk_row q) (seq k m)) = Ok (ys, st').
Proof.
  intros Hq JK. induction m as [|m IH]; intros k st y Hk Inv; cbn [seq map run]; [eauto|].
  assert (Hkn : k < n) by lia.
  destruct (JK k _ _ (typ_spec k Hkn) (lnk_spec k Hkn)) as [[jm E1] [pr E2]].
  assert (T : t2_at q k = Ok (jm_transform jm (cut qs q k) pr)).
  { unfold t2_at, jcalc_transform, joint_lookup. apply limit_scope_spec in E2. rewrite E2, E1. reflexivity. }
  destruct (fk_inv_get q k st (par s k) Inv (par_range k Hkn)) as (xp & G1 & G2).
  cbn [fk_row fk_step]. rewrite nums_map. unfold t2_at in T. rewrite T. cbn [bind]. cbv zeta. unfold dgetE. rewrite G1. cbn [bind fst snd].
  edestruct (IH (S k)) as (ys & st' & ->); [lia| |cbn [bind]; eauto].
  destruct Inv as [I1 I2]. split.
  - rewrite dget_dset. destruct (Z.eqb_spec (-1) (Z.of_nat k)); [lia|auto].
  - intros i Hi. rewrite dget_dset. destruct (Z.eqb_spec (Z.of_nat i) (Z.of_nat k)) as [E|E].
    + assert (i = k) by lia. subst i. eexists. split; eauto.
      eapply pose_link; eauto using par_spec, lnk_spec. apply t2_at_spec; auto.
    + apply I2. lia.
Qed.

Lemma fk_inv_0 q : fk_inv q 0 [((-1)%Z, t_zero)].
Proof. split; [reflexivity|intros; lia]. Qed.

Lemma joint_at_unique q i a b : joint_at W jt s q i a -> joint_at W jt s q i b -> a = b.
Proof.
  intros (t & l & sl & pr & jm & A & B & C & D & E & ->) (t' & l' & sl' & pr' & jm' & A' & B' & C' & D' & E' & ->).
  rewrite A in A'. injection A' as <-. rewrite B in B'. injection B' as <-.
  rewrite (coords_unique _ _ _ _ _ C C'). rewrite E in E'. injection E' as <-.
  apply limit_scope_spec in D, D'. congruence.
Qed.

Lemma pose_unique q z x : pose W jt s q z x -> forall x', pose W jt s q z x' -> x = x'.
Proof.
  induction 1 as [|i p l t2 xp A B C D IH]; intros x' H; inversion H; subst.
  - reflexivity.
  - lia.
  - lia.
  - assert (i0 = i) by lia. subst i0. rewrite H1 in A. injection A as <-. rewrite H2 in B. injection B as <-.
    rewrite (joint_at_unique _ _ _ _ C H3), (IH _ H4). reflexivity.
Qed.

(** *** Inverse kinematics *)
Definition ik_row (x : list transform) (i : nat) : list (piece (arg P)) :=
  [One (AInt (Z.of_nat i)); One (ATr (nth i x t_zero)); One (ALink (lnk s i)); One (AInt (par s i)); One (AStr (typ_ s i))].
Definition ik_at (x : list transform) (i : nat) : result (list R) :=
  do x_p <- (if Z.eqb (par s i) (-1) then Ok t_zero else py_get x (par s i));
  do pr <- limit_scope (typ_ s i) (pl_params (lnk s i));
  do jm <- get_joint_model jt (typ_ s i);
  match jm_inv_kin jm with
  | None => Err ENotImpl
  | Some ik => ik (t_mul (t_mul (nth i x t_zero) (t_inv x_p)) (t_inv (pl_t1 (lnk s i)))) pr
  end.
Lemma ik_scan x : length x = n ->
  scan W s (ik_step jt x) [TL; TL; TL; TL; TL]
      [ints n; map ATr x; map ALink (links s); map AInt (link_parents s); map AStr (link_types s)] false []
  = do vs <- mapM (ik_at x) (seq 0 n); Ok (map (fun _ => tt) (seq 0 n), vs).
Proof.
  intros Hx. rewrite (scan_run W s qs ds (ln_types _ _ _ LN) (ln_q _ _ _ LN) (ln_d _ _ _ LN) _ _ _
    [fun i => One (AInt (Z.of_nat i)); col ATr x t_zero; col ALink (links s) dlink; col AInt (link_parents s) (-1)%Z;
     col AStr (link_types s) ""%string]).
  - cbv zeta. cbn iota. change (map (fun i => map (fun c => c i) _) (seq 0 n)) with (map (ik_row x) (seq 0 n)).
    rewrite (run_append _ _ _ (ik_at x)).
    + destruct (mapM _ _); reflexivity.
    + intros y st i _. unfold ik_row, ik_step, ik_at.
      destruct (if (par s i =? -1)%Z then _ else _) as [xp|]; cbn [bind]; auto.
      destruct (limit_scope _ _) as [pr|]; cbn [bind]; auto. cbv zeta.
      destruct (get_joint_model _ _) as [jm|]; cbn [bind]; auto. destruct (jm_inv_kin jm); auto.
  - reflexivity.
  - cbn [combine]. repeat apply Forall2_cons; [..|apply Forall2_nil]; cbn [fst snd].
    + apply arg_ok_ints.
    + now apply arg_ok_col.
    + apply arg_ok_col, LN.
    + now apply arg_ok_col.
    + apply arg_ok_col, LN.
Qed.
End One.

(** FK as a whole *)
Lemma fk_spec s qs ds q xs s' : lean s qs ds -> length q = list_sum qs ->
  forward_kinematics_transforms W jt s q = Ok (xs, s') ->
  length xs = num_links s /\ exists ls, s' = with_links s ls /\ length ls = num_links s /\
  forall i, i < num_links s -> exists x t2,
    nth_error xs i = Some x /\ pose W jt s q (Z.of_nat i) x /\ joint_at W jt s q i t2 /\
    nth_error ls i = Some (set_transforms (lnk s i) (t_mul t2 (pl_t1 (lnk s i))) t2).
Proof.
  intros LN Hq H. unfold forward_kinematics_transforms in H. rewrite (fk_scan s qs ds LN) in H by auto.
  apply bind_Ok in H. destruct H as (a & Hb & H). apply bind_Ok in Hb. destruct Hb as ([ys st'] & Hr & Hb). cbn [fst snd] in *. injection Hb as <-.
  injection H as <- <-. cbn [fst].
  destruct (fk_run s qs ds LN q Hq (num_links s) 0 _ None ys st' ltac:(lia) (fk_inv_0 s q) Hr) as [L F].
  rewrite !map_length. split; auto. exists (map snd ys). split; auto. rewrite map_length. split; auto.
  intros i Hi. destruct (nth_error ys i) as [[x l]|] eqn:E.
  - destruct (F i x l E) as (t2 & A & B & C). cbn [Nat.add] in *. exists x, t2.
    rewrite !nth_error_map, E. cbn [option_map fst snd]. rewrite C. auto.
  - apply nth_error_None in E. lia.
Qed.
Lemma fk_ok s qs ds q : lean s qs ds -> length q = list_sum qs -> joints_known jt s ->
  exists xs s', forward_kinematics_transforms W jt s q = Ok (xs, s').
Proof.
  intros LN Hq JK. unfold forward_kinematics_transforms. rewrite (fk_scan s qs ds LN) by auto.
  destruct (fk_total s qs ds LN q Hq JK (num_links s) 0 _ None ltac:(lia) (fk_inv_0 s q)) as (ys & st' & ->).
  cbn. eauto.
Qed.
End Kin.

(** ** Cutting and gluing *)
Lemma splits_concat {V} (ps : list (list V)) : splits (map (@length V) ps) (concat ps) ps.
Proof. split; auto. Qed.
Lemma cut_concat ws (ps : list (list R)) i : map (@length R) ps = ws -> cut ws (concat ps) i = nth i ps [].
Proof.
  intros H. unfold cut. f_equal. apply (splits_unique ws (concat ps)); [|now split].
  apply split_by_splits. apply (splits_length ws (concat ps) ps). now split.
Qed.
Lemma concatenate_Ok ps q : concatenate ps = Ok q <-> ps <> [] /\ q = concat ps.
Proof.
  unfold concatenate. destruct ps.
  - split; [discriminate|tauto].
  - split.
    + intros H. injection H as <-. split; [discriminate|reflexivity].
    + intros [_ ->]. reflexivity.
Qed.

Lemma map_seq_nth {A} (l : list A) d : map (fun i => nth i l d) (seq 0 (length l)) = l.
Proof.
  apply nth_ext with (d := d) (d' := d).
  - now rewrite map_length, seq_length.
  - intros k Hk. rewrite map_length, seq_length in Hk. apply nth_error_nth. now rewrite nth_map_seq.
Qed.

Lemma have_width_at w types ws : have_widths w types ws -> forall i t n, nth_error types i = Some t ->
  nth_error ws i = Some n -> w t = Some n.
Proof. induction 1; intros [|i] t n; cbn; try discriminate; [congruence|eauto]. Qed.
