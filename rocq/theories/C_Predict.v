(** * C80: what render_prediction shows. *)
From Coq Require Import Reals Lra String ZArith Lia Bool FinFun List.
From Verif Require Import Prelude M_Sys M_Math P_Math M_Sens P_Scan P_Run S_Sys P_Sys M_Compose P_Delete P_Delete2 P_Inject P_Kin C_Sens M_Target C_Target C_Xs C_Lookup C_Union X_Toy X_Demo M_Predict S_Predict.
Import ListNotations.
Local Open Scope nat_scope.

(** ** Generic facts *)
Lemma stack_ok T (cols : list (list transform)) : cols <> [] -> Forall (fun c => length c = T) cols ->
  stack_links cols = Ok (mkTraj (length cols) (map (fun k => map (fun c => nth k c t_zero) cols) (seq 0 T))).
Proof.
  intros NE F. destruct cols as [|c r]; [congruence|]. unfold stack_links. inversion F as [|? ? F1 F2]; subst.
  assert (E : forallb (fun x => length x =? length c) (c :: r) = true).
  { apply forallb_forall. intros x Hx. rewrite Forall_forall in F. apply Nat.eqb_eq. now apply F. }
  now rewrite E.
Qed.
Lemma dset_new {V} (d : list (string * V)) k v : ~ In k (map fst d) -> dset String.eqb d k v = d ++ [(k, v)].
Proof.
  induction d as [|[k' v'] r IH]; intros N; [reflexivity|]. cbn [dset]. destruct (String.eqb_spec k k') as [->|E]; [exfalso; apply N; now left|].
  rewrite IH; [reflexivity|]. intros H. apply N. now right.
Qed.
Lemma fold_dset_new {V} (l : list (string * V)) : forall d, NoDup (map fst (d ++ l)) ->
  fold_left (fun d kv => dset String.eqb d (fst kv) (snd kv)) l d = d ++ l.
Proof.
  induction l as [|[k v] r IH]; intros d N; [now rewrite app_nil_r|]. cbn [fold_left fst snd]. rewrite map_app in N. cbn [map fst] in N.
  rewrite dset_new.
  - rewrite IH; [now rewrite <- app_assoc|]. rewrite <- app_assoc. cbn [app]. now rewrite map_app.
  - apply NoDup_remove_2 in N. intros H. apply N. apply in_or_app. now left.
Qed.
Lemma mapM_lookup {V} (d : list (string * V)) l : (forall kv, In kv l -> dget String.eqb d (fst kv) = Some (snd kv)) ->
  mapM (dgetE String.eqb d) (map fst l) = Ok (map snd l).
Proof.
  induction l as [|[k v] r IH]; intros H; [reflexivity|]. cbn [map mapM fst snd]. pose proof (H (k, v) (or_introl eq_refl)) as H1. cbn [fst snd] in H1. unfold dgetE at 1. rewrite H1.
  cbn [bind]. rewrite IH; [reflexivity|]. intros kv Hk. apply H. now right.
Qed.
Lemma combine_fst {A B} (a : list A) : forall b : list B, length a = length b -> map fst (combine a b) = a.
Proof. induction a as [|x a IH]; intros [|y b] H; cbn in *; try discriminate; [reflexivity|]. now rewrite IH by lia. Qed.
Lemma combine_snd {A B} (a : list A) : forall b : list B, length a = length b -> map snd (combine a b) = b.
Proof. induction a as [|x a IH]; intros [|y b] H; cbn in *; try discriminate; [reflexivity|]. now rewrite IH by lia. Qed.
Lemma add_offset_shift d x : add_offset d x = shift d x.
Proof.
  unfold add_offset, shift. cbn [t_mul t_pos t_rot]. unfold t_mul. cbn [t_pos t_rot]. rewrite qinv_one, rotate_one, qmul_1_r, vadd_comm. reflexivity.
Qed.
Lemma append_nil_r_c (a : string) : (a ++ "")%string = a.
Proof. induction a as [|c a IH]; cbn [append]; [reflexivity|]. now rewrite IH. Qed.
Lemma hat_inj a b : ("hat_" ++ a)%string = ("hat_" ++ b)%string -> a = b.
Proof. intros H. now injection H. Qed.

Section Poses.
Context {K L G O : Type} (W : widths) (s no : System K L G O).
Hypothesis WS : wf W s.
Hypothesis WN : wf W no.
Hypothesis Sub : forall nm, In nm (link_names no) -> In nm (link_names s).
Notation n := (num_links no).

Lemma row_named xs ys : poses_of s xs -> tr_links ys = n -> length (tr_rows ys) = length (tr_rows xs) ->
  Forall (fun row => length row = n) (tr_rows ys) ->
  (forall i j nm k row x, nth_error (link_names no) i = Some nm -> nth_error (link_names s) j = Some nm -> nth_error (tr_rows xs) k = Some row -> nth_error row j = Some x ->
      exists row', nth_error (tr_rows ys) k = Some row' /\ nth_error row' i = Some x) ->
  poses_of no ys /\
  forall k row trow, nth_error (tr_rows xs) k = Some row -> nth_error (tr_rows ys) k = Some trow -> same_named s no row trow.
Proof.
  intros [PL PR] YL YR YF V.
  assert (SN : forall k row trow, nth_error (tr_rows xs) k = Some row -> nth_error (tr_rows ys) k = Some trow -> same_named s no row trow).
  { intros k row trow Hk Ht. split; [rewrite Forall_forall in YF; apply YF; eapply nth_error_In; eauto|].
    intros i j nm Hi Hj. rewrite Forall_forall in PR. destruct (PR row (nth_error_In _ _ Hk)) as [Lr _].
    assert (Hjn : j < length row).
    { rewrite Lr. unfold num_links. rewrite <- (wf_names _ _ WS). apply nth_error_Some. congruence. }
    destruct (nth_error row j) as [x|] eqn:Ex; [|apply nth_error_None in Ex; lia].
    destruct (V i j nm k row x Hi Hj Hk Ex) as (row' & E1 & E2). rewrite Ht in E1. injection E1 as <-. exact E2. }
  split; [|exact SN]. split; [exact YL|]. apply Forall_forall. intros trow Ht. rewrite Forall_forall in YF. split; [now apply YF|].
  apply In_nth_error in Ht. destruct Ht as (k & Hk). assert (Hkx : k < length (tr_rows xs)) by (rewrite <- YR; apply nth_error_Some; congruence).
  destruct (nth_error (tr_rows xs) k) as [row|] eqn:Ek; [|apply nth_error_None in Ek; lia].
  destruct (SN k row trow Ek Hk) as [Lt SNk]. rewrite Forall_forall in PR. destruct (PR row (nth_error_In _ _ Ek)) as [_ Ur].
  apply Forall_forall. intros x Hx. apply In_nth_error in Hx. destruct Hx as (i & Hi).
  assert (Hin : i < n) by (rewrite <- Lt; apply nth_error_Some; congruence).
  assert (Hnm : i < length (link_names no)) by now rewrite (wf_names _ _ WN).
  destruct (nth_error (link_names no) i) as [nm|] eqn:En; [|apply nth_error_None in En; lia].
  pose proof (Sub nm (nth_error_In _ _ En)) as I. apply In_nth_error in I. destruct I as (j & Hj).
  rewrite (SNk i j nm En Hj) in Hi. rewrite Forall_forall in Ur. apply Ur. eapply nth_error_In; eauto.
Qed.

Definition has_predictions (yhat : list (string * list quat)) (T : nat) : Prop :=
  forall nm, In nm (link_names no) -> exists qs, dget String.eqb yhat nm = Some qs /\ length qs = T /\ Forall qunit qs.

Theorem poses_ok xs yhat : 0 < n -> poses_of s xs -> has_predictions yhat (length (tr_rows xs)) ->
  exists hat, prediction_poses W s xs yhat no = Ok hat /\ poses_of no hat /\ length (tr_rows hat) = length (tr_rows xs) /\
    forall k row, nth_error (tr_rows xs) k = Some row -> exists trow hrow, nth_error (tr_rows hat) k = Some hrow /\
      same_named s no row trow /\ row_ok no trow /\ row_ok no hrow /\ follows no trow hrow yhat k.
Proof.
  intros Hn P HP. set (T := length (tr_rows xs)) in *. unfold prediction_poses.
  destruct (C45_match W no WN s xs WS Hn P Sub) as (ys & -> & YL & YR & YF & V). cbn [bind].
  destruct (row_named xs ys P YL YR YF V) as [PY SN].
  set (Q := fun (np : string * Z) b => exists qs, dget String.eqb yhat (fst np) = Some qs /\ length qs = T /\ Forall qunit qs /\
              b = if Z.eqb (snd np) (-1) then qs else map qinv qs).
  destruct (mapM_rel (fun np => do y <- dgetE String.eqb yhat (fst np); Ok (if Z.eqb (snd np) (-1) then y else map qinv y)) Q
              (combine (link_names no) (link_parents no))) as (rots & -> & FR).
  { intros [nm p] I. apply in_combine_l in I. destruct (HP nm I) as (qs & E & Lq & Uq). eexists. split.
    - unfold dgetE. cbn [fst]. rewrite E. reflexivity.
    - exists qs. auto. }
  cbn [bind]. rewrite (unzip_ok W no WN) by exact PY. cbn [bind fst].
  assert (Lrots : length rots = n).
  { rewrite <- (Forall2_length _ _ _ FR), combine_length, (wf_names _ _ WN). unfold num_links. lia. }
  assert (RT : forall i p, nth_error (link_parents no) i = Some p -> exists nm qs, nth_error (link_names no) i = Some nm /\
      dget String.eqb yhat nm = Some qs /\ length qs = T /\ Forall qunit qs /\ nth_error rots i = Some (if Z.eqb p (-1) then qs else map qinv qs)).
  { intros i p Hp. assert (Hi : i < length (link_names no)) by (rewrite (wf_names _ _ WN); apply nth_error_Some; congruence).
    destruct (nth_error (link_names no) i) as [nm|] eqn:En; [|apply nth_error_None in En; lia].
    destruct (Forall2_nth _ _ _ FR i (nm, p)) as (b & Hb & qs & Q1 & Q2 & Q3 & Q4); [now apply nth_error_combine_Some|].
    cbn [fst snd] in *. subst b. eauto 10. }
  assert (RL : Forall (fun c => length c = T) (map (map (Tr vzero)) rots)).
  { apply Forall_map. apply Forall_forall. intros r Hr. rewrite map_length. apply In_nth_error in Hr. destruct Hr as (i & Hi).
    assert (Hin : i < length (link_parents no)) by (fold n; rewrite <- Lrots; apply nth_error_Some; congruence).
    destruct (nth_error (link_parents no) i) as [p|] eqn:Ep; [|apply nth_error_None in Ep; lia].
    destruct (RT i p Ep) as (nm & qs & _ & _ & Lq & _ & E). rewrite Hi in E. injection E as ->. destruct (Z.eqb p (-1)); [exact Lq | now rewrite map_length]. }
  rewrite (stack_ok T) by (auto; intros X; apply map_eq_nil in X; rewrite X in Lrots; cbn in Lrots; lia).
  cbn [bind]. rewrite map_length, Lrots.
  set (t2 := mkTraj n (map (fun k => map (fun c => nth k c t_zero) (map (map (Tr vzero)) rots)) (seq 0 T))).
  assert (CELL : forall k i p, k < T -> nth_error (link_parents no) i = Some p -> exists nm qs q, nth_error (link_names no) i = Some nm /\
      dget String.eqb yhat nm = Some qs /\ nth_error qs k = Some q /\ qunit q /\
      nth i (map (fun c => nth k c t_zero) (map (map (Tr vzero)) rots)) t_zero = Tr vzero (if Z.eqb p (-1) then q else qinv q)).
  { intros k i p Hk Hp. destruct (RT i p Hp) as (nm & qs & En & D & Lq & Uq & E).
    destruct (nth_error qs k) as [q|] eqn:Eq; [|apply nth_error_None in Eq; lia]. exists nm, qs, q.
    split; [exact En|]. split; [exact D|]. split; [exact Eq|]. split; [rewrite Forall_forall in Uq; apply Uq; eapply nth_error_In; eauto|].
    apply nth_error_nth. rewrite !nth_error_map, E. cbn [option_map]. f_equal. apply nth_error_nth.
    rewrite nth_error_map. destruct (Z.eqb p (-1)); [now rewrite Eq|]. now rewrite nth_error_map, Eq. }
  assert (R1 : Forall (row_ok no) (map (t1_row no) (tr_rows ys))).
  { apply Forall_map. apply Forall_forall. intros r _. split; [apply t1_length | apply t1_unit]. }
  assert (R2 : Forall (row_ok no) (tr_rows t2)).
  { cbn [tr_rows t2]. apply Forall_map. apply Forall_forall. intros k Hk. apply in_seq in Hk. split; [now rewrite !map_length|].
    apply Forall_forall. intros x Hx. apply In_nth with (d := t_zero) in Hx. destruct Hx as (i & Hi & <-). rewrite !map_length in Hi.
    destruct (nth_error (link_parents no) i) as [p|] eqn:Ep; [|apply nth_error_None in Ep; unfold num_links in *; lia].
    destruct (CELL k i p ltac:(lia) Ep) as (nm & qs & q & _ & _ & _ & U & ->). unfold tunit. cbn [t_rot].
    destruct (Z.eqb p (-1)); [exact U | now apply qunit_inv]. }
  destruct (zip_ok W no WN (mkTraj n (map (t1_row no) (tr_rows ys))) t2) as (hat & E & PH & LH & F); auto.
  { cbn [tr_rows t2]. rewrite !map_length, seq_length. exact YR. }
  exists hat. split; [exact E|]. split; [exact PH|]. cbn [tr_rows] in LH. rewrite map_length, YR in LH. split; [exact LH|].
  intros k row Hk. assert (HkT : k < T) by (unfold T; apply nth_error_Some; congruence).
  destruct (nth_error (tr_rows ys) k) as [trow|] eqn:Et; [|apply nth_error_None in Et; unfold T in *; lia].
  destruct (F k (t1_row no trow) (map (fun c => nth k c t_zero) (map (map (Tr vzero)) rots))) as (hrow & Eh & RO & RR).
  { cbn [tr_rows]. now rewrite nth_error_map, Et. }
  { cbn [tr_rows t2]. now rewrite nth_map_seq by exact HkT. }
  pose proof (proj2 PY) as PYF. rewrite Forall_forall in PYF. pose proof (PYF trow (nth_error_In _ _ Et)) as TRO.
  exists trow, hrow. split; [exact Eh|]. split; [exact (SN k row trow Hk Et)|]. split; [exact TRO|]. split; [exact RO|].
  split; [exact (proj1 RO)|]. intros i nm p Hi Hp.
  assert (Hin : i < n) by (unfold num_links; apply nth_error_Some; congruence).
  destruct (CELL k i p HkT Hp) as (nm' & qs & q & En & D & Eq & U & C). rewrite Hi in En. injection En as <-.
  exists qs, q, (rel no trow i), (rel no hrow i). split; [exact D|]. split; [exact Eq|].
  split; [apply (rel_spec W no WN); [exact (proj1 TRO) | exact Hin]|]. split; [apply (rel_spec W no WN); [exact (proj1 RO) | exact Hin]|].
  rewrite RR, C, t1_nth by exact Hin. clear. destruct (rel no trow i) as [a b]. cbn [t_pos]. unfold t_mul. cbn [t_pos t_rot].
  rewrite rotate_zero, qmul_1_r, vadd_0_r. split; reflexivity.
Qed.

(** A prediction without error gives back the recorded poses. *)
Theorem follows_perfect trow hrow yhat k : row_ok no trow -> row_ok no hrow ->
  follows no trow hrow yhat k -> perfect no trow yhat k -> hrow = trow.
Proof.
  intros RT RH [_ F] PF. apply (rel_inj W no WN); auto. intros i Hi.
  pose proof (nm_spec W no WN i Hi) as En. pose proof (pr_spec no i Hi) as Ep.
  destruct (F i _ _ En Ep) as (qs & q & tr & hr & D & Q & T1 & H1 & P1 & R1).
  destruct (PF i _ En) as (qs' & q' & x & D' & Q' & X & C). rewrite D in D'. injection D' as <-. rewrite Q in Q'. injection Q' as <-.
  apply (rel_pose_of_iff W no WN) in T1; [|apply RT|exact Hi]. apply (rel_pose_of_iff W no WN) in H1; [|apply RH|exact Hi]. subst tr hr.
  apply transform_ext; [exact P1|]. rewrite R1. unfold rel.
  destruct C as [[C ->]|(p & y & C & Y & ->)]; rewrite Ep in C; injection C as C; rewrite C.
  - change (-1 =? -1)%Z with true. cbv iota. now rewrite (nth_error_nth _ _ _ X).
  - destruct (Z.eqb_spec (Z.of_nat p) (-1)); [lia|]. rewrite Nat2Z.id, (nth_error_nth _ _ _ X), (nth_error_nth _ _ _ Y).
    unfold t_mul, t_inv. cbn [t_rot]. now rewrite qinv_mul, qinv_inv.
Qed.

(** Every link of the system without IMUs needs a prediction. *)
Theorem poses_missing xs yhat nm : In nm (link_names no) -> dget String.eqb yhat nm = None ->
  exists e, prediction_poses W s xs yhat no = Err e.
Proof.
  intros I D. unfold prediction_poses. destruct (match_xs W no xs s) as [ys|e]; [|cbn; eauto]. cbn [bind].
  destruct (mapM _ _) as [rots|e] eqn:E; [|cbn; eauto]. exfalso. apply mapM_Ok_iff in E.
  apply In_nth_error in I. destruct I as (i & Hi).
  assert (Hin : i < length (link_parents no)) by (rewrite <- (wf_names _ _ WN); apply nth_error_Some; congruence).
  destruct (nth_error (link_parents no) i) as [p|] eqn:Ep; [|apply nth_error_None in Ep; lia].
  destruct (Forall2_nth _ _ _ E i (nm, p)) as (b & _ & Qb); [now apply nth_error_combine_Some|].
  unfold dgetE in Qb. cbn [fst] in Qb. rewrite D in Qb. discriminate.
Qed.
End Poses.

(** ** The composed system *)
Section Composed.
Context {K L G O : Type} (W : widths) (ops : parse_ops K L G) (pad : list L -> L -> L) (recolor : G -> G).
Hypothesis laws : ops_laws ops.
Hypothesis plaws : pad_laws ops pad.
Variables s no : System K L G O.
Hypothesis PS : parsed W ops s.

(** The parent which link_parents[i] gives: for the world, i = -1, that of the last link. *)
Definition parent_at (ps : list Z) (z : Z) : Z := if Z.eqb z (-1) then last ps 0%Z else nth (Z.to_nat z) ps 0%Z.
Definition hidden (transparent : bool) (z : Z) : bool := transparent && Z.eqb (parent_at (link_parents no) z) (-1).
Definition recoloured (transparent : bool) : list (Z * G) :=
  flat_map (fun g => if hidden transparent (fst g) then [] else [(fst g, recolor (snd g))]) (geoms no).

Lemma py_get_parent ps z : ps <> [] -> (-1 <= z < Z.of_nat (length ps))%Z -> py_get ps z = Ok (parent_at ps z).
Proof.
  intros NE H. unfold py_get, parent_at. destruct (Z.eqb_spec z (-1)) as [->|N].
  - destruct (exists_last NE) as (r & a & ->). rewrite app_length. cbn [length]. rewrite last_last.
    replace (-1 <? 0)%Z with true by reflexivity.
    replace ((0 <=? -1 + Z.of_nat (length r + 1))%Z && (-1 + Z.of_nat (length r + 1) <? Z.of_nat (length r + 1))%Z) with true
      by (symmetry; apply andb_true_iff; split; [apply Z.leb_le | apply Z.ltb_lt]; lia).
    replace (Z.to_nat (-1 + Z.of_nat (length r + 1))) with (length r) by lia.
    rewrite nth_error_app2, Nat.sub_diag by lia. reflexivity.
  - replace (z <? 0)%Z with false by (symmetry; apply Z.ltb_ge; lia).
    replace ((0 <=? z)%Z && (z <? Z.of_nat (length ps))%Z) with true
      by (symmetry; apply andb_true_iff; split; [apply Z.leb_le | apply Z.ltb_lt]; lia).
    rewrite (nth_error_nth' ps 0%Z) by lia. reflexivity.
Qed.

Lemma replace_color_ok transparent : wf W no -> 0 < num_links no ->
  geoms_replace_color recolor transparent no = Ok (set_links_geoms no (links no) (recoloured transparent)).
Proof.
  intros WN Hn. unfold geoms_replace_color.
  assert (E : mapM (fun g => do p <- (if transparent then py_get (link_parents no) (fst g) else Ok 0%Z);
                     Ok (if negb transparent || negb (p =? -1)%Z then [(fst g, recolor (snd g))] else [])) (geoms no) =
              Ok (map (fun g => if hidden transparent (fst g) then [] else [(fst g, recolor (snd g))]) (geoms no))).
  { apply mapM_Ok_iff. pose proof (wf_geoms _ _ WN) as F. induction F as [|g r Hg F IH]; constructor; [|exact IH].
    unfold hidden. destruct transparent; cbn [negb orb andb].
    - rewrite py_get_parent; [|intros X; unfold num_links in Hn; rewrite X in Hn; cbn in Hn; lia|exact Hg]. cbn [bind].
      now destruct (_ =? -1)%Z.
    - reflexivity. }
  rewrite E. cbn [bind]. unfold recoloured. now rewrite flat_map_concat_map.
Qed.

Lemma attached_flat (h : Z -> bool) (gs : list (Z * G)) z :
  attached z (flat_map (fun g => if h (fst g) then [] else [(fst g, recolor (snd g))]) gs) =
  if h z then [] else map recolor (attached z gs).
Proof.
  induction gs as [|[y g] r IH]; cbn [flat_map attached fst snd]; [now destruct (h z)|].
  destruct (Z.eq_dec y z) as [->|N].
  - destruct (h z) eqn:Eh; cbn [app]; [exact IH|]. cbn [attached]. destruct (Z.eq_dec z z); [|congruence]. cbn [map]. now rewrite IH.
  - destruct (h y); cbn [app]; [exact IH|]. cbn [attached]. destruct (Z.eq_dec y z); [congruence|]. exact IH.
Qed.
Lemma recoloured_attached transparent z :
  attached z (recoloured transparent) = if hidden transparent z then [] else map recolor (attached z (geoms no)).
Proof. apply attached_flat. Qed.

Lemma noimu_facts att : make_sys_noimu W ops s None = Ok (no, att) ->
  parsed W ops no /\ exists keep, restricts W s no keep /\ (forall i, In i keep <-> survives s (findall_imus s) i).
Proof.
  intros H. unfold make_sys_noimu in H. apply bind_Ok in H. destruct H as (a & _ & H). apply bind_Ok in H. destruct H as (s' & H & E).
  injection E as <- _. destruct (delete_list_restricts W ops laws _ _ _ _ PS H) as (keep & PN & R & KS & _). eauto.
Qed.

Theorem sys_render_ok att transparent : make_sys_noimu W ops s None = Ok (no, att) -> 0 < num_links no ->
  (forall nm, In nm (link_names no) -> ~ In ("hat_" ++ nm)%string (link_names s)) ->
  exists sr, sys_render W ops pad recolor s transparent = Ok sr /\ parsed W ops sr /\
    link_names sr = link_names s ++ map (fun nm => ("hat_" ++ nm)%string) (link_names no) /\
    link_parents sr = link_parents s ++ map (fun p => if Z.eqb p (-1) then (-1)%Z else (p + Z.of_nat (num_links s))%Z) (link_parents no) /\
    link_types sr = link_types s ++ link_types no /\
    (forall z, (0 <= z < Z.of_nat (num_links s))%Z -> attached z (geoms sr) = attached z (geoms s)) /\
    (forall j, (0 <= j < Z.of_nat (num_links no))%Z -> attached (Z.of_nat (num_links s) + j) (geoms sr) =
        if hidden transparent j then [] else map recolor (attached j (geoms no))) /\
    attached (-1) (geoms sr) = attached (-1) (geoms s) ++ (if hidden transparent (-1) then [] else map recolor (attached (-1) (geoms no))).
Proof.
  intros HM Hn CL. destruct (noimu_facts att HM) as (PN & keep & RS & _).
  pose proof (pd_wf _ _ _ PS) as WS. pose proof (pd_wf _ _ _ PN) as WN.
  unfold sys_render. rewrite HM. cbn [bind fst]. rewrite replace_color_ok by assumption. cbn [bind].
  rewrite (inject_unfold W ops pad _ _ None (-1) eq_refl).
  set (sub := add_prefix_suffix (set_links_geoms no (links no) (recoloured transparent)) "hat_" "").
  assert (SNm : link_names sub = map (fun nm => ("hat_" ++ nm)%string) (link_names no)).
  { unfold sub, add_prefix_suffix, set_names, set_links_geoms. cbn [link_names]. apply map_ext. intros nm. now rewrite append_nil_r_c. }
  destruct (pd_valid _ _ _ PS) as (vs & V & FV). destruct (pd_valid _ _ _ PN) as (vn & VN & FN).
  set (vsub := map (fun v => mkView ("hat_" ++ v_name v)%string (v_type v) (v_link v) (v_omc v) (v_damping v) (v_armature v) (v_stiffness v) (v_zeropoint v)) vn).
  assert (VS : views W sub vsub).
  { destruct VN as (A1 & A2 & A3 & A4 & A5 & qs & ds & Q & D & A6 & A7 & A8 & A9).
    split; [rewrite SNm, A1; unfold vsub; now rewrite !map_map|]. unfold vsub, sub, add_prefix_suffix, set_names, set_links_geoms, views.
    cbn [link_names link_types links omc link_parents link_damping link_armature link_spring_stiffness link_spring_zeropoint].
    rewrite !map_map, map_length. cbn [v_name v_type v_link v_omc v_damping v_armature v_stiffness v_zeropoint].
    split; [exact A2|]. split; [exact A3|]. split; [exact A4|]. split; [exact A5|]. exists qs, ds. auto 10. }
  pose proof (pre_inject_views W pad s sub (-1) vs vsub V VS) as VP.
  assert (GN : Forall (fun g => (-1 <= fst g < Z.of_nat (num_links no))%Z) (recoloured transparent)).
  { apply Forall_forall. intros g Hg. apply in_flat_map in Hg. destruct Hg as (g0 & I0 & Hg). pose proof (wf_geoms _ _ WN) as F. rewrite Forall_forall in F.
    destruct (hidden transparent (fst g0)); [destruct Hg|]. destruct Hg as [<-|[]]. cbn [fst]. now apply F. }
  assert (PP : parse W ops (pre_inject pad s sub (-1)) = Ok (parse_post ops (pre_inject pad s sub (-1)))).
  { apply parse_iff. split; [reflexivity|]. split; [|split].
    - unfold pre_inject. cbn [link_names]. rewrite SNm. apply NoDup_app_intro; [apply WS| |].
      + apply FinFun.Injective_map_NoDup; [intros a b; apply hat_inj | apply WN].
      + intros b Hb Hh. apply in_map_iff in Hh. destruct Hh as (nm & <- & I). exact (CL nm I Hb).
    - unfold pre_inject, num_links. cbn [link_parents geoms]. rewrite app_length, map_length. apply Forall_app. split.
      + eapply Forall_impl; [|apply (wf_geoms _ _ WS)]. intros g Hg. cbv beta in Hg. lia.
      + apply Forall_map. eapply Forall_impl; [|exact GN]. intros g Hg. cbv beta in Hg. cbn [fst]. unfold new_parent, num_links in *.
        change (length (link_parents sub)) with (length (link_parents no)). destruct (Z.eqb_spec (fst g) (-1)); cbn [negb]; lia.
    - eexists. split; [exact VP|]. apply Forall_app. split; apply Forall_map.
      + eapply Forall_impl; [|exact FV]. intros v [X Y]. split; [|exact Y]. cbn [pad_view set_v_link v_link]. now rewrite (pl_pos _ _ plaws).
      + unfold vsub. apply Forall_map. eapply Forall_impl; [|exact FN]. intros v [X Y]. split; [|exact Y]. cbn [pad_view set_v_link v_link]. now rewrite (pl_pos _ _ plaws). }
  exists (parse_post ops (pre_inject pad s sub (-1))). split; [exact PP|]. split.
  { eapply parse_parsed; eauto. cbn [pre_inject link_parents]. apply new_parent_topo; [apply WS | apply WN | lia]. }
  assert (AT : forall z, attached z (geoms (parse_post ops (pre_inject pad s sub (-1)))) = attached z (geoms s) ++
      (if Z.eq_dec z (-1) then attached (-1) (recoloured transparent)
       else if Z_le_dec (Z.of_nat (num_links s)) z then attached (z - Z.of_nat (num_links s)) (recoloured transparent) else [])).
  { intros z. unfold parse_post, set_links_geoms. cbn [geoms]. rewrite attached_sort. unfold pre_inject. cbn [geoms]. rewrite attached_app. f_equal.
    apply attached_map_np; [lia|]. eapply Forall_impl; [|exact GN]. intros g Hg. cbv beta in Hg. lia. }
  split; [unfold parse_post, set_links_geoms, pre_inject; cbn [link_names]; now rewrite SNm|].
  split. { unfold parse_post, set_links_geoms, pre_inject. cbn [link_parents]. f_equal. change (link_parents sub) with (link_parents no).
    apply map_ext. intros p. unfold new_parent. now destruct (p =? -1)%Z. }
  split; [reflexivity|]. split; [|split].
  - intros z Hz. rewrite AT. destruct (Z.eq_dec z (-1)); [lia|]. destruct (Z_le_dec _ _); [lia|]. apply app_nil_r.
  - intros j Hj. rewrite AT. destruct (Z.eq_dec _ _); [lia|]. destruct (Z_le_dec _ _); [|lia].
    rewrite (attached_out (num_links s)) by (try lia; apply (wf_geoms _ _ WS)). cbn [app].
    replace (Z.of_nat (num_links s) + j - Z.of_nat (num_links s))%Z with j by lia. apply recoloured_attached.
  - rewrite AT. destruct (Z.eq_dec _ _); [|congruence]. now rewrite recoloured_attached.
Qed.

(** A system which already has a link with the name of a predicted one cannot be drawn. *)
Theorem sys_render_clash att transparent nm : make_sys_noimu W ops s None = Ok (no, att) ->
  In nm (link_names no) -> In ("hat_" ++ nm)%string (link_names s) ->
  exists e, sys_render W ops pad recolor s transparent = Err e.
Proof.
  intros HM I C. unfold sys_render. rewrite HM. cbn [bind fst]. destruct (geoms_replace_color _ _ _) as [new|e] eqn:E; [|cbn; eauto]. cbn [bind].
  rewrite (inject_unfold W ops pad _ _ None (-1) eq_refl).
  destruct (parse W ops _) as [sr|e] eqn:EP; [|eauto]. exfalso. apply parse_iff in EP. destruct EP as (_ & ND & _).
  unfold pre_inject in ND. cbn [link_names] in ND. unfold geoms_replace_color in E. apply bind_Ok in E. destruct E as (gs & _ & E). injection E as <-.
  unfold add_prefix_suffix, set_names, set_links_geoms in ND. cbn [link_names] in ND.
  apply In_nth_error in C. destruct C as (i & Hi). apply In_nth_error in I. destruct I as (j & Hj).
  assert (E : i = length (link_names s) + j).
  { eapply (NoDup_nth_error_inj _ _ _ _ ND).
    - rewrite nth_error_app1; [exact Hi | apply nth_error_Some; congruence].
    - rewrite nth_error_app2 by lia. replace (length (link_names s) + j - length (link_names s)) with j by lia.
      rewrite nth_error_map, Hj. cbn [option_map]. now rewrite append_nil_r_c. }
  assert (i < length (link_names s)) by (apply nth_error_Some; congruence). lia.
Qed.
End Composed.

(** ** C80 *)
Lemma row_of_nth (d : vec3) row N : length row = N -> map (fun i => shift d (nth i row t_zero)) (seq 0 N) = map (shift d) row.
Proof.
  intros <-. apply nth_error_ext. intros i. rewrite !nth_error_map. destruct (Nat.lt_ge_cases i (length row)) as [H|H].
  - rewrite (nth_error_nth' (seq 0 (length row)) 0) by (rewrite seq_length; lia). rewrite seq_nth by lia. cbn [option_map Nat.add].
    now rewrite (nth_error_nth' row t_zero H).
  - rewrite !(proj2 (nth_error_None _ _)); auto. now rewrite seq_length.
Qed.

Section Named.
Context {K L G O : Type} (s : System K L G O).
(** The time series of the links under their names. *)
Definition named (f : string -> string) (d : vec3) (xs : traj) : list (string * list transform) :=
  map (fun ni => (f (snd ni), map (add_offset d) (link_traj xs (fst ni)))) (combine (seq 0 (num_links s)) (link_names s)).
Lemma named_fst f d xs : length (link_names s) = num_links s -> map fst (named f d xs) = map f (link_names s).
Proof. intros H. unfold named. rewrite map_map. cbn [fst]. rewrite <- (map_map snd f). rewrite combine_snd; [reflexivity|]. rewrite seq_length. auto. Qed.
Lemma named_snd f d xs : length (link_names s) = num_links s ->
  map snd (named f d xs) = map (fun i => map (add_offset d) (link_traj xs i)) (seq 0 (num_links s)).
Proof. intros H. unfold named. rewrite map_map. cbn [snd]. rewrite <- (map_map fst (fun i => map (add_offset d) (link_traj xs i))). rewrite combine_fst; [reflexivity|]. rewrite seq_length. auto. Qed.
Lemma named_row f d xs k row : length (link_names s) = num_links s -> length row = num_links s -> nth_error (tr_rows xs) k = Some row ->
  map (fun c => nth k c t_zero) (map snd (named f d xs)) = map (shift d) row.
Proof.
  intros H Lr Hk. rewrite named_snd by exact H. rewrite map_map. rewrite <- (row_of_nth d row (num_links s) Lr). apply map_ext. intros i.
  apply nth_error_nth. rewrite nth_error_map. unfold link_traj. rewrite nth_error_map, Hk. cbn [option_map]. now rewrite add_offset_shift.
Qed.
End Named.

Section C80.
Context {K L G O : Type} (W : widths) (ops : parse_ops K L G) (pad : list L -> L -> L) (recolor : G -> G).
Hypothesis laws : ops_laws ops.
Hypothesis plaws : pad_laws ops pad.

(** What is drawn: the system itself where it was recorded, and next to it a copy without IMUs which moves as predicted. *)
Theorem C80_prediction (s no : System K L G O) att xs yhat transparent ot op :
  parsed W ops s -> make_sys_noimu W ops s None = Ok (no, att) -> 0 < num_links no -> poses_of s xs ->
  has_predictions no yhat (length (tr_rows xs)) ->
  (forall nm, In nm (link_names no) -> ~ In ("hat_" ++ nm)%string (link_names s)) ->
  exists sr xr, render_prediction_internals W ops pad recolor s xs yhat transparent ot op = Ok (sr, xr) /\
    sys_render W ops pad recolor s transparent = Ok sr /\
    link_names sr = link_names s ++ map (fun nm => ("hat_" ++ nm)%string) (link_names no) /\
    tr_links xr = num_links sr /\ length (tr_rows xr) = length (tr_rows xs) /\
    forall k row, nth_error (tr_rows xs) k = Some row -> exists trow hrow,
      same_named s no row trow /\ follows no trow hrow yhat k /\ (perfect no trow yhat k -> hrow = trow) /\ row_ok no trow /\ row_ok no hrow /\
      nth_error (tr_rows xr) k = Some (map (shift ot) row ++ map (shift op) hrow).
Proof.
  intros PS HM Hn P HP CL. destruct (noimu_facts W ops laws s no PS att HM) as (PN & keep & RS & _).
  pose proof (pd_wf _ _ _ PS) as WS. pose proof (pd_wf _ _ _ PN) as WN.
  assert (Sub : forall nm, In nm (link_names no) -> In nm (link_names s)).
  { intros nm I. apply In_nth_error in I. destruct I as (i & Hi). pose proof (restricts_names _ _ _ _ RS) as PK.
    destruct (Forall2_nth_r _ _ _ _ _ PK Hi) as (j & _ & Hj). eapply nth_error_In; eauto. }
  destruct (poses_ok W s no WS WN Sub xs yhat Hn P HP) as (hat & EH & PH & LH & F).
  destruct (sys_render_ok W ops pad recolor laws plaws s no PS att transparent HM Hn CL) as (sr & ES & PR & NR & PaR & _).
  unfold render_prediction_internals. rewrite HM. cbn [bind fst]. rewrite EH. cbn [bind].
  change (map _ (combine (seq 0 (num_links no)) (link_names no))) with (named no (fun nm => ("hat_" ++ nm)%string) op hat).
  change (map _ (combine (seq 0 (num_links s)) (link_names s))) with (named s (fun nm => nm) ot xs).
  assert (NS : length (link_names s) = num_links s) by apply (wf_names _ _ WS).
  assert (NN : length (link_names no) = num_links no) by apply (wf_names _ _ WN).
  set (hatd := named no (fun nm => ("hat_" ++ nm)%string) op hat). set (truth := named s (fun nm => nm) ot xs).
  assert (KD : NoDup (map fst (hatd ++ truth))).
  { rewrite map_app. unfold hatd, truth. rewrite !named_fst, map_id by assumption. apply NoDup_app_intro.
    - apply FinFun.Injective_map_NoDup; [intros a b; apply hat_inj | apply WN].
    - apply WS.
    - intros b Hb Hs. apply in_map_iff in Hb. destruct Hb as (nm & <- & I). exact (CL nm I Hs). }
  rewrite (fold_dset_new (hatd ++ truth) []) by exact KD. cbn [app]. rewrite ES. cbn [bind].
  assert (NR' : link_names sr = map fst (truth ++ hatd)).
  { rewrite NR, map_app. unfold truth, hatd. now rewrite !named_fst, map_id by assumption. }
  rewrite NR', mapM_lookup.
  2:{ intros [k v] I. apply dget_NoDup_In; [exact KD|]. cbn [fst snd]. apply in_or_app. apply in_app_or in I. tauto. }
  cbn [bind]. rewrite map_app.
  assert (LC : Forall (fun c => length c = length (tr_rows xs)) (map snd truth ++ map snd hatd)).
  { apply Forall_app. unfold truth, hatd. rewrite !named_snd by assumption. split; apply Forall_map; apply Forall_forall; intros i _;
      rewrite map_length; unfold link_traj; rewrite map_length; auto. }
  assert (LL : length (map snd truth ++ map snd hatd) = num_links s + num_links no).
  { rewrite app_length. unfold truth, hatd. now rewrite !named_snd, !map_length, !seq_length by assumption. }
  rewrite (stack_ok (length (tr_rows xs))); [|intros X; rewrite X in LL; cbn in LL; lia|exact LC]. cbn [bind].
  eexists sr, _. split; [reflexivity|]. split; [first [exact ES | reflexivity]|]. split; [first [exact NR | rewrite <- NR'; exact NR]|]. cbn [tr_links tr_rows].
  split. { rewrite LL. unfold num_links. rewrite PaR, app_length, map_length. reflexivity. }
  split; [now rewrite map_length, seq_length|]. intros k row Hk. destruct (F k row Hk) as (trow & hrow & Eh & SN & RT & RH & FO).
  exists trow, hrow. split; [exact SN|]. split; [exact FO|]. split; [intros PF; exact (follows_perfect W no WN _ _ _ _ RT RH FO PF)|]. split; [exact RT|]. split; [exact RH|].
  assert (Hk' : k < length (tr_rows xs)) by (apply nth_error_Some; congruence). rewrite nth_map_seq by exact Hk'. f_equal. rewrite map_app. f_equal.
  - unfold truth. apply named_row; auto. destruct P as [_ P]. rewrite Forall_forall in P. apply (P row). eapply nth_error_In; eauto.
  - unfold hatd. apply named_row; auto. apply RH.
Qed.

(** The geometries which are drawn. *)
Theorem C80_geometries (s no : System K L G O) att transparent sr :
  parsed W ops s -> make_sys_noimu W ops s None = Ok (no, att) -> 0 < num_links no ->
  sys_render W ops pad recolor s transparent = Ok sr ->
  (forall z, (0 <= z < Z.of_nat (num_links s))%Z -> attached z (geoms sr) = attached z (geoms s)) /\
  (forall j p, nth_error (link_parents no) j = Some p -> attached (Z.of_nat (num_links s + j)) (geoms sr) =
     if transparent && Z.eqb p (-1) then [] else map recolor (attached (Z.of_nat j) (geoms no))).
Proof.
  intros PS HM Hn ES.
  assert (CL : forall nm, In nm (link_names no) -> ~ In ("hat_" ++ nm)%string (link_names s)).
  { intros nm I C. destruct (sys_render_clash W ops pad recolor s no att transparent nm HM I C) as (e & E). congruence. }
  destruct (sys_render_ok W ops pad recolor laws plaws s no PS att transparent HM Hn CL) as (sr' & ES' & _ & _ & _ & _ & A1 & A2 & _).
  rewrite ES in ES'. injection ES' as <-. split; [exact A1|]. intros j p Hj.
  assert (j < num_links no) by (unfold num_links; apply nth_error_Some; congruence).
  rewrite Nat2Z.inj_add, A2 by lia. unfold hidden, parent_at. destruct (Z.eqb_spec (Z.of_nat j) (-1)); [lia|].
  rewrite Nat2Z.id, (nth_error_nth _ _ _ Hj). reflexivity.
Qed.

(** Not so for the geometries of the world: they are drawn twice, the second time in the colour of the prediction, and with
    transparent_segment_to_root it is the last link that decides. *)
Theorem C80_world_geometries (s no : System K L G O) att transparent sr :
  parsed W ops s -> make_sys_noimu W ops s None = Ok (no, att) -> 0 < num_links no ->
  sys_render W ops pad recolor s transparent = Ok sr ->
  attached (-1) (geoms sr) = attached (-1) (geoms s) ++
    (if transparent && Z.eqb (last (link_parents no) 0%Z) (-1) then [] else map recolor (attached (-1) (geoms no))).
Proof.
  intros PS HM Hn ES.
  assert (CL : forall nm, In nm (link_names no) -> ~ In ("hat_" ++ nm)%string (link_names s)).
  { intros nm I C. destruct (sys_render_clash W ops pad recolor s no att transparent nm HM I C) as (e & E). congruence. }
  destruct (sys_render_ok W ops pad recolor laws plaws s no PS att transparent HM Hn CL) as (sr' & ES' & _ & _ & _ & _ & _ & _ & A3).
  rewrite ES in ES'. injection ES' as <-. exact A3.
Qed.

(** A link without prediction is an error, also one that is connected to the world. *)
Theorem C80_missing_refuted (s no : System K L G O) att xs yhat transparent ot op nm :
  parsed W ops s -> make_sys_noimu W ops s None = Ok (no, att) -> In nm (link_names no) -> dget String.eqb yhat nm = None ->
  exists e, render_prediction_internals W ops pad recolor s xs yhat transparent ot op = Err e.
Proof.
  intros PS HM I D. destruct (noimu_facts W ops laws s no PS att HM) as (PN & _).
  destruct (poses_missing W s no (pd_wf _ _ _ PN) xs yhat nm I D) as (e & E).
  unfold render_prediction_internals. rewrite HM. cbn [bind fst]. rewrite E. cbn [bind]. eauto.
Qed.

(** A link named like a predicted one: nothing is drawn. *)
Theorem C80_clash_refuted (s no : System K L G O) att xs yhat transparent ot op nm :
  make_sys_noimu W ops s None = Ok (no, att) -> In nm (link_names no) -> In ("hat_" ++ nm)%string (link_names s) ->
  exists e, render_prediction_internals W ops pad recolor s xs yhat transparent ot op = Err e.
Proof.
  intros HM I C. unfold render_prediction_internals. rewrite HM. cbn [bind fst].
  destruct (prediction_poses W s xs yhat no); [|cbn [bind]; eauto]. cbn [bind].
  destruct (sys_render_clash W ops pad recolor s no att transparent nm HM I C) as (e & ->). cbn [bind]. eauto.
Qed.
End C80.

(** ** Examples: the toy system (seg1 on the world, seg2 on it, seg3 on the world, two IMUs, a floor), one time step *)
Local Open Scope R_scope.
Definition toy_pose : traj := mkTraj 5
  [[Tr (V3 1 0 0) qtilt; Tr (V3 2 0 0) qone; Tr (V3 2 1 0) qtilt; Tr (V3 1 0 5) qone; Tr (V3 7 7 7) qone]].
Definition toy_yhat : list (string * list quat) := [("seg1", [qone]); ("seg3", [qtilt]); ("seg2", [qtilt])]%string.
Example C80_example : exists sr xr row,
  render_prediction_internals builtin_widths toy_ops toy_pad (fun g => (g + 100)%nat) toy_floor toy_pose toy_yhat true vzero (V3 0 0 2) = Ok (sr, xr) /\
  link_names sr = ["seg1"; "seg2"; "imu2"; "imu1"; "seg3"; "hat_seg1"; "hat_seg2"; "hat_seg3"]%string /\
  nth_error (tr_rows xr) 0 = Some row /\ length row = 8%nat /\
  nth_error row 1 = Some (Tr (V3 2 0 0) qone) /\ nth_error row 5 = Some (Tr (V3 1 0 2) qone) /\ nth_error row 7 = Some (Tr (V3 7 7 9) qtilt) /\
  attached 6 (geoms sr) = [104%nat] /\ attached 5 (geoms sr) = [] /\ attached (-1) (geoms sr) = [77%nat].
Proof.
  pose proof qtilt_unit as U. assert (U1 := qunit_one).
  assert (HM : exists no att, make_sys_noimu builtin_widths toy_ops toy_floor None = Ok (no, att) /\ link_names no = ["seg1"; "seg2"; "seg3"]%string /\
      link_parents no = [-1; 0; -1]%Z /\ geoms no = [(0, 1%nat); (0, 2%nat); (1, 4%nat); (2, 9%nat)]%Z)
    by (eexists _, _; split; [vm_compute; reflexivity|repeat split]; reflexivity).
  destruct HM as (no & att & HM & En & Ep & Eg).
  assert (Hn : (0 < num_links no)%nat) by (unfold num_links; rewrite Ep; cbn; lia).
  destruct (C80_prediction builtin_widths toy_ops toy_pad (fun g => (g + 100)%nat) toy_laws toy_pad_laws toy_floor no att toy_pose toy_yhat true vzero (V3 0 0 2)
      toy_floor_parsed HM Hn) as (sr & xr & E & ES & Enr & _ & Lr & F).
  { split; [reflexivity|]. cbn [toy_pose tr_rows]. repeat apply Forall_cons; try apply Forall_nil. split; [reflexivity|].
    repeat (apply Forall_cons; [assumption|]); apply Forall_nil. }
  { intros nm I. rewrite En in I. destruct I as [<-|[<-|[<-|[]]]]; (eexists; split; [reflexivity|]; split; [reflexivity|]; repeat constructor; assumption). }
  { intros nm I C. rewrite En in I. cbn [toy_floor toy set_links_geoms link_names] in C. cbn [In] in I, C. intuition (subst; discriminate). }
  destruct (F 0%nat _ eq_refl) as (trow & hrow & [_ SN] & [Lh FO] & _ & _ & _ & R0). exists sr, xr, (map (shift vzero) (nth 0 (tr_rows toy_pose) []) ++ map (shift (V3 0 0 2)) hrow).
  split; [exact E|]. split; [rewrite Enr, En; reflexivity|]. split; [exact R0|].
  unfold num_links in Lh. rewrite Ep in Lh. cbn [length] in Lh. rewrite En in SN, FO. rewrite Ep in FO.
  pose proof (SN 0%nat 0%nat _ eq_refl eq_refl) as T0. pose proof (SN 2%nat 4%nat _ eq_refl eq_refl) as T2.
  destruct hrow as [|h0 [|h1 [|h2 [|]]]]; try discriminate Lh.
  assert (H0 : h0 = Tr (V3 1 0 0) qone).
  { destruct (FO 0%nat _ _ eq_refl eq_refl) as (qs & q & tr & hr & D & Q & A & B & P & Rt). injection D as <-. injection Q as <-.
    destruct A as [(_ & A)|(k & ? & ? & Ek & _)]; [|rewrite Ep in Ek; cbn [nth_error] in Ek; injection Ek; lia].
    destruct B as [(_ & B)|(k & ? & ? & Ek & _)]; [|rewrite Ep in Ek; cbn [nth_error] in Ek; injection Ek; lia].
    rewrite A in T0. injection T0 as ->. injection B as ->. apply transform_ext; [exact P|exact Rt]. }
  assert (H2 : h2 = Tr (V3 7 7 7) qtilt).
  { destruct (FO 2%nat _ _ eq_refl eq_refl) as (qs & q & tr & hr & D & Q & A & B & P & Rt). injection D as <-. injection Q as <-.
    destruct A as [(_ & A)|(k & ? & ? & Ek & _)]; [|rewrite Ep in Ek; cbn [nth_error] in Ek; injection Ek; lia].
    destruct B as [(_ & B)|(k & ? & ? & Ek & _)]; [|rewrite Ep in Ek; cbn [nth_error] in Ek; injection Ek; lia].
    rewrite A in T2. injection T2 as ->. injection B as ->. apply transform_ext; [exact P|exact Rt]. }
  subst h0 h2. split; [reflexivity|]. cbn [toy_pose tr_rows nth map app nth_error].
  split; [unfold shift; cbn [t_pos t_rot]; do 2 f_equal; vunfold; f_equal; ring|].
  split; [unfold shift; cbn [t_pos t_rot]; do 2 f_equal; vunfold; f_equal; ring|].
  split; [unfold shift; cbn [t_pos t_rot]; do 2 f_equal; vunfold; f_equal; ring|].
  destruct (C80_geometries builtin_widths toy_ops toy_pad _ toy_laws toy_pad_laws toy_floor no att true sr toy_floor_parsed HM Hn ES) as [_ A2].
  pose proof (C80_world_geometries builtin_widths toy_ops toy_pad _ toy_laws toy_pad_laws toy_floor no att true sr toy_floor_parsed HM Hn ES) as A3.
  rewrite Ep in A2, A3. pose proof (A2 0%nat _ eq_refl) as B0. pose proof (A2 1%nat _ eq_refl) as B1. rewrite Eg in B0, B1, A3.
  split; [exact B1|]. split; [exact B0|exact A3].
Qed.
(** The floor of a system without IMUs is drawn a second time in the colour of the prediction, although no link moves it;
    with transparent_segment_to_root that depends on whether the last link is connected to the world. *)
Definition toy_arm : System nat (nat * nat) nat unit :=
  mkSys [-1; 0]%Z [(20, 5); (21, 0)]%nat ["rx"; "rz"]%string [1; 2]%nat [1; 2]%nat [1; 2]%nat [3; 4]%nat 2%nat
    [(-1, 77%nat); (0, 5%nat)]%Z [0; 0; 8]%nat "semi_implicit_euler" 0 ["upper"; "lower"]%string None [tt; tt].
Lemma toy_arm_parsed : parsed builtin_widths toy_ops toy_arm.
Proof. parsed_by_compute toy_laws. Qed.
Theorem C80_floor_twice_refuted : exists sr,
  sys_render builtin_widths toy_ops toy_pad (fun g => (g + 100)%nat) toy_arm true = Ok sr /\ link_names sr = ["upper"; "lower"; "hat_upper"; "hat_lower"]%string /\ attached (-1) (geoms sr) = [77%nat; 177%nat] /\ attached 2 (geoms sr) = [].
Proof. eexists. split; [vm_compute; reflexivity|repeat split; reflexivity]. Qed.
Print Assumptions C80_prediction.
