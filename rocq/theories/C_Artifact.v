(** * Non-rigid IMU attachments can be hidden again (C47). *)
From Coq Require Import Reals Lra ZArith String Ascii Lia Bool List Permutation.
From Verif Require Import Prelude M_Sys M_Compose M_Math M_Geom M_Xml M_Pd S_Sys S_Morph P_Scan P_Sys P_Delete2 P_Update
  S_Xml P_Xml P_XmlLoad C_Xml M_Artifact S_Artifact P_Morph M_Joint P_Artifact P_Hide.
Import ListNotations.
Local Open Scope string_scope.
Local Open Scope list_scope.

Section Art.
Context {J : Type}.
Variable W : widths.
Variable print : R -> string.
Variable print_int : Z -> string.
Variable float_of : string -> option R.
Variable jinit : list string -> result (list J).
Variable registered has_init : string -> bool.
Variable reload : xsys J -> result (xsys J).
Variable jpad : list J -> J -> J.
Variable jzero : J -> J.
Variable num : R -> Prop.
Variable int : Z -> Prop.
Hypothesis F : faithful print print_int float_of num int.
Hypothesis JI : forall ts, Forall (fun t => qW W t <> None) ts -> exists ps, jinit ts = Ok ps /\ length ps = length ts.
Hypothesis WD : qW W "p3d" = Some 3%nat /\ dW W "p3d" = Some 3%nat /\ qW W "spherical" = Some 4%nat /\ dW W "spherical" = Some 3%nat /\
  qW W "frozen" = Some 0%nat /\ dW W "frozen" = Some 0%nat.
Hypothesis WORDS : plain float_of "p3d" /\ plain float_of "spherical".
Hypothesis REG : (registered "spherical" = true /\ has_init "spherical" = false) /\ (registered "frozen" = true /\ has_init "frozen" = false).

Notation inject := (inject_subsystems W print print_int float_of jinit registered has_init reload jpad jzero).
Notation hide := (hide_injected_bodies W registered has_init reload).

(** The keyword arguments can be written as numbers, also with a minus sign in front; pos_min_max is not negative. *)
Definition writable (o : art_opts) : Prop :=
  (num (a_rstif o) /\ num (a_rstif o * a_rdamp o) /\ num (a_tstif o) /\ num (a_tstif o * a_tdamp o) /\
   num (a_pos o) /\ num (- a_pos o)%R /\ num 0%R /\ num 1%R) /\ (0 <= a_pos o)%R /\ float_of (String "-" (print (a_pos o))) = Some (- a_pos o)%R.

(** Injecting never fails on a saveable system with rigidly attached IMUs, and adds exactly one carrier per IMU. *)
Theorem C47_injected (o : art_opts) (s : xsys J) : writable o -> saveable float_of num int W s -> attachable float_of s ->
  exists s1 mid imus order, inject o s = Ok s1 /\
    with_carriers W (a_rstif o) (a_rstif o * a_rdamp o) (a_pos o) (a_tstif o) (a_tstif o * a_tdamp o) s mid imus /\
    reloaded W jinit mid s1 order.
Proof.
  intros (N & P & M) SV AT. destruct REG as [RG1 RG2].
  destruct (injected W print print_int float_of jinit registered has_init reload jpad jzero num int F JI WD WORDS RG1 o N P M s SV AT)
    as (mid & is & s1 & order & E & WC & _ & RL). exists s1, mid, is, order. auto.
Qed.

(** Hiding the injected bodies again restores the system; coordinates and poses are reported by name, an IMU with the pose of its own
    (softly attached) link. *)
Theorem C47_hidden (o : art_opts) (s : xsys J) : writable o -> saveable float_of num int W s -> attachable float_of s ->
  depth_first (link_parents s) -> (exists n, In n (link_names s) /\ ~ imu_name n) ->
  exists s1, inject o s = Ok s1 /\
    forall X nq (q : list (list R)) (x : list (list X)), q_size W s1 = Ok nq -> Forall (fun r => length r = nq) q -> Forall (fun r => length r = num_links s1) x ->
    exists q' x' s', hide q x s1 = Ok (q', x', s') /\ hidden_again W s s' /\
      Forall2 (coords_by_name W s' s1) q' q /\ Forall2 (poses_by_name s' s1) x' x /\ incl (link_names s) (link_names s1).
Proof.
  intros (N & P & M) SV AT DF EX. destruct REG as [RG1 RG2].
  destruct (injected W print print_int float_of jinit registered has_init reload jpad jzero num int F JI WD WORDS RG1 o N P M s SV AT)
    as (mid & is & s1 & order & E & WC & PM & RL). exists s1. split; [exact E|]. intros X nq q x EQ RQ RX.
  pose proof (sv_parsed _ _ _ _ _ SV) as PS. destruct WD as (_ & _ & _ & _ & WF).
  assert (FZ : forall i n t, nth_error (link_names s) i = Some n -> nth_error (link_types s) i = Some t -> imu_name n -> t = "frozen").
  { intros i n t En Et IM. now apply (AT i n t). }
  destruct (hidden W jinit registered has_init reload (a_rstif o) (a_rstif o * a_rdamp o) (a_pos o) (a_tstif o) (a_tstif o * a_tdamp o) WF RG2 s mid s1 is order PS (sv_some _ _ _ _ _ SV) DF FZ WC RL)
    as (s2 & s' & E2 & E' & HA).
  pose proof HA as [H1 H2 H3 H4 H5 H6 H7].
  pose proof (findall_same W jinit (a_rstif o) (a_rstif o * a_rdamp o) (a_pos o) (a_tstif o) (a_tstif o * a_tdamp o) s mid s1 is order WC RL) as FS.
  destruct (frame_views W jinit (a_rstif o) (a_rstif o * a_rdamp o) (a_pos o) (a_tstif o) (a_tstif o * a_tdamp o) s mid s1 is order WC RL)
    as (vs & vs1 & vs2 & ws & V & V' & S1 & S2 & V1 & XX & L0 & L1 & L2 & L3 & L4 & L5 & L6).
  assert (NI : forall i n, nth_error (link_names s) i = Some n -> ~ imu_name n -> exists m, nth_error (link_names s1) m = Some n /\ nth_error (link_types s1) m = nth_error (link_types s) i).
  { intros i n En NIM. assert (Li : (i < num_links s)%nat) by (unfold num_links; rewrite <- (wf_names _ _ (pd_wf _ _ _ PS)); apply nth_error_Some; congruence).
    destruct (order_bij W jinit (a_rstif o) (a_rstif o * a_rdamp o) (a_pos o) (a_tstif o) (a_tstif o * a_tdamp o) s mid s1 is order WC RL i) as (m & Em & Lm); [lia|].
    destruct (Forall2_nth_l _ _ _ _ _ XX Em) as (w & Ew & u & Eu & (A1 & A2 & _) & _). rewrite nth_error_app1 in Eu by lia.
    destruct (Forall2_nth_r _ _ _ _ _ S1 Eu) as (v & Ev & _ & Y). destruct V as (B1 & B2 & _). rewrite B1, nth_error_map, Ev in En. cbn in En. injection En as <-.
    destruct (Y NIM) as [(C1 & C2 & _) _]. exists m. destruct V1 as (D1 & D2 & _). rewrite D1, D2, B2, !nth_error_map, Ew, Ev. cbn. split; congruence. }
  assert (INC : incl (link_names s) (link_names s1)).
  { intros n Hn. destruct (is_imu_name n) eqn:IM.
    - apply is_imu_name_spec in IM. assert (In n (findall_imus s1)) by (apply FS; auto). unfold findall_imus in H. apply filter_In in H. tauto.
    - apply In_nth_error in Hn. destruct Hn as [i Hi]. destruct (NI i n Hi) as (m & Em & _); [|eapply nth_error_In; eauto]. intros Z. apply is_imu_name_spec in Z. congruence. }
  destruct (match_ok W (proj1 WF) s' s1 (findall_imus s1) nq q x) as (q' & x' & EM & CO & PO); auto.
  { apply (pd_wf _ _ _ H7). } { apply (pd_wf _ _ _ (rl_parsed _ _ _ _ _ RL)). } { now rewrite H1. }
  { rewrite H1. intros n Hn. rewrite FS. tauto. }
  { rewrite H1, H2. intros i m n En Em NIM. destruct (NI i n En NIM) as (m' & Em' & Et). rewrite <- Et. f_equal.
    exact (NoDup_nth_error_inj (link_names s1) m' m n (wf_unique _ _ (pd_wf _ _ _ (rl_parsed _ _ _ _ _ RL))) Em' Em). }
  { rewrite H1, H2. exact FZ. } { now rewrite H1. }
  exists q', x', s'. split; [|auto]. unfold hide_injected_bodies. rewrite E2. cbn [bind]. change (fun s imu => _) with (hide_step W registered has_init reload) at 1.
  rewrite E'. cbn [bind]. rewrite EM. reflexivity.
Qed.

(** ** What does not hold *)

(** An IMU that is not rigidly attached is rejected. *)
Theorem C47_moving_imu_refuted (o : art_opts) (s : xsys J) i n t rest : parsed W xml_ops s -> findall_imus s = n :: rest ->
  nth_error (link_names s) i = Some n -> nth_error (link_types s) i = Some t -> t <> "frozen" -> inject o s = Err EAssertion.
Proof.
  intros P FA En Et NT. unfold inject_subsystems. destruct (P_Run.mapM_exists (fun imu => do i <- name_to_idx s imu; Ok (Z.of_nat i, imu)) (findall_imus s)) as [m Em].
  { intros k Hk. unfold findall_imus in Hk. apply filter_In in Hk. destruct Hk as [Hk _]. apply In_nth_error in Hk. destruct Hk as [j Hj].
    unfold name_to_idx. rewrite (proj2 (indexS_NoDup k (link_names s) j (wf_unique _ _ (pd_wf _ _ _ P))) Hj). cbn. eauto. }
  rewrite Em. cbn [bind]. rewrite FA. cbn [foldM]. unfold inject_step at 1, unfreeze, name_to_idx.
  rewrite (proj2 (indexS_NoDup n (link_names s) i (wf_unique _ _ (pd_wf _ _ _ P))) En). cbn [bind].
  assert (PG : py_get (link_types s) (Z.of_nat i) = Ok t) by (apply py_get_nonneg; [lia|now rewrite Nat2Z.id]). rewrite PG. cbn [bind].
  destruct (String.eqb_spec t "frozen"); [congruence|]. reflexivity.
Qed.

(** Whatever the original order of the links was, hiding yields a depth-first order. *)
Lemma hide_loop_parents l : forall s2 s' : xsys J, foldM (hide_step W registered has_init reload) s2 l = Ok s' -> link_parents s' = link_parents s2.
Proof.
  assert (ST : forall (t t' : xsys J) n, hide_step W registered has_init reload t n = Ok t' -> link_parents t' = link_parents t).
  { intros t t' n H. unfold hide_step, change_link_name, change_joint_type, update_joint_types in H. destruct REG as [_ [R1 R2]]. rewrite R1, R2 in H.
    repeat (match type of H with bind _ _ = _ => apply bind_Ok in H; destruct H as (? & ? & H) end).
    repeat match goal with X : bind _ _ = Ok _ |- _ => apply bind_Ok in X; destruct X as (? & ? & X) end.
    repeat match goal with X : Ok _ = Ok _ |- _ => injection X as <- end.
    match goal with X : parse _ _ _ = Ok _ |- _ => apply parse_iff in X; destruct X as (-> & _) end. reflexivity. }
  induction l as [|n l IH]; intros s2 s' H; cbn [foldM] in H; [injection H as <-; reflexivity|].
  apply bind_Ok in H. destruct H as (t & H1 & H2). rewrite (IH t s' H2). eapply ST; eauto.
Qed.

Theorem C47_order_refuted (o : art_opts) (s s1 : xsys J) X (q : list (list R)) (x : list (list X)) q' x' s' :
  writable o -> saveable float_of num int W s -> attachable float_of s -> ~ depth_first (link_parents s) ->
  inject o s = Ok s1 -> hide q x s1 = Ok (q', x', s') -> link_parents s' <> link_parents s.
Proof.
  intros (N & P & M) SV AT NDF E H. destruct REG as [RG1 RG2].
  destruct (injected W print print_int float_of jinit registered has_init reload jpad jzero num int F JI WD WORDS RG1 o N P M s SV AT)
    as (mid & is & s1' & order & E1 & WC & PM & RL). rewrite E1 in E. injection E as ->.
  unfold hide_injected_bodies in H. apply bind_Ok in H. destruct H as (s2 & E2 & H). apply bind_Ok in H. destruct H as (s3 & E3 & H).
  apply bind_Ok in H. destruct H as (qx & E4 & H). injection H as _ <-.
  change (foldM (hide_step W registered has_init reload) s2 (findall_imus s1) = Ok s3) in E3.
  apply hide_loop_parents in E3. rewrite E3. destruct (deleted_depth_first W jinit mid s1 order RL s2 E2) as [_ D]. congruence.
Qed.

(** The geometries of an IMU are lost. *)
Theorem C47_geometries_refuted (o : art_opts) (s s1 : xsys J) X nq (q : list (list R)) (x : list (list X)) i n :
  writable o -> saveable float_of num int W s -> attachable float_of s -> depth_first (link_parents s) -> (exists m, In m (link_names s) /\ ~ imu_name m) ->
  inject o s = Ok s1 -> q_size W s1 = Ok nq -> Forall (fun r => length r = nq) q -> Forall (fun r => length r = num_links s1) x ->
  nth_error (link_names s) i = Some n -> imu_name n -> attached (Z.of_nat i) (geoms s) <> [] ->
  exists q' x' s', hide q x s1 = Ok (q', x', s') /\ geoms s' <> geoms s /\
    forall l, nth_error (links s') i = Some l -> M_Geom.pl_inertia l = inertia_from_geometries [].
Proof.
  intros N SV AT DF EX E EQ RQ RX En IM GE. destruct (C47_hidden o s N SV AT DF EX) as (s1' & E1 & H). rewrite E1 in E. injection E as ->.
  destruct (H X nq q x EQ RQ RX) as (q' & x' & s' & EH & HA & _). exists q', x', s'. split; [exact EH|]. pose proof (ha_geoms _ _ _ HA i n En) as [G _]. specialize (G IM). split; [congruence|].
  intros l El. pose proof (pd_inertia _ _ _ (ha_parsed _ _ _ HA) i l El) as I. rewrite G in I. rewrite <- I. reflexivity.
Qed.

(** A system consisting of IMUs only cannot be hidden. *)
Theorem C47_only_imus_refuted (o : art_opts) (s s1 : xsys J) X (q : list (list R)) (x : list (list X)) r :
  writable o -> saveable float_of num int W s -> attachable float_of s -> depth_first (link_parents s) -> (forall n, In n (link_names s) -> imu_name n) ->
  inject o s = Ok s1 -> hide q x s1 <> Ok r.
Proof.
  intros (N & P & M) SV AT DF ALL E H. destruct REG as [RG1 RG2].
  destruct (injected W print print_int float_of jinit registered has_init reload jpad jzero num int F JI WD WORDS RG1 o N P M s SV AT)
    as (mid & is & s1' & order & E1 & WC & PM & RL). rewrite E1 in E. injection E as ->. destruct WD as (_ & _ & _ & _ & WF).
  assert (FZ : forall i n t, nth_error (link_names s) i = Some n -> nth_error (link_types s) i = Some t -> imu_name n -> t = "frozen").
  { intros i n t En Et IM. now apply (AT i n t). }
  destruct (hidden W jinit registered has_init reload (a_rstif o) (a_rstif o * a_rdamp o) (a_pos o) (a_tstif o) (a_tstif o * a_tdamp o) WF RG2 s mid s1 is order (sv_parsed _ _ _ _ _ SV) (sv_some _ _ _ _ _ SV) DF FZ WC RL)
    as (s2 & s' & E2 & E' & HA).
  unfold hide_injected_bodies in H. rewrite E2 in H. cbn [bind] in H. change (fun s imu => _) with (hide_step W registered has_init reload) in H at 1. rewrite E' in H. cbn [bind] in H.
  apply bind_Ok in H. destruct H as (qx & H & _). unfold match_q_x in H.
  assert (FE : filter (fun n => negb (memS n (findall_imus s1))) (link_names s') = []).
  { rewrite (ha_names _ _ _ HA). assert (K : forall n, In n (link_names s) -> memS n (findall_imus s1) = true).
    { intros n Hn. apply memS_In. apply (findall_same W jinit _ _ _ _ _ s mid s1 is order WC RL). auto. }
    revert K. generalize (link_names s). induction l as [|n l IH]; intros K; [reflexivity|]. cbn [filter]. rewrite (K n) by (now left). apply IH. intros k Hk. apply K. now right. }
  rewrite FE in H. do 6 (apply bind_Ok in H; destruct H as (? & ? & H)). cbn [mapM bind] in H. discriminate.
Qed.
End Art.

(** ** Example: a base, an arm with an IMU, and a tool *)
Definition ademo : xsys unit :=
  mkSys [-1; 0; 1; 0]%Z
    [xlink vzero qone [xg_geom xbox]; xlink (V3 1 0 0) (Q4 (3/5) (4/5) 0 0) [xg_geom xcross]; xlink (V3 0 1 0) qone [xg_geom xbox];
     mkPL (Tr (V3 0 0 1) qone) (V3 0 0 1) (V3 0 0 1) tt (inertia_from_geometries []) t_zero t_zero]
    ["free"; "ry"; "frozen"; "px"] (repeat (1/10)%R 8) (repeat 0%R 8) (repeat 3%R 8) [1;0;0;0;0;0;0;0;0]%R (1/100)%R
    [(0%Z, xbox); (1%Z, xcross); (2%Z, xbox)] [0; 0; 981/100]%R "semi_implicit_euler" 0 ["base"; "arm"; "imu_arm"; "tool"] (Some "my robot")
    [None; Some (mkOmc "S 7" 4 (V3 0 (1/10) 0)); None; None].

Lemma ademo_parsed : parsed builtin_widths xml_ops ademo.
Proof.
  constructor.
  - constructor; try reflexivity.
    + cbn [ademo link_names]. repeat constructor; cbn [In]; intuition discriminate.
    + unfold ademo, topo. cbn [link_parents]. intros [|[|[|[|i]]]] p H; cbn in H; try (injection H as <-; lia). destruct i; discriminate.
    + cbn [ademo geoms link_parents length]. repeat constructor; cbn; lia.
    + exists [7; 1; 0; 1]%nat, [6; 1; 0; 1]%nat. unfold have_widths. cbn [ademo link_types].
      split; [repeat apply Forall2_cons; try reflexivity; apply Forall2_nil|].
      split; [repeat apply Forall2_cons; try reflexivity; apply Forall2_nil|]. repeat split.
  - intros i j x y g h L A B. cbn [ademo geoms] in A, B.
    destruct i as [|[|[|i]]]; cbn [nth_error] in A; try (destruct i; discriminate); injection A as <- _;
    destruct j as [|[|[|j]]]; cbn [nth_error] in B; try (destruct j; discriminate); injection B as <- _; lia.
  - intros [|[|[|[|i]]]] l H; cbn [ademo links nth_error] in H; try (destruct i; discriminate); injection H as <-; reflexivity.
  - exists (map (fun i => mkView
       (nth i (link_names ademo) "") (nth i (link_types ademo) "") (nth i (links ademo) (xlink vzero qone [])) (nth i (omc ademo) None)
       (P_Run.cut [6; 1; 0; 1] (link_damping ademo) i) (P_Run.cut [6; 1; 0; 1] (link_armature ademo) i) (P_Run.cut [6; 1; 0; 1] (link_spring_stiffness ademo) i)
       (P_Run.cut [7; 1; 0; 1] (link_spring_zeropoint ademo) i)) [0; 1; 2; 3]).
    split.
    + split; [reflexivity|]. split; [reflexivity|]. split; [reflexivity|]. split; [reflexivity|]. split; [reflexivity|].
      exists [7; 1; 0; 1], [6; 1; 0; 1]. split; [repeat apply Forall2_cons; try reflexivity; apply Forall2_nil|].
      split; [repeat apply Forall2_cons; try reflexivity; apply Forall2_nil|]. repeat (split; [split; reflexivity|]). split; reflexivity.
    + assert (POK : forall p r g, pos_ok xml_ops (xlink p r g) = true).
      { intros p r g. cbn [xml_ops phys_ops pos_ok xlink pl_pmin pl_pmax vzero vx vy vz]. unfold Rleb. destruct (Rle_dec 0 1); [reflexivity|lra]. }
      repeat apply Forall_cons; [..|apply Forall_nil]; (split; [try apply POK|]); cbn [v_type v_zeropoint nth ademo link_types link_spring_zeropoint]; try (intros F; discriminate F).
      * intros _. exact (ol_one _ (@xml_laws unit) 3).
      * cbn [v_link nth ademo links xml_ops phys_ops pos_ok pl_pmin pl_pmax vx vy vz]. unfold Rleb. destruct (Rle_dec 0 0), (Rle_dec 1 1); try reflexivity; lra.
Qed.
Lemma ademo_saveable : saveable read3 num3d (fun _ => True) builtin_widths ademo.
Proof.
  assert (PL : forall t, all_some (map read3 (split_sp t)) = None -> plain read3 t) by (intros t; apply plain_by_reading).
  assert (SB : saveable_geom read3 num3d xbox).
  { unfold saveable_geom, xbox, num_t, num3. cbn [xg_geom xg_color xg_edge g_shape g_mass g_transform t_pos t_rot vx vy vz qw qx qy qz vzero qone saveable_color length].
    split; [nm|]. split; [repeat split; nm|]. split; [apply PL; reflexivity|]. split; [split; [lia|repeat apply Forall_cons; try apply Forall_nil; nm]|].
    split; [nm|]. split; [nm|]. split; [nm|]. lra. }
  constructor.
  - exact ademo_parsed.
  - discriminate.
  - exists "my robot". split; [reflexivity|apply PL; reflexivity].
  - cbn [ademo link_names]. repeat apply Forall_cons; try apply Forall_nil; apply PL; reflexivity.
  - cbn [ademo link_types]. repeat apply Forall_cons; try apply Forall_nil; (split; [apply PL; reflexivity|discriminate]).
  - reflexivity.
  - split; reflexivity.
  - cbn [ademo sys_dt gravity length]. split; [nm|]. split; [|lia]. repeat apply Forall_cons; try apply Forall_nil; nm.
  - cbn [ademo link_damping link_armature link_spring_stiffness link_spring_zeropoint repeat].
    split; [|split; [|split]]; repeat apply Forall_cons; try apply Forall_nil; nm.
  - cbn [ademo links]. unfold saveable_link, xlink, num_t, num3. cbn [pl_t1 pl_pmin pl_pmax t_pos t_rot vx vy vz qw qx qy qz vzero qone].
    repeat apply Forall_cons; try apply Forall_nil; cbn [pl_t1 pl_pmin pl_pmax t_pos t_rot vx vy vz qw qx qy qz vzero qone];
    (split; [|split; [|split]]); try (intros X; injection X; intros; exfalso; lra); try reflexivity; repeat split; nm.
  - cbn [ademo geoms]. repeat apply Forall_cons; try apply Forall_nil; cbn [snd]; auto.
    unfold saveable_geom, xcross. cbn [xg_geom g_shape]. split; [reflexivity|]. split; [nm|lra].
  - cbn [ademo omc]. repeat apply Forall_cons; try apply Forall_nil; cbn [saveable_omc]; auto. unfold num3. cbn [o_name o_marker o_pos vx vy vz].
    split; [apply PL; reflexivity|]. split; [auto|]. repeat split; nm.
Qed.
Definition demo_opts : art_opts := mkArt (1/2) 2 (1/10) 3 (1/10).
Lemma demo_writable : writable print3 read3 num3d demo_opts.
Proof.
  unfold writable, demo_opts. cbn [a_pos a_rstif a_rdamp a_tstif a_tdamp]. split.
  - repeat split; [exists 2000%Z|exists 200%Z|exists 3000%Z|exists 300%Z|exists 500%Z|exists (-500)%Z|exists 0%Z|exists 1000%Z]; lra.
  - split; [lra|]. unfold print3. replace (1000 * (1 / 2))%R with (IZR 500) by lra. rewrite Int_part_IZR. change (print_z 500) with "500". unfold read3.
    change (strip (String "-" ("500" ++ "e-3"))) with (Some "-500"). cbv beta iota. change (read_z "-500") with (Some (-500)%Z). cbv beta iota. f_equal. lra.
Qed.
Lemma ademo_attachable : attachable read3 ademo.
Proof.
  intros i n t En Et IM. destruct i as [|[|[|[|i]]]]; cbn in En, Et; try (destruct i; discriminate);
    injection En as <-; injection Et as <-; destruct IM as (r & X); try discriminate.
  split; [reflexivity|]. split; [cbn; intuition discriminate|apply plain_by_reading; reflexivity].
Qed.
Lemma ademo_depth_first : depth_first (link_parents ademo).
Proof.
  intros i p H. destruct i as [|[|[|i]]]; cbn in H; try (destruct i; discriminate); injection H as H;
    [assert (p = 0%nat) by lia|assert (p = 1%nat) by lia|assert (p = 0%nat) by lia]; subst p.
  - constructor.
  - constructor.
  - apply desc_step with (p := 1%nat); [reflexivity|]. apply desc_step with (p := 0%nat); [reflexivity|constructor].
Qed.
Example C47_example : exists s1,
  inject_subsystems builtin_widths print3 print_z read3 unit_init (fun _ => true) (fun _ => false) (fun s => Ok s) (fun _ j => j) (fun j => j) demo_opts ademo = Ok s1 /\
  num_links s1 = 5%nat /\
  exists q' x' s', hide_injected_bodies builtin_widths (fun _ => true) (fun _ => false) (fun s => Ok s) [] [[10; 11; 12; 13; 14]%nat] s1 = Ok (q', x', s') /\
    hidden_again builtin_widths ademo s' /\ geoms s' <> geoms ademo.
Proof.
  assert (JI : forall ts, Forall (fun t => qW builtin_widths t <> None) ts -> exists ps, unit_init ts = Ok ps /\ length ps = length ts).
  { intros ts _. exists (map (fun _ => tt) ts). split; [reflexivity|now rewrite map_length]. }
  assert (PL : plain read3 "p3d" /\ plain read3 "spherical") by (split; apply plain_by_reading; reflexivity).
  destruct (C47_injected builtin_widths print3 print_z read3 unit_init (fun _ => true) (fun _ => false) (fun s => Ok s) (fun _ j => j) (fun j => j) num3d (fun _ => True) faithful3 JI)
    with (o := demo_opts) (s := ademo) as (s1 & mid & is & order & E & WC & RL); auto.
  { repeat split. } { apply demo_writable. } { apply ademo_saveable. } { apply ademo_attachable. }
  exists s1. split; [exact E|]. destruct (frame_views _ _ _ _ _ _ _ _ _ _ _ _ WC RL) as (_ & _ & _ & _ & _ & _ & _ & _ & _ & _ & _ & _ & _ & L3 & L4 & _).
  assert (IS : length is = 1%nat).
  { assert (PI : Permutation is [2%nat]).
    { apply NoDup_Permutation; [apply P_Delete.increasing_NoDup; apply (wc_increasing _ _ _ _ _ _ _ _ _ WC)|repeat constructor; intros []|].
      intros i. rewrite (wc_imus _ _ _ _ _ _ _ _ _ WC i). split.
      - intros (n & En & r & ->). destruct i as [|[|[|[|i]]]]; cbn in En; try discriminate; [now left|destruct i; discriminate].
      - intros [<-|[]]. exists "imu_arm". split; [reflexivity|]. exists "_arm". reflexivity. }
    apply Permutation_length in PI. exact PI. }
  assert (N5 : num_links s1 = 5%nat) by (rewrite L4, L3, IS; reflexivity). split; [exact N5|].
  assert (EX : exists m, In m (link_names ademo) /\ ~ imu_name m) by (exists "base"; split; [now left|intros (r & X); discriminate]).
  destruct (wf_arrays _ _ (pd_wf _ _ _ (rl_parsed _ _ _ _ _ RL))) as (ws & _ & HW & _).
  assert (EQ : q_size builtin_widths s1 = Ok (list_sum ws)) by (apply total_width_Ok; eauto).
  assert (RX : Forall (fun r => length r = num_links s1) [[10; 11; 12; 13; 14]%nat]) by (constructor; [rewrite N5; reflexivity|constructor]).
  destruct (C47_hidden builtin_widths print3 print_z read3 unit_init (fun _ => true) (fun _ => false) (fun s => Ok s) (fun _ j => j) (fun j => j) num3d (fun _ => True) faithful3 JI)
    with (o := demo_opts) (s := ademo) as (s1' & E' & H); auto.
  { repeat split. } { apply demo_writable. } { apply ademo_saveable. } { apply ademo_attachable. } { apply ademo_depth_first. }
  rewrite E in E'. injection E' as <-. destruct (H nat (list_sum ws) [] [[10; 11; 12; 13; 14]%nat] EQ (Forall_nil _) RX) as (q' & x' & s' & EH & HA & _).
  exists q', x', s'. split; [exact EH|]. split; [exact HA|]. intros X. destruct (ha_geoms _ _ _ HA 2%nat "imu_arm" eq_refl) as [G _].
  rewrite X in G. assert (IM : imu_name "imu_arm") by (exists "_arm"; reflexivity). specialize (G IM). cbn in G. discriminate.
Qed.
