(** * Which systems can be simulated with softly attached IMUs (C70). *)
From Coq Require Import Reals Lra ZArith String Ascii Lia Bool List Permutation.
From Verif Require Import Prelude M_Sys M_Compose M_Math M_Geom M_Xml M_Pd S_Sys P_Scan P_Sys P_Run S_Xml M_Artifact S_Artifact P_Artifact M_Build S_Build P_Build P_Geom C_Xml C_Artifact C_Build.
Import ListNotations.
Local Open Scope string_scope.
Local Open Scope list_scope.

Section Soft.
Context {J : Type}.
Variable W : widths.
Notation view := (link_view R (plink J) (option omc_link)).

Lemma mass_weight (s : xsys J) vs i v : parsed W xml_ops s -> views W s vs -> nth_error vs i = Some v ->
  i_mass (M_Geom.pl_inertia (v_link v)) = weight (attached (Z.of_nat i) (geoms s)).
Proof.
  intros P (_ & _ & V3 & _) E. assert (L : nth_error (links s) i = Some (v_link v)) by (rewrite V3, nth_error_map, E; reflexivity).
  pose proof (pd_inertia _ _ _ P i _ L) as I. rewrite <- I at 1. cbn [xml_ops with_inertia phys_ops set_inertia M_Geom.pl_inertia]. rewrite inertia_mass, map_map. reflexivity.
Qed.
Definition good (s : xsys J) (i : nat) (v : view) : Prop :=
  v_damping v <> [] -> Forall (fun d => 0 < d)%R (v_damping v) /\ (at_end s i -> (0 < weight (attached (Z.of_nat i) (geoms s)))%R).
Lemma simulable_good (s : xsys J) vs : parsed W xml_ops s -> views W s vs -> (simulable W s <-> forall i v, nth_error vs i = Some v -> good s i v).
Proof.
  intros P V. unfold simulable, good, at_end. split.
  - intros (vs' & V' & H) i v E. rewrite (views_unique W s vs vs' V V') in *. rewrite <- (mass_weight s vs' i v P V' E). exact (H i v E).
  - intros H. exists vs. split; [exact V|]. intros i v E. rewrite (mass_weight s vs i v P V E). exact (H i v E).
Qed.

(** Saving and loading. *)
Lemma reloaded_simulable jinit (s s' : xsys J) order : parsed W xml_ops s -> reloaded W jinit s s' order -> (simulable W s' <-> simulable W s).
Proof.
  intros P R. destruct (rl_views _ _ _ _ _ R) as (vs & vs' & V & V' & F). pose proof (rl_parsed _ _ _ _ _ R) as P'. pose proof (rl_permutation _ _ _ _ _ R) as PM. pose proof (rl_parents _ _ _ _ _ R) as RP.
  rewrite (simulable_good s' vs' P' V'), (simulable_good s vs P V).
  assert (ND : NoDup order) by (eapply Permutation_NoDup; [apply Permutation_sym; exact PM|apply seq_NoDup]).
  assert (EN : forall m i, nth_error order m = Some i -> (at_end s' m <-> at_end s i)).
  { intros m i Em. unfold at_end. split.
    - intros H j Hj. assert (Lj : (j < num_links s)%nat) by (apply nth_error_Some; congruence). assert (IN : In j order) by (apply (Permutation_in j (Permutation_sym PM)), in_seq; lia).
      apply In_nth_error in IN. destruct IN as [k Ek]. destruct (Forall2_nth_l _ _ _ k j RP Ek) as (p' & Ep' & p & Ep & SP). rewrite Hj in Ep. injection Ep as <-. destruct SP as [[Q _]|(m' & i' & Q1 & Q2 & Q3)]; [lia|].
      assert (i' = i) by lia. subst i'. assert (m' = m) by (eapply NoDup_nth_error; [exact ND|apply nth_error_Some; congruence|congruence]). subst m'. apply (H k). congruence.
    - intros H k Hk. destruct (Forall2_nth_r _ _ _ k _ RP Hk) as (j & Ej & p & Ep & SP). destruct SP as [[_ Q]|(m' & i' & Q1 & Q2 & Q3)]; [lia|]. assert (m' = m) by lia. subst m'. assert (i' = i) by congruence. subst i'. apply (H j). congruence. }
  assert (TR : forall m i v v', nth_error order m = Some i -> nth_error vs i = Some v -> same_view v v' -> (good s' m v' <-> good s i v)).
  { intros m i v v' Em Ev [(_ & _ & _ & DD & _) _]. unfold good. rewrite DD, (EN m i Em), (rl_geoms _ _ _ _ _ R m i Em). reflexivity. }
  split.
  - intros H i v E. assert (Li : (i < num_links s)%nat). { destruct V as (_ & _ & _ & _ & L & _). unfold num_links. rewrite L. apply nth_error_Some. congruence. }
    assert (IN : In i order) by (apply (Permutation_in i (Permutation_sym PM)), in_seq; lia). apply In_nth_error in IN. destruct IN as [m Em]. destruct (Forall2_nth_l _ _ _ m i F Em) as (v' & Ev' & v0 & Ev0 & SV). assert (v0 = v) by congruence. subst v0.
    apply (TR m i v v' Em E SV). exact (H m v' Ev').
  - intros H m v' E. destruct (Forall2_nth_r _ _ _ m v' F E) as (i & Em & v & Ev & SV). apply (TR m i v v' Em Ev SV). exact (H i v Ev).
Qed.


(** Soft attachments before saving and loading. *)
Lemma carriers_simulable rs rd p ts td (s mid : xsys J) imus : parsed W xml_ops s -> parsed W xml_ops mid -> with_carriers W rs rd p ts td s mid imus ->
  (simulable W mid <-> simulable_softly W rd td s).
Proof.
  intros P PM [WI WN WP (vs & vs1 & vs2 & V & VM & F1 & F2) (G1 & G2 & G3 & _) _]. rewrite (simulable_good mid (vs1 ++ vs2) PM VM).
  assert (N1 : length vs1 = length vs) by (symmetry; eapply Forall2_length; exact F1).
  assert (NL : num_links s = length vs) by apply V.
  assert (EV : forall i n, nth_error (link_names s) i = Some n -> exists v, nth_error vs i = Some v /\ v_name v = n).
  { destruct V as (V1 & _). intros i n E. rewrite V1, nth_error_map in E. destruct (nth_error vs i) as [v|]; [|discriminate]. injection E as <-. eauto. }
  assert (EN : forall i v, nth_error vs i = Some v -> nth_error (link_names s) i = Some (v_name v)).
  { destruct V as (V1 & _). intros i v E. rewrite V1, nth_error_map, E. reflexivity. }
  assert (AE : forall i, ~ In i imus -> (i < length vs)%nat -> (at_end mid i <-> at_end s i)).
  { intros i NI Li. unfold at_end. rewrite WP. split; intros H j Hj.
    - apply (H j). rewrite nth_error_app1; [exact Hj|]. apply nth_error_Some. congruence.
    - destruct (Nat.lt_ge_cases j (length (link_parents s))) as [Lj|Lj]; [rewrite nth_error_app1 in Hj by exact Lj; exact (H j Hj)|]. rewrite nth_error_app2, nth_error_map in Hj by exact Lj.
      destruct (nth_error imus (j - length (link_parents s))) as [i'|] eqn:E; [|discriminate]. injection Hj as Hj. apply Nat2Z.inj in Hj. subst i'. apply NI. eapply nth_error_In; eauto. }
  assert (NE : forall i, In i imus -> ~ at_end mid i).
  { intros i IN H. apply In_nth_error in IN. destruct IN as [k Ek]. apply (H (length (link_parents s) + k)%nat). rewrite WP, nth_error_app2 by lia. replace (length (link_parents s) + k - length (link_parents s))%nat with k by lia. rewrite nth_error_map, Ek. reflexivity. }
  assert (CE : forall k, at_end mid (length vs + k)).
  { intros k j Hj. rewrite WP in Hj. destruct (Nat.lt_ge_cases j (length (link_parents s))) as [Lj|Lj].
    - rewrite nth_error_app1 in Hj by exact Lj. pose proof (wf_topo _ _ (pd_wf _ _ _ P) j _ Hj) as T. unfold num_links in NL. lia.
    - rewrite nth_error_app2, nth_error_map in Hj by exact Lj. destruct (nth_error imus (j - length (link_parents s))) as [i'|] eqn:E; [|discriminate]. injection Hj as Hj. apply Nat2Z.inj in Hj. subst i'.
      apply nth_error_In, WI in E. destruct E as (n & E & _). destruct (EV _ _ E) as (v & Ev & _). assert (length vs + k < length vs)%nat by (apply nth_error_Some; congruence). lia. }
  split.
  - intros H. exists vs. split; [exact V|]. intros i v Ev. assert (Li : (i < length vs)%nat) by (apply nth_error_Some; congruence). destruct (Forall2_nth_l _ _ _ i v F1 Ev) as (v1 & Ev1 & SA & SB).
    assert (EM : nth_error (vs1 ++ vs2) i = Some v1) by (rewrite nth_error_app1 by lia; exact Ev1). pose proof (H i v1 EM) as GI. split.
    + intros IM. apply is_imu_name_spec in IM. destruct (SA IM) as [(_ & _ & _ & DD & _) _]. cbn [v_damping] in DD. unfold good in GI. rewrite DD in GI. destruct (GI ltac:(discriminate)) as [GP _]. inversion GP as [|? ? R0 _]; subst. split; [exact R0|].
      assert (IN : In i imus) by (apply WI; exists (v_name v); auto). apply In_nth_error in IN. destruct IN as [k Ek]. destruct (Forall2_nth_l _ _ _ k i F2 Ek) as (v2 & Ev2 & v0 & Ev0 & CA). assert (v0 = v) by congruence. subst v0.
      destruct CA as [(_ & _ & _ & DC & _) _]. cbn [v_damping] in DC.
      assert (EC : nth_error (vs1 ++ vs2) (length vs + k) = Some v2) by (rewrite nth_error_app2 by lia; replace (length vs + k - length vs1)%nat with k by lia; exact Ev2).
      pose proof (H _ _ EC) as GC. unfold good in GC. rewrite DC in GC. destruct (GC ltac:(discriminate)) as [GD GW]. inversion GD as [|? ? T0 _]; subst. split; [exact T0|]. specialize (GW (CE k)). rewrite <- NL, (G3 k i Ek) in GW. exact GW.
    + intros NI ND. assert (NJ : ~ imu_name (v_name v)) by (intros Q; apply is_imu_name_spec in Q; congruence). destruct (SB NJ) as [(_ & _ & _ & DD & _) _]. unfold good in GI. rewrite DD in GI. destruct (GI ND) as [A B]. split; [exact A|].
      assert (NIN : ~ In i imus). { intros Q. apply WI in Q. destruct Q as (n & Q1 & Q2). rewrite (EN _ _ Ev) in Q1. injection Q1 as <-. contradiction. }
      intros AT. apply (AE i NIN Li) in AT. specialize (B AT). rewrite G1 in B by (auto; lia). exact B.
  - intros (vs' & V' & H). rewrite <- (views_unique W s vs vs' V V') in H. clear vs' V'. intros i w Ew. destruct (Nat.lt_ge_cases i (length vs1)) as [Li|Li].
    + rewrite nth_error_app1 in Ew by exact Li. destruct (Forall2_nth_r _ _ _ i w F1 Ew) as (v & Ev & SA & SB). destruct (H i v Ev) as [HA HB]. destruct (is_imu_name (v_name v)) eqn:IM.
      * pose proof IM as IM'. apply is_imu_name_spec in IM'. destruct (SA IM') as [(_ & _ & _ & DD & _) _]. cbn [v_damping] in DD. destruct (HA eq_refl) as (R0 & _ & _). intros _. rewrite DD. split; [repeat constructor; exact R0|].
        intros AT. exfalso. apply (NE i); [|exact AT]. apply WI. exists (v_name v). auto.
      * assert (NJ : ~ imu_name (v_name v)) by (intros Q; apply is_imu_name_spec in Q; congruence). destruct (SB NJ) as [(_ & _ & _ & DD & _) _]. unfold good. rewrite DD. intros ND. destruct (HB eq_refl ND) as [A B]. split; [exact A|].
        assert (NIN : ~ In i imus). { intros Q. apply WI in Q. destruct Q as (n & Q1 & Q2). rewrite (EN _ _ Ev) in Q1. injection Q1 as <-. contradiction. }
        intros AT. apply (AE i NIN ltac:(lia)) in AT. rewrite G1 by (auto; lia). auto.
    + rewrite nth_error_app2 in Ew by exact Li. destruct (Forall2_nth_r _ _ _ _ w F2 Ew) as (i0 & Ek & v & Ev & CA). destruct CA as [(_ & _ & _ & DC & _) _]. cbn [v_damping] in DC.
      assert (IM : is_imu_name (v_name v) = true). { apply is_imu_name_spec. apply nth_error_In, WI in Ek. destruct Ek as (n & E1 & E2). rewrite (EN _ _ Ev) in E1. injection E1 as <-. exact E2. }
      destruct (H i0 v Ev) as [HA _]. destruct (HA IM) as (_ & T0 & W0). intros _. rewrite DC. split; [repeat constructor; exact T0|]. intros _.
      specialize (G3 _ _ Ek). replace (num_links s + (i - length vs1))%nat with i in G3 by lia. rewrite G3. exact W0.
Qed.

Variable print : R -> string.
Variable print_int : Z -> string.
Variable float_of : string -> option R.
Variable jinit : list string -> result (list J).
Variable registered has_init : string -> bool.
Variable reload : xsys J -> result (xsys J).
Variable jpad : list J -> J -> J.
Variable jzero : J -> J.
Variable num : R -> Prop.
Variable int : Z -> Prop.
Hypothesis F : faithful print print_int float_of num int.
Hypothesis JI : forall ts, Forall (fun t => qW W t <> None) ts -> exists ps, jinit ts = Ok ps /\ length ps = length ts.
Hypothesis WD : qW W "p3d" = Some 3%nat /\ dW W "p3d" = Some 3%nat /\ qW W "spherical" = Some 4%nat /\ dW W "spherical" = Some 3%nat /\
  qW W "frozen" = Some 0%nat /\ dW W "frozen" = Some 0%nat.
Hypothesis WORDS : plain float_of "p3d" /\ plain float_of "spherical".
Hypothesis REG : (registered "spherical" = true /\ has_init "spherical" = false) /\ (registered "frozen" = true /\ has_init "frozen" = false).

(** Softly attached IMUs can be simulated exactly if every IMU has a mass, the attachments are damped, and the rest of the system could be
    simulated were it not for its IMUs. *)
Theorem C70_soft (o : art_opts) (s : xsys J) : writable print float_of num o -> saveable float_of num int W s -> attachable float_of s ->
  exists s1, inject_subsystems W print print_int float_of jinit registered has_init reload jpad jzero o s = Ok s1 /\
    (simulable W s1 <-> simulable_softly W (a_rstif o * a_rdamp o) (a_tstif o * a_tdamp o) s).
Proof.
  intros (N & P & M) SV AT. destruct REG as [RG1 RG2].
  destruct (injected W print print_int float_of jinit registered has_init reload jpad jzero num int F JI WD WORDS RG1 o N P M s SV AT)
    as (mid & is & s1 & order & E & WC & PM & RL). exists s1. split; [exact E|]. rewrite (reloaded_simulable jinit mid s1 order PM RL). exact (carriers_simulable _ _ _ _ _ s mid is (sv_parsed _ _ _ _ _ SV) PM WC).
Qed.
End Soft.

(** ** Example: a body with an IMU *)
Definition bdemo : xsys unit :=
  mkSys [-1; 0]%Z [xlink vzero qone [xg_geom xcross]; xlink (V3 0 1 0) qone [xg_geom xbox]]
    ["free"; "frozen"] (repeat (1/10)%R 6) (repeat 0%R 6) (repeat 3%R 6) [1;0;0;0;0;0;0]%R (1/100)%R
    [(0%Z, xcross); (1%Z, xbox)] [0; 0; 981/100]%R "semi_implicit_euler" 0 ["base"; "imu_base"] (Some "my robot") [None; None].
Definition bdemo_views : list (link_view R (plink unit) (option omc_link)) :=
  [mkView "base" "free" (xlink vzero qone [xg_geom xcross]) None (repeat (1/10)%R 6) (repeat 0%R 6) (repeat 3%R 6) [1;0;0;0;0;0;0]%R;
   mkView "imu_base" "frozen" (xlink (V3 0 1 0) qone [xg_geom xbox]) None [] [] [] []].
Lemma bdemo_has_views : views builtin_widths bdemo bdemo_views.
Proof.
  split; [reflexivity|]. split; [reflexivity|]. split; [reflexivity|]. split; [reflexivity|]. split; [reflexivity|].
  exists [7; 0], [6; 0]. split; [repeat apply Forall2_cons; try reflexivity; apply Forall2_nil|].
  split; [repeat apply Forall2_cons; try reflexivity; apply Forall2_nil|]. repeat (split; [split; reflexivity|]). split; reflexivity.
Qed.
Lemma bdemo_parsed : parsed builtin_widths xml_ops bdemo.
Proof.
  constructor.
  - constructor; try reflexivity.
    + cbn [bdemo link_names]. repeat constructor; cbn [In]; intuition discriminate.
    + unfold bdemo, topo. cbn [link_parents]. intros [|[|i]] p H; cbn in H; try (injection H as <-; lia). destruct i; discriminate.
    + cbn [bdemo geoms link_parents length]. repeat constructor; cbn; lia.
    + exists [7; 0]%nat, [6; 0]%nat. unfold have_widths. cbn [bdemo link_types].
      split; [repeat apply Forall2_cons; try reflexivity; apply Forall2_nil|].
      split; [repeat apply Forall2_cons; try reflexivity; apply Forall2_nil|]. repeat split.
  - intros i j x y g h L A B. cbn [bdemo geoms] in A, B.
    destruct i as [|[|i]]; cbn [nth_error] in A; try (destruct i; discriminate); injection A as <- _;
    destruct j as [|[|j]]; cbn [nth_error] in B; try (destruct j; discriminate); injection B as <- _; lia.
  - intros [|[|i]] l H; cbn [bdemo links nth_error] in H; try (destruct i; discriminate); injection H as <-; reflexivity.
  - exists bdemo_views. split; [exact bdemo_has_views|].
    assert (POK : forall p r g, pos_ok xml_ops (xlink p r g) = true).
    { intros p r g. cbn [xml_ops phys_ops pos_ok xlink pl_pmin pl_pmax vzero vx vy vz]. unfold Rleb. destruct (Rle_dec 0 1); [reflexivity|lra]. }
    repeat apply Forall_cons; [..|apply Forall_nil]; (split; [apply POK|]); cbn [v_type v_zeropoint]; try (intros Q; discriminate Q).
    intros _. exact (ol_one _ (@xml_laws unit) 3).
Qed.
Lemma bdemo_saveable : saveable read3 num3d (fun _ => True) builtin_widths bdemo.
Proof.
  assert (PL : forall t, all_some (map read3 (split_sp t)) = None -> plain read3 t) by (intros t; apply plain_by_reading).
  assert (SB : saveable_geom read3 num3d xbox).
  { unfold saveable_geom, xbox, num_t, num3. cbn [xg_geom xg_color xg_edge g_shape g_mass g_transform t_pos t_rot vx vy vz qw qx qy qz vzero qone saveable_color length].
    split; [nm|]. split; [repeat split; nm|]. split; [apply PL; reflexivity|]. split; [split; [lia|repeat apply Forall_cons; try apply Forall_nil; nm]|].
    split; [nm|]. split; [nm|]. split; [nm|]. lra. }
  constructor.
  - exact bdemo_parsed.
  - discriminate.
  - exists "my robot". split; [reflexivity|apply PL; reflexivity].
  - cbn [bdemo link_names]. repeat apply Forall_cons; try apply Forall_nil; apply PL; reflexivity.
  - cbn [bdemo link_types]. repeat apply Forall_cons; try apply Forall_nil; (split; [apply PL; reflexivity|discriminate]).
  - reflexivity.
  - split; reflexivity.
  - cbn [bdemo sys_dt gravity length]. split; [nm|]. split; [|lia]. repeat apply Forall_cons; try apply Forall_nil; nm.
  - cbn [bdemo link_damping link_armature link_spring_stiffness link_spring_zeropoint repeat].
    split; [|split; [|split]]; repeat apply Forall_cons; try apply Forall_nil; nm.
  - cbn [bdemo links]. unfold saveable_link, xlink, num_t, num3. cbn [pl_t1 pl_pmin pl_pmax t_pos t_rot vx vy vz qw qx qy qz vzero qone].
    repeat apply Forall_cons; try apply Forall_nil; cbn [pl_t1 pl_pmin pl_pmax t_pos t_rot vx vy vz qw qx qy qz vzero qone];
    (split; [|split; [|split]]); try (intros X; injection X; intros; exfalso; lra); try reflexivity; repeat split; nm.
  - cbn [bdemo geoms]. repeat apply Forall_cons; try apply Forall_nil; cbn [snd]; auto.
    unfold saveable_geom, xcross. cbn [xg_geom g_shape]. split; [reflexivity|]. split; [nm|lra].
  - cbn [bdemo omc]. repeat apply Forall_cons; try apply Forall_nil; cbn [saveable_omc]; auto.
Qed.
Lemma bdemo_attachable : attachable read3 bdemo.
Proof.
  intros i n t En Et IM. destruct i as [|[|i]]; cbn in En, Et; try (destruct i; discriminate);
    injection En as <-; injection Et as <-; destruct IM as (r & X); try discriminate.
  split; [reflexivity|]. split; [cbn; intuition discriminate|apply plain_by_reading; reflexivity].
Qed.
Lemma bdemo_softly : simulable_softly builtin_widths (a_rstif demo_opts * a_rdamp demo_opts) (a_tstif demo_opts * a_tdamp demo_opts) bdemo.
Proof.
  exists bdemo_views. split; [exact bdemo_has_views|]. cbn [demo_opts a_rstif a_rdamp a_tstif a_tdamp]. intros [|[|i]] v E; cbn in E; try (destruct i; discriminate); injection E as <-; cbn [v_name v_damping]; (split; [intros Q; try discriminate Q|intros Q; try discriminate Q]).
  - intros _. split; [cbn [repeat]; repeat apply Forall_cons; try apply Forall_nil; lra|]. intros AT. exfalso. apply (AT 1%nat). reflexivity.
  - cbn. lra.
Qed.
Example C70_soft_nonvacuous : exists s1,
  inject_subsystems builtin_widths print3 print_z read3 unit_init (fun _ => true) (fun _ => false) (fun s => Ok s) (fun _ j => j) (fun j => j) demo_opts bdemo = Ok s1 /\
  simulable builtin_widths s1.
Proof.
  assert (JI : forall ts, Forall (fun t => qW builtin_widths t <> None) ts -> exists ps, unit_init ts = Ok ps /\ length ps = length ts).
  { intros ts _. exists (map (fun _ => tt) ts). split; [reflexivity|now rewrite map_length]. }
  assert (PL : plain read3 "p3d" /\ plain read3 "spherical") by (split; apply plain_by_reading; reflexivity).
  destruct (C70_soft builtin_widths print3 print_z read3 unit_init (fun _ => true) (fun _ => false) (fun s => Ok s) (fun _ j => j) (fun j => j) num3d (fun _ => True) faithful3 JI)
    with (o := demo_opts) (s := bdemo) as (s1 & E & H); auto.
  - repeat split.
  - exact demo_writable.
  - exact bdemo_saveable.
  - exact bdemo_attachable.
  - exists s1. split; [exact E|]. apply H. exact bdemo_softly.
Qed.

(** ** Example: a program that builds generators for two systems, changes its dictionaries, and builds again *)
Definition bsegs : xsys unit :=
  mkSys [-1]%Z [xlink vzero qone [xg_geom xcross]] ["free"] (repeat (1/10)%R 6) (repeat 0%R 6) (repeat 3%R 6) [1;0;0;0;0;0;0]%R (1/100)%R
    [(0%Z, xcross)] [0; 0; 981/100]%R "semi_implicit_euler" 0 ["base"] (Some "my segments") [None].
Notation bdict := (list (string * list string)).
Definition bopts : @options unit unit := mkOpts 0 1 1 1 1 1 1 2 true false false true false true (Some bsegs) tt.
Definition bheap : list (@obj (list string) nat) := [OConfigs [7]; ODict []; ODict [("overwrite_q", ["base"])]].
Definition brcmg := rcmg builtin_widths print3 print_z read3 unit_init (fun _ => true) (fun _ => false) (fun s => Ok s) (fun _ j => j) (fun j => j)
  (fun l : list string => l) (fun _ : nat => Ok true) (fun _ : bdict => Ok demo_opts) (X := unit).
Definition brun := run_program builtin_widths print3 print_z read3 unit_init (fun _ => true) (fun _ => false) (fun s => Ok s) (fun _ j => j) (fun j => j)
  (fun l : list string => l) (fun _ : nat => Ok true) (fun _ : bdict => Ok demo_opts) (X := unit).
Definition ballowed := allowed builtin_widths print3 print_z read3 unit_init (fun _ => true) (fun _ => false) (fun s => Ok s) (fun _ j => j) (fun j => j)
  (fun l : list string => l) (fun _ : nat => Ok true) (fun _ : bdict => Ok demo_opts) (X := unit).

Lemma btyped : typed bheap bopts.
Proof. split; [exists [7]; reflexivity|]. unfold addresses, bopts. cbn [o_imu_kw o_axes_kw o_incl_kw o_full_kw o_hz_kw o_art_kw o_dyn_kw]. repeat apply Forall_cons; try apply Forall_nil; cbn; eauto. Qed.
Lemma bsound : Forall (sound builtin_widths) [bdemo; bdemo].
Proof. repeat apply Forall_cons; try apply Forall_nil; exact (pd_wf _ _ _ bdemo_parsed). Qed.
(** All demands on the options and systems are met. *)
Example C70_accepts_nonvacuous : exists h cs, brcmg bheap bopts [bdemo; bdemo] = (h, Ok cs).
Proof.
  refine (proj2 (C70_accepts builtin_widths print3 print_z read3 unit_init (fun _ => true) (fun _ => false) (fun s => Ok s) (fun _ j => j) (fun j => j)
    (fun l : list string => l) (fun _ : nat => Ok true) (fun _ : bdict => Ok demo_opts) bheap bopts [bdemo; bdemo] btyped bsound) _).
  exists bsegs, [7]. split; [left; reflexivity|]. split; [reflexivity|]. split; [apply Forall_cons; [reflexivity|apply Forall_nil]|].
  assert (A : acceptable builtin_widths
    (soft builtin_widths print3 print_z read3 unit_init (fun _ => true) (fun _ => false) (fun s => Ok s) (fun _ j => j) (fun j => j) (fun _ : bdict => Ok demo_opts))
    (segments builtin_widths) bheap bopts bdemo bsegs).
  { split; [|split].
    - intros _. exists bsegs. left. split; reflexivity.
    - discriminate.
    - intros _. split; [reflexivity|]. destruct C70_soft_nonvacuous as (s1 & E & SI). exists [], [("overwrite_q", ["base"])], s1.
      split; [reflexivity|]. split; [reflexivity|]. split; [exists demo_opts; split; [reflexivity|exact E]|]. split; [exact SI|].
      split; [intros (v & [Q|[]]); discriminate|intros (v & [])]. }
  repeat apply Forall_cons; try apply Forall_nil; exact A.
Qed.
(** A history: two generators are built, the dictionary for simulations is emptied, the list of configurations replaced, and generators are built again. *)
Definition bprogram : list (@event unit (list string) nat unit) :=
  [New (OConfigs [7]); New (ODict []); New (ODict [("overwrite_q", ["base"])]); Build bopts [bdemo; bdemo]; Change 2 (ODict []);
   Change 0 (OConfigs [8; 9]); Build bopts [bdemo]].
Example C70_history_nonvacuous : ballowed (mkSt [] [] []) bprogram /\
  exists cs, nth_error (st_built (brun (mkSt [] [] []) bprogram)) 0 = Some (Ok cs) /\ length cs = 2.
Proof.
  destruct C70_accepts_nonvacuous as (h & cs & E).
  assert (K : keeps bheap h).
  { exact (rcmg_keeps builtin_widths print3 print_z read3 unit_init (fun _ => true) (fun _ => false) (fun s => Ok s) (fun _ j => j) (fun j => j)
    (fun l : list string => l) (fun _ : nat => Ok true) (fun _ : bdict => Ok demo_opts) bheap bopts [bdemo; bdemo] h (Ok cs) E). }
  assert (G0 : nth_error h 0 = Some (OConfigs [7])) by (exact (keeps_some _ _ _ _ K (eq_refl : nth_error bheap 0 = Some (OConfigs [7])))).
  assert (G1 : nth_error h 1 = Some (ODict [])) by (exact (keeps_some _ _ _ _ K (eq_refl : nth_error bheap 1 = Some (ODict [])))).
  assert (G2 : nth_error h 2 = Some (ODict [("overwrite_q", ["base"])])) by (exact (keeps_some _ _ _ _ K (eq_refl : nth_error bheap 2 = Some (ODict [("overwrite_q", ["base"])])))).
  destruct (C70_as_given builtin_widths print3 print_z read3 unit_init (fun _ => true) (fun _ => false) (fun s => Ok s) (fun _ j => j) (fun j => j)
    (fun l : list string => l) (fun _ : nat => Ok true) (fun _ : bdict => Ok demo_opts) bheap bopts [bdemo; bdemo] h cs btyped bsound E) as (ml & cfg & _ & _ & F2).
  apply Forall2_length in F2.
  assert (OW : forall a, In a [0;1;2]%nat -> In a [2;1;0]%nat) by (cbn; intuition).
  assert (TA : Forall (fun a => In a [2;1;0]%nat) (addresses bopts)).
  { unfold addresses, bopts. cbn [o_imu_kw o_axes_kw o_incl_kw o_full_kw o_hz_kw o_art_kw o_dyn_kw]. repeat apply Forall_cons; try apply Forall_nil; cbn; auto. }
  split.
  - unfold ballowed, bprogram. cbn [allowed permitted]. cbn [step st_heap st_own st_built length app].
    split; [exact Logic.I|]. split; [exact Logic.I|]. split; [exact Logic.I|].
    split; [split; [cbn; auto|]; split; [exact TA|exact btyped]|].
    fold bheap. fold brcmg. rewrite E. cbn [step st_heap st_own st_built].
    split; [split; [cbn; auto|]; exists (ODict [("overwrite_q", ["base"])]); split; [exact G2|exact Logic.I]|].
    destruct h as [|x0 [|x1 [|x2 h]]]; try discriminate. cbn in G0, G1, G2. injection G0 as ->. injection G1 as ->. injection G2 as ->. cbn [put_obj].
    split; [split; [cbn; auto|]; exists (OConfigs [7]); split; [reflexivity|exact Logic.I]|].
    split; [split; [cbn; auto|]; split; [exact TA|]|exact Logic.I]. split; [exists [8; 9]; reflexivity|].
    unfold addresses, bopts. cbn [o_imu_kw o_axes_kw o_incl_kw o_full_kw o_hz_kw o_art_kw o_dyn_kw]. repeat apply Forall_cons; try apply Forall_nil; cbn; eauto.
  - exists cs. split; [|symmetry; exact F2]. unfold brun, bprogram, run_program. cbn [fold_left]. cbn [step st_heap st_own st_built length app].
    fold bheap. fold brcmg. rewrite E. cbn [step st_heap st_own st_built app]. destruct (brcmg _ bopts [bdemo]) as [h' r]. reflexivity.
Qed.
