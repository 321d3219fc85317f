(** * C68: a case in which everything is asked for: the arm of the demo system wears an IMU. *)
From Coq Require Import Reals Lra Lia ZArith Bool String List.
From Verif Require Import Prelude M_Sys M_Math M_Geom M_Joint M_Kin M_Random M_Draw M_Setup M_Compose M_Target M_Sens M_Rcmg S_Sys S_Kin S_Layout P_Sys P_Scan P_Kin P_Delete P_Delete2 C_Kin C_Delete C_Target P_Layout P_Run M_Pd X_Demo C_Sens C_Dynsim S_Random S_Draw S_Stream P_Stream C_Draw C_Stream C_Layout.
Import ListNotations.
Local Open Scope R_scope.

Definition demo_imu : System R (plink (params unit)) geometry unit :=
  mkSys (link_parents demo) (links demo) (link_types demo) (link_damping demo) (link_armature demo) (link_spring_stiffness demo) (link_spring_zeropoint demo)
    (sys_dt demo) (geoms demo) (gravity demo) (integration_method demo) (mass_mat_iters demo) ["base"; "arm"; "imu1"; "tool"]%string (model_name demo) (omc demo).
Lemma demo_imu_wf : wf builtin_widths demo_imu.
Proof.
  destruct demo_wf. constructor; try assumption; try reflexivity.
  cbn [demo_imu link_names]. repeat constructor; cbn [In]; intuition discriminate.
Qed.
Lemma demo_imu_parsed : parsed builtin_widths phys_ops demo_imu.
Proof.
  destruct demo_parsed as [_ A B (vs & VS & F)]. constructor; [exact demo_imu_wf|exact A|exact B|].
  exists (map (fun i => mkView
       (nth i (link_names demo_imu) ""%string) (nth i (link_types demo) ""%string) (nth i (links demo) (demo_link vzero qone [])) tt
       (cut [6; 1; 3; 1]%nat (link_damping demo) i) (cut [6; 1; 3; 1]%nat (link_armature demo) i) (cut [6; 1; 3; 1]%nat (link_spring_stiffness demo) i)
       (cut [7; 1; 4; 1]%nat (link_spring_zeropoint demo) i)) [0; 1; 2; 3]%nat).
  split.
  + split; [reflexivity|]. split; [reflexivity|]. split; [reflexivity|]. split; [reflexivity|]. split; [reflexivity|].
    exists [7; 1; 4; 1]%nat, [6; 1; 3; 1]%nat. split; [repeat apply Forall2_cons; try reflexivity; apply Forall2_nil|].
    split; [repeat apply Forall2_cons; try reflexivity; apply Forall2_nil|]. repeat (split; [split; reflexivity|]). split; reflexivity.
  + assert (POK : forall p r g, M_Sys.pos_ok phys_ops (demo_link p r g) = true).
    { intros p r g. cbn [phys_ops M_Sys.pos_ok demo_link pl_pmin pl_pmax vzero vx vy vz]. unfold Rleb. destruct (Rle_dec 0 1); [reflexivity|lra]. }
    repeat apply Forall_cons; [..|apply Forall_nil]; (split; [apply POK|]); cbn [v_type v_zeropoint nth demo link_types link_spring_zeropoint]; intros G; try discriminate G.
    * exact (ol_one _ (@phys_laws (params unit)) 3).
    * exact (ol_one _ (@phys_laws (params unit)) 3).
Qed.
Lemma demo_imu_leaf : forall i n j, nth_error (link_names demo_imu) i = Some n -> is_imu_name n = true -> nth_error (link_parents demo_imu) j <> Some (Z.of_nat i).
Proof.
  intros [|[|[|[|i]]]] n j Hi F; cbn in Hi; try (injection Hi as <-; try discriminate F); [|destruct i; discriminate].
  destruct j as [|[|[|[|j]]]]; cbn; try discriminate. destruct j; discriminate.
Qed.
Lemma demo_imu_names : exists s0 att, make_sys_noimu builtin_widths phys_ops demo_imu None = Ok (s0, att) /\ link_names s0 = ["base"; "arm"; "tool"]%string /\ wf builtin_widths s0.
Proof.
  destruct (C08_noimu_total builtin_widths phys_ops phys_laws demo_imu) as (s0 & att & E).
  - exact demo_imu_parsed.
  - intros [|[|[|[|i]]]] n Hi F; cbn in Hi; try (injection Hi as <-; try discriminate F); [|destruct i; discriminate]. exists 1%nat. reflexivity.
  - intros i j n m Hi Fi Hj Fj N. exfalso. apply N.
    destruct i as [|[|[|[|i]]]]; cbn in Hi; try (injection Hi as <-; try discriminate Fi); [|destruct i; discriminate].
    destruct j as [|[|[|[|j]]]]; cbn in Hj; try (injection Hj as <-; try discriminate Fj); [|destruct j; discriminate]. reflexivity.
  - cbn. lia.
  - exists s0, att. split; [exact E|]. split.
    + rewrite (C68_segments builtin_widths phys_ops phys_laws demo_imu s0 att demo_imu_parsed demo_imu_leaf E). reflexivity.
    + unfold make_sys_noimu in E. cbn zeta in E. apply bind_Ok in E. destruct E as (att0 & _ & E). apply bind_Ok in E. destruct E as (s1 & E1 & E). injection E as <- _.
      destruct (delete_list_restricts builtin_widths phys_ops phys_laws _ demo_imu _ true demo_imu_parsed E1) as (_ & PS & _). exact (pd_wf _ _ _ PS).
Qed.

(** acceleration and angular velocity without errors *)
Definition plain_imu : imu_kwargs := mkIK false None None None false None None false None true false 1.
Definition ask_all {K} : gen_opts (K := K) (P := unit) (O := unit) :=
  mkGO [usual_config 60 (fun _ => 0)] None false false None false None [] None (Some plain_imu) (Some (mkAK false true true)) true None (Some true) true.
Lemma plain_ok {K} (g : rng K) gauss k xs grav dt : (3 <= length xs)%nat -> exists m, imu_keyed g gauss k plain_imu xs grav dt = Ok m.
Proof.
  intros L. unfold imu_keyed, imu, plain_imu. cbn [k_s2s k_has_mag k_noisy k_quasi k_pos k_rot k_second k_acc_n k_smooth k_delay k_natural o_s2s o_quasi o_pos_cutoff o_rot_cutoff o_acc_n o_second o_mag o_smooth o_delay o_noise o_natural bind].
  destruct (C34_reading (zipwith Tr (map t_pos xs) (map t_rot xs)) grav dt 1) as (a & -> & _); [lia|rewrite zipwith_length, !map_length by (now rewrite !map_length); lia|]. cbn [bind].
  destruct (C35_reading (map t_rot xs) dt true) as (b & -> & _); [rewrite map_length; unfold gyro_step; lia|]. cbn [bind]. eauto.
Qed.

(** The generator yields data for every recording of three time steps or more. *)
Lemma demo_imu_context {K} (g : rng K) gauss rr_axis hz key q : (forall typ p, exists a, rr_axis typ p = Ok a) -> (3 <= length q)%nat -> (forall row, In row q -> length row = 13%nat) ->
  exists ml stages X y e, parsed builtin_widths phys_ops demo_imu /\ wf builtin_widths ml /\ link_names ml = ["base"; "arm"; "tool"]%string /\
    (forall s0 att, make_sys_noimu builtin_widths phys_ops demo_imu None = Ok (s0, att) -> link_names ml = link_names s0) /\
    (forall n, In n (link_names ml) -> ~ numeral (num_links ml) n) /\
    sys_noimu builtin_widths phys_ops (ask_all (K := K)) demo_imu = Ok (Some ml) /\
    finalize_pipe builtin_widths phys_ops gauss rr_axis ask_all (Some ml) = Ok stages /\
    context builtin_widths builtin_table g stages hz key q demo_imu = Ok ((X, y), e).
Proof.
  intros HR L LR. destruct demo_imu_names as (ml & att & E & NM & WF).
  assert (EP : exists stages, finalize_pipe builtin_widths phys_ops gauss rr_axis (ask_all (K := K)) (Some ml) = Ok stages) by (unfold finalize_pipe; cbn; eauto). destruct EP as (stages & EP).
  assert (NUM : forall n, In n (link_names ml) -> ~ numeral (num_links ml) n).
  { rewrite NM. intros n Hn (j & Lj & ->). assert (LL : num_links ml = 3%nat) by (unfold num_links; rewrite <- (wf_names _ _ WF), NM; reflexivity). rewrite LL in Lj.
    destruct j as [|[|[|j]]]; [..|lia]; cbn [In] in Hn; intuition discriminate. }
  destruct (C68_total (K := K) (O := unit) builtin_widths phys_ops gauss phys_laws builtin_table rr_axis ask_all (Some ml) stages hz g key q demo_imu ml 13) as (r & CT).
  - exact demo_imu_parsed.
  - exact WF.
  - reflexivity.
  - reflexivity.
  - now right.
  - intros _. exists ml, att. now split.
  - rewrite NM. cbn. tauto.
  - rewrite NM. cbn. intuition discriminate.
  - intros _. exact NUM.
  - exact (demo_known).
  - reflexivity.
  - exact LR.
  - intros kw k x i Hk LX. injection Hk as <-. apply plain_ok. unfold link_traj. rewrite map_length, LX. exact L.
  - intros kw k x Hk LX _ _. injection Hk as <-. unfold joint_axes, joint_axes_from_sys. cbn [a_from_sys a_noisy].
    destruct (C_Stream.mapM_exists (fun tl => axis_of rr_axis (fst tl) (snd tl)) (combine (link_types ml) (links ml))) as (axes & ->).
    + intros [typ l] _. unfold axis_of. cbn [fst snd]. destruct (String.eqb typ "rx"); [eauto|]. destruct (String.eqb typ "ry"); [eauto|]. destruct (String.eqb typ "rz"); [eauto|].
      destruct (String.eqb typ "rr"); [apply HR|]. destruct (String.eqb (substring 0 6 typ) "rr_imp"); [apply HR|eauto].
    + cbn [bind]. eauto.
  - exact EP.
  - destruct r as [[X y] e]. exists ml, stages, X, y, e. split; [exact demo_imu_parsed|]. split; [exact WF|]. split; [exact NM|]. split; [intros s0 att' E'; rewrite E in E'; injection E' as <- <-; reflexivity|].
    split; [exact NUM|]. split; [|split; [exact EP|exact CT]]. unfold sys_noimu. cbn [ask_all go_axes go_relpose go_rootincl orb]. change (0 <? length (findall_imus demo_imu))%nat with true. cbn iota. rewrite E. reflexivity.
Qed.

Example C68_sequence_nonvacuous : exists ml stages X y e, parsed builtin_widths phys_ops demo_imu /\ wf builtin_widths ml /\ link_names ml = ["base"; "arm"; "tool"]%string /\
    (forall s0 att, make_sys_noimu builtin_widths phys_ops demo_imu None = Ok (s0, att) -> link_names ml = link_names s0) /\
    (forall n, In n (link_names ml) -> ~ numeral (num_links ml) n) /\
    sys_noimu builtin_widths phys_ops (ask_all (K := path)) demo_imu = Ok (Some ml) /\
    finalize_pipe builtin_widths phys_ops (fun x => x) (fun _ _ => Ok vzero) ask_all (Some ml) = Ok stages /\
    context builtin_widths builtin_table half stages true [] [demo_q; demo_q; demo_q] demo_imu = Ok ((X, y), e).
Proof.
  apply demo_imu_context; [eauto|cbn; lia|]. intros row [<-|[<-|[<-|[]]]]; reflexivity.
Qed.
(** A minute of motion, drawn at random: the hypotheses of C68_generator are met. *)
Example C68_generator_nonvacuous : exists ml out,
  (forall k s', setup_all builtin_widths phys_ops (fun _ _ => None) tt half ask_all k demo_imu = Ok s' -> parsed builtin_widths phys_ops s' /\ link_names s' = link_names demo_imu /\ link_parents s' = link_parents demo_imu) /\
  sys_noimu builtin_widths phys_ops (ask_all (K := path)) demo_imu = Ok (Some ml) /\ link_names ml = ["base"; "arm"; "tool"]%string /\
  ~ In "dt"%string (link_names demo_imu) /\ (forall n, In n (link_names ml) -> ~ numeral (num_links ml) n) /\
  gen builtin_widths phys_ops builtin_table (fun g => builtin_draw g (fun _ => Err EValue)) (fun _ => None) (fun _ _ => None) tt (fun x => x) (fun _ _ => Ok vzero) ask_all demo_imu demo_imu half [] = Ok out.
Proof.
  assert (S0 : forall k, setup_all builtin_widths phys_ops (fun _ _ => None) tt half ask_all k demo_imu = Ok demo_imu) by reflexivity.
  destruct (C65_valid half half_fair (fun _ => Err EValue) (fun _ => None) demo_imu (r_split half [] 2 0) (usual_config 60 (fun _ => 0)) None (60 * 100)) as (q & EQ & LQ & HQ).
  - exact demo_imu_wf.
  - cbn. lia.
  - intros i typ l A B. exact (proj2 (demo_known i typ l A B)).
  - cbn. lra.
  - intros typ It. split; [apply usual_config_ok; lra|]. unfold config_for. cbn [usual_config c_T demo_imu demo sys_dt].
    cbn [demo_imu demo link_types In] in It. assert (NF : String.eqb typ "frozen" = false) by (destruct It as [<-|[<-|[<-|[<-|[]]]]]; reflexivity). unfold samples. rewrite NF, mult_INR.
    replace (INR 60) with 60 by (cbn [INR]; lra). replace (INR 100) with 100 by (cbn [INR]; lra). split; lra.
  - assert (RQ : forall row, In row q -> length row = 13%nat).
    { intros row IR. destruct (In_nth _ _ [] IR) as (j & Hj & <-). rewrite LQ in Hj. destruct (HQ j Hj) as [X _]. change (Ok 13%nat = Ok (length (nth j q []))) in X. now injection X as <-. }
    destruct (demo_imu_context half (fun x => x) (fun _ _ => Ok vzero) false (r_split half (key_of half (r_split half [] 2 0) 4) 1 0) q) as (ml & stages & X & y & e & _ & _ & NM & _ & NUM & SN & EP & EC); [eauto|rewrite LQ; lia|exact RQ|].
    exists ml. eexists. split; [intros k s' E; rewrite S0 in E; injection E as <-; split; [exact demo_imu_parsed|split; reflexivity]|]. split; [exact SN|]. split; [exact NM|]. split; [cbn; intuition discriminate|]. split; [exact NUM|].
    unfold gen. rewrite SN. cbn [bind go_configs ask_all length seq mapM Nat.add]. rewrite S0. cbn [bind]. unfold pick_rate. cbn [go_rates ask_all bind combine draw_all].
    cbn [num_links demo_imu demo link_parents length] in EQ. rewrite EQ. cbn [bind fst snd].
    assert (SS : same_shape [q] = true).
    { unfold same_shape. assert (R0 : length (nth 0 q []) = 13%nat) by (apply RQ, nth_In; rewrite LQ; lia). rewrite R0. cbn [forallb]. rewrite Nat.eqb_refl, andb_true_r. apply forallb_forall. intros row Hr. rewrite (RQ row Hr). reflexivity. }
    rewrite SS. cbn [assert_ bind]. rewrite EP. cbn [bind combine mapM fst snd]. rewrite EC. reflexivity.
Qed.
