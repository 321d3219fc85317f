(** * C68: what training data look like. *)
From Coq Require Import Reals Lra Lia ZArith Bool String List.
From Verif Require Import Prelude M_Sys M_Math M_Geom M_Joint M_Kin M_Random M_Draw M_Setup M_Compose M_Target M_Sens M_Rcmg S_Sys S_Kin S_Layout P_Sys P_Scan P_Kin P_Delete P_Delete2 C_Kin C_Delete C_Target P_Layout.
Import ListNotations.
Local Open Scope R_scope.

(** ** Names of features *)
Lemma mapM_fst {V V'} (f : string * V -> result (string * V')) : (forall m m', f m = Ok m' -> fst m' = fst m) -> forall l l', mapM f l = Ok l' -> map fst l' = map fst l.
Proof.
  intros H. induction l as [|m l IH]; intros l' E; cbn [mapM] in E; [now injection E as <-|]. apply bind_Ok in E. destruct E as (m' & E1 & E). apply bind_Ok in E. destruct E as (r & E2 & E).
  injection E as <-. cbn [map]. f_equal; [now apply H|now apply IH].
Qed.
Lemma imu_names o xs gr dt m : imu o xs gr dt = Ok m -> map fst m = imu_features true (match o_mag o with Some _ => true | None => false end).
Proof.
  intros E. unfold imu in E. cbn zeta in E. apply bind_Ok in E. destruct E as (pos & _ & E). apply bind_Ok in E. destruct E as (pos' & _ & E). apply bind_Ok in E. destruct E as (acc & _ & E). apply bind_Ok in E. destruct E as (gyr & _ & E).
  apply bind_Ok in E. destruct E as (ms & E1 & E). apply bind_Ok in E. destruct E as (ms' & E2 & E).
  assert (A : map fst ms = imu_features true (match o_mag o with Some _ => true | None => false end)).
  { destruct (o_smooth o); [|injection E1 as <-; now destruct (o_mag o)]. apply mapM_fst in E1; [rewrite E1; now destruct (o_mag o)|]. intros a b H. apply bind_Ok in H. destruct H as (? & _ & H). now injection H as <-. }
  assert (B : map fst ms' = map fst ms).
  { destruct (o_noise o); [|injection E2 as <-; now rewrite map_map]. apply mapM_fst in E2; [rewrite E2; now rewrite map_map|]. intros a b H. apply bind_Ok in H. destruct H as (? & _ & H). now injection H as <-. }
  injection E as <-. destruct (o_natural o); [rewrite map_map|]; exact (eq_trans B A).
Qed.

(** ** The last IMU of a segment *)
Lemma inverse_spec (att : list (string * string)) seg :
  let inv := fold_left (fun d kv => dset String.eqb d (snd kv) (fst kv)) att [] in
  match dget String.eqb inv seg with
  | Some n => exists a b, att = a ++ (n, seg) :: b /\ ~ In seg (map snd b)
  | None => ~ In seg (map snd att)
  end.
Proof.
  cbn zeta. induction att as [|[n p] att IH] using rev_ind; [intros []|]. rewrite fold_left_app. cbn [fold_left fst snd].
  destruct (string_dec seg p) as [->|NE].
  - rewrite dget_dset_same by apply String.eqb_eq. exists att, []. split; [reflexivity|intros []].
  - rewrite dget_dset_other by (apply String.eqb_eq || congruence). destruct (dget String.eqb _ seg) as [n'|].
    + destruct IH as (a & b & -> & N). exists a, (b ++ [(n, p)]). split; [now rewrite <- app_assoc|]. rewrite map_app, in_app_iff. intros [X|[X|[]]]; [auto|]. cbn [snd] in X. congruence.
    + rewrite map_app, in_app_iff. intros [X|[X|[]]]; [auto|]. cbn [snd] in X. congruence.
Qed.
Lemma app_unique (a b a' b' : list string) n : ~ In n a -> ~ In n a' -> a ++ n :: b = a' ++ n :: b' -> a = a' /\ b = b'.
Proof.
  revert a'. induction a as [|x a IH]; intros [|x' a'] N N' E; cbn [app] in E.
  - injection E as ->. auto.
  - injection E as -> E. destruct N'. now left.
  - injection E as -> E. destruct N. now left.
  - injection E as -> E. destruct (IH a') as [-> ->]; auto; intros H; [apply N|apply N']; now right.
Qed.
Lemma filter_later (f : string -> bool) l a n b i i' n' : NoDup l -> filter f l = a ++ n :: b -> nth_error l i = Some n -> nth_error l i' = Some n' -> (i < i')%nat -> f n' = true -> In n' b.
Proof.
  intros ND E Hi Hi' L F. assert (FN : f n = true). { assert (X : In n (filter f l)) by (rewrite E; apply in_elt). now apply filter_In in X. }
  destruct (nth_error_split _ _ Hi) as (l1 & l2 & -> & L1). rewrite filter_app in E. cbn [filter] in E. rewrite FN in E. pose proof (NoDup_remove_2 _ _ _ ND) as NR.
  assert (NDf : NoDup (filter f l1 ++ n :: filter f l2)). { pose proof (NoDup_filter f ND) as X. rewrite filter_app in X. cbn [filter] in X. now rewrite FN in X. }
  destruct (app_unique (filter f l1) (filter f l2) a b n) as [_ <-].
  - intros X. apply filter_In in X. apply NR, in_app_iff. now left.
  - rewrite E in NDf. apply NoDup_remove_2 in NDf. intros X. apply NDf, in_app_iff. now left.
  - exact E.
  - apply filter_In. split; [|exact F]. rewrite nth_error_app2 in Hi' by lia. replace (i' - length l1)%nat with (S (i' - length l1 - 1)) in Hi' by lia. eapply nth_error_In. exact Hi'.
Qed.

Section Layout.
Context {K P O : Type}.
Notation rsys := (System R (plink (params P)) geometry O).
Variable W : widths.
Variable ops : parse_ops R (plink (params P)) geometry.
Variable gauss : R -> R.
Hypothesis LAWS : ops_laws ops.

Lemma imu_loop_layout (g : rng K) kw x (s : rsys) att segs : forall k X X', NoDup segs -> (forall n, In n segs -> ~ In n (map fst X)) -> imu_loop gauss g kw x s att k segs X = Ok X' ->
  exists vs, X' = X ++ combine segs vs /\ length vs = length segs /\
  forall i seg, nth_error segs i = Some seg -> match dget String.eqb att seg with
    | Some n => exists k j m, name_to_idx s n = Ok j /\ imu_keyed g gauss k kw (link_traj x j) (grav3 (gravity s)) (sys_dt s) = Ok m /\ nth_error vs i = Some (VDict (map (fun sv => (fst sv, ASeries (snd sv))) m))
    | None => let z := ASeries (repeat vzero (length (tr_rows x))) in nth_error vs i = Some (VDict [("acc"%string, z); ("gyr"%string, z)])
    end.
Proof.
  induction segs as [|seg r IH]; intros k X X' ND NI E; cbn [imu_loop] in E.
  - injection E as <-. exists []. split; [now rewrite app_nil_r|]. split; [reflexivity|]. intros [|i] seg H; discriminate.
  - apply NoDup_cons_iff in ND. destruct ND as [NR ND].
    assert (STEP : forall v k', imu_loop gauss g kw x s att k' r (dset String.eqb X seg v) = Ok X' ->
      exists vs, X' = X ++ combine (seg :: r) (v :: vs) /\ length vs = length r /\
      forall i sg, nth_error r i = Some sg -> match dget String.eqb att sg with
        | Some n => exists k j m, name_to_idx s n = Ok j /\ imu_keyed g gauss k kw (link_traj x j) (grav3 (gravity s)) (sys_dt s) = Ok m /\ nth_error vs i = Some (VDict (map (fun sv => (fst sv, ASeries (snd sv))) m))
        | None => let z := ASeries (repeat vzero (length (tr_rows x))) in nth_error vs i = Some (VDict [("acc"%string, z); ("gyr"%string, z)])
        end).
    { intros v k' E'. rewrite dset_new in E' by (apply NI; now left). 
      assert (NI' : forall n, In n r -> ~ In n (map fst (X ++ [(seg, v)]))).
      { intros n Hn. rewrite map_app, in_app_iff. intros [Q|[<-|[]]]; [|contradiction]. apply (NI n); [now right|exact Q]. }
      destruct (IH k' _ _ ND NI' E') as (vs & -> & L & H).
      exists vs. split; [cbn [combine]; now rewrite <- app_assoc|]. split; [exact L|exact H]. }
    destruct (dget String.eqb att seg) as [n|] eqn:DA.
    + apply bind_Ok in E. destruct E as (j & E1 & E). apply bind_Ok in E. destruct E as (m & E2 & E). destruct (STEP _ _ E) as (vs & -> & L & H).
      eexists. split; [reflexivity|]. split; [cbn [length]; now rewrite L|]. intros [|i] sg Hi; cbn [nth_error] in *; [|exact (H i sg Hi)]. injection Hi as <-. rewrite DA. do 3 eexists. split; [exact E1|]. split; [exact E2|reflexivity].
    + destruct (STEP _ _ E) as (vs & -> & L & H).
      eexists. split; [reflexivity|]. split; [cbn [length]; now rewrite L|]. intros [|i] sg Hi; cbn [nth_error] in *; [|exact (H i sg Hi)]. injection Hi as <-. rewrite DA. reflexivity.
Qed.
Lemma combine_keys {V} (ks : list string) : forall (vs : list V), length vs = length ks -> map fst (combine ks vs) = ks.
Proof. induction ks as [|k ks IH]; intros [|v vs] L; try discriminate; [reflexivity|]. cbn [combine map fst]. f_equal. apply IH. now injection L. Qed.
Lemma combine_get {V} (ks : list string) : NoDup ks -> forall (vs : list V) i k, nth_error ks i = Some k -> length vs = length ks -> dget String.eqb (combine ks vs) k = nth_error vs i.
Proof.
  induction ks as [|a r IH]; intros ND [|u us] [|i] k Hi L; try discriminate; cbn [combine dget nth_error] in *.
  - injection Hi as ->. now rewrite String.eqb_refl.
  - apply NoDup_cons_iff in ND. destruct ND as [NA ND]. destruct (String.eqb_spec k a) as [->|NE]; [destruct NA; eapply nth_error_In; eauto|]. apply IH; auto.
Qed.

(** C68: sensors.  Every segment of the system without IMUs has an accelerometer and a gyroscope.  They are those of the
    IMU attached to it; of several, the last one.  Segments without IMU have zeros. *)
Theorem C68_sensors (g : rng K) key x (s : rsys) kw X : parsed W ops s -> imu_data W ops gauss g key x s kw = Ok X ->
  exists s0 att, make_sys_noimu W ops s None = Ok (s0, att) /\ map fst X = link_names s0 /\ NoDup (link_names s0) /\
  forall seg, In seg (link_names s0) ->
    (forall n, last_worn s n seg -> exists k i m, nth_error (link_names s) i = Some n /\
       imu_keyed g gauss k kw (link_traj x i) (grav3 (gravity s)) (sys_dt s) = Ok m /\ map fst m = imu_features true (k_has_mag kw) /\
       dget String.eqb X seg = Some (VDict (map (fun sv => (fst sv, ASeries (snd sv))) m))) /\
    (bare s seg -> let zeros := ASeries (repeat vzero (length (tr_rows x))) in dget String.eqb X seg = Some (VDict [("acc"%string, zeros); ("gyr"%string, zeros)])) /\
    (bare s seg \/ exists n, last_worn s n seg).
Proof.
  intros PD E. unfold imu_data in E. apply bind_Ok in E. destruct E as ([s0 att] & EN & E). cbn [fst snd] in E. exists s0, att. split; [exact EN|].
  destruct (C08_noimu_partial W ops LAWS s s0 att PD EN) as (_ & _ & AF & AP).
  assert (ND : NoDup (link_names s0)).
  { unfold make_sys_noimu in EN. cbn zeta in EN. apply bind_Ok in EN. destruct EN as (att0 & _ & H). apply bind_Ok in H. destruct H as (s1 & H1 & H). injection H as <- <-.
    destruct (delete_list_restricts W ops LAWS _ s _ true PD H1) as (keep & PD' & _). apply (wf_unique _ _ (pd_wf _ _ _ PD')). }
  pose proof (wf_unique _ _ (pd_wf _ _ _ PD)) as NDs.
  apply imu_loop_layout in E; [|exact ND|intros n _ []]. destruct E as (vs & -> & LV & H). cbn [app]. rewrite combine_keys by exact LV. split; [reflexivity|]. split; [exact ND|].
  assert (UI : forall i i' n, nth_error (link_names s) i = Some n -> nth_error (link_names s) i' = Some n -> i = i').
  { intros i i' n A B. apply (proj1 (NoDup_nth_error (link_names s)) NDs); [apply nth_error_Some; congruence|congruence]. }
  assert (WA : forall i n seg, worn_at s i n seg -> In (n, seg) att).
  { intros i n seg (Hi & F & j & Hp & Hj). assert (I1 : In n (map fst att)) by (rewrite AF; apply filter_In; split; [eapply nth_error_In; exact Hi|exact F]).
    apply in_map_iff in I1. destruct I1 as ([n1 p] & E1 & I1). cbn [fst] in E1. subst n1. destruct (AP n p I1) as (i1 & j1 & A & B & C). rewrite (UI _ _ _ A Hi) in B.
    assert (j1 = j) by (apply Nat2Z.inj; congruence). subst. rewrite Hj in C. injection C as <-. exact I1. }
  assert (AW : forall n seg, In (n, seg) att -> exists i, worn_at s i n seg).
  { intros n seg I1. destruct (AP n seg I1) as (i & j & A & B & C). exists i. split; [exact A|]. split; [|eauto]. assert (I2 : In n (map fst att)) by (apply in_map_iff; exists (n, seg); auto). rewrite AF in I2. now apply filter_In in I2. }
  assert (LAST : forall seg a n b, att = a ++ (n, seg) :: b -> ~ In seg (map snd b) -> last_worn s n seg).
  { intros seg a n b -> NB. destruct (AW n seg (in_elt _ _ _)) as (i & WI). exists i. split; [exact WI|]. intros i' n' L WI'. rewrite map_app in AF. cbn [map fst] in AF.
    assert (IB : In n' (map fst b)). { eapply filter_later; [exact NDs|symmetry; exact AF|apply WI|apply WI'|exact L|apply WI']. }
    apply in_map_iff in IB. destruct IB as ([n1 p] & E1 & IB). cbn [fst] in E1. subst n1. destruct (AW n' p) as (i2 & WI2); [apply in_app_iff; right; now right|].
    destruct WI' as (A1 & _ & j1 & A3 & A4). destruct WI2 as (B1 & _ & j2 & B3 & B4). rewrite (UI _ _ _ B1 A1) in B3. assert (j1 = j2) by (apply Nat2Z.inj; congruence). subst. rewrite A4 in B4. injection B4 as <-.
    apply NB, in_map_iff. exists (n', seg). auto. }
  intros seg IS. apply In_nth_error in IS. destruct IS as (i & Hi). specialize (H i seg Hi). rewrite (combine_get _ ND vs i seg Hi LV). pose proof (inverse_spec att seg) as IV. cbn zeta in IV.
  destruct (dget String.eqb _ seg) as [n|] in H, IV.
  - destruct IV as (a & b & EA & NB). pose proof (LAST seg a n b EA NB) as LW. split; [|split].
    + intros n' LW'. assert (n' = n) as ->.
      { destruct LW as (i1 & W1 & M1), LW' as (i2 & W2 & M2). destruct (Nat.lt_total i1 i2) as [L|[->|L]]; [destruct (M1 _ _ L W2)| |destruct (M2 _ _ L W1)]. destruct W1 as (A & _), W2 as (B & _). congruence. }
      destruct H as (k & j & m & H1 & H2 & H3). exists k, j, m. split; [apply indexS_spec in H1; apply H1|]. split; [exact H2|]. split; [|exact H3].
      unfold imu_keyed in H2. apply imu_names in H2. rewrite H2. cbn [o_mag]. now destruct (k_has_mag kw).
    + intros B. destruct LW as (i1 & W1 & _). destruct (B _ _ W1).
    + right. eauto.
  - split; [|split].
    + intros n (i1 & W1 & _). destruct IV. apply WA in W1. apply in_map_iff. exists (n, seg). auto.
    + intros _. exact H.
    + left. intros i1 n W1. destruct IV. apply WA in W1. apply in_map_iff. exists (n, seg). auto.
Qed.

(** ** A whole sequence *)
Variable table : joint_table P.
Variable rr_axis : string -> params P -> result vec3.
Definition given {A} (x : option A) : bool := match x with Some _ => true | None => false end.

(** The data of one sequence of the generator: [s] is the system that moves as [x], [ml] the system without IMUs. *)
Record laid_out (o : @gen_opts K P O) (hz : bool) (g : rng K) (s ml : rsys) (x : traj) (X y : data) : Prop := {
  lo_keys : map fst X = (if hz then ["dt"%string] else []) ++ (if given (go_imu o) || given (go_axes o) then link_names ml else []);
  lo_dt : hz = true -> dget String.eqb X "dt"%string = Some (VArr (AScalar (sys_dt s)));
  (** the features of each segment *)
  lo_features : forall seg (worn : bool), given (go_imu o) || given (go_axes o) = true -> In seg (link_names ml) -> (if worn then exists n, last_worn s n seg else bare s seg) ->
    has_features X seg (match go_imu o with Some kw => imu_features worn (k_has_mag kw) | None => [] end ++ if given (go_axes o) then ["joint_axes"%string] else []);
  (** sensors: the readings of the last IMU of the segment, or zeros *)
  lo_imu : forall kw seg, go_imu o = Some kw -> In seg (link_names ml) -> (bare s seg \/ exists n, last_worn s n seg) /\
    (forall n, last_worn s n seg -> exists k i m, nth_error (link_names s) i = Some n /\
       imu_keyed g gauss k kw (link_traj x i) (grav3 (gravity s)) (sys_dt s) = Ok m /\
       forall f r, dget String.eqb m f = Some r -> feature X seg f = Some (ASeries r)) /\
    (bare s seg -> forall f, In f ["acc"; "gyr"]%string -> feature X seg f = Some (ASeries (repeat vzero (length (tr_rows x)))));
  (** joint axes *)
  lo_axes : forall kw seg, go_axes o = Some kw -> In seg (link_names ml) ->
    exists k A a, joint_axes W gauss rr_axis g k ml x s kw = Ok A /\ dget String.eqb A seg = Some a /\ feature X seg "joint_axes"%string = Some (ASeries a);
  (** targets: orientations relative to the parent, and of the links attached to the world *)
  lo_targets : map fst y = (if go_relpose o then non_roots ml else []) ++ (if given (go_rootincl o) || given (go_rootfull o) then roots ml else []);
  lo_relpose : go_relpose o = true -> exists r, rel_pose W ml x (Some s) = Ok r /\ map fst r = non_roots ml /\
    forall n q, dget String.eqb r n = Some q -> dget String.eqb y n = Some (VArr (AQuats q));
  lo_root : forall incl c2p, (if incl : bool then go_rootincl o else go_rootfull o) = Some c2p -> exists r, root_target W incl c2p ml x s = Ok r /\ map fst r = roots ml /\
    forall n q, dget String.eqb r n = Some q -> dget String.eqb y n = Some (VArr (AQuats q)) }.

Lemma foldM_app {A B} (f : A -> B -> result A) l : forall a l', foldM f a (l ++ l') = do b <- foldM f a l; foldM f b l'.
Proof. induction l as [|x l IH]; intros a l'; cbn [app foldM]; [reflexivity|]. destruct (f a x); cbn [bind]; [apply IH|reflexivity]. Qed.

Lemma fk_length (s : rsys) q xs s' : wf W s -> forward_kinematics_transforms W table s q = Ok (xs, s') -> length xs = num_links s.
Proof.
  intros WF H. destruct (wf_lean W s WF) as (qs & ds & LN). destruct (Nat.eq_dec (length q) (list_sum qs)) as [Hq|Hq].
  - now destruct (fk_spec W table s qs ds q xs s' LN Hq H).
  - exfalso. unfold forward_kinematics_transforms in H. rewrite (scan_rejects_sizes W s _ _ _ _ _ qs ds) in H; [discriminate|apply LN|apply LN|cbn; intuition discriminate|].
    right. exists TQ, (map ANum q). split; [now left|]. now rewrite map_length.
Qed.
Lemma NoDup_where (s : rsys) c : NoDup (link_names s) -> length (link_names s) = length (link_parents s) ->
  NoDup (map fst (filter (fun np : string * Z => c (snd np)) (combine (link_names s) (link_parents s)))).
Proof.
  generalize (link_names s) as ns. intros ns. generalize (link_parents s) as ps. intros ps. revert ps. induction ns as [|n ns IH]; intros [|p ps] ND L; try discriminate; cbn [combine filter map]; [constructor|].
  apply NoDup_cons_iff in ND. destruct ND as [NI ND]. injection L as L. cbn [snd]. destruct (c p); [|now apply IH]. cbn [map fst]. constructor; [|now apply IH].
  intros H. apply NI. apply in_map_iff in H. destruct H as ([n' p'] & E & H). apply filter_In in H. destruct H as [H _]. apply in_combine_l in H. cbn [fst] in E. congruence.
Qed.
Lemma flip_names (g : rng K) flip N ps : forall (A : list (string * list vec3)) k, length ps = length A -> map fst (flip_axes g k flip N ps A) = map fst A.
Proof.
  induction ps as [|p ps IH]; intros [|[n a] A] k L; try discriminate; [reflexivity|]. injection L as L. cbn [flip_axes]. destruct (Z.eqb p (-1)); [cbn [map fst]; f_equal; now apply IH|].
  destruct flip; cbn [map fst]; f_equal; now apply IH.
Qed.
Lemma noisy_names (g : rng K) N (A : list (string * list vec3)) : forall k, map fst (snd (noisy_axes gauss g k N A)) = map fst A.
Proof.
  induction A as [|[n a] A IH]; intros k; [reflexivity|]. cbn [noisy_axes]. specialize (IH (r_split g k 3 0)). destruct (noisy_axes gauss g (r_split g k 3 0) N A) as [k' r]. cbn [snd map fst] in *. now f_equal.
Qed.
Lemma axes_names (g : rng K) k (ml s : rsys) x kw A : wf W ml -> joint_axes W gauss rr_axis g k ml x s kw = Ok A -> map fst A = link_names ml.
Proof.
  intros WF E. unfold joint_axes in E. cbv zeta in E. apply bind_Ok in E. destruct E as (A0 & E0 & E).
  assert (N0 : map fst A0 = link_names ml).
  { destruct (a_from_sys kw).
    - unfold joint_axes_from_sys in E0. apply bind_Ok in E0. destruct E0 as (ax & E1 & E0). injection E0 as <-. apply combine_keys. rewrite map_length. apply mapM_Ok_length in E1. rewrite E1, combine_length, (wf_types _ _ WF), (wf_links _ _ WF), (wf_names _ _ WF). lia.
    - unfold joint_axes_from_xs in E0. apply bind_Ok in E0. destruct E0 as (x1 & _ & E0). apply bind_Ok in E0. destruct E0 as (t & _ & E0). apply bind_Ok in E0. destruct E0 as (ax & E1 & E0). injection E0 as <-. apply combine_keys. rewrite map_length. apply mapM_Ok_length in E1.
      rewrite E1, seq_length, (wf_names _ _ WF). reflexivity. }
  destruct (a_noisy kw).
  - pose proof (noisy_names g (length (tr_rows x)) A0 k) as NN. destruct (noisy_axes gauss g k (length (tr_rows x)) A0) as [k' A1]. cbn [snd] in NN. injection E as <-. rewrite flip_names; [congruence|]. rewrite <- (map_length fst A1), NN, N0. symmetry. apply (wf_names _ _ WF).
  - injection E as <-. rewrite flip_names; [exact N0|]. rewrite <- (map_length fst A0), N0. symmetry. apply (wf_names _ _ WF).
Qed.
Lemma filter_all {A} (f : A -> bool) l : (forall a, In a l -> f a = true) -> filter f l = l.
Proof. induction l as [|a l IH]; intros H; [reflexivity|]. cbn [filter]. rewrite (H a) by now left. f_equal. apply IH. intros b Hb. apply H. now right. Qed.
Lemma filter_none {A} (f : A -> bool) l : (forall a, In a l -> f a = false) -> filter f l = [].
Proof. induction l as [|a l IH]; intros H; [reflexivity|]. cbn [filter]. rewrite (H a) by now left. apply IH. intros b Hb. apply H. now right. Qed.
Lemma dget_map {V V'} (f : V -> V') (d : list (string * V)) k : dget String.eqb (map (fun kv => (fst kv, f (snd kv))) d) k = option_map f (dget String.eqb d k).
Proof. induction d as [|[a v] d IH]; [reflexivity|]. cbn [map dget fst snd]. destruct (String.eqb k a); [reflexivity|exact IH]. Qed.
Lemma features_NoDup w m : NoDup (imu_features w m).
Proof. unfold imu_features. destruct (w && m); repeat (constructor; [cbn; intuition discriminate|]); constructor. Qed.
Lemma non_roots_or (s : rsys) n : In n (non_roots s) -> In n (roots s) -> NoDup (link_names s) -> False.
Proof.
  unfold non_roots, roots. intros A B ND. apply in_map_iff in A, B. destruct A as ([n1 p1] & E1 & A), B as ([n2 p2] & E2 & B). cbn [fst] in *. subst n1 n2. apply filter_In in A, B. cbn [snd] in *. destruct A as [A A'], B as [B B'].
  apply In_nth_error in A, B. destruct A as (i & A), B as (j & B). assert (i = j).
  { assert (XX : forall k p, nth_error (combine (link_names s) (link_parents s)) k = Some (n, p) -> nth_error (link_names s) k = Some n).
    { generalize (link_names s) as l1. generalize (link_parents s) as l2. intros l2 l1. revert l2. induction l1 as [|a l1 IH]; intros [|b l2] [|k] p H; try discriminate; cbn [combine nth_error] in *; [congruence|eauto]. }
    apply (proj1 (NoDup_nth_error (link_names s)) ND); [apply nth_error_Some; rewrite (XX _ _ A); discriminate|]. rewrite (XX _ _ A), (XX _ _ B). reflexivity. }
  subst j. assert (p1 = p2) by congruence. subst. rewrite B' in A'. discriminate.
Qed.
(** Numbers in place of names *)
Definition numbered (names : list string) (d d' : data) : Prop :=
  (forall i n, nth_error names i = Some n -> dget String.eqb d' (str_nat i) = dget String.eqb d n) /\
  (forall k, ~ In k names -> ~ numeral (length names) k -> dget String.eqb d' k = dget String.eqb d k) /\
  (forall n, In n names -> dget String.eqb d' n = None) /\ length d' = length d /\ NoDup (map fst d').

Lemma imu_part (o : @gen_opts K P O) (g : rng K) X0 y key q x (s ml : rsys) X1 y1 e : parsed W ops s ->
  (given (go_imu o) = true -> forall s0 att, make_sys_noimu W ops s None = Ok (s0, att) -> link_names ml = link_names s0) -> (forall n, In n (link_names ml) -> ~ In n (map fst X0)) ->
  run_stages g (match go_imu o with Some kw => [imu_stage W ops gauss kw] | None => [] end) (X0, y) (key, q, x, s) = Ok ((X1, y1), e) ->
  y1 = y /\ (exists k, e = (k, q, x, s)) /\ map fst X1 = map fst X0 ++ (if given (go_imu o) then link_names ml else []) /\
  (forall k, ~ In k (link_names ml) -> dget String.eqb X1 k = dget String.eqb X0 k) /\
  match go_imu o with
  | Some kw => forall seg, In seg (link_names ml) -> (bare s seg \/ exists n, last_worn s n seg) /\
      (forall n, last_worn s n seg -> exists k i m, nth_error (link_names s) i = Some n /\ imu_keyed g gauss k kw (link_traj x i) (grav3 (gravity s)) (sys_dt s) = Ok m /\
         map fst m = imu_features true (k_has_mag kw) /\ dget String.eqb X1 seg = Some (VDict (map (fun sv => (fst sv, ASeries (snd sv))) m))) /\
      (bare s seg -> let zeros := ASeries (repeat vzero (length (tr_rows x))) in dget String.eqb X1 seg = Some (VDict [("acc"%string, zeros); ("gyr"%string, zeros)]))
  | None => True
  end.
Proof.
  intros PD HM NI E. unfold run_stages in E. destruct (go_imu o) as [kw|]; cbn [foldM fst snd given] in E |- *.
  2: { injection E as <- <- <-. split; [reflexivity|]. split; [eauto|]. rewrite app_nil_r. auto. }
  apply bind_Ok in E. destruct E as ([v' e'] & E1 & E). injection E as -> ->. unfold imu_stage in E1. cbn [fst snd] in E1. apply bind_Ok in E1. destruct E1 as (Xi & E0 & E1). apply bind_Ok in E1. destruct E1 as (X & EU & E1). injection E1 as <- <- <-.
  split; [reflexivity|]. split; [eauto|]. destruct (C68_sensors g _ x s kw Xi PD E0) as (s0 & att & EN & KX & ND & C). rewrite <- (HM eq_refl _ _ EN) in KX, ND, C.
  assert (ID : inner_distinct Xi).
  { intros k d Hd. assert (IK : In k (link_names ml)) by (rewrite <- KX; apply in_map_iff; exists (k, VDict d); auto). destruct (C k IK) as (C1 & C2 & C3). rewrite <- KX in ND. pose proof (dget_nodup _ _ _ ND Hd) as DG.
    destruct C3 as [B|[n LW]].
    - rewrite (C2 B) in DG. injection DG as <-. apply (features_NoDup false false).
    - destruct (C1 n LW) as (k1 & i & m & _ & _ & N & D). rewrite D in DG. injection DG as <-. rewrite map_map. cbn [fst]. change (NoDup (map fst m)). rewrite N. apply features_NoDup. }
  rewrite <- KX in ND. destruct (union_spec Xi X0 X ND ID EU) as (U1 & U2 & _). rewrite KX in U1. split; [|split].
  - rewrite U1. f_equal. apply filter_all. intros k Hk. rewrite (proj2 (memS_false _ _)); [reflexivity|now apply NI].
  - intros k Nk. rewrite U2. rewrite <- KX in Nk. rewrite (proj2 (dget_none Xi k) Nk). destruct (dget String.eqb X0 k) as [[?|?]|]; reflexivity.
  - intros seg IS. destruct (C seg IS) as (C1 & C2 & C3). rewrite U2, (proj2 (dget_none X0 seg) (NI _ IS)). cbn [merged]. auto.
Qed.

Lemma axes_part (o : @gen_opts K P O) (g : rng K) X1 y key q x (s ml : rsys) X2 y2 e : wf W ml ->
  (forall n, In n (link_names ml) -> In n (map fst X1) -> exists d, dget String.eqb X1 n = Some (VDict d) /\ ~ In "joint_axes"%string (map fst d)) ->
  run_stages g (match go_axes o with Some kw => [axes_stage W gauss rr_axis ml kw] | None => [] end) (X1, y) (key, q, x, s) = Ok ((X2, y2), e) ->
  y2 = y /\ (exists k, e = (k, q, x, s)) /\ map fst X2 = map fst X1 ++ (if given (go_axes o) then filter (fun k => negb (memS k (map fst X1))) (link_names ml) else []) /\
  (forall k, ~ In k (link_names ml) -> dget String.eqb X2 k = dget String.eqb X1 k) /\
  match go_axes o with
  | Some kw => exists k A, joint_axes W gauss rr_axis g k ml x s kw = Ok A /\ forall seg, In seg (link_names ml) -> exists a, dget String.eqb A seg = Some a /\
      dget String.eqb X2 seg = Some (VDict (match dget String.eqb X1 seg with Some (VDict d) => d | _ => [] end ++ [("joint_axes"%string, ASeries a)]))
  | None => X2 = X1
  end.
Proof.
  intros WF HD E. unfold run_stages in E. destruct (go_axes o) as [kw|]; cbn [foldM fst snd given] in E |- *.
  2: { injection E as <- <- <-. split; [reflexivity|]. split; [eauto|]. rewrite app_nil_r. auto. }
  apply bind_Ok in E. destruct E as ([v' e'] & E1 & E). injection E as -> ->. unfold axes_stage in E1. cbn [fst snd] in E1. apply bind_Ok in E1. destruct E1 as (A & E0 & E1). apply bind_Ok in E1. destruct E1 as (X & EU & E1). injection E1 as <- <- <-.
  split; [reflexivity|]. split; [eauto|]. pose proof (axes_names g _ ml s x kw A WF E0) as NA. pose proof (wf_unique _ _ WF) as ND.
  set (Xa := map (fun na => (fst na, VDict [("joint_axes"%string, ASeries (snd na))])) A) in *.
  assert (KX : map fst Xa = link_names ml) by (unfold Xa; rewrite map_map; exact NA).
  assert (ID : inner_distinct Xa). { intros k d Hd. apply in_map_iff in Hd. destruct Hd as (na & Hd & _). injection Hd as _ <-. cbn [map fst]. constructor; [intros []|constructor]. }
  rewrite <- KX in ND. destruct (union_spec Xa X1 X ND ID EU) as (U1 & U2 & U3). rewrite KX in U1. split; [exact U1|]. split.
  - intros k Nk. rewrite U2. rewrite <- KX in Nk. rewrite (proj2 (dget_none Xa k) Nk). destruct (dget String.eqb X1 k) as [[?|?]|]; reflexivity.
  - eexists _, A. split; [exact E0|]. intros seg IS. destruct (dget String.eqb A seg) as [a|] eqn:DA.
    2: { apply dget_none in DA. rewrite NA in DA. contradiction. }
    exists a. split; [reflexivity|]. rewrite U2. unfold Xa. rewrite (dget_map (fun a => VDict [("joint_axes"%string, ASeries a)]) A seg), DA. cbn [option_map].
    destruct (dget String.eqb X1 seg) as [v|] eqn:D1; [|reflexivity]. assert (I1 : In seg (map fst X1)). { destruct (in_dec string_dec seg (map fst X1)) as [I|N]; [exact I|]. apply dget_none in N. congruence. }
    destruct (HD seg IS I1) as (d & D & _). rewrite D1 in D. injection D as ->. reflexivity.
Qed.

Lemma target_part (f : traj -> rsys -> result (list (string * list quat))) (g : rng K) X y e key q x (s : rsys) X' y' ks : 
  (forall r, f x s = Ok r -> map fst r = ks) -> NoDup ks -> (forall k, In k ks -> ~ In k (map fst y)) ->
  run_stages g [target_stage f] (X, y) (key, q, x, s) = Ok ((X', y'), e) ->
  X' = X /\ e = (key, q, x, s) /\ map fst y' = map fst y ++ ks /\ (forall k, ~ In k ks -> dget String.eqb y' k = dget String.eqb y k) /\
  exists r, f x s = Ok r /\ map fst r = ks /\ forall n q, dget String.eqb r n = Some q -> dget String.eqb y' n = Some (VArr (AQuats q)).
Proof.
  intros HK ND NI E. unfold run_stages in E. cbn [foldM fst snd] in E. apply bind_Ok in E. destruct E as ([v' e'] & E1 & E). injection E as -> ->.
  unfold target_stage in E1. cbn [fst snd] in E1. apply bind_Ok in E1. destruct E1 as (t & E0 & E1). apply bind_Ok in E1. destruct E1 as (y1 & EU & E1). injection E1 as <- <- <-.
  pose proof (HK t E0) as KT. set (d2 := map (fun nq => (fst nq, VArr (AQuats (snd nq)))) t) in *.
  assert (KX : map fst d2 = ks) by (unfold d2; rewrite map_map; exact KT).
  assert (ID : inner_distinct d2). { intros k d Hd. apply in_map_iff in Hd. destruct Hd as (na & Hd & _). discriminate. }
  rewrite <- KX in ND. destruct (union_spec d2 y y1 ND ID EU) as (U1 & U2 & _). rewrite KX in U1. split; [reflexivity|]. split; [reflexivity|]. split; [|split].
  - rewrite U1. f_equal. apply filter_all. intros k Hk. rewrite (proj2 (memS_false _ _)); [reflexivity|now apply NI].
  - intros k Nk. rewrite U2. rewrite <- KX in Nk. rewrite (proj2 (dget_none d2 k) Nk). destruct (dget String.eqb y k) as [[?|?]|]; reflexivity.
  - exists t. split; [exact E0|]. split; [exact KT|]. intros n qs Hq. assert (In n ks). { rewrite <- KT. apply in_map_iff. exists (n, qs). split; [reflexivity|now apply dget_some_in]. }
    rewrite U2, (proj2 (dget_none y n)) by now apply NI. cbn [merged]. unfold d2. rewrite (dget_map (fun q => VArr (AQuats q)) t n), Hq. reflexivity.
Qed.

Lemma str_nat_dt n : ~ numeral n "dt"%string.
Proof.
  intros (j & _ & E). apply (f_equal DecimalString.NilZero.uint_of_string) in E. unfold str_nat in E. rewrite DecimalString.NilZero.usu in E by apply to_uint_nonnil. discriminate.
Qed.
Lemma NoDup_filter_keys (f : string * value -> bool) d : NoDup (map fst d) -> NoDup (map fst (filter f d)).
Proof.
  induction d as [|[k v] d IH]; intros ND; [constructor|]. cbn [map fst] in ND. apply NoDup_cons_iff in ND. destruct ND as [N ND]. cbn [filter]. destruct (f (k, v)); [|now apply IH]. cbn [map fst]. constructor; [|now apply IH].
  intros H. apply N. apply in_map_iff in H. destruct H as (kv & E & H). apply filter_In in H. apply in_map_iff. exists kv. tauto.
Qed.
Lemma numbered_of (names : list string) d d' : NoDup names -> (forall k, In k names -> ~ numeral (length names) k) -> NoDup (map fst d) -> (forall k, In k (map fst d) -> ~ numeral (length names) k) ->
  rename_links d names = Ok d' -> numbered names d d'.
Proof.
  intros ND GN NDd GD E. rewrite (rename_spec names ND GN d NDd GD) in E. injection E as <-.
  set (d1 := filter (fun kv => negb (memS (fst kv) names)) d). set (d2 := filter (fun kv : string * value => memS (fst kv) names) d).
  assert (F1 : forall k v, In (k, v) d1 <-> In (k, v) d /\ ~ In k names). { intros k v. unfold d1. rewrite filter_In. cbn [fst]. rewrite negb_true_iff, memS_false. reflexivity. }
  assert (F2 : forall k v, In (k, v) d2 <-> In (k, v) d /\ In k names). { intros k v. unfold d2. rewrite filter_In. cbn [fst]. rewrite memS_In. reflexivity. }
  assert (G1 : forall k, In k names -> dget String.eqb d1 k = None). { intros k Hk. apply dget_none. intros H. apply in_map_iff in H. destruct H as ([k' v] & <- & H). apply F1 in H. tauto. }
  assert (G1' : forall k, ~ In k names -> dget String.eqb d1 k = dget String.eqb d k).
  { intros k Hk. unfold d1. clear - Hk. induction d as [|[a v] d IH]; [reflexivity|]. cbn [filter dget fst]. destruct (String.eqb_spec k a) as [->|NE].
    - rewrite (proj2 (memS_false _ _) Hk). cbn [negb dget]. now rewrite String.eqb_refl.
    - destruct (memS a names); cbn [negb dget]; [exact IH|]. destruct (String.eqb_spec k a); [contradiction|exact IH]. }
  assert (R2 : forall k v, In (k, v) (map (renamed names) d2) -> exists i n, nth_error names i = Some n /\ k = str_nat i /\ In (n, v) d).
  { intros k v H. apply in_map_iff in H. destruct H as ([n u] & E & H). apply F2 in H. destruct H as [Hd Hn]. unfold renamed in E. cbn [fst snd] in E. destruct (indexS_In n names Hn) as (i & Ei). rewrite Ei in E. injection E as <- <-.
    apply indexS_spec in Ei. exists i, n. split; [apply Ei|]. auto. }
  assert (NM : forall k v, In (k, v) (map (renamed names) d2) -> numeral (length names) k).
  { intros k v H. destruct (R2 k v H) as (i & n & A & -> & _). exists i. split; [apply nth_error_Some; congruence|reflexivity]. }
  split; [|split; [|split; [|split]]].
  - intros i n Hi. assert (IN : In n names) by (eapply nth_error_In; exact Hi). assert (LI : (i < length names)%nat) by (apply nth_error_Some; congruence). rewrite dget_app.
    assert (N1 : dget String.eqb d1 (str_nat i) = None).
    { apply dget_none. intros H. apply in_map_iff in H. destruct H as ([k v] & E & H). cbn [fst] in E. apply F1 in H. apply (GD k); [apply in_map_iff; exists (k, v); tauto|]. exists i. auto. }
    rewrite N1. assert (Ii : indexS n names = Ok i) by now apply indexS_NoDup.
    assert (X : forall l, (forall k v, In (k, v) l -> In k names) -> dget String.eqb (map (renamed names) l) (str_nat i) = dget String.eqb l n).
    { induction l as [|[k v] l IH]; intros H; [reflexivity|]. cbn [map dget]. unfold renamed at 1. cbn [fst snd]. destruct (indexS_In k names) as (j & Ej); [eapply H; now left|]. rewrite Ej. cbn [dget].
      destruct (String.eqb_spec n k) as [->|NE].
      - rewrite Ii in Ej. injection Ej as ->. now rewrite String.eqb_refl.
      - destruct (String.eqb_spec (str_nat i) (str_nat j)) as [Q|Q]; [|apply IH; intros k' v' H'; eapply H; right; exact H']. apply str_nat_inj in Q. subst j. apply indexS_spec in Ej. destruct Ej as [Ej _]. congruence. }
    rewrite X by (intros k v H; now apply F2 in H). unfold d2. clear - IN. induction d as [|[a v] d IH]; [reflexivity|]. cbn [filter dget fst]. destruct (String.eqb_spec n a) as [->|NE].
    + rewrite (proj2 (memS_In _ _) IN). cbn [dget]. now rewrite String.eqb_refl.
    + destruct (memS a names); cbn [dget]; [|exact IH]. destruct (String.eqb_spec n a); [contradiction|exact IH].
  - intros k Nk NN. rewrite dget_app, (G1' k Nk). destruct (dget String.eqb d k); [reflexivity|]. apply dget_none. intros H. apply in_map_iff in H. destruct H as ([k' v] & <- & H). apply NN. eapply NM. exact H.
  - intros n Hn. rewrite dget_app, (G1 n Hn). apply dget_none. intros H. apply in_map_iff in H. destruct H as ([k' v] & E & H). cbn [fst] in E. subst k'. apply (GN n Hn). eapply NM. exact H.
  - rewrite app_length, map_length. unfold d1, d2. clear. induction d as [|[a v] d IH]; [reflexivity|]. cbn [filter fst]. destruct (memS a names); cbn [negb length]; lia.
  - rewrite map_app. assert (N1 : NoDup (map fst d1)) by (unfold d1; now apply NoDup_filter_keys). assert (N2 : NoDup (map fst (map (renamed names) d2))).
    { assert (N2 : NoDup (map fst d2)) by (unfold d2; now apply NoDup_filter_keys). assert (H2 : forall k v, In (k, v) d2 -> In k names) by (intros k v H; now apply F2 in H). clear - N2 H2. induction d2 as [|[k v] l IH]; [constructor|].
      cbn [map fst] in *. apply NoDup_cons_iff in N2. destruct N2 as [NA N2]. constructor; [|apply IH; [exact N2|intros k' v' H; eapply H2; right; exact H]].
      unfold renamed at 1. cbn [fst snd]. destruct (indexS_In k names) as (i & Ei); [eapply H2; now left|]. rewrite Ei. cbn [fst]. intros H. apply in_map_iff in H. destruct H as ([k1 v1] & E & H). cbn [fst] in E. subst k1.
      apply in_map_iff in H. destruct H as ([k2 v2] & E & H). unfold renamed in E. cbn [fst snd] in E. destruct (indexS_In k2 names) as (j & Ej); [eapply H2; right; exact H|]. rewrite Ej in E. injection E as E _. apply str_nat_inj in E. subst j.
      apply indexS_spec in Ei, Ej. destruct Ei as [Ei _], Ej as [Ej _]. assert (k2 = k) by congruence. subst. apply NA, in_map_iff. exists (k, v2). auto. }
    assert (DJ : forall k, In k (map fst d1) -> ~ In k (map fst (map (renamed names) d2))).
    { intros k H1 H2. apply in_map_iff in H1, H2. destruct H1 as ([k1 v1] & <- & H1), H2 as ([k2 v2] & E & H2). cbn [fst] in *. subst k2. apply F1 in H1. apply (GD k1); [apply in_map_iff; exists (k1, v1); tauto|eapply NM; exact H2]. }
    clear - N1 N2 DJ. induction (map fst d1) as [|k l IH]; [exact N2|]. apply NoDup_cons_iff in N1. destruct N1 as [NA N1]. cbn [app]. constructor; [rewrite in_app_iff; intros [H|H]; [contradiction|apply (DJ k (or_introl eq_refl) H)]|].
    apply IH; [exact N1|]. intros k' H. apply DJ. now right.
Qed.

(** C68: the layout of one sequence *)
Theorem C68_sequence (o : @gen_opts K P O) noimu stages hz (g : rng K) key q (s ml : rsys) X y e :
  parsed W ops s -> wf W ml -> go_quiet o = [] -> go_final o = None -> (noimu = None \/ noimu = Some ml) ->
  (forall s0 att, make_sys_noimu W ops s None = Ok (s0, att) -> link_names ml = link_names s0) -> (forall n, In n (link_names ml) -> In n (link_names s)) ->
  ~ In "dt"%string (link_names ml) -> (go_numbers o = true -> forall n, In n (link_names ml) -> ~ numeral (num_links ml) n) ->
  finalize_pipe W ops gauss rr_axis o noimu = Ok stages -> context W table g stages hz key q s = Ok ((X, y), e) ->
  exists x k X0 y0, e = (k, q, x, s) /\ Forall2 (fun row poses => exists s', forward_kinematics_transforms W table s row = Ok (poses, s')) q (tr_rows x) /\
    laid_out o hz g s ml x X0 y0 /\
    if go_numbers o then numbered (link_names ml) X0 X /\ numbered (link_names ml) y0 y else X = X0 /\ y = y0.
Proof.
  intros PD WF GQ GF NO HM SUB NDT NUM EP E. pose proof (pd_wf _ _ _ PD) as WFs. pose proof (wf_unique _ _ WF) as NDm.
  unfold context in E. apply bind_Ok in E. destruct E as (rows & EX & E). set (x := mkTraj (num_links s) rows) in *.
  assert (FKR : Forall2 (fun row poses => exists s', forward_kinematics_transforms W table s row = Ok (poses, s')) q (tr_rows x)).
  { cbn [tr_rows x]. apply mapM_Ok_iff in EX. clear - EX. induction EX as [|row p q rows H _ IH]; constructor; [|exact IH]. apply bind_Ok in H. destruct H as ([xs s'] & H & E). injection E as <-. exists s'. exact H. }
  assert (FR : full_rows s x).
  { unfold full_rows. clear - FKR WFs. induction FKR as [|row p q rs (s' & H) _ IH]; constructor; [|exact IH]. eapply fk_length; eauto. }
  cbv zeta in E. match type of E with run_stages _ _ (?Z, _) _ = _ => set (X00 := Z) in E end.
  assert (K00 : map fst X00 = if hz then ["dt"%string] else []) by (unfold X00; now destruct hz).
  unfold finalize_pipe in EP. rewrite GQ, GF in EP. apply bind_Ok in EP. destruct EP as (p1 & P1 & EP). apply bind_Ok in EP. destruct EP as (p2 & P2 & EP). apply bind_Ok in EP. destruct EP as (p3 & P3 & EP).
  apply bind_Ok in EP. destruct EP as (p4 & P4 & EP). apply bind_Ok in EP. destruct EP as (p5 & P5 & EP). injection EP as <-. cbn [map app] in E.
  assert (ND : forall m, need noimu = Ok m -> m = ml) by (intros m H; destruct NO as [->| ->]; [discriminate|now injection H as <-]).
  assert (P1' : p1 = match go_axes o with Some kw => [axes_stage W gauss rr_axis ml kw] | None => [] end).
  { destruct (go_axes o); [|now injection P1 as <-]. apply bind_Ok in P1. destruct P1 as (m & H & P1). apply ND in H. subst m. now injection P1 as <-. }
  unfold run_stages in E. rewrite foldM_app in E. apply bind_Ok in E. destruct E as ([[X1 y1] e1] & E1 & E).
  apply imu_part with (ml := ml) in E1; [|exact PD|intros _; exact HM|].
  2: { intros n Hn. assert (QQ : ~ In n (map fst X00)) by (rewrite K00; destruct hz; [|intros []]; intros [<-|[]]; contradiction). exact QQ. }
  destruct E1 as (-> & (k1 & ->) & K1 & O1 & M1). rewrite foldM_app in E. apply bind_Ok in E. destruct E as ([[X2 y2] e2] & E2 & E). subst p1.
  apply axes_part in E2; [|exact WF|].
  2: { intros n Hn I1. rewrite K1, K00 in I1. assert (I2 : In n (if given (go_imu o) then link_names ml else [])).
       { apply in_app_iff in I1. destruct I1 as [I1|I1]; [|exact I1]. destruct hz; [|destruct I1]. destruct I1 as [<-|[]]. contradiction. }
       destruct (go_imu o) as [kw|]; [|destruct I2]. destruct (M1 n Hn) as (C3 & C1 & C2). destruct C3 as [B|[i LW]].
       - eexists. split; [exact (C2 B)|]. cbn. intuition discriminate.
       - destruct (C1 i LW) as (k' & j & m & _ & _ & N & D). eexists. split; [exact D|]. rewrite map_map. cbn [fst]. change (~ In "joint_axes"%string (map fst m)). rewrite N. unfold imu_features. destruct (true && k_has_mag kw); cbn; intuition discriminate. }
  destruct E2 as (-> & (k2 & ->) & K2 & O2 & M2).
  rewrite foldM_app in E. apply bind_Ok in E. destruct E as ([[X3 y3] e3] & E3 & E).
  assert (T3 : X3 = X2 /\ e3 = (k2, q, x, s) /\ map fst y3 = (if go_relpose o then non_roots ml else []) /\
    (go_relpose o = true -> exists r, rel_pose W ml x (Some s) = Ok r /\ map fst r = non_roots ml /\ forall n q, dget String.eqb r n = Some q -> dget String.eqb y3 n = Some (VArr (AQuats q)))).
  { destruct (go_relpose o).
    - apply bind_Ok in P2. destruct P2 as (m & H & P2). apply ND in H. subst m. injection P2 as <-.
      change (run_stages g [target_stage (fun x sx => rel_pose W ml x (Some sx))] (X2, []) (k2, q, x, s) = Ok (X3, y3, e3)) in E3.
      apply target_part with (ks := non_roots ml) in E3.
      + destruct E3 as (-> & -> & A & _ & B). split; [reflexivity|]. split; [reflexivity|]. split; [exact A|]. intros _. exact B.
      + intros r Hr. destruct (C58_rel_pose W ml s x WF) as (r' & R1 & R2 & _); [reflexivity|exact FR| |].
        * intros i p nm Hp Np Hnm. apply SUB. destruct Hnm as [Hnm|Hnm]; eapply nth_error_In; exact Hnm.
        * rewrite Hr in R1. injection R1 as <-. exact R2.
      + apply (NoDup_where ml (fun p => negb (Z.eqb p (-1))) NDm (wf_names _ _ WF)).
      + intros k _ [].
    - injection P2 as <-. cbn [foldM] in E3. injection E3 as <- <- <-. split; [reflexivity|]. split; [reflexivity|]. split; [reflexivity|discriminate]. }
  destruct T3 as (-> & -> & K3 & M3).
  assert (ROOT : forall incl c2p g v e X4 y4 e4, (forall k, In k (roots ml) -> ~ In k (map fst (snd v))) -> e = (k2, q, x, s) ->
    run_stages g [target_stage (fun x sx => root_target W incl c2p ml x sx)] v e = Ok ((X4, y4), e4) ->
    X4 = fst v /\ e4 = (k2, q, x, s) /\ map fst y4 = map fst (snd v) ++ roots ml /\ (forall k, ~ In k (roots ml) -> dget String.eqb y4 k = dget String.eqb (snd v) k) /\
    exists r, root_target W incl c2p ml x s = Ok r /\ map fst r = roots ml /\ forall n q, dget String.eqb r n = Some q -> dget String.eqb y4 n = Some (VArr (AQuats q))).
  { intros incl c2p g' [Xv yv] e' X4 y4 e4 NI -> H. cbn [fst snd] in *. apply target_part with (ks := roots ml) in H; [exact H| |apply (NoDup_where ml (fun p => Z.eqb p (-1)) NDm (wf_names _ _ WF))|exact NI].
    intros r Hr. destruct (C58_root W ml s x WF incl c2p FR) as (r' & R1 & R2 & _).
    - intros i nm Hp Hnm. apply SUB. eapply nth_error_In; exact Hnm.
    - rewrite Hr in R1. injection R1 as <-. exact R2. }
  assert (NR : forall k, In k (roots ml) -> ~ In k (map fst y3)).
  { intros k Hk. rewrite K3. destruct (go_relpose o); [|intros []]. intros H. exact (non_roots_or ml k H Hk NDm). }
  rewrite foldM_app in E. apply bind_Ok in E. destruct E as ([[X4 y4] e4] & E4 & E). rewrite foldM_app in E. apply bind_Ok in E. destruct E as ([[X5 y5] e5] & E5 & E).
  assert (T5 : X5 = X2 /\ e5 = (k2, q, x, s) /\ map fst y5 = (if go_relpose o then non_roots ml else []) ++ (if given (go_rootincl o) || given (go_rootfull o) then roots ml else []) /\
    (forall k, ~ In k (roots ml) -> dget String.eqb y5 k = dget String.eqb y3 k) /\
    (forall incl c2p, (if incl : bool then go_rootincl o else go_rootfull o) = Some c2p -> exists r, root_target W incl c2p ml x s = Ok r /\ map fst r = roots ml /\
    forall n q, dget String.eqb r n = Some q -> dget String.eqb y5 n = Some (VArr (AQuats q)))).
  { destruct (go_rootincl o) as [c|].
    - apply bind_Ok in P3. destruct P3 as (u & AS & P3). apply bind_Ok in P3. destruct P3 as (m & H & P3). apply ND in H. subst m. injection P3 as <-. destruct (go_rootfull o) as [c'|]; [discriminate|]. injection P4 as <-.
      cbn [foldM] in E5. injection E5 as <- <- <-. apply (ROOT true c g (X2, y3) _ X4 y4 e4 NR eq_refl) in E4. cbn [fst snd] in E4. destruct E4 as (-> & -> & A & B & C). rewrite K3 in A. cbn [given orb].
      split; [reflexivity|]. split; [reflexivity|]. split; [exact A|]. split; [exact B|]. intros [|] c2p H; [injection H as <-; exact C|discriminate].
    - injection P3 as <-. cbn [foldM] in E4. injection E4 as <- <- <-. destruct (go_rootfull o) as [c|].
      + apply bind_Ok in P4. destruct P4 as (m & H & P4). apply ND in H. subst m. injection P4 as <-. apply (ROOT false c g (X2, y3) _ X5 y5 e5 NR eq_refl) in E5. cbn [fst snd] in E5. destruct E5 as (-> & -> & A & B & C). rewrite K3 in A. cbn [given orb].
        split; [reflexivity|]. split; [reflexivity|]. split; [exact A|]. split; [exact B|]. intros [|] c2p H; [discriminate|injection H as <-; exact C].
      + injection P4 as <-. cbn [foldM] in E5. injection E5 as <- <- <-. cbn [given orb]. rewrite app_nil_r. split; [reflexivity|]. split; [reflexivity|]. split; [exact K3|]. split; [reflexivity|]. intros [|] c2p H; discriminate. }
  destruct T5 as (-> & -> & K5 & O5 & M5).
  assert (KX2 : map fst X2 = (if hz then ["dt"%string] else []) ++ (if given (go_imu o) || given (go_axes o) then link_names ml else [])).
  { rewrite K2, K1, K00. destruct (given (go_imu o)); cbn [orb].
    - destruct (given (go_axes o)); [|now rewrite app_nil_r]. rewrite filter_none; [now rewrite app_nil_r|]. intros k Hk. rewrite (proj2 (memS_In _ _)); [reflexivity|]. apply in_app_iff. now right.
    - rewrite app_nil_r. destruct (given (go_axes o)); [|reflexivity]. f_equal. apply filter_all. intros k Hk. rewrite (proj2 (memS_false _ _)); [reflexivity|]. destruct hz; [|intros []]. intros [<-|[]]. contradiction. }
  assert (LO : laid_out o hz g s ml x X2 y5).
  { constructor.
    - exact KX2.
    - intros ->. rewrite O2, O1 by exact NDT. reflexivity.
    - intros seg worn OR IS CW. destruct (go_axes o) as [ka|].
      + destruct M2 as (ka' & A & _ & M2). destruct (M2 seg IS) as (a & _ & D). eexists. split; [exact D|]. rewrite map_app. cbn [map fst given]. f_equal.
        destruct (go_imu o) as [kw|].
        * destruct (M1 seg IS) as (_ & C1 & C2). destruct worn; [destruct CW as (n & LW); destruct (C1 n LW) as (k' & i & m & _ & _ & N & D1); rewrite D1, map_map; exact N|]. rewrite (C2 CW). reflexivity.
        * cbn [given] in K1. rewrite app_nil_r in K1. rewrite (proj2 (dget_none X1 seg)); [reflexivity|]. rewrite K1, K00. destruct hz; [|intros []]. intros [<-|[]]. contradiction.
      + subst X2. cbn [given]. rewrite app_nil_r. destruct (go_imu o) as [kw|]; [|discriminate].
        destruct (M1 seg IS) as (_ & C1 & C2). destruct worn; [destruct CW as (n & LW); destruct (C1 n LW) as (k' & i & m & _ & _ & N & D1); eexists; split; [exact D1|rewrite map_map; exact N]|]. eexists. split; [exact (C2 CW)|reflexivity].
    - intros kw seg GI IS. rewrite GI in M1. destruct (M1 seg IS) as (C3 & C1 & C2).
      assert (FE : forall d f, dget String.eqb X1 seg = Some (VDict d) -> forall a, dget String.eqb d f = Some a -> feature X2 seg f = Some a).
      { intros d f D a Da. unfold feature. destruct (go_axes o) as [ka|].
        - destruct M2 as (ka' & A & _ & M2). destruct (M2 seg IS) as (a' & _ & D'). rewrite D', D, dget_app, Da. reflexivity.
        - subst X2. now rewrite D. }
      split; [exact C3|]. split.
      + intros n LW. destruct (C1 n LW) as (k' & i & m & A1 & A2 & N & D1). exists k', i, m. split; [exact A1|]. split; [exact A2|]. intros f r Hr. apply (FE _ f D1). rewrite (dget_map ASeries m f), Hr. reflexivity.
      + intros B f Hf. apply (FE _ f (C2 B)). destruct Hf as [<-|[<-|[]]]; reflexivity.
    - intros kw seg GA IS. rewrite GA in M2. destruct M2 as (k' & A & EA & M2). destruct (M2 seg IS) as (a & D1 & D2). exists k', A, a. split; [exact EA|]. split; [exact D1|]. unfold feature. rewrite D2, dget_app. cbn [dget].
      assert (NJ : match dget String.eqb X1 seg with Some (VDict d) => dget String.eqb d "joint_axes"%string = None | _ => True end).
      { destruct (go_imu o) as [kw'|].
        - destruct (M1 seg IS) as ([B|[n LW]] & C1 & C2); [rewrite (C2 B); reflexivity|]. destruct (C1 n LW) as (k'' & i & m & _ & _ & N & D'). rewrite D'. rewrite (dget_map ASeries m). replace (dget String.eqb m "joint_axes"%string) with (@None (list vec3)); [reflexivity|].
          symmetry. apply dget_none. rewrite N. unfold imu_features. destruct (true && k_has_mag kw'); cbn; intuition discriminate.
        - cbn [given] in K1. rewrite app_nil_r in K1. rewrite (proj2 (dget_none X1 seg)); [exact Logic.I|]. rewrite K1, K00. destruct hz; [|intros []]. intros [<-|[]]. contradiction. }
      destruct (dget String.eqb X1 seg) as [[|d]|]; [reflexivity| |reflexivity]. rewrite NJ. reflexivity.
    - exact K5.
    - intros GR. destruct (M3 GR) as (r & R1 & R2 & R3). exists r. split; [exact R1|]. split; [exact R2|]. intros n qs Hq. rewrite O5; [now apply R3|]. intros Hn.
      assert (In n (non_roots ml)). { rewrite <- R2. apply in_map_iff. exists (n, qs). split; [reflexivity|now apply dget_some_in]. } exact (non_roots_or ml n H Hn NDm).
    - exact M5. }
  destruct (go_numbers o) eqn:GN.
  - apply bind_Ok in P5. destruct P5 as (m & H & P5). apply ND in H. subst m. injection P5 as <-. cbn [foldM fst snd] in E. apply bind_Ok in E. destruct E as ([v' e'] & E6 & E). injection E as -> ->.
    unfold number_stage in E6. cbn [fst snd] in E6. apply bind_Ok in E6. destruct E6 as (X' & E6 & E7). apply bind_Ok in E7. destruct E7 as (y' & E7 & E8). injection E8 as <- <- <-.
    exists x, k2, X2, y5. split; [reflexivity|]. split; [exact FKR|]. split; [exact LO|]. specialize (NUM eq_refl). unfold num_links in NUM. rewrite <- (wf_names _ _ WF) in NUM.
    assert (NDX : NoDup (map fst X2)).
    { rewrite KX2. destruct hz, (given (go_imu o) || given (go_axes o)); cbn [app]; [|constructor; [intros []|constructor]|exact NDm|constructor]. constructor; [exact NDT|exact NDm]. }
    assert (NDy : NoDup (map fst y5)).
    { rewrite K5. pose proof (NoDup_where ml (fun p => negb (Z.eqb p (-1))) NDm (wf_names _ _ WF)) as A. pose proof (NoDup_where ml (fun p => Z.eqb p (-1)) NDm (wf_names _ _ WF)) as B. change (NoDup (non_roots ml)) in A. change (NoDup (roots ml)) in B.
      destruct (go_relpose o), (given (go_rootincl o) || given (go_rootfull o)); cbn [app]; rewrite ?app_nil_r; auto; [|constructor].
      clear - A B NDm. pose proof (fun k => non_roots_or ml k) as DJ. induction (non_roots ml) as [|a l IH]; [exact B|]. apply NoDup_cons_iff in A. destruct A as [A1 A2]. cbn [app]. constructor.
      - rewrite in_app_iff. intros [H|H]; [contradiction|]. apply (DJ a); [now left|exact H|exact NDm].
      - apply IH; [exact A2|]. intros k Hk. apply DJ. now right. }
    split; [apply numbered_of with (5 := E6)|apply numbered_of with (5 := E7)]; auto.
    + rewrite KX2. intros k Hk. apply in_app_iff in Hk. destruct Hk as [Hk|Hk]; [destruct hz; [|destruct Hk]; destruct Hk as [<-|[]]; apply str_nat_dt|]. destruct (given (go_imu o) || given (go_axes o)); [now apply NUM|destruct Hk].
    + rewrite K5. intros k Hk. apply NUM. apply in_app_iff in Hk.
      assert (SUBW : forall c, In k (map fst (filter (fun np : string * Z => c (snd np)) (combine (link_names ml) (link_parents ml)))) -> In k (link_names ml)).
      { intros c H. apply in_map_iff in H. destruct H as ([n p] & <- & H). apply filter_In in H. destruct H as [H _]. now apply in_combine_l in H. }
      destruct Hk as [Hk|Hk]; [destruct (go_relpose o); [|destruct Hk]|destruct (given (go_rootincl o) || given (go_rootfull o)); [|destruct Hk]]; [apply (SUBW (fun p => negb (Z.eqb p (-1))) Hk)|apply (SUBW (fun p => Z.eqb p (-1)) Hk)].
  - injection P5 as <-. cbn [foldM] in E. injection E as <- <- <-. exists x, k2, X2, y5. auto.
Qed.

(** ** Making a sequence succeeds *)
Lemma union_total d2 : forall d1 : data, NoDup (map fst d2) -> (forall k v, In (k, v) d2 -> dget String.eqb d1 k = None \/
    exists a b, dget String.eqb d1 k = Some (VDict a) /\ v = VDict b /\ forall f, In f (map fst b) -> ~ In f (map fst a)) -> exists d, dict_union d1 d2 = Ok d.
Proof.
  unfold dict_union. induction d2 as [|[k v] d2 IH]; intros d1 ND H; cbn [foldM]; [eauto|]. cbn [map fst] in ND. apply NoDup_cons_iff in ND. destruct ND as [NK ND].
  assert (OTHER : forall d1', (forall k', k' <> k -> dget String.eqb d1' k' = dget String.eqb d1 k') -> exists d, foldM union_step d1' d2 = Ok d).
  { intros d1' E. apply IH; [exact ND|]. intros k' v' H'. rewrite E; [apply H; now right|]. intros ->. apply NK. apply in_map_iff. exists (k, v'). auto. }
  unfold union_step at 1. destruct (H k v (or_introl eq_refl)) as [E|(a & b & E & -> & DJ)]; rewrite E.
  - cbn [bind]. apply OTHER. intros k' NE. now rewrite dget_dset_other by (apply String.eqb_eq || congruence).
  - assert (FB : forallb (fun x => negb (dmem String.eqb a (fst x))) b = true).
    { apply forallb_forall. intros [f u] Hf. cbn [fst]. unfold dmem. rewrite (proj2 (dget_none a f)); [reflexivity|]. apply DJ. apply in_map_iff. exists (f, u). auto. }
    rewrite FB. cbn [assert_ bind]. apply OTHER. intros k' NE. now rewrite dget_dset_other by (apply String.eqb_eq || congruence).
Qed.
Lemma imu_loop_total (g : rng K) kw x (s : rsys) att : (forall seg n, dget String.eqb att seg = Some n -> In n (link_names s)) ->
  (forall k i, exists m, imu_keyed g gauss k kw (link_traj x i) (grav3 (gravity s)) (sys_dt s) = Ok m) -> forall segs k X, exists X', imu_loop gauss g kw x s att k segs X = Ok X'.
Proof.
  intros HN HI. induction segs as [|seg r IH]; intros k X; cbn [imu_loop]; [eauto|]. destruct (dget String.eqb att seg) as [n|] eqn:D; [|apply IH].
  unfold name_to_idx. destruct (indexS_In n _ (HN _ _ D)) as (i & ->). cbn [bind]. destruct (HI (r_split g k 2 1) i) as (m & ->). cbn [bind]. apply IH.
Qed.
Lemma stage_step (f : stage) (g : rng K) fs (v : xy) (e : @extras K P O) v' e' : f g v e = Ok (v', e') -> run_stages g (f :: fs) v e = run_stages g fs v' e'.
Proof. intros E. unfold run_stages. cbn [foldM fst snd]. now rewrite E. Qed.

(** Data can be made whenever forward kinematics, sensors and joint axes can be computed. *)
Lemma run_app (g : rng K) (a b : list (@stage K P O)) v e v' e' : run_stages g a v e = Ok (v', e') -> (exists r, run_stages g b v' e' = Ok r) -> exists r, run_stages g (a ++ b) v e = Ok r.
Proof. intros A [r B]. exists r. unfold run_stages in *. rewrite foldM_app, A. exact B. Qed.

Theorem C68_total (o : @gen_opts K P O) noimu stages hz (g : rng K) key q (s ml : rsys) n :
  parsed W ops s -> wf W ml -> go_quiet o = [] -> go_final o = None -> (noimu = None \/ noimu = Some ml) ->
  (given (go_imu o) = true -> exists s0 att, make_sys_noimu W ops s None = Ok (s0, att) /\ link_names ml = link_names s0) -> (forall n, In n (link_names ml) -> In n (link_names s)) ->
  ~ In "dt"%string (link_names ml) -> (go_numbers o = true -> forall n, In n (link_names ml) -> ~ numeral (num_links ml) n) ->
  joints_known table s -> q_size W s = Ok n -> (forall row, In row q -> length row = n) ->
  (forall kw k x i, go_imu o = Some kw -> length (tr_rows x) = length q -> exists m, imu_keyed g gauss k kw (link_traj x i) (grav3 (gravity s)) (sys_dt s) = Ok m) ->
  (forall kw k x, go_axes o = Some kw -> length (tr_rows x) = length q -> full_rows s x -> tr_links x = num_links s -> exists A, joint_axes W gauss rr_axis g k ml x s kw = Ok A) ->
  finalize_pipe W ops gauss rr_axis o noimu = Ok stages -> exists r, context W table g stages hz key q s = Ok r.
Proof.
  intros PD WF GQ GF NO HM SUB NDT NUM JK QS QR HI HA EP. pose proof (pd_wf _ _ _ PD) as WFs. pose proof (wf_unique _ _ WF) as NDm.
  assert (FK : exists rows, mapM (fun row => do r <- forward_kinematics_transforms W table s row; Ok (fst r)) q = Ok rows /\ length rows = length q /\ Forall (fun row => length row = num_links s) rows).
  { clear - WFs JK QS QR. induction q as [|row q IH]; [exists []; repeat split; constructor|]. destruct IH as (rows & E & L & F); [intros r Hr; apply QR; now right|].
    destruct (proj1 (C27_total W table s row n WFs JK QS)) as (xs & s' & EX); [apply QR; now left|]. cbn [mapM]. rewrite EX. cbn [bind fst]. rewrite E. cbn [bind]. exists (xs :: rows). split; [reflexivity|]. split; [cbn [length]; congruence|].
    constructor; [|exact F]. eapply fk_length; eauto. }
  destruct FK as (rows & EX & LR & FR0). unfold context. rewrite EX. cbn [bind]. cbv zeta. set (x := mkTraj (num_links s) rows).
  assert (FR : full_rows s x) by exact FR0. assert (LX : length (tr_rows x) = length q) by exact LR.
  match goal with |- exists r, run_stages _ _ (?Z, _) _ = _ => set (X00 := Z) end.
  assert (K00 : map fst X00 = if hz then ["dt"%string] else []) by (unfold X00; now destruct hz).
  assert (N00 : forall n, In n (link_names ml) -> ~ In n (map fst X00)). { intros m Hm. rewrite K00. destruct hz; [|intros []]. intros [<-|[]]. contradiction. }
  unfold finalize_pipe in EP. rewrite GQ, GF in EP. apply bind_Ok in EP. destruct EP as (p1 & P1 & EP). apply bind_Ok in EP. destruct EP as (p2 & P2 & EP). apply bind_Ok in EP. destruct EP as (p3 & P3 & EP).
  apply bind_Ok in EP. destruct EP as (p4 & P4 & EP). apply bind_Ok in EP. destruct EP as (p5 & P5 & EP). injection EP as <-. cbn [map app].
  assert (ND : forall m, need noimu = Ok m -> m = ml) by (intros m H; destruct NO as [->| ->]; [discriminate|now injection H as <-]).
  assert (IMU : exists X1 k1, run_stages g (match go_imu o with Some kw => [imu_stage W ops gauss kw] | None => [] end) (X00, []) (key, q, x, s) = Ok ((X1, []), (k1, q, x, s))).
  { destruct (go_imu o) as [kw|]; [|cbn; eauto]. destruct (HM eq_refl) as (s0 & att & EN & NM).
    assert (E : exists Xi, imu_data W ops gauss g (r_split g key 2 1) x s kw = Ok Xi).
    { unfold imu_data. rewrite EN. cbn [bind fst snd]. apply imu_loop_total; [|intros k i; now apply HI].
      intros seg m Hm. pose proof (inverse_spec att seg) as IV. cbv zeta in IV. rewrite Hm in IV. destruct IV as (a & b & -> & _). destruct (C08_noimu_partial W ops LAWS s s0 _ PD EN) as (_ & _ & _ & AP).
      destruct (AP m seg (in_elt _ _ _)) as (i & j & A & _). eapply nth_error_In. exact A. }
    destruct E as (Xi & E). destruct (C68_sensors g _ x s kw Xi PD E) as (s0' & att' & EN' & KX & NDX & _). rewrite EN in EN'. injection EN' as <- <-. rewrite <- NM in KX, NDX.
    destruct (union_total Xi X00) as (X1 & EU); [now rewrite KX|intros k v Hk; left; apply dget_none, N00; rewrite <- KX; apply in_map_iff; exists (k, v); auto|].
    exists X1. eexists. unfold run_stages. cbn [foldM fst snd]. unfold imu_stage. rewrite E. cbn [bind]. cbn [fst snd]. rewrite EU. reflexivity. }
  destruct IMU as (X1 & k1 & E1).
  assert (HM' : given (go_imu o) = true -> forall s0 att, make_sys_noimu W ops s None = Ok (s0, att) -> link_names ml = link_names s0).
  { intros G s0 att EN. destruct (HM G) as (s0' & att' & EN' & NM). rewrite EN in EN'. injection EN' as <- <-. exact NM. }
  destruct (imu_part o g X00 [] key q x s ml X1 [] _ PD HM' N00 E1) as (_ & _ & K1 & _ & M1).
  assert (HD : forall n, In n (link_names ml) -> In n (map fst X1) -> exists d, dget String.eqb X1 n = Some (VDict d) /\ ~ In "joint_axes"%string (map fst d)).
  { intros m Hn I1. rewrite K1, K00 in I1. assert (I2 : In m (if given (go_imu o) then link_names ml else [])).
    { apply in_app_iff in I1. destruct I1 as [I1|I1]; [|exact I1]. destruct hz; [|destruct I1]. destruct I1 as [<-|[]]. contradiction. }
    destruct (go_imu o) as [kw|]; [|destruct I2]. destruct (M1 m Hn) as (C3 & C1 & C2). destruct C3 as [B|[i LW]].
    - eexists. split; [exact (C2 B)|]. cbn. intuition discriminate.
    - destruct (C1 i LW) as (k' & j & m' & _ & _ & N & D). eexists. split; [exact D|]. rewrite map_map. cbn [fst]. change (~ In "joint_axes"%string (map fst m')). rewrite N. unfold imu_features. destruct (true && k_has_mag kw); cbn; intuition discriminate. }
  assert (AX : exists X2 k2, run_stages g (match go_axes o with Some kw => [axes_stage W gauss rr_axis ml kw] | None => [] end) (X1, []) (k1, q, x, s) = Ok ((X2, []), (k2, q, x, s))).
  { destruct (go_axes o) as [kw|]; [|cbn; eauto]. destruct (HA kw (r_split g k1 2 1) x eq_refl LX FR eq_refl) as (A & EA). pose proof (axes_names g _ ml s x kw A WF EA) as NA.
    destruct (union_total (map (fun na => (fst na, VDict [("joint_axes"%string, ASeries (snd na))])) A) X1) as (X2 & EU).
    - rewrite map_map. cbn [fst]. change (NoDup (map fst A)). now rewrite NA.
    - intros k v Hk. apply in_map_iff in Hk. destruct Hk as (na & Hk & Ha). injection Hk as <- <-. destruct (dget String.eqb X1 (fst na)) as [w|] eqn:D1; [right|now left].
      assert (I1 : In (fst na) (map fst X1)). { destruct (in_dec string_dec (fst na) (map fst X1)) as [I|N]; [exact I|]. apply dget_none in N. congruence. }
      destruct (HD (fst na)) as (d & D & NJ); [rewrite <- NA; now apply in_map|exact I1|]. rewrite D1 in D. injection D as ->. exists d, [("joint_axes"%string, ASeries (snd na))]. split; [reflexivity|]. split; [reflexivity|]. intros f [<-|[]]. exact NJ.
    - exists X2. eexists. unfold run_stages. cbn [foldM fst snd]. unfold axes_stage. rewrite EA. cbn [bind]. cbn [fst snd]. rewrite EU. reflexivity. }
  destruct AX as (X2 & k2 & E2).
  assert (TARGET : forall f y ks r, f x s = Ok r -> map fst r = ks -> NoDup ks -> (forall k, In k ks -> ~ In k (map fst y)) -> exists y', run_stages g [target_stage f] (X2, y) (k2, q, x, s) = Ok ((X2, y'), (k2, q, x, s)) /\ map fst y' = map fst y ++ ks).
  { intros f y ks r Er Kr NDk NI. destruct (union_total (map (fun nq => (fst nq, VArr (AQuats (snd nq)))) r) y) as (y' & EU).
    - rewrite map_map. cbn [fst]. change (NoDup (map fst r)). now rewrite Kr.
    - intros k v Hk. left. apply dget_none, NI. apply in_map_iff in Hk. destruct Hk as (nq & Hk & Ha). injection Hk as <- _. rewrite <- Kr. now apply in_map.
    - assert (ET : run_stages g [target_stage f] (X2, y) (k2, q, x, s) = Ok ((X2, y'), (k2, q, x, s))).
      { unfold run_stages. cbn [foldM fst snd]. unfold target_stage. rewrite Er. cbn [bind]. cbn [fst snd]. rewrite EU. reflexivity. }
      exists y'. split; [exact ET|]. apply target_part with (ks := ks) in ET; [apply ET| |exact NDk|exact NI]. intros r' Er'. congruence. }
  assert (REL : exists y3, run_stages g p2 (X2, []) (k2, q, x, s) = Ok ((X2, y3), (k2, q, x, s)) /\ map fst y3 = if go_relpose o then non_roots ml else []).
  { destruct (go_relpose o).
    - apply bind_Ok in P2. destruct P2 as (m & H & P2). apply ND in H. subst m. injection P2 as <-. destruct (C58_rel_pose W ml s x WF) as (r' & R1 & R2 & _); [reflexivity|exact FR| |].
      + intros i p nm Hp Np Hnm. apply SUB. destruct Hnm as [Hnm|Hnm]; eapply nth_error_In; exact Hnm.
      + destruct (TARGET (fun x sx => rel_pose W ml x (Some sx)) [] (non_roots ml) r' R1 R2) as (y3 & A & B); [apply (NoDup_where ml (fun p => negb (Z.eqb p (-1))) NDm (wf_names _ _ WF))|intros k _ []|]. exists y3. split; [exact A|exact B].
    - injection P2 as <-. exists []. split; reflexivity. }
  destruct REL as (y3 & E3 & K3).
  assert (NR : forall k, In k (roots ml) -> ~ In k (map fst y3)).
  { intros k Hk. rewrite K3. destruct (go_relpose o); [|intros []]. intros H. exact (non_roots_or ml k H Hk NDm). }
  assert (ROOT : forall incl c2p, exists y', run_stages g [target_stage (fun x sx => root_target W incl c2p ml x sx)] (X2, y3) (k2, q, x, s) = Ok ((X2, y'), (k2, q, x, s)) /\ map fst y' = map fst y3 ++ roots ml).
  { intros incl c2p. destruct (C58_root W ml s x WF incl c2p FR) as (r' & R1 & R2 & _); [intros i nm Hp Hnm; apply SUB; eapply nth_error_In; exact Hnm|].
    apply (TARGET (fun x sx => root_target W incl c2p ml x sx) y3 (roots ml) r' R1 R2); [apply (NoDup_where ml (fun p => Z.eqb p (-1)) NDm (wf_names _ _ WF))|exact NR]. }
  assert (RT : exists y5, run_stages g (p3 ++ p4) (X2, y3) (k2, q, x, s) = Ok ((X2, y5), (k2, q, x, s)) /\ (forall k, In k (map fst y5) -> In k (link_names ml)) /\ NoDup (map fst y5)).
  { assert (SUBW : forall c k, In k (map fst (filter (fun np : string * Z => c (snd np)) (combine (link_names ml) (link_parents ml)))) -> In k (link_names ml)).
    { intros c k H. apply in_map_iff in H. destruct H as ([m p] & <- & H). apply filter_In in H. destruct H as [H _]. now apply in_combine_l in H. }
    assert (S3 : forall k, In k (map fst y3) -> In k (link_names ml)). { intros k. rewrite K3. destruct (go_relpose o); [apply (SUBW (fun p => negb (Z.eqb p (-1))))|intros []]. }
    assert (N3 : NoDup (map fst y3)). { rewrite K3. destruct (go_relpose o); [apply (NoDup_where ml (fun p => negb (Z.eqb p (-1))) NDm (wf_names _ _ WF))|constructor]. }
    assert (FIN : forall y' : data, map fst y' = map fst y3 ++ roots ml -> (forall k, In k (map fst y') -> In k (link_names ml)) /\ NoDup (map fst y')).
    { intros y' ->. split.
      - intros k Hk. apply in_app_iff in Hk. destruct Hk as [Hk|Hk]; [now apply S3|apply (SUBW (fun p => Z.eqb p (-1)) k Hk)].
      - pose proof (NoDup_where ml (fun p => Z.eqb p (-1)) NDm (wf_names _ _ WF)) as B. change (NoDup (roots ml)) in B. clear - N3 B NR. revert N3 NR. generalize (map fst y3) as l. induction l as [|a l IH]; intros A DJ; [exact B|]. apply NoDup_cons_iff in A. destruct A as [A1 A2]. cbn [app]. constructor.
        + rewrite in_app_iff. intros [H|H]; [contradiction|]. apply (DJ a H). now left.
        + apply IH; [exact A2|]. intros k Hk Hl. apply (DJ k Hk). now right. }
    destruct (go_rootincl o) as [c|].
    - apply bind_Ok in P3. destruct P3 as (u & AS & P3). apply bind_Ok in P3. destruct P3 as (m & H & P3). apply ND in H. subst m. injection P3 as <-. destruct (go_rootfull o) as [c'|]; [discriminate|]. injection P4 as <-.
      rewrite app_nil_r. destruct (ROOT true c) as (y' & A & B). exists y'. split; [exact A|]. now apply FIN.
    - injection P3 as <-. destruct (go_rootfull o) as [c|].
      + apply bind_Ok in P4. destruct P4 as (m & H & P4). apply ND in H. subst m. injection P4 as <-. destruct (ROOT false c) as (y' & A & B). exists y'. split; [exact A|]. now apply FIN.
      + injection P4 as <-. exists y3. split; [reflexivity|]. auto. }
  destruct RT as (y5 & E5 & S5 & N5).
  assert (P1' : p1 = match go_axes o with Some kw => [axes_stage W gauss rr_axis ml kw] | None => [] end).
  { destruct (go_axes o); [|now injection P1 as <-]. apply bind_Ok in P1. destruct P1 as (m & H & P1). apply ND in H. subst m. now injection P1 as <-. }
  assert (E2' : run_stages g p1 (X1, []) (k1, q, x, s) = Ok ((X2, []), (k2, q, x, s))) by (subst p1; exact E2).
  apply (run_app g _ _ _ _ _ _ E1), (run_app g _ _ _ _ _ _ E2'), (run_app g _ _ _ _ _ _ E3). rewrite app_assoc. apply (run_app g _ _ _ _ _ _ E5).
  unfold run_stages. destruct (go_numbers o) eqn:GN; [|injection P5 as <-; cbn [foldM]; eauto].
  apply bind_Ok in P5. destruct P5 as (m & H & P5). apply ND in H. subst m. injection P5 as <-. cbn [foldM fst snd]. unfold number_stage. cbn [fst snd]. specialize (NUM eq_refl). unfold num_links in NUM. rewrite <- (wf_names _ _ WF) in NUM.
  apply axes_part in E2; [|exact WF|exact HD]. destruct E2 as (_ & _ & K2 & _).
  assert (KX : forall k, In k (map fst X2) -> k = "dt"%string \/ In k (link_names ml)).
  { intros k. rewrite K2, K1, K00, !in_app_iff. intros [[H|H]|H].
    - destruct hz; [|destruct H]. destruct H as [<-|[]]. now left.
    - right. destruct (given (go_imu o)); [exact H|destruct H].
    - right. destruct (given (go_axes o)); [|destruct H]. apply filter_In in H. apply H. }
  assert (NX : NoDup (map fst X2)).
  { assert (N1 : NoDup (map fst X1)). { rewrite K1, K00. destruct hz, (given (go_imu o)); cbn [app]; [constructor; assumption|constructor; [intros []|constructor]|exact NDm|constructor]. }
    rewrite K2. destruct (given (go_axes o)); [|now rewrite app_nil_r]. assert (DJ : forall k, In k (filter (fun k => negb (memS k (map fst X1))) (link_names ml)) -> ~ In k (map fst X1)).
    { intros k H. apply filter_In in H. destruct H as [_ H]. apply negb_true_iff in H. now apply memS_false in H. }
    pose proof (NoDup_filter (fun k => negb (memS k (map fst X1))) NDm) as B. revert N1 DJ B. generalize (filter (fun k => negb (memS k (map fst X1))) (link_names ml)) as l2. generalize (map fst X1) as l. clear.
    induction l as [|a l IH]; intros l2 A DJ B; [exact B|]. apply NoDup_cons_iff in A. destruct A as [A1 A2]. cbn [app]. constructor.
    - rewrite in_app_iff. intros [H|H]; [contradiction|]. apply (DJ a H). now left.
    - apply IH; [exact A2| |exact B]. intros k Hk Hl. apply (DJ k Hk). now right. }
  rewrite (rename_spec (link_names ml) NDm NUM X2 NX). 2: { intros k Hk. destruct (KX k Hk) as [->|I]; [apply str_nat_dt|now apply NUM]. }
  cbn [bind]. rewrite (rename_spec (link_names ml) NDm NUM y5 N5) by (intros k Hk; apply NUM, S5, Hk). cbn [bind]. eauto.
Qed.

(** ** The segments *)
Lemma increasing_tail a l : increasing (a :: l) -> increasing l /\ forall b, In b l -> (a < b)%nat.
Proof.
  intros H. split.
  - intros i j x y L A B. exact (H (S i) (S j) x y ltac:(lia) A B).
  - intros b Hb. apply In_nth_error in Hb. destruct Hb as (j & Hj). exact (H 0%nat (S j) a b ltac:(lia) eq_refl Hj).
Qed.
Lemma increasing_unique l : forall l', increasing l -> increasing l' -> (forall i, In i l <-> In i l') -> l = l'.
Proof.
  induction l as [|a l IH]; intros [|b l'] A B H.
  - reflexivity.
  - destruct (proj2 (H b) (or_introl eq_refl)).
  - destruct (proj1 (H a) (or_introl eq_refl)).
  - destruct (increasing_tail a l A) as [A1 A2], (increasing_tail b l' B) as [B1 B2].
    assert (a = b). { destruct (proj1 (H a) (or_introl eq_refl)) as [E|E]; [now symmetry|]. destruct (proj2 (H b) (or_introl eq_refl)) as [E'|E']; [exact E'|]. specialize (A2 b E'). specialize (B2 a E). lia. }
    subst b. f_equal. apply IH; auto. intros i. split; intros Hi.
    + destruct (proj1 (H i) (or_intror Hi)) as [E|E]; [|exact E]. subst i. specialize (A2 a Hi). lia.
    + destruct (proj2 (H i) (or_intror Hi)) as [E|E]; [|exact E]. subst i. specialize (B2 a Hi). lia.
Qed.
Lemma picks_unique {A} keep (l a b : list A) : picks keep l a -> picks keep l b -> a = b.
Proof.
  unfold picks. intros H. revert b. induction H as [|i x keep a H _ IH]; intros b Hb; inversion Hb; subst; [reflexivity|]. f_equal; [congruence|]. now apply IH.
Qed.
Lemma noimu_same (s s' s0 s0' : rsys) att att' : parsed W ops s -> parsed W ops s' -> link_names s' = link_names s -> link_parents s' = link_parents s ->
  make_sys_noimu W ops s None = Ok (s0, att) -> make_sys_noimu W ops s' None = Ok (s0', att') -> link_names s0 = link_names s0'.
Proof.
  intros PD PD' EN EP H H'. destruct (C08_noimu_partial W ops LAWS s s0 att PD H) as (_ & (keep & R1 & K1) & _). destruct (C08_noimu_partial W ops LAWS s' s0' att' PD' H') as (_ & (keep' & R2 & K2) & _).
  assert (keep = keep'). { apply increasing_unique; [apply R1|apply R2|]. intros i. rewrite K1, K2. unfold num_links. rewrite EN, EP. reflexivity. }
  subst keep'. apply restricts_names in R1, R2. rewrite EN in R2. eapply picks_unique; eauto.
Qed.
Lemma picks_filter (f : string -> bool) (l : list string) : picks (filter (fun i => f (nth i l ""%string)) (seq 0 (length l))) l (filter f l).
Proof.
  assert (X : forall r pre, picks (filter (fun i => f (nth i (pre ++ r) ""%string)) (seq (length pre) (length r))) (pre ++ r) (filter f r)).
  { induction r as [|a r IH]; intros pre; [constructor|]. cbn [length seq filter]. rewrite nth_middle. specialize (IH (pre ++ [a])). rewrite app_length, <- app_assoc in IH. cbn [length app] in IH. rewrite Nat.add_1_r in IH.
    destruct (f a); [|exact IH]. constructor; [|exact IH]. rewrite nth_error_app2, Nat.sub_diag by lia. reflexivity. }
  exact (X l []).
Qed.
(** The segments are the links that are no IMUs, in order, if nothing is attached to the IMUs. *)
Theorem C68_segments (s s0 : rsys) att : parsed W ops s -> (forall i n j, nth_error (link_names s) i = Some n -> is_imu_name n = true -> nth_error (link_parents s) j <> Some (Z.of_nat i)) ->
  make_sys_noimu W ops s None = Ok (s0, att) -> link_names s0 = filter (fun n => negb (is_imu_name n)) (link_names s).
Proof.
  intros PD LEAF H. destruct (C08_noimu_partial W ops LAWS s s0 att PD H) as (_ & (keep & R1 & K1) & _). pose proof (pd_wf _ _ _ PD) as WF.
  assert (LE : forall k n i, nth_error (link_names s) k = Some n -> is_imu_name n = true -> descends (link_parents s) k i -> i = k).
  { intros k n i Hk F D. induction D as [|i p Hp D IH]; [reflexivity|]. subst p. destruct (LEAF k n i Hk F Hp). }
  set (f := fun n => negb (is_imu_name n)) in *. pose proof (restricts_names _ _ _ _ R1) as P1.
  assert (keep = filter (fun i => f (nth i (link_names s) ""%string)) (seq 0 (length (link_names s)))).
  { apply increasing_unique; [apply R1|apply increasing_filter_seq|]. intros i. rewrite K1, filter_In, in_seq. unfold num_links. rewrite <- (wf_names _ _ WF). split.
    - intros [L N]. split; [lia|]. unfold f. apply negb_true_iff. destruct (is_imu_name (nth i (link_names s) ""%string)) eqn:F; [|reflexivity]. destruct (N i _ (nth_error_nth' _ ""%string L) F). constructor.
    - intros [L F]. split; [lia|]. intros k n Hk Fn D. assert (i = k) by (eapply LE; eauto). subst k. unfold f in F. rewrite (nth_error_nth _ _ ""%string Hk), Fn in F. discriminate. }
  subst keep. eapply picks_unique; [exact P1|apply picks_filter].
Qed.

(** ** The generator *)
Variable draws : rng K -> string -> option (option (draw_fn (K := K) P)).
Variable overwrite : string -> option (mconfig -> mconfig).
Variable inits : rng K -> string -> option (option (K -> P)).
Variable pdefault : P.
Notation generate := (gen W ops table draws overwrite inits pdefault gauss rr_axis).

Lemma with_dt_parsed d (s : rsys) : parsed W ops s -> parsed W ops (with_dt d s).
Proof.
  intros [WF ST IN (vs & V & F)]. constructor.
  - destruct WF. constructor; assumption.
  - exact ST.
  - exact IN.
  - exists vs. split; [exact V|exact F].
Qed.
(** C68: every sequence of a generator is laid out as above.  Randomisation must keep the tree of links. *)
Theorem C68_generator (o : gen_opts) (sys_ml s ml : rsys) (g : rng K) key out :
  parsed W ops sys_ml -> (forall k s', setup_all W ops inits pdefault g o k s = Ok s' -> parsed W ops s' /\ link_names s' = link_names sys_ml /\ link_parents s' = link_parents sys_ml) ->
  go_quiet o = [] -> go_final o = None -> sys_noimu W ops o sys_ml = Ok (Some ml) -> ~ In "dt"%string (link_names sys_ml) ->
  (go_numbers o = true -> forall n, In n (link_names ml) -> ~ numeral (num_links ml) n) ->
  generate o sys_ml s g key = Ok out ->
  length out = length (go_configs o) /\
  forall i X y e, nth_error out i = Some ((X, y), e) -> exists k q x s1 X0 y0, e = (k, q, x, s1) /\
    link_names s1 = link_names sys_ml /\ link_parents s1 = link_parents sys_ml /\
    laid_out o (given (go_rates o)) g s1 ml x X0 y0 /\
    if go_numbers o then numbered (link_names ml) X0 X /\ numbered (link_names ml) y0 y else X = X0 /\ y = y0.
Proof.
  intros PM HS GQ GF EN NDT NUM E. unfold gen in E. rewrite EN in E. cbn [bind] in E. cbv zeta in E. set (n := length (go_configs o)) in *.
  apply bind_Ok in E. destruct E as (syss & E1 & E). apply bind_Ok in E. destruct E as (((k & N) & dt) & E2 & E). apply bind_Ok in E. destruct E as ([kl qs] & E3 & E). apply bind_Ok in E. destruct E as (u & SS & E).
  apply bind_Ok in E. destruct E as (stages & E4 & E). cbn [fst snd] in E.
  set (syss' := match dt with Some dt => map (with_dt dt) syss | None => syss end) in *.
  assert (SY : forall s1, In s1 syss' -> parsed W ops s1 /\ link_names s1 = link_names sys_ml /\ link_parents s1 = link_parents sys_ml).
  { assert (SY : forall s1, In s1 syss -> parsed W ops s1 /\ link_names s1 = link_names sys_ml /\ link_parents s1 = link_parents sys_ml).
    { intros s1 H. apply In_nth_error in H. destruct H as (i & H). apply mapM_Ok_iff in E1. destruct (Forall2_nth_r _ _ _ _ _ E1 H) as (j & _ & B). exact (HS _ _ B). }
    unfold syss'. destruct dt; [|exact SY]. intros s1 H. apply in_map_iff in H. destruct H as (s2 & <- & H). destruct (SY s2 H) as (A & B & C). split; [now apply with_dt_parsed|]. auto. }
  assert (MLF : wf W ml /\ (forall s1 s0 att, In s1 syss' -> make_sys_noimu W ops s1 None = Ok (s0, att) -> link_names ml = link_names s0) /\ (forall m, In m (link_names ml) -> In m (link_names sys_ml))).
  { unfold sys_noimu in EN. destruct (_ || _); [|discriminate]. destruct (Nat.ltb_spec 0 (length (findall_imus sys_ml))) as [L|L].
    - apply bind_Ok in EN. destruct EN as ([m att] & EN & Em). cbn [fst] in Em. injection Em as ->. split; [|split].
      + unfold make_sys_noimu in EN. cbn zeta in EN. apply bind_Ok in EN. destruct EN as (att0 & _ & H). apply bind_Ok in H. destruct H as (s1 & H1 & H). injection H as <- <-.
        destruct (delete_list_restricts W ops LAWS _ _ _ true PM H1) as (keep & PD' & _). apply (pd_wf _ _ _ PD').
      + intros s1 s0 att1 I1 H1. destruct (SY s1 I1) as (A & B & C). eapply noimu_same; [exact PM|exact A|exact B|exact C|exact EN|exact H1].
      + intros m Hm. destruct (C08_noimu_partial W ops LAWS _ _ _ PM EN) as (_ & (keep & R1 & _) & _). apply restricts_names in R1. apply In_nth_error in Hm. destruct Hm as (j & Hm). destruct (Forall2_nth_r _ _ _ _ _ R1 Hm) as (i & _ & B). eapply nth_error_In. exact B.
    - injection EN as <-. split; [apply PM|]. split; [|auto]. intros s1 s0 att I1 H1. destruct (SY s1 I1) as (A & B & C). unfold make_sys_noimu in H1. cbn zeta in H1. unfold findall_imus in *. rewrite B in H1.
      destruct (filter is_imu_name (link_names sys_ml)); [|cbn [length] in L; lia]. cbn in H1. injection H1 as <- <-. now symmetry. }
  destruct MLF as (WML & MS & SUB).
  assert (LQ : length qs = length (combine syss' (go_configs o))).
  { clear - E3. revert k kl qs E3. induction (combine syss' (go_configs o)) as [|[s1 c] r IH]; intros k kl qs H; cbn [draw_all] in H; [now injection H as <- <-|].
    apply bind_Ok in H. destruct H as ([k1 q] & _ & H). apply bind_Ok in H. destruct H as ([k2 rest] & H1 & H). cbn [fst snd] in *. injection H as <- <-. cbn [length]. f_equal. eapply IH. exact H1. }
  pose proof (mapM_Ok_length _ _ _ E1) as L1. rewrite seq_length in L1. assert (L1' : length syss' = n) by (unfold syss'; destruct dt; rewrite ?map_length; exact L1).
  assert (LC : length (combine syss' (go_configs o)) = n) by (rewrite combine_length; unfold n in *; lia).
  split. { apply mapM_Ok_length in E. rewrite E, combine_length, seq_length, combine_length. unfold n in *. lia. }
  intros i X y e Hi. apply mapM_Ok_iff in E. destruct (Forall2_nth_r _ _ _ _ _ E Hi) as ([j [q s1]] & A & B). cbn [fst snd] in B.
  assert (IS : In s1 syss'). { apply nth_error_In in A. apply in_combine_r in A. now apply in_combine_r in A. }
  destruct (SY s1 IS) as (PD & N1 & N2).
  assert (SUB1 : forall m, In m (link_names ml) -> In m (link_names s1)) by (intros m Hm; rewrite N1; now apply SUB).
  assert (NDT1 : ~ In "dt"%string (link_names ml)) by (intros H; apply NDT; now apply SUB).
  destruct (C68_sequence o (Some ml) stages _ g _ q s1 ml X y e PD WML GQ GF (or_intror eq_refl) (fun s0 att => MS s1 s0 att IS) SUB1 NDT1 NUM E4 B) as (x & k' & X0 & y0 & -> & _ & LO & NB).
  exists k', q, x, s1, X0, y0. split; [reflexivity|]. split; [exact N1|]. split; [exact N2|]. split; [|exact NB]. destruct (go_rates o); exact LO.
Qed.
End Layout.

(** ** Arrays *)
Lemma rows_sample a f t : feature_rows a = Ok f -> nth t f [] = sample a t.
Proof.
  intros E. destruct a; cbn [feature_rows] in E; try discriminate; injection E as <-; cbn [sample]; [| |reflexivity].
  - destruct (nth_error l t) as [v|] eqn:H.
    + apply nth_error_nth. now rewrite nth_error_map, H.
    + apply nth_overflow. rewrite map_length. now apply nth_error_None.
  - destruct (nth_error l t) as [v|] eqn:H.
    + apply nth_error_nth. now rewrite nth_error_map, H.
    + apply nth_overflow. rewrite map_length. now apply nth_error_None.
Qed.
Lemma del_length (d : data) : NoDup (map fst d) -> In "dt"%string (map fst d) -> S (length (ddel String.eqb d "dt"%string)) = length d.
Proof.
  unfold ddel. induction d as [|[k v] d IH]; intros ND H; [destruct H|]. cbn [map fst] in *. apply NoDup_cons_iff in ND. destruct ND as [N1 ND]. cbn [filter fst length]. destruct (String.eqb_spec "dt" k) as [<-|NE]; cbn [negb].
  - f_equal. rewrite filter_all; [reflexivity|]. intros [k' v'] Hk. cbn [fst]. destruct (String.eqb_spec "dt" k') as [<-|_]; [|reflexivity]. destruct N1. apply in_map_iff. exists ("dt"%string, v'). auto.
  - cbn [length]. rewrite IH; [reflexivity|exact ND|]. destruct H as [H|H]; [congruence|exact H].
Qed.
Lemma expand_spec (X X' : data) T : NoDup (map fst X) -> expand_dt X T = Ok X' ->
  (dget String.eqb X "dt"%string = None /\ X' = X) \/
  (exists l, dget String.eqb X "dt"%string = Some (VArr (AVec l)) /\ S (length X') = length X /\
   forall k v, k <> "dt"%string -> dget String.eqb X' k = Some v -> exists d, dget String.eqb X k = Some (VDict d) /\ v = VDict (dset String.eqb d "dt"%string (ARows (repeat l T)))).
Proof.
  intros ND E. unfold expand_dt in E. destruct (dget String.eqb X "dt"%string) as [v|] eqn:D; [right|left; split; [reflexivity|now injection E as <-]].
  assert (I : In "dt"%string (map fst X)). { destruct (in_dec string_dec "dt"%string (map fst X)) as [I|N]; [exact I|]. apply dget_none in N. congruence. }
  apply bind_Ok in E. destruct E as (l & E0 & E). destruct v as [[| | | |]|]; try discriminate. injection E0 as ->. exists l. split; [reflexivity|].
  pose proof (mapM_Ok_length _ _ _ E) as L. rewrite L. split; [now apply del_length|]. clear L ND I D.
  intros k v NE. unfold ddel in E. revert X' E. induction X as [|[a u] X IH]; intros X' E; cbn [filter fst] in E; [injection E as <-; discriminate|].
  cbn [dget]. destruct (String.eqb_spec "dt" a) as [<-|NA]; cbn [negb] in E.
  - destruct (String.eqb_spec k "dt"); [contradiction|]. intros H. exact (IH _ E H).
  - cbn [mapM] in E. apply bind_Ok in E. destruct E as ([a' v'] & E1 & E). apply bind_Ok in E. destruct E as (r & E2 & E). injection E as <-. cbn [fst snd] in E1. destruct u as [|d]; [discriminate|]. injection E1 as <- <-. cbn [dget].
    destruct (String.eqb k a); [intros H; injection H as <-; eauto|]. intros H. exact (IH _ E2 H).
Qed.
Lemma mapM_seq {B} (f : nat -> result B) n l : mapM f (seq 0 n) = Ok l -> length l = n /\ forall i, (i < n)%nat -> exists b, nth_error l i = Some b /\ f i = Ok b.
Proof.
  intros E. pose proof (mapM_Ok_length _ _ _ E) as L. rewrite seq_length in L. split; [exact L|]. intros i Hi.
  assert (SI : nth_error (seq 0 n) i = Some i) by (rewrite nth_error_nth' with (d := 0%nat) by (rewrite seq_length; lia); now rewrite seq_nth by lia). exact (Prelude.mapM_nth _ _ _ _ _ E SI).
Qed.
Lemma flatten_spec T sq A : flatten T sq = Ok A -> length A = T /\ forall t, (t < T)%nat -> nth_error A t = Some (map (fun fs => concat (map (fun f => nth t f []) fs)) sq).
Proof.
  intros E. unfold flatten in E. destruct sq as [|f r]; [discriminate|]. apply bind_Ok in E. destruct E as (u & _ & E). injection E as <-. split; [now rewrite map_length, seq_length|]. intros t Ht.
  rewrite nth_error_map, nth_error_nth' with (d := 0%nat) by (rewrite seq_length; lia). now rewrite seq_nth by lia.
Qed.
(** C68: the arrays.  Index 0: time.  Index 1: segments by number.  Index 2: accelerometer, gyroscope, joint axis, sampling
    interval. *)
Theorem C68_arrays (X y : data) A B : NoDup (map fst X) -> (forall seg, feature X seg "dt"%string = None) -> expand_then_flatten (X, y) = Ok (A, B) ->
  exists n, length X = (n + if given (dget String.eqb X "dt"%string) then 1 else 0)%nat /\ length B = length A /\
  (forall a, feature X "0"%string "gyr"%string = Some a -> exists l, a = ASeries l /\ length A = length l) /\
  forall t ra rb, nth_error A t = Some ra -> nth_error B t = Some rb -> length ra = n /\ length rb = n /\
  forall i, (i < n)%nat -> exists acc gyr a dt, feature X (str_nat i) "acc"%string = Some acc /\ feature X (str_nat i) "gyr"%string = Some gyr /\ dget String.eqb y (str_nat i) = Some (VArr a) /\
    nth_error ra i = Some (sample acc t ++ sample gyr t ++ maybe (feature X (str_nat i) "joint_axes"%string) t ++ dt) /\ nth_error rb i = Some (sample a t) /\
    match dget String.eqb X "dt"%string with Some v => v = VArr (AVec dt) | None => dt = [] end.
Proof.
  intros ND NF E. unfold expand_then_flatten in E. apply bind_Ok in E. destruct E as (v0 & V0 & E). apply bind_Ok in E. destruct E as (d0 & D0 & E). apply bind_Ok in E. destruct E as (gy & G0 & E). apply bind_Ok in E. destruct E as (T & T0 & E).
  apply bind_Ok in E. destruct E as (X1 & EX & E). cbv zeta in E. apply bind_Ok in E. destruct E as (Xs & EXs & E). apply bind_Ok in E. destruct E as (ys & Eys & E). apply bind_Ok in E. destruct E as (A' & EA & E). apply bind_Ok in E. destruct E as (B' & EB & E). injection E as -> ->.
  apply flatten_spec in EA, EB. destruct EA as [LA HA], EB as [LB HB]. apply mapM_seq in EXs, Eys. destruct EXs as [LX HX], Eys as [Ly Hy].
  assert (VD : forall v d, sub_dict v = Ok d -> v = VDict d) by (intros [|d] d' H; [discriminate|now injection H as ->]). apply VD in D0. subst v0.
  unfold dgetE in V0. destruct (dget String.eqb X "0"%string) as [w|] eqn:W0; [|discriminate]. injection V0 as ->.
  exists (length X1). split; [|split; [lia|split]].
  - destruct (expand_spec X X1 T ND EX) as [[D ->]|(l & D & L & _)]; rewrite D; cbn [given]; lia.
  - intros a Ha. unfold feature in Ha. rewrite W0 in Ha. unfold dgetE in G0. rewrite Ha in G0. injection G0 as ->. destruct gy; try discriminate. injection T0 as <-. eauto.
  - intros t ra rb Ra Rb. assert (Ht : (t < T)%nat) by (rewrite <- LA; apply nth_error_Some; congruence). rewrite (HA t Ht) in Ra. rewrite (HB t Ht) in Rb. injection Ra as <-. injection Rb as <-. rewrite !map_length.
    split; [exact LX|]. split; [exact Ly|]. intros i Hi. destruct (HX i Hi) as (fs & F1 & F2). destruct (Hy i Hi) as (gs & G1 & G2).
    apply bind_Ok in F2. destruct F2 as (v & V & F2). apply bind_Ok in F2. destruct F2 as (d & D & F2). apply VD in D. subst v. apply bind_Ok in F2. destruct F2 as (tp & TP & F2).
    unfold dict_to_tuple in TP. apply bind_Ok in TP. destruct TP as (acc & TA & TP). apply bind_Ok in TP. destruct TP as (gyr & TG & TP). injection TP as <-.
    apply bind_Ok in G2. destruct G2 as (w & Wy & G2). destruct w as [a|]; [|discriminate]. apply bind_Ok in G2. destruct G2 as (f & Fy & G2). injection G2 as <-.
    unfold dgetE in V, TA, TG, Wy. destruct (dget String.eqb X1 (str_nat i)) as [v1|] eqn:DX1; [|discriminate]. injection V as ->. destruct (dget String.eqb d "acc"%string) as [acc'|] eqn:DA; [|discriminate]. injection TA as ->.
    destruct (dget String.eqb d "gyr"%string) as [gyr'|] eqn:DG; [|discriminate]. injection TG as ->. destruct (dget String.eqb y (str_nat i)) as [y1|] eqn:DY; [|discriminate]. injection Wy as ->.
    assert (CC : forall tp fs, mapM feature_rows tp = Ok fs -> concat (map (fun f => nth t f []) fs) = concat (map (fun a => sample a t) tp)).
    { clear. induction tp as [|a tp IH]; intros fs E; cbn [mapM] in E; [now injection E as <-|]. apply bind_Ok in E. destruct E as (f & E1 & E). apply bind_Ok in E. destruct E as (r & E2 & E). injection E as <-. cbn [map concat]. rewrite (rows_sample a f t E1). f_equal. now apply IH. }
    assert (ND0 : str_nat i <> "dt"%string). { intros H. apply (str_nat_dt (S i)). exists i. split; [lia|now symmetry]. }
    assert (KEY : exists d', dget String.eqb X (str_nat i) = Some (VDict d') /\ (forall k, k <> "dt"%string -> dget String.eqb d k = dget String.eqb d' k) /\
      exists dt, match dget String.eqb d "dt"%string with Some a => sample a t | None => [] end = dt /\ match dget String.eqb X "dt"%string with Some v => v = VArr (AVec dt) | None => dt = [] end).
    { destruct (expand_spec X X1 T ND EX) as [[D ->]|(l & D & L & H)]; rewrite D.
      - exists d. split; [exact DX1|]. split; [reflexivity|]. exists []. split; [|reflexivity]. specialize (NF (str_nat i)). unfold feature in NF. rewrite DX1 in NF. now rewrite NF.
      - destruct (H _ _ ND0 DX1) as (d' & D1 & D2). injection D2 as ->. exists d'. split; [exact D1|]. split; [intros k Hk; now rewrite dget_dset_other by (apply String.eqb_eq || congruence)|].
        exists l. rewrite dget_dset_same by apply String.eqb_eq. split; [|reflexivity]. cbn [sample]. clear - Ht. revert t Ht. induction T as [|T IH]; intros [|t] Ht; try lia; cbn [repeat nth]; [reflexivity|]. apply IH. lia. }
    destruct KEY as (d' & D1 & D2 & dt & Edt & Mdt). exists acc, gyr, a, dt. unfold feature. rewrite D1. rewrite <- !D2 by discriminate. split; [exact DA|]. split; [exact DG|]. split; [reflexivity|]. split; [|split; [|exact Mdt]].
    + rewrite nth_error_map, F1. cbn [option_map]. f_equal. rewrite (CC _ _ F2). cbn [app map concat]. do 2 f_equal. rewrite map_app, concat_app. f_equal.
      * destruct (dget String.eqb d "joint_axes"%string); cbn [map concat maybe]; [now rewrite app_nil_r|reflexivity].
      * rewrite <- Edt. destruct (dget String.eqb d "dt"%string); cbn [map concat]; [now rewrite app_nil_r|reflexivity].
    + rewrite nth_error_map, G1. cbn [option_map map concat]. rewrite app_nil_r. f_equal. now apply rows_sample.
Qed.

Section Flat.
Context {K P O : Type}.
Notation rsys := (System R (plink (params P)) geometry O).
Variable W : widths.
Variable ops : parse_ops R (plink (params P)) geometry.
Variable gauss : R -> R.
Variable table : joint_table P.
Variable rr_axis : string -> params P -> result vec3.
Notation laid := (laid_out (K := K) (P := P) (O := O) W gauss rr_axis).

Lemma sources (o : @gen_opts K P O) g (s ml : rsys) x X0 y0 kw : go_imu o = Some kw -> laid o false g s ml x X0 y0 -> forall seg, In seg (link_names ml) -> exists d, dget String.eqb X0 seg = Some (VDict d) /\ ~ In "dt"%string (map fst d).
Proof.
  intros GI LO seg IS. pose proof (lo_features _ _ _ _ _ _ _ _ _ _ _ LO seg) as F. rewrite GI in F. cbn [given orb] in F.
  assert (X : forall worn, has_features X0 seg (imu_features worn (k_has_mag kw) ++ (if given (go_axes o) then ["joint_axes"%string] else [])) -> exists d, dget String.eqb X0 seg = Some (VDict d) /\ ~ In "dt"%string (map fst d)).
  { intros worn (d & D & N). exists d. split; [exact D|]. rewrite N. unfold imu_features. destruct (worn && k_has_mag kw), (given (go_axes o)); cbn; intuition discriminate. }
  destruct (lo_imu _ _ _ _ _ _ _ _ _ _ _ LO kw seg GI IS) as ([B|W'] & _); [apply (X false), (F false); auto|apply (X true), (F true); auto].
Qed.
(** C68: the arrays made from a sequence of the generator.  The segments are the links of the system without IMUs, in order. *)
Theorem C68_flat (o : @gen_opts K P O) g (s ml : rsys) x X0 y0 X y A B kw : wf W ml -> ~ In "dt"%string (link_names ml) -> (forall n, In n (link_names ml) -> ~ numeral (num_links ml) n) ->
  go_imu o = Some kw -> laid o false g s ml x X0 y0 -> numbered (link_names ml) X0 X -> numbered (link_names ml) y0 y -> expand_then_flatten (X, y) = Ok (A, B) ->
  length B = length A /\ forall t ra rb, nth_error A t = Some ra -> nth_error B t = Some rb -> length ra = num_links ml /\ length rb = num_links ml /\
  forall i seg, nth_error (link_names ml) i = Some seg -> exists acc gyr a, feature X0 seg "acc"%string = Some acc /\ feature X0 seg "gyr"%string = Some gyr /\ dget String.eqb y0 seg = Some (VArr a) /\
    nth_error ra i = Some (sample acc t ++ sample gyr t ++ maybe (feature X0 seg "joint_axes"%string) t) /\ nth_error rb i = Some (sample a t).
Proof.
  intros WF NDT NUM GI LO NX NY E. unfold num_links in *. rewrite <- (wf_names _ _ WF) in *. destruct NX as (X1 & X2 & X3 & X4 & X5), NY as (Y1 & _).
  pose proof (lo_keys _ _ _ _ _ _ _ _ _ _ _ LO) as KE. rewrite GI in KE. cbn [given orb app] in KE.
  assert (DT : dget String.eqb X "dt"%string = None). { rewrite X2; [|exact NDT|apply str_nat_dt]. apply dget_none. now rewrite KE. }
  assert (NF : forall seg, feature X seg "dt"%string = None).
  { intros k. unfold feature. destruct (in_dec string_dec k (link_names ml)) as [I|NI]; [now rewrite X3|].
    assert (DEC : numeral (length (link_names ml)) k \/ ~ numeral (length (link_names ml)) k).
    { destruct (in_dec string_dec k (map str_nat (seq 0 (length (link_names ml))))) as [I|N]; [left|right].
      - apply in_map_iff in I. destruct I as (j & <- & I). apply in_seq in I. exists j. split; [lia|reflexivity].
      - intros (j & L & ->). apply N, in_map, in_seq. lia. }
    destruct DEC as [(j & L & ->)|N]; [|rewrite X2 by assumption; rewrite (proj2 (dget_none X0 k)); [reflexivity|now rewrite KE]].
    destruct (nth_error (link_names ml) j) as [n|] eqn:Hj; [|apply nth_error_None in Hj; lia]. rewrite (X1 j n Hj). destruct (sources o g s ml x X0 y0 kw GI LO n) as (d & D & ND); [eapply nth_error_In; exact Hj|]. rewrite D. now apply dget_none. }
  destruct (C68_arrays X y A B X5 NF E) as (n & LN & LB & _ & H). rewrite DT in LN, H. cbn [given] in LN. rewrite Nat.add_0_r in LN.
  assert (n = length (link_names ml)) as ->. { rewrite <- LN, X4, <- KE. symmetry. apply map_length. }
  split; [exact LB|]. intros t ra rb Ra Rb. destruct (H t ra rb Ra Rb) as (H1 & H2 & H3). split; [exact H1|]. split; [exact H2|]. intros i seg Hi.
  destruct (H3 i) as (acc & gyr & a & dt & F1 & F2 & F3 & F4 & F5 & ->); [apply nth_error_Some; congruence|]. rewrite app_nil_r in F4.
  assert (FE : forall f, feature X (str_nat i) f = feature X0 seg f) by (intros f; unfold feature; now rewrite (X1 i seg Hi)). rewrite FE in F1, F2, F4. rewrite (Y1 i seg Hi) in F3. exists acc, gyr, a. auto.
Qed.

(** Not so when the sampling rate is random: the generator gives the sampling interval as a number, flattening wants an array. *)
Theorem C68_rates_refuted (o : @gen_opts K P O) g (s ml : rsys) x X0 y0 X y : ~ In "dt"%string (link_names ml) ->
  laid o true g s ml x X0 y0 -> numbered (link_names ml) X0 X -> forall r, expand_then_flatten (X, y) <> Ok r.
Proof.
  intros NDT LO (_ & X2 & _) r E. pose proof (lo_dt _ _ _ _ _ _ _ _ _ _ _ LO eq_refl) as D. rewrite <- (X2 "dt"%string NDT (str_nat_dt _)) in D.
  unfold expand_then_flatten in E. apply bind_Ok in E. destruct E as (v0 & _ & E). apply bind_Ok in E. destruct E as (d0 & _ & E). apply bind_Ok in E. destruct E as (gy & _ & E). apply bind_Ok in E. destruct E as (T & _ & E).
  apply bind_Ok in E. destruct E as (X1 & EX & _). unfold expand_dt in EX. rewrite D in EX. discriminate.
Qed.
(** A random sampling rate and a user's own function for the data exclude each other. *)
Theorem C68_rates_finalize_refuted (o : @gen_opts K P O) noimu stages f (g : rng K) key q (s : rsys) : go_quiet o = [] -> go_final o = Some f ->
  finalize_pipe W ops gauss rr_axis o noimu = Ok stages -> forall r, context W table g stages true key q s <> Ok r.
Proof.
  intros GQ GF EP r E. unfold context in E. apply bind_Ok in E. destruct E as (rows & _ & E). unfold finalize_pipe in EP. rewrite GQ, GF in EP.
  apply bind_Ok in EP. destruct EP as (p1 & _ & EP). apply bind_Ok in EP. destruct EP as (p2 & _ & EP). apply bind_Ok in EP. destruct EP as (p3 & _ & EP). apply bind_Ok in EP. destruct EP as (p4 & _ & EP). apply bind_Ok in EP. destruct EP as (p5 & _ & EP). injection EP as <-.
  cbn [map app] in E. unfold run_stages in E. cbn [foldM] in E. apply bind_Ok in E. destruct E as (v & E & _). unfold finalize_stage in E. cbn [fst snd length] in E. discriminate.
Qed.
(** Orientation of the root, or numbers instead of names, without joint axes, relative orientations and inclinations: never works. *)
Theorem C68_undefined_refuted (o : @gen_opts K P O) (sys_ml s : rsys) draws overwrite inits pdefault (g : rng K) key :
  go_axes o = None -> go_relpose o = false -> go_rootincl o = None -> go_rootfull o <> None \/ go_numbers o = true ->
  forall out, gen W ops table draws overwrite inits pdefault gauss rr_axis o sys_ml s g key <> Ok out.
Proof.
  intros GA GR GI OR out E. unfold gen, sys_noimu in E. rewrite GA, GR, GI in E. cbn [orb bind] in E. cbv zeta in E.
  apply bind_Ok in E. destruct E as (syss & E1 & E). apply bind_Ok in E. destruct E as (((k & N) & dt) & E2 & E). apply bind_Ok in E. destruct E as (kq & E3 & E). apply bind_Ok in E. destruct E as (u & SS & E).
  apply bind_Ok in E. destruct E as (stages & EP & _). unfold finalize_pipe in EP. rewrite GA, GR, GI in EP. cbn [bind need] in EP. destruct (go_rootfull o); [discriminate|]. cbn [bind] in EP.
  destruct OR as [OR|OR]; [congruence|]. rewrite OR in EP. discriminate.
Qed.
End Flat.

(** Names that are numbers: the data of one link replace those of the other. *)
Theorem C68_numerals_refuted : exists names d d', NoDup names /\ NoDup (map fst d) /\ rename_links d names = Ok d' /\ ~ numbered names d d' /\
  exists k v, dget String.eqb d k = Some v /\ forall k', dget String.eqb d' k' <> Some v.
Proof.
  exists ["1"; "0"]%string, [("1"%string, VArr (AScalar 1)); ("0"%string, VArr (AScalar 2))], [("1"%string, VArr (AScalar 1))].
  assert (N : NoDup ["1"; "0"]%string) by (repeat (constructor; [cbn; intuition discriminate|]); constructor).
  split; [exact N|]. split; [exact N|]. split; [reflexivity|]. split; [intros (_ & _ & _ & H & _); discriminate|].
  exists "0"%string, (VArr (AScalar 2)). split; [reflexivity|]. intros k' H. apply dget_some_in in H. destruct H as [H|[]]. injection H as _ H. lra.
Qed.
