(** * C46: PD control matches links by name. *)
From Coq Require Import Reals Lra String ZArith Lia Bool List.
From Verif Require Import Prelude M_Sys S_Sys P_Scan P_Run M_Math P_Math P_Trig P_Rot M_Geom M_Joint M_Kin M_Dyn M_Compose S_Kin P_Joint P_Kin C_Kin C_State P_Step C_Spring C_Step C_Union M_Pd P_Pd X_Demo.
Import ListNotations.

(** ** Specification *)
(** Row [k] of a table; after its end the last row is held. *)
Definition held {A} (l : list A) (k : nat) (x : A) : Prop := nth_error l (Nat.min k (length l - 1)) = Some x.

Section Spec.
Context {P O : Type}.
Variable W : widths.
Variable jt : joint_table P.
Notation rsys := (System R (plink (params P)) geometry O).

(** The trajectory has at least one row and one column per coordinate of the reference system. *)
Definition shaped (r : rsys) (q_ref : traj) : Prop :=
  q_size W r = Ok (tr_width q_ref) /\ Forall (fun row => length row = tr_width q_ref) (tr_rows q_ref) /\ tr_rows q_ref <> [].
(** Links that occur in both systems have the same joint type. *)
Definition same_types (s r : rsys) : Prop :=
  forall i j name ti tj, nth_error (link_names s) i = Some name -> nth_error (link_names r) j = Some name ->
    nth_error (link_types s) i = Some ti -> nth_error (link_types r) j = Some tj -> ti = tj.
(** Every joint of [r] can be controlled, with velocities if [with_D]. *)
Definition controllable (with_D : bool) (r : rsys) : Prop :=
  forall typ, In typ (link_types r) -> exists jm f, jt typ = Some jm /\ jm_p_control jm = Some f /\
    (with_D = true -> exists g, jm_qd_from_q jm = Some g).
(** The control functions of the joint types respect the widths of the joint types. *)
Definition control_widths : Prop := forall typ jm w d, jt typ = Some jm -> qW W typ = Some w -> dW W typ = Some d ->
  (forall f a b, jm_p_control jm = Some f -> length a = w -> length b = w -> length (f a b) = d) /\
  (forall g qs dt, jm_qd_from_q jm = Some g -> qs <> [] -> Forall (fun q => length q = w) qs ->
     g qs dt <> [] /\ Forall (fun v => length v = d) (g qs dt)).
(** The coordinates of link [j] in every row of a trajectory. *)
Definition own_rows (r : rsys) (rows : list (list R)) (j : nat) (own : list (list R)) : Prop :=
  Forall2 (fun row sl => link_coords (qW W) r row j sl) rows own.
(** The torque [tau] of a joint of type [typ] at [q], [qd] that follows link [j] of the reference system at step [k]. *)
Definition pd_law (r : rsys) (q_ref : traj) (Pg : list R) (Dg : option (list R)) (k j : nat) (typ : string)
    (q qd tau : list R) : Prop :=
  exists jm f own qr Pj, jt typ = Some jm /\ jm_p_control jm = Some f /\ own_rows r (tr_rows q_ref) j own /\ held own k qr /\
    link_coords (dW W) r Pg j Pj /\
    match Dg with
    | None => tau = lmul (f q qr) Pj
    | Some D => exists g qdr Dj, jm_qd_from_q jm = Some g /\ held (g own (sys_dt r)) k qdr /\ link_coords (dW W) r D j Dj /\
        tau = ladd (lmul (f q qr) Pj) (lmul (lsub qdr qd) Dj)
    end.
(** [taus] actuates exactly the links that [r] has, by name. *)
Definition actuates (s r : rsys) (q_ref : traj) (Pg : list R) (Dg : option (list R)) (k : nat) (q qd taus : list R) : Prop :=
  qd_size W s = Ok (length taus) /\
  forall i name typ qi qdi tau, nth_error (link_names s) i = Some name -> nth_error (link_types s) i = Some typ ->
    link_coords (qW W) s q i qi -> link_coords (dW W) s qd i qdi -> link_coords (dW W) s taus i tau ->
    (~ In name (link_names r) -> Forall (eq 0%R) tau) /\
    (forall j, nth_error (link_names r) j = Some name -> pd_law r q_ref Pg Dg k j typ qi qdi tau).
End Spec.
(** The controller state after [k] steps. *)
Definition after (k : nat) (cs : pd_state) : pd_state := mkPD (k + pd_i cs) (pd_q_ref cs) (pd_qd_ref cs) (pd_P cs) (pd_D cs).

Lemma held_total {A} (l : list A) k : l <> [] -> exists x, dyn_index l k = Ok x /\ held l k x.
Proof.
  intros N. unfold dyn_index, held. destruct (nth_error l _) as [x|] eqn:E; [eauto|].
  apply nth_error_None in E. destruct l; [congruence|]. cbn [length] in E. lia.
Qed.
Lemma held_In {A} (l : list A) k x : held l k x -> In x l.
Proof. apply nth_error_In. Qed.
Lemma held_map {A B} (f : A -> B) l k x : held l k x -> held (map f l) k (f x).
Proof. unfold held. intros E. rewrite map_length. now apply map_nth_error. Qed.

Section Torque.
Context {P O : Type}.
Variable W : widths.
Variable jt : joint_table P.
Notation rsys := (System R (plink (params P)) geometry O).
Hypothesis CW : control_widths W jt.

Definition nm (r : rsys) (j : nat) : string := nth j (link_names r) ""%string.
Definition by_name {V} (r : rsys) (v : nat -> V) (k : nat) : list (string * V) := map (fun j => (nm r j, v j)) (seq 0 k).
Definition own_of (qs : list nat) (rows : list (list R)) (j : nat) : list (list R) := map (fun row => cut qs row j) rows.
Definition qd_of (r : rsys) (qs : list nat) (rows : list (list R)) (j : nat) : list (list R) :=
  match jt (typ_ r j) with
  | Some jm => match jm_qd_from_q jm with Some g => g (own_of qs rows j) (sys_dt r) | None => [] end
  | None => []
  end.

Lemma wf_size w (s : rsys) ws n : have_widths w (link_types s) ws -> total_width w (link_types s) = Ok n -> n = list_sum ws.
Proof. intros H E. apply total_width_Ok in E. destruct E as (ws' & A & B). now rewrite (have_widths_unique _ _ _ _ A H) in B. Qed.
Lemma coords_cut_d (s : rsys) qs ds v i : lean W s qs ds -> length v = list_sum ds -> i < num_links s -> link_coords (dW W) s v i (cut ds v i).
Proof.
  intros LN Hq Hi. exists ds, (split_by ds v). split; [apply LN|]. split; [now apply split_by_splits|].
  unfold cut. apply nth_error_nth'. now rewrite split_by_length, (ln_ds_length W s qs ds LN).
Qed.
Lemma width_i (s : rsys) qs ds i : lean W s qs ds -> i < num_links s ->
  qW W (typ_ s i) = Some (nth i qs 0) /\ dW W (typ_ s i) = Some (nth i ds 0) /\ nth_error qs i = Some (nth i qs 0) /\ nth_error ds i = Some (nth i ds 0).
Proof.
  intros LN Hi. pose proof (typ_spec W s qs ds LN i Hi) as T.
  assert (A : nth_error qs i = Some (nth i qs 0)) by (apply nth_error_nth'; rewrite (ln_qs_length W s qs ds LN); auto).
  assert (B : nth_error ds i = Some (nth i ds 0)) by (apply nth_error_nth'; rewrite (ln_ds_length W s qs ds LN); auto).
  split; [|split; [|auto]]; eapply have_width_at; eauto; apply LN.
Qed.

Lemma dset_by_name {V} (r : rsys) (v : nat -> V) k x : NoDup (link_names r) -> k < length (link_names r) -> x = v k ->
  dset String.eqb (by_name r v k) (nth k (link_names r) ""%string) x = by_name r v (S k).
Proof. apply dset_names. Qed.
Lemma init_run (r : rsys) qs ds rows Pg Dg dt has_D nd : lean W r qs ds -> NoDup (link_names r) -> length (link_names r) = num_links r ->
  Forall (fun row => length row = list_sum qs) rows -> controllable jt has_D r ->
  dt = sys_dt r -> nd = list_sum qs ->
  forall m k y, k + m = num_links r -> exists ys,
  run (init_step jt dt (length rows) has_D) (mkIM (slices_from 0 qs) (slices_from 0 ds)) y
    (by_name r (own_of qs rows) k, if has_D then by_name r (qd_of r qs rows) k else [], by_name r (cut ds Pg) k,
     if has_D then by_name r (cut ds Dg) k else [])
    (map (fun i => map (fun c => c i) [browcol qs (transpose nd rows); bcol BStr (link_names r) ""%string;
       bcol BStr (link_types r) ""%string; bnumcol ds Pg; bnumcol ds Dg]) (seq k m))
  = Ok (ys, (by_name r (own_of qs rows) (num_links r), if has_D then by_name r (qd_of r qs rows) (num_links r) else [],
     by_name r (cut ds Pg) (num_links r), if has_D then by_name r (cut ds Dg) (num_links r) else [])).
Proof.
  intros LN ND LL F C -> ->. induction m as [|m IH]; intros k y Hk.
  - cbn [seq map run]. rewrite Nat.add_0_r in Hk. subst k. eexists. reflexivity.
  - cbn [seq map run]. unfold init_step at 1, browcol, bcol, bnumcol. rewrite brows_map, !bnums_map.
    destruct (width_i r qs ds k LN ltac:(lia)) as (_ & _ & Wq & _).
    rewrite (link_columns qs rows k _ Wq F). change (map (fun row => cut qs row k) rows) with (own_of qs rows k).
    change (nth k (link_types r) ""%string) with (typ_ r k).
    rewrite (dset_by_name r (cut ds Pg) k), (dset_by_name r (own_of qs rows) k) by (auto; lia).
    destruct (C (typ_ r k)) as (jm & f & J & Pc & G).
    { apply (nth_error_In _ k). apply (typ_spec W r qs ds LN). lia. }
    destruct has_D.
    + destruct (G eq_refl) as (g & Hg). unfold get_joint_model. rewrite J. cbn [bind]. rewrite Hg.
      assert (Q : g (own_of qs rows k) (sys_dt r) = qd_of r qs rows k) by (unfold qd_of; now rewrite J, Hg).
      rewrite (dset_by_name r (qd_of r qs rows) k), (dset_by_name r (cut ds Dg) k) by (auto; lia). cbn [bind fst snd].
      destruct (IH (S k) (Some tt) ltac:(lia)) as [ys E]. unfold browcol, bcol, bnumcol in E. cbn [map] in E. rewrite E. cbn [bind fst snd]. eauto.
    + cbn [bind fst snd]. destruct (IH (S k) (Some tt) ltac:(lia)) as [ys E]. unfold browcol, bcol, bnumcol in E. cbn [map] in E. rewrite E. cbn [bind fst snd]. eauto.
Qed.
Definition has {A} (o : option A) : bool := match o with Some _ => true | None => false end.
Definition init_cs (r : rsys) qs ds rows (Pg : list R) (Dg : option (list R)) : pd_state :=
  mkPD 0 (by_name r (own_of qs rows) (num_links r)) (if has Dg then by_name r (qd_of r qs rows) (num_links r) else [])
    (by_name r (cut ds Pg) (num_links r)) (match Dg with Some D => by_name r (cut ds D) (num_links r) | None => [] end).
Lemma init_value (r : rsys) qs ds q_ref Pg Dg : wf W r -> lean W r qs ds -> shaped W r q_ref -> qd_size W r = Ok (length Pg) ->
  (forall D, Dg = Some D -> length D = length Pg) -> controllable jt (has Dg) r ->
  pd_init W jt Pg Dg r q_ref = Ok (init_cs r qs ds (tr_rows q_ref) Pg Dg).
Proof.
  intros WF LN (Sq & F & _) Hd HD C. unfold pd_init. rewrite Sq, Hd. cbn [bind]. unfold assert_. rewrite !Nat.eqb_refl. cbn [bind].
  pose proof (wf_size _ _ _ _ (ln_q _ _ _ _ LN) Sq) as Lq. pose proof (wf_size _ _ _ _ (ln_d _ _ _ _ LN) Hd) as Ld.
  rewrite Lq in F.
  assert (E : match Dg with Some d => if (length Pg =? length d)%nat then Ok tt else Err EAssertion | None => Ok tt end = Ok tt).
  { destruct Dg as [D|]; auto. now rewrite (HD D eq_refl), Nat.eqb_refl. }
  rewrite E. cbn [bind]. set (Dv := match Dg with Some d => d | None => zeros (length Pg) end).
  assert (LD : length Dv = list_sum ds). { unfold Dv. destruct Dg as [D|]; [rewrite (HD D eq_refl); auto|]. unfold zeros. now rewrite repeat_length. }
  rewrite (scan_run W r qs ds) with (cs := [browcol qs (transpose (tr_width q_ref) (tr_rows q_ref)); bcol BStr (link_names r) ""%string;
       bcol BStr (link_types r) ""%string; bnumcol ds Pg; bnumcol ds Dv]); try apply LN; try reflexivity.
  2:{ cbn [combine]. repeat apply Forall2_cons; cbn [fst snd]; [..|apply Forall2_nil].
      - apply arg_ok_brow. now rewrite transpose_length.
      - apply arg_ok_bcol. now rewrite (wf_names _ _ WF).
      - apply arg_ok_bcol. apply LN.
      - now apply arg_ok_bd.
      - now apply arg_ok_bd. }
  cbv zeta.
  destruct (init_run r qs ds (tr_rows q_ref) Pg Dv (sys_dt r) (has Dg) (tr_width q_ref) LN (wf_unique _ _ WF) (wf_names _ _ WF) F C eq_refl Lq (num_links r) 0 None eq_refl) as [ys RUN].
  assert (B0 : forall V (v : nat -> V), by_name r v 0 = []) by reflexivity. rewrite !B0 in RUN.
  replace (if has Dg then (@nil (string * list (list R))) else []) with (@nil (string * list (list R))) in RUN by now destruct (has Dg).
  replace (if has Dg then (@nil (string * list R)) else []) with (@nil (string * list R)) in RUN by now destruct (has Dg).
  change (match Dg with Some _ => true | None => false end) with (has Dg). rewrite RUN. cbn [bind snd fst].
  unfold init_cs. destruct Dg; reflexivity.
Qed.

Lemma rows_at_names (r : rsys) (v : nat -> list (list R)) (x : nat -> list R) k n : 
  (forall j, j < n -> dyn_index (v j) k = Ok (x j)) -> rows_at k (by_name r v n) = Ok (by_name r x n).
Proof.
  intros H. unfold rows_at, by_name. rewrite (mapM_all_Ok _ (fun kv => (fst kv, match dyn_index (snd kv) k with Ok y => y | Err _ => [] end))).
  - rewrite map_map. f_equal. apply map_ext_in. intros j J. apply in_seq in J. cbn [fst snd]. rewrite H by lia. reflexivity.
  - intros [a b] I. apply in_map_iff in I. destruct I as (j & E & J). injection E as <- <-. apply in_seq in J. cbn [fst snd].
    rewrite H by lia. reflexivity.
Qed.

Lemma apply_run (s : rsys) qs ds cs qr qdr (blk : nat -> list R) row : lean W s qs ds ->
  (forall i, i < num_links s -> length (blk i) = nth i ds 0) ->
  (forall i y a b, i < num_links s -> length a = list_sum (firstn i ds) ->
     apply_step jt cs qr qdr y (mkIM (slices_from 0 qs) (slices_from 0 ds)) (row i) (a ++ zeros (nth i ds 0) ++ b) = Ok (tt, a ++ blk i ++ b)) ->
  forall m k y, k + m = num_links s -> exists ys,
  run (apply_step jt cs qr qdr) (mkIM (slices_from 0 qs) (slices_from 0 ds)) y
    (concat (map blk (seq 0 k)) ++ zeros (list_sum (skipn k ds))) (map row (seq k m)) = Ok (ys, concat (map blk (seq 0 (num_links s)))).
Proof.
  intros LN LB HS. induction m as [|m IH]; intros k y Hk.
  - cbn [seq map run]. rewrite Nat.add_0_r in Hk. subst k. rewrite skipn_all2 by (rewrite (ln_ds_length W s qs ds LN); lia).
    cbn [list_sum fold_right]. cbn. rewrite app_nil_r. eauto.
  - cbn [seq map run].
    destruct (width_i s qs ds k LN ltac:(lia)) as (_ & _ & _ & Wd).
    assert (SK : list_sum (skipn k ds) = nth k ds 0 + list_sum (skipn (S k) ds)).
    { clear - Wd. revert k Wd. induction ds as [|d r IHd]; intros [|k] E; try discriminate; cbn [skipn nth nth_error] in *; [apply list_sum_cons|]. now apply IHd. }
    unfold zeros. rewrite SK, repeat_app. fold (zeros (nth k ds 0)) (zeros (list_sum (skipn (S k) ds))).
    rewrite HS.
    + cbn [bind fst snd]. rewrite app_assoc.
      replace (concat (map blk (seq 0 k)) ++ blk k) with (concat (map blk (seq 0 (S k)))) by (rewrite seq_S, map_app, concat_app; cbn; now rewrite app_nil_r).
      destruct (IH (S k) (Some tt) ltac:(lia)) as [ys ->]. cbn [bind fst snd]. eauto.
    + lia.
    + assert (K : k <= num_links s) by lia. clear - LN LB K. revert K. induction k as [|k IHk]; intros K; [reflexivity|].
      rewrite seq_S, map_app, concat_app, app_length, IHk by lia. destruct (width_i s qs ds k LN ltac:(lia)) as (_ & _ & _ & Wd). rewrite (firstn_S_sum ds k _ Wd).
      cbn. now rewrite app_nil_r, LB by lia.
Qed.

Lemma get_by_name {V} (r : rsys) (v : nat -> V) j name : wf W r -> nth_error (link_names r) j = Some name ->
  dget String.eqb (by_name r v (num_links r)) name = Some (v j).
Proof. intros WF E. unfold num_links. rewrite <- (wf_names _ _ WF). apply dget_names; [apply WF|exact E]. Qed.
Lemma get_by_name_None {V} (r : rsys) (v : nat -> V) name : wf W r -> ~ In name (link_names r) ->
  dget String.eqb (by_name r v (num_links r)) name = None.
Proof. intros WF E. unfold num_links. rewrite <- (wf_names _ _ WF). now apply dget_names_None. Qed.
Lemma own_rows_of (r : rsys) qs ds rows j : lean W r qs ds -> Forall (fun row => length row = list_sum qs) rows -> j < num_links r ->
  own_rows W r rows j (own_of qs rows j).
Proof.
  intros LN F J. unfold own_rows, own_of. induction F as [|row rows L F IH]; cbn [map]; constructor; auto.
  now apply (coords_cut W r qs ds LN).
Qed.

(** The controller is initialised from the reference system alone; at every step it actuates exactly the links of the
    simulated system whose name occurs in the reference system, each with its own reference row and gains. *)
Theorem C46_torque (s r : rsys) q_ref Pg Dg st : wf W s -> wf W r -> shaped W r q_ref -> same_types s r ->
  controllable jt (has Dg) r -> qd_size W r = Ok (length Pg) -> (forall D, Dg = Some D -> length D = length Pg) ->
  q_size W s = Ok (length (st_q st)) -> qd_size W s = Ok (length (st_qd st)) ->
  exists cs, pd_init W jt Pg Dg r q_ref = Ok cs /\ forall k, exists taus,
    pd_apply W jt (after k cs) s st = Ok (after (S k) cs, taus) /\
    actuates W jt s r q_ref Pg Dg k (st_q st) (st_qd st) taus.
Proof.
  intros WS WR SH ST CT HP HD Sq Sd.
  destruct (wf_lean W s WS) as (qs & ds & LS). destruct (wf_lean W r WR) as (qr & dr & LR).
  exists (init_cs r qr dr (tr_rows q_ref) Pg Dg). split; [now apply init_value|]. intros k.
  set (rows := tr_rows q_ref) in *. destruct SH as (SHq & SHf & SHn). fold rows in SHf, SHn.
  pose proof (wf_size _ _ _ _ (ln_q _ _ _ _ LR) SHq) as Lw. rewrite Lw in SHf. clear SHq.
  pose proof (wf_size _ _ _ _ (ln_d _ _ _ _ LR) HP) as Lp.
  pose proof (wf_size _ _ _ _ (ln_q _ _ _ _ LS) Sq) as Lq. pose proof (wf_size _ _ _ _ (ln_d _ _ _ _ LS) Sd) as Ld.
  (* what is known of a link of the reference system *)
  assert (REF : forall j, j < num_links r -> exists jm f x, jt (typ_ r j) = Some jm /\ jm_p_control jm = Some f /\
     dyn_index (own_of qr rows j) k = Ok x /\ held (own_of qr rows j) k x /\ length x = nth j qr 0 /\
     (forall D, Dg = Some D -> exists g v, jm_qd_from_q jm = Some g /\ qd_of r qr rows j = g (own_of qr rows j) (sys_dt r) /\
        dyn_index (qd_of r qr rows j) k = Ok v /\ held (qd_of r qr rows j) k v /\ length v = nth j dr 0)).
  { intros j J. destruct (width_i r qr dr j LR J) as (A1 & A2 & A3 & A4).
    destruct (CT (typ_ r j)) as (jm & f & JM & PC & G); [apply (nth_error_In _ j), (typ_spec W r qr dr LR); auto|].
    assert (FO : Forall (fun q => length q = nth j qr 0) (own_of qr rows j)).
    { unfold own_of. rewrite Forall_map. eapply Forall_impl; [|exact SHf]. intros row L. now apply cut_length. }
    assert (NO : own_of qr rows j <> []) by (unfold own_of; destruct rows; [congruence|discriminate]).
    destruct (held_total (own_of qr rows j) k NO) as (x & X1 & X2). exists jm, f, x.
    repeat (split; [assumption|]). split; [rewrite Forall_forall in FO; apply FO; now apply held_In in X2|].
    intros D ->. destruct (G eq_refl) as (g & Hg). assert (Q : qd_of r qr rows j = g (own_of qr rows j) (sys_dt r)) by (unfold qd_of; now rewrite JM, Hg).
    destruct (proj2 (CW _ _ _ _ JM A1 A2) g (own_of qr rows j) (sys_dt r) Hg NO FO) as [N1 N2]. rewrite <- Q in N1, N2.
    destruct (held_total _ k N1) as (v & V1 & V2). exists g, v. repeat (split; [assumption|]).
    rewrite Forall_forall in N2. apply N2. now apply held_In in V2. }
  set (xv := fun j => match dyn_index (own_of qr rows j) k with Ok x => x | Err _ => [] end).
  set (vv := fun j => match dyn_index (qd_of r qr rows j) k with Ok x => x | Err _ => [] end).
  assert (RQ : rows_at k (by_name r (own_of qr rows) (num_links r)) = Ok (by_name r xv (num_links r))).
  { apply rows_at_names. intros j J. destruct (REF j J) as (jm & f & x & _ & _ & X & _). unfold xv. now rewrite X. }
  assert (RD : rows_at k (pd_qd_ref (init_cs r qr dr rows Pg Dg)) = Ok (if has Dg then by_name r vv (num_links r) else [])).
  { cbn [init_cs pd_qd_ref]. destruct Dg as [D|]; cbn [has]; [|reflexivity]. apply rows_at_names. intros j J.
    destruct (REF j J) as (jm & f & x & _ & _ & _ & _ & _ & X). destruct (X D eq_refl) as (g & v & _ & _ & V & _). unfold vv. now rewrite V. }
  unfold pd_apply. rewrite Sd. cbn [bind after pd_i init_cs pd_q_ref]. rewrite Nat.add_0_r, RQ. cbn [bind].
  change (pd_qd_ref _) with (pd_qd_ref (init_cs r qr dr rows Pg Dg)). rewrite RD. cbn [bind].
  rewrite (scan_run W s qs ds) with (cs := [fun i => One (BInt i); bcol BStr (link_names s) ""%string; bcol BStr (link_types s) ""%string;
     bnumcol qs (st_q st); bnumcol ds (st_qd st)]); try apply LS; try reflexivity.
  2:{ cbn [combine]. repeat apply Forall2_cons; cbn [fst snd]; [..|apply Forall2_nil].
      - apply arg_ok_bint.
      - apply arg_ok_bcol. apply (wf_names _ _ WS).
      - apply arg_ok_bcol. apply LS.
      - now apply arg_ok_bq.
      - now apply arg_ok_bd. }
  cbv zeta.
  set (cs := after k _). 
  set (blk := fun i => match indexS (nm s i) (link_names r) with
     | Ok j => match jt (typ_ s i) with
               | Some jm => match jm_p_control jm with
                            | Some f => let t := lmul (f (cut qs (st_q st) i) (xv j)) (cut dr Pg j) in
                                match Dg with Some D => ladd t (lmul (lsub (vv j) (cut ds (st_qd st) i)) (cut dr D j)) | None => t end
                            | None => []
                            end
               | None => []
               end
     | Err _ => zeros (nth i ds 0)
     end).
  (* links with a reference *)
  assert (HIT : forall i j, i < num_links s -> indexS (nm s i) (link_names r) = Ok j ->
     j < num_links r /\ nth_error (link_names r) j = Some (nm s i) /\ typ_ s i = typ_ r j /\ nth i qs 0 = nth j qr 0 /\ nth i ds 0 = nth j dr 0).
  { intros i j I En. apply indexS_NoDup in En; [|apply WR].
    assert (J : j < num_links r) by (unfold num_links; rewrite <- (wf_names _ _ WR); apply nth_error_Some; congruence).
    assert (T : typ_ s i = typ_ r j).
    { apply (ST i j (nm s i)); auto; [|apply (typ_spec W s qs ds LS); auto|apply (typ_spec W r qr dr LR); auto].
      unfold nm. apply nth_error_nth'. rewrite (wf_names _ _ WS). exact I. }
    destruct (width_i s qs ds i LS I) as (A1 & A2 & _). destruct (width_i r qr dr j LR J) as (B1 & B2 & _). rewrite T in A1, A2.
    split; [exact J|]. split; [exact En|]. split; [exact T|]. split; congruence. }
  assert (LB : forall i, i < num_links s -> length (blk i) = nth i ds 0).
  { intros i I. unfold blk. destruct (indexS (nm s i) (link_names r)) as [j|e] eqn:E; [|apply repeat_length].
    destruct (HIT i j I E) as (J & En & T & Eq & Ed). destruct (REF j J) as (jm & f & x & JM & PC & X & _ & Lx & V).
    rewrite T, JM, PC. cbv zeta. destruct (width_i s qs ds i LS I) as (A1 & A2 & A3 & A4). destruct (width_i r qr dr j LR J) as (B1 & B2 & B3 & B4).
    rewrite T in A1, A2.
    assert (XV : xv j = x) by (unfold xv; now rewrite X). rewrite XV.
    assert (L1 : length (lmul (f (cut qs (st_q st) i) x) (cut dr Pg j)) = nth i ds 0).
    { unfold lmul. rewrite zipw_length. rewrite (proj1 (CW _ _ _ _ JM A1 A2) f _ _ PC) by (try (now apply cut_length); congruence).
      rewrite (cut_length dr Pg j _ Lp B4). lia. }
    destruct Dg as [D|]; [|exact L1]. destruct (V D eq_refl) as (g & v & _ & _ & V1 & _ & Lv). unfold ladd. rewrite zipw_length, L1.
    assert (VV : vv j = v) by (unfold vv; now rewrite V1). rewrite VV. unfold lmul, lsub. rewrite !zipw_length, Lv.
    rewrite (cut_length ds (st_qd st) i _ Ld A4), (cut_length dr D j _ ltac:(rewrite (HD D eq_refl); exact Lp) B4). lia. }
  assert (HS : forall i y a b, i < num_links s -> length a = list_sum (firstn i ds) ->
     apply_step jt cs (by_name r xv (num_links r)) (if has Dg then by_name r vv (num_links r) else []) y
       (mkIM (slices_from 0 qs) (slices_from 0 ds))
       (map (fun c : nat -> piece pd_arg => c i) [fun i => One (BInt i); bcol BStr (link_names s) ""%string; bcol BStr (link_types s) ""%string;
     bnumcol qs (st_q st); bnumcol ds (st_qd st)]) (a ++ zeros (nth i ds 0) ++ b) = Ok (tt, a ++ blk i ++ b)).
  { intros i y a b I La. pose proof (LB i I) as LBi. revert LBi.
    cbn [map]. unfold bcol, bnumcol, apply_step. rewrite !bnums_map. change (nth i (link_names s) ""%string) with (nm s i). change (nth i (link_types s) ""%string) with (typ_ s i).
    unfold blk. destruct (indexS (nm s i) (link_names r)) as [j|e] eqn:E.
    - destruct (HIT i j I E) as (J & En & T & Eq & Ed). destruct (REF j J) as (jm & f & x & JM & PC & X & _ & Lx & V).
      destruct (width_i s qs ds i LS I) as (A1 & A2 & A3 & A4). destruct (width_i r qr dr j LR J) as (B1 & B2 & B3 & B4). rewrite T in A1, A2.
      cbn [cs after init_cs pd_q_ref pd_P pd_qd_ref pd_D]. unfold dmem at 1. rewrite (get_by_name r _ j) by auto. cbn [negb].
      unfold get_joint_model. rewrite T, JM. cbn [bind]. rewrite PC.
      unfold dgetE at 1. rewrite (get_by_name r xv j) by auto. cbn [bind].
      assert (XV : xv j = x) by (unfold xv; now rewrite X). rewrite XV.
      unfold call_p_control. rewrite (cut_length qs (st_q st) i _ Lq A3), Lx, Eq, Nat.eqb_refl. cbn [bind].
      unfold dgetE at 1. rewrite (get_by_name r (cut dr Pg) j) by auto. cbn [bind].
      rewrite bcast_same.
      2:{ rewrite (proj1 (CW _ _ _ _ JM A1 A2) f _ _ PC) by (try (now apply cut_length); congruence). rewrite (cut_length dr Pg j _ Lp B4). exact Ed. }
      cbn [bind]. intros LBi.
      assert (SL : nth_error (slices_from 0 ds) i = Some (length a, length a + length (zeros (nth i ds 0)))).
      { rewrite (nth_slices_from ds 0 i _ A4). unfold zeros. now rewrite repeat_length, La. }
      destruct Dg as [D|]; cbn [has].
      + destruct (V D eq_refl) as (g & v & _ & _ & V1 & _ & Lv). assert (VV : vv j = v) by (unfold vv; now rewrite V1).
        unfold dmem at 1. rewrite (get_by_name r _ j) by auto. unfold dgetE at 1. rewrite (get_by_name r vv j) by auto. cbn [bind]. rewrite VV in *.
        rewrite bcast_same by (rewrite Lv, (cut_length ds (st_qd st) i _ Ld A4); congruence). cbn [bind].
        unfold dgetE at 1. rewrite (get_by_name r (cut dr D) j) by auto. cbn [bind].
        assert (LDj : length (cut dr D j) = nth j dr 0) by (apply cut_length; auto; rewrite (HD D eq_refl); exact Lp).
        rewrite bcast_same by (rewrite zipw_length, Lv, (cut_length ds (st_qd st) i _ Ld A4), LDj; lia). cbn [bind].
        rewrite bcast_same. 2:{ rewrite !zipw_length, (proj1 (CW _ _ _ _ JM A1 A2) f _ _ PC) by (try (now apply cut_length); congruence).
          rewrite (cut_length dr Pg j _ Lp B4), Lv, (cut_length ds (st_qd st) i _ Ld A4), LDj. lia. }
        cbn [bind im_d]. rewrite SL. rewrite set_slice_mid; [reflexivity|]. unfold zeros. rewrite repeat_length. exact LBi.
      + unfold dmem at 1. cbn [dget bind im_d]. rewrite SL. rewrite set_slice_mid; [reflexivity|]. unfold zeros. rewrite repeat_length. exact LBi.
    - intros _. cbn [cs after init_cs pd_q_ref]. unfold dmem at 1. rewrite get_by_name_None; auto.
      intros IN. apply indexS_In in IN. destruct IN as (j & Ej). congruence. }
  destruct (apply_run s qs ds cs _ _ blk _ LS LB HS (num_links s) 0 None eq_refl) as [ys RUN].
  cbn [seq map concat app skipn] in RUN. rewrite <- Ld in RUN. cbn [map]. rewrite RUN. cbn [bind fst snd].
  exists (concat (map blk (seq 0 (num_links s)))). split; [unfold after; cbn [init_cs pd_i]; rewrite Nat.add_0_r; reflexivity|].
  assert (LW : map (@length R) (map blk (seq 0 (num_links s))) = ds).
  { rewrite map_map. rewrite <- (ln_ds_length W s qs ds LS). transitivity (map (fun i => nth i ds 0) (seq 0 (length ds))); [|apply map_seq_nth].
    apply map_ext_in. intros i Hi. apply in_seq in Hi. apply LB. rewrite <- (ln_ds_length W s qs ds LS). lia. }
  assert (LT : length (concat (map blk (seq 0 (num_links s)))) = list_sum ds) by (apply (splits_length ds _ (map blk (seq 0 (num_links s)))); split; auto).
  split; [rewrite LT, <- Ld; exact Sd|].
  intros i name typ qi qdi tau En Et Cq Cd Ct.
  assert (I : i < num_links s) by (unfold num_links; rewrite <- (wf_names _ _ WS); apply nth_error_Some; congruence).
  rewrite (typ_spec W s qs ds LS i I) in Et. injection Et as <-.
  pose proof (coords_unique s _ _ _ _ _ (coords_cut W s qs ds LS (st_q st) i Lq I) Cq) as <-.
  pose proof (coords_unique s _ _ _ _ _ (coords_cut_d s qs ds (st_qd st) i LS Ld I) Cd) as <-.
  pose proof (coords_unique s _ _ _ _ _ (coords_cut_d s qs ds _ i LS LT I) Ct) as <-. clear Cq Cd Ct.
  rewrite cut_concat by exact LW. assert (NB : nth i (map blk (seq 0 (num_links s))) [] = blk i) by (apply nth_error_nth; now rewrite nth_map_seq).
  rewrite NB. assert (NM : nm s i = name) by (unfold nm; now apply nth_error_nth). unfold blk. rewrite NM. split.
  - intros N. destruct (indexS name (link_names r)) as [j|e] eqn:E; [apply indexS_NoDup in E; [|apply WR]; apply nth_error_In in E; contradiction|].
    apply Forall_forall. intros z Hz. symmetry. now apply repeat_spec in Hz.
  - intros j Ej. rewrite (proj2 (indexS_NoDup name (link_names r) j (wf_unique _ _ WR)) Ej).
    destruct (HIT i j I) as (J & _ & T & Eq & Ed); [rewrite NM; apply indexS_NoDup; auto; apply WR|].
    destruct (REF j J) as (jm & f & x & JM & PC & X & X2 & Lx & V). rewrite T, JM, PC.
    exists jm, f, (own_of qr rows j), x, (cut dr Pg j). rewrite JM. split; [reflexivity|]. split; [exact PC|].
    split; [apply (own_rows_of r qr dr); auto|]. split; [exact X2|].
    split; [apply (coords_cut_d r qr dr); auto|].
    assert (XV : xv j = x) by (unfold xv; now rewrite X). rewrite XV.
    destruct Dg as [D|]; [|reflexivity]. destruct (V D eq_refl) as (g & v & G & Q & V1 & V2 & Lv). assert (VV : vv j = v) by (unfold vv; now rewrite V1).
    exists g, v, (cut dr D j). rewrite VV. split; [exact G|]. split; [rewrite <- Q; exact V2|].
    split; [apply (coords_cut_d r qr dr); auto; rewrite (HD D eq_refl); exact Lp|reflexivity].
Qed.
End Torque.

(** ** Built-in joint types *)
Section Builtin.
Context {P : Type}.
Notation W := builtin_widths.
Notation jt := (@builtin_table P).

Lemma Forall_map_len {A} (f : A -> list R) l d : (forall x, In x l -> length (f x) = d) -> Forall (fun v => length v = d) (map f l).
Proof. intros H. rewrite Forall_map, Forall_forall. exact H. Qed.
Lemma pairs_In {A} (l : list A) a b : In (a, b) (pairs_apart l) -> In a l /\ In b l.
Proof.
  intros H. unfold pairs_apart in H. split; [now apply in_combine_l in H|]. apply in_combine_r in H.
  rewrite <- (firstn_skipn 2 l). apply in_or_app. now right.
Qed.
Lemma pad_ends_len z l d : length z = d -> Forall (fun v => length v = d) l -> Forall (fun v : list R => length v = d) (pad_ends z l).
Proof. intros Z F. unfold pad_ends. cbn [app]. constructor; auto. apply Forall_app. auto. Qed.
Lemma qd_cartesian_len qs dt w : qs <> [] -> Forall (fun q => length q = w) qs ->
  qd_from_q_cartesian qs dt <> [] /\ Forall (fun v => length v = w) (qd_from_q_cartesian qs dt).
Proof.
  intros N F. unfold qd_from_q_cartesian. split; [discriminate|]. apply pad_ends_len.
  - unfold zeros. rewrite repeat_length. destruct F; [congruence|assumption].
  - apply Forall_map_len. intros [a b] I. apply pairs_In in I. cbn [fst snd]. rewrite Forall_forall in F.
    rewrite lscale_length, lsub_length, (F a), (F b) by tauto. lia.
Qed.
Lemma qd_quaternion_len qs dt : qd_from_q_quaternion qs dt <> [] /\ Forall (fun v => length v = 3) (qd_from_q_quaternion qs dt) .
Proof.
  unfold qd_from_q_quaternion. split; [discriminate|]. apply pad_ends_len; [reflexivity|]. apply Forall_map_len.
  intros ab _. destruct (quat_to_rot_axis _). reflexivity.
Qed.
Lemma qd_free_len qs dt d : qs <> [] -> Forall (fun q => length q = S d) qs -> 3 <= d ->
  qd_from_q_free qs dt <> [] /\ Forall (fun v => length v = d) (qd_from_q_free qs dt).
Proof.
  intros N F D. unfold qd_from_q_free. split; [discriminate|].
  rewrite Forall_map, Forall_forall. intros [a b] I. cbn [fst snd].
  assert (F2 : Forall (fun q : list R => length q = S d - 4) (map (skipn 4) qs)).
  { rewrite Forall_map. eapply Forall_impl; [|exact F]. intros q L. rewrite skipn_length, L. reflexivity. }
  assert (N2 : map (skipn 4) qs <> []) by (destruct qs; [congruence|discriminate]).
  destruct (qd_quaternion_len (map (firstn 4) qs) dt) as [_ A]. destruct (qd_cartesian_len (map (skipn 4) qs) dt _ N2 F2) as [_ B].
  rewrite Forall_forall in A, B. rewrite app_length. rewrite (A a) by (eapply in_combine_l; exact I). rewrite (B b) by (eapply in_combine_r; exact I). lia.
Qed.
Lemma p_quaternion_len a b : length (p_control_quaternion a b) = 3.
Proof. unfold p_control_quaternion. destruct (quat_to_rot_axis _). reflexivity. Qed.
Lemma p_rxyz_len a b : length a = length b -> length (p_control_rxyz a b) = length a.
Proof. intros L. unfold p_control_rxyz. rewrite map_length, lsub_length, map_length. lia. Qed.

Lemma builtin_control : control_widths W jt.
Proof.
  intros typ jm w d J Hq Hd. apply dget_In in J. unfold builtin_joints in J. cbn [In] in J.
  repeat (destruct J as [J|J]; [injection J as <- <-; cbv in Hq, Hd; injection Hq as <-; injection Hd as <-;
    (split; [intros f a b Hf La Lb; cbn [jm_p_control] in Hf; injection Hf as <-|
             intros g qs dt Hg N F; cbn [jm_qd_from_q] in Hg; injection Hg as <-])|]).
  all: try contradiction.
  all: try (apply qd_cartesian_len; assumption).
  all: try (apply qd_quaternion_len).
  all: try (apply qd_free_len; [assumption|assumption|lia]).
  all: try (apply p_quaternion_len).
  all: try (rewrite p_rxyz_len by congruence; assumption).
  all: try reflexivity.
  all: try (unfold p_control_pxyz_p3d; rewrite lsub_length; lia).
  all: try (unfold p_control_free; rewrite app_length, p_quaternion_len, lsub_length, !skipn_length; lia).
  unfold p_control_free_2d. rewrite app_length, p_rxyz_len, lsub_length, !skipn_length, firstn_length by (rewrite !firstn_length; lia). lia.
Qed.
Lemma builtin_controllable {O} (r : System R (plink (params P)) geometry O) with_D : wf W r -> joints_known jt r -> controllable jt with_D r.
Proof.
  intros WF JK typ I. apply In_nth_error in I. destruct I as (i & Hi).
  destruct (nth_error (links r) i) as [l|] eqn:Hl.
  2:{ apply nth_error_None in Hl. rewrite (wf_links _ _ WF), <- (wf_types _ _ WF) in Hl. apply nth_error_None in Hl. congruence. }
  destruct (JK i typ l Hi Hl) as [(jm & J) _]. exists jm. rewrite J. apply dget_In in J. unfold builtin_joints in J. cbn [In] in J.
  repeat (destruct J as [J|J]; [injection J as <- <-; eexists; split; [reflexivity|split; [reflexivity|intros _; eexists; reflexivity]]|]). contradiction.
Qed.

(** The configuration [q] of a joint is the reference [qr]: angles up to full turns, orientations up to the sign of the
    quaternion, everything else exactly. *)
Definition same_place (typ : string) (q qr : list R) : Prop :=
  (has_quat typ -> qunit (q4_of (firstn 4 q)) /\
     (q4_of (firstn 4 qr) = q4_of (firstn 4 q) \/ q4_of (firstn 4 qr) = qneg (q4_of (firstn 4 q))) /\ skipn 4 qr = skipn 4 q) /\
  (all_angles typ -> same_angles q qr) /\
  (angle_first typ -> same_angles (firstn 1 q) (firstn 1 qr) /\ skipn 1 qr = skipn 1 q) /\
  (~ has_quat typ -> ~ all_angles typ -> ~ angle_first typ -> qr = q).

Lemma lsub_zero l : Forall (eq 0%R) (lsub l l).
Proof. rewrite lsub_self. apply Forall_forall. intros x I. symmetry. now apply repeat_spec in I. Qed.
Lemma p_rxyz_zero q qr : same_angles q qr -> Forall (eq 0%R) (p_control_rxyz q qr).
Proof.
  unfold p_control_rxyz, lsub. induction 1 as [|a b q qr (k & ->) F IH]; cbn [map zipw]; constructor; auto.
  symmetry. destruct (wrap_congruent a) as (m & E). apply (wrap_unique _ _ (m - k)); [pose proof PI_pos; lra|]. rewrite E, minus_IZR. ring.
Qed.
Lemma p_quaternion_zero q qr : qunit (q4_of q) -> q4_of qr = q4_of q \/ q4_of qr = qneg (q4_of q) -> Forall (eq 0%R) (p_control_quaternion q qr).
Proof.
  intros U E. assert (Z : p_control_quaternion q qr = [0; 0; 0]%R).
  { unfold p_control_quaternion, qrel.
    assert (V : qvec (qmul (q4_of qr) (qinv (q4_of q))) = vzero).
    { destruct E as [-> | ->]; [rewrite (qmul_inv_r _ U); reflexivity|]. rewrite qmul_neg_l, (qmul_inv_r _ U). unfold qvec, qneg, qone, vzero. cbn. f_equal; ring. }
    unfold quat_to_rot_axis. rewrite V. rewrite (safe_normalize_close _ vclose0_zero). unfold v3_list, vscale. cbn [vzero vx vy vz]. now rewrite Rmult_0_r. }
  rewrite Z. repeat constructor.
Qed.
Lemma p_control_zero typ jm f w q qr : jt typ = Some jm -> jm_p_control jm = Some f -> qW W typ = Some w -> length q = w -> length qr = w ->
  same_place typ q qr -> Forall (eq 0%R) (f q qr).
Proof.
  intros J Hf Hw Lq Lr (S1 & S2 & S3 & S4). apply dget_In in J. unfold builtin_joints in J. cbn [In] in J.
  assert (NQ : forall t, ~ In t ["free"; "spherical"; "cor"]%string -> ~ has_quat t) by (unfold has_quat; auto).
  repeat (destruct J as [J|J]; [injection J as <- <-; cbv in Hw; injection Hw as <-; cbn [jm_p_control] in Hf; injection Hf as <-|]).
  all: try contradiction.
  all: try (apply p_rxyz_zero, S2; unfold all_angles; cbn [In]; tauto).
  all: try (constructor; fail).
  all: try (assert (E : qr = q) by (apply S4; [intros X; no_case X|intros X; no_case X|discriminate]); rewrite E; apply lsub_zero).
  - destruct S1 as (U & E & K); [unfold has_quat; cbn [In]; tauto|]. unfold p_control_free. rewrite K. apply Forall_app. split; [apply p_quaternion_zero; assumption|apply lsub_zero].
  - destruct (S3 eq_refl) as (E & K). unfold p_control_free_2d. rewrite K. apply Forall_app. split; [now apply p_rxyz_zero|apply lsub_zero].
  - destruct S1 as (U & E & K); [unfold has_quat; cbn [In]; tauto|]. rewrite (firstn_all2 q) in U, E by lia. rewrite (firstn_all2 qr) in E by lia. apply p_quaternion_zero; assumption.
  - destruct S1 as (U & E & K); [unfold has_quat; cbn [In]; tauto|]. unfold p_control_free. rewrite K. apply Forall_app. split; [apply p_quaternion_zero; assumption|apply lsub_zero].
Qed.
End Builtin.

(** ** Whole simulations, built-in joint types *)
(** [y] is [x] limited to [-c, c]. *)
Definition clipped (c : option R) (x y : R) : Prop :=
  match c with
  | None => y = x
  | Some c => (Rabs y <= c /\ (Rabs x <= c -> y = x) /\ (c < x -> y = c) /\ (x < - c -> y = - c))%R
  end.
Definition clip_ok (c : option R) : Prop := match c with None => True | Some c => (0 < c)%R end.

Lemma set_slice_cut ws q i w v : length q = list_sum ws -> nth_error ws i = Some w -> length v = w ->
  exists q', set_slice q (list_sum (firstn i ws), list_sum (firstn i ws) + w) v = Ok q' /\ length q' = list_sum ws /\
    forall i', i' < length ws -> cut ws q' i' = if i' =? i then v else cut ws q i'.
Proof.
  intros L E Lv. assert (Hi : i < length ws) by (apply nth_error_Some; congruence).
  set (bl := map (cut ws q) (seq 0 (length ws))).
  assert (C : concat bl = q) by (apply concat_cuts; auto).
  assert (LB : map (@length R) bl = ws).
  { unfold bl. rewrite map_map. transitivity (map (fun i => nth i ws 0) (seq 0 (length ws))); [|apply map_seq_nth].
    apply map_ext_in. intros m Hm. apply in_seq in Hm. apply cut_length; auto. apply nth_error_nth'. lia. }
  assert (LN : length bl = length ws) by (unfold bl; now rewrite map_length, seq_length).
  assert (NB : forall m, m < length ws -> nth m bl [] = cut ws q m) by (intros m Hm; apply nth_error_nth; unfold bl; now rewrite nth_map_seq).
  assert (SP : bl = firstn i bl ++ cut ws q i :: skipn (S i) bl).
  { rewrite <- (NB i Hi). rewrite <- (firstn_skipn i bl) at 1. f_equal. clear - Hi LN. rewrite <- LN in Hi. clear LN.
    revert i Hi. induction bl as [|b bl IH]; intros [|i] Hi; cbn [length] in Hi; try lia; [reflexivity|]. cbn [skipn nth]. apply IH. lia. }
  assert (LA : length (concat (firstn i bl)) = list_sum (firstn i ws)).
  { rewrite <- LB. rewrite firstn_map. generalize (firstn i bl). intros l. induction l as [|b l IH]; [reflexivity|]. cbn [concat map]. rewrite app_length, IH, list_sum_cons. reflexivity. }
  set (bl' := firstn i bl ++ v :: skipn (S i) bl).
  assert (LB' : map (@length R) bl' = ws).
  { unfold bl'. transitivity (map (@length R) bl); [|exact LB]. rewrite SP at 3. rewrite !map_app. cbn [map]. rewrite Lv, (cut_length ws q i w L E). reflexivity. }
  assert (Q : q = concat (firstn i bl) ++ cut ws q i ++ concat (skipn (S i) bl)).
  { rewrite <- C at 1. rewrite SP at 1. rewrite concat_app. reflexivity. }
  exists (concat bl'). split; [|split].
  - rewrite Q at 1. rewrite <- LA. rewrite <- (cut_length ws q i w L E). rewrite set_slice_mid by (rewrite (cut_length ws q i w L E); exact Lv).
    unfold bl'. rewrite concat_app. reflexivity.
  - apply (splits_length ws _ bl'). split; auto.
  - intros i' Hi'. rewrite cut_concat by exact LB'. unfold bl'. assert (LF : length (firstn i bl) = i) by (rewrite firstn_length; lia).
    destruct (Nat.eqb_spec i' i) as [->|N].
    + rewrite app_nth2 by lia. rewrite LF, Nat.sub_diag. reflexivity.
    + rewrite <- (NB i' Hi'). rewrite SP at 3. destruct (Nat.lt_ge_cases i' i) as [Lt|Ge].
      * rewrite !app_nth1 by lia. reflexivity.
      * rewrite !app_nth2 by lia. rewrite LF. destruct (i' - i) as [|m] eqn:M; [lia|]. reflexivity.
Qed.

Section Run.
Context {P O : Type}.
Notation W := builtin_widths.
Notation jt := (@builtin_table P).
Notation rsys := (System R (plink (params P)) geometry O).

(** The simulated joints of the reference system are on the reference at step [k], and move with it if velocities count. *)
Definition on_reference (s r : rsys) (q_ref : traj) (with_D : bool) (k : nat) (q qd : list R) : Prop :=
  forall i j name typ qi qdi own qr, nth_error (link_names s) i = Some name -> nth_error (link_names r) j = Some name ->
    nth_error (link_types s) i = Some typ -> link_coords (qW W) s q i qi -> link_coords (dW W) s qd i qdi ->
    own_rows W r (tr_rows q_ref) j own -> held own k qr ->
    same_place typ qi qr /\
    (with_D = true -> forall jm g qdr, jt typ = Some jm -> jm_qd_from_q jm = Some g -> held (g own (sys_dt r)) k qdr -> qdi = qdr).

Lemma zero_mul a b : Forall (eq 0%R) a -> Forall (eq 0%R) (lmul a b).
Proof. intros F. unfold lmul. revert b. induction F as [|x a <- F IH]; intros [|y b]; cbn [zipw]; constructor; auto. ring. Qed.
Lemma zero_add a b : Forall (eq 0%R) a -> Forall (eq 0%R) b -> Forall (eq 0%R) (ladd a b).
Proof. intros F. unfold ladd. revert b. induction F as [|x a <- F IH]; intros [|y b] G; cbn [zipw]; constructor; inversion G; subst; auto. ring. Qed.

(** Trajectories of the wrong width and the wrong number of gains are refused. *)
Theorem C46_init_refused (r : rsys) q_ref Pg Dg nq nd : q_size W r = Ok nq -> qd_size W r = Ok nd ->
  tr_width q_ref <> nq \/ length Pg <> nd \/ (exists D, Dg = Some D /\ length D <> nd) ->
  pd_init W jt Pg Dg r q_ref = Err EAssertion.
Proof.
  intros Q D H. unfold pd_init, assert_. rewrite Q, D. cbn [bind]. destruct (Nat.eqb_spec nq (tr_width q_ref)); [|reflexivity]. cbn [bind].
  destruct (Nat.eqb_spec nd (length Pg)); [|reflexivity]. cbn [bind]. destruct H as [H|[H|(d & -> & H)]]; [congruence|congruence|].
  destruct (Nat.eqb_spec nd (length d)); [congruence|reflexivity].
Qed.

(** On the reference the torques are zero. *)
Theorem C46_zero_on_reference (s r : rsys) q_ref Pg Dg k q qd taus : wf W s -> wf W r -> same_types s r -> shaped W r q_ref ->
  q_size W s = Ok (length q) -> qd_size W s = Ok (length qd) ->
  actuates W jt s r q_ref Pg Dg k q qd taus -> on_reference s r q_ref (has Dg) k q qd -> Forall (eq 0%R) taus.
Proof.
  intros WS WR ST SH Sq Sd [AL A] ON. destruct (wf_lean W s WS) as (qs & ds & LS).
  pose proof (wf_size _ _ _ _ (ln_q _ _ _ _ LS) Sq) as Lq. pose proof (wf_size _ _ _ _ (ln_d _ _ _ _ LS) Sd) as Ld.
  pose proof (wf_size _ _ _ _ (ln_d _ _ _ _ LS) AL) as Lt.
  rewrite <- (concat_cuts ds taus Lt). apply Forall_concat. rewrite Forall_map. apply Forall_forall. intros i Hi. apply in_seq in Hi.
  rewrite (ln_ds_length W s qs ds LS) in Hi. assert (I : i < num_links s) by lia. clear Hi.
  assert (En : nth_error (link_names s) i = Some (nm s i)) by (unfold nm; apply nth_error_nth'; rewrite (wf_names _ _ WS); exact I).
  pose proof (typ_spec W s qs ds LS i I) as Et. pose proof (coords_cut W s qs ds LS q i Lq I) as Cq.
  pose proof (coords_cut_d W s qs ds qd i LS Ld I) as Cd. pose proof (coords_cut_d W s qs ds taus i LS Lt I) as Ct.
  destruct (A i _ _ _ _ _ En Et Cq Cd Ct) as [Z L]. destruct (in_dec string_dec (nm s i) (link_names r)) as [IN|OUT]; [|auto].
  apply In_nth_error in IN. destruct IN as (j & Ej). destruct (L j Ej) as (jm & f & own & qr & Pj & JM & PC & OW & HE & CP & T).
  destruct (ON i j _ _ _ _ own qr En Ej Et Cq Cd OW HE) as [SP SV].
  destruct (width_i W s qs ds i LS I) as (A1 & A2 & A3 & A4).
  assert (Lr : length qr = nth i qs 0).
  { destruct (wf_lean W r WR) as (qr' & dr' & LR). destruct SH as (SHq & SHf & SHn). pose proof (wf_size _ _ _ _ (ln_q _ _ _ _ LR) SHq) as Lw. rewrite Lw in SHf.
    assert (J : j < num_links r) by (unfold num_links; rewrite <- (wf_names _ _ WR); apply nth_error_Some; congruence).
    assert (TT : typ_ s i = typ_ r j) by (apply (ST i j (nm s i)); auto; apply (typ_spec W r qr' dr' LR); auto).
    destruct (width_i W r qr' dr' j LR J) as (B1 & B2 & B3 & B4). rewrite TT in A1. assert (EQ : nth i qs 0 = nth j qr' 0) by congruence. rewrite EQ.
    apply held_In in HE. clear - OW HE SHf LR B3 J. unfold own_rows in OW. induction OW as [|row sl rows own Cr OW IH]; [contradiction|].
    inversion SHf as [|? ? L1 L2]; subst. destruct HE as [->|HE]; [|auto].
    rewrite <- (coords_unique r _ _ _ _ _ (coords_cut W r qr' dr' LR row j L1 J) Cr). now apply cut_length. }
  pose proof (p_control_zero _ _ _ _ _ _ JM PC A1 (cut_length qs q i _ Lq A3) Lr SP) as PZ.
  destruct Dg as [D|]; [|rewrite T; now apply zero_mul].
  destruct T as (g & qdr & Dj & G & HV & CD & ->). apply zero_add; [now apply zero_mul|].
  rewrite <- (SV eq_refl jm g qdr JM G HV). apply zero_mul, lsub_zero.
Qed.

(** *** The initial state *)
Lemma idx_map_value (s : rsys) qs ds : wf W s -> lean W s qs ds ->
  idx_map_q W s = Ok (by_name s (fun i => (list_sum (firstn i qs), list_sum (firstn i qs) + nth i qs 0)) (num_links s)).
Proof.
  intros WF LN. unfold idx_map_q.
  rewrite (scan_run W s qs ds) with (cs := [bcol BStr (link_names s) ""%string; fun i => One (BInt i)]); try apply LN; try reflexivity.
  2:{ cbn [combine]. repeat apply Forall2_cons; cbn [fst snd]; [..|apply Forall2_nil]; [apply arg_ok_bcol; apply (wf_names _ _ WF)|apply arg_ok_bint]. }
  cbv zeta. set (v := fun i : nat => (list_sum (firstn i qs), list_sum (firstn i qs) + nth i qs 0)).
  assert (R : forall m k y, k + m = num_links s -> exists ys,
    run idx_map_step (mkIM (slices_from 0 qs) (slices_from 0 ds)) y (by_name s v k)
      (map (fun i => map (fun c : nat -> piece pd_arg => c i) [bcol BStr (link_names s) ""%string; fun i => One (BInt i)]) (seq k m))
    = Ok (ys, by_name s v (num_links s))).
  { induction m as [|m IH]; intros k y Hk.
    - cbn [seq map run]. rewrite Nat.add_0_r in Hk. subst k. eauto.
    - cbn [seq map run]. unfold idx_map_step at 1, bcol. cbn [im_q].
      destruct (width_i W s qs ds k LN ltac:(lia)) as (_ & _ & A3 & _). rewrite (nth_slices_from qs 0 k _ A3). cbn [bind fst snd].
      rewrite (dset_by_name s v k); [|apply WF|rewrite (wf_names _ _ WF); unfold num_links in *; lia|reflexivity].
      destruct (IH (S k) (Some tt) ltac:(lia)) as [ys E]. cbn [map] in E. unfold bcol in E. rewrite E. cbn [bind fst snd]. eauto. }
  destruct (R (num_links s) 0 None eq_refl) as [ys E]. change (by_name s v 0) with (@nil (string * slice)) in E. rewrite E. reflexivity.
Qed.

Lemma default_wf_sizes (s : rsys) : wf W s -> exists n nd, q_size W s = Ok n /\ qd_size W s = Ok nd.
Proof.
  intros WF. destruct (wf_lean W s WF) as (qs & ds & LN). exists (list_sum qs), (list_sum ds).
  split; apply total_width_Ok; eexists; split; try reflexivity; apply LN.
Qed.

(** The simulation starts with every common link at the first row of its reference, every other link at its default
    coordinates, and no velocity. *)
Theorem C46_initial (s r : rsys) row : wf W s -> wf W r -> same_types s r -> q_size W r = Ok (length row) ->
  (forall name, In name (link_names r) -> In name (link_names s)) ->
  exists st, initial_q_is_q_ref W jt s r row = Ok st /\ fits s st /\ Forall (eq 0%R) (st_qd st) /\
    forall i name typ qi, nth_error (link_names s) i = Some name -> nth_error (link_types s) i = Some typ -> link_coords (qW W) s (st_q st) i qi ->
      (~ In name (link_names r) -> default_coords typ qi) /\
      (forall j qr, nth_error (link_names r) j = Some name -> link_coords (qW W) r row j qr -> qi = qr).
Proof.
  intros WS WR ST Sr INC. destruct (wf_lean W s WS) as (qs & ds & LS). destruct (wf_lean W r WR) as (qr & dr & LR).
  destruct (default_wf_sizes s WS) as (n & nd & Sq & Sd). unfold initial_q_is_q_ref.
  destruct (C29_default_state s [] n nd WS Sq Sd) as (q0 & E0 & L0 & DEF). rewrite E0. cbn [bind st_q]. rewrite (idx_map_value s qs ds WS LS). cbn [bind].
  pose proof (wf_size _ _ _ _ (ln_q _ _ _ _ LS) Sq) as Lq. pose proof (wf_size _ _ _ _ (ln_q _ _ _ _ LR) Sr) as Lr.
  rewrite (scan_run W r qr dr) with (cs := [bcol BStr (link_names r) ""%string; bnumcol qr row]); try apply LR; try reflexivity.
  2:{ cbn [combine]. repeat apply Forall2_cons; cbn [fst snd]; [..|apply Forall2_nil]; [apply arg_ok_bcol; apply (wf_names _ _ WR)|now apply arg_ok_bq]. }
  cbv zeta. set (mp := by_name s _ _).
  assert (RUN : forall m k y q, k + m = num_links r -> length q = list_sum qs ->
    (forall i, i < num_links s -> cut qs q i = match indexS (nm s i) (link_names r) with Ok j => if j <? k then cut qr row j else cut qs q0 i | Err _ => cut qs q0 i end) ->
    exists ys q', run (initial_step mp) (mkIM (slices_from 0 qr) (slices_from 0 dr)) y q
       (map (fun i => map (fun c : nat -> piece pd_arg => c i) [bcol BStr (link_names r) ""%string; bnumcol qr row]) (seq k m)) = Ok (ys, q') /\
      length q' = list_sum qs /\
      forall i, i < num_links s -> cut qs q' i = match indexS (nm s i) (link_names r) with Ok j => cut qr row j | Err _ => cut qs q0 i end).
  { induction m as [|m IH]; intros k y q Hk Lq' INV.
    - cbn [seq map run]. do 2 eexists. split; [reflexivity|]. split; [exact Lq'|]. intros i I. rewrite (INV i I).
      destruct (indexS (nm s i) (link_names r)) as [j|e] eqn:E; auto. apply indexS_NoDup in E; [|apply WR].
      assert (j < num_links r) by (unfold num_links; rewrite <- (wf_names _ _ WR); apply nth_error_Some; congruence).
      destruct (Nat.ltb_spec j k); [reflexivity|lia].
    - cbn [seq map run]. unfold initial_step at 1, bcol, bnumcol. rewrite bnums_map. change (nth k (link_names r) ""%string) with (nm r k).
      assert (K : k < num_links r) by lia.
      assert (Ek : nth_error (link_names r) k = Some (nm r k)) by (unfold nm; apply nth_error_nth'; rewrite (wf_names _ _ WR); exact K).
      destruct (In_nth_error _ _ (INC _ (nth_error_In _ _ Ek))) as (i0 & Ei0).
      assert (I0 : i0 < num_links s) by (unfold num_links; rewrite <- (wf_names _ _ WS); apply nth_error_Some; congruence).
      unfold dgetE. unfold mp. rewrite (get_by_name W s _ i0 (nm r k) WS Ei0). cbn [bind]. fold mp.
      assert (TT : typ_ s i0 = typ_ r k) by (apply (ST i0 k (nm r k)); auto; [apply (typ_spec W s qs ds LS)|apply (typ_spec W r qr dr LR)]; auto).
      destruct (width_i W s qs ds i0 LS I0) as (A1 & _ & A3 & _). destruct (width_i W r qr dr k LR K) as (B1 & _ & B3 & _). rewrite TT in A1.
      assert (EQ : nth i0 qs 0 = nth k qr 0) by congruence.
      destruct (set_slice_cut qs q i0 _ (cut qr row k) Lq' A3) as (q' & E' & L' & C'); [rewrite EQ; now apply cut_length|].
      rewrite E'. cbn [bind fst snd].
      destruct (IH (S k) (Some tt) q' ltac:(lia) L') as (ys & q'' & R1 & R2 & R3).
      { intros i I. rewrite C' by (rewrite (ln_qs_length W s qs ds LS); exact I). rewrite (INV i I).
        destruct (Nat.eqb_spec i i0) as [->|N].
        - assert (NM : nm s i0 = nm r k) by (apply nth_error_nth with (d := ""%string) in Ei0; exact Ei0).
          rewrite NM, (proj2 (indexS_NoDup (nm r k) (link_names r) k (wf_unique _ _ WR)) Ek). destruct (Nat.ltb_spec k (S k)); [reflexivity|lia].
        - destruct (indexS (nm s i) (link_names r)) as [j|e] eqn:E; auto. apply indexS_NoDup in E; [|apply WR].
          destruct (Nat.ltb_spec j k); destruct (Nat.ltb_spec j (S k)); auto; try lia.
          assert (j = k) by lia. subst j. exfalso. apply N. apply (NoDup_nth_error_inj (link_names s) i i0 (nm r k)); [apply WS| |exact Ei0].
          rewrite Ek in E. injection E as E. rewrite E. unfold nm. apply nth_error_nth'. rewrite (wf_names _ _ WS). exact I. }
      cbn [map] in R1. unfold bcol, bnumcol in R1. rewrite R1. cbn [bind fst snd]. eauto. }
  destruct (RUN (num_links r) 0 None q0 eq_refl) as (ys & q' & R1 & R2 & R3); [congruence| |].
  { intros i I. destruct (indexS _ _) as [j|e]; auto. }
  rewrite R1. cbn [bind snd]. unfold state_create. rewrite Sd. cbn [bind]. eexists. split; [reflexivity|]. cbn [st_q st_qd].
  split; [split; cbn [st_q st_qd]; [congruence|unfold zeros; now rewrite repeat_length]|].
  split; [apply Forall_forall; intros x Hx; symmetry; now apply repeat_spec in Hx|].
  intros i name typ qi En Et Cq.
  assert (I : i < num_links s) by (unfold num_links; rewrite <- (wf_names _ _ WS); apply nth_error_Some; congruence).
  pose proof (coords_unique s _ _ _ _ _ (coords_cut W s qs ds LS q' i R2 I) Cq) as <-. rewrite (R3 i I).
  assert (NM : nm s i = name) by (unfold nm; now apply nth_error_nth). rewrite NM. split.
  - intros OUT. rewrite (indexS_not_In _ _ OUT). apply (DEF i typ); auto. apply (coords_cut W s qs ds LS); auto; congruence.
  - intros j qr' Ej Cr. rewrite (proj2 (indexS_NoDup name (link_names r) j (wf_unique _ _ WR)) Ej).
    assert (J : j < num_links r) by (unfold num_links; rewrite <- (wf_names _ _ WR); apply nth_error_Some; congruence).
    apply (coords_unique r (qW W) row j); [apply (coords_cut W r qr dr LR); auto|exact Cr].
Qed.

(** A link of the reference system that the simulated system does not have is an error, unless the simulation starts
    from zeros. *)
Theorem C46_initial_missing (s r : rsys) row name : wf W s -> wf W r -> same_types s r -> q_size W r = Ok (length row) ->
  In name (link_names r) -> ~ In name (link_names s) ->
  exists e, initial_q_is_q_ref W jt s r row = Err e.
Proof.
  intros WS WR ST Sr IN OUT. destruct (initial_q_is_q_ref W jt s r row) as [st|e] eqn:E; [|eauto]. exfalso.
  destruct (wf_lean W s WS) as (qs & ds & LS). destruct (wf_lean W r WR) as (qr & dr & LR).
  unfold initial_q_is_q_ref in E. apply bind_Ok in E. destruct E as (st0 & _ & E). rewrite (idx_map_value s qs ds WS LS) in E. cbn [bind] in E.
  pose proof (wf_size _ _ _ _ (ln_q _ _ _ _ LR) Sr) as Lr.
  rewrite (scan_run W r qr dr) with (cs := [bcol BStr (link_names r) ""%string; bnumcol qr row]) in E; try apply LR; try reflexivity.
  2:{ cbn [combine]. repeat apply Forall2_cons; cbn [fst snd]; [..|apply Forall2_nil]; [apply arg_ok_bcol; apply (wf_names _ _ WR)|now apply arg_ok_bq]. }
  cbv zeta in E. apply bind_Ok in E. destruct E as (x & E & _). apply bind_Ok in E. destruct E as (y & E & _).
  apply In_nth_error in IN. destruct IN as (j & Ej).
  assert (J : j < num_links r) by (unfold num_links; rewrite <- (wf_names _ _ WR); apply nth_error_Some; congruence).
  assert (X : forall order y st, In j order -> forall z, run (initial_step (by_name s (fun i => (list_sum (firstn i qs), list_sum (firstn i qs) + nth i qs 0)) (num_links s)))
     (mkIM (slices_from 0 qr) (slices_from 0 dr)) y st (map (fun i => map (fun c : nat -> piece pd_arg => c i) [bcol BStr (link_names r) ""%string; bnumcol qr row]) order) <> Ok z).
  { induction order as [|i order IH]; intros y0 st1 I z Z; [contradiction|]. cbn [map run] in Z. apply bind_Ok in Z. destruct Z as (a & A & Z).
    apply bind_Ok in Z. destruct Z as (b & B & Z). destruct I as [->|I]; [|exact (IH _ _ I _ B)].
    unfold initial_step, bcol, bnumcol in A. rewrite (nth_error_nth _ _ _ Ej) in A. unfold dgetE in A.
    rewrite (get_by_name_None W s _ name WS OUT) in A. discriminate. }
  apply (X _ _ _ ltac:(apply in_seq; split; [apply Nat.le_0_l|exact J]) _ E).
Qed.

(** *** Unrolling *)
Variable solve : nat -> mat -> mat.
(** [states] are successive simulation steps from [st0], one per row of the reference, step [k] under the torques of the
    controller for row [k], limited by [c]. *)
Definition controlled_run (s r : rsys) (q_ref : traj) (Pg : list R) (Dg : option (list R)) (c : option R) (st0 : State) (states : list State) : Prop :=
  length states = length (tr_rows q_ref) /\
  forall k st st', nth_error (st0 :: states) k = Some st -> nth_error states k = Some st' ->
    exists raw taus, actuates W jt s r q_ref Pg Dg k (st_q st) (st_qd st) raw /\ Forall2 (clipped c) raw taus /\
      step W jt solve s st (Some taus) 1 = Ok st'.

Lemma clip_spec c x : (0 < c)%R -> clipped (Some c) x (clip x (- c) c).
Proof.
  intros C. unfold clipped, clip. unfold Rmin, Rmax. destruct (Rle_dec x (- c)); destruct (Rle_dec _ c); try lra.
  all: repeat split; intros; try lra; try (apply Rabs_le; lra).
  - apply Rabs_def2 in H || (unfold Rabs in H; destruct (Rcase_abs x); lra).
  - unfold Rabs in H. destruct (Rcase_abs x); lra.
Qed.
Lemma clip_torques_spec c raw : clip_ok c -> exists taus, clip_torques c raw = Ok taus /\ Forall2 (clipped c) raw taus.
Proof.
  destruct c as [c|]; cbn [clip_ok clip_torques]; intros C.
  - destruct (Rlt_dec 0 c) as [_|N]; [|contradiction]. eexists. split; [reflexivity|].
    induction raw as [|x raw IH]; cbn [map]; constructor; auto. now apply clip_spec.
  - eexists. split; [reflexivity|]. induction raw; constructor; cbn; auto.
Qed.

Lemma loop_spec (s r : rsys) q_ref Pg Dg c cs : simulable s -> (Rabs (sys_dt s) <= 10 ^ 8)%R -> lower (integration_method s) = "semi_implicit_euler"%string ->
  clip_ok c ->
  (forall st k, fits s st -> exists taus, pd_apply W jt (after k cs) s st = Ok (after (S k) cs, taus) /\ actuates W jt s r q_ref Pg Dg k (st_q st) (st_qd st) taus) ->
  forall m k st, fits s st -> unit_coords_all s (st_q st) -> exists states, pd_loop W jt solve m s c st (after k cs) = Ok states /\ length states = m /\
    forall j st1 st2, nth_error (st :: states) j = Some st1 -> nth_error states j = Some st2 ->
      exists raw taus, actuates W jt s r q_ref Pg Dg (k + j) (st_q st1) (st_qd st1) raw /\ Forall2 (clipped c) raw taus /\
      step W jt solve s st1 (Some taus) 1 = Ok st2.
Proof.
  intros SIM DT IM CO AP. induction m as [|m IH]; intros k st FT UC.
  - exists []. split; [reflexivity|]. split; [reflexivity|]. intros [|j]; discriminate.
  - cbn [pd_loop]. destruct (AP st k FT) as (raw & E & A). rewrite E. cbn [bind].
    destruct (clip_torques_spec c raw CO) as (taus & E2 & CL). rewrite E2. cbn [bind].
    destruct (C32_total solve s st (Some taus) 1 SIM FT UC) as (st' & E3 & FT' & UC'); auto.
    { cbn [INR]. lra. }
    { assert (LL : length taus = length raw) by (symmetry; now apply Forall2_length in CL). rewrite LL. destruct A as [A _]. destruct FT as [_ F2]. congruence. }
    rewrite E3. cbn [bind]. destruct (IH (S k) st' FT' UC') as (states & E4 & L4 & H4). rewrite E4. cbn [bind].
    exists (st' :: states). split; [reflexivity|]. split; [cbn [length]; lia|]. intros [|j] st1 st2 H1 H2.
    + cbn [nth_error] in H1, H2. injection H1 as <-. injection H2 as <-. rewrite Nat.add_0_r. eauto.
    + cbn [nth_error] in H1, H2. destruct (H4 j st1 st2 H1 H2) as (raw' & taus' & B1 & B2 & B3). exists raw', taus'.
      replace (k + S j) with (S k + j) by lia. auto.
Qed.

(** The simulated system with or without gravity. *)
Definition sim_sys (nograv : bool) (s : rsys) : rsys := if nograv then with_gravity s (map (fun g => (g * 0)%R) (gravity s)) else s.
Lemma sim_sys_simulable nograv s : simulable s -> simulable (sim_sys nograv s).
Proof. intros [A B C D E]. destruct nograv; constructor; auto. destruct A. constructor; assumption. Qed.

(** Simulating a system under the controller succeeds and yields one state per reference row; every step applies the
    torques of the controller for that row, limited to the given bound. *)
Theorem C46_unroll (s r : rsys) q_ref Pg Dg nograv zeros0 c : simulable s -> wf W r -> joints_known jt r -> shaped W r q_ref -> same_types s r ->
  qd_size W r = Ok (length Pg) -> (forall D, Dg = Some D -> length D = length Pg) ->
  (forall name, In name (link_names r) -> In name (link_names s)) -> (forall row, In row (tr_rows q_ref) -> unit_coords_all r row) ->
  (Rabs (sys_dt s) <= 10 ^ 8)%R -> lower (integration_method s) = "semi_implicit_euler"%string -> clip_ok c ->
  exists st0 states, unroll_dynamics_pd_control W jt solve s q_ref Pg Dg nograv (Some r) zeros0 c = Ok states /\
    fits s st0 /\ Forall (eq 0%R) (st_qd st0) /\ unit_coords_all s (st_q st0) /\
    (forall i name typ qi, nth_error (link_names s) i = Some name -> nth_error (link_types s) i = Some typ -> link_coords (qW W) s (st_q st0) i qi ->
      (zeros0 = true \/ ~ In name (link_names r) -> default_coords typ qi) /\
      (zeros0 = false -> forall j row qr, nth_error (link_names r) j = Some name -> nth_error (tr_rows q_ref) 0 = Some row ->
         link_coords (qW W) r row j qr -> qi = qr)) /\
    controlled_run (sim_sys nograv s) r q_ref Pg Dg c st0 states.
Proof.
  intros SIM WR KR SH ST HP HD INC UN DT IM CO. unfold unroll_dynamics_pd_control.
  change (if nograv then with_gravity s (map (fun g : R => (g * 0)%R) (gravity s)) else s) with (sim_sys nograv s).
  set (s' := sim_sys nograv s). pose proof (sim_sys_simulable nograv s SIM) as SIM'. fold s' in SIM'.
  pose proof (si_wf _ SIM) as WS. pose proof (si_wf _ SIM') as WS'.
  assert (NM : link_names s' = link_names s) by (unfold s'; destruct nograv; reflexivity).
  assert (TY : link_types s' = link_types s) by (unfold s'; destruct nograv; reflexivity).
  assert (ST' : same_types s' r) by (unfold same_types; rewrite NM, TY; exact ST).
  assert (FI : forall st, fits s' st <-> fits s st) by (intros st; unfold fits, q_size, qd_size; rewrite TY; tauto).
  assert (LC : forall q i x, link_coords (qW W) s' q i x <-> link_coords (qW W) s q i x) by (intros; unfold link_coords; rewrite TY; tauto).
  destruct (tr_rows q_ref) as [|row0 rows] eqn:ER; [destruct SH as (_ & _ & N); congruence|].
  assert (S0 : exists st0, (if zeros0 then state_create W jt s' None None None None [] else initial_q_is_q_ref W jt s' r row0) = Ok st0 /\
    fits s st0 /\ Forall (eq 0%R) (st_qd st0) /\
    (forall i name typ qi, nth_error (link_names s) i = Some name -> nth_error (link_types s) i = Some typ -> link_coords (qW W) s (st_q st0) i qi ->
      (zeros0 = true \/ ~ In name (link_names r) -> default_coords typ qi) /\
      (zeros0 = false -> forall j row qr, nth_error (link_names r) j = Some name -> nth_error (row0 :: rows) 0 = Some row ->
         link_coords (qW W) r row j qr -> qi = qr))).
  { destruct zeros0.
    - destruct (default_wf_sizes s' WS') as (n & nd & Sq & Sd). destruct (C29_default_state s' [] n nd WS' Sq Sd) as (q & E & L & DEF).
      rewrite E. eexists. split; [reflexivity|]. split; [apply FI; split; cbn [st_q st_qd]; [congruence|now rewrite repeat_length]|].
      split; [cbn [st_qd]; apply Forall_forall; intros x Hx; symmetry; now apply repeat_spec in Hx|].
      cbn [st_q]. intros i name typ qi En Et C. split; [|discriminate]. intros _. apply (DEF i typ); [now rewrite TY|now apply LC].
    - assert (Sr : q_size W r = Ok (length row0)). { destruct SH as (A & B & _). rewrite ER in B. apply Forall_inv in B. congruence. }
      destruct (C46_initial s' r row0 WS' WR ST' Sr) as (st & E & F & Z & H); [now rewrite NM|].
      exists st. split; [exact E|]. split; [now apply FI|]. split; [exact Z|]. intros i name typ qi En Et C. rewrite NM, TY in H.
      destruct (H i name typ qi En Et) as [H1 H2]; [now apply LC|]. split; [intros [X|X]; [discriminate|auto]|].
      intros _ j row qr Ej Er Cr. cbn in Er. injection Er as <-. eauto. }
  destruct S0 as (st0 & E0 & F0 & Z0 & H0). rewrite E0. cbn [bind].
  assert (U0 : unit_coords_all s (st_q st0)).
  { intros i typ sl Et C HQ. assert (I : i < length (link_names s)) by (rewrite (wf_names _ _ WS), <- (wf_types _ _ WS); apply nth_error_Some; congruence).
    destruct (nth_error (link_names s) i) as [name|] eqn:En; [|apply nth_error_None in En; lia].
    destruct (H0 i name typ sl En Et C) as [A B].
    assert (DEF : default_coords typ sl -> qunit (q4_of (firstn 4 sl))).
    { intros [D _]. destruct (D HQ) as (rest & -> & _). cbn [app firstn]. unfold qunit, qnorm2, qdot, q4_of, getR. cbn [nth qw qx qy qz]. ring. }
    destruct zeros0; [apply DEF, A; now left|]. destruct (in_dec string_dec name (link_names r)) as [IN|OUT]; [|apply DEF, A; now right].
    apply In_nth_error in IN. destruct IN as (j & Ej). destruct (wf_lean W r WR) as (qr & dr & LR).
    assert (J : j < num_links r) by (unfold num_links; rewrite <- (wf_names _ _ WR); apply nth_error_Some; congruence).
    assert (Lr : length row0 = list_sum qr). { destruct SH as (A' & B' & _). rewrite ER in B'. apply Forall_inv in B'. rewrite B'. eapply wf_size; [apply LR|exact A']. }
    pose proof (coords_cut W r qr dr LR row0 j Lr J) as Cr. rewrite (B eq_refl j row0 _ Ej eq_refl Cr).
    pose proof (typ_spec W r qr dr LR j J) as Tj. apply (UN row0 (or_introl eq_refl) j (typ_ r j)); auto.
    rewrite <- (ST i j name typ (typ_ r j) En Ej Et Tj). exact HQ. }
  assert (CT : controllable jt (has Dg) r) by (apply builtin_controllable; auto).
  assert (AP : exists cs, pd_init W jt Pg Dg r q_ref = Ok cs /\ forall st k, fits s' st -> exists taus,
     pd_apply W jt (after k cs) s' st = Ok (after (S k) cs, taus) /\ actuates W jt s' r q_ref Pg Dg k (st_q st) (st_qd st) taus).
  { destruct (wf_lean W r WR) as (qr & dr & LR).
    exists (init_cs jt r qr dr (tr_rows q_ref) Pg Dg). split; [apply (init_value W jt r qr dr q_ref Pg Dg); auto|].
    intros st k [F1 F2].
    destruct (C46_torque W jt builtin_control s' r q_ref Pg Dg st) as (cs & E & H); auto.
    assert (EQ : cs = init_cs jt r qr dr (tr_rows q_ref) Pg Dg); [|subst cs; apply H].
    rewrite (init_value W jt r qr dr q_ref Pg Dg) in E; auto. congruence. }
  destruct AP as (cs & EC & AP). rewrite EC. cbn [bind].
  assert (CS0 : cs = after 0 cs) by (destruct cs; reflexivity). rewrite CS0.
  destruct (loop_spec s' r q_ref Pg Dg c cs SIM') with (m := length (row0 :: rows)) (k := 0) (st := st0) as (states & EL & LL & HL); auto.
  { unfold s'. destruct nograv; exact DT. }
  { unfold s'. destruct nograv; exact IM. }
  { now apply FI. }
  { intros i typ sl Et C. rewrite TY in Et. apply (U0 i typ); auto. now apply LC. }
  exists st0, states. split; [exact EL|]. split; [exact F0|]. split; [exact Z0|]. split; [exact U0|]. split; [exact H0|].
  split; [rewrite ER; exact LL|]. intros k st st' H1 H2. exact (HL k st st' H1 H2).
Qed.
End Run.
