(** * Property C58: training targets *)
From Coq Require Import Reals Lra String ZArith Lia Bool List.
From Verif Require Import Prelude M_Sys S_Sys P_Scan P_Run M_Math P_Math P_Trig P_Rot M_Sens M_Target C_Sens.
From Verif Require Import M_Geom M_Joint M_Kin X_Demo.
Import ListNotations.

Lemma mapM_rel {A B} (f : A -> result B) (Q : A -> B -> Prop) l : (forall a, In a l -> exists b, f a = Ok b /\ Q a b) ->
  exists bs, mapM f l = Ok bs /\ Forall2 Q l bs.
Proof.
  induction l as [|a l IH]; intros H; cbn [mapM]; [exists []; split; [reflexivity|constructor]|].
  destruct (H a (or_introl eq_refl)) as (b & -> & Qb). destruct IH as (bs & -> & F); [intros; apply H; now right|].
  cbn [bind]. exists (b :: bs). split; [reflexivity|]. now constructor.
Qed.
Lemma Forall2_nth {A B} (Q : A -> B -> Prop) l l' : Forall2 Q l l' -> forall k a, nth_error l k = Some a -> exists b, nth_error l' k = Some b /\ Q a b.
Proof. induction 1; intros [|k] a E; cbn [nth_error] in *; try discriminate; [injection E as <-; eauto|eauto]. Qed.
Lemma dset_new {V} (d : list (string * V)) k v : ~ In k (map fst d) -> dset String.eqb d k v = d ++ [(k, v)].
Proof.
  induction d as [|[a b] d IH]; cbn [dset map app]; intros H; auto. destruct (String.eqb_spec k a) as [->|N].
  - exfalso. apply H. now left.
  - rewrite IH; auto. intros I. apply H. now right.
Qed.
Lemma dget_In {V} (d : list (string * V)) k v : NoDup (map fst d) -> In (k, v) d -> dget String.eqb d k = Some v.
Proof.
  induction d as [|[a b] d IH]; cbn [dget map]; intros N H; [contradiction|]. inversion N as [|? ? N1 N2]; subst.
  destruct H as [E|H].
  - injection E as -> ->. now rewrite String.eqb_refl.
  - destruct (String.eqb_spec k a) as [->|]; auto. exfalso. apply N1. change a with (fst (a, v)). now apply in_map.
Qed.

Lemma nth_error_combine_Some {A B} (a : list A) (b : list B) : forall i x y, nth_error a i = Some x -> nth_error b i = Some y ->
  nth_error (combine a b) i = Some (x, y).
Proof. revert b. induction a as [|u a IH]; intros [|v b] [|i] x y; cbn; try discriminate; intros; [congruence|auto]. Qed.

Section Scan.
Context {K L G O : Type} (W : widths) (s : System K L G O).
Hypothesis WF : wf W s.
Notation n := (num_links s).
Definition pr_ i : Z := nth i (link_parents s) (-1)%Z.
Definition nm_ i : string := nth i (link_names s) ""%string.
Definition tcol {A} (g : A -> targ) (l : list A) (d : A) : nat -> piece targ := fun i => One (g (nth i l d)).
Lemma tcol_ok {A} (g : A -> targ) l d qs ds : length l = n -> arg_ok W qs ds n TL (map g l) (tcol g l d).
Proof.
  intros H. split; [now rewrite map_length|]. intros i Hi. exists (g (nth i l d)). split; auto.
  rewrite nth_error_map, nth_error_nth' with (d := d) by lia. reflexivity.
Qed.
Lemma ids_ok qs ds : arg_ok W qs ds n TL (ids n) (fun i => One (GInt (Z.of_nat i))).
Proof.
  split; [unfold ids; now rewrite map_length, seq_length|]. intros i Hi. exists (GInt (Z.of_nat i)). split; auto.
  unfold ids. now rewrite nth_map_seq.
Qed.
Lemma nm_spec i : i < n -> nth_error (link_names s) i = Some (nm_ i).
Proof. intros H. apply nth_error_nth'. rewrite (wf_names _ _ WF). exact H. Qed.
Lemma pr_spec i : i < n -> nth_error (link_parents s) i = Some (pr_ i).
Proof. intros H. apply nth_error_nth'. exact H. Qed.
Lemma pr_range i : i < n -> (-1 <= pr_ i < Z.of_nat i)%Z.
Proof. intros H. exact (wf_topo _ _ WF i _ (pr_spec i H)). Qed.

(** Scans over names and parents, over indices and parents, over names: runs over rows. *)
Lemma scan_names {Y St} (f : option Y -> idx_map -> list (piece targ) -> St -> result (Y * St)) st :
  exists im, scan W s f [TL; TL] [map GStr (link_names s); map GInt (link_parents s)] false st =
    do r <- run f im None st (map (fun i => [One (GStr (nm_ i)); One (GInt (pr_ i))]) (seq 0 n)); Ok (fst r, snd r).
Proof.
  destruct (wf_arrays _ _ WF) as (qs & ds & Hq & Hd & _). eexists.
  rewrite (scan_run W s qs ds (wf_types _ _ WF) Hq Hd _ _ _ [tcol GStr (link_names s) ""%string; tcol GInt (link_parents s) (-1)%Z]); [reflexivity|reflexivity|].
  cbn [combine]. repeat apply Forall2_cons; [..|apply Forall2_nil]; cbn [fst snd]; apply tcol_ok; [apply WF|reflexivity].
Qed.
Lemma scan_ids {Y St} (f : option Y -> idx_map -> list (piece targ) -> St -> result (Y * St)) st :
  exists im, scan W s f [TL; TL] [ids n; map GInt (link_parents s)] false st =
    do r <- run f im None st (map (fun i => [One (GInt (Z.of_nat i)); One (GInt (pr_ i))]) (seq 0 n)); Ok (fst r, snd r).
Proof.
  destruct (wf_arrays _ _ WF) as (qs & ds & Hq & Hd & _). eexists.
  rewrite (scan_run W s qs ds (wf_types _ _ WF) Hq Hd _ _ _ [fun i => One (GInt (Z.of_nat i)); tcol GInt (link_parents s) (-1)%Z]); [reflexivity|reflexivity|].
  cbn [combine]. repeat apply Forall2_cons; [..|apply Forall2_nil]; cbn [fst snd]; [apply ids_ok|apply tcol_ok; reflexivity].
Qed.
Lemma scan_name {Y St} (f : option Y -> idx_map -> list (piece targ) -> St -> result (Y * St)) st :
  exists im, scan W s f [TL] [map GStr (link_names s)] false st =
    do r <- run f im None st (map (fun i => [One (GStr (nm_ i))]) (seq 0 n)); Ok (fst r, snd r).
Proof.
  destruct (wf_arrays _ _ WF) as (qs & ds & Hq & Hd & _). eexists.
  rewrite (scan_run W s qs ds (wf_types _ _ WF) Hq Hd _ _ _ [tcol GStr (link_names s) ""%string]); [reflexivity|reflexivity|].
  cbn [combine]. repeat apply Forall2_cons; [..|apply Forall2_nil]; cbn [fst snd]. apply tcol_ok, WF.
Qed.

(** A callback that fills a dictionary under the name of some of the links. *)
Definition entries {V} (vs : list (nat * option V)) : list (string * V) :=
  flat_map (fun iv => match snd iv with Some v => [(nm_ (fst iv), v)] | None => [] end) vs.
Lemma run_dict {V} (f : option unit -> idx_map -> list (piece targ) -> list (string * V) -> result (unit * list (string * V)))
    im row (g : nat -> result (option V)) :
  (forall y st i, i < n -> f y im (row i) st = do v <- g i; Ok (tt, match v with Some v => dset String.eqb st (nm_ i) v | None => st end)) ->
  forall m k y st, k + m = n -> (forall i, k <= i < n -> ~ In (nm_ i) (map fst st)) ->
  run f im y st (map row (seq k m)) = do vs <- mapM g (seq k m); Ok (map (fun _ => tt) (seq k m), st ++ entries (combine (seq k m) vs)).
Proof.
  intros F. induction m as [|m IH]; intros k y st Hk Fresh; cbn [seq map run mapM]; [cbn; now rewrite app_nil_r|].
  rewrite F by lia. destruct (g k) as [v|e]; [|reflexivity]. cbn [bind fst snd].
  assert (Fresh' : forall i, S k <= i < n -> ~ In (nm_ i) (map fst (match v with Some v => dset String.eqb st (nm_ k) v | None => st end))).
  { intros i Hi. destruct v as [v|]; [|apply Fresh; lia]. rewrite dset_new by (apply Fresh; lia). rewrite map_app, in_app_iff. cbn [map fst In].
    intros [A|[A|A]]; [revert A; apply Fresh; lia| |auto].
    pose proof (NoDup_nth_error_inj (link_names s) k i (nm_ k) (wf_unique _ _ WF) (nm_spec k ltac:(lia))) as J.
    rewrite A in J at 1. specialize (J (nm_spec i ltac:(lia))). lia. }
  rewrite (IH (S k) _ _ ltac:(lia) Fresh'). destruct (mapM g (seq (S k) m)) as [vs|e]; [|reflexivity]. cbn [bind fst snd]. do 2 f_equal.
  cbn [combine]. unfold entries. cbn [flat_map fst snd]. destruct v as [v|]; [|reflexivity]. rewrite dset_new by (apply Fresh; lia). now rewrite <- app_assoc.
Qed.
Lemma entries_NoDup {V} (vs : list (option V)) : forall k, NoDup (map fst (entries (combine (seq k (length vs)) vs))) \/ n < k + length vs.
Proof.
  assert (A : forall vs' k i, In i (map fst (entries (combine (seq k (length vs')) vs' : list (nat * option V)))) -> exists j, k <= j < k + length vs' /\ i = nm_ j).
  { induction vs' as [|v vs' IH]; intros k i H; [contradiction|]. cbn [length seq combine] in H. unfold entries in H. cbn [flat_map fst snd] in H. rewrite map_app, in_app_iff in H.
    destruct H as [H|H].
    - destruct v; [|contradiction]. cbn in H. destruct H as [<-|[]]. exists k. cbn [length]. split; [lia|reflexivity].
    - destruct (IH (S k) i H) as (j & J & ->). exists j. cbn [length]. split; [lia|reflexivity]. }
  induction vs as [|v vs IH]; intros k; [left; constructor|]. cbn [length seq combine]. unfold entries. cbn [flat_map fst snd].
  destruct (le_lt_dec (k + S (length vs)) n) as [Hn|Hn]; [|now right]. left. destruct (IH (S k)) as [N|]; [|lia]. destruct v as [v|]; [|exact N].
  cbn [app map fst]. constructor; [|exact N]. intros I. destruct (A vs (S k) (nm_ k) I) as (j & J & E).
  pose proof (NoDup_nth_error_inj (link_names s) k j (nm_ k) (wf_unique _ _ WF) (nm_spec k ltac:(lia))) as Q.
  rewrite E in Q at 1. specialize (Q (nm_spec j ltac:(lia))). lia.
Qed.
Lemma entries_get {V} (vs : list (option V)) i v : length vs = n -> nth_error vs i = Some (Some v) ->
  dget String.eqb (entries (combine (seq 0 n) vs)) (nm_ i) = Some v.
Proof.
  intros Lv E. apply dget_In.
  - destruct (entries_NoDup vs 0) as [N|]; [|lia]. now rewrite Lv in N.
  - unfold entries. apply in_flat_map. exists (i, Some v). split; [|now left].
    assert (Hi : i < n) by (rewrite <- Lv; apply nth_error_Some; congruence).
    apply nth_error_In with (n := i). apply nth_error_combine_Some; [|exact E]. rewrite nth_error_nth' with (d := 0) by now rewrite seq_length. now rewrite seq_nth.
Qed.
Lemma entries_keys_gen {V} (c : Z -> bool) : forall l (vs : list (option V)), length vs = length l ->
  (forall j i v, nth_error l j = Some i -> nth_error vs j = Some v -> (v = None <-> c (pr_ i) = false)) ->
  map fst (entries (combine l vs)) = map fst (filter (fun np => c (snd np)) (combine (map nm_ l) (map pr_ l))).
Proof.
  induction l as [|i l IH]; intros [|v vs] HL H; try discriminate; [reflexivity|]. cbn [combine map filter snd]. unfold entries. cbn [flat_map fst snd].
  pose proof (H 0 i v eq_refl eq_refl) as H0. rewrite map_app. change (flat_map _ (combine l vs)) with (entries (combine l vs)). rewrite (IH vs) by (try (intros j; apply (H (S j))); cbn in HL; lia).
  destruct v as [v|]; destruct (c (pr_ i)); cbn [map fst app]; auto; exfalso.
  - destruct H0 as [_ H0]. specialize (H0 eq_refl). discriminate.
  - destruct H0 as [H0 _]. specialize (H0 eq_refl). discriminate.
Qed.
Lemma as_map {A} (l : list A) d : length l = n -> l = map (fun i => nth i l d) (seq 0 n).
Proof.
  intros H. apply nth_error_ext. intros i. destruct (le_lt_dec n i) as [Hi|Hi].
  - rewrite !(proj2 (nth_error_None _ _)); auto; rewrite ?map_length, ?seq_length; lia.
  - rewrite nth_map_seq by auto. rewrite nth_error_nth' with (d := d) by lia. reflexivity.
Qed.
(** The names of the links whose parent satisfies [c], in order. *)
Definition names_where (c : Z -> bool) : list string := map fst (filter (fun np => c (snd np)) (combine (link_names s) (link_parents s))).
Lemma entries_keys {V} (c : Z -> bool) (vs : list (option V)) : length vs = n ->
  (forall i v, i < n -> nth_error vs i = Some v -> (v = None <-> c (pr_ i) = false)) ->
  map fst (entries (combine (seq 0 n) vs)) = names_where c.
Proof.
  intros HL H. unfold names_where. rewrite (as_map (link_names s) ""%string (wf_names _ _ WF)), (as_map (link_parents s) (-1)%Z eq_refl).
  apply entries_keys_gen; [now rewrite seq_length|]. intros j i v Hj Hv. assert (Hl : j < n) by (rewrite <- HL; apply nth_error_Some; congruence).
  rewrite nth_error_nth' with (d := 0), seq_nth in Hj by (rewrite ?seq_length; auto). injection Hj as <-. apply H; auto.
Qed.
End Scan.

(** ** C58 *)
Lemma link_traj_nth xs i k row x : nth_error (tr_rows xs) k = Some row -> nth_error row i = Some x -> nth_error (link_traj xs i) k = Some x.
Proof. intros H E. unfold link_traj. rewrite nth_error_map, H. cbn [option_map]. f_equal. now apply nth_error_nth. Qed.
Lemma link_traj_length xs i : length (link_traj xs i) = length (tr_rows xs).
Proof. unfold link_traj. apply map_length. Qed.

Section C58.
Context {K L G O : Type} (W : widths) (s sxs : System K L G O) (xs : traj).
Hypothesis WF : wf W s.
Hypothesis WFx : wf W sxs.
Notation n := (num_links s).
(** Poses of the links called [nm] of the system that [xs] belongs to, over time. *)
Definition named_traj (nm : string) (tr : list transform) : Prop :=
  exists i, nth_error (link_names sxs) i = Some nm /\ length tr = length (tr_rows xs) /\
    forall k row x, nth_error (tr_rows xs) k = Some row -> nth_error row i = Some x -> nth_error tr k = Some x.
Definition full_rows : Prop := Forall (fun row => length row = num_links sxs) (tr_rows xs).
Lemma named_traj_link i nm : nth_error (link_names sxs) i = Some nm -> named_traj nm (link_traj xs i).
Proof. intros H. exists i. split; auto. split; [apply link_traj_length|]. intros k row x. apply link_traj_nth. Qed.
Lemma named_traj_unique nm a b : full_rows -> named_traj nm a -> named_traj nm b -> a = b.
Proof.
  intros FR (i & Hi & La & Ha) (j & Hj & Lb & Hb). assert (i = j) by exact (NoDup_nth_error_inj _ _ _ _ (wf_unique _ _ WFx) Hi Hj). subst j.
  apply nth_error_ext. intros k. destruct (nth_error (tr_rows xs) k) as [row|] eqn:E.
  - assert (Hl : i < length row).
    { unfold full_rows in FR. rewrite Forall_forall in FR. rewrite (FR row (nth_error_In _ _ E)). unfold num_links. rewrite <- (wf_names _ _ WFx). apply nth_error_Some. congruence. }
    destruct (nth_error row i) as [x|] eqn:Ex; [|apply nth_error_None in Ex; lia]. rewrite (Ha k row x E Ex), (Hb k row x E Ex). reflexivity.
  - apply nth_error_None in E. rewrite !(proj2 (nth_error_None _ _)); auto; lia.
Qed.

(** Targets of relative pose: one entry per link that has a parent link; the entry of a link is, at each time, the
    rotation that composed with the link's orientation gives its parent's orientation. *)
Theorem C58_rel_pose : tr_links xs = num_links sxs -> full_rows ->
  (forall i p nm, nth_error (link_parents s) i = Some p -> p <> (-1)%Z -> nth_error (link_names s) i = Some nm \/ nth_error (link_names s) (Z.to_nat p) = Some nm ->
     In nm (link_names sxs)) ->
  exists y, rel_pose W s xs (Some sxs) = Ok y /\
    map fst y = names_where s (fun p => negb (Z.eqb p (-1))) /\
    forall i p nm nmp, nth_error (link_parents s) i = Some (Z.of_nat p) -> nth_error (link_names s) i = Some nm -> nth_error (link_names s) p = Some nmp ->
      exists qs tr trp, dget String.eqb y nm = Some qs /\ named_traj nm tr /\ named_traj nmp trp /\ length qs = length (tr_rows xs) /\
        forall k q x xp, nth_error qs k = Some q -> nth_error tr k = Some x -> nth_error trp k = Some xp ->
          q = qmul (t_rot xp) (qinv (t_rot x)) /\ (qunit (t_rot x) -> qmul q (t_rot x) = t_rot xp) /\
          (qunit (t_rot x) -> qunit (t_rot xp) -> qmul (qinv q) (t_rot xp) = t_rot x).
Proof.
  intros HX FR Names. unfold rel_pose. rewrite HX. unfold assert_. rewrite Nat.eqb_refl. cbn [bind].
  destruct (scan_names W s WF (rel_pose_step s xs sxs) []) as (im & ->).
  set (g := fun i => if Z.eqb (pr_ s i) (-1) then Ok None else
                     do name_p <- idx_to_name s (pr_ s i) false; do j <- name_to_idx sxs (nm_ s i); do p <- name_to_idx sxs name_p;
                     Ok (Some (zipwith (fun a b => qmul a (qinv b)) (map t_rot (link_traj xs p)) (map t_rot (link_traj xs j))))).
  rewrite (run_dict W s WF (rel_pose_step s xs sxs) im (fun i => [One (GStr (nm_ s i)); One (GInt (pr_ s i))]) g).
  2:{ intros y st i Hi. unfold rel_pose_step, g. destruct (Z.eqb (pr_ s i) (-1)); [reflexivity|].
      destruct (idx_to_name s (pr_ s i) false) as [np|]; [|reflexivity]. cbn [bind]. destruct (name_to_idx sxs (nm_ s i)) as [j|]; [|reflexivity]. cbn [bind].
      destruct (name_to_idx sxs np) as [p|]; reflexivity. }
  2:{ reflexivity. }
  2:{ intros i _ []. }
  set (Q := fun i (v : option (list quat)) => match v with
     | None => pr_ s i = (-1)%Z
     | Some qs => pr_ s i <> (-1)%Z /\ exists j p, nth_error (link_names sxs) j = Some (nm_ s i) /\ nth_error (link_names sxs) p = Some (nm_ s (Z.to_nat (pr_ s i))) /\
          qs = zipwith (fun a b => qmul a (qinv b)) (map t_rot (link_traj xs p)) (map t_rot (link_traj xs j)) end).
  destruct (mapM_rel g Q (seq 0 n)) as (vs & E & F).
  { intros i Hi. apply in_seq in Hi. assert (Hn : i < n) by lia. unfold g. destruct (Z.eqb_spec (pr_ s i) (-1)) as [R|R]; [exists None; auto|].
    pose proof (pr_range W s WF i Hn) as PR. unfold idx_to_name. cbn [andb].
    replace (0 <=? pr_ s i)%Z with true by (symmetry; apply Z.leb_le; lia). unfold assert_. cbn [bind].
    assert (Hp : Z.to_nat (pr_ s i) < n) by lia. pose proof (nm_spec W s WF _ Hp) as Np.
    assert (Hz : (0 <= pr_ s i)%Z) by lia. rewrite (proj2 (py_get_nonneg (link_names s) (pr_ s i) (nm_ s (Z.to_nat (pr_ s i))) Hz) Np). cbn [bind].
    destruct (indexS_In (nm_ s i) (link_names sxs)) as (j & Hj).
    { apply (Names i (pr_ s i)); auto; [apply pr_spec; auto|left; now apply (nm_spec W)]. }
    destruct (indexS_In (nm_ s (Z.to_nat (pr_ s i))) (link_names sxs)) as (p & Hp').
    { apply (Names i (pr_ s i)); auto. now apply pr_spec. }
    unfold name_to_idx. rewrite Hj. cbn [bind]. rewrite Hp'. cbn [bind]. eexists. split; [reflexivity|]. cbn [Q]. split; auto.
    apply indexS_spec in Hj, Hp'. exists j, p. tauto. }
  rewrite E. cbn [bind fst snd app]. assert (Lv : length vs = n) by (apply Forall2_length in F; rewrite seq_length in F; auto).
  assert (FQ : forall i v, i < n -> nth_error vs i = Some v -> Q i v).
  { intros i v Hi Hv. destruct (Forall2_nth _ _ _ F i i) as (b & Hb & Qb); [rewrite nth_error_nth' with (d := 0) by (now rewrite seq_length); now rewrite seq_nth|]. congruence. }
  eexists. split; [reflexivity|]. split.
  - apply (entries_keys W s WF); auto. intros i v Hi Hv. specialize (FQ i v Hi Hv). destruct v as [v|]; cbn [Q] in FQ.
    + destruct (Z.eqb_spec (pr_ s i) (-1)); [tauto|]. cbn. split; discriminate.
    + rewrite FQ. cbn. tauto.
  - intros i p nm nmp Hp Hnm Hnp. assert (Hi : i < n) by (apply nth_error_Some; congruence).
    pose proof (pr_spec s i Hi) as PE. rewrite Hp in PE. injection PE as PE. pose proof (nm_spec W s WF i Hi) as NE. rewrite Hnm in NE. injection NE as NE.
    destruct (nth_error vs i) as [v|] eqn:Ev; [|apply nth_error_None in Ev; lia]. pose proof (FQ i v Hi Ev) as Qv. destruct v as [qs|]; cbn [Q] in Qv; [|lia].
    destruct Qv as (_ & j & p' & Hj & Hp' & ->). rewrite <- PE, Nat2Z.id in Hp'.
    assert (Hpn : nm_ s p = nmp) by (unfold nm_; now apply nth_error_nth). rewrite Hpn in Hp'. rewrite <- NE in *.
    eexists. exists (link_traj xs j), (link_traj xs p'). split; [rewrite NE; apply (entries_get W s WF vs i); eauto|].
    split; [now apply named_traj_link|]. split; [now apply named_traj_link|]. split; [rewrite zipwith_length, !map_length, !link_traj_length; lia|].
    intros k q x xp Hq Hx Hxp. rewrite nth_error_zipwith, !nth_error_map, Hx, Hxp in Hq. cbn [option_map] in Hq. injection Hq as <-.
    split; [reflexivity|]. split; [intros U; rewrite <- qmul_assoc, qmul_inv_l, qmul_1_r; auto|].
    intros U Up. rewrite qinv_mul, qinv_inv, <- qmul_assoc, qmul_inv_l, qmul_1_r; auto.
Qed.
(** A link or parent that [xs] knows nothing about is reported. *)
Theorem C58_rel_pose_unknown i p nm : nth_error (link_parents s) i = Some p -> p <> (-1)%Z ->
  nth_error (link_names s) i = Some nm \/ nth_error (link_names s) (Z.to_nat p) = Some nm -> ~ In nm (link_names sxs) ->
  tr_links xs = num_links sxs -> exists e, rel_pose W s xs (Some sxs) = Err e.
Proof.
  intros Hp Np Hnm NI HX. unfold rel_pose. rewrite HX. unfold assert_. rewrite Nat.eqb_refl. cbn [bind].
  destruct (scan_names W s WF (rel_pose_step s xs sxs) []) as (im & ->).
  assert (A : forall m k y st, k <= i < k + m -> k + m = n -> exists e, run (rel_pose_step s xs sxs) im y st (map (fun i => [One (GStr (nm_ s i)); One (GInt (pr_ s i))]) (seq k m)) = Err e).
  { induction m as [|m IH]; intros k y st Hi Hk; [lia|]. cbn [seq map run]. destruct (rel_pose_step s xs sxs y im [One (GStr (nm_ s k)); One (GInt (pr_ s k))] st) as [[u st1]|e] eqn:E; [|cbn; eauto].
    cbn [bind fst snd]. destruct (Nat.eq_dec k i) as [->|Ni].
    - exfalso. assert (Hn : i < n) by lia. pose proof (pr_spec s i Hn) as PE. rewrite Hp in PE. injection PE as PE.
      unfold rel_pose_step in E. rewrite <- PE in E. destruct (Z.eqb_spec p (-1)); [contradiction|].
      apply bind_Ok in E. destruct E as (np & E1 & E). apply bind_Ok in E. destruct E as (j & E2 & E). apply bind_Ok in E. destruct E as (j' & E3 & E).
      unfold name_to_idx in E2, E3. apply indexS_spec in E2, E3. destruct E2 as [E2 _], E3 as [E3 _]. apply nth_error_In in E2, E3.
      unfold idx_to_name in E1. cbn [andb] in E1. apply bind_Ok in E1. destruct E1 as (? & E0 & E1). unfold assert_ in E0. destruct (Z.leb_spec 0 p); [|discriminate].
      apply py_get_nonneg in E1; auto. destruct Hnm as [Hnm|Hnm].
      + rewrite (nm_spec W s WF i Hn) in Hnm. injection Hnm as Hnm. congruence.
      + congruence.
    - destruct (IH (S k) (Some u) st1) as (e & ->); [lia|lia|]. cbn. eauto. }
  destruct (A n 0 None []) as (e & ->); [|lia|cbn; eauto]. split; [lia|]. cbn. apply nth_error_Some. unfold num_links. congruence.
Qed.

(** Targets of the links connected to the world. *)
Theorem C58_root (incl c2p : bool) : full_rows ->
  (forall i nm, nth_error (link_parents s) i = Some (-1)%Z -> nth_error (link_names s) i = Some nm -> In nm (link_names sxs)) ->
  exists y, root_target W incl c2p s xs sxs = Ok y /\
    map fst y = names_where s (fun p => Z.eqb p (-1)) /\
    forall i nm, nth_error (link_parents s) i = Some (-1)%Z -> nth_error (link_names s) i = Some nm ->
      exists qs tr, dget String.eqb y nm = Some qs /\ named_traj nm tr /\ length qs = length (tr_rows xs) /\
        forall k q x, nth_error qs k = Some q -> nth_error tr k = Some x ->
          q = (if c2p then qinv else fun a => a) (if incl then snd (quat_project (t_rot x) z_unit) else t_rot x).
Proof.
  intros FR Names. unfold root_target. destruct (scan_names W s WF (root_step incl c2p xs sxs) []) as (im & ->).
  set (h := fun j => let q := map t_rot (link_traj xs j) in let q := if incl then map (fun a => snd (quat_project a z_unit)) q else q in if c2p then map qinv q else q).
  set (g := fun i => if negb (Z.eqb (pr_ s i) (-1)) then Ok None else
                     do j <- match name_to_idx sxs (nm_ s i) with Ok i => Ok i | Err _ => Err EKey end; Ok (Some (h j))).
  rewrite (run_dict W s WF (root_step incl c2p xs sxs) im (fun i => [One (GStr (nm_ s i)); One (GInt (pr_ s i))]) g).
  2:{ intros y st i Hi. unfold root_step, g. destruct (negb (Z.eqb (pr_ s i) (-1))); [reflexivity|].
      destruct (name_to_idx sxs (nm_ s i)) as [j|]; reflexivity. }
  2:{ reflexivity. }
  2:{ intros i _ []. }
  set (Q := fun i (v : option (list quat)) => match v with
     | None => pr_ s i <> (-1)%Z
     | Some qs => pr_ s i = (-1)%Z /\ exists j, nth_error (link_names sxs) j = Some (nm_ s i) /\ qs = h j end).
  destruct (mapM_rel g Q (seq 0 n)) as (vs & E & F).
  { intros i Hi. apply in_seq in Hi. assert (Hn : i < n) by lia. unfold g. destruct (Z.eqb_spec (pr_ s i) (-1)) as [R|R]; [|exists None; auto]. cbn [negb].
    destruct (indexS_In (nm_ s i) (link_names sxs)) as (j & Hj).
    { apply (Names i); [rewrite <- R; apply pr_spec; auto|now apply (nm_spec W)]. }
    unfold name_to_idx. rewrite Hj. cbn [bind]. eexists. split; [reflexivity|]. cbn [Q]. split; auto.
    apply indexS_spec in Hj. exists j. tauto. }
  rewrite E. cbn [bind fst snd app]. assert (Lv : length vs = n) by (apply Forall2_length in F; rewrite seq_length in F; auto).
  assert (FQ : forall i v, i < n -> nth_error vs i = Some v -> Q i v).
  { intros i v Hi Hv. destruct (Forall2_nth _ _ _ F i i) as (b & Hb & Qb); [rewrite nth_error_nth' with (d := 0) by (now rewrite seq_length); now rewrite seq_nth|]. congruence. }
  eexists. split; [reflexivity|]. split.
  - apply (entries_keys W s WF); auto. intros i v Hi Hv. specialize (FQ i v Hi Hv). destruct v as [v|]; cbn [Q] in FQ.
    + destruct FQ as [-> _]. cbn. split; discriminate.
    + destruct (Z.eqb_spec (pr_ s i) (-1)); tauto.
  - intros i nm Hp Hnm. assert (Hi : i < n) by (apply nth_error_Some; congruence).
    pose proof (pr_spec s i Hi) as PE. rewrite Hp in PE. injection PE as PE. pose proof (nm_spec W s WF i Hi) as NE. rewrite Hnm in NE. injection NE as NE.
    destruct (nth_error vs i) as [v|] eqn:Ev; [|apply nth_error_None in Ev; lia]. pose proof (FQ i v Hi Ev) as Qv. destruct v as [qs|]; cbn [Q] in Qv; [|lia].
    destruct Qv as (_ & j & Hj & ->). rewrite <- NE in Hj.
    eexists. exists (link_traj xs j). split; [rewrite NE; apply (entries_get W s WF vs i); eauto|].
    split; [now apply named_traj_link|]. split; [unfold h; destruct incl, c2p; rewrite !map_length, link_traj_length; reflexivity|].
    intros k q x Hq Hx. unfold h in Hq. destruct incl, c2p; rewrite !nth_error_map, Hx in Hq; cbn [option_map] in Hq; injection Hq as <-; reflexivity.
Qed.
Theorem C58_root_unknown incl c2p i nm : nth_error (link_parents s) i = Some (-1)%Z -> nth_error (link_names s) i = Some nm -> ~ In nm (link_names sxs) ->
  root_target W incl c2p s xs sxs = Err EKey.
Proof.
  intros Hp Hnm NI. unfold root_target. destruct (scan_names W s WF (root_step incl c2p xs sxs) []) as (im & ->).
  assert (A : forall m k y st, k <= i < k + m -> k + m = n -> run (root_step incl c2p xs sxs) im y st (map (fun i => [One (GStr (nm_ s i)); One (GInt (pr_ s i))]) (seq k m)) = Err EKey).
  { induction m as [|m IH]; intros k y st Hi Hk; [lia|]. cbn [seq map run].
    assert (S1 : forall st, (exists st1, root_step incl c2p xs sxs y im [One (GStr (nm_ s k)); One (GInt (pr_ s k))] st = Ok (tt, st1)) \/
                       root_step incl c2p xs sxs y im [One (GStr (nm_ s k)); One (GInt (pr_ s k))] st = Err EKey).
    { intros st0. unfold root_step. destruct (negb (pr_ s k =? -1)%Z); [left; eauto|]. destruct (name_to_idx sxs (nm_ s k)); cbn [bind]; [left; eauto|now right]. }
    destruct (Nat.eq_dec k i) as [->|Ni].
    - assert (Hn : i < n) by lia. pose proof (pr_spec s i Hn) as PE. rewrite Hp in PE. injection PE as PE.
      pose proof (nm_spec W s WF i Hn) as NE. rewrite Hnm in NE. injection NE as NE.
      unfold root_step. rewrite <- PE, <- NE. cbn [Z.eqb negb]. change (-1 =? -1)%Z with true. cbn [negb].
      destruct (name_to_idx sxs nm) as [j|] eqn:E; [|reflexivity]. unfold name_to_idx in E. apply indexS_spec in E. destruct E as [E _]. apply nth_error_In in E. contradiction.
    - destruct (S1 st) as [(st1 & ->)| ->]; [|reflexivity]. cbn [bind fst snd]. rewrite IH by lia. reflexivity. }
  rewrite A; [reflexivity| |lia]. split; [lia|]. cbn. apply nth_error_Some. unfold num_links. congruence.
Qed.
End C58.

(** What the inclination target of an orientation is: it has no component about the vertical, differs from the
    orientation by a rotation about the vertical only, and sees the vertical in the same direction. *)
Theorem C58_inclination q : qunit q -> let r := snd (quat_project q z_unit) in
  qz r = 0%R /\ (exists a, q = qmul r (quat_rot_axis z_unit a)) /\ rotate z_unit r = rotate z_unit q.
Proof.
  intros U. cbv zeta. assert (UZ : dot z_unit z_unit = 1%R) by (unfold z_unit; vring).
  pose proof (project_no_component q z_unit UZ) as NC. pose proof (project_split q z_unit UZ) as SP. pose proof (project_pri q z_unit UZ) as PP.
  destruct (quat_project q z_unit) as [pri r]. cbn [fst snd] in *.
  match type of PP with _ = rot _ ?b => set (be := b) in * end.
  assert (EX : q = qmul r (quat_rot_axis z_unit (- (2 * be)))).
  { rewrite rot_axis_unit by auto. rewrite <- SP, PP. do 2 f_equal. field. }
  split; [|split; [eauto|]].
  - clear - NC. destruct r as [w x y z]. unfold dot, z_unit, qvec in NC. cbn in *. lra.
  - rewrite EX, rotate_mul. f_equal. rewrite rot_axis_unit by auto. generalize (- - (2 * be) / 2)%R. intros a. unfold rot, z_unit. vunfold. pose proof (sin2_cos2 a) as S. unfold Rsqr in S. f_equal; nra.
Qed.
