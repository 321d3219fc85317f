(** * C75: starting, stopping, saving and resuming a training run with train_fn. *)
From Coq Require Import Reals Lra String ZArith Lia Bool Arith List.
From Verif Require Import Prelude M_Util M_Rcmg M_Train M_Disk S_Disk M_Callbacks S_Callbacks C_Loop C_Queue C_Callbacks M_TrainFn S_TrainFn.
From Verif Require C_Union C_Disk.
Import ListNotations.
Local Open Scope string_scope.
Local Open Scope list_scope.
Local Open Scope nat_scope.

Lemma stem_nonempty name : name <> "" -> stem name <> "".
Proof.
  intros N. unfold stem. destruct (last_dot name) as [[a b]|]; [|exact N].
  destruct (String.eqb_spec a "") as [E|E]; cbn [orb]; [exact N|]. destruct (b =? "")%string; auto.
Qed.

Ltac pick I := cbn [opt_list In] in I; first [contradiction | destruct I as [<-|[]] | destruct I as [I|[]]; discriminate].
Section C75.
Context {Par Opt Batch GS Key : Type}.
Variable has_nan : Par -> bool.
Variable elapsed : nat -> R.
Variable tags : nat -> option (list string).
Variable fmt : flt -> string.
Variable uid : string.
Variable gen : GS -> Key -> GS * Batch.
Variable step_fn : Par -> Opt -> Batch -> Par * Opt * flt * list (list flt).
Variable prng : nat -> Key.
Variable split : Key -> Key * Key.
Variable f_params : option Par.
Variable f_init : Batch -> nat -> Par.
Variable opt_init : Par -> Opt.
Variable nl : nat.
Notation options := (options Par Opt Batch).
Notation store := (store Par Opt).
Notation cb := (cb Par Opt Batch).
Notation rec := (@rec Par Opt).
Notation tloop := (@loop GS Batch Par Opt (list cb) Key).
Notation run := (train_fn has_nan elapsed tags fmt uid gen step_fn prng split f_params f_init opt_init nl).
Notation begins := (begins gen prng f_params f_init opt_init).
Notation reason := (stop_reason has_nan elapsed tags).
Notation keys := (fun (k : Key) (_ : nat) => split k).
Notation hist := (history step_fn).
Notation all_callbacks := (all_callbacks uid).

(** The batches of a run of [k] episodes: the first is made with PRNGKey(0), the others with keys split from the seed of the generator. *)
Definition batches (o : options) (gs : GS) (k : nat) : list Batch :=
  let (gs', b) := gen gs (prng 0) in data gen keys gs' (prng (t_seed_generator o)) 0 b k.

Lemma start_spec (o : options) (fs : store) gs gs' p q : t_checkpoint o <> Some "" ->
  (start_point gen prng f_params f_init opt_init o fs gs = Ok (gs', p, q) <-> begins o fs gs p q gs').
Proof.
  intros NE. unfold start_point. destruct (t_checkpoint o) as [name|] eqn:EC.
  - assert (SN : stem name <> "") by (apply stem_nonempty; congruence).
    unfold pickle_load, parse_path. change (dotted "pickle") with ".pickle". cbv zeta. cbn [negb andb].
    assert (EN : with_suffix (with_suffix name ".pickle") ".pickle" = (stem name ++ ".pickle")%string)
      by (unfold with_suffix at 2; now rewrite with_suffix_twice).
    rewrite EN. unfold is_file.
    split.
    + intros H. apply bind_Ok in H. destruct H as (l & H & G). apply bind_Ok in H. destruct H as (s & H & K). apply bind_Ok in H. destruct H as (n & H & J).
      apply bind_Ok in H. destruct H as (u & _ & H). injection H as <-.
      destruct (dget String.eqb (s_checkpoints fs) (stem name ++ ".pickle")%string) as [[a|]|] eqn:EG; try discriminate. injection J as ->.
      destruct s as [|p' q']; [discriminate|]. injection K as <-. injection G as <- <- <-. eapply from_checkpoint; eauto.
    + intros H. inversion H as [name' p' q' E S|p' E|b gs1 E]; subst; [|congruence|congruence]. rewrite EC in E. injection E as <-.
      unfold stored in S. unfold dmem. rewrite S. cbn [assert_ bind]. rewrite S. reflexivity.
  - cbn [bind]. destruct f_params as [p0|] eqn:EP.
    + split.
      * intros H. injection H as <- <- <-. apply from_filter; auto.
      * intros H. inversion H as [name' p' q' E S|p' E E'|b gs1 E E']; subst; try congruence. 
    + destruct (gen gs (prng 1)) as [gs1 b] eqn:EG. split.
      * intros H. injection H as <- <- <-. eapply from_seed; eauto.
      * intros H. inversion H as [name' p' q' E S|p' E E'|b' gs2 E E' E'']; subst; congruence.
Qed.

Lemma wants_all (o : options) past r : (exists c, In c (all_callbacks o) /\ wants_stop has_nan elapsed tags c past r) <-> reason o past r.
Proof.
  split.
  - intros (c & I & W). unfold M_TrainFn.all_callbacks, default_callbacks in I. rewrite !in_app_iff in I.
    destruct I as [[I|[I|[I|[I|[I|[I|[I|I]]]]]]]|[I|I]].
    + pick I. cbn [wants_stop] in W. destruct (t_episode o) as [k|] eqn:E; [|contradiction]. eapply too_many; eauto.
    + destruct (t_metrics o); pick I. contradiction.
    + destruct (t_tag o) as [t|] eqn:E; pick I. destruct W as (l & W1 & W2). eapply tagged; eauto.
    + destruct (save_path uid o); pick I. contradiction.
    + destruct (t_grads o) as [l|] eqn:E; pick I. destruct W as (b & w & rest & W1 & W2). eapply exploding; eauto.
    + destruct (t_nan o) eqn:E; pick I. now apply nan_parameters.
    + destruct (t_seconds o) eqn:E; pick I. eapply too_long; eauto.
    + destruct (t_create o); pick I. contradiction.
    + eapply by_user; eauto.
    + destruct (t_track o); pick I. contradiction.
  - unfold M_TrainFn.all_callbacks, default_callbacks. intros [k E W|E W|s E W|t l E W1 W2|l b w rest E W1 W2|c I W].
    + exists (CEpisode (t_episode o)). split; [left; reflexivity|]. rewrite E. exact W.
    + exists CNan. split; [|exact W]. rewrite E, !in_app_iff. cbn. tauto.
    + exists (CTiming s). split; [|exact W]. rewrite E, !in_app_iff. cbn. tauto.
    + exists (CTag t). split; [|now exists l]. rewrite E, !in_app_iff. cbn. tauto.
    + exists (CLogGrads (Some l) 18 []). split; [|now exists b, w, rest]. rewrite E, !in_app_iff. cbn. tauto.
    + exists c. split; [|exact W]. rewrite !in_app_iff. tauto.
Qed.
Lemma all_fresh (o : options) : Forall fresh (t_user o) -> Forall fresh (all_callbacks o).
Proof.
  intros F. unfold M_TrainFn.all_callbacks, default_callbacks. rewrite !Forall_app. repeat split; auto.
  - constructor; [exact Logic.I|constructor].
  - destruct (t_metrics o); repeat constructor.
  - destruct (t_tag o); repeat constructor.
  - destruct (save_path uid o); repeat constructor.
  - destruct (t_grads o); repeat constructor.
  - destruct (t_nan o); repeat constructor.
  - destruct (t_seconds o); repeat constructor.
  - destruct (t_create o); repeat constructor.
  - destruct (t_track o); repeat constructor.
Qed.

(** The loop that train_fn builds. *)
Lemma run_loop (o : options) n gs (fs : store) gs1 p q : t_checkpoint o <> Some "" -> begins o fs gs p q gs1 ->
  exists st : tloop, run o n gs fs = train has_nan elapsed tags fmt uid gen step_fn keys nl n st fs /\
    l_cs st = all_callbacks o /\ i_episode st = (-1)%Z /\ l_params st = p /\ l_opt st = q /\
    forall k, data gen keys (l_gs st) (l_ks st) (start st) (l_eval st) k = batches o gs1 k.
Proof.
  intros NE B. apply start_spec in B; auto. unfold train_fn. rewrite B. eexists. split; [reflexivity|].
  unfold loop_init, batches. destruct (gen gs1 (prng 0)) as [gs2 b]. cbn. auto.
Qed.
Lemma run_begins (o : options) n gs (fs fs' : store) cl r : t_checkpoint o <> Some "" -> run o n gs fs = (fs', cl, Ok r) ->
  exists p q gs1, begins o fs gs p q gs1.
Proof.
  intros NE H. unfold train_fn in H. destruct (start_point _ _ _ _ _ _ _ _) as [[[gs1 p] q]|x] eqn:E; [|discriminate].
  apply start_spec in E; eauto.
Qed.

(** A run starts from the checkpoint, the filter's parameters or the network seed; it trains on the batches given by the seeds;
    it ends after the first episode that gives a reason to, and returns whether there was one. *)
Theorem C75_run (o : options) n gs (fs fs' : store) cl (st' : tloop) flag : t_checkpoint o <> Some "" -> Forall fresh (t_user o) ->
  run o n gs fs = (fs', cl, Ok (st', flag)) ->
  exists p q gs1 k, begins o fs gs p q gs1 /\ k <= n /\
    (l_params st', l_opt st') = trained step_fn p q (batches o gs1 k) /\
    let h := hist 0 p q (batches o gs1 k) in
    length h = k /\
    (forall h1 r h2, h = h1 ++ r :: h2 -> h2 <> [] -> ~ reason o h1 r) /\
    (flag = true <-> exists h1 r, h = h1 ++ [r] /\ reason o h1 r) /\
    (flag = false -> k = n).
Proof.
  intros NE F H. destruct (run_begins _ _ _ _ _ _ _ NE H) as (p & q & gs1 & B).
  destruct (run_loop o n gs fs gs1 p q NE B) as (st & E & L1 & L2 & L3 & L4 & L5). rewrite E in H.
  assert (F' : Forall fresh (l_cs st)) by (rewrite L1; now apply all_fresh).
  destruct (C73_stops _ _ _ _ _ _ _ _ _ n st st' fs fs' cl flag F' ltac:(lia) H) as (bs & B1 & B2 & B3 & B4).
  cbv zeta in B4. rewrite L3, L4 in *. rewrite L5 in B2.
  assert (S0 : start st = 0) by (unfold start; rewrite L2; reflexivity). rewrite S0 in B4. destruct B4 as (B4 & B5 & B6 & _).
  exists p, q, gs1, (length bs). split; [exact B|]. split; [exact B1|]. rewrite <- B2. split; [exact B3|]. cbv zeta.
  split; [apply history_length|]. split; [|split; [|exact B6]].
  - intros h1 r h2 EH N R. destruct h2 as [|r' h2]; [contradiction|]. apply wants_all in R. destruct R as (c & I & W).
    rewrite L1 in B4. exact (B4 h1 r r' h2 c EH I W).
  - rewrite B5, L1. split.
    + intros (h1 & r & c & EH & I & W). exists h1, r. split; auto. apply wants_all. eauto.
    + intros (h1 & r & EH & R). apply wants_all in R. destruct R as (c & I & W). exists h1, r, c. auto.
Qed.

(** "Kill after episode k": at most k + 1 episodes are made, exactly min n (k + 1) if no other reason was asked for. *)
Theorem C75_episodes (o : options) n gs (fs fs' : store) cl (st' : tloop) flag k : t_checkpoint o <> Some "" -> t_user o = [] ->
  t_episode o = Some (Z.of_nat k) -> t_nan o = false -> t_seconds o = None -> t_tag o = None -> t_grads o = None ->
  run o n gs fs = (fs', cl, Ok (st', flag)) ->
  exists p q gs1, begins o fs gs p q gs1 /\ (l_params st', l_opt st') = trained step_fn p q (batches o gs1 (min n (k + 1))) /\
    (flag = true <-> k < n).
Proof.
  intros NE U EK E1 E2 E3 E4 H. destruct (run_begins _ _ _ _ _ _ _ NE H) as (p & q & gs1 & B).
  destruct (run_loop o n gs fs gs1 p q NE B) as (st & E & L1 & L2 & L3 & L4 & L5). rewrite E in H.
  assert (F' : Forall fresh (l_cs st)) by (rewrite L1; apply all_fresh; rewrite U; constructor).
  destruct (C73_episode_limit has_nan elapsed tags gen step_fn keys nl fmt uid n st st' fs fs' cl flag k F' L2) as (bs & B1 & B2 & B3 & B4); auto.
  - rewrite L1. unfold M_TrainFn.all_callbacks, default_callbacks. rewrite EK. now left.
  - intros c I. rewrite L1 in I. unfold M_TrainFn.all_callbacks, default_callbacks in I. rewrite EK, U, E1, E2, E3, E4 in I. rewrite !in_app_iff in I.
    cbn [opt_list In app] in I.
    destruct (t_metrics o), (save_path uid o), (t_create o), (t_track o); cbn [opt_list In app] in I;
      repeat match goal with H : _ \/ _ |- _ => destruct H end; try contradiction; subst; auto; right; exact Logic.I.
  - exists p, q, gs1. split; [exact B|]. split; [|exact B4]. rewrite L5 in B2. rewrite L3, L4 in B3. now rewrite <- B1, <- B2.
Qed.

(** *** Resuming *)
Lemma trained_app (bs : list Batch) : forall p q bs', trained step_fn p q (bs ++ bs') =
  trained step_fn (fst (trained step_fn p q bs)) (snd (trained step_fn p q bs)) bs'.
Proof.
  induction bs as [|b bs IH]; intros p q bs'; [reflexivity|]. cbn [app trained]. destruct (step_fn p q b) as [[[p' q'] l] g]. apply IH.
Qed.

(** A killed run can be resumed: both runs together train from the beginning of the first one, on the batches of both. *)
Theorem C75_resume (o o2 : options) n n2 gs gs2 (fs fs' fs2 fs2' : store) cl cl2 (st st2 : tloop) flag2 :
  t_checkpoint o <> Some "" -> Forall fresh (t_user o) -> uid <> "" -> no_dot uid -> t_create o = true ->
  run o n gs fs = (fs', cl, Ok (st, true)) ->
  (t_checkpoint o2 = Some uid \/ t_checkpoint o2 = Some (uid ++ ".pickle")%string) -> Forall fresh (t_user o2) ->
  same_file (s_checkpoints fs') (s_checkpoints fs2) (uid ++ ".pickle")%string ->
  run o2 n2 gs2 fs2 = (fs2', cl2, Ok (st2, flag2)) ->
  exists p q gs1 k k2, begins o fs gs p q gs1 /\ k <= n /\ k2 <= n2 /\
    (l_params st, l_opt st) = trained step_fn p q (batches o gs1 k) /\
    (l_params st2, l_opt st2) = trained step_fn p q (batches o gs1 k ++ batches o2 gs2 k2).
Proof.
  intros NE F U1 U2 TC H CP F2 SF H2.
  assert (NE2 : t_checkpoint o2 <> Some "").
  { destruct CP as [->| ->]; intros X; injection X; [auto|]. intros Y. destruct uid; discriminate. }
  assert (ST : stored (s_checkpoints fs') (uid ++ ".pickle")%string (SCheckpoint (l_params st) (l_opt st))).
  { destruct (run_begins _ _ _ _ _ _ _ NE H) as (p & q & gs1 & B).
    destruct (run_loop o n gs fs gs1 p q NE B) as (s0 & E & L1 & L2 & L3 & L4 & L5). rewrite E in H.
    assert (F' : Forall fresh (l_cs s0)) by (rewrite L1; now apply all_fresh).
    destruct (C73_checkpoint _ _ _ _ _ _ _ _ _ n s0 st fs fs' cl true F' ltac:(lia) U1 U2 H) as (X & _). apply X; auto.
    rewrite L1. unfold M_TrainFn.all_callbacks, default_callbacks. rewrite TC, !in_app_iff. cbn. tauto. }
  destruct (C75_run o n gs fs fs' cl st true NE F H) as (p & q & gs1 & k & B & K & T & _).
  destruct (C75_run o2 n2 gs2 fs2 fs2' cl2 st2 flag2 NE2 F2 H2) as (p2 & q2 & gs1' & k2 & B2 & K2 & T2 & _).
  exists p, q, gs1, k, k2. split; [exact B|]. split; [exact K|]. split; [exact K2|]. split; [exact T|].
  inversion B2 as [name p' q' E S|p' E E'|b gs3 E E']; subst; [|destruct CP; congruence|destruct CP; congruence].
  assert (SN : stem name = uid).
  { destruct CP as [C|C]; rewrite C in E; injection E as <-; [now apply C_Disk.stem_plain|].
    change (uid ++ ".pickle")%string with (uid ++ "." ++ "pickle")%string. apply C_Disk.stem_dotted; auto; [discriminate|].
    unfold no_dot. cbn. intuition discriminate. }
  rewrite SN in S. unfold stored, same_file in *. rewrite <- SF, ST in S. injection S as <- <-.
  rewrite trained_app, <- T. exact T2.
Qed.

(** "A resumed run continues with new data" is false: a generator that only depends on the key gives the resumed run the very
    batches that the first run had, from the first one on. *)
Lemma data_memoryless f : memoryless gen f -> forall n gs gs' ks e e' b, data gen keys gs ks e b n = data gen keys gs' ks e' b n.
Proof.
  intros M. induction n as [|n IH]; intros gs gs' ks e e' b; [reflexivity|]. cbn [data]. destruct (split ks) as [ks' k].
  pose proof (M gs k) as M1. pose proof (M gs' k) as M2. destruct (gen gs k) as [g1 b1]. destruct (gen gs' k) as [g2 b2]. cbn in M1, M2. subst.
  f_equal. apply IH.
Qed.
Theorem C75_resume_data_refuted f (o o2 : options) gs gs2 k : memoryless gen f -> t_seed_generator o2 = t_seed_generator o ->
  batches o2 gs2 k = batches o gs k.
Proof.
  intros M E. unfold batches. rewrite E. pose proof (M gs (prng 0)) as M1. pose proof (M gs2 (prng 0)) as M2.
  destruct (gen gs (prng 0)) as [g1 b1]. destruct (gen gs2 (prng 0)) as [g2 b2]. cbn in M1, M2. subst. now apply (data_memoryless f).
Qed.

(** *** Saving *)
Lemma save_path_stem (o : options) path s : no_dot uid -> uid <> "" -> save_path uid o = Some path -> save_stem uid o = Some s -> s = stem path.
Proof.
  intros U1 U2. unfold save_path, save_stem. destruct (t_save o); intros E1 E2; try discriminate; injection E1 as <-; injection E2 as <-; auto.
  symmetry. change (uid ++ ".pickle")%string with (uid ++ "." ++ "pickle")%string. apply C_Disk.stem_dotted; auto; [discriminate|].
  unfold no_dot. cbn. intuition discriminate.
Qed.
(** If parameters are to be saved, those of the last episode are. *)
Theorem C75_saved (o : options) n gs (fs fs' : store) cl (st' : tloop) flag s : t_checkpoint o <> Some "" -> Forall fresh (t_user o) ->
  uid <> "" -> no_dot uid -> (forall v, no_dot (fmt v)) ->
  save_stem uid o = Some s -> s <> "" -> no_dot s -> 0 < n ->
  run o n gs fs = (fs', cl, Ok (st', flag)) ->
  stored (s_params fs') (s ++ ".pickle")%string (SParams (l_params st')).
Proof.
  intros NE F U1 U2 FM SS S1 S2 N H. destruct (C75_run o n gs fs fs' cl st' flag NE F H) as (p & q & gs1 & k & B & K & T & LH & _ & FL & FN).
  destruct (save_path uid o) as [path|] eqn:EP; [|unfold save_path, save_stem in *; destruct (t_save o); discriminate].
  pose proof (save_path_stem o path s U2 U1 EP SS) as ->.
  destruct (run_loop o n gs fs gs1 p q NE B) as (s0 & E & L1 & L2 & L3 & L4 & L5). rewrite E in H.
  assert (F' : Forall fresh (l_cs s0)) by (rewrite L1; now apply all_fresh).
  destruct (C73_saved has_nan elapsed tags gen step_fn keys nl fmt uid n s0 st' fs fs' cl flag path 1 5%Z F' ltac:(lia) S1 S2 FM ltac:(lia)) as (bs & _ & B0 & B1 & B2 & B3); auto.
  - rewrite L1. unfold M_TrainFn.all_callbacks, default_callbacks. rewrite EP, !in_app_iff. cbn. tauto.
  - cbv zeta in B3. rewrite L3, L4 in *. assert (S0 : start s0 = 0) by (unfold start; rewrite L2; reflexivity). rewrite S0 in B3.
    assert (HN : hist 0 p q bs <> []).
    { intros X. apply (B0 N). apply length_zero_iff_nil. rewrite <- (history_length step_fn 0 p q bs), X. reflexivity. }
    destruct (exists_last HN) as (h1 & r & EH). specialize (B3 h1 r [] EH ltac:(cbn; lia)).
    rewrite (history_last _ _ _ _ _ _ _ EH) in B2. injection B2 as -> _. unfold params_file in B3.
    assert (M1 : min 1 (length (hist 0 p q bs)) = 1) by (rewrite EH, app_length; cbn [length]; lia). rewrite M1 in B3. exact B3.
Qed.

Lemma close_no_save flag : forall (cs : list cb) (fs fs' : store) m r, (forall pt mx tr ev v qu, ~ In (CSave pt mx tr ev v qu) cs) ->
  close_all fmt uid flag cs fs = (fs', m, r) -> s_params fs' = s_params fs.
Proof.
  induction cs as [|c cs IH]; intros fs fs' m r NI H; cbn [close_all] in H; [now injection H as <- <- <-|].
  destruct (cb_close fmt uid flag c fs) as [fs1 x] eqn:E.
  assert (E1 : s_params fs1 = s_params fs).
  { destruct c; cbn [cb_close] in E; try (injection E as <- <-; reflexivity).
    - exfalso. apply (NI path maxlen track every value queue). now left.
    - destruct flag; [|injection E as <- <-; reflexivity]. destruct saved as [[p o]|]; [|injection E as <- <-; reflexivity].
      destruct (pickle_save _ _ _ true); injection E as <- <-; reflexivity. }
  destruct x as [[]|x].
  - destruct (close_all fmt uid flag cs fs1) as [[fs2 m2] r2] eqn:E2. injection H as <- <- <-. rewrite <- E1. eapply IH; eauto.
    intros pt mx tr ev v qu I. apply (NI pt mx tr ev v qu). now right.
  - injection H as <- <- <-. exact E1.
Qed.

(** Without a request to save, the folder of parameters is not touched. *)
Lemma lived_save_from (c0 c : cb) h pt mx tr ev v qu : lived has_nan elapsed tags c0 h c -> c = CSave pt mx tr ev v qu ->
  exists v0 q0, c0 = CSave pt mx tr ev v0 q0.
Proof.
  intros L -> . apply lived_after in L. destruct c0; cbn [after] in L; try discriminate.
  - destruct L as (? & L & _). discriminate.
  - destruct L as (? & ? & L & _). injection L as <- <- <- <- <- <-. eauto.
  - destruct L as [[_ L]|(? & ? & _ & L)]; discriminate.
Qed.
Theorem C75_not_saved (o : options) n gs (fs fs' : store) cl res : t_checkpoint o <> Some "" -> Forall fresh (t_user o) ->
  t_save o = SaveNo -> t_track o = None -> (forall pt mx tr ev v qu, ~ In (CSave pt mx tr ev v qu) (t_user o)) ->
  run o n gs fs = (fs', cl, res) -> s_params fs' = s_params fs.
Proof.
  intros NE F S T U H. unfold train_fn in H. destruct (start_point _ _ _ _ _ _ _ _) as [[[gs1 p] q]|x] eqn:E; [|now injection H as <- <- <-].
  assert (B : begins o fs gs p q gs1) by now apply start_spec.
  destruct (run_loop o n gs fs gs1 p q NE B) as (st & E' & L1 & L2 & _). unfold train_fn in E'. rewrite E in E'. rewrite E' in H. clear E'.
  assert (F' : Forall fresh (l_cs st)) by (rewrite L1; now apply all_fresh).
  unfold train in H. destruct (loop_run _ _ _ _ _ _ _ _ _ _) as [es [[s1 fl]|x]] eqn:ER; cbn [snd] in H; [|now injection H as <- <- <-].
  destruct (run_after _ _ _ _ _ _ _ n st s1 fl es F' ltac:(lia) ER) as (bs & _ & _ & _ & [L A] & _).
  destruct (close_all fmt uid fl (l_cs s1) fs) as [[fs1 m] r] eqn:EC.
  assert (X : s_params fs1 = s_params fs).
  { eapply close_no_save; [|exact EC]. intros pt mx tr ev v qu I. apply In_nth_error in I. destruct I as [j I].
    destruct (nth_error (l_cs st) j) as [c0|] eqn:E0.
    - destruct (lived_save_from _ _ _ _ _ _ _ _ _ (A j c0 _ E0 I) eq_refl) as (v0 & q0 & ->).
      apply nth_error_In in E0. rewrite L1 in E0. unfold M_TrainFn.all_callbacks, default_callbacks, save_path in E0. rewrite S, T in E0.
      rewrite !in_app_iff in E0. cbn [opt_list In] in E0.
      destruct E0 as [[E0|[E0|[E0|[E0|[E0|[E0|[E0|E0]]]]]]]|[E0|E0]]; try (destruct E0; [discriminate|contradiction]); try contradiction.
      + destruct (t_metrics o); cbn [opt_list In] in E0; [destruct E0 as [E0|[]]; discriminate|contradiction].
      + destruct (t_tag o); cbn [opt_list In] in E0; [destruct E0 as [E0|[]]; discriminate|contradiction].
      + destruct (t_grads o); cbn [opt_list In] in E0; [destruct E0 as [E0|[]]; discriminate|contradiction].
      + destruct (t_nan o); cbn [opt_list In] in E0; [destruct E0 as [E0|[]]; discriminate|contradiction].
      + destruct (t_seconds o); cbn [opt_list In] in E0; [destruct E0 as [E0|[]]; discriminate|contradiction].
      + destruct (t_create o); cbn [opt_list In] in E0; [destruct E0 as [E0|[]]; discriminate|contradiction].
      + exact (U _ _ _ _ _ _ E0).
    - apply nth_error_None in E0. assert (j < length (l_cs s1)) by (apply nth_error_Some; congruence). lia. }
  destruct r as [[]|x]; injection H as <- <- <-; exact X.
Qed.

(** *** Runs that cannot end well *)
Lemma q_insert_length k (qu qu' : list (flt * (Par * nat))) x : 0 < k -> length qu <= k -> q_insert flt_lt k qu x = Ok qu' -> length qu' = min k (S (length qu)).
Proof.
  intros K L H. unfold q_insert in H. destruct (Nat.ltb_spec (length qu) k) as [Y|Y].
  - injection H as <-. rewrite C_Queue.sort_length, app_length. cbn [length]. lia.
  - destruct (rev qu) as [|w r] eqn:E; [discriminate|]. assert (E' : length qu = S (length r)) by (rewrite <- rev_length, E; reflexivity).
    destruct (flt_lt (fst x) (fst w)); injection H as <-; [rewrite C_Queue.sort_length, app_length, rev_length; cbn [length]; lia|lia].
Qed.
Lemma lived_queue pt k tr ev h (c : cb) : 0 < k -> lived has_nan elapsed tags (CSave pt k tr ev 0%R []) h c ->
  exists v qu, c = CSave pt k tr ev v qu /\ length qu = min k (length h).
Proof.
  intros K L. remember (CSave pt k tr ev 0%R []) as c0. induction L as [F|h c e m p g b o c' m' kl L IH E].
  - subst. exists 0%R, []. split; [reflexivity|]. cbn. lia.
  - destruct IH as (v & qu & -> & LQ). cbn [cb_step] in E. apply bind_Ok in E. destruct E as (vv & _ & E).
    apply bind_Ok in E. destruct E as (qu' & E1 & E2). injection E2 as <- _ _. exists (snd vv), qu'. split; [reflexivity|].
    apply q_insert_length in E1; [|exact K|lia]. rewrite E1, LQ, app_length. cbn [length]. lia.
Qed.

Lemma close_none flag : forall (cs : list cb) (fs fs' : store) m mx tr ev v qu, In (CSave None mx tr ev v qu) cs -> qu <> [] ->
  close_all fmt uid flag cs fs <> (fs', m, Ok tt).
Proof.
  induction cs as [|c cs IH]; intros fs fs' m mx tr ev v qu I N H; [destruct I|]. cbn [close_all] in H.
  destruct (cb_close fmt uid flag c fs) as [fs1 [[]|x]] eqn:E; [|discriminate]. destruct I as [->|I].
  - cbn [cb_close] in E. destruct qu; [contradiction|discriminate].
  - destruct (close_all fmt uid flag cs fs1) as [[fs2 m2] r2] eqn:E2. injection H as <- <- ->. eapply IH; eauto.
Qed.
Lemma close_existing flag path : forall (cs : list cb) (fs fs' : store) m mx tr ev v ele, In (CSave (Some path) mx tr ev v [ele]) cs ->
  dmem String.eqb (s_params fs) (with_suffix (with_suffix path ".pickle") ".pickle") = true ->
  close_all fmt uid flag cs fs <> (fs', m, Ok tt).
Proof.
  induction cs as [|c cs IH]; intros fs fs' m mx tr ev v ele I D H; [destruct I|]. 
  assert (ONE : close_all fmt uid flag [c] fs = (fst (cb_close fmt uid flag c fs), match snd (cb_close fmt uid flag c fs) with Ok _ => 1 | _ => 0 end, snd (cb_close fmt uid flag c fs))).
  { cbn [close_all]. destruct (cb_close fmt uid flag c fs) as [fs1 [[]|x]]; reflexivity. }
  apply close_all_spec in ONE. destruct ONE as (KEEP & _). cbn [close_all] in H.
  destruct (cb_close fmt uid flag c fs) as [fs1 [[]|x]] eqn:E; [|discriminate]. cbn [fst] in KEEP. destruct I as [->|I].
  - cbn [cb_close] in E. cbn [length save_queue] in E. unfold save_name in E. cbn [Nat.eqb] in E.
    unfold pickle_save, parse_path in E. change (dotted "pickle") with ".pickle" in E. cbv zeta in E. unfold is_file in E. rewrite D in E.
    cbn [negb andb bind] in E. discriminate.
  - destruct (close_all fmt uid flag cs fs1) as [[fs2 m2] r2] eqn:E2. injection H as <- <- ->.
    refine (IH fs1 fs2 m2 mx tr ev v ele I _ E2). unfold dmem in *.
    destruct (dget String.eqb (s_params fs) (with_suffix (with_suffix path ".pickle") ".pickle")) as [y|] eqn:G; [|discriminate].
    now rewrite (KEEP _ _ G).
Qed.
Lemma close_all_app flag : forall (cs cs' : list cb) (fs fs' : store) m, close_all fmt uid flag (cs ++ cs') fs = (fs', m, Ok tt) ->
  exists fs1 m1 m2, close_all fmt uid flag cs fs = (fs1, m1, Ok tt) /\ close_all fmt uid flag cs' fs1 = (fs', m2, Ok tt).
Proof.
  induction cs as [|c cs IH]; intros cs' fs fs' m H; cbn [app close_all] in *; [eauto|].
  destruct (cb_close fmt uid flag c fs) as [fs1 [[]|x]] eqn:E; [|discriminate].
  destruct (close_all fmt uid flag (cs ++ cs') fs1) as [[fs2 m2] r2] eqn:E2. injection H as <- <- ->.
  apply IH in E2. destruct E2 as (fs3 & m3 & m4 & E3 & E4). exists fs3, (S m3), m4. now rewrite E3.
Qed.

(** The callbacks when a run of at least one episode is closed. *)
Lemma closing (o : options) n gs (fs fs' : store) cl (st' : tloop) flag : t_checkpoint o <> Some "" -> Forall fresh (t_user o) -> 0 < n ->
  run o n gs fs = (fs', cl, Ok (st', flag)) ->
  exists h m, length h <= n /\ h <> [] /\ close_all fmt uid flag (l_cs st') fs = (fs', m, Ok tt) /\ length (l_cs st') = length (all_callbacks o) /\
    forall j c0, nth_error (all_callbacks o) j = Some c0 -> exists c, nth_error (l_cs st') j = Some c /\ lived has_nan elapsed tags c0 h c.
Proof.
  intros NE F N H. destruct (run_begins _ _ _ _ _ _ _ NE H) as (p & q & gs1 & B).
  destruct (run_loop o n gs fs gs1 p q NE B) as (st & E & L1 & L2 & L3 & L4 & L5). rewrite E in H.
  assert (F' : Forall fresh (l_cs st)) by (rewrite L1; now apply all_fresh).
  destruct (train_spec _ _ _ _ _ _ _ _ _ n st st' fs fs' cl flag F' ltac:(lia) H) as (_ & (m & C) & bs & B1 & _ & _ & [A1 A2] & _ & A3 & A4).
  exists (hist (start st) (l_params st) (l_opt st) bs), m. rewrite L1 in *. split; [now rewrite history_length|]. split; [|split; [exact C|split; [exact A1|]]].
  - destruct flag; [destruct (proj1 A3 eq_refl) as (h1 & r & c & X & _); rewrite X; destruct h1; discriminate|].
    specialize (A4 eq_refl). intros X. apply (f_equal (@length rec)) in X. rewrite history_length in X. cbn in X. lia.
  - intros j c0 J. destruct (nth_error (l_cs st') j) as [c|] eqn:EJ; [eauto|]. apply nth_error_None in EJ.
    assert (j < length (all_callbacks o)) by (apply nth_error_Some; congruence). lia.
Qed.
Lemma fails_not_closed (o : options) n gs (fs fs' : store) cl res : run o n gs fs = (fs', cl, res) -> (forall r, res <> Ok r) -> cl = false /\ exists x, res = Err x.
Proof.
  intros H N. destruct res as [r|x]; [now elim (N r)|]. split; [|eauto]. unfold train_fn in H.
  destruct (start_point _ _ _ _ _ _ _ _) as [[[gs1 p] q]|y]; [|now injection H as <- <- <-].
  unfold train in H. destruct (snd _) as [[s1 fl]|y]; [|now injection H as <- <- <-].
  destruct (close_all _ _ _ _ _) as [[fs1 m] [[]|y]]; [discriminate|now injection H as <- <- <-].
Qed.
Lemma in_all_save (o : options) path : save_path uid o = Some path -> In (CSave (Some path) 1 None 5%Z 0%R []) (default_callbacks uid o).
Proof. intros E. unfold default_callbacks. rewrite E, !in_app_iff. cbn. tauto. Qed.

(** "Tracking metrics without a place to save is refused" is false: such a run is carried out, fails at its end, the loggers stay
    open and no parameters are saved by it. *)
Theorem C75_track_without_path_refuted (o : options) n gs (fs fs' : store) cl res zs : t_checkpoint o <> Some "" -> Forall fresh (t_user o) ->
  t_save o = SaveNo -> t_track o = Some zs -> 0 < n ->
  run o n gs fs = (fs', cl, res) -> cl = false /\ exists x, res = Err x.
Proof.
  intros NE F S T N H. eapply fails_not_closed; [exact H|]. intros [st' flag] ->.
  destruct (closing o n gs fs fs' cl st' flag NE F N H) as (h & m & _ & HN & C & L & A).
  assert (I : In (CSave None 3 (Some zs) 5%Z 0%R []) (all_callbacks o)).
  { unfold M_TrainFn.all_callbacks, save_path. rewrite S, T, !in_app_iff. cbn. tauto. }
  apply In_nth_error in I. destruct I as [j I]. destruct (A j _ I) as (c & J & LV).
  apply lived_queue in LV; [|lia]. destruct LV as (v & qu & -> & LQ).
  apply nth_error_In in J. eapply (close_none flag (l_cs st')); [exact J| |exact C].
  intros ->. cbn in LQ. destruct h; [contradiction|cbn in LQ; lia].
Qed.

(** "Saving the last and the best parameters works together" is false for runs of one episode: both want the same file. *)
Theorem C75_single_episode_refuted (o : options) gs (fs fs' : store) cl res zs : t_checkpoint o <> Some "" -> Forall fresh (t_user o) ->
  t_save o <> SaveNo -> t_track o = Some zs ->
  run o 1 gs fs = (fs', cl, res) -> cl = false /\ exists x, res = Err x.
Proof.
  intros NE F S T H. eapply fails_not_closed; [exact H|]. intros [st' flag] ->.
  destruct (closing o 1 gs fs fs' cl st' flag NE F ltac:(lia) H) as (h & m & HL & HN & C & L & A).
  assert (H1 : length h = 1) by (destruct h; [contradiction|cbn in *; lia]).
  destruct (save_path uid o) as [path|] eqn:EP; [|unfold save_path in EP; destruct (t_save o); try discriminate; contradiction].
  set (front := default_callbacks uid o ++ t_user o).
  assert (EA : all_callbacks o = front ++ [CSave (Some path) 3 (Some zs) 5%Z 0%R []]).
  { unfold M_TrainFn.all_callbacks, front. rewrite T, EP, app_assoc. reflexivity. }
  rewrite EA in *. rewrite app_length in L. cbn [length] in L.
  assert (LN : l_cs st' <> []) by (intros X; rewrite X in L; cbn [length] in L; lia). destruct (exists_last LN) as (cs & c & ECS).
  assert (LC : length cs = length front) by (rewrite ECS, app_length in L; cbn [length] in L; lia). rewrite ECS in *.
  destruct (A (length front) (CSave (Some path) 3 (Some zs) 5%Z 0%R [])) as (c1 & J1 & LV1); [rewrite nth_error_app2, Nat.sub_diag by lia; reflexivity|].
  rewrite <- LC, nth_error_app2, Nat.sub_diag in J1 by lia. injection J1 as <-.
  apply lived_queue in LV1; [|lia]. destruct LV1 as (v1 & q1 & -> & LQ1). rewrite H1 in LQ1. destruct q1 as [|e1 [|]]; try discriminate. clear LQ1.
  assert (I : In (CSave (Some path) 1 None 5%Z 0%R []) front) by (apply in_or_app; left; now apply in_all_save).
  apply In_nth_error in I. destruct I as [j I]. assert (LJ : j < length front) by (apply nth_error_Some; congruence).
  destruct (A j (CSave (Some path) 1 None 5%Z 0%R [])) as (c2 & J2 & LV2); [now rewrite nth_error_app1|].
  apply lived_queue in LV2; [|lia]. destruct LV2 as (v2 & q2 & -> & LQ2). rewrite H1 in LQ2. destruct q2 as [|e2 [|]]; try discriminate. clear LQ2.
  rewrite nth_error_app1 in J2 by lia. apply nth_error_In in J2.
  apply close_all_app in C. destruct C as (fs1 & m1 & m2 & C1 & C2).
  destruct (close_all_spec _ _ _ _ _ _ _ _ C1) as (_ & _ & _ & ST & _).
  specialize (ST eq_refl path 1 None 5%Z v2 [e2] e2 J2 (or_introl eq_refl)). unfold save_name in ST. cbn [length Nat.eqb] in ST.
  refine (close_existing flag path _ fs1 fs' m2 3 (Some zs) 5%Z v1 e1 _ _ C2); [now left|].
  unfold dmem. unfold stored in ST. now rewrite ST.
Qed.

(** A run that has to save under a name that is taken fails at its end; in particular the second run with automatic saving in
    one process, because the name is chosen once per process.  What the first run saved survives. *)
Theorem C75_second_run_refuted (o o2 : options) n n2 gs gs2 (fs fs' fs2 : store) cl cl2 (st : tloop) flag res :
  t_checkpoint o <> Some "" -> Forall fresh (t_user o) -> t_checkpoint o2 <> Some "" -> Forall fresh (t_user o2) ->
  uid <> "" -> no_dot uid -> (forall v, no_dot (fmt v)) ->
  t_save o = SaveAuto -> t_save o2 = SaveAuto -> 0 < n -> 0 < n2 ->
  run o n gs fs = (fs', cl, Ok (st, flag)) -> run o2 n2 gs2 fs' = (fs2, cl2, res) ->
  cl2 = false /\ (exists x, res = Err x) /\ stored (s_params fs2) (uid ++ ".pickle")%string (SParams (l_params st)).
Proof.
  intros NE F NE2 F2 U1 U2 FM S S2 N N2 H H2.
  assert (ST : stored (s_params fs') (uid ++ ".pickle")%string (SParams (l_params st))).
  { apply (C75_saved o n gs fs fs' cl st flag uid); auto. unfold save_stem. now rewrite S. }
  assert (EU : with_suffix (with_suffix (uid ++ ".pickle") ".pickle") ".pickle" = (uid ++ ".pickle")%string) by now rewrite !with_suffix_twice.
  assert (BAD : forall r, res <> Ok r).
  { intros [st2 flag2] ->. destruct (closing o2 n2 gs2 fs' fs2 cl2 st2 flag2 NE2 F2 N2 H2) as (h & m & HL & HN & C & L & A).
    assert (I : In (CSave (Some (uid ++ ".pickle")%string) 1 None 5%Z 0%R []) (all_callbacks o2)).
    { apply in_or_app. left. apply in_all_save. unfold save_path. now rewrite S2. }
    apply In_nth_error in I. destruct I as [j I]. destruct (A j _ I) as (c & J & LV).
    apply lived_queue in LV; [|lia]. destruct LV as (v & qu & -> & LQ).
    assert (H1 : 0 < length h) by (destruct h; [contradiction|cbn; lia]).
    destruct qu as [|e1 [|]]; cbn [length] in LQ; try lia. apply nth_error_In in J.
    refine (close_existing flag2 _ _ fs' fs2 m 1 None 5%Z v e1 J _ C). rewrite EU. unfold dmem. unfold stored in ST. now rewrite ST. }
  destruct (fails_not_closed o2 n2 gs2 fs' fs2 cl2 res H2 BAD) as [X Y]. split; [exact X|]. split; [exact Y|].
  unfold train_fn in H2. destruct (start_point _ _ _ _ _ _ _ _) as [[[gs1 p] q]|y]; [|now injection H2 as <- <- <-].
  eapply C73_keeps; [exact H2|exact ST].
Qed.
End C75.

(** ** Loggers *)
(** A run uses the loggers it is given, and wandb if a wandb run exists. *)
Theorem C75_loggers default l active : exists extra,
  fst (use_loggers default (Some l) active) = l ++ extra /\ snd (use_loggers default (Some l) active) = default /\
  (extra = [] \/ extra = [Wandb]) /\
  (active = true -> In Wandb (l ++ extra)) /\ (active = false -> extra = []) /\ (In Wandb l -> extra = []).
Proof.
  assert (W : existsb is_wandb l = true <-> In Wandb l).
  { rewrite existsb_exists. split; [intros (x & I & E); destruct x; [exact I|discriminate]|intros I; now exists Wandb]. }
  unfold use_loggers. destruct active, (existsb is_wandb l) eqn:E; cbn [andb negb fst snd].
  - exists []. rewrite app_nil_r. repeat split; auto. intros _. now apply W.
  - exists [Wandb]. repeat split; auto; [intros _; apply in_or_app; right; now left|discriminate|]. intros I. apply W in I. discriminate.
  - exists []. rewrite app_nil_r. repeat split; auto. discriminate.
  - exists []. rewrite app_nil_r. repeat split; auto. discriminate.
Qed.
(** "A run that is given no loggers and no wandb run logs nowhere" is false after a run with a wandb run: the default list
    remembers its logger, for all later runs. *)
Theorem C75_loggers_refuted calls given active : In Wandb (fst (use_loggers [] None true)) /\
  (exists l, nth_error (logger_calls (snd (use_loggers [] None true)) (calls ++ [(None, false)])) (length calls) = Some l /\ In Wandb l) /\
  (given = None -> active = false -> fst (use_loggers [] given active) = []).
Proof.
  split; [now left|]. split.
  - assert (G : forall cs d, In Wandb d -> exists l, nth_error (logger_calls d (cs ++ [(None, false)])) (length cs) = Some l /\ In Wandb l).
    { clear. induction cs as [|[g a] cs IH]; intros d I; cbn [app logger_calls length nth_error].
      - exists d. cbn. auto.
      - destruct (use_loggers d g a) as [u d'] eqn:E. cbn [nth_error]. apply IH. unfold use_loggers in E.
        destruct g as [g|]; injection E as <- <-; [exact I|]. destruct (a && _); [apply in_or_app; now left|exact I]. }
    apply G. now left.
  - intros -> ->. reflexivity.
Qed.

(** ** Examples *)
Section Ex.
(** The generator has no memory and returns its key; parameters add up. *)
Definition ex_run := @train_fn nat nat nat unit nat (fun p => p =? 1000) (fun _ => 0%R) (fun _ => None) (fun _ => "") "id"
  (fun gs k => (gs, k)) ex_step (fun s => 10 * s) (fun k => (k + 1, k)) None (fun b s => b + s) (fun _ => 0) 0.
Definition ex_options cp save track ep : options nat nat nat := mkOptions cp 3 2 save track None false ep None None true None [].
Definition ex_end (r : store nat nat * bool * result (@loop unit nat nat nat (list (cb nat nat nat)) nat * bool)) :=
  (fst r, do x <- snd r; Ok (l_params (fst x), l_opt (fst x), snd x)).
(** Two episodes of nine, stopped by the limit, then resumed for three episodes: the batches 0, 20 come again. *)
Example C75_run_nonvacuous :
  ex_end (ex_run (ex_options None SaveNo None (Some 1%Z)) 9 tt (mkStore [] [])) =
    (mkStore [] [("id.pickle", Whole (SCheckpoint 33 2))], true, Ok (33, 2, true)) /\
  ex_end (ex_run (ex_options (Some "id") SaveNo None None) 3 tt (mkStore [] [("id.pickle", Whole (SCheckpoint 33 2))])) =
    (mkStore [] [("id.pickle", Whole (SCheckpoint 33 2))], true, Ok (33 + 0 + 20 + 21, 5, false)).
Proof. split; vm_compute; reflexivity. Qed.
Example C75_failures_nonvacuous :
  ex_end (ex_run (ex_options None SaveNo (Some [["loss"]]) None) 2 tt (mkStore [] [])) = (mkStore [] [], false, Err EType) /\
  ex_end (ex_run (ex_options None (SavePath "m") (Some [["loss"]]) None) 1 tt (mkStore [] [])) =
    (mkStore [("m.pickle", Whole (SParams 13))] [], false, Err EOther) /\
  ex_end (ex_run (ex_options None SaveAuto None None) 1 tt (mkStore [("id.pickle", Whole (SParams 13))] [])) =
    (mkStore [("id.pickle", Whole (SParams 13))] [], false, Err EOther).
Proof. split; [|split]; vm_compute; reflexivity. Qed.
Example C75_saved_nonvacuous : ex_end (ex_run (ex_options None (SavePath "m.pickle") None None) 1 tt (mkStore [] [])) =
  (mkStore [("m.pickle", Whole (SParams 13))] [], true, Ok (13, 1, false)).
Proof. vm_compute. reflexivity. Qed.
Example C75_memoryless_nonvacuous : memoryless (fun (gs : unit) (k : nat) => (gs, k)) (fun k => k).
Proof. intros gs k. reflexivity. Qed.
End Ex.
Print Assumptions C75_run.
Print Assumptions C75_resume.
