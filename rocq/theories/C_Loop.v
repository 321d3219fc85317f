(** * C48: the training protocol. *)
From Coq Require Import ZArith Lia Bool List Permutation.
From Verif Require Import Prelude M_Train.
Import ListNotations.

Section Loop.
Context {GS Key Batch Par Opt Loss Grad Met CS KS : Type}.
Variable gen : GS -> Key -> GS * Batch.
Variable step_fn : Par -> Opt -> Batch -> Par * Opt * Loss * Grad.
Variable metrics_of : Loss -> Met.
Variable callback : nat -> CS -> nat -> Met -> Par -> Grad -> Batch -> Opt -> result (CS * Met * option bool).
Variables nc nl : nat.
Variable next_key : KS -> nat -> KS * Key.
Notation loop := (@loop GS Batch Par Opt CS KS).
Notation step := (loop_step gen step_fn metrics_of callback nc nl next_key).
Notation steps := (run_steps gen step_fn metrics_of callback nc nl next_key).
Notation run := (loop_run gen step_fn metrics_of callback nc nl next_key).
Notation ev := (@event Batch Par).

(** ** Specification *)

(** What is drawn and computed along a run, as the English protocol says: the training batch of an
    episode is the batch generated one episode before; parameters and optimiser state come from the
    step function. *)
Record moment := mkMoment { m_gs : GS; m_ks : KS; m_par : Par; m_opt : Opt; m_batch : Batch }.
Definition moment_of (st : loop) : moment := mkMoment (l_gs st) (l_ks st) (l_params st) (l_opt st) (l_eval st).
Definition follows (e : nat) (a b : moment) : Prop :=
  exists key loss g, next_key (m_ks a) e = (m_ks b, key) /\ gen (m_gs a) key = (m_gs b, m_batch b) /\
    step_fn (m_par a) (m_opt a) (m_batch a) = (m_par b, m_opt b, loss, g).

(** The events of one undisturbed episode: train on the old batch, then every callback in order sees the
    new parameters and the new batch, then every logger. *)
Definition episode_events (e : nat) (a b : moment) : list ev :=
  [ETrain e (m_batch a)] ++ map (fun j => ECallback j e (m_par b) (m_batch b)) (seq 0 nc) ++ map (fun k => ELog k e) (seq 0 nl).

(** The events of an episode in which callback [j] raises. *)
Definition broken_events (e j : nat) (a b : moment) : list ev :=
  [ETrain e (m_batch a)] ++ map (fun j => ECallback j e (m_par b) (m_batch b)) (seq 0 (S j)).

(** A chain of [k] episodes starting with number [e]. *)
Fixpoint chain (e : nat) (ms : list moment) : Prop :=
  match ms with
  | a :: ((b :: _) as r) => follows e a b /\ chain (S e) r
  | _ => True
  end.
Fixpoint all_events (e : nat) (ms : list moment) : list ev :=
  match ms with
  | a :: ((b :: _) as r) => episode_events e a b ++ all_events (S e) r
  | _ => []
  end.
Definition closing : list ev := map ECloseCallback (seq 0 nc) ++ map ECloseLogger (seq 0 nl).

(** ** Proofs *)
Definition start (st : loop) : nat := Z.to_nat (i_episode st + 1).

Lemma callbacks_spec : forall n j0 e cs m p g b o kill,
  let r := call_callbacks callback (seq j0 n) e cs m p g b o kill in
  match snd r with
  | Ok _ => fst r = map (fun j => ECallback j e p b) (seq j0 n)
  | Err _ => exists j, (j < n)%nat /\ fst r = map (fun j => ECallback j e p b) (seq j0 (S j))
  end.
Proof.
  induction n as [|n IH]; intros j0 e cs m p g b o kill; cbn [seq call_callbacks].
  - reflexivity.
  - destruct (callback j0 cs e m p g b o) as [[[cs' m'] k]|x].
    + specialize (IH (S j0) e cs' m' p g b o (match k with Some v => v | None => kill end)). cbv zeta in IH.
      destruct (call_callbacks callback (seq (S j0) n) e cs' m' p g b o _) as [es [rs|x]]; cbn [fst snd] in *.
      * rewrite IH. reflexivity.
      * destruct IH as (j & Hj & ->). exists (S j). split; [lia|]. reflexivity.
    + cbn [fst snd]. exists 0%nat. split; [lia|reflexivity].
Qed.

Lemma step_spec st : (-1 <= i_episode st)%Z ->
  let r := step st in
  match snd r with
  | Ok st' => follows (start st) (moment_of st) (moment_of st') /\ i_episode st' = (i_episode st + 1)%Z /\
              fst r = episode_events (start st) (moment_of st) (moment_of st')
  | Err _ => exists b j, follows (start st) (moment_of st) b /\ (j < nc)%nat /\
              fst r = broken_events (start st) j (moment_of st) b
  end.
Proof.
  intros He. unfold loop_step. fold (start st). cbv zeta.
  destruct (next_key (l_ks st) (start st)) as [ks key] eqn:Ek.
  destruct (gen (l_gs st) key) as [gs b] eqn:Eg.
  destruct (step_fn (l_params st) (l_opt st) (l_eval st)) as [[[p o] loss] g] eqn:Es.
  pose proof (callbacks_spec nc 0 (start st) (l_cs st) (metrics_of loss) p g b o (l_kill st)) as C. cbv zeta in C.
  destruct (call_callbacks callback (seq 0 nc) (start st) (l_cs st) (metrics_of loss) p g b o (l_kill st)) as [es [[[cs m] kl]|x]];
    cbn [fst snd] in *.
  - split; [|split].
    + exists key, loss, g. cbn. auto.
    + reflexivity.
    + unfold episode_events. cbn. now rewrite C.
  - destruct C as (j & Hj & ->). exists (mkMoment gs ks p o b), j. split; [exists key, loss, g; cbn; auto|]. split; auto.
Qed.

(** What a run of at most [n] episodes does. *)
Record ran (n : nat) (st : loop) (events : list ev) (r : result loop) : Prop := {
  rn : exists ms, hd_error ms = Some (moment_of st) /\ chain (start st) ms /\
    match r with
    | Ok st' => (length ms <= S n)%nat /\ last ms (moment_of st) = moment_of st' /\
        i_episode st' = (i_episode st + Z.of_nat (length ms - 1))%Z /\
        events = all_events (start st) ms /\ (l_kill st' = true \/ length ms = S n)
    | Err _ => (length ms <= n)%nat /\ exists b j, (j < nc)%nat /\
        follows (start st + (length ms - 1)) (last ms (moment_of st)) b /\
        events = all_events (start st) ms ++ broken_events (start st + (length ms - 1)) j (last ms (moment_of st)) b
    end }.

Lemma last_cons {A} (a d : A) l : l <> [] -> last (a :: l) d = last l d.
Proof. destruct l; [congruence|reflexivity]. Qed.
Lemma last_default {A} (d d' : A) l : l <> [] -> last l d = last l d'.
Proof. induction l as [|x l IH]; [congruence|]. destruct l; auto. intros _. rewrite !last_cons by congruence. apply IH. congruence. Qed.

Lemma steps_spec : forall n st, (-1 <= i_episode st)%Z -> l_kill st = false ->
  ran n st (fst (steps n st)) (snd (steps n st)).
Proof.
  induction n as [|n IH]; intros st He Hk; cbn [run_steps].
  - split. exists [moment_of st]. cbn. repeat (split; auto). lia.
  - pose proof (step_spec st He) as S. cbv zeta in S. destruct (step st) as [es [st'|x]] eqn:E; cbn [fst snd] in S.
    + destruct S as (S1 & S2 & S3). destruct (l_kill st') eqn:Ek.
      * cbn [fst snd]. split. exists [moment_of st; moment_of st']. cbn. rewrite app_nil_r. repeat (split; auto); lia.
      * assert (He' : (-1 <= i_episode st')%Z) by lia. specialize (IH st' He' Ek).
        destruct (steps n st') as [es' [st2|x]]; cbn [fst snd] in *; destruct IH as [(ms & M1 & M2 & M3)].
        -- split. exists (moment_of st :: ms). destruct ms as [|m0 ms]; [discriminate|]. cbn in M1. injection M1 as ->.
           assert (ES : start st' = Datatypes.S (start st)) by (unfold start; rewrite S2; lia). rewrite ES in *.
           split; [reflexivity|]. split; [cbn [chain]; auto|].
           destruct M3 as (A & B & C & D & F). split; [cbn [length] in *; lia|].
           split; [rewrite last_cons by congruence; rewrite (last_default _ (moment_of st')) by congruence; auto|].
           split; [rewrite C, S2; cbn [length]; lia|]. split; [cbn [all_events]; now rewrite S3, D|].
           destruct F; [auto|right; cbn [length] in *; lia].
        -- split. exists (moment_of st :: ms). destruct ms as [|m0 ms]; [discriminate|]. cbn in M1. injection M1 as ->.
           assert (ES : start st' = Datatypes.S (start st)) by (unfold start; rewrite S2; lia). rewrite ES in *.
           split; [reflexivity|]. split; [cbn [chain]; auto|].
           destruct M3 as (A & b & j & Hj & F & D). split; [cbn [length] in *; lia|]. exists b, j. split; auto.
           rewrite last_cons by congruence. rewrite (last_default _ (moment_of st')) by congruence.
           replace (start st + (length (moment_of st :: moment_of st' :: ms) - 1))%nat
             with (Datatypes.S (start st) + (length (moment_of st' :: ms) - 1))%nat by (cbn [length]; lia).
           split; auto. cbn [all_events]. rewrite S3, <- app_assoc. f_equal. auto.
    + destruct S as (b & j & F & Hj & S3). split. exists [moment_of st]. split; [reflexivity|]. split; [exact Logic.I|].
      cbn [fst snd length last]. split; [lia|]. exists b, j. rewrite Nat.add_0_r. cbn. auto.
Qed.

(** C48.  A run that is not ended by an exception: at most [n] episodes, ended early only by a kill request
    (which is also what it returns); every episode trains on the batch generated before, exactly once and in
    order, all callbacks and loggers see it in order, and in the end everything is closed if asked for.
    A kill flag left from an earlier run has no effect. *)
Theorem C48_protocol n close st st' flag events : (-1 <= i_episode st)%Z ->
  run n close st = (events, Ok (st', flag)) ->
  exists ms, hd_error ms = Some (moment_of st) /\ chain (start st) ms /\ (length ms <= S n)%nat /\
    events = all_events (start st) ms ++ (if close then closing else []) /\
    last ms (moment_of st) = moment_of st' /\ i_episode st' = (i_episode st + Z.of_nat (length ms - 1))%Z /\
    flag = l_kill st' /\ (flag = false -> length ms = S n).
Proof.
  intros He H. unfold loop_run in H.
  set (st0 := mkLoop (i_episode st) (l_gs st) (l_ks st) (l_params st) (l_opt st) (l_eval st) (l_cs st) false) in *.
  pose proof (steps_spec n st0 He eq_refl) as R.
  destruct (steps n st0) as [es [s1|x]]; [|discriminate]. cbn [fst snd] in R. injection H as <- <- <-.
  destruct R as [(ms & M1 & M2 & A & B & C & D & F)].
  change (moment_of st0) with (moment_of st) in *. change (start st0) with (start st) in *. change (i_episode st0) with (i_episode st) in *.
  exists ms. split; auto. split; auto. split; auto. split; [unfold close_events, closing; now rewrite D|].
  split; auto. split; auto. split; auto. intros Hf. destruct F; [congruence|auto].
Qed.

(** C48.  A run in which a callback raises: the exception comes out, nothing happens after it. *)
Theorem C48_exception n close st x events : (-1 <= i_episode st)%Z ->
  run n close st = (events, Err x) ->
  exists ms b j, hd_error ms = Some (moment_of st) /\ chain (start st) ms /\ (length ms <= n)%nat /\ (j < nc)%nat /\
    follows (start st + (length ms - 1)) (last ms (moment_of st)) b /\
    events = all_events (start st) ms ++ broken_events (start st + (length ms - 1)) j (last ms (moment_of st)) b.
Proof.
  intros He H. unfold loop_run in H.
  set (st0 := mkLoop (i_episode st) (l_gs st) (l_ks st) (l_params st) (l_opt st) (l_eval st) (l_cs st) false) in *.
  pose proof (steps_spec n st0 He eq_refl) as R.
  destruct (steps n st0) as [es [s1|y]]; [discriminate|]. cbn [fst snd] in R. injection H as <- <-.
  destruct R as [(ms & M1 & M2 & A & b & j & Hj & F & D)].
  exists ms, b, j. repeat (split; [assumption|]). exact D.
Qed.

(** C48.  The episode stops the run exactly when its last kill signal says so. *)
Theorem C48_kill n close st es st1 : step st = (es, Ok st1) -> l_kill st = false ->
  (l_kill st1 = true -> run (S n) close st = (es ++ (if close then closing else []), Ok (st1, true))) /\
  (l_kill st1 = false -> fst (run (S n) close st) = es ++ fst (run n close st1) /\
     match snd (run n close st1) with Ok r => snd (run (S n) close st) = Ok r | Err x => snd (run (S n) close st) = Err x end).
Proof.
  intros E Hk.
  assert (E0 : step (mkLoop (i_episode st) (l_gs st) (l_ks st) (l_params st) (l_opt st) (l_eval st) (l_cs st) false) = (es, Ok st1)).
  { destruct st as [a b c d e f g k]. cbn in *. subst k. exact E. }
  unfold loop_run. split; intros K; cbn [run_steps]; rewrite E0, K.
  - rewrite K. reflexivity.
  - assert (E1 : mkLoop (i_episode st1) (l_gs st1) (l_ks st1) (l_params st1) (l_opt st1) (l_eval st1) (l_cs st1) false = st1).
    { destruct st1 as [a b c d e f g k]. cbn in *. now subst k. }
    rewrite E1. destruct (steps n st1) as [es' [st2|x]]; cbn [fst snd]; rewrite ?app_assoc; auto.
Qed.

(** The callbacks [js] are called one after the other, each with the metrics and state left by the one before;
    [sigs] are the signals they send (if any). *)
Inductive calls (e : nat) (p : Par) (g : Grad) (b : Batch) (o : Opt) : list nat -> CS -> Met -> list (option bool) -> CS -> Met -> Prop :=
| calls_nil cs m : calls e p g b o [] cs m [] cs m
| calls_cons j js cs m cs1 m1 k sigs cs2 m2 : callback j cs e m p g b o = Ok (cs1, m1, k) ->
    calls e p g b o js cs1 m1 sigs cs2 m2 -> calls e p g b o (j :: js) cs m (k :: sigs) cs2 m2.

Lemma call_callbacks_spec e p g b o : forall js cs m kill es cs2 m2 kill2,
  call_callbacks callback js e cs m p g b o kill = (es, Ok (cs2, m2, kill2)) ->
  exists sigs, calls e p g b o js cs m sigs cs2 m2 /\
    (forall pre v post, sigs = pre ++ Some v :: post -> Forall (fun k => k = None) post -> kill2 = v) /\
    (Forall (fun k => k = None) sigs -> kill2 = kill).
Proof.
  induction js as [|j js IH]; intros cs m kill es cs2 m2 kill2; cbn [call_callbacks].
  - intros E. injection E as <- <- <- <-. exists []. split; [constructor|]. split; [|auto]. intros [|? ?] v post E; discriminate.
  - destruct (callback j cs e m p g b o) as [[[cs1 m1] k]|x] eqn:Ec; [|discriminate].
    destruct (call_callbacks callback js e cs1 m1 p g b o _) as [es' r] eqn:Er. intros E. injection E as <- ->.
    apply IH in Er. destruct Er as (sigs & C & A & B). exists (k :: sigs). split; [econstructor; eauto|]. split.
    + intros pre v post E F. destruct pre as [|k0 pre]; injection E as E1 E2.
      * subst k post. now apply B.
      * now apply (A pre v post).
    + intros F. inversion F as [|? ? K F']; subst. now apply B.
Qed.

(** C48.  After an episode the kill flag is the last signal sent by a callback; it is unchanged if none sent one.
    All callbacks are called, also after a kill signal. *)
Theorem C48_signals st es st' : step st = (es, Ok st') ->
  exists loss g m sigs, calls (start st) (l_params st') g (l_eval st') (l_opt st') (seq 0 nc) (l_cs st) (metrics_of loss) sigs (l_cs st') m /\
    step_fn (l_params st) (l_opt st) (l_eval st) = (l_params st', l_opt st', loss, g) /\
    (forall pre v post, sigs = pre ++ Some v :: post -> Forall (fun k => k = None) post -> l_kill st' = v) /\
    (Forall (fun k => k = None) sigs -> l_kill st' = l_kill st).
Proof.
  unfold loop_step. fold (start st). destruct (next_key (l_ks st) (start st)) as [ks key]. destruct (gen (l_gs st) key) as [gs b].
  destruct (step_fn (l_params st) (l_opt st) (l_eval st)) as [[[p o] loss] g] eqn:Es.
  destruct (call_callbacks _ _ _ _ _ _ _ _ _ _) as [ev' [[[cs m] kl]|x]] eqn:Ec; [|discriminate]. intros E. injection E as <- <-.
  apply call_callbacks_spec in Ec. destruct Ec as (sigs & A & B & C). exists loss, g, m, sigs. auto.
Qed.
End Loop.

(** ** The seed cycle *)
Section Seeds.
Context {RS : Type}.
Variable shuffle : RS -> list nat -> RS * list nat.
Hypothesis shuffle_perm : forall rs l, Permutation (snd (shuffle rs l)) l.

(** The key used in episode [e] when episodes 0, 1, ... are run one after the other. *)
Fixpoint key_state (ks : RS * list nat) (e : nat) : RS * list nat :=
  match e with 0%nat => ks | S k => fst (seed_key shuffle (key_state ks k) k) end.
Definition key_used (ks : RS * list nat) (e : nat) : option nat := snd (seed_key shuffle (key_state ks e) e).

Lemma key_state_perm ks e : Permutation (snd (key_state ks e)) (snd ks).
Proof.
  induction e as [|e IH]; cbn [key_state]; auto. destruct (key_state ks e) as [rs l]. cbn [snd] in IH.
  unfold seed_key. destruct (e mod length l =? 0)%nat; [|cbn; auto].
  pose proof (shuffle_perm rs l) as P. destruct (shuffle rs l) as [rs' l']. cbn in *. now rewrite P.
Qed.

(** C48.  With a seed cycle, every cycle of episodes uses every seed exactly once. *)
Theorem C48_seed_cycle rs seeds c : seeds <> [] ->
  exists order, Permutation order seeds /\
    forall i, (i < length seeds)%nat -> key_used (rs, seeds) (c * length seeds + i) = nth_error order i.
Proof.
  intros NE. set (L := length seeds). assert (HL : L <> 0%nat) by (unfold L; destruct seeds; cbn; congruence).
  assert (LEN : forall e, length (snd (key_state (rs, seeds) e)) = L).
  { intros e. apply (Permutation_length (key_state_perm (rs, seeds) e)). }
  set (ks0 := key_state (rs, seeds) (c * L)).
  exists (snd (shuffle (fst ks0) (snd ks0))). split.
  - rewrite shuffle_perm. apply (key_state_perm (rs, seeds)).
  - assert (X : forall i, (S i <= L)%nat -> snd (key_state (rs, seeds) (c * L + S i)) = snd (shuffle (fst ks0) (snd ks0))).
    { induction i as [|i IH]; intros Hi.
      - rewrite Nat.add_1_r. cbn [key_state]. fold ks0. pose proof (LEN (c * L)%nat) as L0. fold ks0 in L0. clearbody ks0.
        destruct ks0 as [r0 l0]. cbn [snd fst] in *. unfold seed_key. rewrite L0, Nat.mod_mul by auto. cbn [Nat.eqb].
        destruct (shuffle r0 l0). reflexivity.
      - rewrite Nat.add_succ_r. cbn [key_state]. specialize (IH ltac:(lia)). pose proof (LEN (c * L + S i)%nat) as L0.
        destruct (key_state (rs, seeds) (c * L + S i)) as [r1 l1]. cbn [snd] in *. unfold seed_key.
        rewrite L0. replace ((c * L + S i) mod L)%nat with (S i).
        + cbn [Nat.eqb fst snd]. exact IH.
        + rewrite Nat.add_comm, Nat.mod_add by auto. symmetry. apply Nat.mod_small. lia. }
    intros i Hi. unfold key_used. destruct i as [|i].
    + rewrite Nat.add_0_r. fold ks0. pose proof (LEN (c * L)%nat) as L0. fold ks0 in L0. clearbody ks0.
      destruct ks0 as [r0 l0]. cbn [snd fst] in *. unfold seed_key. rewrite L0, Nat.mod_mul by auto. cbn [Nat.eqb].
      destruct (shuffle r0 l0) as [r1 l1]. reflexivity.
    + pose proof (X i ltac:(lia)) as Xi. pose proof (LEN (c * L + S i)%nat) as L0.
      destruct (key_state (rs, seeds) (c * L + S i)) as [r1 l1]. cbn [snd] in *. unfold seed_key.
      rewrite L0. replace ((c * L + S i) mod L)%nat with (S i).
      * cbn [Nat.eqb snd]. now rewrite Xi.
      * rewrite Nat.add_comm, Nat.mod_add by auto. symmetry. apply Nat.mod_small. lia.
Qed.
End Seeds.

(** ** Where the English property fails *)

(** The first batch is trained on without any callback having seen it; the batch drawn in the last episode is
    seen but never trained on.  (A generator that counts, one callback.) *)
Definition toy_run (cb : nat -> result (unit * unit * option bool)) :=
  loop_run (fun g (_ : unit) => (S g, (100 + g)%nat)) (fun (p : nat) (o : unit) b => ((p + b)%nat, tt, tt, tt)) (fun _ => tt)
    (fun _ _ e _ _ _ _ _ => cb e) 1 1 (fun (k : unit) _ => (tt, tt)) 3 true
    (loop_init (fun g (_ : unit) => (S g, (100 + g)%nat)) 0%nat tt tt 0%nat tt tt true).

Theorem C48_first_batch_refuted : exists events st,
  toy_run (fun _ => Ok (tt, tt, None)) = (events, Ok (st, false)) /\ In (ETrain 0 100%nat) events /\
  forall j e p, ~ In (ECallback j e p 100%nat) events.
Proof.
  do 2 eexists. split; [vm_compute; reflexivity|]. split; [left; reflexivity|].
  intros j e p H. cbn in H. repeat (destruct H as [H|H]; [discriminate|]). destruct H.
Qed.

(** After an exception neither callbacks nor loggers are closed, so nothing is saved. *)
Theorem C48_close_on_error_refuted : exists events,
  toy_run (fun e => if (e =? 1)%nat then Err EValue else Ok (tt, tt, None)) = (events, Err EValue) /\
  (forall j, ~ In (ECloseCallback j) events) /\ (forall k, ~ In (ECloseLogger k) events).
Proof.
  eexists. split; [vm_compute; reflexivity|].
  split; intros j H; cbn in H; repeat (destruct H as [H|H]; [discriminate|]); destruct H.
Qed.

Example C48_example : exists events st,
  toy_run (fun e => Ok (tt, tt, if (e =? 1)%nat then Some true else None)) = (events, Ok (st, true)) /\
  events = [ETrain 0 100; ECallback 0 0 100 101; ELog 0 0; ETrain 1 101; ECallback 0 1 201 102; ELog 0 1; ECloseCallback 0; ECloseLogger 0]%nat.
Proof. do 2 eexists. split; vm_compute; reflexivity. Qed.
Print Assumptions C48_protocol.
Print Assumptions C48_seed_cycle.
