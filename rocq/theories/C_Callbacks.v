(** * C73: callbacks of a training run. *)
From Coq Require Import Reals Lra String ZArith Lia Bool Arith List.
From Verif Require Import Prelude M_Util M_Rcmg M_Train M_Disk S_Disk M_Callbacks S_Callbacks C_Loop C_Queue.
From Verif Require C_Union C_Disk.
Import ListNotations.
Local Open Scope string_scope.
Local Open Scope list_scope.
Local Open Scope nat_scope.

Lemma with_suffix_twice s : s <> "" -> with_suffix (s ++ ".pickle")%string ".pickle" = (s ++ ".pickle")%string.
Proof.
  intros N. unfold with_suffix. change (s ++ ".pickle")%string with (s ++ "." ++ "pickle")%string at 1.
  rewrite C_Disk.stem_dotted; auto; [discriminate|]. unfold no_dot. cbn. intuition discriminate.
Qed.
Lemma app_nonempty a b : a <> "" -> (a ++ b)%string <> "".
Proof. destruct a; [contradiction|discriminate]. Qed.
Lemma flt_lt_exceeds l g : flt_lt (Fin l) (f_norm g) = true <-> exceeds l g.
Proof.
  unfold exceeds. destruct (f_norm g) as [n| | |]; cbn [flt_lt].
  - destruct (Rlt_dec l n) as [H|H]; split; try discriminate; try reflexivity.
    + intros _. right. eauto.
    + intros [A|(n' & A & B)]; [discriminate|]. injection A as <-. contradiction.
  - split; [discriminate|]. intros [A|(n' & A & B)]; discriminate.
  - split; auto.
  - split; [discriminate|]. intros [A|(n' & A & B)]; discriminate.
Qed.

Lemma lastn_map {A B} (f : A -> B) k l : lastn k (map f l) = map f (lastn k l).
Proof.
  unfold lastn. rewrite map_length. generalize (length l - k). intros n. revert l. induction n; intros [|x l]; cbn; auto.
Qed.
Lemma push_lastn {A} k (l : list A) v : push k (lastn k l) v = lastn k (l ++ [v]).
Proof.
  unfold push, lastn.
  assert (E : skipn (length l - k) l ++ [v] = skipn (length l - k) (l ++ [v])).
  { rewrite skipn_app. replace (length l - k - length l) with 0 by lia. reflexivity. }
  rewrite E, skipn_skipn. f_equal. rewrite skipn_length, !app_length. cbn [length]. lia.
Qed.

Lemma foldM_app {A B} (f : A -> B -> result A) l : forall a l', foldM f a (l ++ l') = do b <- foldM f a l; foldM f b l'.
Proof. induction l as [|x l IH]; intros a l'; cbn [app foldM]; [reflexivity|]. destruct (f a x); cbn [bind]; auto. Qed.

(** ** One callback *)
Section One.
Context {Par Opt Batch : Type}.
Variable has_nan : Par -> bool.
Variable elapsed : nat -> R.
Variable tags : nat -> option (list string).
Notation cb := (cb Par Opt Batch).
Notation rec := (@rec Par Opt).
Notation step := (cb_step has_nan elapsed tags).
Notation wants := (wants_stop has_nan elapsed tags).

(** What has been inserted into the queue of a callback that tracks nothing. *)
Fixpoint last_values (i : nat) (h : list rec) : list (flt * (Par * nat)) :=
  match h with [] => [] | r :: t => (Fin (- INR (S i))%R, (r_p r, r_e r)) :: last_values (S i) t end.
Lemma last_values_app i h r : last_values i (h ++ [r]) = last_values i h ++ [(Fin (- INR (S (i + length h)))%R, (r_p r, r_e r))].
Proof.
  revert i. induction h as [|x h IH]; intros i.
  - cbn [app last_values length]. now rewrite Nat.add_0_r.
  - cbn [app last_values length]. rewrite IH. cbn [app]. now rewrite Nat.add_succ_r.
Qed.

(** The state of the callback constructed as [c0] after the episodes [h]. *)
Definition after (c0 : cb) (h : list rec) (c : cb) : Prop :=
  match c0 with
  | CEvalXy f every id _ => exists last, c = CEvalXy f every id last /\
      (every = (-1)%Z -> last = None) /\
      (every <> (-1)%Z -> (h = [] /\ last = None) \/ exists r, evaluated every h r /\ last = Some [(id, MDict (f (r_p r)))])
  | CSave path maxlen track every _ _ => exists value q, c = CSave path maxlen track every value q /\
      (track = None -> value = (- INR (length h))%R /\ q_run flt_lt maxlen (last_values 0 h) = Ok q)
  | CLogGrads limit k _ => c = CLogGrads limit k
      (match limit with Some l => lastn k (map (fun g => flt_lt (Fin l) (f_norm g)) (concat (map r_g h))) | None => [] end)
  | CCheckpoint _ => (h = [] /\ c = CCheckpoint None) \/ exists h' r, h = h' ++ [r] /\ c = CCheckpoint (Some (r_p r, r_o r))
  | _ => c = c0
  end.
Lemma after_fresh c : fresh c -> after c [] c.
Proof.
  destruct c as [f|f ev id last|z n|path k tr ev v q|l k dq| |l|l|sv|t]; cbn [fresh after]; auto.
  - intros ->. exists None. split; [reflexivity|]. split; auto.
  - intros [-> ->]. exists 0%R, []. split; [reflexivity|]. intros _. cbn [length INR last_values]. split; [lra|reflexivity].
  - intros ->. destruct l; reflexivity.
  - intros ->. left. auto.
Qed.

Definition flags l (gs : list (list flt)) : list bool := map (fun g => flt_lt (Fin l) (f_norm g)) gs.
Lemma flags_true l k gs : forallb (fun b : bool => b) (lastn k (flags l gs)) = true <-> Forall (exceeds l) (lastn k gs).
Proof.
  unfold flags. rewrite lastn_map, forallb_forall, Forall_forall. split.
  - intros H g Hg. apply flt_lt_exceeds. apply H, in_map_iff. eauto.
  - intros H b Hb. apply in_map_iff in Hb. destruct Hb as (g & <- & Hg). now apply flt_lt_exceeds, H.
Qed.
Lemma log_grads_spec l k gs : forall seen kill i log dq kill' log',
  log_grads (Some l) k (lastn k (flags l seen)) kill i gs log = (dq, kill', log') ->
  dq = lastn k (flags l (seen ++ gs)) /\
  (kill' = true <-> kill = true \/ exists before w rest, gs = before ++ w :: rest /\ Forall (exceeds l) (lastn k (seen ++ before ++ [w]))).
Proof.
  induction gs as [|g gs IH]; intros seen kill i log dq kill' log' H; cbn [log_grads] in H.
  - injection H as <- <- <-. rewrite app_nil_r. split; auto. split; auto. intros [A|(before & w & rest & A & _)]; auto. destruct before; discriminate.
  - rewrite push_lastn in H. assert (EF : flags l seen ++ [flt_lt (Fin l) (f_norm g)] = flags l (seen ++ [g])) by (unfold flags; now rewrite map_app).
    rewrite EF in H. apply IH in H. destruct H as [D K]. rewrite <- app_assoc in D. split; [exact D|]. rewrite K, orb_true_iff. split.
    + intros [[A|A]|(before & w & rest & -> & B)]; auto; right.
      * exists [], g, gs. split; auto. now apply flags_true in A.
      * exists (g :: before), w, rest. split; auto. now rewrite <- app_assoc in B.
    + intros [A|(before & w & rest & A & B)]; auto. destruct before as [|g' before].
      * injection A as <- <-. left. right. now apply flags_true.
      * injection A as <- ->. right. exists before, w, rest. split; auto. now rewrite <- app_assoc.
Qed.
Lemma log_grads_none k gs : forall dq kill i log, exists log', log_grads None k dq kill i gs log = (dq, kill, log').
Proof. induction gs as [|g gs IH]; intros; cbn [log_grads]; eauto. Qed.

Lemma signal_true b : signal b = Some true <-> b = true.
Proof. destruct b; cbn; split; congruence. Qed.
Lemma signal_false b : signal b <> Some false.
Proof. destruct b; cbn; congruence. Qed.

Lemma divides_Ok every e v : divides every e = Ok v -> every <> 0%Z /\ (v = true <-> (Z.of_nat e mod every = 0)%Z).
Proof.
  unfold divides. destruct (Z.eqb_spec every 0) as [E|E]; [discriminate|]. intros H. injection H as <-. split; auto. apply Z.eqb_eq.
Qed.

Lemma step_after c0 past c e m p g b o c' m' k : after c0 past c -> step c e m p g b o = Ok (c', m', k) ->
  let r := mkRec e p o g in
  after c0 (past ++ [r]) c' /\ (k = Some true <-> wants c0 past r) /\ k <> Some false.
Proof.
  intros A H r. destruct c0 as [f|f ev id last|z n|path mx tr ev v q|l kk dq| |l|l|sv|t]; cbn [after wants_stop] in A |- *.
  - subst c. cbn [cb_step] in H. injection H as <- <- <-. repeat split; try discriminate; auto; contradiction.
  - destruct A as (la & -> & A1 & A2). cbn [cb_step] in H. destruct (Z.eqb_spec ev (-1)) as [E|E].
    + injection H as <- <- <-. split; [|split; [split; [discriminate|contradiction]|discriminate]]. exists la. split; [reflexivity|]. split; [exact A1|].
      intros N. contradiction.
    + apply bind_Ok in H. destruct H as (now & DV & H). apply divides_Ok in DV. destruct DV as [NZ DV].
      apply bind_Ok in H. destruct H as (_ & _ & H).
      destruct now.
      * injection H as <- <- <-. split; [|split; [split; [discriminate|contradiction]|discriminate]]. eexists. split; [reflexivity|]. split; [intros N; contradiction|].
        intros _. right. exists r. split; [|reflexivity]. exists past, []. split; [reflexivity|]. split; [now apply DV|apply Forall_nil].
      * destruct la as [lm|]; [|discriminate]. injection H as <- <- <-. split; [|split; [split; [discriminate|contradiction]|discriminate]].
        exists (Some lm). split; [reflexivity|]. split; [intros N; contradiction|].
        destruct (A2 E) as [[_ X]|(r' & (h1 & h2 & -> & B & C) & D)]; [discriminate|].
        intros _. right. exists r'. split; [|exact D]. exists h1, (h2 ++ [r]). split; [now rewrite <- app_assoc|]. split; [exact B|].
        apply Forall_app. split; auto. apply Forall_cons; [|apply Forall_nil]. cbn. intros Z. apply DV in Z. discriminate.
  - subst c. cbn [cb_step] in H. apply bind_Ok in H. destruct H as (vn & _ & H).
    destruct (0 <? snd vn); [apply bind_Ok in H; destruct H as (v & _ & H)|]; injection H as <- <- <-; repeat split; try discriminate; auto; contradiction.
  - destruct A as (value & q0 & -> & A). cbn [cb_step] in H. apply bind_Ok in H. destruct H as (vv & VV & H).
    apply bind_Ok in H. destruct H as (q' & Q & H). injection H as <- <- <-.
    split; [|split; [split; [discriminate|contradiction]|discriminate]]. exists (snd vv), q'. split; [reflexivity|]. intros ->.
    destruct (A eq_refl) as [A1 A2]. injection VV as <-. cbn [fst snd] in *. rewrite app_length. cbn [length]. split.
    + rewrite A1, plus_INR. cbn [INR]. lra.
    + rewrite last_values_app. unfold q_run in *. rewrite foldM_app, A2. cbn [bind foldM]. cbn [Nat.add].
      replace (- INR (S (length past)))%R with (value - 1)%R by (rewrite A1, S_INR; lra). cbn [r_p r_e r]. unfold r. cbn [r_p r_e]. now rewrite Q.
  - subst c. cbn [cb_step] in H. destruct l as [l|].
    + destruct (log_grads _ _ _ _ _ _ _) as [[dq' kill'] log'] eqn:LG. injection H as <- <- <-.
      change (map (fun g0 : list flt => flt_lt (Fin l) (f_norm g0)) (concat (map r_g past))) with (flags l (concat (map r_g past))) in LG.
      apply log_grads_spec in LG. destruct LG as [-> K]. split; [|split; [|apply signal_false]].
      * rewrite map_app, concat_app. cbn [map concat]. rewrite app_nil_r. reflexivity.
      * rewrite signal_true, K. cbn [r_g]. split; [intros [X|X]; [discriminate|exact X]|auto].
    + destruct (log_grads_none kk g [] false 0 []) as [log' E]. rewrite E in H. injection H as <- <- <-. cbn [signal].
      repeat split; try discriminate; contradiction.
  - subst c. cbn [cb_step] in H. injection H as <- <- <-. split; [reflexivity|]. split; [|apply signal_false]. apply signal_true.
  - subst c. cbn [cb_step] in H. injection H as <- <- <-. split; [reflexivity|]. split; [|apply signal_false]. rewrite signal_true. cbn [r_e].
    destruct l as [l|]; [apply Z.leb_le|]. split; [discriminate|contradiction].
  - subst c. cbn [cb_step] in H. injection H as <- <- <-. split; [reflexivity|]. split; [|apply signal_false]. rewrite signal_true. cbn [r_e].
    destruct (Rlt_dec l (elapsed e)) as [L|L]; split; [intros _; exact L|reflexivity|discriminate|intros X; contradiction].
  - assert (E : c' = CCheckpoint (Some (p, o)) /\ k = None).
    { destruct A as [[_ ->]|(h' & r' & _ & ->)]; cbn [cb_step] in H; injection H as <- <- <-; auto. }
    destruct E as [-> ->]. split; [|split; [split; [discriminate|contradiction]|discriminate]]. right. exists past, r. auto.
  - subst c. cbn [cb_step] in H. injection H as <- <- <-. split; [reflexivity|]. split; [|apply signal_false]. rewrite signal_true. cbn [r_e].
    unfold r. cbn [r_e]. destruct (tags e) as [ts|]; [|split; [discriminate|intros (l & L & _); discriminate]]. rewrite existsb_exists. split.
    + intros (x & I & X). apply String.eqb_eq in X. subst x. eauto.
    + intros (l & L & I). injection L as <-. exists t. split; auto. apply String.eqb_refl.
Qed.
End One.

(** ** Runs *)
Lemma put_nth {A} (l : list A) : forall j x i, j < length l -> nth_error (put l j x) i = if i =? j then Some x else nth_error l i.
Proof.
  induction l as [|y l IH]; intros [|j] x [|i] H; cbn in *; try lia; auto. apply IH. lia.
Qed.
Lemma put_length {A} (l : list A) : forall j x, length (put l j x) = length l.
Proof. induction l as [|y l IH]; intros [|j] x; cbn; auto. Qed.

Section Run.
Context {Par Opt Batch GS Key KS : Type}.
Variable has_nan : Par -> bool.
Variable elapsed : nat -> R.
Variable tags : nat -> option (list string).
Variable gen : GS -> Key -> GS * Batch.
Variable step_fn : Par -> Opt -> Batch -> Par * Opt * flt * list (list flt).
Variable next_key : KS -> nat -> KS * Key.
Variable nl : nat.
Notation cb := (cb Par Opt Batch).
Notation rec := (@rec Par Opt).
Notation wants := (wants_stop has_nan elapsed tags).
Notation tloop := (@loop GS Batch Par Opt (list cb) KS).
Notation cbs := (callbacks has_nan elapsed tags).
Notation hist := (history step_fn).
Notation undisturbed := (undisturbed has_nan elapsed tags).
Notation stop_at_end := (stop_at_end has_nan elapsed tags).
Notation lived := (lived has_nan elapsed tags).

Lemma lived_after (c0 : cb) (h : list rec) c : lived c0 h c -> after c0 h c.
Proof.
  induction 1 as [F|h c e m p g b o c' m' k H IH E]; [now apply after_fresh|].
  eapply (step_after has_nan elapsed tags c0 h c e m p g b o c' m' k IH E).
Qed.

Lemma calls_after e (p : Par) g (b : Batch) (o : Opt) (cs0 : list cb) (past : list rec) : forall js cs m kill es cs' m' kill',
  call_callbacks cbs js e cs m p g b o kill = (es, Ok (cs', m', kill')) ->
  NoDup js -> length cs = length cs0 ->
  (forall j c0 c, nth_error cs0 j = Some c0 -> nth_error cs j = Some c -> In j js -> lived c0 past c) ->
  (forall j c0 c, nth_error cs0 j = Some c0 -> nth_error cs j = Some c -> ~ In j js -> lived c0 (past ++ [mkRec e p o g]) c) ->
  length cs' = length cs0 /\
  (forall j c0 c, nth_error cs0 j = Some c0 -> nth_error cs' j = Some c -> lived c0 (past ++ [mkRec e p o g]) c) /\
  (kill' = true <-> kill = true \/ exists j c0, In j js /\ nth_error cs0 j = Some c0 /\ wants c0 past (mkRec e p o g)).
Proof.
  induction js as [|j js IH]; intros cs m kill es cs' m' kill' H ND L A B; cbn [call_callbacks] in H.
  - injection H as <- <- <- <-. split; [exact L|]. split; [intros j c0 c E1 E2; eapply B; eauto|].
    split; auto. intros [X|(j & c0 & [] & _)]; auto.
  - destruct (cbs j cs e m p g b o) as [[[cs1 m1] k]|x] eqn:E; [|discriminate].
    destruct (call_callbacks cbs js e cs1 m1 p g b o _) as [es' r] eqn:Er. injection H as <- ->.
    unfold callbacks in E. destruct (nth_error cs j) as [c|] eqn:Ec; [|discriminate]. apply bind_Ok in E. destruct E as (((c1 & m2) & k1) & E & G).
    cbn [fst snd] in G. injection G as <- <- <-. assert (Lj : j < length cs) by (apply nth_error_Some; congruence).
    destruct (nth_error cs0 j) as [c0|] eqn:E0; [|apply nth_error_None in E0; lia].
    inversion ND as [|? ? NI ND']; subst.
    pose proof (lived_on has_nan elapsed tags _ _ _ _ _ _ _ _ _ _ _ _ (A j c0 c E0 Ec (or_introl eq_refl)) E) as A1.
    destruct (step_after has_nan elapsed tags c0 past c e m p g b o c1 m2 k1 (lived_after _ _ _ (A j c0 c E0 Ec (or_introl eq_refl))) E) as (_ & A2 & A3).
    apply IH in Er; auto.
    + destruct Er as (R1 & R2 & R3). split; [exact R1|]. split; [exact R2|]. rewrite R3.
      assert (KK : (match k1 with Some v => v | None => kill end = true) <-> (kill = true \/ wants c0 past (mkRec e p o g))).
      { rewrite <- A2. destruct k1 as [[|]|].
        - split; auto.
        - now elim A3.
        - split; [auto|]. intros [X|X]; [exact X|discriminate]. }
      rewrite KK. split.
      * intros [[X|X]|(j' & c0' & I & N & X)]; auto; right; [exists j, c0|exists j', c0']; split; auto; [now left|now right].
      * intros [X|(j' & c0' & [<-|I] & N & X)]; auto.
        -- rewrite E0 in N. injection N as <-. auto.
        -- right. eauto.
    + now rewrite put_length.
    + intros j' c0' c' N1 N2 I. rewrite put_nth in N2 by auto. destruct (Nat.eqb_spec j' j) as [->|NE]; [contradiction|].
      eapply A; eauto. now right.
    + intros j' c0' c' N1 N2 I. rewrite put_nth in N2 by auto. destruct (Nat.eqb_spec j' j) as [->|NE].
      * injection N2 as <-. rewrite E0 in N1. injection N1 as <-. exact A1.
      * eapply B; eauto. intros [X|X]; [congruence|contradiction].
Qed.

Notation data_of st := (data gen next_key (l_gs st) (l_ks st) (start st) (l_eval st)).
Notation lstep cs0 := (loop_step gen step_fn loss_metrics cbs (length cs0) nl next_key).
Notation lsteps cs0 := (run_steps gen step_fn loss_metrics cbs (length cs0) nl next_key).
Notation lrun cs0 := (loop_run gen step_fn loss_metrics cbs (length cs0) nl next_key).

Definition all_after (cs0 : list cb) (h : list rec) (cs : list cb) : Prop :=
  length cs = length cs0 /\ forall j c0 c, nth_error cs0 j = Some c0 -> nth_error cs j = Some c -> lived c0 h c.
Lemma loop_step_after cs0 past (st st' : tloop) es : all_after cs0 past (l_cs st) -> (-1 <= i_episode st)%Z ->
  lstep cs0 st = (es, Ok st') ->
  exists loss g, step_fn (l_params st) (l_opt st) (l_eval st) = (l_params st', l_opt st', loss, g) /\
    start st' = S (start st) /\ (-1 <= i_episode st')%Z /\ (forall n, data_of st (S n) = l_eval st :: data_of st' n) /\
    all_after cs0 (past ++ [mkRec (start st) (l_params st') (l_opt st') g]) (l_cs st') /\
    (l_kill st' = true <-> l_kill st = true \/ exists c0, In c0 cs0 /\ wants c0 past (mkRec (start st) (l_params st') (l_opt st') g)).
Proof.
  intros [L A] He H. unfold loop_step in H. fold (start st) in H. destruct (next_key _ _) as [ks key] eqn:EK. destruct (gen _ key) as [gs b] eqn:EG.
  destruct (step_fn (l_params st) (l_opt st) (l_eval st)) as [[[p o] loss] g].
  destruct (call_callbacks _ _ _ _ _ _ _ _ _ _) as [ev [[[cs m] kl]|x]] eqn:E; [|discriminate]. injection H as <- <-.
  cbn [l_params l_opt l_cs l_kill i_episode]. exists loss, g. split; [reflexivity|]. assert (SS : start (mkLoop (i_episode st + 1) gs ks p o b cs kl) = S (start st)) by (unfold start; cbn [i_episode]; lia).
  split; [exact SS|]. split; [lia|]. split; [intros n; rewrite SS; cbn [data l_gs l_ks l_eval]; rewrite EK, EG; reflexivity|].
  apply (calls_after _ _ _ _ _ cs0 past) in E.
  - destruct E as (E1 & E2 & E3). split; [split; [exact E1|exact E2]|]. rewrite E3. split.
    + intros [X|(j & c0 & _ & N & X)]; auto. right. exists c0. split; auto. eapply nth_error_In; eauto.
    + intros [X|(c0 & I & X)]; auto. right. apply In_nth_error in I. destruct I as [j N]. exists j, c0. split; auto.
      apply in_seq. assert (j < length cs0) by (apply nth_error_Some; congruence). lia.
  - apply seq_NoDup.
  - exact L.
  - intros j c0 c N1 N2 _. eauto.
  - intros j c0 c N1 N2 NI. exfalso. apply NI, in_seq. assert (j < length cs0) by (apply nth_error_Some; congruence). lia.
Qed.

Lemma steps_after cs0 : forall n past (st st' : tloop) es, all_after cs0 past (l_cs st) -> (-1 <= i_episode st)%Z -> l_kill st = false ->
  lsteps cs0 n st = (es, Ok st') ->
  exists bs, length bs <= n /\ bs = data_of st (length bs) /\ (l_params st', l_opt st') = trained step_fn (l_params st) (l_opt st) bs /\
    let h := hist (start st) (l_params st) (l_opt st) bs in
    all_after cs0 (past ++ h) (l_cs st') /\ undisturbed cs0 past h /\
    (l_kill st' = true <-> stop_at_end cs0 past h) /\ (l_kill st' = false -> length bs = n).
Proof.
  induction n as [|n IH]; intros past st st' es A He K H; cbn [run_steps] in H.
  - injection H as <- <-. exists []. split; [cbn; lia|]. split; [reflexivity|]. split; [reflexivity|]. cbn [history]. cbv zeta. rewrite app_nil_r. split; [exact A|].
    split; [intros h1 r r' h2 c E; destruct h1; discriminate|]. split; [|auto]. rewrite K. split; [discriminate|].
    intros (h1 & r & c & E & _). destruct h1; discriminate.
  - destruct (lstep cs0 st) as [es1 [st1|x]] eqn:E; [|discriminate].
    destruct (loop_step_after cs0 past st st1 es1 A He E) as (loss & g & S1 & S2 & S3 & SD & S4 & S5). rewrite K in S5.
    set (r := mkRec (start st) (l_params st1) (l_opt st1) g) in *.
    destruct (l_kill st1) eqn:K1.
    + injection H as <- <-. exists [l_eval st]. split; [cbn; lia|]. split; [cbn [length]; rewrite SD; reflexivity|]. cbn [history trained]. rewrite S1. split; [reflexivity|]. cbv zeta. fold r.
      split; [exact S4|]. split; [|split; [|rewrite K1; discriminate]].
      * intros h1 r1 r2 h2 c F. destruct h1 as [|x [|y h1]]; discriminate.
      * rewrite K1. split; [|auto]. intros _. destruct (proj1 S5 eq_refl) as [X|(c0 & I & X)]; [discriminate|].
        exists [], r, c0. rewrite app_nil_r. auto.
    + destruct (lsteps cs0 n st1) as [es2 res] eqn:E2. injection H as <- ->.
      destruct (IH (past ++ [r]) st1 st' es2 S4 S3 K1 E2) as (bs & B1 & BD & B2 & B3). cbv zeta in B3. destruct B3 as (B3 & B4 & B5 & B6).
      exists (l_eval st :: bs). split; [cbn [length]; lia|]. split; [cbn [length]; rewrite SD; now f_equal|]. cbn [history trained]. rewrite S1. split; [exact B2|]. cbv zeta. fold r. rewrite <- S2.
      assert (NW : forall c, In c cs0 -> ~ wants c past r).
      { intros c I X. assert (false = true) by (apply S5; right; eauto). discriminate. }
      set (h := hist (start st1) (l_params st1) (l_opt st1) bs) in *. split; [now rewrite <- app_assoc in B3|].
      split; [|split].
      * intros h1 r1 r2 h2 c F I. destruct h1 as [|x h1].
        -- injection F as <- F. rewrite app_nil_r. auto.
        -- injection F as <- F. specialize (B4 h1 r1 r2 h2 c F I). now rewrite <- app_assoc in B4.
      * rewrite B5. split.
        -- intros (h1 & r1 & c & F & I & X). exists (r :: h1), r1, c. rewrite <- app_assoc in X. rewrite F. auto.
        -- intros (h1 & r1 & c & F & I & X). destruct h1 as [|x h1].
           ++ injection F as <- F. rewrite app_nil_r in X. elim (NW c I X).
           ++ injection F as <- F. exists h1, r1, c. rewrite <- app_assoc. auto.
      * intros X. cbn [length]. now rewrite B6.
Qed.

Lemma after_start cs0 : Forall fresh cs0 -> all_after cs0 [] cs0.
Proof.
  intros F. split; auto. intros j c0 c N1 N2. rewrite N1 in N2. injection N2 as <-. apply lived_new.
  rewrite Forall_forall in F. apply F. eapply nth_error_In; eauto.
Qed.

Lemma run_after n (st st' : tloop) flag es : Forall fresh (l_cs st) -> (-1 <= i_episode st)%Z ->
  lrun (l_cs st) n false st = (es, Ok (st', flag)) ->
  exists bs, length bs <= n /\ bs = data_of st (length bs) /\ (l_params st', l_opt st') = trained step_fn (l_params st) (l_opt st) bs /\
    let h := hist (start st) (l_params st) (l_opt st) bs in
    all_after (l_cs st) h (l_cs st') /\ undisturbed (l_cs st) [] h /\
    (flag = true <-> stop_at_end (l_cs st) [] h) /\ (flag = false -> length bs = n).
Proof.
  intros F He H. unfold loop_run in H.
  set (st0 := mkLoop (i_episode st) (l_gs st) (l_ks st) (l_params st) (l_opt st) (l_eval st) (l_cs st) false) in *.
  destruct (run_steps _ _ _ _ _ _ _ n st0) as [es1 [st1|x]] eqn:E; [|discriminate]. injection H as <- <- <-.
  exact (steps_after (l_cs st) n [] st0 st1 es1 (after_start _ F) He eq_refl E).
Qed.

(** ** Closing *)
Variable fmt : flt -> string.
Variable uid : string.
Notation store := (store Par Opt).
Notation closeq := (save_queue fmt).
Notation trainf := (train has_nan elapsed tags fmt uid gen step_fn next_key nl).

Lemma pickle_save_spec {A} (d : disk A) a name ow os : pickle_save d a name ow = Ok os ->
  let n := with_suffix name ".pickle" in
  (ow = false -> dmem String.eqb d n = false) /\
  dget String.eqb (apply_ops d os) n = Some (Whole a) /\
  forall n', n' <> n -> dget String.eqb (apply_ops d os) n' = dget String.eqb d n'.
Proof.
  unfold pickle_save, parse_path. change (dotted "pickle") with ".pickle". cbv zeta. intros H.
  destruct (negb ow && is_file d (with_suffix name ".pickle")) eqn:E; [discriminate|]. cbn [bind] in H. injection H as <-.
  split; [|split].
  - intros ->. exact E.
  - unfold apply_ops. cbn [fold_left apply_op]. rewrite C_Union.dget_dset_eq, String.eqb_refl. reflexivity.
  - intros n' N. unfold apply_ops. cbn [fold_left apply_op]. rewrite !C_Union.dget_dset_eq. apply String.eqb_neq in N. now rewrite N.
Qed.

Lemma save_name_spec path n (ele : flt * (Par * nat)) : stem path <> "" -> no_dot (stem path) -> (forall v, no_dot (fmt v)) ->
  with_suffix (save_name fmt path n ele) ".pickle" = params_file fmt (stem path) n (snd (snd ele)) (fst ele).
Proof.
  intros N D F. unfold save_name, params_file. destruct (n =? 1); [now apply with_suffix_twice|].
  assert (ND : no_dot (stem path ++ "_episode=" ++ str_nat (snd (snd ele)) ++ "_value=" ++ fmt (fst ele))%string).
  { apply C_Disk.no_dot_app; [exact D|]. apply C_Disk.no_dot_app; [unfold no_dot; cbn; intuition discriminate|].
    apply C_Disk.no_dot_app; [apply C_Disk.str_nat_digits|]. apply C_Disk.no_dot_app; [unfold no_dot; cbn; intuition discriminate|apply F]. }
  unfold with_suffix at 2. rewrite (C_Disk.stem_plain _ ND). rewrite with_suffix_twice by now apply app_nonempty.
  now rewrite !C_Disk.str_assoc.
Qed.

Lemma save_queue_spec path n : forall q (d d' : disk (saved Par Opt)) r, save_queue fmt path n q d = (d', r) ->
  (forall f c, dget String.eqb d f = Some c -> dget String.eqb d' f = Some c) /\
  (r = Ok tt -> forall ele, In ele q -> stored d' (with_suffix (save_name fmt path n ele) ".pickle") (SParams (fst (snd ele)))).
Proof.
  induction q as [|x q IH]; intros d d' r H; cbn [save_queue] in H.
  - injection H as <- <-. split; auto. intros _ ele [].
  - destruct (pickle_save d _ _ false) as [os|er] eqn:E; [|injection H as <- <-; split; [auto|discriminate]].
    destruct (pickle_save_spec _ _ _ _ _ E) as (P1 & P2 & P3). specialize (P1 eq_refl). apply IH in H. destruct H as [H1 H2]. split.
    + intros f c G. apply H1. destruct (string_dec f (with_suffix (save_name fmt path n x) ".pickle")) as [->|NE].
      * unfold dmem in P1. rewrite G in P1. discriminate.
      * now rewrite P3.
    + intros R ele [<-|I]; [|now apply H2]. apply H1. exact P2.
Qed.

Lemma close_all_spec flag : forall (cs : list cb) (fs fs' : store) n r, close_all fmt uid flag cs fs = (fs', n, r) ->
  (forall f c, dget String.eqb (s_params fs) f = Some c -> dget String.eqb (s_params fs') f = Some c) /\
  (forall f, f <> with_suffix (with_suffix uid ".pickle") ".pickle" -> dget String.eqb (s_checkpoints fs') f = dget String.eqb (s_checkpoints fs) f) /\
  (flag = false -> s_checkpoints fs' = s_checkpoints fs) /\
  (r = Ok tt -> forall path mx tr ev v q ele, In (CSave (Some path) mx tr ev v q) cs -> In ele q ->
     stored (s_params fs') (with_suffix (save_name fmt path (length q) ele) ".pickle") (SParams (fst (snd ele)))) /\
  (r = Ok tt -> flag = true -> forall p o, (forall sv, In (CCheckpoint sv) cs -> sv = Some (p, o)) ->
     (exists sv, In (CCheckpoint sv) cs) \/ stored (s_checkpoints fs) (with_suffix (with_suffix uid ".pickle") ".pickle") (SCheckpoint p o) ->
     stored (s_checkpoints fs') (with_suffix (with_suffix uid ".pickle") ".pickle") (SCheckpoint p o)).
Proof.
  set (ck := with_suffix (with_suffix uid ".pickle") ".pickle").
  induction cs as [|c cs IH]; intros fs fs' n r H; cbn [close_all] in H.
  - injection H as <- <- <-. split; [auto|]. split; [auto|]. split; [auto|]. split.
    + intros _ path mx tr ev v q ele [].
    + intros _ _ p o _ [[sv []]|X]. exact X.
  - destruct (cb_close fmt uid flag c fs) as [fs1 [[]|x]] eqn:E.
    + destruct (close_all fmt uid flag cs fs1) as [[fs2 n2] r2] eqn:E2. injection H as <- <- <-.
      destruct (IH _ _ _ _ E2) as (I1 & I2 & I3 & I4 & I5). clear IH.
      assert (OTHER : (forall path mx tr ev v q, c <> CSave path mx tr ev v q) -> (forall sv, c <> CCheckpoint sv) ->
        fs1 = fs).
      { intros N1 N2. destruct c; cbn [cb_close] in E; try (injection E as <-; reflexivity); [now elim (N1 path maxlen track every value queue)|now elim (N2 saved)]. }
      destruct c as [f|f evr id last|z nm|path mx tr evr v q|l k dq| |l|l|sv|t];
        try (assert (fs1 = fs) by (apply OTHER; intros; discriminate); subst fs1; split; [exact I1|]; split; [exact I2|]; split; [exact I3|]; split;
          [intros R path0 mx0 tr0 ev0 v0 q0 ele [X|X]; [discriminate|eauto]
          |intros R F p o SV [[sv' [X|X]]|X]; [discriminate|apply I5; auto; [intros sv'' I; apply SV; now right|left; eauto]
            |apply I5; auto; intros sv'' I; apply SV; now right]]).
      * destruct path as [path|].
        2:{ cbn [cb_close] in E. injection E as <- EQ. destruct q; [|discriminate]. split; [exact I1|]. split; [exact I2|]. split; [exact I3|]. split;
          [intros R path0 mx0 tr0 ev0 v0 q0 ele [X|X]; [discriminate|eauto]
          |intros R F p o SV [[sv' [X|X]]|X]; [discriminate|apply I5; auto; [intros sv'' I; apply SV; now right|left; eauto]
            |apply I5; auto; intros sv'' I; apply SV; now right]]. }
        cbn [cb_close] in E. destruct (save_queue fmt path (length q) q (s_params fs)) as [d rr] eqn:Q. injection E as <- ->.
        destruct (save_queue_spec _ _ _ _ _ _ Q) as [Q1 Q2]. cbn [s_params s_checkpoints] in *. split; [auto|]. split; [exact I2|]. split; [exact I3|]. split.
        -- intros R path0 mx0 tr0 ev0 v0 q0 ele [X|X] I; [|eauto]. injection X as <- <- <- <- <- <-. apply I1. now apply Q2.
        -- intros R F p o SV [[sv' [X|X]]|X]; [discriminate|apply I5; auto; [intros sv'' I; apply SV; now right|left; eauto]
            |apply I5; auto; intros sv'' I; apply SV; now right].
      * cbn [cb_close] in E. destruct flag.
        -- destruct sv as [[p o]|]; [|discriminate]. destruct (pickle_save _ _ _ true) as [os|er] eqn:PS; [|discriminate]. injection E as <-.
           destruct (pickle_save_spec _ _ _ _ _ PS) as (_ & P2 & P3). fold ck in P2, P3. cbn [s_params s_checkpoints] in *.
           split; [exact I1|]. split; [intros f N; rewrite I2, P3 by auto; reflexivity|]. split; [discriminate|]. split.
           ++ intros R path0 mx0 tr0 ev0 v0 q0 ele [X|X] I; [discriminate|eauto].
           ++ intros R F p' o' SV _. apply I5; auto; [intros sv' I; apply SV; now right|]. right.
              specialize (SV _ (or_introl eq_refl)). injection SV as <- <-. exact P2.
        -- injection E as <-. split; [exact I1|]. split; [exact I2|]. split; [exact I3|]. split; [|discriminate].
           intros R path0 mx0 tr0 ev0 v0 q0 ele [X|X] I; [discriminate|eauto].
    + injection H as <- <- <-. destruct c as [f|f evr id last|z nm|path mx tr evr v q|l k dq| |l|l|sv|t]; cbn [cb_close] in E; try discriminate.
      * destruct path as [path|].
        2:{ injection E as <- EQ. split; [auto|]. split; [auto|]. split; [auto|]. split; discriminate. }
        destruct (save_queue fmt path (length q) q (s_params fs)) as [d rr] eqn:Q. injection E as <- ->.
        destruct (save_queue_spec _ _ _ _ _ _ Q) as [Q1 Q2]. cbn [s_params s_checkpoints]. split; [exact Q1|]. split; [auto|]. split; [auto|]. split; discriminate.
      * destruct flag; [|discriminate]. destruct sv as [[p o]|].
        -- destruct (pickle_save _ _ _ true) as [os|er] eqn:PS; [discriminate|]. injection E as <- <-.
           split; [auto|]. split; [auto|]. split; [auto|]. split; discriminate.
        -- injection E as <- <-. split; [auto|]. split; [auto|]. split; [auto|]. split; discriminate.
Qed.

(** ** Theorems *)
Lemma history_length e p o bs : length (hist e p o bs) = length bs.
Proof.
  revert e p o. induction bs as [|b bs IH]; intros e p o; cbn [history]; [reflexivity|].
  destruct (step_fn p o b) as [[[p' o'] l] g]. cbn [length]. now rewrite IH.
Qed.
Lemma history_number bs : forall e p o i r, nth_error (hist e p o bs) i = Some r -> r_e r = e + i.
Proof.
  induction bs as [|b bs IH]; intros e p o i r H; cbn [history] in H; [destruct i; discriminate|].
  destruct (step_fn p o b) as [[[p' o'] l] g]. destruct i as [|i]; cbn [nth_error] in H.
  - injection H as <-. cbn. lia.
  - apply IH in H. lia.
Qed.
Lemma history_last bs : forall e p o h r, hist e p o bs = h ++ [r] -> trained step_fn p o bs = (r_p r, r_o r).
Proof.
  induction bs as [|b bs IH]; intros e p o h r H; cbn [history trained] in *; [destruct h; discriminate|].
  destruct (step_fn p o b) as [[[p' o'] l] g]. destruct h as [|x h].
  - injection H as <- H. destruct bs as [|b' bs]; [reflexivity|]. cbn [history] in H. destruct (step_fn p' o' b') as [[[? ?] ?] ?]. discriminate.
  - injection H as <- H. eauto.
Qed.

Lemma train_spec n (st st' : tloop) fs fs' cl flag : Forall fresh (l_cs st) -> (-1 <= i_episode st)%Z ->
  trainf n st fs = (fs', cl, Ok (st', flag)) ->
  cl = true /\ (exists n', close_all fmt uid flag (l_cs st') fs = (fs', n', Ok tt)) /\
  exists bs, length bs <= n /\ bs = data_of st (length bs) /\ (l_params st', l_opt st') = trained step_fn (l_params st) (l_opt st) bs /\
    let h := hist (start st) (l_params st) (l_opt st) bs in
    all_after (l_cs st) h (l_cs st') /\ undisturbed (l_cs st) [] h /\
    (flag = true <-> stop_at_end (l_cs st) [] h) /\ (flag = false -> length bs = n).
Proof.
  intros F He H. unfold train in H. destruct (loop_run _ _ _ _ _ _ _ n false st) as [es [[s1 fl]|x]] eqn:E; [|discriminate]. cbn [snd] in H.
  destruct (close_all fmt uid fl (l_cs s1) fs) as [[fs1 m] [[]|x]] eqn:C; [|discriminate]. injection H as <- <- <- <-.
  split; [reflexivity|]. split; [eauto|]. exact (run_after n st s1 fl es F He E).
Qed.

(** A run ends after the first episode after which some callback asks for it, and returns whether one did; otherwise it
    makes all its episodes.  Callbacks do not influence what is trained. *)
Theorem C73_stops n (st st' : tloop) fs fs' cl flag : Forall fresh (l_cs st) -> (-1 <= i_episode st)%Z ->
  trainf n st fs = (fs', cl, Ok (st', flag)) ->
  exists bs, length bs <= n /\ bs = data_of st (length bs) /\ (l_params st', l_opt st') = trained step_fn (l_params st) (l_opt st) bs /\
    let h := hist (start st) (l_params st) (l_opt st) bs in
    undisturbed (l_cs st) [] h /\ (flag = true <-> stop_at_end (l_cs st) [] h) /\ (flag = false -> length bs = n) /\
    length (l_cs st') = length (l_cs st) /\
    forall j c0 c, nth_error (l_cs st) j = Some c0 -> nth_error (l_cs st') j = Some c -> lived c0 h c.
Proof.
  intros F He H. destruct (train_spec n st st' fs fs' cl flag F He H) as (_ & _ & bs & B1 & BD & B2 & [B3 B3'] & B4 & B5 & B6).
  exists bs. split; [exact B1|]. split; [exact BD|]. split; [exact B2|]. cbv zeta. split; [exact B4|]. split; [exact B5|]. split; [exact B6|]. split; [exact B3|exact B3'].
Qed.

(** An episode limit [k] gives at most k + 1 episodes (numbers 0 to k), exactly min n (k + 1) if nothing else ends the run. *)
Theorem C73_episode_limit n (st st' : tloop) fs fs' cl flag k : Forall fresh (l_cs st) -> i_episode st = (-1)%Z ->
  In (CEpisode (Some (Z.of_nat k))) (l_cs st) ->
  (forall c, In c (l_cs st) -> c = CEpisode (Some (Z.of_nat k)) \/ never_stops c) ->
  trainf n st fs = (fs', cl, Ok (st', flag)) ->
  exists bs, length bs = min n (k + 1) /\ bs = data_of st (length bs) /\ (l_params st', l_opt st') = trained step_fn (l_params st) (l_opt st) bs /\
    (flag = true <-> k < n).
Proof.
  intros F He IK OT H. assert (He' : (-1 <= i_episode st)%Z) by lia.
  destruct (C73_stops n st st' fs fs' cl flag F He' H) as (bs & B1 & BD & B2 & B3 & B4 & B5 & _). cbv zeta in *.
  assert (S0 : start st = 0) by (unfold start; rewrite He; reflexivity). rewrite S0 in B3, B4.
  set (h := hist 0 (l_params st) (l_opt st) bs) in *. assert (LH : length h = length bs) by apply history_length.
  assert (LE : length bs <= k + 1).
  { destruct (le_lt_dec (length bs) (k + 1)) as [X|X]; auto. exfalso.
    destruct (nth_error h k) as [r|] eqn:E; [|apply nth_error_None in E; lia].
    destruct (nth_error_split _ _ E) as (h1 & h2 & E1 & E2). destruct h2 as [|r' h2].
    - rewrite E1, app_length in LH. cbn in LH. lia.
    - apply (B3 h1 r r' h2 (CEpisode (Some (Z.of_nat k))) E1 IK). cbn [wants_stop]. apply history_number in E. lia. }
  assert (ST : flag = true -> length bs = k + 1).
  { intros X. apply B4 in X. destruct X as (h1 & r & c & E & I & Wt). destruct (OT c I) as [->|NS].
    - cbn [wants_stop] in Wt. assert (N : nth_error h (length h1) = Some r) by (rewrite E, nth_error_app2, Nat.sub_diag by lia; reflexivity).
      apply history_number in N. rewrite E, app_length in LH. cbn [length] in LH. lia.
    - exfalso. destruct c as [| | | |[|] ? ?| |[|]| | |]; cbn in NS, Wt; contradiction. }
  assert (SF : flag = false -> length bs <= k).
  { intros X. destruct (le_lt_dec (length bs) k) as [Y|Y]; auto. exfalso. assert (LB : length bs = k + 1) by lia.
    assert (HN : h <> []) by (intros HN; rewrite HN in LH; cbn in LH; lia).
    destruct (exists_last HN) as (h0 & x & E).
    assert (stop_at_end (l_cs st) [] h).
    { exists h0, x, (CEpisode (Some (Z.of_nat k))). split; auto. split; auto. cbn [wants_stop].
      assert (N : nth_error h (length h0) = Some x) by (rewrite E, nth_error_app2, Nat.sub_diag by lia; reflexivity).
      apply history_number in N. rewrite E, app_length in LH. cbn in LH. lia. }
    assert (flag = true) by now apply B4. congruence. }
  exists bs. split; [|split; [exact BD|split; [exact B2|]]].
  - destruct flag; [rewrite (ST eq_refl) in *; lia|]. specialize (SF eq_refl). specialize (B5 eq_refl). lia.
  - destruct flag; [split; [intros _; rewrite (ST eq_refl) in B1; lia|reflexivity]|]. specialize (SF eq_refl). specialize (B5 eq_refl). split; [discriminate|lia].
Qed.

(** A killed run leaves a checkpoint with the parameters and the optimiser state reached; a run that makes all its
    episodes leaves none.  Other files in the folder stay. *)
Theorem C73_checkpoint n (st st' : tloop) fs fs' cl flag : Forall fresh (l_cs st) -> (-1 <= i_episode st)%Z ->
  uid <> "" -> no_dot uid ->
  trainf n st fs = (fs', cl, Ok (st', flag)) ->
  (In (CCheckpoint None) (l_cs st) -> flag = true -> stored (s_checkpoints fs') (uid ++ ".pickle")%string (SCheckpoint (l_params st') (l_opt st'))) /\
  (flag = false -> s_checkpoints fs' = s_checkpoints fs) /\
  (forall f, f <> (uid ++ ".pickle")%string -> same_file (s_checkpoints fs) (s_checkpoints fs') f).
Proof.
  intros F He U1 U2 H. destruct (train_spec n st st' fs fs' cl flag F He H) as (_ & (n' & C) & bs & _ & _ & B2 & B3 & _ & B5 & _). cbv zeta in *.
  assert (EU : with_suffix (with_suffix uid ".pickle") ".pickle" = (uid ++ ".pickle")%string).
  { assert (SU : stem uid = uid) by now apply C_Disk.stem_plain. unfold with_suffix at 2. rewrite SU. now apply with_suffix_twice. }
  destruct (close_all_spec flag _ _ _ _ _ C) as (_ & C2 & C3 & _ & C5). rewrite EU in *.
  set (h := hist (start st) (l_params st) (l_opt st) bs) in *. destruct B3 as [L B3].
  split; [|split; [exact C3|intros f N; unfold same_file; symmetry; now apply C2]].
  intros I FL. apply C5; auto.
  - intros sv J. apply B5 in FL. destruct FL as (h1 & r & c & E & _ & _).
    apply In_nth_error in J. destruct J as [j J]. destruct (nth_error (l_cs st) j) as [c0|] eqn:E0.
    + pose proof (lived_after _ _ _ (B3 j c0 _ E0 J)) as A.
      destruct c0; cbn [after] in A; try discriminate.
      * destruct A as (? & A & _). discriminate.
      * destruct A as (? & ? & A & _). discriminate.
      * destruct A as [[A _]|(h' & r' & A1 & A2)]; [rewrite E in A; destruct h1; discriminate|].
        injection A2 as ->. unfold h in A1. apply history_last in A1. rewrite A1 in B2. now injection B2 as -> ->.
    + apply nth_error_None in E0. assert (j < length (l_cs st')) by (apply nth_error_Some; congruence). lia.
  - left. apply In_nth_error in I. destruct I as [j I]. destruct (nth_error (l_cs st') j) as [c|] eqn:E0.
    + pose proof (lived_after _ _ _ (B3 j _ c I E0)) as A. cbn [after] in A.
      destruct A as [[_ ->]|(h' & r' & _ & ->)]; eexists; eapply nth_error_In; eauto.
    + apply nth_error_None in E0. assert (j < length (l_cs st)) by (apply nth_error_Some; congruence). lia.
Qed.

(** *** Saving the latest parameters *)
Lemma last_values_value i (h : list rec) : forall v d, In (v, d) (last_values i h) -> exists k, v = Fin (- INR k)%R /\ i < k <= i + length h.
Proof.
  revert i. induction h as [|r h IH]; intros i v d [].
  - injection H as <- <-. exists (S i). cbn [length]. split; [reflexivity|lia].
  - apply IH in H. destruct H as (k & E & B). exists k. cbn [length]. split; [exact E|lia].
Qed.
Lemma last_values_sorted (h : list rec) : sorted flt_lt (rev (last_values 0 h)).
Proof.
  induction h as [|r h IH] using rev_ind; [constructor|]. rewrite last_values_app, rev_app_distr. cbn [rev app]. constructor; auto.
  apply Forall_forall. intros [v d] I. apply in_rev in I. apply last_values_value in I. destruct I as (k & -> & B). cbn [fst flt_lt Nat.add].
  destruct (Rlt_dec _ _) as [X|X]; [|reflexivity]. exfalso. apply Ropp_lt_cancel in X. apply INR_lt in X. lia.
Qed.
Lemma last_values_queue k (h : list rec) : 0 < k -> q_run flt_lt k (last_values 0 h) = Ok (firstn k (rev (last_values 0 h))).
Proof.
  intros K. induction h as [|r h IH] using rev_ind; [destruct k; reflexivity|].
  unfold q_run in *. rewrite last_values_app, foldM_app, IH. cbn [bind foldM].
  set (x := (Fin (- INR (S (0 + length h)))%R, (r_p r, r_e r))). set (l := rev (last_values 0 h)) in *.
  assert (SM : forall y, In y l -> flt_lt (fst x) (fst y) = true).
  { intros [v d] I. apply in_rev in I. apply last_values_value in I. destruct I as (j & -> & B). cbn [fst x flt_lt].
    destruct (Rlt_dec _ _) as [X|X]; [reflexivity|]. exfalso. apply X, Ropp_lt_contravar, lt_INR. lia. }
  assert (INS : forall m, py_sort flt_lt (firstn m l ++ [x]) = x :: firstn m l).
  { intros m. rewrite sort_snoc, sort_id by (apply sorted_firstn, last_values_sorted).
    destruct (firstn m l) as [|y t] eqn:E; [reflexivity|]. cbn [insert_sorted]. rewrite SM; [reflexivity|].
    rewrite <- (firstn_skipn m l), E. now left. }
  rewrite rev_app_distr. cbn [rev app]. fold l. unfold q_insert. rewrite firstn_length. destruct (Nat.ltb_spec (Nat.min k (length l)) k) as [Hl|Hl].
  - cbn [bind]. rewrite INS. f_equal. destruct k as [|k]; [lia|]. rewrite (firstn_all2 l) by lia. cbn [firstn]. f_equal. rewrite firstn_all2 by lia. reflexivity.
  - destruct k as [|k]; [lia|]. destruct (nth_error l k) as [w|] eqn:Ew; [|apply nth_error_None in Ew; lia].
    assert (E : firstn (S k) l = firstn k l ++ [w]).
    { clear - Ew. revert k Ew. induction l as [|y l IH]; intros k H; [destruct k; discriminate|].
      destruct k as [|k]; [cbn in *; congruence|]. cbn [nth_error] in H. cbn [firstn app]. f_equal. apply (IH k H). }
    rewrite E, rev_app_distr. cbn [rev app]. rewrite SM by (eapply nth_error_In; eauto). rewrite rev_involutive, INS. reflexivity.
Qed.

(** Without tracked metrics the parameters of the latest [k] episodes (or of all, if there are fewer) are stored, each under the
    number of its episode. *)
Theorem C73_saved n (st st' : tloop) fs fs' cl flag path k ev : Forall fresh (l_cs st) -> (-1 <= i_episode st)%Z ->
  stem path <> "" -> no_dot (stem path) -> (forall v, no_dot (fmt v)) -> 0 < k ->
  In (CSave (Some path) k None ev 0%R []) (l_cs st) ->
  trainf n st fs = (fs', cl, Ok (st', flag)) ->
  exists bs, length bs <= n /\ (0 < n -> bs <> []) /\ bs = data_of st (length bs) /\ (l_params st', l_opt st') = trained step_fn (l_params st) (l_opt st) bs /\
    let h := hist (start st) (l_params st) (l_opt st) bs in
    forall h1 r h2, h = h1 ++ r :: h2 -> length h2 < k ->
      stored (s_params fs') (params_file fmt (stem path) (min k (length h)) (r_e r) (Fin (- INR (S (length h1)))%R)) (SParams (r_p r)).
Proof.
  intros F He P1 P2 P3 K I H. destruct (train_spec n st st' fs fs' cl flag F He H) as (_ & (n' & C) & bs & B1 & BD & B2 & B3 & _ & BF & BN). cbv zeta in *.
  exists bs. split; [exact B1|]. split.
  { intros N ->. destruct flag; [|specialize (BN eq_refl); cbn in BN; lia]. destruct (proj1 BF eq_refl) as (h1 & r & c & X & _). destruct h1; discriminate. }
  split; [exact BD|]. split; [exact B2|]. set (h := hist (start st) (l_params st) (l_opt st) bs) in *. destruct B3 as [L B3]. cbv zeta.
  intros h1 r h2 EH LK. destruct (close_all_spec flag _ _ _ _ _ C) as (_ & _ & _ & C4 & _).
  apply In_nth_error in I. destruct I as [j I]. destruct (nth_error (l_cs st') j) as [c|] eqn:E0.
  2:{ apply nth_error_None in E0. assert (j < length (l_cs st)) by (apply nth_error_Some; congruence). lia. }
  pose proof (lived_after _ _ _ (B3 j _ c I E0)) as A. cbn [after] in A. destruct A as (value & q & -> & A).
  destruct (A eq_refl) as [_ A2]. rewrite last_values_queue in A2 by auto. injection A2 as <-.
  set (q := firstn k (rev (last_values 0 h))) in *.
  assert (LV : length (last_values 0 h) = length h).
  { clear. generalize 0. induction h as [|x h IH]; intros i; [reflexivity|]. cbn [last_values length]. now rewrite IH. }
  assert (LQ : length q = min k (length h)) by (unfold q; rewrite firstn_length, rev_length, LV; reflexivity).
  set (ele := (Fin (- INR (S (length h1)))%R, (r_p r, r_e r))).
  assert (IQ : In ele q).
  { assert (SP : exists t, last_values 0 h = last_values 0 h1 ++ ele :: t /\ length t = length h2).
    { exists (last_values (S (length h1)) h2). rewrite EH. unfold ele. clear. split.
      - change (S (length h1)) with (S (0 + length h1)). generalize 0. induction h1 as [|x h1 IH]; intros i.
        + cbn [app last_values length]. now rewrite Nat.add_0_r.
        + cbn [app last_values length]. rewrite IH. cbn [app]. now rewrite Nat.add_succ_r.
      - generalize (S (length h1)). induction h2 as [|x h2 IH]; intros i; [reflexivity|]. cbn [last_values length]. now rewrite IH. }
    destruct SP as (t & SP & LT). unfold q. rewrite SP, rev_app_distr. cbn [rev]. rewrite <- app_assoc. cbn [app].
    rewrite firstn_app, in_app_iff, rev_length. right. destruct (k - length t) as [|m] eqn:EM; [lia|]. cbn [firstn]. now left. }
  pose proof (C4 eq_refl path k None ev value q ele (nth_error_In _ _ E0) IQ) as ST.
  rewrite save_name_spec in ST by auto. rewrite LQ in ST. exact ST.
Qed.

(** Parameter files that exist are never changed, even if the run fails. *)
Theorem C73_keeps n (st : tloop) fs fs' cl res : trainf n st fs = (fs', cl, res) ->
  forall f c, dget String.eqb (s_params fs) f = Some c -> dget String.eqb (s_params fs') f = Some c.
Proof.
  intros H. unfold train in H. destruct (snd (loop_run _ _ _ _ _ _ _ n false st)) as [[s1 fl]|x]; [|injection H as <- <- <-; auto].
  destruct (close_all fmt uid fl (l_cs s1) fs) as [[fs1 m] [[]|x]] eqn:C; injection H as <- <- <-; eapply close_all_spec; eauto.
Qed.

(** "A run that ends normally has saved its parameters" is false: if the file exists already, the run fails when it is closed. *)
Theorem C73_existing_file_refuted n (st s1 : tloop) fs flag path ev cs es : Forall fresh (l_cs st) -> (-1 <= i_episode st)%Z -> 0 < n ->
  l_cs st = CSave (Some path) 1 None ev 0%R [] :: cs -> stem path <> "" -> no_dot (stem path) -> (forall v, no_dot (fmt v)) ->
  lrun (l_cs st) n false st = (es, Ok (s1, flag)) ->
  dmem String.eqb (s_params fs) (stem path ++ ".pickle")%string = true ->
  exists x, trainf n st fs = (fs, false, Err x).
Proof.
  intros F He N CS P1 P2 P3 R M. destruct (run_after n st s1 flag es F He R) as (bs & _ & _ & _ & [L B3] & _ & B5 & B6).
  set (h := hist (start st) (l_params st) (l_opt st) bs) in *.
  assert (HN : h <> []).
  { destruct flag.
    - destruct (proj1 B5 eq_refl) as (h1 & r & c & E & _). rewrite E. destruct h1; discriminate.
    - specialize (B6 eq_refl). assert (length h = n) by (unfold h; now rewrite history_length). intros X. rewrite X in H. cbn in H. lia. }
  destruct (l_cs s1) as [|c cs1] eqn:E1; [rewrite CS in L; discriminate|].
  pose proof (lived_after _ _ _ (B3 0 (CSave (Some path) 1 None ev 0%R []) c ltac:(rewrite CS; reflexivity) eq_refl)) as A.
  cbn [after] in A. destruct A as (value & q & -> & A). destruct (A eq_refl) as [_ A2]. rewrite last_values_queue in A2 by auto. injection A2 as <-.
  destruct (exists_last HN) as (h0 & r & E). rewrite E, last_values_app, rev_app_distr in *. cbn [rev app firstn] in *.
  unfold train. rewrite R. cbn [snd]. rewrite E1. cbn [close_all cb_close save_queue length].
  set (ele := (Fin (- INR (S (0 + length h0)))%R, (r_p r, r_e r))).
  assert (NM : with_suffix (save_name fmt path 1 ele) ".pickle" = (stem path ++ ".pickle")%string).
  { rewrite save_name_spec by auto. reflexivity. }
  unfold pickle_save, parse_path. change (dotted "pickle") with ".pickle". cbv zeta. rewrite NM. unfold is_file. rewrite M. cbn [negb andb bind].
  eexists. destruct fs. reflexivity.
Qed.
End Run.

(** ** Single callbacks *)
Section Single.
Context {Par Opt Batch : Type}.
Variable has_nan : Par -> bool.
Variable elapsed : nat -> R.
Variable tags : nat -> option (list string).
Notation cb := (cb Par Opt Batch).
Notation rec := (@rec Par Opt).
Notation step := (cb_step has_nan elapsed tags).
Notation lives := (lived has_nan elapsed tags).

Lemma zoom_value path : forall m x, zoom_from m path = Ok x <-> value_at m path x.
Proof.
  induction path as [|k path IH]; intros m x; cbn [zoom_from].
  - destruct m as [y|d]; split; intros H; try discriminate; inversion H; subst; [constructor|reflexivity].
  - destruct m as [y|d]; [split; intros H; [discriminate|inversion H]|]. unfold dgetE. split.
    + intros H. destruct (dget String.eqb d k) as [m'|] eqn:E; [|discriminate]. cbn [bind] in H. econstructor; eauto. now apply IH.
    + intros H. inversion H; subst. rewrite H3. cbn [bind]. now apply IH.
Qed.
Lemma average_spec (m : metrics) zooms vals : Forall2 (value_at (MDict m)) zooms vals ->
  forall s n, average m zooms (Fin s) n = Ok (Fin (s + fold_right Rplus 0 (numbers vals))%R, n + length (numbers vals)).
Proof.
  induction 1 as [|z x zooms vals V _ IH]; intros s n; cbn [average numbers flat_map fold_right length].
  - now rewrite Rplus_0_r, Nat.add_0_r.
  - apply zoom_value in V. unfold zoom_into_metrices. rewrite V. cbn [bind]. destruct x as [r| | |]; cbn [is_nan is_inf orb app fold_right length]; try apply IH.
    cbn [flt_add]. rewrite IH. cbn [app fold_right length]. f_equal. f_equal; [f_equal; unfold numbers; ring|unfold numbers; lia].
Qed.
Lemma average_values (m : metrics) zooms : forall v n w, average m zooms v n = Ok w -> exists vals, Forall2 (value_at (MDict m)) zooms vals.
Proof.
  induction zooms as [|z zooms IH]; intros v n w H; cbn [average] in H; [exists []; constructor|].
  apply bind_Ok in H. destruct H as (x & V & H). apply zoom_value in V.
  destruct (is_nan x || is_inf x); apply IH in H; destruct H as [vals H]; exists (x :: vals); now constructor.
Qed.

(** The averaged metric is the mean of those values that are numbers; without any it is not reported.  It exists exactly if every
    path leads to a value.  No other metric changes. *)
Theorem C73_average zooms name e m (p : Par) g (b : Batch) (o : Opt) :
  ((exists out, step (CAverage zooms name) e m p g b o = Ok out) <-> exists vals, Forall2 (value_at (MDict m)) zooms vals) /\
  forall c' m' k vals, step (CAverage zooms name) e m p g b o = Ok (c', m', k) -> Forall2 (value_at (MDict m)) zooms vals ->
    dget String.eqb m' name = (if length (numbers vals) =? 0 then dget String.eqb m name else Some (MNum (Fin (mean (numbers vals))))) /\
    forall key, key <> name -> dget String.eqb m' key = dget String.eqb m key.
Proof.
  assert (KEY : forall vals, Forall2 (value_at (MDict m)) zooms vals ->
    step (CAverage zooms name) e m p g b o =
      Ok (CAverage zooms name, if length (numbers vals) =? 0 then m else dset String.eqb m name (MNum (Fin (mean (numbers vals)))), None)).
  { intros vals V. cbn [cb_step]. rewrite (average_spec _ _ _ V 0 0). cbn [bind fst snd Nat.add]. unfold mean.
    destruct (length (numbers vals)) as [|k] eqn:E; cbn [Nat.ltb Nat.leb Nat.eqb]; [reflexivity|].
    cbn [flt_div bind]. rewrite Rplus_0_l. reflexivity. }
  split; [split|].
  - intros [out H]. cbn [cb_step] in H. apply bind_Ok in H. destruct H as (w & H & _). eapply average_values; eauto.
  - intros [vals V]. eexists. exact (KEY vals V).
  - intros c' m' k vals H V. rewrite (KEY _ V) in H. injection H as <- <- <-. destruct (length (numbers vals) =? 0); [auto|].
    split; [|intros key N]; rewrite C_Union.dget_dset_eq; [now rewrite String.eqb_refl|]. now rewrite (proj2 (String.eqb_neq _ _) N).
Qed.

(** An evaluation every few episodes reports the result of the last evaluated parameters in every episode. *)
Theorem C73_eval_hold f every id h (c : cb) e m (p : Par) g (b : Batch) (o : Opt) c' m' k : every <> (-1)%Z -> lives (CEvalXy f every id None) h c ->
  step c e m p g b o = Ok (c', m', k) ->
  exists r, evaluated every (h ++ [mkRec e p o g]) r /\ dget String.eqb m' id = Some (MDict (f (r_p r))) /\
    forall key, key <> id -> dget String.eqb m' key = dget String.eqb m key.
Proof.
  intros N L H. pose proof (lived_after has_nan elapsed tags _ _ _ L) as A.
  destruct (step_after has_nan elapsed tags _ _ _ _ _ _ _ _ _ _ _ _ A H) as (A' & _ & _). cbv zeta in A'.
  cbn [after] in A, A'. destruct A as (la & -> & _ & A). destruct A' as (la' & -> & _ & A'). specialize (A' N).
  destruct A' as [[X _]|(r & E & LA)]; [destruct h; discriminate|]. exists r. split; [exact E|].
  cbn [cb_step] in H. rewrite (proj2 (Z.eqb_neq _ _) N) in H. apply bind_Ok in H. destruct H as (now & _ & H). apply bind_Ok in H. destruct H as (_ & _ & H).
  destruct (if now then Some [(id, MDict (f p))] else la) as [lm|] eqn:EL; [|discriminate]. injection H as <- <- <-.
  injection LA as ->. cbn [update fold_left fst snd]. split; [|intros key NK]; rewrite C_Union.dget_dset_eq; [now rewrite String.eqb_refl|].
  now rewrite (proj2 (String.eqb_neq _ _) NK).
Qed.

(** "Training ends if [k] consecutive windows have a gradient over the limit" is false: one window is enough at the start. *)
Theorem C73_consecutive_refuted l k e m (p : Par) g (b : Batch) (o : Opt) : 1 < k -> exceeds l g ->
  exists c' m', step (CLogGrads (Some l) k []) e m p [g] b o = Ok (c', m', Some true).
Proof.
  intros K X. apply flt_lt_exceeds in X. cbn [cb_step log_grads]. unfold push. cbn [app length]. rewrite X.
  replace (1 - k) with 0 by lia. cbn [skipn forallb andb orb signal]. eauto.
Qed.
(** Once k - 1 windows have been seen it does hold. *)
Theorem C73_consecutive_partial l k h (c : cb) e m (p : Par) g (b : Batch) (o : Opt) c' m' : lives (CLogGrads (Some l) k []) h c ->
  step c e m p g b o = Ok (c', m', Some true) ->
  let ws := concat (map r_g (h ++ [mkRec e p o g])) in
  k <= length (concat (map r_g h)) + 1 ->
  exists w1 w2 w3, ws = w1 ++ w2 ++ w3 /\ length w2 = k /\ Forall (exceeds l) w2.
Proof.
  intros L H ws K. pose proof (lived_after has_nan elapsed tags _ _ _ L) as A.
  destruct (step_after has_nan elapsed tags _ _ _ _ _ _ _ _ _ _ _ _ A H) as (_ & W & _). cbv zeta in W.
  destruct (proj1 W eq_refl) as (before & w & rest & E & FA). cbn [r_g] in E.
  set (seen := concat (map r_g h)) in *. set (all := seen ++ before ++ [w]) in *.
  exists (firstn (length all - k) all), (lastn k all), rest. unfold lastn in *. split; [|split].
  - rewrite app_assoc, firstn_skipn. unfold ws, all. rewrite map_app, concat_app. cbn [map concat r_g]. rewrite app_nil_r, E. fold seen.
    now rewrite <- !app_assoc.
  - rewrite skipn_length. assert (k <= length all) by (unfold all; rewrite !app_length; cbn [length]; lia). lia.
  - exact FA.
Qed.
(** Gradients that are not numbers are never over the limit. *)
Theorem C73_nan_gradient_refuted l k e m (p : Par) g (b : Batch) (o : Opt) (dq : list bool) : k <> 0 -> In NaN g ->
  exists c' m', step (CLogGrads (Some l) k dq) e m p [g] b o = Ok (c', m', None).
Proof.
  intros K I. assert (N : f_norm g = NaN).
  { unfold f_norm. replace (existsb is_nan g) with true; [reflexivity|]. symmetry. apply existsb_exists. exists NaN. auto. }
  cbn [cb_step log_grads]. rewrite N. cbn [flt_lt]. replace (forallb (fun b => b) (push k dq false)) with false; [cbn [orb signal]; eauto|].
  unfold push. rewrite skipn_app, forallb_app. destruct (length (dq ++ [false]) - k - length dq) as [|n] eqn:E.
  - cbn [skipn forallb]. now rewrite andb_false_r.
  - rewrite app_length in E. cbn [length] in E. lia.
Qed.

(** "The parameters with the smallest tracked metric are saved" is false: a metric that is not a number in the first episode keeps
    its place for ever. *)
Theorem C73_nan_metric_refuted path z every m (p : Par) g (b : Batch) (o : Opt) : every <> 0%Z -> value_at (MDict m) z NaN ->
  step (CSave path 1 (Some [z]) every 0%R []) 0 m p g b o = Ok (CSave path 1 (Some [z]) every 0%R [(NaN, (p, 0))], m, None) /\
  forall e' m' p' g' (b' : Batch) (o' : Opt) c'' m'' k'', step (CSave path 1 (Some [z]) every 0%R [(NaN, (p, 0))]) e' m' p' g' b' o' = Ok (c'', m'', k'') ->
    c'' = CSave path 1 (Some [z]) every 0%R [(NaN, (p, 0))].
Proof.
  intros E V. split.
  - cbn [cb_step]. unfold divides. rewrite (proj2 (Z.eqb_neq _ _) E). cbn [bind]. change (Z.of_nat 0) with 0%Z. rewrite Z.mod_0_l by auto. cbn [Z.eqb].
    cbn [tracked]. apply zoom_value in V. unfold zoom_into_metrices. rewrite V. reflexivity.
  - intros e' m' p' g' b' o' c'' m'' k'' H. cbn [cb_step] in H. apply bind_Ok in H. destruct H as (vv & VV & H). apply bind_Ok in H. destruct H as (q & Q & H).
    injection H as <- <- <-. apply bind_Ok in VV. destruct VV as (now & _ & VV). destruct now.
    + apply bind_Ok in VV. destruct VV as (v1 & _ & VV). apply bind_Ok in VV. destruct VV as (v2 & _ & VV). injection VV as <-. cbn [fst snd] in *.
      unfold q_insert in Q. cbn [length Nat.ltb Nat.leb rev app fst] in Q. destruct v2; cbn [flt_lt] in Q; injection Q as <-; reflexivity.
    + injection VV as <-. injection Q as <-. reflexivity.
Qed.
End Single.

(** ** Examples: parameters are numbers, a step adds the batch; an episode limit of 2 and a checkpoint *)
Section Ex.
Definition ex_step (p o b : nat) : nat * nat * flt * list (list flt) := (p + b, o + 1, NaN, [[Fin 0%R]]).
Definition ex_cs : list (cb nat nat nat) := [CEpisode (Some 2%Z); CCheckpoint None; CNan].
Definition ex_start (cs : list (cb nat nat nat)) : @loop nat nat nat nat (list (cb nat nat nat)) nat := mkLoop (-1)%Z 1 0 100 0 7 cs false.
Definition ex_train cs := train (fun p => p =? 1000) (fun _ => 0%R) (fun _ => None) (fun _ => "") "id" (fun gs _ => (gs + 1, gs)) ex_step
  (fun ks _ => (ks, 0)) 0 9 (ex_start cs).
Example C73_run_nonvacuous : fst (ex_train ex_cs (mkStore [] [])) = (mkStore [] [("id.pickle", Whole (SCheckpoint 110 3))], true) /\
  (do r <- snd (ex_train ex_cs (mkStore [] [])); Ok (l_params (fst r), l_opt (fst r), snd r)) = Ok (110, 3, true) /\
  Forall fresh (l_cs (ex_start ex_cs)).
Proof.
  split; [vm_compute; reflexivity|]. split; [vm_compute; reflexivity|].
  apply Forall_cons; [exact Logic.I|]. apply Forall_cons; [reflexivity|]. apply Forall_cons; [exact Logic.I|apply Forall_nil].
Qed.
(** One episode, saved; the second run with the same name fails. *)
Definition ex_save : list (cb nat nat nat) := [CSave (Some "model.pickle") 1 None 1%Z 0%R []; CEpisode (Some 0%Z)].
Definition ex_saved : store nat nat := mkStore [("model.pickle", Whole (SParams 107))] [].
Example C73_save_nonvacuous : fst (ex_train ex_save (mkStore [] [])) = (ex_saved, true) /\
  fst (ex_train ex_save ex_saved) = (ex_saved, false).
Proof. split; vm_compute; reflexivity. Qed.
Example C73_gradient_nonvacuous : exceeds 1%R [Fin 2%R].
Proof.
  right. exists 2%R. split; [|lra]. unfold f_norm. cbn. f_equal. replace (2 * 2 + 0)%R with (2 * 2)%R by ring. apply sqrt_square. lra.
Qed.
Example C73_average_nonvacuous : exists vals, Forall2 (value_at (MDict [("a", MDict [("x", MNum (Fin 1%R))]); ("b", MNum NaN)])) [["a"; "x"]; ["b"]] vals /\
  numbers vals = [1%R].
Proof.
  exists [Fin 1%R; NaN]. split; [|reflexivity]. apply Forall2_cons; [|apply Forall2_cons; [|apply Forall2_nil]].
  - econstructor; [reflexivity|]. econstructor; [reflexivity|]. constructor.
  - econstructor; [reflexivity|]. constructor.
Qed.
End Ex.

Print Assumptions C73_stops.
Print Assumptions C73_episode_limit.
Print Assumptions C73_checkpoint.
Print Assumptions C73_saved.
Print Assumptions C73_keeps.
Print Assumptions C73_average.
Print Assumptions C73_eval_hold.
Print Assumptions C73_consecutive_partial.
