(** * C74: one training step, for any number of devices. *)
From Coq Require Import Reals Lra String ZArith Lia Bool Arith FunctionalExtensionality List.
From Verif Require Import Prelude M_Util M_Rcmg C_Util M_TrainStep S_TrainStep.
From Verif Require C_Union.
Import ListNotations.
Local Open Scope nat_scope.

(** ** Means *)
Lemma rmean_avg l : rmean l = avg l.
Proof. reflexivity. Qed.
Lemma sum_app l1 l2 : fold_right Rplus 0%R (l1 ++ l2) = (fold_right Rplus 0 l1 + fold_right Rplus 0 l2)%R.
Proof. induction l1 as [|x l IH]; cbn [app fold_right]; [ring|]. rewrite IH. ring. Qed.
Lemma length_concat_const {A} v (ll : list (list A)) : Forall (fun l => length l = v) ll -> length (concat ll) = length ll * v.
Proof. induction 1 as [|l ll E _ IH]; cbn [concat length]; [reflexivity|]. rewrite app_length, IH, E. lia. Qed.
Lemma rmean_concat v (ll : list (list R)) : 0 < v -> Forall (fun l => length l = v) ll -> rmean (map rmean ll) = rmean (concat ll).
Proof.
  intros V F. unfold rmean at 1 3. rewrite map_length, (length_concat_const v) by auto.
  assert (E : (fold_right Rplus 0 (map rmean ll) * INR v = fold_right Rplus 0 (concat ll))%R).
  { induction F as [|l ll E _ IH]; cbn [map fold_right concat]; [ring|]. rewrite sum_app, <- IH. unfold rmean at 1. rewrite E. field. apply not_0_INR. lia. }
  rewrite <- E, mult_INR. assert (INR v <> 0)%R by (apply not_0_INR; lia). destruct ll as [|l ll]; [cbn [length map fold_right INR]; unfold Rdiv; ring|].
  cbn [length]. field. split; [auto|]. apply not_0_INR. lia.
Qed.

(** ** Gradients *)
Lemma upd_same p : forall i, i < length p -> upd p i (nth i p 0%R) = p.
Proof. induction p as [|x p IH]; intros [|i] H; cbn in *; try lia; auto. f_equal. apply IH. lia. Qed.
Lemma is_gradient_unique f p g g' : is_gradient f p g -> is_gradient f p g' -> g = g'.
Proof.
  intros [L D] [L' D']. apply (nth_ext _ _ 0%R 0%R); [congruence|]. intros i Hi. rewrite L in Hi.
  eapply uniqueness_limite; eauto.
Qed.
Lemma deriv_sum {A} (fs : list A) (f : A -> R -> R) (d : A -> R) t : (forall a, In a fs -> derivable_pt_lim (f a) t (d a)) ->
  derivable_pt_lim (fun t => fold_right Rplus 0%R (map (fun a => f a t) fs)) t (fold_right Rplus 0%R (map d fs)).
Proof.
  induction fs as [|a fs IH]; intros H; cbn [map fold_right]; [apply derivable_pt_lim_const|].
  apply (derivable_pt_lim_plus (f a) (fun t => fold_right Rplus 0%R (map (fun a => f a t) fs))); [apply H; now left|apply IH; intros b Hb; apply H; now right].
Qed.
Lemma gradient_mean {A} (fs : list A) (f : A -> list R -> R) (g : A -> list R) p : (forall a, In a fs -> is_gradient (f a) p (g a)) ->
  is_gradient (fun q => rmean (map (fun a => f a q) fs)) p (vmean (length p) (map g fs)).
Proof.
  intros H. split; [unfold vmean; now rewrite map_length, seq_length|]. intros i Hi.
  assert (E : nth i (vmean (length p) (map g fs)) 0%R = rmean (map (fun a => nth i (g a) 0%R) fs)).
  { unfold vmean. rewrite (nth_indep _ 0%R (rmean (map (fun g0 => nth 0 g0 0%R) (map g fs)))) by now rewrite map_length, seq_length.
    rewrite (map_nth (fun i => rmean (map (fun g0 => nth i g0 0%R) (map g fs))) (seq 0 (length p)) 0), seq_nth by auto. cbn [Nat.add]. now rewrite map_map. }
  rewrite E. unfold rmean. rewrite map_length.
  replace (fun t => (fold_right Rplus 0 (map (fun a => f a (upd p i t)) fs) / INR (length (map (fun a => f a (upd p i t)) fs)))%R)
    with (mult_real_fct (/ INR (length fs)) (fun t => fold_right Rplus 0%R (map (fun a => f a (upd p i t)) fs))).
  2:{ apply functional_extensionality. intros t. unfold mult_real_fct. rewrite map_length. unfold Rdiv. ring. }
  unfold Rdiv. rewrite Rmult_comm. apply derivable_pt_lim_scal.
  apply (deriv_sum fs (fun a t => f a (upd p i t)) (fun a => nth i (g a) 0%R)). intros a Ha. now apply H.
Qed.

(** ** Windows *)
Lemma split_concat {A} n (x : list A) : 0 < n -> length x mod n = 0 -> concat (split_time n x) = x /\ Forall (fun w => length w = length x / n) (split_time n x) /\ length (split_time n x) = n.
Proof.
  intros N M. assert (E : length x = n * (length x / n)) by (apply Nat.div_exact; lia). set (v := length x / n) in *.
  destruct (C39_expand x n v E) as (y & Ey & L1 & L2 & L3). unfold expand_batchsize in Ey. rewrite (proj2 (Nat.eqb_eq _ _) E) in Ey.
  injection Ey as Ey. unfold split_time. fold v. rewrite Ey. destruct L3 as [L3 _]. unfold merge_batchsize in L3.
  destruct (length (concat y) =? n * v); [|discriminate]. injection L3 as L3. auto.
Qed.
Lemma expand_concat {A} (x : list A) p v y : expand_batchsize x p v = Ok y -> length x = p * v /\ length y = p /\ Forall (fun r => length r = v) y /\ concat y = x.
Proof.
  intros H. assert (E : length x = p * v) by (unfold expand_batchsize in H; destruct (Nat.eqb_spec (length x) (p * v)); [auto|discriminate]).
  destruct (C39_expand x p v E) as (y' & Ey & L1 & L2 & L3 & _). rewrite H in Ey. injection Ey as <-. unfold merge_batchsize in L3.
  destruct (length (concat y) =? p * v); [|discriminate]. injection L3 as L3. auto.
Qed.

Lemma nth_map_in {A B} (f : A -> B) l i d d' : i < length l -> nth i (map f l) d = f (nth i l d').
Proof. intros H. rewrite (nth_indep _ d (f d')) by now rewrite map_length. apply map_nth. Qed.
Lemma seq_nth_id {A} (l : list A) d : map (fun i => nth i l d) (seq 0 (length l)) = l.
Proof.
  apply (nth_ext _ _ d d); [now rewrite map_length, seq_length|]. intros i Hi. rewrite map_length, seq_length in Hi.
  rewrite (nth_map_in (fun i => nth i l d) (seq 0 (length l)) i d 0) by now rewrite seq_length. now rewrite seq_nth.
Qed.
(** The windows of all sequences *)
Definition cutX {D} (n : nat) (X : list (list D)) : list (list (list D)) := map (fun i => map (fun x => nth i (split_time n x) []) X) (seq 0 n).
Lemma cutX_cut {D} n T (X : list (list D)) : 0 < n -> T mod n = 0 -> Forall (fun x => length x = T) X -> cut_of (T / n) X (cutX n X).
Proof.
  intros N M F. rewrite Forall_forall in F. split.
  - intros w I. unfold cutX in I. apply in_map_iff in I. destruct I as (i & <- & I). apply in_seq in I. split; [apply map_length|].
    apply Forall_forall. intros part J. apply in_map_iff in J. destruct J as (x & <- & J). rewrite <- (F x J).
    destruct (split_concat n x N) as (_ & S2 & S3); [now rewrite F|]. rewrite Forall_forall in S2. apply S2, nth_In. lia.
  - intros b x B. destruct (split_concat n x N) as (S1 & _ & S3); [rewrite (F x); auto; eapply nth_error_In; eauto|].
    transitivity (concat (split_time n x)); [f_equal|exact S1]. unfold cutX. rewrite map_map. rewrite <- (seq_nth_id (split_time n x) []), S3.
    apply map_ext. intros i. assert (b < length X) by (apply nth_error_Some; congruence).
    rewrite (nth_map_in (fun x => nth i (split_time n x) []) X b [] []) by auto. f_equal. rewrite (nth_error_nth X b [] B). reflexivity.
Qed.

Lemma combine_concat {A B} (a : list (list A)) : forall (b : list (list B)), Forall2 (fun x y => length x = length y) a b ->
  combine (concat a) (concat b) = concat (map (fun ab => combine (fst ab) (snd ab)) (combine a b)).
Proof.
  induction a as [|x a IH]; intros b F; inversion F as [|? y ? b' E F']; subst; [reflexivity|]. cbn [concat combine map fst snd].
  rewrite <- IH by auto. clear - E. revert y E. induction x as [|u x IH]; intros [|w y] E; try discriminate; [reflexivity|].
  cbn [app combine]. f_equal. apply IH. now injection E.
Qed.

Section Step.
Context {St D Out Opt : Type}.
Variable apply1 : list R -> St -> list D -> list Out * St.
Variable target : D -> Out.
Variable metric : list Out -> list Out -> R.
Variable grad : (list R -> R) -> list R -> list R.
Variable apply_grads : list R -> list R -> Opt -> list R * Opt.
Variable init_state : list (list D) -> list St.
(** jax.grad computes gradients, and the errors of single sequences have gradients. *)
Hypothesis grad_ok : forall ss xs p g, is_gradient (batch_error apply1 target metric ss xs) p g -> grad (batch_error apply1 target metric ss xs) p = g.
Hypothesis smooth : forall s x p, exists g, is_gradient (error_of apply1 target metric s x) p g.
Hypothesis init_length : forall X, length (init_state X) = length X.
Notation step m tbp := (step_fn m apply1 target metric grad apply_grads init_state tbp).
Notation wins := (windows apply1 target metric grad apply_grads).
Notation learns := (learns apply1 target metric apply_grads).
Notation batch_error := (batch_error apply1 target metric).

Lemma same_shape_iff (sss : list (list St)) : forall (xss : list (list (list D))), same_shape sss xss = true <-> Forall2 (fun s x => length s = length x) sss xss.
Proof.
  unfold same_shape. induction sss as [|s sss IH]; intros [|x xss]; cbn [length combine forallb fst snd]; try (split; [discriminate|intros F; inversion F]).
  - split; [constructor|reflexivity].
  - cbn [Nat.eqb]. specialize (IH xss). rewrite andb_true_iff, Nat.eqb_eq in IH. rewrite !andb_true_iff, !Nat.eqb_eq. split.
    + intros (A & B & C). constructor; [exact B|]. apply IH. auto.
    + intros F. inversion F as [|? ? ? ? E F']; subst. apply IH in F'. tauto.
Qed.
Lemma loss_batch ss xs : loss_fn apply1 target metric ss xs = batch_error ss xs.
Proof. reflexivity. Qed.
Lemma smooth_grad (ss : list St) (xs : list (list D)) p : is_gradient (loss_fn apply1 target metric ss xs) p (grad (loss_fn apply1 target metric ss xs) p).
Proof.
  rewrite loss_batch. assert (E : exists g, is_gradient (batch_error ss xs) p g).
  { eexists. apply (gradient_mean (combine ss xs) (fun sx q => seq_loss apply1 target metric q sx) (fun sx => grad (batch_error [fst sx] [snd sx]) p) p).
    intros [s x] _. destruct (smooth s x p) as [g G]. cbn [fst snd].
    assert (ONE : batch_error [s] [x] = error_of apply1 target metric s x).
    { apply functional_extensionality. intros q. unfold S_TrainStep.batch_error, avg. cbn. field. }
    rewrite <- ONE in G. rewrite (grad_ok _ _ _ _ G). rewrite ONE in G. exact G. }
  destruct E as [g E]. now rewrite (grad_ok _ _ _ _ E).
Qed.

Definition shaped {A} (P v : nat) (x : list (list A)) : Prop := length x = P /\ Forall (fun r => length r = v) x.
Lemma shaped_same {A B} P v (a : list (list A)) : forall (b : list (list B)), shaped P v a -> shaped P v b -> Forall2 (fun x y => length x = length y) a b.
Proof.
  revert P. induction a as [|x a IH]; intros P [|y b] [L F] [L' F']; cbn in *; try lia; [constructor|].
  inversion F; inversion F'; subst. constructor; [congruence|]. apply (IH (length a)); split; auto.
Qed.
(** The value, the states and the gradient do not depend on how the batch is spread over the devices. *)
Lemma pmapped_spec P v p (sss : list (list St)) (xss : list (list (list D))) : 0 < v -> shaped P v sss -> shaped P v xss ->
  exists g sss', pmapped_loss_fn apply1 target metric grad p sss xss = Ok (batch_error (concat sss) (concat xss) p, sss', g) /\
    is_gradient (batch_error (concat sss) (concat xss)) p g /\ shaped P v sss' /\
    concat sss' = map (fun sx => snd (apply1 p (fst sx) (snd sx))) (combine (concat sss) (concat xss)).
Proof.
  intros V S1 S2. pose proof (shaped_same P v sss xss S1 S2) as SH.
  assert (CMB : Forall (fun sx => length (combine (fst sx) (snd sx)) = v) (combine sss xss)).
  { destruct S1 as [_ F1], S2 as [_ F2]. rewrite Forall_forall in *. intros [s x] I. cbn [fst snd]. rewrite combine_length.
    rewrite (F1 s) by (eapply in_combine_l; eauto). rewrite (F2 x) by (eapply in_combine_r; eauto). lia. }
  assert (BE : forall q, rmean (map (fun sx => loss_fn apply1 target metric (fst sx) (snd sx) q) (combine sss xss)) = batch_error (concat sss) (concat xss) q).
  { intros q. unfold S_TrainStep.batch_error. rewrite combine_concat by auto. match goal with |- _ = avg ?l => change (avg l) with (rmean l) end. rewrite concat_map, map_map.
    rewrite <- (rmean_concat v); [now rewrite map_map|auto|]. apply Forall_map. revert CMB. apply Forall_impl. intros sx. now rewrite map_length. }
  unfold pmapped_loss_fn. rewrite (proj2 (same_shape_iff sss xss) SH). rewrite BE. eexists _, _. split; [reflexivity|]. split; [|split].
  - assert (G := gradient_mean (combine sss xss) (fun sx q => loss_fn apply1 target metric (fst sx) (snd sx) q)
      (fun sx => grad (loss_fn apply1 target metric (fst sx) (snd sx)) p) p (fun sx _ => smooth_grad (fst sx) (snd sx) p)).
    replace (batch_error (concat sss) (concat xss)) with (fun q => rmean (map (fun sx => loss_fn apply1 target metric (fst sx) (snd sx) q) (combine sss xss))); [exact G|].
    apply functional_extensionality. exact BE.
  - split; [rewrite map_length, combine_length; destruct S1, S2; lia|]. apply Forall_map. revert CMB. apply Forall_impl. intros sx. now rewrite map_length.
  - rewrite combine_concat by auto. rewrite concat_map, map_map. reflexivity.
Qed.

Lemma windows_learns P v : 0 < v -> forall ws p o (sss : list (list St)) loss grads,
  shaped P v sss -> Forall (shaped P v) ws ->
  exists p' o' l gs, wins p o sss loss grads ws = Ok (p', o', l, grads ++ gs) /\
    exists ls, learns p o (concat sss) (map (@concat _) ws) p' o' ls gs /\ (ws = [] -> l = loss) /\ (ws <> [] -> l = Some (last ls 0%R) /\ ls <> []).
Proof.
  intros V. induction ws as [|w ws IH]; intros p o sss loss grads S1 S2; cbn [windows map].
  - exists p, o, loss, []. rewrite app_nil_r. split; [reflexivity|]. exists []. split; [constructor|]. split; [reflexivity|]. intros N. now elim N.
  - inversion S2 as [|? ? SW S2']; subst. destruct (pmapped_spec P v p sss w V S1 SW) as (g & sss' & E & G & S3 & C). rewrite E. cbn [bind].
    destruct (apply_grads g p o) as [p1 o1] eqn:AG.
    destruct (IH p1 o1 sss' (Some (batch_error (concat sss) (concat w) p)) (grads ++ [g]) S3 S2') as (p' & o' & l & gs & W & ls & L & L1 & L2).
    exists p', o', l, (g :: gs). split; [rewrite W; now rewrite <- app_assoc|]. rewrite C in L.
    exists (batch_error (concat sss) (concat w) p :: ls). split; [econstructor; eauto|]. split; [discriminate|]. intros _. split; [|discriminate].
    destruct ws as [|w2 ws].
    + inversion L; subst. now apply L1.
    + destruct L2 as [-> L2]; [discriminate|]. destruct ls as [|x ls]; [now elim L2|]. reflexivity.
Qed.

Notation fits T tbp := (0 < tbp /\ tbp <= T /\ Nat.divide (T / tbp) T).
Lemma fits_check T tbp : 0 < T -> (exists u, (do n <- (if tbp =? 0 then Err EZeroDiv else Ok (T / tbp)); (if (n =? 0) || negb (T mod n =? 0) then Err EValue else Ok tt)) = Ok u) <-> fits T tbp.
Proof.
  intros HT. split.
  - intros [u H]. destruct (Nat.eqb_spec tbp 0) as [E|E]; [discriminate|]. cbn [bind] in H.
    destruct (Nat.eqb_spec (T / tbp) 0) as [E1|E1]; [discriminate|]. destruct (Nat.eqb_spec (T mod (T / tbp)) 0) as [E2|E2]; [|discriminate].
    split; [lia|]. split; [|now apply Nat.mod_divide]. destruct (le_lt_dec tbp T) as [X|X]; auto. rewrite Nat.div_small in E1 by auto. now elim E1.
  - intros (A & B & C). destruct (Nat.eqb_spec tbp 0) as [E|E]; [lia|]. cbn [bind]. assert (T / tbp <> 0) by (apply Nat.neq_0_lt_0, Nat.div_str_pos; lia).
    apply Nat.mod_divide in C; auto. rewrite (proj2 (Nat.eqb_neq _ _) H), C. cbn. eauto.
Qed.

Lemma step_spec m tbp p o X T (cache : option (list (list St))) pv : 1 <= n_devices m -> X <> [] -> 0 < T -> Forall (fun x => length x = T) X ->
  distribute_batchsize m (length X) = Ok pv ->
  (forall sss, cache = Some sss -> shaped (fst pv) (snd pv) sss) -> fits T tbp ->
  exists init p' o' ls gs, step m tbp cache p o X = Ok (init, (p', o', last ls 0%R, gs)) /\
    (cache = None -> concat init = init_state X) /\ (forall sss, cache = Some sss -> init = sss) /\
    cut_of (T / (T / tbp)) X (cutX (T / tbp) X) /\ learns p o (concat init) (cutX (T / tbp) X) p' o' ls gs.
Proof.
  intros HM HX HT F DB CA FT. destruct pv as [P v]. destruct (C39_product m (length X) P v HM DB) as [PV _]. cbn [fst snd] in *.
  assert (V : 0 < v) by (destruct X; [now elim HX|]; cbn [length] in PV; destruct v; lia).
  destruct (C39_expand X P v (eq_sym PV)) as (X' & EX & _). destruct (expand_concat _ _ _ _ EX) as (_ & X1 & X2 & X3).
  assert (IN : exists init, (match cache with Some s => Ok s | None => expand_batchsize (init_state X) P v end) = Ok init /\ shaped P v init /\
     (cache = None -> concat init = init_state X) /\ (forall sss, cache = Some sss -> init = sss)).
  { destruct cache as [s|].
    - exists s. split; [reflexivity|]. split; [now apply CA|]. split; [discriminate|]. intros ? H. now injection H.
    - destruct (C39_expand (init_state X) P v) as (i & Ei & _); [rewrite init_length; congruence|]. exists i.
      destruct (expand_concat _ _ _ _ Ei) as (_ & I1 & I2 & I3). split; [exact Ei|]. split; [split; auto|]. split; auto. discriminate. }
  destruct IN as (init & EI & SI & I1 & I2).
  assert (TX : (match X with [] => 0 | x :: _ => length x end) = T) by (destruct X; [now elim HX|]; now inversion F).
  destruct FT as (F1 & F2 & F3). assert (N0 : T / tbp <> 0) by (apply Nat.neq_0_lt_0, Nat.div_str_pos; lia).
  apply Nat.mod_divide in F3; auto. set (n := T / tbp) in *.
  set (ws := map (fun i => map (map (fun x => nth i (split_time n x) [])) X') (seq 0 n)).
  assert (SW : Forall (shaped P v) ws).
  { apply Forall_forall. intros w I. apply in_map_iff in I. destruct I as (i & <- & _). split; [now rewrite map_length|].
    apply Forall_map. revert X2. apply Forall_impl. intros r. now rewrite map_length. }
  destruct (windows_learns P v V ws p o init None [] SI SW) as (p' & o' & l & gs & W & ls & L & _ & L2).
  destruct L2 as [-> LN]; [unfold ws; destruct n; [lia|discriminate]|].
  exists init, p', o', ls, gs. split; [|split; [exact I1|split; [exact I2|]]].
  - unfold step_fn. rewrite DB. cbn [bind fst snd]. rewrite EI. cbn [bind]. rewrite EX. cbn [bind]. rewrite TX.
    rewrite (proj2 (Nat.eqb_neq tbp 0)) by lia. cbn [bind]. fold n. rewrite (proj2 (Nat.eqb_neq n 0)) by auto. rewrite F3. cbn [Nat.eqb negb orb bind].
    fold ws. rewrite W. reflexivity.
  - split; [apply cutX_cut; auto; lia|].
    replace (cutX n X) with (map (@concat _) ws); [exact L|]. unfold ws, cutX. rewrite map_map. apply map_ext. intros i.
    rewrite <- X3. now rewrite concat_map.
Qed.
Lemma learns_det p o ss ws p1 o1 ls1 gs1 : learns p o ss ws p1 o1 ls1 gs1 -> forall p2 o2 ls2 gs2, learns p o ss ws p2 o2 ls2 gs2 ->
  p1 = p2 /\ o1 = o2 /\ ls1 = ls2 /\ gs1 = gs2.
Proof.
  induction 1 as [p o ss|p o ss w ws g pa oa pb ob ls gs G A L IH]; intros p2 o2 ls2 gs2 H; inversion H; subst; [auto|].
  assert (g = g0) by (eapply is_gradient_unique; eauto). subst g0.
  match goal with A' : apply_grads g p o = _ |- _ => rewrite A in A'; injection A' as -> -> end.
  match goal with L' : S_TrainStep.learns _ _ _ _ _ _ _ _ _ _ _ _ |- _ => apply IH in L'; destruct L' as (-> & -> & -> & ->) end. auto.
Qed.

(** One call of the step function, with the states given or (first call) the initial ones: the sequences are cut into windows of
    equal length, and learning proceeds on one after the other.  The error of the last window is reported. *)
Theorem C74_step m tbp p o X T (cache : option (list (list St))) pv : 1 <= n_devices m -> X <> [] -> 0 < T -> Forall (fun x => length x = T) X ->
  distribute_batchsize m (length X) = Ok pv ->
  (forall sss, cache = Some sss -> shaped (fst pv) (snd pv) sss) -> fits T tbp ->
  exists init p' o' ls gs, step m tbp cache p o X = Ok (init, (p', o', last ls 0%R, gs)) /\
    (cache = None -> concat init = init_state X) /\ (forall sss, cache = Some sss -> init = sss) /\
    exists ws, length ws = T / tbp /\ cut_of (T / (T / tbp)) X ws /\ learns p o (concat init) ws p' o' ls gs.
Proof.
  intros HM HX HT F DB CA FT. destruct (step_spec m tbp p o X T cache pv HM HX HT F DB CA FT) as (init & p' & o' & ls & gs & A & B & C & E & G).
  exists init, p', o', ls, gs. split; [exact A|]. split; [exact B|]. split; [exact C|]. exists (cutX (T / tbp) X).
  split; [unfold cutX; now rewrite map_length, seq_length|]. auto.
Qed.
(** The step succeeds exactly if the batch can be spread over the devices and the windows fit. *)
Theorem C74_accepts m tbp p o X T : 1 <= n_devices m -> X <> [] -> 0 < T -> Forall (fun x => length x = T) X ->
  (exists r, step m tbp None p o X = Ok r) <-> (exists pv, distribute_batchsize m (length X) = Ok pv) /\ fits T tbp.
Proof.
  intros HM HX HT F. split.
  - intros [r H]. unfold step_fn in H. apply bind_Ok in H. destruct H as (pv & DB & H). split; [eauto|].
    apply bind_Ok in H. destruct H as (init & _ & H). apply bind_Ok in H. destruct H as (X' & _ & H).
    assert (TX : (match X with [] => 0 | x :: _ => length x end) = T) by (destruct X; [now elim HX|]; now inversion F). cbv zeta in H. rewrite TX in H.
    apply fits_check; auto. apply bind_Ok in H. destruct H as (n & E1 & H). apply bind_Ok in H. destruct H as ([] & E2 & _).
    exists tt. rewrite E1. cbn [bind]. exact E2.
  - intros [[pv DB] FT]. destruct (step_spec m tbp p o X T None pv HM HX HT F DB) as (init & p' & o' & ls & gs & A & _); auto; [discriminate|]. eauto.
Qed.
(** Parameters, optimiser state, reported loss and gradients are the same for any number of devices. *)
Theorem C74_devices m m' tbp p o X T i1 r1 i2 r2 : 1 <= n_devices m -> 1 <= n_devices m' -> X <> [] -> 0 < T -> Forall (fun x => length x = T) X ->
  step m tbp None p o X = Ok (i1, r1) -> step m' tbp None p o X = Ok (i2, r2) -> r1 = r2 /\ concat i1 = concat i2.
Proof.
  intros HM HM' HX HT F H1 H2.
  destruct (proj1 (C74_accepts m tbp p o X T HM HX HT F) (ex_intro _ _ H1)) as [[pv1 DB1] FT].
  destruct (proj1 (C74_accepts m' tbp p o X T HM' HX HT F) (ex_intro _ _ H2)) as [[pv2 DB2] _].
  destruct (step_spec m tbp p o X T None pv1 HM HX HT F DB1 ltac:(discriminate) FT) as (j1 & p1 & o1 & ls1 & gs1 & A1 & B1 & _ & _ & L1).
  destruct (step_spec m' tbp p o X T None pv2 HM' HX HT F DB2 ltac:(discriminate) FT) as (j2 & p2 & o2 & ls2 & gs2 & A2 & B2 & _ & _ & L2).
  rewrite H1 in A1. injection A1 as -> ->. rewrite H2 in A2. injection A2 as -> ->.
  rewrite B1 in * by auto. rewrite B2 in * by auto. destruct (learns_det _ _ _ _ _ _ _ _ L1 _ _ _ _ L2) as (-> & -> & -> & ->). auto.
Qed.
(** The windows are at least [tbp] and less than 2 [tbp] steps long. *)
Theorem C74_window_length T tbp : fits T tbp -> tbp <= T / (T / tbp) < 2 * tbp.
Proof.
  intros (A & B & C). assert (N : T / tbp <> 0) by (apply Nat.neq_0_lt_0, Nat.div_str_pos; lia). destruct C as [L C].
  assert (E : T / (T / tbp) = L) by (rewrite C at 1; now apply Nat.div_mul). rewrite E.
  pose proof (Nat.div_mod T tbp ltac:(lia)) as DM. pose proof (Nat.mod_upper_bound T tbp ltac:(lia)) as MB. set (n := T / tbp) in *. nia.
Qed.
(** "The windows are [tbp] steps long" is false whenever [tbp] does not divide the length. *)
Theorem C74_window_refuted T tbp : fits T tbp -> ~ Nat.divide tbp T -> tbp < T / (T / tbp).
Proof.
  intros FT ND. pose proof (C74_window_length T tbp FT) as B. destruct FT as (A & B1 & C).
  assert (N : T / tbp <> 0) by (apply Nat.neq_0_lt_0, Nat.div_str_pos; lia). destruct C as [L C].
  assert (E : T / (T / tbp) = L) by (rewrite C at 1; now apply Nat.div_mul). rewrite E in *.
  assert (L <> tbp); [|lia]. intros ->. apply ND. exists (T / tbp). rewrite C at 1. lia.
Qed.

(** *** Several calls *)
Notation calls m tbp := (step_calls m apply1 target metric grad apply_grads init_state tbp).
Lemma step_init m tbp cache p o X init r pv : distribute_batchsize m (length X) = Ok pv -> step m tbp cache p o X = Ok (init, r) ->
  (match cache with Some s => Ok s | None => expand_batchsize (init_state X) (fst pv) (snd pv) end) = Ok init.
Proof.
  intros DB E0. unfold step_fn in E0. rewrite DB in E0. cbn [bind] in E0. apply bind_Ok in E0. destruct E0 as (i & Ei & E0). rewrite Ei. f_equal.
  apply bind_Ok in E0. destruct E0 as (? & _ & E0). apply bind_Ok in E0. destruct E0 as (? & _ & E0). apply bind_Ok in E0. destruct E0 as (? & _ & E0).
  apply bind_Ok in E0. destruct E0 as ([[[? ?] [lo|]] ?] & _ & E0); [|discriminate]. now injection E0.
Qed.
(** If the initial states depend on the size of the batch only, every call starts in them: what happens in a call depends on earlier
    ones only through parameters and optimiser state. *)
Theorem C74_calls m tbp Xs B T : 1 <= n_devices m -> 0 < B -> 0 < T -> (forall X Y, length X = length Y -> init_state X = init_state Y) ->
  Forall (fun X => length X = B /\ Forall (fun x => length x = T) X) Xs -> forall p o,
  calls m tbp None p o Xs = foldM (fun po X => do s <- step m tbp None (fst po) (snd po) X; Ok (fst (fst (fst (snd s))), snd (fst (fst (snd s))))) (p, o) Xs.
Proof.
  intros HM HB HT IS. destruct Xs as [|X0 Xs]; [reflexivity|]. intros F p o. cbn [step_calls foldM fst snd].
  inversion F as [|? ? [L0 F0] F']; subst. destruct (step m tbp None p o X0) as [[init [[[p1 o1] l1] g1]]|e] eqn:E0; [|reflexivity]. cbn [bind fst snd].
  assert (HX0 : X0 <> []) by (destruct X0; [cbn in HB; lia|discriminate]).
  destruct (proj1 (C74_accepts m tbp p o X0 T HM HX0 HT F0) (ex_intro _ _ E0)) as [[pv DB] FT].
  destruct (step_spec m tbp p o X0 T None pv HM HX0 HT F0 DB ltac:(discriminate) FT) as (j & p2 & o2 & ls & gs & A & BB & _).
  rewrite E0 in A. injection A as <- _ _ _ _.
  pose proof (step_init m tbp None p o X0 init _ pv DB E0) as EI. cbn beta iota in EI.
  clear E0 F. revert p1 o1. induction F' as [|X Xs [L1 F1] F' IH]; intros p1 o1; [reflexivity|]. cbn [step_calls foldM fst snd].
  assert (SE : step m tbp (Some init) p1 o1 X = step m tbp None p1 o1 X).
  { unfold step_fn. rewrite L1, DB. cbn [bind]. rewrite (IS X X0) by auto. rewrite EI. reflexivity. }
  rewrite SE. destruct (step m tbp None p1 o1 X) as [[i2 [[[p3 o3] l3] g3]]|e] eqn:E2; [|reflexivity]. cbn [bind fst snd].
  assert (i2 = init); [|subst; apply IH]. rewrite <- L1 in DB. pose proof (step_init m tbp None p1 o1 X i2 _ pv DB E2) as EI2. cbn beta iota in EI2.
  rewrite (IS X X0) in EI2 by auto. rewrite EI in EI2. now injection EI2.
Qed.
Lemma step_sizes m tbp p o X T init r : X <> [] -> Forall (fun x => length x = T) X -> step m tbp (Some init) p o X = Ok r -> length (concat init) = length X.
Proof.
  intros HX F H. unfold step_fn in H. apply bind_Ok in H. destruct H as (pv & DB & H). cbn [bind] in H.
  apply bind_Ok in H. destruct H as (X' & EX & H). destruct (expand_concat _ _ _ _ EX) as (_ & _ & _ & CX).
  apply bind_Ok in H. destruct H as (n & _ & H). apply bind_Ok in H. destruct H as ([] & N & H).
  apply bind_Ok in H. destruct H as (w & W & _). destruct n as [|n]; [discriminate|]. cbn [seq map windows] in W.
  apply bind_Ok in W. destruct W as (q & PM & _). unfold pmapped_loss_fn in PM.
  destruct (same_shape init _) eqn:SS in PM; [|discriminate]. apply same_shape_iff in SS.
  assert (LL : forall (a : list (list St)) (b : list (list (list D))), Forall2 (fun x y => length x = length y) a b -> length (concat a) = length (concat b)).
  { clear. induction 1 as [|x y a b E _ IH]; [reflexivity|]. cbn [concat]. rewrite !app_length. congruence. }
  apply LL in SS. rewrite SS, <- CX, <- concat_map. apply map_length.
Qed.
(** "Batches may have different sizes" is false: the initial states are made for the size of the first batch. *)
Theorem C74_batchsize_refuted m tbp p o X1 X2 T1 T2 Xs : 1 <= n_devices m -> X1 <> [] -> X2 <> [] -> 0 < T1 ->
  Forall (fun x => length x = T1) X1 -> Forall (fun x => length x = T2) X2 -> length X1 <> length X2 ->
  exists e, calls m tbp None p o (X1 :: X2 :: Xs) = Err e.
Proof.
  intros HM H1 H2 HT F1 F2 N. cbn [step_calls]. destruct (step m tbp None p o X1) as [[init [[[p1 o1] l1] g1]]|e] eqn:E1; [|cbn [bind]; eauto]. cbn [bind].
  destruct (step m tbp (Some init) p1 o1 X2) as [r|e] eqn:E2; [|cbn [bind]; eauto]. exfalso.
  pose proof (step_sizes m tbp p1 o1 X2 T2 init r H2 F2 E2) as L.
  destruct (proj1 (C74_accepts m tbp p o X1 T1 HM H1 HT F1) (ex_intro _ _ E1)) as [[pv DB] _].
  pose proof (step_init m tbp None p o X1 init _ pv DB E1) as EI. cbn beta iota in EI. apply expand_concat in EI. destruct EI as (_ & _ & _ & C).
  rewrite C, init_length in L. congruence.
Qed.
End Step.

(** ** Evaluation *)
Lemma dget_fold_dset {V W} (f : W -> V) (l : list (string * W)) : NoDup (map fst l) -> forall d k w, In (k, w) l ->
  dget String.eqb (fold_left (fun d ni => dset String.eqb d (fst ni) (f (snd ni))) l d) k = Some (f w).
Proof.
  assert (KEEP : forall l d k, ~ In k (map fst l) -> dget String.eqb (fold_left (fun d ni => dset String.eqb d (fst ni) (f (snd ni))) l d) k = dget String.eqb d k).
  { clear. induction l as [|[a w] l IH]; intros d k H; cbn [fold_left fst snd]; [reflexivity|]. rewrite IH by (intros X; apply H; now right).
    rewrite C_Union.dget_dset_eq. rewrite (proj2 (String.eqb_neq k a)); [reflexivity|]. intros ->. apply H. now left. }
  induction l as [|[a w0] l IH]; intros ND d k w I; [destruct I|]. cbn [map fst] in ND. inversion ND as [|? ? NI ND']; subst. cbn [fold_left fst snd].
  destruct I as [I|I].
  - injection I as -> ->. rewrite KEEP by auto. rewrite C_Union.dget_dset_eq. now rewrite String.eqb_refl.
  - now apply IH.
Qed.

Lemma nth_error_combine_both {A B} (a : list A) : forall (b : list B) i x y, nth_error a i = Some x -> nth_error b i = Some y -> nth_error (combine a b) i = Some (x, y).
Proof. induction a as [|u a IH]; intros [|w b] [|i] x y H E; try discriminate; cbn in *; [congruence|eauto]. Qed.
Section Eval.
Context {St D Out : Type}.
Variable apply1 : list R -> St -> list D -> list Out * St.
Variable target : D -> Out.
Variable init_state : list (list D) -> list St.
Hypothesis init_length : forall X, length (init_state X) = length X.
Context {F : Type}.
Variable link : Out -> nat -> F.
Variable n_links : nat.
(** The filter gives one output per time step. *)
Hypothesis out_length : forall p s x, length (fst (apply1 p s x)) = length x.
Notation eval m := (eval_fn m apply1 target init_state link n_links).

(** A metric that is a multiple of the mean over sequences and times is the same for any number of devices, and is reported for each
    link under its name. *)
Theorem C74_eval m metrices link_names p X T : 1 <= n_devices m -> X <> [] -> 0 < T -> Forall (fun x => length x = T) X ->
  (exists pv, distribute_batchsize m (length X) = Ok pv) -> NoDup (map fst (link_index n_links link_names)) ->
  exists init vals, eval m metrices link_names None p X = Ok (init, vals) /\ map fst vals = map fst metrices /\
    forall j name f red c, nth_error metrices j = Some (name, (f, red)) -> (forall M, red M = (c * avg (concat M))%R) ->
    exists d, nth_error vals j = Some (name, d) /\
      forall ln i, In (ln, i) (link_index n_links link_names) ->
        dget String.eqb d ln = Some (c * avg (link_errors apply1 target link f p i (init_state X) X))%R.
Proof.
  intros HM HX HT FX [[P v] DB] ND. destruct (C39_product m (length X) P v HM DB) as [PV _].
  assert (V : 0 < v) by (destruct X; [now elim HX|]; cbn [length] in PV; destruct v; lia).
  assert (HP : 0 < P) by (destruct X; [now elim HX|]; cbn [length] in PV; destruct P; lia).
  destruct (C39_expand X P v (eq_sym PV)) as (X' & EX & _). destruct (expand_concat _ _ _ _ EX) as (_ & X1 & X2 & X3).
  destruct (C39_expand (init_state X) P v) as (ini & EI & _); [rewrite init_length; congruence|].
  destruct (expand_concat _ _ _ _ EI) as (_ & I1 & I2 & I3).
  assert (SH : Forall2 (fun s x => length s = length x) ini X') by (apply (shaped_same P v); split; auto).
  assert (SS : same_shape ini X' = true) by now apply same_shape_iff.
  unfold eval_fn. rewrite DB. cbn [bind fst snd]. rewrite EI. cbn [bind]. rewrite EX. cbn [bind]. rewrite SS.
  eexists _, _. split; [reflexivity|]. split; [rewrite map_map; reflexivity|].
  intros j name f red c N RED. rewrite nth_error_map, N. cbn [option_map fst snd]. eexists. split; [reflexivity|].
  intros ln i I.
  rewrite (dget_fold_dset (fun i => rmean (map (fun sx => red (metric_matrix apply1 target link f p i (fst sx) (snd sx))) (combine ini X'))) _ ND [] ln i I). f_equal.
  assert (CMB : Forall (fun sx => length (concat (metric_matrix apply1 target link f p i (fst sx) (snd sx))) = v * T) (combine ini X')).
  { apply Forall_forall. intros [s x] J. cbn [fst snd]. rewrite (length_concat_const T).
    - unfold metric_matrix. rewrite map_length, combine_length. rewrite Forall_forall in I2, X2.
      rewrite (I2 s) by (eapply in_combine_l; eauto). rewrite (X2 x) by (eapply in_combine_r; eauto). lia.
    - unfold metric_matrix. apply Forall_map, Forall_forall. intros [s0 x0] K. cbn [fst snd]. rewrite map_length, combine_length, map_length, out_length.
      rewrite Forall_forall in FX. rewrite (FX x0); [lia|]. rewrite <- X3. apply in_concat. exists x. split; [eapply in_combine_r; eauto|eapply in_combine_r; eauto]. }
  assert (E : map (fun sx => red (metric_matrix apply1 target link f p i (fst sx) (snd sx))) (combine ini X') =
    map (fun l => (c * rmean l)%R) (map (fun sx => concat (metric_matrix apply1 target link f p i (fst sx) (snd sx))) (combine ini X'))).
  { rewrite map_map. apply map_ext. intros sx. apply RED. }
  rewrite E. assert (SC : forall l, rmean (map (fun l => (c * rmean l)%R) l) = (c * rmean (map rmean l))%R).
  { intros l. unfold rmean at 1 3. rewrite !map_length. assert (Q : fold_right Rplus 0%R (map (fun l => (c * rmean l)%R) l) = (c * fold_right Rplus 0 (map rmean l))%R).
    { induction l as [|a l IH]; cbn [map fold_right]; [ring|]. rewrite IH. ring. }
    rewrite Q. unfold Rdiv. ring. }
  rewrite SC, (rmean_concat (v * T)); [|nia|apply Forall_map; exact CMB].
  change rmean with avg. f_equal. f_equal. unfold link_errors. rewrite <- I3, <- X3, combine_concat by auto. rewrite concat_map, map_map.
  unfold metric_matrix. clear. induction (combine ini X') as [|sx l IH]; cbn [map concat]; [reflexivity|]. rewrite IH, concat_app. reflexivity.
Qed.
(** The names: without names link [i] is called "link" followed by its number. *)
Theorem C74_link_names : (forall i, i < n_links -> nth_error (link_index n_links None) i = Some (("link" ++ str_nat i)%string, i)) /\
  forall (names : list string) i name, nth_error names i = Some name -> i < n_links -> nth_error (link_index n_links (Some names)) i = Some (name, i).
Proof.
  assert (G : forall (names : list string) i name, nth_error names i = Some name -> i < n_links ->
    nth_error (combine names (map (fun i => Nat.min i (n_links - 1)) (seq 0 (length names)))) i = Some (name, i)).
  { intros names i name H L. assert (LN : i < length names) by (apply nth_error_Some; congruence).
    assert (E : nth_error (map (fun i => Nat.min i (n_links - 1)) (seq 0 (length names))) i = Some i).
    { rewrite nth_error_map, (nth_error_nth' _ 0) by now rewrite seq_length. rewrite seq_nth by auto. cbn [option_map Nat.add]. f_equal. lia. }
    now apply nth_error_combine_both. }
  split; [|intros; unfold link_index; now apply G].
  intros i L. unfold link_index. apply G; auto. rewrite nth_error_map, (nth_error_nth' _ 0) by now rewrite seq_length. now rewrite seq_nth.
Qed.
End Eval.

(** ** Refutations and examples *)
Section Ex.
(** One link, one parameter; the filter always answers zero; a step is the target. *)
Definition ex_apply (p : list R) (s : unit) (x : list R) : list R * unit := (map (fun _ => 0%R) x, s).
Definition ex_init (X : list (list R)) : list unit := map (fun _ => tt) X.
Definition ex_metric (y yhat : list R) : R := avg y.
Definition ex_grad (f : list R -> R) (p : list R) : list R := map (fun _ => 0%R) p.
Definition ex_opt (g p : list R) (o : unit) : list R * unit := (p, o).
Notation ex_step m tbp := (step_fn m ex_apply (fun d : R => d) ex_metric ex_grad ex_opt ex_init tbp).

(** "The reported loss is the error over the sequence" is false: it is the error of the last window only. *)
Theorem C74_loss_refuted : exists X i p o gs, ex_step (cpu 1) 1 None [0%R] tt X = Ok (i, (p, o, 3%R, gs)) /\
  batch_error ex_apply (fun d : R => d) ex_metric (ex_init X) X [0%R] = 2%R.
Proof.
  exists [[1%R; 3%R]]. eexists _, _, _, _. split.
  - assert (E : rmean [loss_fn ex_apply (fun d : R => d) ex_metric [tt] [[3%R]] [0%R]] = 3%R) by (unfold loss_fn, seq_loss, ex_metric, avg, rmean; cbn; field).
    unfold step_fn. cbn -[rmean ex_metric]. rewrite E. reflexivity.
  - unfold batch_error, error_of, ex_metric, avg. cbn. field.
Qed.
Definition rmse (M : list (list R)) : R := sqrt (avg (map (fun x => x * x)%R (concat M))).
(** "Metrics do not depend on the number of devices" is false for others than means. *)
Theorem C74_eval_devices_refuted : exists X i1 v1 i2 v2,
  eval_fn (cpu 1) ex_apply (fun d : R => d) ex_init (fun y _ => y) 1 [("e"%string, (Rminus, rmse))] None None [] X = Ok (i1, [("e"%string, [("link0"%string, v1)])]) /\
  eval_fn (cpu 2) ex_apply (fun d : R => d) ex_init (fun y _ => y) 1 [("e"%string, (Rminus, rmse))] None None [] X = Ok (i2, [("e"%string, [("link0"%string, v2)])]) /\
  v1 <> v2.
Proof.
  exists [[0%R]; [2%R]]. eexists _, _, _, _. split; [reflexivity|]. split; [reflexivity|].
  cbn. unfold rmse, rmean, avg. cbn. intros H.
  replace (0 - 0)%R with 0%R in H by ring. replace (2 - 0)%R with 2%R in H by ring.
  replace ((0 * 0 + 0) / 1)%R with 0%R in H by field. replace ((2 * 2 + 0) / 1)%R with (2 * 2)%R in H by field.
  rewrite sqrt_0, sqrt_square in H by lra. replace ((0 + (2 + 0)) / (1 + 1))%R with 1%R in H by field.
  replace ((sqrt ((0 * 0 + (2 * 2 + 0)) / (1 + 1)) + 0) / 1)%R with (sqrt 2) in H.
  - assert (sqrt 2 * sqrt 2 = 2)%R by (apply sqrt_sqrt; lra). rewrite H in H0. lra.
  - replace ((0 * 0 + (2 * 2 + 0)) / (1 + 1))%R with 2%R by field. field.
Qed.
(** The hypotheses of the theorems are met. *)
Example C74_step_nonvacuous :
  (forall s x p, exists g, is_gradient (error_of ex_apply (fun d : R => d) ex_metric s x) p g) /\
  (forall ss xs p g, is_gradient (batch_error ex_apply (fun d : R => d) ex_metric ss xs) p g -> ex_grad (batch_error ex_apply (fun d : R => d) ex_metric ss xs) p = g) /\
  (0 < 2 /\ 2 <= 6 /\ Nat.divide (6 / 2) 6) /\ (exists pv, distribute_batchsize (cpu 2) 4 = Ok pv) /\
  (0 < 4 /\ 4 <= 6 /\ Nat.divide (6 / 4) 6) /\ ~ Nat.divide 4 6.
Proof.
  split; [|split; [|split; [|split; [|split]]]].
  - intros s x p. exists (map (fun _ => 0%R) p). split; [apply map_length|]. intros i Hi. rewrite (nth_map_in _ _ _ _ 0%R) by auto. apply derivable_pt_lim_const.
  - intros ss xs p g G. eapply is_gradient_unique; [|exact G]. split; [apply map_length|]. intros i Hi. unfold ex_grad. rewrite (nth_map_in _ _ _ _ 0%R) by auto.
    exact (derivable_pt_lim_const (batch_error ex_apply (fun d : R => d) ex_metric ss xs []) _).
  - split; [lia|]. split; [lia|]. exists 2. reflexivity.
  - eexists. reflexivity.
  - split; [lia|]. split; [lia|]. exists 6. reflexivity.
  - intros [k H]. lia.
Qed.
End Ex.

Print Assumptions C74_step.
Print Assumptions C74_devices.
Print Assumptions C74_calls.
Print Assumptions C74_eval.
