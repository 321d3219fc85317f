(** * C50: skipping large updates. *)
From Coq Require Import Reals Lra.
From Coq Require Import ZArith Lia Bool List.
From Verif Require Import Prelude M_Train.
Import ListNotations.

Section Skip.
Context {U I N P : Type}.
Variable ok : U -> bool.
Variable zeros : U -> U.
Variable inner : U -> I -> P -> U * I.
Variable noise : option (U -> N -> U * N).
Variable max_int : nat.
Variable apply : P -> U -> P.
Notation run := (skip_run ok zeros inner noise max_int apply).
Notation state := (@skip_state I N).

(** The last [k] updates up to and including number [i] were too large, and no more than these. *)
Definition streak (us : list U) (i k : nat) : Prop :=
  (k <= S i)%nat /\
  (forall j u, (S i - k <= j <= i)%nat -> nth_error us j = Some u -> ok u = false) /\
  (forall u, (k < S i)%nat -> nth_error us (i - k) = Some u -> ok u = true).

(** The documented rule: small enough, or too many too-large updates in a row, or still warming up. *)
Definition rule (max_consecutive warmup : nat) (us : list U) (i : nat) (u : U) (k : nat) : Prop :=
  ok u = true \/ (max_consecutive < k)%nat \/ (i < warmup)%nat.

(** State and parameters before update number [i]. *)
Definition before (st : state) (p : P) (outs : list (U * state * P)) (i : nat) : option (state * P) :=
  match i with
  | 0%nat => Some (st, p)
  | S j => option_map (fun x => (snd (fst x), snd x)) (nth_error outs j)
  end.

Lemma safe_min n : safe_incr max_int (Nat.min n max_int) = Nat.min (S n) max_int.
Proof. unfold safe_incr. destruct (Nat.ltb_spec (Nat.min n max_int) max_int); lia. Qed.

Lemma run_length mc w us st p : length (run mc w us st p) = length us.
Proof.
  revert st p. induction us as [|u us IH]; intros st p; [reflexivity|]. cbn [skip_run].
  destruct (skip_update ok zeros inner noise max_int mc w u st p) as [u' st']. cbn [length]. now rewrite IH.
Qed.

(** One step from the state before. *)
Lemma run_step mc w us : forall st p i u, nth_error us i = Some u ->
  exists sti pi u' st', before st p (run mc w us st p) i = Some (sti, pi) /\
    nth_error (run mc w us st p) i = Some (u', st', apply pi u') /\
    skip_update ok zeros inner noise max_int mc w u sti pi = (u', st').
Proof.
  induction us as [|u0 us IH]; intros st p i u H; [destruct i; discriminate|]. cbn [skip_run].
  destruct (skip_update ok zeros inner noise max_int mc w u0 st p) as [u' st'] eqn:E.
  destruct i as [|i].
  - cbn in H. injection H as <-. exists st, p, u', st'. cbn [before nth_error]. auto.
  - cbn [nth_error] in H. destruct (IH st' (apply p u') i u H) as (sti & pi & v & st2 & A & B & C).
    exists sti, pi, v, st2. split; [|split; auto].
    destruct i as [|i]; cbn [before nth_error option_map fst snd] in *; auto.
Qed.

(** The counters before update [i]. *)
Lemma counters mc w us st p : toolarge_count st = 0%nat -> count st = 0%nat ->
  forall i k sti pi, (i <= length us)%nat -> before st p (run mc w us st p) i = Some (sti, pi) ->
  count sti = Nat.min i max_int /\
  (match i with 0%nat => k = 0%nat | S j => streak us j k end -> toolarge_count sti = Nat.min k max_int).
Proof.
  intros T0 C0. induction i as [|i IH]; intros k sti pi Hi B.
  - cbn in B. injection B as <- <-. split; [rewrite C0; reflexivity|]. intros ->. rewrite T0. reflexivity.
  - cbn [before] in B. destruct (nth_error us i) as [u|] eqn:Eu; [|apply nth_error_None in Eu; lia].
    destruct (run_step mc w us st p i u Eu) as (s0 & p0 & u' & s1 & B0 & B1 & B2).
    rewrite B1 in B. cbn in B. injection B as <- <-.
    unfold skip_update in B2. injection B2 as _ B2. subst s1. cbn [count toolarge_count].
    split.
    + destruct (IH 0%nat s0 p0 ltac:(lia) B0) as [-> _]. apply safe_min.
    + intros (Hk & SA & SB). destruct (ok u) eqn:Eo.
      * destruct k as [|k]; [reflexivity|]. exfalso. specialize (SA i u ltac:(lia) Eu). congruence.
      * destruct k as [|k].
        -- exfalso. specialize (SB u ltac:(lia)). rewrite Nat.sub_0_r in SB. specialize (SB Eu). congruence.
        -- destruct (IH k s0 p0 ltac:(lia) B0) as [_ HT]. rewrite HT; [apply safe_min|].
           destruct i as [|i]; [lia|]. split; [lia|]. split.
           ++ intros j v Hj. apply SA. lia.
           ++ intros v Hv. apply SB. lia.
Qed.

Lemma streak_exists us i : (i < length us)%nat -> exists k, streak us i k.
Proof.
  induction i as [|i IH]; intros Hi.
  - destruct (nth_error us 0) as [u|] eqn:E; [|apply nth_error_None in E; lia]. destruct (ok u) eqn:Eo.
    + exists 0%nat. split; [lia|]. split; [intros; lia|]. change (0 - 0)%nat with 0%nat. intros. congruence.
    + exists 1%nat. split; [lia|]. split; [intros j v Hj Hv; assert (j = 0%nat) by lia; subst; congruence|intros; lia].
  - destruct (nth_error us (S i)) as [u|] eqn:E; [|apply nth_error_None in E; lia]. destruct (ok u) eqn:Eo.
    + exists 0%nat. split; [lia|]. split; [intros; lia|]. rewrite Nat.sub_0_r. intros; congruence.
    + destruct IH as (k & A & B & C); [lia|]. exists (S k). split; [lia|]. split.
      * intros j v Hj Hv. destruct (Nat.eq_dec j (S i)) as [->|]; [congruence|]. apply (B j v); auto; lia.
      * intros v Hv. cbn [Nat.sub]. apply C. lia.
Qed.

(** C50.  In every history: if the rule allows, the update is the inner optimiser's and its state advances;
    otherwise the inner state is kept and the update is zero (or noise, if asked for). *)
Theorem C50_skip mc w us st p i u k :
  toolarge_count st = 0%nat -> count st = 0%nat -> (w <= max_int)%nat -> (mc < max_int)%nat ->
  nth_error us i = Some u -> streak us i k ->
  exists sti pi u' st', before st p (run mc w us st p) i = Some (sti, pi) /\
    nth_error (run mc w us st p) i = Some (u', st', apply pi u') /\
    (rule mc w us i u k -> (u', inner_state st') = inner u (inner_state sti) pi /\ noise_state st' = noise_state sti) /\
    (~ rule mc w us i u k -> inner_state st' = inner_state sti /\
       match noise with
       | None => u' = zeros u /\ noise_state st' = noise_state sti
       | Some f => (u', noise_state st') = f u (noise_state sti)
       end).
Proof.
  intros T0 C0 Hw Hm Hu SK. assert (Hi : (i < length us)%nat) by (apply nth_error_Some; congruence).
  destruct (run_step mc w us st p i u Hu) as (sti & pi & u' & st' & B & R & E).
  exists sti, pi, u', st'. split; auto. split; auto.
  assert (TL : (if ok u then 0%nat else safe_incr max_int (toolarge_count sti)) = Nat.min k max_int).
  { destruct SK as (Hk & SA & SB). destruct (ok u) eqn:Eo.
    - destruct k as [|k]; [reflexivity|]. exfalso. specialize (SA i u ltac:(lia) Hu). congruence.
    - destruct k as [|k].
      + exfalso. specialize (SB u ltac:(lia)). rewrite Nat.sub_0_r in SB. specialize (SB Hu). congruence.
      + destruct (counters mc w us st p T0 C0 i k sti pi ltac:(lia) B) as [_ HT]. rewrite HT; [apply safe_min|].
        destruct i as [|i]; [lia|]. split; [lia|]. split.
        * intros j v Hj. apply SA. lia.
        * intros v Hv. apply SB. lia. }
  destruct (counters mc w us st p T0 C0 i 0 sti pi ltac:(lia) B) as [CT _].
  unfold skip_update in E. rewrite TL, CT in E.
  assert (RB : ok u || (mc <? Nat.min k max_int)%nat || (Nat.min i max_int <? w)%nat = true <-> rule mc w us i u k).
  { unfold rule. rewrite !orb_true_iff, !Nat.ltb_lt. split.
    - intros [[Q|Q]|Q]; [auto|right; left; lia|right; right; lia].
    - intros [Q|[Q|Q]]; [auto|left; right; lia|right; lia]. }
  destruct (ok u || (mc <? Nat.min k max_int)%nat || (Nat.min i max_int <? w)%nat) eqn:D.
  - split; [intros _|intros Hn; exfalso; apply Hn, RB; reflexivity].
    destruct (inner u (inner_state sti) pi) as [v i'] eqn:Ei. cbn [fst snd] in E. injection E as <- <-. auto.
  - split; [intros Hr; apply RB in Hr; discriminate|intros _].
    destruct noise as [f|].
    + destruct (f u (noise_state sti)) as [v n'] eqn:Ef. cbn [fst snd] in E. injection E as <- <-. auto.
    + cbn [fst snd] in E. injection E as <- <-. auto.
Qed.

(** C50.  A skipped update leaves the parameters alone (without noise). *)
Theorem C50_skipped_no_effect mc w us st p i u k : noise = None -> (forall q v, apply q (zeros v) = q) ->
  toolarge_count st = 0%nat -> count st = 0%nat -> (w <= max_int)%nat -> (mc < max_int)%nat ->
  nth_error us i = Some u -> streak us i k -> ~ rule mc w us i u k ->
  exists sti pi u' st', before st p (run mc w us st p) i = Some (sti, pi) /\
    nth_error (run mc w us st p) i = Some (u', st', pi) /\ inner_state st' = inner_state sti.
Proof.
  intros NO Z T0 C0 Hw Hm Hu SK NR.
  destruct (C50_skip mc w us st p i u k T0 C0 Hw Hm Hu SK) as (sti & pi & u' & st' & B & R & _ & H).
  destruct (H NR) as [H1 H2]. rewrite NO in H2. destruct H2 as [-> _].
  exists sti, pi, (zeros u), st'. split; auto. split; [|auto]. rewrite R, Z. reflexivity.
Qed.
End Skip.

(** Real updates: leaves with a NaN or an infinity. *)
Open Scope R_scope.
Definition real_ok (limit : R) (u : list (list (option R))) : bool :=
  condition_not_toolarge 0 Rplus Rmult (fun a b => if Rlt_dec a b then true else false) limit u.

(** C50.  An update counts as too large iff an entry is not finite or the squared norm reaches the limit. *)
Theorem C50_norm limit u :
  real_ok limit u = true <->
  exists rs, concat u = map Some rs /\ fold_right Rplus 0 (map (fun x => x * x) rs) < limit.
Proof.
  unfold real_ok, condition_not_toolarge.
  assert (NS : forall l, match norm_sq 0 Rplus Rmult l with
     | Some n => exists rs, l = map Some rs /\ n = fold_right Rplus 0 (map (fun x => x * x) rs)
     | None => In None l end).
  { induction l as [|[x|] l IH]; cbn [norm_sq].
    - exists []. auto.
    - destruct (norm_sq 0 Rplus Rmult l) as [n|].
      + destruct IH as (rs & -> & ->). exists (x :: rs). auto.
      + now right.
    - now left. }
  specialize (NS (concat u)). destruct (norm_sq 0 Rplus Rmult (concat u)) as [n|].
  - destruct NS as (rs & E & En). destruct (Rlt_dec n limit) as [L|L].
    + split; auto. intros _. exists rs. split; auto. now rewrite <- En.
    + split; [discriminate|]. intros (rs' & E' & L'). exfalso. apply L.
      assert (rs = rs').
      { rewrite E in E'. clear - E'. revert rs' E'. induction rs as [|a rs IH]; intros [|b rs'] H; cbn in H; try discriminate; auto.
        injection H as -> H. f_equal; auto. }
      subst rs'. now rewrite En.
  - split; [discriminate|]. intros (rs & E & _). rewrite E in NS. apply in_map_iff in NS. destruct NS as (x & X & _). discriminate.
Qed.

(** C50 fails as documented ("also skips NaNs and Infs"): during warm-up, and after too many too-large
    updates in a row, a NaN update is handed to the inner optimiser. *)
Theorem C50_nan_passes_refuted : exists (us : list (list (list (option R)))) u' st' p',
  In [[None]] us /\
  nth_error (skip_run (real_ok 1) (fun u => u) (fun u (i : nat) (p : unit) => (u, S i)) (@None (_ -> unit -> _ * unit)) 100 (fun p _ => p)
     1 0 us (mkSkip 0 0 0%nat tt) tt) 1 = Some (u', st', p') /\ u' = [[None]] /\ inner_state st' = 1%nat.
Proof.
  exists [[[None]]; [[None]]]. do 3 eexists. split; [now left|]. split; [reflexivity|]. split; reflexivity.
Qed.

Example C50_example :
  let ok := fun u : nat => (u <? 10)%nat in
  streak ok [3; 50; 60]%nat 2 2 /\
  map (fun x => fst (fst x)) (skip_run ok (fun _ => 0%nat) (fun u (i : nat) (p : nat) => (2 * u, S i)%nat) (@None (_ -> unit -> _ * unit))
    1000 (fun p u => (p - u)%nat) 1 0 [3; 50; 60; 4; 70]%nat (mkSkip 0 0 0%nat tt) 500%nat) = [6; 0; 120; 8; 0]%nat.
Proof.
  split; [|reflexivity]. split; [lia|]. split.
  - intros j u Hj. destruct j as [|[|[|j]]]; try lia; cbn; intros H; injection H as <-; reflexivity.
  - intros u _. cbn. intros H. injection H as <-. reflexivity.
Qed.
Print Assumptions C50_skip.
Print Assumptions C50_norm.
