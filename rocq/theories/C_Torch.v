(** * C84: the generator over a folder of files is endless and visits every element once per epoch. *)
From Coq Require Import String ZArith Lia Bool Arith List Permutation.
From Verif Require Import Prelude M_Torch.
Import ListNotations.
Local Open Scope list_scope. Local Open Scope nat_scope.

(** ** Batches *)
Lemma batches_keep bs : 1 <= bs -> forall idx cur, length cur < bs -> concat (batch_sampler bs false cur idx) = cur ++ idx.
Proof.
  intros B. induction idx as [|i r IH]; intros cur L; cbn [batch_sampler].
  - destruct cur; cbn; [reflexivity|]. now rewrite app_nil_r.
  - destruct (Nat.eqb_spec (length (cur ++ [i])) bs) as [E|E].
    + cbn [concat]. rewrite IH by (cbn; lia). cbn [app]. now rewrite <- app_assoc.
    + rewrite IH; [now rewrite <- app_assoc|]. rewrite app_length in *. cbn in *. lia.
Qed.
Lemma batches_sizes bs drop : 1 <= bs -> forall idx cur, length cur < bs -> let l := batch_sampler bs drop cur idx in
  (forall i b, nth_error l i = Some b -> 1 <= length b <= bs /\ (i + 1 < length l \/ drop = true -> length b = bs)) /\
  length l = if drop then (length cur + length idx) / bs else (length cur + length idx + bs - 1) / bs.
Proof.
  intros B. induction idx as [|i r IH]; intros cur L l; subst l; cbn [batch_sampler].
  - split.
    + intros j b E. destruct cur as [|c cur]; [destruct j; discriminate|]. destruct drop; [destruct j; discriminate|].
      destruct j as [|j]; [|destruct j; discriminate]. cbn in E. injection E as <-. cbn in *. split; [lia|]. intros [A|A]; [lia|discriminate].
    + cbn [length]. rewrite Nat.add_0_r. destruct cur as [|c cur].
      * cbn [length]. destruct drop; [now rewrite Nat.div_0_l by lia|]. symmetry. apply Nat.div_small. lia.
      * destruct drop.
        { symmetry. now apply Nat.div_small. }
        replace (length (c :: cur) + bs - 1) with (1 * bs + length cur) by (cbn [length]; lia). rewrite Nat.div_add_l by lia.
        rewrite Nat.div_small; [reflexivity|]. cbn in L. lia.
  - destruct (Nat.eqb_spec (length (cur ++ [i])) bs) as [E|E].
    + destruct (IH [] ltac:(cbn; lia)) as [P Q]. split.
      * intros [|j] b H; cbn [nth_error] in H.
        { injection H as <-. rewrite E. split; [lia|auto]. }
        destruct (P j b H) as [P1 P2]. split; [exact P1|]. intros [A|A]; apply P2; [left; cbn [length] in A; lia|now right].
      * cbn [length]. rewrite Q. rewrite app_length in E. cbn in E. cbn [length Nat.add]. destruct drop.
        { replace (length cur + S (length r)) with (1 * bs + length r) by lia. rewrite Nat.div_add_l by lia. lia. }
        replace (length cur + S (length r) + bs - 1) with (1 * bs + (length r + bs - 1)) by lia. rewrite Nat.div_add_l by lia. lia.
    + assert (L2 : length (cur ++ [i]) < bs) by (rewrite app_length in *; cbn in *; lia).
      destruct (IH (cur ++ [i]) L2) as [P Q]. split; [exact P|]. rewrite Q, app_length. cbn [length]. destruct drop; f_equal; lia.
Qed.
Lemma batches_drop bs : 1 <= bs -> forall idx cur, length cur < bs -> exists rest, concat (batch_sampler bs true cur idx) ++ rest = cur ++ idx /\ length rest < bs.
Proof.
  intros B. induction idx as [|i r IH]; intros cur L; cbn [batch_sampler].
  - exists cur. destruct cur; cbn; [split; [reflexivity|lia]|]. rewrite app_nil_r. auto.
  - destruct (Nat.eqb_spec (length (cur ++ [i])) bs) as [E|E].
    + destruct (IH [] ltac:(cbn; lia)) as (rest & R1 & R2). exists rest. split; [|exact R2]. cbn [concat]. rewrite <- app_assoc, R1. cbn [app]. now rewrite <- app_assoc.
    + assert (L2 : length (cur ++ [i]) < bs) by (rewrite app_length in *; cbn in *; lia).
      destruct (IH _ L2) as (rest & R1 & R2). exists rest. split; [|exact R2]. rewrite R1. now rewrite <- app_assoc.
Qed.

Section Generator.
Context {E : Type}.
Variable N : nat.
Variable get : nat -> result E.
Variable drawn : nat -> list nat.
Variables (bs : nat) (shuffle drop : bool).
Notation iter_dl := (iter_dl N drawn bs shuffle drop).
Notation nth_call := (nth_call N get drawn bs shuffle drop).
Notation state_after := (state_after N get drawn bs shuffle drop).
Notation generator := (generator N get drawn bs shuffle drop).
Notation start := (start N drawn bs shuffle drop).

(** Calls are answered epoch by epoch, if every epoch has the same positive number of batches. *)
Lemma calls_of K s : 1 <= K -> start = Ok s -> (forall e, length (iter_dl e) = K) ->
  forall e i, i < K -> state_after s (e * K + i) = (skipn i (iter_dl e), S e) \/ (i = 0 /\ state_after s (e * K) = ([], e)).
Proof.
  intros K1 S0 L. assert (B : 1 <= bs) by (unfold M_Torch.start in S0; destruct (Nat.eqb_spec bs 0); [discriminate|lia]).
  assert (ST : s = (iter_dl 0, 1)). { unfold M_Torch.start in S0. destruct (Nat.eqb_spec bs 0); [lia|congruence]. }
  assert (ADV : forall k e i, i < K -> state_after s k = (skipn i (iter_dl e), S e) -> state_after s (S k) = (skipn (S i) (iter_dl e), S e)).
  { intros k e i Hi Hk. cbn [M_Torch.state_after]. rewrite Hk. unfold M_Torch.generator. cbn [fst].
    destruct (skipn i (iter_dl e)) as [|b r] eqn:Es; [apply (f_equal (@length _)) in Es; rewrite skipn_length, L in Es; cbn in Es; lia|].
    unfold next_dl. cbn [fst snd]. f_equal. clear -Es. revert Es. generalize (iter_dl e). induction i as [|i IH]; intros [|c l] Es; cbn [skipn] in *; try discriminate; [injection Es as _ ->; reflexivity|]. now apply (IH l). }
  assert (ROW : forall k e, state_after s k = (iter_dl e, S e) -> forall i, i <= K -> state_after s (k + i) = (skipn i (iter_dl e), S e)).
  { intros k e Hk i. induction i as [|i IH]; intros Hi; [now rewrite Nat.add_0_r|]. rewrite Nat.add_succ_r. apply ADV; [lia|]. apply IH. lia. }
  assert (NEXT : forall k e, state_after s k = ([], e) -> forall i, 1 <= i <= K -> state_after s (k + i) = (skipn i (iter_dl e), S e)).
  { intros k e Hk i. induction i as [|i IH]; [lia|]. intros Hi. rewrite Nat.add_succ_r. destruct i as [|i].
    - rewrite Nat.add_0_r. cbn [M_Torch.state_after]. rewrite Hk. unfold M_Torch.generator, next_dl. cbn [fst snd]. destruct (iter_dl e) as [|b r] eqn:Ei; [specialize (L e); rewrite Ei in L; cbn in L; lia|]. reflexivity.
    - apply ADV; [lia|]. apply IH. lia. }
  assert (END : forall e, state_after s (S e * K) = ([], S e)).
  { induction e as [|e IH].
    - rewrite Nat.mul_1_l. assert (R0 : state_after s 0 = (iter_dl 0, 1)) by (rewrite ST; reflexivity). rewrite (ROW 0 0 R0 K (le_n K) : state_after s K = _). f_equal. apply skipn_all2. now rewrite L.
    - replace (S (S e) * K) with (S e * K + K) by lia. rewrite (NEXT _ _ IH K) by lia. f_equal. apply skipn_all2. now rewrite L. }
  intros [|e] i Hi.
  - left. assert (R0 : state_after s 0 = (iter_dl 0, 1)) by (rewrite ST; reflexivity). apply (ROW 0 0 R0). lia.
  - destruct i as [|i]; [right; split; [reflexivity|apply END]|]. left. apply (NEXT _ _ (END e)). lia.
Qed.
Lemma nth_call_of K s : 1 <= K -> start = Ok s -> (forall e, length (iter_dl e) = K) ->
  forall e i b, nth_error (iter_dl e) i = Some b -> nth_call s (e * K + i) = mapM get b.
Proof.
  intros K1 S0 L e i b Eb. assert (Hi : i < K) by (rewrite <- (L e); apply nth_error_Some; congruence).
  unfold M_Torch.nth_call. assert (SK : exists r, skipn i (iter_dl e) = b :: r).
  { clear -Eb. revert Eb. generalize (iter_dl e). induction i as [|i IH]; intros [|c l] Eb; cbn in *; try discriminate; [injection Eb as ->; eauto|auto]. }
  destruct SK as (r & SK). destruct (calls_of K s K1 S0 L e i Hi) as [H|[-> H]].
  - rewrite H. unfold M_Torch.generator. cbn [fst]. rewrite SK. reflexivity.
  - rewrite Nat.add_0_r, H. unfold M_Torch.generator. cbn [fst snd]. cbn [skipn] in SK. rewrite SK. reflexivity.
Qed.

Hypothesis BS : 1 <= bs.
Hypothesis orders : forall e, Permutation (drawn e) (seq 0 N).
Lemma order_perm e : Permutation (if shuffle then drawn e else seq 0 N) (seq 0 N).
Proof. destruct shuffle; [apply orders|reflexivity]. Qed.
Lemma order_len e : length (if shuffle then drawn e else seq 0 N) = N.
Proof. rewrite (Permutation_length (order_perm e)). apply seq_length. Qed.
Lemma iter_len e : length (iter_dl e) = if drop then N / bs else (N + bs - 1) / bs.
Proof. unfold M_Torch.iter_dl. destruct (batches_sizes bs drop BS (if shuffle then drawn e else seq 0 N) [] ltac:(cbn; lia)) as [_ ->]. rewrite order_len. reflexivity. Qed.
Lemma start_ok : start = Ok (iter_dl 0, 1).
Proof. unfold M_Torch.start. destruct (Nat.eqb_spec bs 0); [lia|reflexivity]. Qed.

(** Whether loading succeeds or not: call number e * K + i loads batch i of epoch e, so an element that cannot be loaded spoils its own
    batch only. *)
Theorem C84_calls s : start = Ok s -> let K := if drop then N / bs else (N + bs - 1) / bs in 1 <= K ->
  forall e, exists batches, length batches = K /\
    (forall i b, nth_error batches i = Some b -> nth_call s (e * K + i) = mapM get b /\ 1 <= length b <= bs /\ (i + 1 < K \/ drop = true -> length b = bs)) /\
    exists rest, Permutation (concat batches ++ rest) (seq 0 N) /\ (shuffle = false -> concat batches ++ rest = seq 0 N) /\
      (if drop then length rest < bs else rest = []).
Proof.
  intros S0 K K1 e. exists (iter_dl e). split; [apply iter_len|]. split.
  - intros i b Eb. split; [apply (nth_call_of K s K1 S0 iter_len); exact Eb|].
    unfold M_Torch.iter_dl in Eb. destruct (batches_sizes bs drop BS (if shuffle then drawn e else seq 0 N) [] ltac:(cbn; lia)) as [P Q].
    destruct (P i b Eb) as [P1 P2]. split; [exact P1|]. intros [A|A]; apply P2; [left|now right].
    change (batch_sampler bs drop [] (if shuffle then drawn e else seq 0 N)) with (iter_dl e). rewrite iter_len. exact A.
  - destruct drop eqn:ED.
    + destruct (batches_drop bs BS (if shuffle then drawn e else seq 0 N) [] ltac:(cbn; lia)) as (rest & R1 & R2). exists rest. cbn [app] in R1. unfold M_Torch.iter_dl.
      rewrite R1. split; [apply order_perm|]. split; [intros ->; reflexivity|exact R2].
    + exists []. unfold M_Torch.iter_dl. rewrite app_nil_r, (batches_keep bs BS) by (cbn; lia). cbn [app]. split; [apply order_perm|]. split; [intros ->; reflexivity|reflexivity].
Qed.

(** If all elements can be loaded: in every epoch every element comes up exactly once; the generator never ends. *)
Theorem C84_epochs (item : nat -> E) s : drop = false -> 1 <= N -> (forall i, i < N -> get i = Ok (item i)) -> start = Ok s ->
  let K := (N + bs - 1) / bs in 1 <= K /\
  forall e, exists batches, length batches = K /\
    (forall i b, nth_error batches i = Some b -> nth_call s (e * K + i) = Ok b /\ 1 <= length b <= bs /\ (i + 1 < K -> length b = bs)) /\
    Permutation (concat batches) (map item (seq 0 N)) /\ (shuffle = false -> concat batches = map item (seq 0 N)).
Proof.
  intros D N1 G S0 K. assert (K1 : 1 <= K). { unfold K. apply Nat.div_le_lower_bound; lia. } split; [exact K1|]. intros e.
  destruct (C84_calls s S0 ltac:(rewrite D; exact K1) e) as (batches & LB & P & rest & R1 & R2 & R3). rewrite D in *. subst rest. rewrite app_nil_r in *.
  exists (map (map item) batches). rewrite map_length. split; [exact LB|]. rewrite <- concat_map. split; [|split; [now apply Permutation_map|intros F; f_equal; auto]].
  intros i b Eb. rewrite nth_error_map in Eb. destruct (nth_error batches i) as [b0|] eqn:E0; [|discriminate]. cbn in Eb. injection Eb as <-.
  destruct (P i b0 E0) as (P1 & P2 & P3). rewrite map_length. split; [|split; [exact P2|auto]].
  fold K in P1. rewrite P1. assert (IN : forall j, In j b0 -> j < N).
  { intros j Hj. assert (I : In j (seq 0 N)). { apply (Permutation_in j R1). apply in_concat. exists b0. split; [now apply nth_error_In in E0|exact Hj]. } apply in_seq in I. lia. }
  clear -IN G. induction b0 as [|j b0 IH]; [reflexivity|]. cbn [mapM map]. rewrite G by (apply IN; now left). cbn [bind]. rewrite IH by (intros; apply IN; now right). reflexivity.
Qed.

(** Not endless: without elements (or with fewer than a batch, if the last incomplete batch is dropped) every call ends the iteration. *)
Theorem C84_empty s : start = Ok s -> (if drop then N < bs else N = 0) -> forall n, nth_call s n = Err EStopIteration.
Proof.
  intros S0 Z. assert (EI : forall e, iter_dl e = []).
  { intros e. apply length_zero_iff_nil. rewrite iter_len. destruct drop; [now apply Nat.div_small|]. subst N. apply Nat.div_small. lia. }
  assert (ST : forall n, exists e, state_after s n = ([], e)).
  { induction n as [|n (e & H)].
    - exists 1. cbn. rewrite start_ok in S0. injection S0 as <-. now rewrite EI.
    - cbn [M_Torch.state_after]. rewrite H. unfold M_Torch.generator, next_dl. cbn [fst snd]. rewrite EI. cbn [snd]. eauto. }
  intros n. unfold M_Torch.nth_call. destruct (ST n) as (e & ->). unfold M_Torch.generator, next_dl. cbn [fst snd]. now rewrite EI.
Qed.
End Generator.

(** C84.  With the dataset of a folder: every epoch delivers the content of each file once, as loaded and then transformed. *)
Theorem C84_folder {F E} (files : list F) (load : F -> result E) (transform : option (E -> result E)) (items : list E) drawn bs shuffle s :
  Forall2 (fun f x => exists raw, load f = Ok raw /\ match transform with Some g => g raw = Ok x | None => x = raw end) files items ->
  (forall e, Permutation (drawn e) (seq 0 (length files))) -> 1 <= bs -> files <> [] ->
  start (ds_len files) drawn bs shuffle false = Ok s ->
  let K := (length files + bs - 1) / bs in
  forall e, exists batches, length batches = K /\
    (forall i b, nth_error batches i = Some b ->
       nth_call (ds_len files) (ds_get files load transform) drawn bs shuffle false s (e * K + i) = Ok b /\ 1 <= length b <= bs) /\
    Permutation (concat batches) items /\ (shuffle = false -> concat batches = items).
Proof.
  intros H D B NE S0 K e. unfold ds_len in *.
  assert (L : length files = length items) by (clear - H; induction H; cbn; congruence).
  destruct items as [|x0 items']; [destruct files; [congruence|discriminate]|]. set (items := x0 :: items') in *.
  assert (G : forall i, i < length files -> ds_get files load transform i = Ok (nth i items x0)).
  { clear - H. induction H as [|f x files items (raw & E1 & E2) H IH]; intros i Hi; cbn in Hi; [lia|]. destruct i as [|i].
    - unfold ds_get. cbn [nth_error nth]. rewrite E1. cbn [bind]. destruct transform; [exact E2|now subst].
    - cbn [nth]. rewrite <- IH by lia. reflexivity. }
  assert (M : map (fun i => nth i items x0) (seq 0 (length files)) = items).
  { rewrite L. clear. generalize items as l. intros l. apply (nth_ext _ _ x0 x0); [now rewrite map_length, seq_length|]. intros n Hn. rewrite map_length, seq_length in Hn.
    rewrite (nth_indep _ x0 (nth 0 l x0)) by (now rewrite map_length, seq_length). rewrite (map_nth (fun i => nth i l x0)), seq_nth by exact Hn. reflexivity. }
  assert (N1 : 1 <= length files) by (destruct files; [congruence|cbn; lia]).
  destruct (C84_epochs (length files) (ds_get files load transform) drawn bs shuffle false B D (fun i => nth i items x0) s eq_refl N1 G S0) as [_ T].
  destruct (T e) as (batches & T1 & T2 & T3 & T4). exists batches. rewrite M in T3, T4. split; [exact T1|]. split; [|split; assumption].
  intros i b Hb. destruct (T2 i b Hb) as (? & ? & _). split; assumption.
Qed.

(** A folder of five files, batches of two: each epoch delivers all of them, the second in another order; the third file is damaged. *)
Definition torch_drawn (e : nat) : list nat := if e =? 0 then [4; 1; 0; 3; 2] else [2; 1; 0; 4; 3].
Definition torch_load (f : nat) : result nat := if f =? 12 then Err EOther else Ok f.
Definition torch_get := ds_get [10; 11; 12; 13; 14] torch_load (Some (fun x => Ok (10 * x))).
Example C84_example : exists s, start 5 torch_drawn 2 true false = Ok s /\ (forall e, Permutation (torch_drawn e) (seq 0 5)) /\
  map (nth_call 5 torch_get torch_drawn 2 true false s) (seq 0 7) =
  [Ok [140; 110]; Ok [100; 130]; Err EOther; Err EOther; Ok [100; 140]; Ok [130]; Err EOther].
Proof.
  eexists. split; [vm_compute; reflexivity|]. split; [|vm_compute; reflexivity].
  intros e. unfold torch_drawn. destruct (e =? 0).
  - apply NoDup_Permutation; [repeat constructor; cbn; lia|apply seq_NoDup|]. intros x. cbn. lia.
  - apply NoDup_Permutation; [repeat constructor; cbn; lia|apply seq_NoDup|]. intros x. cbn. lia.
Qed.
Theorem C84_empty_refuted : exists s, start 0 (fun _ => []) 2 true false = Ok s /\ nth_call 0 torch_get (fun _ => []) 2 true false s 0 = Err EStopIteration.
Proof. eexists. split; reflexivity. Qed.
Print Assumptions C84_epochs.
