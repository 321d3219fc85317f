(** * Property C41: epochs of the eager generator *)
From Coq Require Import String ZArith Lia Bool Arith Permutation List.
From Verif Require Import Prelude M_Util C_Util C_Union M_Gen.
Import ListNotations.
Local Open Scope nat_scope.

Section Eager.
Context {A : Type}.
Notation event := (@event A).
(** ** Specification *)
(** Shuffling permutes; the rest of the program cannot reach the generator's own list object [own]. *)
Definition allowed_event (own : nat) (e : event) : Prop :=
  match e with Call sh => forall l, Permutation (sh l) l | Assign a _ => a < own end.
Definition is_call (e : event) : bool := match e with Call _ => true | _ => false end.
(** What the rest of the program does to the heap. *)
Definition assigns (heap : list (list A)) (es : list event) : list (list A) :=
  fold_left (fun h e => match e with Assign a l => set_at h a l | Call _ => h end) es heap.
Definition slice (bs i : nat) (l : list A) : list A := firstn bs (skipn (i * bs) l).

(** ** Proofs *)
Definition shuffles (es : list event) : list (list A -> list A) := flat_map (fun e => match e with Call sh => [sh] | _ => [] end) es.
Fixpoint serve (N bs : nat) (shuffle : bool) (cur : list A) (i : nat) (shs : list (list A -> list A)) : list (list A) :=
  match shs with
  | [] => []
  | sh :: r => let cur' := if shuffle && (i =? 0) then sh cur else cur in slice bs i cur' :: serve N bs shuffle cur' ((i + 1) mod N) r
  end.
Lemma shuffles_calls es : length (shuffles es) = length (filter is_call es).
Proof. unfold shuffles. induction es as [|[sh|a l] es IH]; cbn; auto. Qed.
Lemma slices_concat bs : forall n l, n * bs <= length l -> concat (map (fun i => slice bs i l) (seq 0 n)) = firstn (n * bs) l.
Proof.
  intros n l H. rewrite <- (chunks_concat bs n (firstn (n * bs) l)) by (rewrite firstn_length; lia). f_equal. apply map_ext_in. intros i Hi. apply in_seq in Hi. unfold slice.
  rewrite skipn_firstn_comm, firstn_firstn. f_equal. nia.
Qed.
Lemma run_serve shuffle N bs : 1 <= N -> 1 <= bs -> forall es heap own cur i,
  nth_error heap own = Some cur -> N * bs <= length cur -> i < N -> Forall (allowed_event own) es ->
  exists g', eager_run shuffle (mkGen heap own bs N i) es = Ok (g', serve N bs shuffle cur i (shuffles es)) /\ length (g_heap g') = length heap /\
    forall a, a <> own -> nth_error (g_heap g') a = nth_error (assigns heap es) a.
Proof.
  intros HN Hb. induction es as [|e es IH]; intros heap own cur i Hc Lc Hi F; cbn [eager_run].
  - eexists. split; [reflexivity|]. split; reflexivity.
  - inversion F as [|? ? He F']; subst. assert (Lo : own < length heap) by (apply nth_error_Some; congruence). destruct e as [sh|a l].
    + unfold eager_call. cbn [g_heap g_addr g_i g_batchsize g_n]. rewrite Hc. set (cur' := if shuffle && (i =? 0) then sh cur else cur).
      assert (Lc' : length cur' = length cur) by (unfold cur'; destruct (shuffle && (i =? 0)); [apply Permutation_length, He|reflexivity]).
      destruct (firstn bs (skipn (i * bs) cur')) as [|b0 bt] eqn:EB.
      { exfalso. assert (X : length (firstn bs (skipn (i * bs) cur')) = 0) by now rewrite EB. rewrite firstn_length, skipn_length in X. nia. }
      destruct (Nat.eqb_spec N 0); [lia|]. cbn [bind fst snd].
      assert (Hc' : nth_error (set_at heap own cur') own = Some cur').
      { rewrite (nth_error_nth' _ []) by (rewrite set_at_length; auto). now rewrite set_at_nth, Nat.eqb_refl by auto. }
      destruct (IH (set_at heap own cur') own cur' ((i + 1) mod N) Hc' ltac:(lia) ltac:(apply Nat.mod_upper_bound; lia) F') as (g' & E & Lg & O).
      exists g'. rewrite E. cbn [bind fst snd]. split.
      * unfold shuffles. cbn [flat_map app serve]. fold cur'. unfold slice. rewrite EB. reflexivity.
      * split; [rewrite Lg; now apply set_at_length|]. intros a Na. rewrite O by auto. unfold assigns. cbn [fold_left].
        clear - Na Lo F'. clearbody cur'. generalize dependent cur'. intros cur'. revert heap Lo. induction es as [|[sh'|b l] es IHes]; intros heap Lo; cbn [fold_left]; [now apply set_at_nth_error|inversion F'; auto|]. inversion F' as [|? ? Hb F2]; subst. cbn in Hb.
        replace (set_at (set_at heap own cur') b l) with (set_at (set_at heap b l) own cur'); [apply IHes; auto; rewrite set_at_length; lia|].
        apply nth_error_ext. intros j. destruct (Nat.lt_ge_cases j (length heap)) as [Lj|Lj].
        -- rewrite !(nth_error_nth' _ []) by (rewrite ?set_at_length; rewrite ?set_at_length; lia). f_equal. rewrite !set_at_nth by (rewrite ?set_at_length; lia).
           destruct (Nat.eqb_spec j own), (Nat.eqb_spec j b); auto. lia.
        -- rewrite !(proj2 (nth_error_None _ _)); auto; rewrite ?set_at_length; rewrite ?set_at_length; lia.
    + cbn in He. cbn [g_heap g_addr g_i g_batchsize g_n]. destruct (IH (set_at heap a l) own cur i) as (g' & E & Lg & O); auto.
      { rewrite set_at_nth_error by lia. exact Hc. }
      exists g'. split; [exact E|]. split; [rewrite Lg; apply set_at_length; lia|]. exact O.
Qed.
Lemma serve_length N bs shuffle : forall (shs : list (list A -> list A)) (cur : list A) i, length (serve N bs shuffle cur i shs) = length shs.
Proof. induction shs as [|sh shs IH]; intros cur i; [reflexivity|]. cbn [serve length]. now rewrite IH. Qed.
Lemma serve_rest N bs shuffle cur' : forall k i shs, 1 <= i -> i + k = N -> k <= length shs ->
  firstn k (serve N bs shuffle cur' i shs) = map (fun j => slice bs j cur') (seq i k) /\ skipn k (serve N bs shuffle cur' i shs) = serve N bs shuffle cur' (if k =? 0 then i else 0) (skipn k shs).
Proof.
  induction k as [|k IH]; intros i shs Hi HN Hk; [auto|]. destruct shs as [|sh shs]; [cbn in Hk; lia|]. cbn [serve firstn skipn seq map length] in *. destruct (Nat.eqb_spec i 0); [lia|]. rewrite andb_false_r.
  destruct (Nat.eq_dec k 0) as [->|Nk].
  - replace (i + 1) with N by lia. rewrite Nat.mod_same by lia. auto.
  - rewrite Nat.mod_small by lia. replace (i + 1) with (S i) by lia. destruct (IH (S i) shs) as [E1 E2]; [lia|lia|lia|]. split; [f_equal; exact E1|]. rewrite E2. destruct (Nat.eqb_spec k 0); [lia|reflexivity].
Qed.
Lemma serve_epoch N bs (shuffle : bool) (cur : list A) (sh : list A -> list A) shs : 1 <= N -> N <= length (sh :: shs) -> let cur' := if shuffle then sh cur else cur in
  firstn N (serve N bs shuffle cur 0 (sh :: shs)) = map (fun j => slice bs j cur') (seq 0 N) /\
  skipn N (serve N bs shuffle cur 0 (sh :: shs)) = serve N bs shuffle cur' 0 (skipn N (sh :: shs)).
Proof.
  intros HN HL cur'. destruct N as [|k]; [lia|]. cbn [serve firstn skipn seq map length] in *. rewrite Nat.eqb_refl, andb_true_r. fold cur'.
  destruct (Nat.eq_dec k 0) as [->|Nk]; [cbn [firstn skipn seq map]; rewrite Nat.mod_1_r; auto|].
  rewrite (Nat.mod_small (0 + 1)) by lia. cbn [Nat.add]. destruct (serve_rest (S k) bs shuffle cur' k 1 shs) as [E1 E2]; [lia|lia|lia|]. split; [f_equal; exact E1|]. rewrite E2. destruct (Nat.eqb_spec k 0); [lia|reflexivity].
Qed.
Lemma skipn_skipn_add {B} (l : list B) : forall a b, skipn a (skipn b l) = skipn (b + a) l.
Proof. induction l as [|x l IH]; intros a b; [now rewrite !skipn_nil|]. destruct b as [|b]; [reflexivity|]. cbn [skipn Nat.add]. apply IH. Qed.
Lemma nth_error_skipn_add {B} (l : list B) : forall k j, nth_error (skipn k l) j = nth_error l (k + j).
Proof. induction l as [|x l IH]; intros [|k] j; cbn [skipn Nat.add nth_error]; auto. now destruct j. Qed.
Lemma serve_epochs N bs (shuffle : bool) (data : list A) : 1 <= N -> N * bs <= length data -> forall e shs cur, Permutation cur data -> (shuffle = false -> cur = data) -> Forall (fun sh => forall l, Permutation (sh l) l) shs -> (S e) * N <= length shs ->
  exists order, Permutation order data /\ (shuffle = false -> order = data) /\ firstn N (skipn (e * N) (serve N bs shuffle cur 0 shs)) = map (fun j => slice bs j order) (seq 0 N).
Proof.
  intros HN HD. induction e as [|e IH]; intros shs cur HP HS HF HL.
  - destruct shs as [|sh shs]; [cbn in HL; lia|]. inversion HF as [|? ? Hsh HF']; subst. exists (if shuffle then sh cur else cur). split; [destruct shuffle; [eapply perm_trans; [apply Hsh|exact HP]|exact HP]|]. split; [intros ->; auto|].
    cbn [Nat.mul skipn]. apply serve_epoch; auto. lia.
  - destruct shs as [|sh shs]; [cbn in HL; lia|]. inversion HF as [|? ? Hsh HF']; subst.
    destruct (serve_epoch N bs shuffle cur sh shs HN ltac:(nia)) as [_ E2]. destruct (IH (skipn N (sh :: shs)) (if shuffle then sh cur else cur)) as (o & P & S & E).
    + destruct shuffle; [eapply perm_trans; [apply Hsh|exact HP]|exact HP].
    + intros ->. auto.
    + apply Forall_forall. intros x Hx. rewrite Forall_forall in HF. apply HF. rewrite <- (firstn_skipn N (sh :: shs)). apply in_or_app. now right.
    + rewrite skipn_length. nia.
    + exists o. split; [exact P|]. split; [exact S|]. rewrite <- E, <- E2, skipn_skipn_add. cbn [Nat.mul]. reflexivity.
Qed.
Lemma shuffles_perm own es : Forall (allowed_event own) es -> Forall (fun sh => forall l, Permutation (sh l) l) (shuffles es).
Proof. unfold shuffles. induction 1 as [|[sh|a l] es He F IH]; cbn; auto. Qed.

(** Every history of calls and of assignments to other lists succeeds; one batch per call; the batches of each complete
    epoch are the consecutive slices of one arrangement of the original list, so together they hold all its elements but
    fewer than [bs], each once; without shuffling the arrangement is the list itself. *)
Theorem C41_epochs shuffle (heap : list (list A)) addr data bs es : nth_error heap addr = Some data -> 1 <= bs -> bs <= length data -> Forall (allowed_event (length heap)) es ->
  exists g g' out, eager_gen_from_list heap addr bs = Ok g /\ eager_run shuffle g es = Ok (g', out) /\
  let N := length data / bs in
  length out = length (filter is_call es) /\
  forall e, (e + 1) * N <= length out -> exists order, Permutation order data /\ (shuffle = false -> order = data) /\
    (forall j, j < N -> nth_error out (e * N + j) = Some (slice bs j order)) /\
    exists left, length left < bs /\ Permutation (concat (firstn N (skipn (e * N) out)) ++ left) data.
Proof.
  intros Hd Hb HL F. set (N := length data / bs). assert (HN : 1 <= N) by (apply Nat.div_le_lower_bound; lia).
  assert (NB : N * bs <= length data) by (unfold N; rewrite Nat.mul_comm; apply Nat.mul_div_le; lia).
  assert (NR : length data < N * bs + bs) by (unfold N; pose proof (Nat.mul_succ_div_gt (length data) bs ltac:(lia)); lia).
  unfold eager_gen_from_list. rewrite Hd. destruct (Nat.eqb_spec bs 0); [lia|]. fold N.
  assert (Hc : nth_error (heap ++ [data]) (length heap) = Some data) by (rewrite nth_error_app2, Nat.sub_diag by lia; reflexivity).
  destruct (run_serve shuffle N bs HN Hb es (heap ++ [data]) (length heap) data 0 Hc NB ltac:(lia) F) as (g' & E & _ & _).
  eexists _, g', _. split; [reflexivity|]. split; [exact E|]. cbv zeta. rewrite serve_length, shuffles_calls. split; [reflexivity|]. intros e He. rewrite <- shuffles_calls in He.
  destruct (serve_epochs N bs shuffle data HN NB e (shuffles es) data (Permutation_refl _) (fun _ => eq_refl) (shuffles_perm _ _ F)) as (order & P & S & EE); [lia|].
  exists order. split; [exact P|]. split; [exact S|]. split.
  - intros j Hj. assert (X : nth_error (firstn N (skipn (e * N) (serve N bs shuffle data 0 (shuffles es)))) j = Some (slice bs j order)).
    { rewrite EE, nth_error_map. rewrite (nth_error_nth' _ 0) by (rewrite seq_length; auto). now rewrite seq_nth by auto. }
    rewrite nth_error_firstn_lt in X by auto. rewrite nth_error_skipn_add in X. exact X.
  - exists (skipn (N * bs) order). pose proof (Permutation_length P) as PL. split; [rewrite skipn_length; lia|]. rewrite EE, slices_concat by lia. now rewrite firstn_skipn.
Qed.
(** No list object of the rest of the program changes except by its own assignments; in particular the list the generator
    was made from. *)
Theorem C41_others_unchanged shuffle (heap : list (list A)) addr data bs es g g' out : nth_error heap addr = Some data -> bs <= length data -> Forall (allowed_event (length heap)) es ->
  eager_gen_from_list heap addr bs = Ok g -> eager_run shuffle g es = Ok (g', out) ->
  forall a, a < length heap -> nth_error (g_heap g') a = nth_error (assigns heap es) a.
Proof.
  intros Hd HL F Hg H a Ha. unfold eager_gen_from_list in Hg. rewrite Hd in Hg. destruct (Nat.eqb_spec bs 0); [discriminate|]. injection Hg as <-. set (N := length data / bs) in *.
  assert (HN : 1 <= N) by (apply Nat.div_le_lower_bound; lia).
  assert (NB : N * bs <= length data) by (unfold N; rewrite Nat.mul_comm; apply Nat.mul_div_le; lia).
  assert (Hc : nth_error (heap ++ [data]) (length heap) = Some data) by (rewrite nth_error_app2, Nat.sub_diag by lia; reflexivity).
  destruct (run_serve shuffle N bs HN ltac:(lia) es (heap ++ [data]) (length heap) data 0 Hc NB ltac:(lia) F) as (g1 & E & _ & O). rewrite H in E. injection E as -> ->.
  rewrite O by lia. clear - F Ha. unfold assigns. generalize data. revert heap F Ha. 
  enough (G : forall es n (heap : list (list A)), Forall (allowed_event n) es -> n = length heap -> forall x, nth_error (fold_left (fun h e => match e with Assign a l => set_at h a l | Call _ => h end) es (heap ++ [x])) a = nth_error (fold_left (fun h e => match e with Assign a l => set_at h a l | Call _ => h end) es heap) a \/ n <= a).
  { intros heap F Ha x. destruct (G es (length heap) heap F eq_refl x) as [X|X]; [exact X|lia]. }
  intros es1 n heap F. revert heap. induction F as [|[sh|b l] es1 He F IH]; intros heap -> x; cbn [fold_left].
  - destruct (Nat.lt_ge_cases a (length heap)); [left; now apply nth_error_app1|now right].
  - apply IH; reflexivity.
  - cbn in He. replace (set_at (heap ++ [x]) b l) with (set_at heap b l ++ [x]); [apply IH; now rewrite set_at_length|].
    unfold set_at. rewrite firstn_app, skipn_app. replace (b - length heap) with 0 by lia. replace (S b - length heap) with 0 by lia. cbn [firstn skipn]. rewrite app_nil_r, <- app_assoc. reflexivity.
Qed.
(** With fewer elements than a batch the generator is built, and its first call fails. *)
Theorem C41_too_few shuffle (heap : list (list A)) addr data bs sh : nth_error heap addr = Some data -> length data < bs -> data <> [] -> (forall l, Permutation (sh l) l) ->
  exists g, eager_gen_from_list heap addr bs = Ok g /\ eager_call shuffle sh g = Err EZeroDiv.
Proof.
  intros Hd HL Hn Hs. unfold eager_gen_from_list. rewrite Hd. destruct (Nat.eqb_spec bs 0); [lia|]. eexists. split; [reflexivity|]. unfold eager_call. cbn [g_heap g_addr g_i g_batchsize g_n].
  rewrite nth_error_app2, Nat.sub_diag by lia. cbn [nth_error]. rewrite Nat.eqb_refl, andb_true_r. rewrite Nat.div_small by auto. cbn [Nat.mul skipn].
  destruct (firstn bs (if shuffle then sh data else data)) as [|b0 bt] eqn:E; [|reflexivity]. exfalso. assert (X : length (firstn bs (if shuffle then sh data else data)) = 0) by now rewrite E.
  rewrite firstn_length in X. assert (LL : length (if shuffle then sh data else data) = length data) by (destruct shuffle; [apply Permutation_length, Hs|reflexivity]). destruct data; [contradiction|]. cbn [length] in *. lia.
Qed.
End Eager.

(** Five elements in batches of two; shuffling reverses; the caller clears the list after the first call. *)
Example C41_example : exists g g' out, eager_gen_from_list [[1; 2; 3; 4; 5]] 0 2 = Ok g /\
  eager_run true g [Call (@rev nat); Assign 0 []; Call (@rev nat); Call (@rev nat); Call (@rev nat)] = Ok (g', out) /\
  out = [[5; 4]; [3; 2]; [1; 2]; [3; 4]] /\ nth_error (g_heap g') 0 = Some [] /\
  Forall (allowed_event 1) [Call (@rev nat); Assign 0 []; Call (@rev nat)].
Proof.
  exists (mkGen [[1; 2; 3; 4; 5]; [1; 2; 3; 4; 5]] 1 2 2 0), (mkGen [[]; [1; 2; 3; 4; 5]] 1 2 2 0), [[5; 4]; [3; 2]; [1; 2]; [3; 4]].
  split; [vm_compute; reflexivity|]. split; [vm_compute; reflexivity|]. split; [reflexivity|]. split; [reflexivity|].
  constructor; [intros l; apply Permutation_sym, Permutation_rev|]. constructor; [cbn; lia|]. constructor; [intros l; apply Permutation_sym, Permutation_rev|constructor].
Qed.
