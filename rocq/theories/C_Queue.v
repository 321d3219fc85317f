(** * C49: the queue of best parameters. *)
From Coq Require Import String Ascii ZArith Lia Bool List Permutation Sorted.
From Verif Require Import Prelude M_Train C_Lookup.
Import ListNotations.

Section Queue.
Context {V D : Type}.
Variable ltb : V -> V -> bool.
(** [<] is a strict weak order (true of floats without NaN). *)
Hypothesis lt_irrefl : forall a, ltb a a = false.
Hypothesis lt_trans : forall a b c, ltb a b = true -> ltb b c = true -> ltb a c = true.
Hypothesis lt_weak : forall a b c, ltb a b = true -> ltb a c = true \/ ltb c b = true.
Notation elt := (V * D)%type.

(** Entry [i] of the history is better than entry [j]: smaller value, or the same value and earlier. *)
Definition better (h : list elt) (i j : nat) : Prop :=
  exists x y, nth_error h i = Some x /\ nth_error h j = Some y /\
    (ltb (fst x) (fst y) = true \/ (ltb (fst y) (fst x) = false /\ (i < j)%nat)).

(** [l] is the best [k] entries of the history [h] (all of them if there are fewer), best first. *)
Definition best (k : nat) (h l : list elt) : Prop :=
  exists ps, length ps = Nat.min k (length h) /\ map (nth_error h) ps = map Some l /\
    StronglySorted (better h) ps /\
    forall i j, In i ps -> (j < length h)%nat -> ~ In j ps -> better h i j.

Notation insert := (@insert_sorted V D ltb).
Notation sort := (@py_sort V D ltb).

Lemma insert_length x l : length (insert x l) = S (length l).
Proof. induction l as [|y l IH]; cbn; auto. destruct (ltb (fst x) (fst y)); cbn; auto. Qed.

(** No entry is followed by a smaller one. *)
Definition sorted (l : list elt) : Prop := StronglySorted (fun x y => ltb (fst y) (fst x) = false) l.

Lemma insert_In x y l : In y (insert x l) <-> y = x \/ In y l.
Proof.
  induction l as [|z l IH]; cbn; [intuition|]. destruct (ltb (fst x) (fst z)); cbn; rewrite ?IH; intuition.
Qed.

Lemma lt_asym a b : ltb a b = true -> ltb b a = false.
Proof. intros H. destruct (ltb b a) eqn:E; auto. rewrite <- (lt_irrefl a). symmetry. eapply lt_trans; eauto. Qed.

Lemma insert_sorted_ok x l : sorted l -> sorted (insert x l).
Proof.
  induction 1 as [|y l S IH F]; cbn [insert_sorted].
  - constructor; constructor.
  - destruct (ltb (fst x) (fst y)) eqn:E.
    + constructor; [constructor; auto|]. constructor; [now apply lt_asym|].
      rewrite Forall_forall in F |- *. intros z Hz. specialize (F z Hz).
      destruct (lt_weak (fst x) (fst y) (fst z) E) as [Q|Q]; [now apply lt_asym|congruence].
    + constructor; auto. rewrite Forall_forall in F |- *. intros z Hz. apply insert_In in Hz. destruct Hz as [->|Hz]; auto.
Qed.

Lemma sort_snoc l x : sort (l ++ [x]) = insert x (sort l).
Proof. unfold py_sort. now rewrite fold_left_app. Qed.
Lemma sort_sorted l : sorted (sort l).
Proof. induction l as [|x l IH] using rev_ind; [constructor|]. rewrite sort_snoc. now apply insert_sorted_ok. Qed.
Lemma sort_length l : length (sort l) = length l.
Proof. induction l as [|x l IH] using rev_ind; [reflexivity|]. rewrite sort_snoc, insert_length, app_length, IH. cbn. lia. Qed.

Lemma insert_last x l : (forall y, In y l -> ltb (fst x) (fst y) = false) -> insert x l = l ++ [x].
Proof.
  induction l as [|y l IH]; intros H; cbn; [reflexivity|]. rewrite (H y (or_introl eq_refl)), IH; auto.
  intros z Hz. apply H. now right.
Qed.
Lemma sort_id l : sorted l -> sort l = l.
Proof.
  induction l as [|x l IH] using rev_ind; intros S; [reflexivity|]. rewrite sort_snoc.
  assert (Sl : sorted l /\ forall y, In y l -> ltb (fst x) (fst y) = false).
  { clear IH. induction l as [|y l IH]; [split; [constructor|intros ? []]|]. inversion S as [|? ? S' F]; subst.
    destruct (IH S') as [A B]. rewrite Forall_forall in F. split.
    - constructor; auto. apply Forall_forall. intros z Hz. apply F. apply in_app_iff. auto.
    - intros z [<-|Hz]; auto. apply F. apply in_app_iff. right. now left. }
  rewrite IH by tauto. apply insert_last. tauto.
Qed.

Lemma sorted_firstn k l : sorted l -> sorted (firstn k l).
Proof.
  intros S. revert k. induction S as [|x l S IH F]; intros [|k]; cbn; try (constructor; fail).
  constructor; [apply IH|]. rewrite Forall_forall in F |- *. intros z Hz. apply F. rewrite <- (firstn_skipn k l). apply in_app_iff. auto.
Qed.

(** Inserting before position [k]. *)
Lemma insert_cut x l k : forall w, sorted l -> nth_error l k = Some w ->
  (ltb (fst x) (fst w) = true -> firstn (S k) (insert x l) = insert x (firstn k l)) /\
  (ltb (fst x) (fst w) = false -> firstn (S k) (insert x l) = firstn (S k) l).
Proof.
  revert k. induction l as [|y l IH]; intros k w S H; [destruct k; discriminate|]. inversion S as [|? ? S' F]; subst.
  cbn [insert_sorted]. destruct k as [|k].
  - cbn in H. injection H as ->. split; intros E; rewrite E; reflexivity.
  - cbn [nth_error] in H. destruct (IH k w S' H) as [A B].
    destruct (ltb (fst x) (fst y)) eqn:Ey.
    + split; intros E.
      * cbn [firstn insert_sorted]. rewrite Ey. reflexivity.
      * exfalso. rewrite Forall_forall in F. assert (In w l) by (eapply nth_error_In; eauto). specialize (F _ H0).
        destruct (lt_weak _ _ (fst w) Ey); congruence.
    + split; intros E.
      * cbn [firstn insert_sorted]. rewrite Ey. f_equal. rewrite <- (A E). reflexivity.
      * change (firstn (Datatypes.S (Datatypes.S k)) (y :: insert x l)) with (y :: firstn (Datatypes.S k) (insert x l)).
        rewrite (B E). reflexivity.
Qed.

Lemma q_run_firstn k h : (0 < k)%nat -> q_run ltb k h = Ok (firstn k (sort h)).
Proof.
  intros Hk. unfold q_run. induction h as [|x h IH] using rev_ind; [destruct k; reflexivity|].
  assert (FA : forall l (a : list elt) y, foldM (q_insert ltb k) a (l ++ [y]) =
    do b <- foldM (q_insert ltb k) a l; q_insert ltb k b y).
  { clear. induction l as [|z l IH]; intros a y; cbn [app foldM].
    - cbn [bind]. destruct (q_insert ltb k a y); reflexivity.
    - destruct (q_insert ltb k a z); cbn [bind]; auto. }
  rewrite FA, IH. cbn [bind]. unfold q_insert. rewrite firstn_length, sort_length.
  rewrite (sort_snoc h x). pose proof (sort_sorted h) as S. pose proof (sort_length h) as L.
  destruct (Nat.ltb_spec (Nat.min k (length h)) k) as [Hl|Hl].
  - rewrite (firstn_all2 (sort h)) by lia. rewrite sort_snoc, (sort_id (sort h)) by auto.
    rewrite firstn_all2; [reflexivity|]. rewrite insert_length. lia.
  - destruct k as [|k]; [lia|].
    destruct (nth_error (sort h) k) as [w|] eqn:Ew; [|apply nth_error_None in Ew; lia].
    assert (E : firstn (Datatypes.S k) (sort h) = firstn k (sort h) ++ [w]).
    { clear - Ew. revert k Ew. generalize (sort h). induction l as [|y l IH]; intros k H; [destruct k; discriminate|].
      destruct k as [|k]; [cbn in *; congruence|]. cbn [nth_error] in H. change (firstn (Datatypes.S (Datatypes.S k)) (y :: l)) with (y :: firstn (Datatypes.S k) l).
      rewrite (IH k H). reflexivity. }
    destruct (insert_cut x (sort h) k w S Ew) as [A B].
    rewrite E, rev_app_distr. cbn [rev app]. destruct (ltb (fst x) (fst w)) eqn:Ex.
    + rewrite rev_involutive, sort_snoc, (sort_id (firstn k (sort h))) by (now apply sorted_firstn). rewrite A; auto.
    + rewrite B by auto. now rewrite E.
Qed.

(** *** The sorted history consists of all entries, better ones first. *)
Lemma StronglySorted_app_inv {X} (R : X -> X -> Prop) l1 l2 : StronglySorted R (l1 ++ l2) ->
  StronglySorted R l1 /\ StronglySorted R l2 /\ forall a b, In a l1 -> In b l2 -> R a b.
Proof.
  induction l1 as [|x l1 IH]; cbn; intros H; [split; [constructor|split; auto; intros ? ? []]|].
  inversion H as [|? ? H' F]; subst. destruct (IH H') as (A & B & C). rewrite Forall_forall in F. split; [|split; auto].
  - constructor; auto. apply Forall_forall. intros z Hz. apply F, in_app_iff. auto.
  - intros a b [<-|Ha] Hb; auto. apply F, in_app_iff. auto.
Qed.

Lemma better_snoc h x i j : better h i j -> better (h ++ [x]) i j.
Proof.
  intros (a & b & A & B & C). exists a, b. split; [|split; auto]; rewrite nth_error_app1; auto; apply nth_error_Some; congruence.
Qed.

Lemma insert_split x l : sorted l -> exists a1 a2, l = a1 ++ a2 /\ insert x l = a1 ++ x :: a2 /\
  (forall y, In y a1 -> ltb (fst x) (fst y) = false) /\ (forall y, In y a2 -> ltb (fst x) (fst y) = true).
Proof.
  induction 1 as [|y l SS IH F].
  - exists [], []. split; [reflexivity|]. split; [reflexivity|]. split; intros ? [].
  - cbn [insert_sorted]. destruct (ltb (fst x) (fst y)) eqn:Ey.
    + exists [], (y :: l). split; [reflexivity|]. split; [reflexivity|]. split; [intros ? []|].
      intros z [<-|Hz]; auto. rewrite Forall_forall in F. specialize (F z Hz).
      destruct (lt_weak _ _ (fst z) Ey); congruence.
    + destruct IH as (a1 & a2 & -> & -> & A & B). exists (y :: a1), a2. split; [reflexivity|]. split; [reflexivity|].
      split; [|auto]. intros z [<-|Hz]; auto.
Qed.

Lemma SS_app {X} (R : X -> X -> Prop) l1 l2 : StronglySorted R l1 -> StronglySorted R l2 ->
  (forall a b, In a l1 -> In b l2 -> R a b) -> StronglySorted R (l1 ++ l2).
Proof.
  induction 1 as [|x l1 S IH F]; cbn; auto. intros S2 H. constructor; [apply IH; auto; intros; apply H; auto; now right|].
  rewrite Forall_forall in F |- *. intros z Hz. apply in_app_iff in Hz. destruct Hz; [now apply F|]. apply H; [now left|auto].
Qed.
Lemma SS_impl {X} (R Q : X -> X -> Prop) l : (forall a b, R a b -> Q a b) -> StronglySorted R l -> StronglySorted Q l.
Proof. intros H. induction 1 as [|x l S IH F]; constructor; auto. rewrite Forall_forall in F |- *. auto. Qed.

Lemma nth_of (h : list elt) ps a p : map (nth_error h) ps = map Some a -> In p ps -> exists y, nth_error h p = Some y /\ In y a.
Proof.
  intros E Hp. apply (in_map (nth_error h)) in Hp. rewrite E in Hp. apply in_map_iff in Hp. destruct Hp as (y & Ey & Hy). eauto.
Qed.

Lemma sort_positions (h : list elt) : exists ps, Permutation ps (seq 0 (length h)) /\ map (nth_error h) ps = map Some (sort h) /\
  StronglySorted (better h) ps.
Proof.
  induction h as [|x h (ps & P & E & S)] using rev_ind.
  - exists []. split; [constructor|]. split; [reflexivity|constructor].
  - rewrite sort_snoc, app_length. cbn [length]. rewrite Nat.add_1_r, seq_S. cbn [Nat.add].
    assert (B : forall p, In p ps -> (p < length h)%nat).
    { intros p Hp. apply (Permutation_in _ P) in Hp. apply in_seq in Hp. lia. }
    assert (Ex : nth_error (h ++ [x]) (length h) = Some x) by (rewrite nth_error_app2, Nat.sub_diag by lia; reflexivity).
    destruct (insert_split x (sort h) (sort_sorted h)) as (a1 & a2 & E1 & E2 & A1 & A2).
    rewrite E1, map_app in E. apply map_eq_app in E. destruct E as (l1 & l2 & -> & M1 & M2).
    destruct (StronglySorted_app_inv _ _ _ S) as (S1 & S2 & S12).
    assert (EX : forall l, (forall p, In p l -> (p < length h)%nat) -> map (nth_error (h ++ [x])) l = map (nth_error h) l).
    { intros l Hl. apply map_ext_in. intros p Hp. apply nth_error_app1. auto. }
    exists (l1 ++ length h :: l2). split; [|split].
    + rewrite <- Permutation_middle. rewrite P. apply Permutation_cons_append.
    + rewrite E2, !map_app. cbn [map]. rewrite Ex, !EX by (intros; apply B, in_app_iff; auto). congruence.
    + apply SS_app.
      * eapply SS_impl; [|exact S1]. intros; now apply better_snoc.
      * constructor; [eapply SS_impl; [|exact S2]; intros; now apply better_snoc|].
        apply Forall_forall. intros p Hp. destruct (nth_of _ _ _ _ M2 Hp) as (y & Y1 & Y2).
        exists x, y. split; auto. split; [rewrite nth_error_app1; auto; apply B, in_app_iff; auto|]. left. auto.
      * intros a b Ha [<-|Hb]; [|now apply better_snoc, S12].
        destruct (nth_of _ _ _ _ M1 Ha) as (y & Y1 & Y2). exists y, x.
        assert (La : (a < length h)%nat) by (apply B, in_app_iff; auto).
        split; [rewrite nth_error_app1; auto|]. split; [auto|]. right. auto.
Qed.

(** C49.  After every history of insertions the queue holds the best entries, in order. *)
Theorem C49_queue_best k h : (0 < k)%nat -> exists l, q_run ltb k h = Ok l /\ best k h l.
Proof.
  intros Hk. exists (firstn k (sort h)). split; [now apply q_run_firstn|].
  destruct (sort_positions h) as (ps & P & E & S). exists (firstn k ps).
  assert (L : length ps = length h) by (rewrite (Permutation_length P); apply seq_length).
  rewrite <- (firstn_skipn k ps) in S. destruct (StronglySorted_app_inv _ _ _ S) as (S1 & S2 & S12).
  split; [rewrite firstn_length; lia|]. split; [|split; auto].
  - rewrite <- !firstn_map, E. reflexivity.
  - intros i j Hi Hj Nj. apply S12; auto.
    assert (Hp : In j ps) by (apply (Permutation_in _ (Permutation_sym P)), in_seq; lia).
    rewrite <- (firstn_skipn k ps) in Hp. apply in_app_iff in Hp. tauto.
Qed.

(** The specification determines the contents. *)
Theorem C49_best_unique k h l1 l2 : best k h l1 -> best k h l2 -> l1 = l2.
Proof.
  intros (ps & L1 & M1 & S1 & O1) (qs & L2 & M2 & S2 & O2).
  assert (AS : forall i j, better h i j -> better h j i -> False).
  { intros i j (x & y & X & Y & C) (y' & x' & Y' & X' & C'). assert (x' = x) by congruence. assert (y' = y) by congruence. subst.
    destruct C as [C|[C1 C2]], C' as [C'|[C1' C2']]; try congruence; try lia.
    rewrite (lt_asym _ _ C) in C'. discriminate. }
  assert (ND : forall l, StronglySorted (better h) l -> NoDup l).
  { induction 1 as [|x l Sl IH F]; constructor; auto. intros Hx. rewrite Forall_forall in F. specialize (F x Hx).
    exact (AS _ _ F F). }
  assert (BD : forall rs l, map (nth_error h) rs = map Some l -> forall i, In i rs -> (i < length h)%nat).
  { intros rs l M i Hi. destruct (nth_of _ _ _ _ M Hi) as (y & Y & _). apply nth_error_Some. congruence. }
  assert (IN : forall i, In i ps -> In i qs).
  { intros i Hi. destruct (in_dec Nat.eq_dec i qs) as [|N]; auto. exfalso.
    (* some j in qs is not in ps *)
    assert (EXJ : exists j, In j qs /\ ~ In j ps).
    { destruct (Exists_dec (fun j => ~ In j ps) qs) as [X|X].
      - intros j. destruct (in_dec Nat.eq_dec j ps); [right|left]; tauto.
      - apply Exists_exists in X. auto.
      - exfalso. assert (incl (i :: qs) ps).
        { intros z [<-|Hz]; auto. destruct (in_dec Nat.eq_dec z ps); auto. exfalso. apply X, Exists_exists. eauto. }
        assert (NoDup (i :: qs)) by (constructor; auto). apply NoDup_incl_length in H; auto. cbn in H. lia. }
    destruct EXJ as (j & J1 & J2). apply (AS i j); [apply O1|apply O2]; eauto. }
  assert (IN' : forall i, In i qs -> In i ps).
  { assert (incl qs ps); auto. apply NoDup_length_incl; auto; lia. }
  assert (EQ : ps = qs).
  { clear - S1 S2 IN IN' AS ND. revert qs S2 IN IN'. induction S1 as [|p ps S1 IH F]; intros qs S2 IN IN'.
    - destruct qs as [|q qs]; auto. destruct (IN' q (or_introl eq_refl)).
    - destruct S2 as [|q qs S2 F2]; [destruct (IN p (or_introl eq_refl))|].
      rewrite Forall_forall in F, F2.
      assert (p = q).
      { destruct (IN p (or_introl eq_refl)) as [E|E]; auto. destruct (IN' q (or_introl eq_refl)) as [E'|E']; auto.
        exfalso. apply (AS p q); auto. }
      subst q. f_equal.
      assert (NP : ~ In p ps) by (intros X; specialize (F p X); exact (AS _ _ F F)).
      assert (NQ : ~ In p qs) by (intros X; specialize (F2 p X); exact (AS _ _ F2 F2)).
      apply IH; auto.
      + intros i Hi. destruct (IN i (or_intror Hi)) as [<-|]; auto. contradiction.
      + intros i Hi. destruct (IN' i (or_intror Hi)) as [<-|]; auto. contradiction. }
  subst qs. rewrite M1 in M2. clear - M2. revert l2 M2. induction l1 as [|a l1 IH]; intros [|b l2] M; cbn in M; try discriminate; auto.
  injection M as -> M. f_equal. auto.
Qed.

(** A queue of capacity zero raises at the first insertion. *)
Theorem C49_capacity_zero (x : elt) h : q_run ltb 0 (x :: h) = Err EIndex.
Proof. reflexivity. Qed.
End Queue.

(** C49.  Without tracked metrics the callback keeps the parameters of the last [k] episodes, newest first. *)
Theorem C49_last_params {D} (huge : Z) (k : nat) (params : list D) every : (0 < k)%nat ->
  q_run Z.ltb k (map (fun ip => (save_value huge None every (fst ip), snd ip)) (enum params)) =
  Ok (firstn k (rev (map (fun ip => (- Z.of_nat (S (fst ip)), snd ip)) (enum params))))%Z.
Proof.
  intros Hk.
  assert (A1 : forall a, (a <? a)%Z = false) by apply Z.ltb_irrefl.
  assert (A2 : forall a b c, (a <? b)%Z = true -> (b <? c)%Z = true -> (a <? c)%Z = true) by (intros a b c; rewrite !Z.ltb_lt; lia).
  assert (A3 : forall a b c, (a <? b)%Z = true -> (a <? c)%Z = true \/ (c <? b)%Z = true) by (intros a b c; rewrite !Z.ltb_lt; lia).
  rewrite (q_run_firstn Z.ltb A1 A2 A3) by auto. clear A1 A2 A3.
  do 2 f_equal. unfold save_value. induction params as [|p params IH] using rev_ind; [reflexivity|].
    unfold enum. rewrite enum_from_app. cbn [enum_from Nat.add]. rewrite !map_app, rev_app_distr. cbn [map rev app fst snd].
    rewrite sort_snoc. fold (enum params). rewrite IH.
    destruct (rev (map (fun ip => ((- Z.of_nat (S (fst ip)))%Z, snd ip)) (enum params))) as [|(v, d) r] eqn:E; [reflexivity|].
    cbn [insert_sorted fst]. replace (- Z.of_nat (S (length params)) <? v)%Z with true; [reflexivity|].
    symmetry. apply Z.ltb_lt. assert (X : In (v, d) (rev (map (fun ip => ((- Z.of_nat (S (fst ip)))%Z, snd ip)) (enum params)))) by (rewrite E; now left).
    apply in_rev, in_map_iff in X. destruct X as ((i & p') & X1 & X2). cbn in X1. injection X1 as <- <-.
    apply enum_In in X2. assert (i < length params)%nat by (apply nth_error_Some; congruence). lia.
Qed.

(** With tracked metrics, parameters of episodes that were not evaluated fill the queue until it is full:
    the queue of capacity 2 below holds the evaluated entry and an unevaluated one with value 1e16. *)
Theorem C49_unevaluated_refuted : exists (params : list nat) l,
  q_run Z.ltb 2 (map (fun ip => (save_value (10 ^ 16) (Some (fun _ => 3%Z)) 5 (fst ip), snd ip)) (enum params)) = Ok l /\
  In ((10 ^ 16)%Z, 11%nat) l.
Proof. exists [10; 11; 12]%nat. eexists. split; [vm_compute; reflexivity|]. right. left. vm_compute. reflexivity. Qed.

Example C49_example :
  q_run (D := string) Z.ltb 3 [(5, "a"); (2, "b"); (5, "c"); (9, "d"); (2, "e"); (1, "f")]%Z%string = Ok [(1, "f"); (2, "b"); (2, "e")]%Z%string.
Proof. reflexivity. Qed.
Print Assumptions C49_queue_best.
Print Assumptions C49_last_params.
