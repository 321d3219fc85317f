(** * Depth-first numbering: what nesting link elements and reading them in document order does to indices. *)
From Coq Require Import String ZArith Lia Bool List Permutation Sorted.
From Verif Require Import Prelude M_Sys S_Sys S_Morph P_Tree P_Dfs.
Import ListNotations.
Local Open Scope Z_scope.

Section Order.
Variable np : list Z.
Notation n := (length np).

Definition kids (z : Z) : list nat := map fst (filter (fun ip => snd ip =? z) (enum np)).

Fixpoint number (k : nat) (is : list nat) (p' : Z) (idx : nat) {struct k} : list (nat * Z) :=
  match k with
  | 0%nat => []
  | S k' =>
      (fix go (is : list nat) (idx : nat) : list (nat * Z) :=
         match is with
         | [] => []
         | i :: r => let sub := number k' (kids (Z.of_nat i)) (Z.of_nat idx) (S idx) in
                     (i, p') :: sub ++ go r (S (idx + length sub))
         end) is idx
  end.
Lemma number_nil k p' idx : number k [] p' idx = []. Proof. destruct k; reflexivity. Qed.
Lemma number_cons k i r p' idx : number (S k) (i :: r) p' idx =
  let sub := number k (kids (Z.of_nat i)) (Z.of_nat idx) (S idx) in
  (i, p') :: sub ++ number (S k) r p' (S (idx + length sub)).
Proof. reflexivity. Qed.

Lemma in_kids i z : In i (kids z) <-> nth_error np i = Some z.
Proof.
  unfold kids. rewrite in_map_iff. split.
  - intros ((j & p) & <- & H). apply filter_In in H. destruct H as [H E]. cbn in E. apply Z.eqb_eq in E. subst p.
    apply In_nth_error in H. destruct H as [m H]. unfold enum in H. rewrite nth_error_enum_from in H.
    destruct (nth_error np m) eqn:X; [|discriminate]. injection H as <- <-. exact X.
  - intros H. exists (i, z). split; auto. apply filter_In. split; [|cbn; apply Z.eqb_refl].
    apply nth_error_In with (n := i). unfold enum. rewrite nth_error_enum_from, H. reflexivity.
Qed.

Lemma pre_kids k z : pre np (S k) z = flat_map (fun i => i :: pre np k (Z.of_nat i)) (kids z).
Proof.
  cbn [pre]. unfold kids, enum.
  assert (X : forall l off, l = skipn off np -> 
    flat_map (fun i => match nth_error np i with Some p => if p =? z then i :: pre np k (Z.of_nat i) else [] | None => [] end) (seq off (length l))
    = flat_map (fun i => i :: pre np k (Z.of_nat i)) (map fst (filter (fun ip => snd ip =? z) (enum_from off l)))).
  { induction l as [|p l IH]; intros off E; [reflexivity|]. cbn [length seq flat_map enum_from filter snd].
    assert (LO : (off < n)%nat) by (apply (f_equal (@length Z)) in E; rewrite skipn_length in E; cbn [length] in E; lia).
    assert (Ep : nth_error np off = Some p).
    { rewrite <- (firstn_skipn off np), <- E. rewrite nth_error_app2; rewrite firstn_length.
      - replace (off - Nat.min off n)%nat with 0%nat by lia. reflexivity.
      - lia. }
    rewrite Ep. rewrite IH.
    - destruct (p =? z); reflexivity.
    - replace (S off) with (off + 1)%nat by lia. rewrite <- skipn_skipn, <- E. reflexivity. }
  apply X. reflexivity.
Qed.

Lemma number_fst : forall k is p' idx, map fst (number (S k) is p' idx) = flat_map (fun i => i :: pre np k (Z.of_nat i)) is.
Proof.
  induction k as [|k IHk]; induction is as [|i r IH]; intros p' idx; try reflexivity.
  - rewrite number_cons. cbn zeta. cbn [map fst]. cbn [number app length flat_map pre]. f_equal. apply IH.
  - rewrite number_cons. cbn zeta. cbn [map fst flat_map]. rewrite map_app, IH, IHk. cbn [app]. f_equal. rewrite <- app_assoc || idtac. f_equal. rewrite pre_kids. reflexivity.
Qed.
Lemma number_perm : map fst (number (S n) (kids (-1)) (-1) 0) = perm np.
Proof. rewrite number_fst. unfold perm. now rewrite pre_kids. Qed.

(** Parents are renumbered consistently. *)
Lemma same_parent_more a b p p' : same_parent a p p' -> same_parent (a ++ b) p p'.
Proof.
  intros [H|(m & i & A & B & C)]; [now left|right]. exists m, i. repeat split; auto.
  rewrite nth_error_app1; auto. apply nth_error_Some. congruence.
Qed.
Lemma number_parents : forall k is p' idx z done, length done = idx -> same_parent done z p' ->
  (forall i, In i is -> nth_error np i = Some z) ->
  Forall (fun ip => exists p, nth_error np (fst ip) = Some p /\ same_parent (done ++ map fst (number k is p' idx)) p (snd ip)) (number k is p' idx).
Proof.
  induction k as [|k IHk]; [constructor|].
  induction is as [|i r IH]; intros p' idx z done L SP H; [constructor|]. rewrite number_cons. cbn zeta.
  set (sub := number k (kids (Z.of_nat i)) (Z.of_nat idx) (S idx)).
  constructor.
  - exists z. split; [apply H; now left|]. apply same_parent_more, SP.
  - cbn [map fst]. rewrite map_app. apply Forall_app. split.
    + assert (X := IHk (kids (Z.of_nat i)) (Z.of_nat idx) (S idx) (Z.of_nat i) (done ++ [i])). fold sub in X.
      eapply Forall_impl; [|apply X].
      * intros [j q] (p & A & B). exists p. split; auto.
        replace (done ++ i :: map fst sub ++ map fst (number (S k) r p' (S (idx + length sub))))
          with (((done ++ [i]) ++ map fst sub) ++ map fst (number (S k) r p' (S (idx + length sub)))).
        -- now apply same_parent_more.
        -- rewrite <- !app_assoc. reflexivity.
      * rewrite app_length. cbn. lia.
      * right. exists idx, i. repeat split. rewrite nth_error_app2 by lia. rewrite L, Nat.sub_diag. reflexivity.
      * intros j Hj. now apply in_kids.
    + assert (X := IH p' (S (idx + length sub))%nat z ((done ++ [i]) ++ map fst sub)).
      eapply Forall_impl; [|apply X].
      * intros [j q] (p & A & B). exists p. split; auto. rewrite <- !app_assoc in B. exact B.
      * rewrite !app_length, map_length. cbn. lia.
      * apply same_parent_more, same_parent_more, SP.
      * intros j Hj. apply H. now right.
Qed.

(** Depth first. *)
Definition chain (pd : list Z) (p' : Z) : Prop :=
  p' = -1 \/ exists q j, p' = Z.of_nat q /\ length pd = S j /\ descends pd q j.
Lemma descends_more pd x a i : descends pd a i -> descends (pd ++ x) a i.
Proof.
  induction 1 as [|i p E D IH]; [constructor|]. apply desc_step with p; auto. rewrite nth_error_app1; auto. apply nth_error_Some. congruence.
Qed.
Lemma depth_first_snoc pd p' : depth_first pd -> chain pd p' -> depth_first (pd ++ [p']).
Proof.
  intros D C i p E. destruct (Nat.lt_trichotomy (S i) (length pd)) as [X|[X|X]].
  - rewrite nth_error_app1 in E by auto. apply descends_more. now apply D.
  - rewrite nth_error_app2, X, Nat.sub_diag in E by lia. cbn in E. injection E as ->.
    destruct C as [C|(q & j & A & B & C)]; [lia|]. apply Nat2Z.inj in A. subst q. assert (j = i) by lia. subst j. now apply descends_more.
  - assert (nth_error (pd ++ [p']) (S i) = None) by (apply nth_error_None; rewrite app_length; cbn; lia). congruence.
Qed.
Lemma chain_snoc pd p' : chain pd p' -> chain (pd ++ [p']) p' /\ chain (pd ++ [p']) (Z.of_nat (length pd)).
Proof.
  intros C. split.
  - destruct C as [C|(q & j & A & B & C)]; [now left|right]. exists q, (length pd). rewrite app_length. cbn. split; auto. split; [lia|].
    apply desc_step with q; [|].
    + rewrite nth_error_app2, Nat.sub_diag by lia. now rewrite A.
    + constructor.
  - right. exists (length pd), (length pd). rewrite app_length. cbn. split; auto. split; [lia|]. constructor.
Qed.
(* a link numbered after [pd ++ [p']], whose chain reaches the new link, also reaches everything above it *)
Lemma chain_up pd p' x : chain pd p' -> chain (pd ++ [p'] ++ x) (Z.of_nat (length pd)) -> chain (pd ++ [p'] ++ x) p'.
Proof.
  intros [C|(q & j & A & B & C)] [D|(q' & j' & A' & B' & C')]; try (now left); try lia.
  right. exists q, j'. split; auto. split; auto. apply Nat2Z.inj in A'. subst q'.
  assert (Y : nth_error (pd ++ [p'] ++ x) (length pd) = Some (Z.of_nat q)).
  { rewrite nth_error_app2, Nat.sub_diag by lia. cbn. now rewrite A. }
  clear - C' Y. induction C' as [|i p E D IH].
  - apply desc_step with q; auto. constructor.
  - apply desc_step with p; auto.
Qed.
Lemma number_depth_first : forall k is p' idx pd, length pd = idx -> depth_first pd -> chain pd p' ->
  depth_first (pd ++ map snd (number k is p' idx)) /\ chain (pd ++ map snd (number k is p' idx)) p'.
Proof.
  induction k as [|k IHk]; [intros; cbn [number map]; now rewrite app_nil_r|].
  induction is as [|i r IH]; intros p' idx pd L D C; [rewrite number_nil; cbn [map]; now rewrite app_nil_r|].
  rewrite number_cons. cbn zeta.
  set (sub := number k (kids (Z.of_nat i)) (Z.of_nat idx) (S idx)).
  cbn [map snd]. rewrite map_app.
  pose proof (depth_first_snoc pd p' D C) as D1. destruct (chain_snoc pd p' C) as [C1 C2].
  destruct (IHk (kids (Z.of_nat i)) (Z.of_nat idx) (S idx) (pd ++ [p'])) as [D3 C3]; auto.
  { rewrite app_length. cbn. lia. } { now rewrite <- L. }
  fold sub in D3, C3.
  assert (C4 : chain ((pd ++ [p']) ++ map snd sub) p').
  { rewrite <- app_assoc in *. apply chain_up; auto. rewrite L. exact C3. }
  destruct (IH p' (S (idx + length sub)) ((pd ++ [p']) ++ map snd sub)) as [D5 C5]; auto.
  { rewrite !app_length, map_length. cbn. lia. }
  rewrite <- !app_assoc in D5, C5. split; [exact D5|exact C5].
Qed.

(** Siblings keep their order. *)
Definition sib (a b : nat * Z) : Prop := snd a = snd b -> (fst a < fst b)%nat.
Lemma FOP_app {A} (Q : A -> A -> Prop) l1 l2 : ForallOrdPairs Q l1 -> ForallOrdPairs Q l2 -> (forall a b, In a l1 -> In b l2 -> Q a b) -> ForallOrdPairs Q (l1 ++ l2).
Proof.
  induction 1 as [|a l1 F H IH]; intros H2 X; [exact H2|]. cbn. constructor.
  - apply Forall_app. split; auto. apply Forall_forall. intros b Hb. apply X; [now left|auto].
  - apply IH; auto. intros b c Hb Hc. apply X; [now right|auto].
Qed.
Lemma FOP_nth {A} (Q : A -> A -> Prop) l : ForallOrdPairs Q l -> forall i j a b, (i < j)%nat -> nth_error l i = Some a -> nth_error l j = Some b -> Q a b.
Proof.
  induction 1 as [|a l F H IH]; intros i j x y Hij Hx Hy; [destruct i; discriminate|].
  destruct j as [|j]; [lia|]. cbn in Hy. destruct i as [|i]; cbn in Hx.
  - injection Hx as <-. rewrite Forall_forall in F. apply F. eapply nth_error_In; eauto.
  - eapply IH; [|eauto..]. lia.
Qed.
Lemma kids_sorted z : StronglySorted lt (kids z).
Proof.
  unfold kids, enum. generalize 0%nat as off. generalize np as l. clear np.
  assert (LB : forall (l : list Z) off i, In i (map fst (filter (fun ip => snd ip =? z) (enum_from off l))) -> (off <= i)%nat).
  { induction l as [|p l IH]; intros off i; cbn [enum_from filter map snd]; [intros []|]. destruct (p =? z); cbn [map fst].
    - intros [<-|H]; [lia|]. apply IH in H. lia.
    - intros H. apply IH in H. lia. }
  induction l as [|p l IH]; intros off; cbn [enum_from filter map snd]; [constructor|]. destruct (p =? z); cbn [map fst]; [|apply IH].
  constructor; [apply IH|]. apply Forall_forall. intros i Hi. apply LB in Hi. lia.
Qed.
Lemma number_range : forall k is p' idx ip, In ip (number k is p' idx) ->
  (snd ip = p' /\ In (fst ip) is) \/ (Z.of_nat idx <= snd ip < Z.of_nat (idx + length (number k is p' idx))).
Proof.
  induction k as [|k IHk]; [intros ? ? ? ? []|].
  induction is as [|i r IH]; intros p' idx ip H; [destruct H|]. rewrite number_cons in *. cbn zeta in *.
  set (sub := number k (kids (Z.of_nat i)) (Z.of_nat idx) (S idx)) in *.
  cbn [length]. rewrite app_length. destruct H as [<-|H]; [left; cbn; auto|]. apply in_app_iff in H. destruct H as [H|H].
  - right. apply IHk in H. fold sub in H. destruct H as [[H _]|H]; lia.
  - apply IH in H. destruct H as [[H1 H2]|H]; [left; split; auto; now right|right; lia].
Qed.
Lemma number_siblings : forall k is p' idx, StronglySorted lt is -> p' < Z.of_nat idx -> ForallOrdPairs sib (number k is p' idx).
Proof.
  induction k as [|k IHk]; [constructor|].
  induction is as [|i r IH]; intros p' idx SS LT; [constructor|]. rewrite number_cons. cbn zeta.
  set (sub := number k (kids (Z.of_nat i)) (Z.of_nat idx) (S idx)). inversion SS as [|? ? S1 S2]; subst.
  constructor.
  - apply Forall_app. split; apply Forall_forall; intros ip Hip E; cbn in E |- *.
    + apply number_range in Hip. destruct Hip as [[H _]|H]; lia.
    + apply number_range in Hip. destruct Hip as [[_ H]|H]; [|lia]. rewrite Forall_forall in S2. now apply S2.
  - apply FOP_app.
    + apply IHk; [apply kids_sorted|lia].
    + apply IH; auto. lia.
    + intros a b Ha Hb E. apply number_range in Ha, Hb. fold sub in Ha. exfalso. destruct Ha as [[A _]|A], Hb as [[B _]|B]; lia.
Qed.

(** With parents before children every link is reached. *)
Lemma topo_hangs : topo np -> forall i, (i < n)%nat -> hangs np i.
Proof.
  intros T i. induction i as [i IH] using lt_wf_ind. intros L. destruct (nth_error np i) as [p|] eqn:E.
  - pose proof (T i p E). destruct (Z.eq_dec p (-1)) as [->|N]; [now apply hangs_root|].
    apply hangs_step with (Z.to_nat p); [rewrite E; f_equal; lia|]. apply IH; lia.
  - apply nth_error_None in E. lia.
Qed.
End Order.

(** ** A depth-first tree is already in the order the file lists it. *)
Lemma desc_trans lam a b c : descends lam a b -> descends lam b c -> descends lam a c.
Proof. intros H. induction 1 as [|i p E D IH]; [exact H|]. now apply desc_step with p. Qed.
Lemma desc_le lam a i : topo lam -> descends lam a i -> (a <= i)%nat.
Proof. intros T. induction 1 as [|i p E D IH]; [lia|]. apply T in E. lia. Qed.
Lemma subtree_interval lam a k : topo lam -> depth_first lam -> descends lam a k -> forall j, (a <= j <= k)%nat -> descends lam a j.
Proof.
  intros T DF. induction k as [|k IH]; intros H j Hj.
  - assert (a = 0)%nat by (apply desc_le in H; auto; lia). assert (j = 0)%nat by lia. subst. exact H.
  - destruct (Nat.eq_dec j (S k)) as [->|N]; [exact H|].
    inversion H as [E|? p E D]; subst; [lia|]. apply IH; [|lia]. apply desc_trans with p; auto.
Qed.
Lemma descends_common lam a b i : topo lam -> descends lam a i -> descends lam b i -> (a <= b)%nat -> descends lam a b.
Proof.
  intros T. revert a b. induction i as [i IH] using lt_wf_ind. intros a b A B L.
  inversion B as [E|? q Eq Dq]; subst; [exact A|].
  pose proof (T _ _ Eq). inversion A as [E|? p Ep Dp]; subst.
  - apply desc_le in Dq; auto. lia.
  - assert (p = q) by (apply Nat2Z.inj; congruence). subst p. apply (IH q); auto. lia.
Qed.

Lemma order_identity (lam lam' : list Z) (order : list nat) :
  topo lam -> topo lam' -> depth_first lam -> depth_first lam' ->
  Permutation order (seq 0 (length lam)) ->
  Forall2 (fun i p' => exists p, nth_error lam i = Some p /\ same_parent order p p') order lam' ->
  (forall m1 m2 p i1 i2, (m1 < m2)%nat -> nth_error lam' m1 = Some p -> nth_error lam' m2 = Some p ->
      nth_error order m1 = Some i1 -> nth_error order m2 = Some i2 -> (i1 < i2)%nat) ->
  order = seq 0 (length lam).
Proof.
  intros T T' D D' P F2 SB.
  assert (LO : length order = length lam) by (apply Permutation_length in P; now rewrite seq_length in P).
  assert (ND : NoDup order) by (eapply Permutation_NoDup; [symmetry; exact P|apply seq_NoDup]).
  assert (FP : forall m i, nth_error order m = Some i -> exists p p', nth_error lam' m = Some p' /\ nth_error lam i = Some p /\ same_parent order p p').
  { assert (G : forall (Q : nat -> Z -> Prop) o l, Forall2 Q o l -> forall m i, nth_error o m = Some i -> exists p', nth_error l m = Some p' /\ Q i p').
    { clear. induction 1 as [|i p' o l H _ IH]; intros [|m] j E; cbn in *; try discriminate; [injection E as ->; eauto|auto]. }
    intros m i E. destruct (G _ _ _ F2 m i E) as (p' & A & p & B & C). eauto. }
  assert (ID : forall m, (m < length lam)%nat -> nth_error order m = Some m).
  { induction m as [m IH] using lt_wf_ind. intros L.
    destruct (nth_error order m) as [i|] eqn:Ei; [|apply nth_error_None in Ei; lia].
    f_equal. assert (Li : (i < length lam)%nat).
    { apply nth_error_In in Ei. apply (Permutation_in _ P) in Ei. apply in_seq in Ei. lia. }
    assert (GE : (m <= i)%nat).
    { destruct (Nat.lt_ge_cases i m) as [X|X]; auto. pose proof (IH i X Li) as Y.
      pose proof (NoDup_nth_error_inj _ _ _ _ ND Y Ei). lia. }
    destruct (Nat.eq_dec i m) as [|N]; auto. exfalso.
    assert (Hm : In m order) by (apply (Permutation_in _ (Permutation_sym P)), in_seq; lia).
    apply In_nth_error in Hm. destruct Hm as [m2 Em2].
    assert (GT : (m < m2)%nat).
    { destruct (Nat.lt_trichotomy m m2) as [X|[->|X]]; auto; [congruence|].
      pose proof (IH m2 X ltac:(lia)) as Y. rewrite Y in Em2. injection Em2 as ->. lia. }
    destruct (FP m i Ei) as (pi & pi' & E1 & E2 & SP1). destruct (FP m2 m Em2) as (pm & pm' & E3 & E4 & SP2).
    (* new parents of positions m and m2 are the old parents of i and m, all numbered below m *)
    assert (Q1 : pi' = pi).
    { destruct SP1 as [[-> ->]|(a & b & -> & -> & X)]; auto. pose proof (T' _ _ E1). rewrite IH in X by lia. congruence. }
    assert (Q2 : pm' = pm).
    { destruct SP2 as [[-> ->]|(a & b & -> & -> & X)]; auto. pose proof (T _ _ E4).
      pose proof (IH b ltac:(lia) ltac:(lia)) as Y. pose proof (NoDup_nth_error_inj _ _ _ _ ND X Y). lia. }
    subst pi' pm'. destruct (Z.eq_dec pi pm) as [EE|NE].
    - rewrite EE in E1. pose proof (SB m m2 pm i m GT E1 E3 Ei Em2). lia.
    - pose proof (T _ _ E4). pose proof (T' _ _ E1).
      destruct m as [|m]; [lia|].
      (* parents inside the common prefix, as nats *)
      assert (Pre : forall k, (k <= m)%nat -> nth_error lam' k = nth_error lam k).
      { intros k Hk. destruct (FP k k (IH k ltac:(lia) ltac:(lia))) as (p & p' & A & B & C). rewrite A, B. f_equal.
        destruct C as [[-> ->]|(a & b & -> & -> & X)]; auto. pose proof (T' _ _ A). rewrite IH in X by lia. congruence. }
      assert (Dp : forall a b, (b <= m)%nat -> descends lam a b -> descends lam' a b).
      { intros a b Hb X. induction X as [|j p E X IHX]; [constructor|]. pose proof (T _ _ E). apply desc_step with p; [rewrite Pre; auto|apply IHX; lia]. }
      assert (Dp' : forall a b, (b <= m)%nat -> descends lam' a b -> descends lam a b).
      { intros a b Hb X. induction X as [|j p E X IHX]; [constructor|]. pose proof (T' _ _ E). apply desc_step with p; [rewrite <- Pre; auto|apply IHX; lia]. }
      destruct (Z.eq_dec pm (-1)) as [->|Npm].
      + (* m is a root; position m's link i hangs below pi, so in the old order m lies inside the subtree of pi *)
        assert (exists a, pi = Z.of_nat a) as [a Ea] by (exists (Z.to_nat pi); lia). subst pi.
        assert (X : descends lam a (S m)).
        { apply (subtree_interval lam a i T D); [apply desc_step with a; [auto|constructor]|]. lia. }
        inversion X as [Y|? q E Y]; subst; [lia|]. rewrite E4 in E. injection E as E. lia.
      + assert (exists b, pm = Z.of_nat b) as [b Eb] by (exists (Z.to_nat pm); lia). subst pm.
        assert (Bm : descends lam b m) by (now apply D).
        assert (BB : descends lam' b (S m)).
        { apply (subtree_interval lam' b m2 T' D'); [apply desc_step with b; [auto|constructor]|]. lia. }
        inversion BB as [Y|? q E Y]; subst; [lia|]. rewrite E1 in E. injection E as Eq. subst pi.
        (* q, the parent of position m in the new order, is below b *)
        assert (X : descends lam q (S m)).
        { apply (subtree_interval lam q i T D); [apply desc_step with q; [auto|constructor]|]. lia. }
        inversion X as [Z1|? r E Z1]; subst; [lia|]. rewrite E4 in E. injection E as E. assert (r = b) by lia. subst r.
        apply desc_le in Z1; auto. apply desc_le in Y; auto. assert (q = b) by lia. subst q. lia. }
  apply nth_error_ext. intros m. destruct (Nat.lt_ge_cases m (length lam)) as [X|X].
  - rewrite ID by auto. symmetry. rewrite <- (map_id (seq 0 (length lam))). rewrite nth_error_map.
    rewrite nth_error_nth' with (d := 0%nat) by (rewrite seq_length; auto). rewrite seq_nth by auto. reflexivity.
  - rewrite (proj2 (nth_error_None _ _)) by lia. symmetry. apply nth_error_None. rewrite seq_length. lia.
Qed.
