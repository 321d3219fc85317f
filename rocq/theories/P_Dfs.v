(** * The permutation computed by morph_system. *)
From Coq Require Import String ZArith Lia Bool List Permutation Sorted.
From Verif Require Import Prelude M_Sys S_Sys S_Morph M_Compose M_Morph P_Delete P_Tree P_Reroot.
Import ListNotations.
Local Open Scope Z_scope.

Section Dfs.
Variable np : list Z.
Notation n := (length np).

(** Ancestors of a link, itself first. *)
Inductive path : nat -> list nat -> Prop :=
| path_root i : nth_error np i = Some (-1) -> path i [i]
| path_step i p l : nth_error np i = Some (Z.of_nat p) -> path p l -> path i (i :: l).

Lemma path_fun i l1 : path i l1 -> forall l2, path i l2 -> l1 = l2.
Proof.
  induction 1 as [i E|i p l E H IH]; intros l2 H2; inversion H2 as [? E2|? p2 l2' E2 H2']; subst; auto.
  - assert (-1 = Z.of_nat p2) by congruence. lia.
  - assert (-1 = Z.of_nat p) by congruence. lia.
  - assert (p = p2) by (apply Nat2Z.inj; congruence). subst. f_equal. auto.
Qed.

Lemma path_hangs i : (exists l, path i l) <-> hangs np i.
Proof.
  split.
  - intros [l H]. induction H; [now apply hangs_root|eapply hangs_step; eauto].
  - induction 1 as [i E|i p E H [l IH]]; [exists [i]; now constructor|exists (i :: l); econstructor; eauto].
Qed.

Lemma path_suffix i l j : path i l -> In j l -> exists l1 l2, l = l1 ++ l2 /\ path j l2.
Proof.
  induction 1 as [i E|i p l E H IH]; intros Hj.
  - destruct Hj as [<-|[]]. exists [], [i]. split; auto. now constructor.
  - destruct Hj as [<-|Hj].
    + exists [], (i :: l). split; auto. econstructor; eauto.
    + destruct (IH Hj) as (l1 & l2 & -> & P). exists (i :: l1), l2. auto.
Qed.

Lemma path_NoDup i l : path i l -> NoDup l.
Proof.
  induction 1 as [i E|i p l E H IH]; [constructor; auto; constructor|]. constructor; auto.
  intros Hin. destruct (path_suffix _ _ _ H Hin) as (l1 & l2 & -> & P).
  assert (X : path i (i :: l1 ++ l2)) by (econstructor; eauto).
  pose proof (path_fun _ _ P _ X) as Y. apply (f_equal (@length nat)) in Y. simpl in Y. rewrite app_length in Y. lia.
Qed.

Lemma path_lt i l : path i l -> forall j, In j l -> (j < n)%nat.
Proof.
  induction 1 as [i E|i p l E H IH]; intros j [<-|Hj]; auto; try (apply nth_error_Some; congruence). destruct Hj.
Qed.

Lemma path_length i l : path i l -> (length l <= n)%nat.
Proof.
  intros H. rewrite <- (seq_length n 0). apply NoDup_incl_length; [eapply path_NoDup; eauto|].
  intros j Hj. apply in_seq. pose proof (path_lt _ _ H j Hj). lia.
Qed.

Fixpoint pre (fuel : nat) (z : Z) : list nat :=
  match fuel with
  | 0%nat => []
  | S k => flat_map (fun i => match nth_error np i with
                              | Some p => if p =? z then i :: pre k (Z.of_nat i) else []
                              | None => [] end) (seq 0 n)
  end.

(** [z] is the world or a link that hangs; [lb] its ancestors. *)
Definition at_level (z : Z) (lb : list nat) : Prop :=
  (z = -1 /\ lb = []) \/ exists b, z = Z.of_nat b /\ path b lb.

Lemma at_level_child z lb i : at_level z lb -> nth_error np i = Some z -> at_level (Z.of_nat i) (i :: lb).
Proof.
  intros [[-> ->]|(b & -> & P)] E; right; exists i; split; auto; [now constructor|econstructor; eauto].
Qed.

Lemma at_level_length z lb : at_level z lb -> (length lb <= n)%nat.
Proof. intros [[-> ->]|(b & -> & P)]; [simpl; lia|eapply path_length; eauto]. Qed.

Lemma find_childs_of_pre : forall fuel z lb, at_level z lb -> (n < fuel + length lb)%nat ->
  find_childs_of fuel np z = Ok (map Z.of_nat (pre fuel z)).
Proof.
  induction fuel as [|k IH]; intros z lb HL Hf.
  { pose proof (at_level_length _ _ HL). lia. }
  cbn [find_childs_of pre].
  assert (X : forall l off, l = skipn off np -> (off <= n)%nat ->
    mapM (fun ip => if snd ip =? z then do r <- find_childs_of k np (Z.of_nat (fst ip)); Ok (Z.of_nat (fst ip) :: r) else Ok [])
      (enum_from off l) =
    Ok (map (fun i => map Z.of_nat (match nth_error np i with
                              | Some p => if p =? z then i :: pre k (Z.of_nat i) else []
                              | None => [] end)) (seq off (length l)))).
  { induction l as [|p l IHl]; intros off El Ho; simpl; auto.
    assert (Ep : nth_error np off = Some p).
    { rewrite <- (firstn_skipn off np), nth_error_app2; rewrite firstn_length; [|lia].
      rewrite <- El. replace (off - Init.Nat.min off n)%nat with 0%nat by lia. reflexivity. }
    assert (El' : l = skipn (S off) np).
    { replace (S off) with (off + 1)%nat by lia. rewrite <- skipn_skipn, <- El. reflexivity. }
    assert (Hlt : (off < n)%nat) by (apply nth_error_Some; congruence).
    rewrite Ep. destruct (Z.eqb_spec p z) as [->|N].
    - rewrite (IH (Z.of_nat off) (off :: lb)); [|eapply at_level_child; eauto|simpl; lia].
      cbn [bind]. rewrite IHl; auto.
    - cbn [bind]. rewrite IHl; auto. }
  unfold enum. rewrite (X np 0%nat); auto; [|lia]. cbn [bind]. f_equal.
  clear. induction (seq 0 n) as [|i l IH]; simpl; auto. rewrite map_app. f_equal. auto.
Qed.

Lemma in_pre : forall fuel z lb j, at_level z lb -> (n < fuel + length lb)%nat ->
  (In j (pre fuel z) <-> exists l, l <> [] /\ path j (l ++ lb)).
Proof.
  induction fuel as [|k IH]; intros z lb j HL Hf.
  { pose proof (at_level_length _ _ HL). lia. }
  cbn [pre]. rewrite in_flat_map. split.
  - intros (i & Hi & Hj). destruct (nth_error np i) as [p|] eqn:E; [|destruct Hj].
    destruct (Z.eqb_spec p z) as [->|]; [|destruct Hj].
    pose proof (at_level_child _ _ _ HL E) as HL'.
    destruct Hj as [<-|Hj].
    + exists [i]. split; [discriminate|]. destruct HL' as [[? ?]|(b & Eb & P)]; [lia|]. apply Nat2Z.inj in Eb. now subst.
    + apply (IH _ (i :: lb)) in Hj; auto; [|simpl; lia]. destruct Hj as (l & Nl & P).
      exists (l ++ [i]). split; [destruct l; discriminate|]. rewrite <- app_assoc. exact P.
  - intros (l & Nl & P).
    destruct (exists_last Nl) as (l' & i & ->). rewrite <- app_assoc in P. cbn [app] in P.
    assert (Ei : nth_error np i = Some z /\ (i < n)%nat).
    { assert (Pi : path i (i :: lb)).
      { clear - P. revert j P. induction l' as [|x l' IHl]; intros j P; simpl in P.
        - inversion P; subst; auto.
        - inversion P; subst; [destruct l'; discriminate|]. eauto. }
      inversion Pi as [? E|? p ? E P']; subst.
      - split; [|apply nth_error_Some; congruence]. destruct HL as [[-> _]|(b & -> & Pb)]; auto. inversion Pb.
      - split; [|apply nth_error_Some; congruence]. destruct HL as [[-> ->]|(b & -> & Pb)]; [inversion P'|].
        inversion P'; inversion Pb; subst; try congruence. }
    destruct Ei as [Ei Li]. exists i. split; [apply in_seq; lia|]. rewrite Ei, Z.eqb_refl.
    destruct l' as [|x l'].
    + simpl in P. inversion P; subst; now left.
    + right. apply (IH _ (i :: lb)); [eapply at_level_child; eauto|simpl; lia|].
      exists (x :: l'). split; [discriminate|auto].
Qed.

Lemma NoDup_flat_map {A B} (f : A -> list B) l : NoDup l -> (forall x, In x l -> NoDup (f x)) ->
  (forall x y b, In x l -> In y l -> x <> y -> In b (f x) -> ~ In b (f y)) -> NoDup (flat_map f l).
Proof.
  induction 1 as [|x l Nx ND IH]; intros H1 H2; simpl; [constructor|].
  assert (NA : forall l1 l2 : list B, NoDup l1 -> NoDup l2 -> (forall b, In b l1 -> ~ In b l2) -> NoDup (l1 ++ l2)).
  { clear. induction l1 as [|b l1 IH]; intros l2 N1 N2 H; simpl; auto. inversion N1; subst. constructor.
    - rewrite in_app_iff. intros [X|X]; auto. apply (H b); auto. now left.
    - apply IH; auto. intros c Hc. apply H. now right. }
  apply NA.
  - apply H1. now left.
  - apply IH; [intros; apply H1; now right|]. intros a b c Ha Hb. apply H2; now right.
  - intros b Hb Hin. apply in_flat_map in Hin. destruct Hin as (y & Hy & Hby).
    apply (H2 x y b); auto; [now left|now right|]. intros ->. contradiction.
Qed.

Lemma pre_NoDup : forall fuel z lb, at_level z lb -> (n < fuel + length lb)%nat -> NoDup (pre fuel z).
Proof.
  induction fuel as [|k IH]; intros z lb HL Hf; cbn [pre]; [constructor|].
  apply NoDup_flat_map.
  - apply seq_NoDup.
  - intros i Hi. destruct (nth_error np i) as [p|] eqn:E; [|constructor]. destruct (Z.eqb_spec p z) as [->|]; [|constructor].
    pose proof (at_level_child _ _ _ HL E) as HL'. constructor; [|apply (IH _ (i :: lb)); auto; simpl; lia].
    intros Hin. apply (in_pre k _ (i :: lb)) in Hin; auto; [|simpl; lia]. destruct Hin as (l & Nl & P).
    assert (Q : path i (i :: lb)) by (destruct HL' as [[? ?]|(b & Eb & P')]; [lia|]; apply Nat2Z.inj in Eb; now subst).
    pose proof (path_fun _ _ P _ Q) as X. apply (f_equal (@length nat)) in X. rewrite app_length in X.
    destruct l; [congruence|]. simpl in X. lia.
  - intros i i' j _ _ Ni Hj Hj'.
    assert (X : forall c, In j (match nth_error np c with Some p => if p =? z then c :: pre k (Z.of_nat c) else [] | None => [] end) ->
                exists l, path j (l ++ c :: lb)).
    { intros c Hc. destruct (nth_error np c) as [p|] eqn:E; [|destruct Hc]. destruct (Z.eqb_spec p z) as [->|]; [|destruct Hc].
      pose proof (at_level_child _ _ _ HL E) as HL'. destruct Hc as [<-|Hc].
      - exists []. destruct HL' as [[? ?]|(b & Eb & P')]; [lia|]. apply Nat2Z.inj in Eb. now subst.
      - apply (in_pre k _ (c :: lb)) in Hc; auto; [|simpl; lia]. destruct Hc as (l & _ & P). eauto. }
    destruct (X i Hj) as (l1 & P1). destruct (X i' Hj') as (l2 & P2).
    pose proof (path_fun _ _ P1 _ P2) as E.
    assert (EL : length l1 = length l2).
    { apply (f_equal (@length nat)) in E. rewrite !app_length in E. simpl in E. lia. }
    assert (EC : i :: lb = i' :: lb); [|congruence].
    clear - E EL. revert l2 E EL. induction l1 as [|a l1 IH]; intros [|b l2] E EL; simpl in *; try lia; auto.
    injection E as _ E. apply (IH l2); auto.
Qed.

(** The parent of a listed link is the base or listed earlier. *)
Lemma flat_map_split {A B} (f : A -> list B) l l1 j l2 : flat_map f l = l1 ++ j :: l2 ->
  exists la x lb m1 m2, l = la ++ x :: lb /\ f x = m1 ++ j :: m2 /\ l1 = flat_map f la ++ m1.
Proof.
  revert l1. induction l as [|a l IH]; intros l1 H; simpl in H.
  - destruct l1; discriminate.
  - destruct (Nat.lt_ge_cases (length l1) (length (f a))) as [L|L].
    + assert (E : f a = l1 ++ j :: firstn (length (f a) - length l1 - 1) l2).
      { apply (f_equal (firstn (length (f a)))) in H. rewrite firstn_app, Nat.sub_diag, firstn_O, app_nil_r, firstn_all in H.
        rewrite H at 1. rewrite firstn_app, firstn_all2 by lia. f_equal.
        destruct (length (f a) - length l1)%nat eqn:EQ; [lia|]. simpl. now rewrite Nat.sub_0_r. }
      exists [], a, l, l1, (firstn (length (f a) - length l1 - 1) l2). simpl. auto.
    + assert (E : l1 = f a ++ skipn (length (f a)) l1).
      { apply (f_equal (firstn (length (f a)))) in H. rewrite firstn_app, Nat.sub_diag, firstn_O, app_nil_r, firstn_all in H.
        rewrite firstn_app in H. replace (length (f a) - length l1)%nat with 0%nat in H by lia. simpl in H.
        rewrite app_nil_r in H. rewrite H at 1. symmetry. apply firstn_skipn. }
      rewrite E, <- app_assoc in H. apply app_inv_head in H.
      destruct (IH _ H) as (la & x & lb & m1 & m2 & -> & E2 & E3).
      exists (a :: la), x, lb, m1, m2. split; auto. split; auto. simpl. rewrite <- app_assoc, <- E3. exact E.
Qed.

Lemma pre_order : forall fuel z l1 j l2, pre fuel z = l1 ++ j :: l2 ->
  nth_error np j = Some z \/ exists q, nth_error np j = Some (Z.of_nat q) /\ In q l1.
Proof.
  induction fuel as [|k IH]; intros z l1 j l2 H; cbn [pre] in H; [destruct l1; discriminate|].
  apply flat_map_split in H. destruct H as (la & i & lb & m1 & m2 & _ & E & ->).
  destruct (nth_error np i) as [p|] eqn:Ei; [|destruct m1; discriminate].
  destruct (Z.eqb_spec p z) as [->|]; [|destruct m1; discriminate].
  destruct m1 as [|x m1].
  - injection E as <- _. auto.
  - injection E as <- E. destruct (IH _ _ _ _ E) as [X|(q & X & Hq)].
    + right. exists i. split; auto. apply in_app_iff. right. now left.
    + right. exists q. split; auto. apply in_app_iff. right. now right.
Qed.

Definition perm : list nat := pre (S n) (-1).

Lemma new_to_old_perm : new_to_old_indices np = Ok (map Z.of_nat perm ++ [-1]).
Proof.
  unfold new_to_old_indices. rewrite (find_childs_of_pre (S n) (-1) []); auto; [left; auto|simpl; lia].
Qed.

Lemma perm_NoDup : NoDup perm.
Proof. apply (pre_NoDup _ _ []); [left; auto|simpl; lia]. Qed.

Lemma in_perm j : In j perm <-> hangs np j.
Proof.
  unfold perm. rewrite (in_pre (S n) (-1) [] j); [|left; auto|simpl; lia]. rewrite <- path_hangs. split.
  - intros (l & _ & P). rewrite app_nil_r in P. eauto.
  - intros (l & P). exists l. rewrite app_nil_r. split; auto. inversion P; discriminate.
Qed.

Lemma perm_order l1 j l2 : perm = l1 ++ j :: l2 ->
  nth_error np j = Some (-1) \/ exists q, nth_error np j = Some (Z.of_nat q) /\ In q l1.
Proof. apply pre_order. Qed.

Lemma hangs_lt j : hangs np j -> (j < n)%nat.
Proof. intros H; inversion H; apply nth_error_Some; congruence. Qed.

Lemma perm_permutation : (forall i, (i < n)%nat -> hangs np i) -> Permutation perm (seq 0 n).
Proof.
  intros H. apply NoDup_Permutation; [apply perm_NoDup|apply seq_NoDup|].
  intros j. rewrite in_perm, in_seq. split; [intros X; apply hangs_lt in X; lia|]. intros X. apply H. lia.
Qed.
End Dfs.
