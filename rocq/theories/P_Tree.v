(** * Facts about parent arrays. *)
From Coq Require Import String ZArith Lia Bool List.
From Verif Require Import Prelude M_Sys S_Sys M_Compose P_Delete.
Import ListNotations.
Local Open Scope Z_scope.

Section Tree.
Variable lam : list Z.
Hypothesis T : topo lam.

Lemma desc_lt_length a i : descends lam a i -> (a < length lam)%nat -> (i < length lam)%nat.
Proof. intros [|j p H _]; auto. intros _. apply nth_error_Some. congruence. Qed.

Lemma descends_dec a i : {descends lam a i} + {~ descends lam a i}.
Proof.
  destruct (lt_dec a (length lam)) as [Ha|Ha].
  - destruct (memZ (Z.of_nat i) (find_subsystem_indices lam a)) eqn:E.
    + left. apply memZ_In in E. apply find_subsystem_indices_spec in E; auto.
      destruct E as (j & E1 & _ & E2). apply Nat2Z.inj in E1. now subst.
    + destruct (Nat.eq_dec a i) as [->|N]; [left; constructor|].
      right. intros D. apply memZ_false in E. apply E. apply find_subsystem_indices_spec; auto. exists i. split; auto. split; auto.
      eapply desc_lt_length; eauto.
  - destruct (Nat.eq_dec a i) as [->|N]; [left; constructor|].
    right. intros D. inversion D as [|? p H D']; [congruence|].
    assert (i < length lam)%nat by (apply nth_error_Some; congruence).
    pose proof (topo_desc_le _ _ _ T D). lia.
Qed.

Lemma descends_trans a b c : descends lam a b -> descends lam b c -> descends lam a c.
Proof. intros H1 H2. induction H2; auto. eapply desc_step; eauto. Qed.

Lemma descends_antisym a b : descends lam a b -> descends lam b a -> a = b.
Proof. intros H1 H2. pose proof (topo_desc_le _ _ _ T H1). pose proof (topo_desc_le _ _ _ T H2). lia. Qed.

Lemma descends_comparable a b i : descends lam a i -> descends lam b i -> descends lam a b \/ descends lam b a.
Proof.
  intros H1. revert b. induction H1 as [|i p Hp H1 IH]; intros b H2; [auto|].
  inversion H2 as [|? p' Hp' H2']; subst.
  - left. eapply desc_step; eauto.
  - rewrite Hp in Hp'. injection Hp' as E. apply Nat2Z.inj in E. subst p'. auto.
Qed.

Lemma descends_parent a i p : descends lam a i -> a <> i -> nth_error lam i = Some (Z.of_nat p) -> descends lam a p.
Proof.
  intros H N Hp. inversion H as [|? p' Hp' H']; subst; [congruence|].
  rewrite Hp in Hp'. injection Hp' as E. apply Nat2Z.inj in E. now subst.
Qed.

(** The child of [b] on the path to a proper descendant. *)
Lemma child_on_path b j : descends lam b j -> b <> j ->
  exists c, nth_error lam c = Some (Z.of_nat b) /\ descends lam c j.
Proof.
  intros H. induction H as [|j p Hp H IH]; intros N; [congruence|].
  destruct (Nat.eq_dec b p) as [->|N'].
  - exists j. split; auto. constructor.
  - destruct (IH N') as (c & C1 & C2). exists c. split; auto. eapply desc_step; eauto.
Qed.

Lemma siblings_disjoint b c d j : nth_error lam c = Some (Z.of_nat b) -> nth_error lam d = Some (Z.of_nat b) ->
  descends lam c j -> descends lam d j -> c = d.
Proof.
  intros Hc Hd D1 D2. destruct (descends_comparable c d j D1 D2) as [D|D].
  - destruct (Nat.eq_dec c d); auto. pose proof (descends_parent _ _ _ D n Hd) as D'.
    pose proof (topo_desc_le _ _ _ T D'). pose proof (T _ _ Hc). lia.
  - destruct (Nat.eq_dec d c); auto. pose proof (descends_parent _ _ _ D n Hc) as D'.
    pose proof (topo_desc_le _ _ _ T D'). pose proof (T _ _ Hd). lia.
Qed.

Lemma child_not_ancestor b c : nth_error lam c = Some (Z.of_nat b) -> ~ descends lam c b.
Proof. intros Hc D. pose proof (topo_desc_le _ _ _ T D). pose proof (T _ _ Hc). lia. Qed.

Lemma root_above i : (i < length lam)%nat -> exists r, nth_error lam r = Some (-1) /\ descends lam r i.
Proof.
  induction i as [i IH] using (well_founded_induction lt_wf). intros Hi.
  destruct (nth_error lam i) as [p|] eqn:E; [|apply nth_error_None in E; lia].
  pose proof (T _ _ E) as B. destruct (Z.eq_dec p (-1)) as [->|N].
  - exists i. split; auto. constructor.
  - destruct (IH (Z.to_nat p)) as (r & R1 & R2); [lia|lia|]. exists r. split; auto.
    eapply desc_step; eauto. rewrite Z2Nat.id by lia. auto.
Qed.

Lemma root_minimal r a : nth_error lam r = Some (-1) -> descends lam a r -> a = r.
Proof. intros H D. inversion D as [|? p Hp D']; auto. rewrite H in Hp. assert (-1 = Z.of_nat p) by congruence. lia. Qed.
End Tree.
