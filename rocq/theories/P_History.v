(** * Proofs about histories of edits (C07) and the joint registry (C15). *)
From Coq Require Import String ZArith Lia Bool List Permutation.
From Verif Require Import Prelude M_Sys S_Sys S_Morph M_Compose M_Morph S_Morph2 P_Scan P_Sys P_Delete P_Delete2
  P_Inject P_Update P_Tree P_Reroot P_Dfs P_Morph P_Morph2 P_Morph3 M_History.
Import ListNotations.
Local Open Scope Z_scope.

Section Any.
Context {K L G O : Type}.
Variable W : widths.
Variable ops : parse_ops K L G.
Hypothesis laws : ops_laws ops.
Implicit Type s : System K L G O.

Lemma update_keeps_parsed s logic s' : topo (link_parents s) -> update_joint_types W ops s logic = Ok s' -> parsed W ops s'.
Proof.
  intros T H. unfold update_joint_types in H.
  do 7 (apply bind_Ok in H; destruct H as (? & _ & H)). eapply parse_parsed; eauto.
Qed.

Lemma freeze_keeps_parsed names s s' : parsed W ops s -> freeze_list W ops s names = Ok s' -> parsed W ops s'.
Proof.
  revert s. induction names as [|n names IH]; intros s PD H; cbn in H; [injection H as <-; auto|].
  apply bind_Ok in H. destruct H as (s1 & H1 & H). apply (IH s1); auto.
  eapply update_keeps_parsed; eauto. apply (wf_topo _ _ (pd_wf _ _ _ PD)).
Qed.

Lemma inject_keeps_parsed pad s sub b s' : parsed W ops s -> parsed W ops sub ->
  inject_system W ops pad s sub b = Ok s' -> parsed W ops s'.
Proof.
  intros PS PB H. unfold inject_system in H. apply bind_Ok in H. destruct H as (nw & Hn & H).
  eapply parse_parsed; eauto. simpl. apply new_parent_topo; try apply (wf_topo W); try apply pd_wf with (ops := ops); auto.
  destruct b as [b|]; [|injection Hn as <-; lia].
  apply bind_Ok in Hn. destruct Hn as (i & Hi & E). injection E as <-.
  unfold name_to_idx in Hi. apply indexS_spec in Hi. destruct Hi as [Hi _].
  assert (i < length (link_names s))%nat by (apply nth_error_Some; congruence).
  rewrite (wf_names _ _ (pd_wf _ _ _ PS)) in H0. unfold num_links. lia.
Qed.

Lemma views_rename s vs nm : views W s vs -> length nm = length vs ->
  views W (set_names s nm)
    (map (fun nv => mkView (fst nv) (v_type (snd nv)) (v_link (snd nv)) (v_omc (snd nv)) (v_damping (snd nv))
       (v_armature (snd nv)) (v_stiffness (snd nv)) (v_zeropoint (snd nv))) (combine nm vs)).
Proof.
  intros (A1 & A2 & A3 & A4 & A5 & qs & ds & Q & D & B1 & B2 & B3 & B4) Hl.
  assert (M : forall {X} (f : link_view K L O -> X), map f vs = map (fun nv => f (snd nv)) (combine nm vs)).
  { intros X f. clear - Hl. revert nm Hl. induction vs as [|v vs IH]; intros [|n nm] Hl; simpl in *; try discriminate; auto.
    f_equal. apply IH. congruence. }
  unfold views. rewrite !map_map, map_length, combine_length. simpl.
  rewrite A5, Hl, Nat.min_id.
  split. { clear - Hl. revert nm Hl. induction vs as [|v vs IH]; intros [|n nm] Hl; simpl in *; try discriminate; auto.
    f_equal. apply IH. congruence. }
  rewrite <- !M. repeat (split; auto). exists qs, ds. auto 10.
Qed.

Lemma rename_keeps_parsed s nm : parsed W ops s -> length nm = num_links s -> NoDup nm -> parsed W ops (set_names s nm).
Proof.
  intros [WF HS HI (vs & V & FV)] Hl ND. constructor; auto.
  - destruct WF. constructor; auto.
  - assert (Lv : length nm = length vs) by (rewrite Hl; unfold num_links; apply V).
    eexists. split; [apply (views_rename s vs nm V Lv)|].
    apply Forall_forall. intros v Hv. apply in_map_iff in Hv. destruct Hv as ([n w] & <- & I). apply in_combine_r in I.
    rewrite Forall_forall in FV. apply (FV w I).
Qed.
End Any.

Lemma append_inj_l (p a b : string) : (p ++ a = p ++ b)%string -> a = b.
Proof. induction p; simpl; intros H; auto. injection H as H. auto. Qed.
Lemma string_app_length (a b : string) : String.length (a ++ b) = (String.length a + String.length b)%nat.
Proof. induction a; simpl; auto. Qed.
Lemma append_inj_r (q : string) : forall a b : string, (a ++ q = b ++ q)%string -> a = b.
Proof.
  induction a as [|x a IH]; intros [|y b] H; simpl in *; auto.
  - apply (f_equal String.length) in H. simpl in H. rewrite string_app_length in H. lia.
  - apply (f_equal String.length) in H. simpl in H. rewrite string_app_length in H. lia.
  - injection H as -> H. f_equal. auto.
Qed.

Lemma NoDup_list_set (l : list string) i x : NoDup l -> (~ In x l \/ nth_error l i = Some x) -> NoDup (list_set l i x).
Proof.
  revert i. induction l as [|y l IH]; intros [|i] ND H; simpl; auto.
  - inversion ND; subst. constructor; auto. intros I. destruct H as [H|H]; [apply H; now right|]. injection H as ->. auto.
  - inversion ND as [|? ? N1 N2]; subst. constructor.
    + intros I. assert (X : y = x \/ In y l).
      { clear - I. revert i I. induction l as [|z l IH]; intros [|i] I; simpl in *; try tauto; destruct I as [I|I]; auto.
        apply IH in I. tauto. }
      destruct X as [->|X]; [|auto]. destruct H as [H|H]; [apply H; now left|]. simpl in H. apply nth_error_In in H. auto.
    + apply IH; auto. destruct H as [H|H]; [left|right]; auto. intros I. apply H. now right.
Qed.

Section Hist.
Context {K T P J R G O : Type}.
Variable W : widths.
Notation Lk := (mlink T P J R).
Notation Sys := (System K Lk (T * G) O).
Variable ops : parse_ops K Lk (T * G).
Variable A : talg T P.
Variable jt : string -> J -> T.
Hypothesis laws : ops_laws ops.
Hypothesis llaws : link_laws ops A.
Implicit Types s : Sys.

Lemma morph_keeps_parsed s np s' : parsed W ops s -> morph_parents W ops A jt s np = Ok s' -> parsed W ops s'.
Proof.
  intros PD H.
  destruct (Nat.eq_dec (length np) (num_links s)) as [HN|HN]; [|rewrite morph_wrong_length in H by auto; discriminate].
  destruct (Nat.eq_dec (num_links s) 0) as [Z0|NE].
  { exfalso. destruct np; [|simpl in HN; lia]. unfold morph_parents in H. rewrite HN, Nat.eqb_refl in H. cbn [assert_ bind] in H.
    unfold identify_system in H. rewrite Z0 in H. cbn in H.
    destruct (fk_default A jt s _); [|discriminate]. cbn in H. destruct (swapped_joint_properties W s []); discriminate. }
  assert (AH : forall i, (i < num_links s)%nat -> hangs np i).
  { intros i Hi. destruct (in_dec Nat.eq_dec i (perm np)) as [I|I]; [now apply in_perm|]. exfalso.
    rewrite (morph_no_tree W ops A jt s np HN) in H; [discriminate|]. exists i. split; [lia|]. intros X. apply I. now apply in_perm. }
  assert (EK : edges_kept (link_parents s) np).
  { intros i p Hp.
    assert (DZ : forall a b : option Z, {a = b} + {a <> b}) by (decide equality; apply Z.eq_dec).
    destruct (DZ (nth_error (link_parents s) i) (Some (Z.of_nat p))) as [|N1]; [now left|].
    destruct (DZ (nth_error (link_parents s) p) (Some (Z.of_nat i))) as [|N2]; [now right|].
    rewrite (morph_new_edge W) in H; auto; [discriminate|apply PD|].
    intros F. destruct (F i p Hp); contradiction. }
  destruct (morph_total W ops A jt laws llaws s np PD NE HN AH EK) as (s2 & pm & E & P2 & _).
  congruence.
Qed.

Variable pad : list Lk -> Lk -> Lk.
Variable registered has_init : string -> bool.
Variable reload : Sys -> result Sys.
Hypothesis reload_parsed : forall s s', parsed W ops s -> reload s = Ok s' -> parsed W ops s'.

Lemma change_keeps_parsed s n t na nd ns nz s' : parsed W ops s ->
  change_joint_type W ops registered has_init reload s n t na nd ns nz = Ok s' -> parsed W ops s'.
Proof.
  intros PD H. unfold change_joint_type in H.
  apply bind_Ok in H; destruct H as (qn & _ & H). apply bind_Ok in H; destruct H as (dn & _ & H).
  apply bind_Ok in H; destruct H as (s1 & H1 & H). apply bind_Ok in H; destruct H as (? & _ & H).
  assert (P1 : parsed W ops s1) by (eapply update_keeps_parsed; eauto; apply (wf_topo _ _ (pd_wf _ _ _ PD))).
  destruct (has_init t); [eauto|]. congruence.
Qed.

Lemma run_edit_parsed s (e : edit Sys K) s' : parsed W ops s ->
  (forall sub b, e = EInject sub b -> parsed W ops sub) ->
  (forall o n, e = ERename o n -> In n (link_names s) -> n = o) ->
  run_edit W ops A jt pad registered has_init reload s e = Ok s' -> parsed W ops s'.
Proof.
  intros PD HI HR H. pose proof (wf_topo _ _ (pd_wf _ _ _ PD)) as TP. destruct e; cbn [run_edit] in H.
  - apply (delete_list_restricts W ops laws) in H; auto. destruct H as (? & ? & _). auto.
  - apply (inject_keeps_parsed W ops laws pad s sub at_body); eauto.
  - unfold morph_system in H. destruct new_parents as [np|], new_anchor as [a|]; try discriminate.
    + apply bind_Ok in H; destruct H as (? & _ & H). apply bind_Ok in H; destruct H as (? & _ & H).
      eapply morph_keeps_parsed; eauto.
    + apply bind_Ok in H; destruct H as (? & _ & H). apply bind_Ok in H; destruct H as (? & _ & H).
      eapply morph_keeps_parsed; eauto.
  - eapply freeze_keeps_parsed; eauto.
  - unfold unfreeze in H. do 4 (apply bind_Ok in H; destruct H as (? & _ & H)). eapply change_keeps_parsed; eauto.
  - eapply change_keeps_parsed; eauto.
  - unfold replace_free_with_cor in H. destruct (cor_compatible s); [|discriminate]. eapply update_keeps_parsed; eauto.
  - unfold change_link_name in H. apply bind_Ok in H; destruct H as (i & Hi & H). injection H as <-.
    unfold name_to_idx in Hi. apply indexS_spec in Hi. destruct Hi as [Hi _].
    apply rename_keeps_parsed; auto.
    + rewrite length_list_set. apply (wf_names _ _ (pd_wf _ _ _ PD)).
    + apply NoDup_list_set; [apply PD|]. destruct (in_dec string_dec new (link_names s)) as [I|I]; auto.
      right. rewrite Hi. f_equal. symmetry. eauto.
  - injection H as <-. apply rename_keeps_parsed; auto.
    + rewrite map_length. apply (wf_names _ _ (pd_wf _ _ _ PD)).
    + pose proof (wf_unique _ _ (pd_wf _ _ _ PD)) as ND. apply FinFun.Injective_map_NoDup; auto.
      intros a b E. apply append_inj_l, append_inj_r in E. exact E.
Qed.
End Hist.
