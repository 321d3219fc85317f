(** * Dictionaries of arrays: merging, numbering, flattening. *)
From Coq Require Import Reals Lia ZArith Bool String DecimalString DecimalNat List.
From Verif Require Import Prelude M_Sys M_Math M_Rcmg.
Import ListNotations.

Lemma to_uint_nonnil n : Nat.to_uint n <> Decimal.Nil.
Proof.
  intros H. destruct n; [discriminate|]. pose proof (Unsigned.of_to (S n)) as X. rewrite H in X. discriminate.
Qed.
Lemma str_nat_inj a b : str_nat a = str_nat b -> a = b.
Proof.
  unfold str_nat. intros H. apply (f_equal NilZero.uint_of_string) in H. rewrite !NilZero.usu in H by apply to_uint_nonnil.
  injection H as H. now apply Unsigned.to_uint_inj in H.
Qed.

Section Dict.
Context {V : Type}.
Implicit Types (d : list (string * V)) (k : string).
Lemma dget_none d k : dget String.eqb d k = None <-> ~ In k (map fst d).
Proof.
  induction d as [|[a v] d IH]; cbn [dget map fst In]; [tauto|]. destruct (String.eqb_spec k a) as [->|NE].
  - split; [discriminate|]. intros H. destruct H. now left.
  - rewrite IH. split; [intros H [X|X]; [now subst|tauto]|tauto].
Qed.
Lemma dget_some_in d k v : dget String.eqb d k = Some v -> In (k, v) d.
Proof. induction d as [|[a u] d IH]; cbn [dget In]; [discriminate|]. destruct (String.eqb_spec k a) as [->|NE]; [intros E; injection E as ->; now left|auto]. Qed.
Lemma dget_nodup d k v : NoDup (map fst d) -> In (k, v) d -> dget String.eqb d k = Some v.
Proof.
  induction d as [|[a u] d IH]; cbn [dget In map fst]; intros ND H; [destruct H|]. apply NoDup_cons_iff in ND. destruct ND as [NA ND].
  destruct H as [E|H]; [injection E as -> ->; now rewrite String.eqb_refl|]. destruct (String.eqb_spec k a) as [->|NE]; [|auto]. destruct NA. apply in_map_iff. exists (a, v). auto.
Qed.
Lemma dset_new d k v : ~ In k (map fst d) -> dset String.eqb d k v = d ++ [(k, v)].
Proof.
  induction d as [|[a u] d IH]; cbn [dset map fst In app]; intros H; [reflexivity|]. destruct (String.eqb_spec k a) as [->|NE]; [destruct H; now left|].
  f_equal. apply IH. tauto.
Qed.
Lemma dset_keys d k v : In k (map fst d) -> map fst (dset String.eqb d k v) = map fst d.
Proof.
  induction d as [|[a u] d IH]; cbn [dset map fst In]; intros H; [destruct H|]. destruct (String.eqb_spec k a) as [->|NE]; [reflexivity|]. cbn [map fst]. f_equal. apply IH.
  destruct H as [->|H]; [contradiction|exact H].
Qed.
Lemma dget_app d d' k : dget String.eqb (d ++ d') k = match dget String.eqb d k with Some v => Some v | None => dget String.eqb d' k end.
Proof. induction d as [|[a u] d IH]; cbn [app dget]; [reflexivity|]. now destruct (String.eqb k a). Qed.
Lemma fold_dset_app d' : forall d, NoDup (map fst d') -> (forall k, In k (map fst d') -> ~ In k (map fst d)) ->
  fold_left (fun d x => dset String.eqb d (fst x) (snd x)) d' d = d ++ d'.
Proof.
  induction d' as [|[a u] d' IH]; intros d ND H; cbn [fold_left]; [now rewrite app_nil_r|]. cbn [map fst snd] in *. apply NoDup_cons_iff in ND. destruct ND as [NA ND].
  rewrite dset_new by (apply H; now left). rewrite IH; [now rewrite <- app_assoc|exact ND|]. intros k Hk. rewrite map_app, in_app_iff. intros [X|[X|[]]].
  - apply (H k); [now right|exact X].
  - cbn [fst] in X. subst k. contradiction.
Qed.
End Dict.

(** ** dict_union *)
Definition merged (a b : option value) : option value :=
  match a, b with
  | Some (VDict x), Some (VDict y) => Some (VDict (x ++ y))
  | None, b => b
  | a, _ => a
  end.
Definition inner_distinct (d : data) : Prop := forall k x, In (k, VDict x) d -> NoDup (map fst x).
Lemma union_spec d2 : forall d1 d, NoDup (map fst d2) -> inner_distinct d2 -> dict_union d1 d2 = Ok d ->
  map fst d = map fst d1 ++ filter (fun k => negb (memS k (map fst d1))) (map fst d2) /\
  (forall k, dget String.eqb d k = merged (dget String.eqb d1 k) (dget String.eqb d2 k)) /\
  (forall k, In k (map fst d1) -> In k (map fst d2) -> exists x y, dget String.eqb d1 k = Some (VDict x) /\ dget String.eqb d2 k = Some (VDict y)).
Proof.
  induction d2 as [|[a v] d2 IH]; intros d1 d ND ID E; unfold dict_union in E; cbn [foldM] in E.
  - injection E as <-. cbn [map filter dget]. rewrite app_nil_r. split; [reflexivity|]. split; [intros k; destruct (dget String.eqb d1 k) as [[?|?]|]; reflexivity|intros k _ []].
  - apply bind_Ok in E. destruct E as (d1' & E1 & E). cbn [map fst] in ND. apply NoDup_cons_iff in ND. destruct ND as [NA ND].
    assert (ID' : inner_distinct d2) by (intros k x H; apply (ID k x); now right).
    destruct (IH d1' d ND ID' E) as (K & G & C). clear IH E. unfold union_step in E1. destruct (dget String.eqb d1 a) as [v1|] eqn:G1.
    + assert (INa : In a (map fst d1)). { destruct (in_dec string_dec a (map fst d1)) as [I|N]; [exact I|]. apply dget_none in N. congruence. }
      destruct v1 as [|n1]; [discriminate|]. destruct v as [|n2]; [discriminate|]. apply bind_Ok in E1. destruct E1 as (u & AS & E1). injection E1 as <-.
      assert (DJ : forall k, In k (map fst n2) -> ~ In k (map fst n1)).
      { unfold assert_ in AS. destruct (forallb _ n2) eqn:FB; [|discriminate]. rewrite forallb_forall in FB. intros k Hk. apply in_map_iff in Hk. destruct Hk as ([k' u2] & <- & Hk). specialize (FB _ Hk). cbn [fst] in *.
        unfold dmem in FB. destruct (dget String.eqb n1 k') eqn:Q; [discriminate|]. now apply dget_none in Q. }
      rewrite fold_dset_app in K, G, C by (auto; apply (ID a n2); now left). rewrite dset_keys in K, C by exact INa. cbn [map filter fst].
      rewrite (proj2 (memS_In a (map fst d1)) INa). cbn [negb]. split; [exact K|]. split.
      * intros k. rewrite G. cbn [dget]. destruct (String.eqb_spec k a) as [->|NE].
        { rewrite dget_dset_same by apply String.eqb_eq. rewrite G1. rewrite (proj2 (dget_none d2 a) NA). reflexivity. }
        now rewrite dget_dset_other by (apply String.eqb_eq || congruence).
      * intros k I1 I2. cbn [map fst In] in I2. cbn [dget]. destruct (String.eqb_spec k a) as [->|NE]; [eauto|]. destruct I2 as [->|I2]; [contradiction|].
        destruct (C k I1 I2) as (x & y & X1 & X2). rewrite dget_dset_other in X1 by (apply String.eqb_eq || congruence). eauto.
    + injection E1 as <-. pose proof (proj1 (dget_none d1 a) G1) as NIa. rewrite dset_new in K, G, C by exact NIa. cbn [map filter fst].
      assert (MF : memS a (map fst d1) = false) by (apply memS_false; exact NIa). rewrite MF. cbn [negb]. split; [|split].
      * rewrite K, map_app. cbn [map fst]. rewrite <- app_assoc. cbn [app]. do 2 f_equal. apply filter_ext_in. intros k Hk. f_equal.
        destruct (memS k (map fst d1)) eqn:M; [apply memS_In in M; apply memS_In; apply in_app_iff; auto|]. apply memS_false. apply memS_false in M. rewrite in_app_iff. intros [X|[X|[]]]; [auto|subst; contradiction].
      * intros k. rewrite G, dget_app. cbn [dget]. destruct (String.eqb_spec k a) as [->|NE]; [rewrite G1, (proj2 (dget_none d2 a) NA); destruct v; reflexivity|]. now destruct (dget String.eqb d1 k).
      * intros k I1 I2. cbn [map fst In] in I2. destruct I2 as [->|I2]; [contradiction|]. destruct (C k) as (x & y & X1 & X2); [rewrite map_app, in_app_iff; auto|exact I2|].
        rewrite dget_app in X1. cbn [dget]. destruct (String.eqb_spec k a) as [->|NE]; [contradiction|]. cbn [dget] in X1. destruct (dget String.eqb d1 k) eqn:Q; [eauto|].
        apply dget_none in Q. contradiction.
Qed.

(** ** Numbering *)
Definition numeral (n : nat) (k : string) : Prop := exists j, (j < n)%nat /\ k = str_nat j.
Definition renamed (names : list string) (kv : string * value) : string * value := match indexS (fst kv) names with Ok i => (str_nat i, snd kv) | Err _ => kv end.
Lemma rename_spec names : NoDup names -> (forall k, In k names -> ~ numeral (length names) k) ->
  forall d, NoDup (map fst d) -> (forall k, In k (map fst d) -> ~ numeral (length names) k) ->
  rename_links d names = Ok (filter (fun kv => negb (memS (fst kv) names)) d ++ map (renamed names) (filter (fun kv => memS (fst kv) names) d)).
Proof.
  intros NN GN d ND GD. unfold rename_links.
  assert (X : forall suf pre, d = pre ++ suf ->
    foldM (rename_step names) ((filter (fun kv => negb (memS (fst kv) names)) pre ++ suf) ++ map (renamed names) (filter (fun kv => memS (fst kv) names) pre)) (map fst suf) =
    Ok (filter (fun kv => negb (memS (fst kv) names)) d ++ map (renamed names) (filter (fun kv => memS (fst kv) names) d))).
  { induction suf as [|[k v] suf IH]; intros pre E.
    - cbn [map foldM]. rewrite !app_nil_r in *. now subst pre.
    - cbn [map foldM fst]. assert (E' : d = (pre ++ [(k, v)]) ++ suf) by (rewrite <- app_assoc; exact E). specialize (IH _ E'). rewrite !filter_app in IH. cbn [filter fst] in IH.
      assert (NK : ~ In k (map fst pre) /\ ~ In k (map fst suf)).
      { rewrite E, map_app in ND. cbn [map fst] in ND. apply NoDup_remove_2 in ND. rewrite in_app_iff in ND. tauto. }
      unfold rename_step at 1. destruct (memS k names) eqn:M; cbn [negb] in IH.
      + apply memS_In in M. assert (NF : ~ In k (map fst (filter (fun kv : string * value => negb (memS (fst kv) names)) pre))).
        { intros H. apply in_map_iff in H. destruct H as (kv & <- & H). apply filter_In in H. destruct NK as [NK _]. apply NK, in_map, H. }
        unfold dgetE. rewrite !dget_app. rewrite (proj2 (dget_none _ _) NF). cbn [dget]. rewrite String.eqb_refl. cbn [bind].
        destruct (indexS_In k names M) as (i & Ei). rewrite Ei. cbn [bind].
        assert (Hi : nth_error names i = Some k) by (apply indexS_spec in Ei; apply Ei).
        assert (Li : (i < length names)%nat) by (apply nth_error_Some; congruence).
        assert (RK : forall kv, In kv pre -> memS (fst kv) names = true -> exists j, (j < length names)%nat /\ nth_error names j = Some (fst kv) /\ renamed names kv = (str_nat j, snd kv)).
        { intros kv H1 H2. apply memS_In in H2. destruct (indexS_In _ _ H2) as (j & Ej). exists j. unfold renamed. rewrite Ej. pose proof Ej as Ej'. apply indexS_spec in Ej'. destruct Ej' as [Ej' _].
          split; [apply nth_error_Some; congruence|]. auto. }
        assert (DEL : ddel String.eqb ((filter (fun kv => negb (memS (fst kv) names)) pre ++ (k, v) :: suf) ++ map (renamed names) (filter (fun kv => memS (fst kv) names) pre)) k =
                      (filter (fun kv => negb (memS (fst kv) names)) pre ++ suf) ++ map (renamed names) (filter (fun kv => memS (fst kv) names) pre)).
        { unfold ddel. rewrite !filter_app. cbn [filter fst]. rewrite String.eqb_refl. cbn [negb].
          assert (ID : forall l : data, ~ In k (map fst l) -> filter (fun kv => negb (String.eqb k (fst kv))) l = l).
          { induction l as [|kv l IHl]; intros H; [reflexivity|]. cbn [filter map In] in *. destruct (String.eqb_spec k (fst kv)) as [Q|Q]; [destruct H; now left|]. cbn [negb]. f_equal. apply IHl. tauto. }
          rewrite (ID _ NF), (ID suf) by tauto. f_equal. apply ID. intros H. apply in_map_iff in H. destruct H as (kv & H1 & H2). apply in_map_iff in H2. destruct H2 as (kv0 & <- & H2). apply filter_In in H2. destruct H2 as [H2 H3].
          destruct (RK kv0 H2 H3) as (j & Lj & _ & Rj). rewrite Rj in H1. cbn [fst] in H1. apply (GN k M). exists j. auto. }
        rewrite DEL. rewrite dset_new.
        * rewrite map_app in IH. cbn [map] in IH. unfold renamed at 2 in IH. cbn [fst snd] in IH. rewrite Ei in IH. rewrite app_nil_r in IH. rewrite <- app_assoc. exact IH.
        * intros H. rewrite map_app, in_app_iff, map_app, in_app_iff in H. destruct H as [[H|H]|H].
          { apply in_map_iff in H. destruct H as (kv & H1 & H2). apply filter_In in H2. apply (GD (fst kv)); [rewrite E, map_app, in_app_iff; left; apply in_map, H2|]. exists i. auto. }
          { apply in_map_iff in H. destruct H as (kv & H1 & H2). apply (GD (fst kv)); [rewrite E, map_app, in_app_iff; right; right; apply in_map, H2|]. exists i. auto. }
          { apply in_map_iff in H. destruct H as (kv & H1 & H2). apply in_map_iff in H2. destruct H2 as (kv0 & <- & H2). apply filter_In in H2. destruct H2 as [H2 H3].
            destruct (RK kv0 H2 H3) as (j & Lj & Nj & Rj). rewrite Rj in H1. cbn [fst] in H1. apply str_nat_inj in H1. subst j. rewrite Hi in Nj. injection Nj as Nj. apply (proj1 NK). rewrite Nj. now apply in_map. }
      + cbn [app]. rewrite !app_nil_r, <- !app_assoc in IH. cbn [app bind] in IH |- *. rewrite <- !app_assoc. cbn [app]. exact IH. }
  specialize (X d [] eq_refl). cbn [filter map app] in X. rewrite app_nil_r in X. exact X.
Qed.
