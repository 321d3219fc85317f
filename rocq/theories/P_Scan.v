(** * Proofs about scan (C01, C02). *)
From Coq Require Import String ZArith Lia Bool List.
From Verif Require Import Prelude M_Sys S_Sys.
Import ListNotations.
Local Open Scope nat_scope.

(** ** Cutting a list by widths *)
Fixpoint split_by {V} (ws : list nat) (xs : list V) : list (list V) :=
  match ws with [] => [] | w :: r => firstn w xs :: split_by r (skipn w xs) end.

Lemma list_sum_cons a l : list_sum (a :: l) = a + list_sum l.
Proof. reflexivity. Qed.

Lemma split_by_splits {V} ws : forall (xs : list V), length xs = list_sum ws -> splits ws xs (split_by ws xs).
Proof.
  unfold splits. induction ws as [|w r IH]; intros xs H.
  - simpl in *. destruct xs; [auto|discriminate].
  - rewrite list_sum_cons in H. cbn [split_by map concat]. destruct (IH (skipn w xs)) as [H1 H2].
    { rewrite skipn_length. lia. }
    rewrite H1, H2, firstn_skipn. rewrite firstn_length. split; auto. f_equal. lia.
Qed.

Lemma splits_length {V} ws (xs : list V) ps : splits ws xs ps -> length xs = list_sum ws.
Proof.
  intros [<- <-]. induction ps as [|p r IH]; simpl; auto. rewrite app_length. auto.
Qed.

Lemma splits_unique {V} ws (xs : list V) ps ps' : splits ws xs ps -> splits ws xs ps' -> ps = ps'.
Proof.
  unfold splits. revert xs ps ps'. induction ws as [|w r IH]; intros xs ps ps' [H1 H2] [H3 H4].
  - destruct ps, ps'; try discriminate; auto.
  - destruct ps as [|p ps], ps' as [|p' ps']; try discriminate. simpl in *.
    injection H1 as H1a H1b. injection H3 as H3a H3b. subst xs.
    assert (E : p = p').
    { apply (f_equal (firstn w)) in H4.
      rewrite <- H3a in H4 at 1. rewrite firstn_app, firstn_all, Nat.sub_diag in H4. simpl in H4.
      rewrite <- H1a in H4. rewrite firstn_app, firstn_all, Nat.sub_diag in H4. simpl in H4.
      rewrite !app_nil_r in H4. auto. }
    subst p'. apply app_inv_head in H4. f_equal. eapply IH; split; eauto.
Qed.

Lemma splits_iff {V} ws (xs : list V) ps :
  splits ws xs ps <-> length xs = list_sum ws /\ ps = split_by ws xs.
Proof.
  split.
  - intros H. pose proof (splits_length _ _ _ H) as E. split; auto.
    eapply splits_unique; eauto. now apply split_by_splits.
  - intros [E ->]. now apply split_by_splits.
Qed.

Lemma split_by_length {V} ws : forall (xs : list V), length (split_by ws xs) = length ws.
Proof. induction ws; simpl; auto. Qed.

(** ** Running offsets *)
Fixpoint slices_from (off : nat) (ws : list nat) : list slice :=
  match ws with [] => [] | w :: r => (off, off + w) :: slices_from (off + w) r end.

Lemma slices_from_length ws : forall off, length (slices_from off ws) = length ws.
Proof. induction ws; simpl; auto. Qed.

Lemma nth_slices_from ws : forall off i n, nth_error ws i = Some n ->
  nth_error (slices_from off ws) i = Some (off + list_sum (firstn i ws), off + list_sum (firstn i ws) + n).
Proof.
  induction ws as [|w r IH]; intros off [|i] n H; simpl in *; try discriminate.
  - injection H as ->. repeat f_equal; lia.
  - rewrite (IH _ _ _ H). f_equal. f_equal; unfold list_sum; lia.
Qed.

Lemma running_slices_spec w types : forall off sls,
  running_slices w off types = Ok sls <-> exists ws, have_widths w types ws /\ sls = slices_from off ws.
Proof.
  unfold have_widths. induction types as [|t r IH]; intros off sls; simpl.
  - split.
    + intros H. injection H as <-. exists []. split; [constructor|reflexivity].
    + intros (ws & H & ->). inversion H. reflexivity.
  - unfold wget. destruct (w t) as [n|] eqn:E; simpl.
    + split.
      * intros H. inv_bind. apply IH in Hb. destruct Hb as (ws & H & ->).
        exists (n :: ws). split; [constructor; auto|reflexivity].
      * intros (ws & H & ->). inversion H; subst. rewrite E in H2. injection H2 as <-.
        assert (R : running_slices w (off + n) r = Ok (slices_from (off + n) l')) by (apply IH; eauto).
        rewrite R. reflexivity.
    + split; [discriminate|]. intros (ws & H & _). inversion H; subst. congruence.
Qed.

Lemma have_widths_unique w types ws ws' : have_widths w types ws -> have_widths w types ws' -> ws = ws'.
Proof.
  unfold have_widths. intros H. revert ws'. induction H; intros ws' H'; inversion H'; subst; auto.
  f_equal; [congruence | auto].
Qed.

Lemma have_widths_length w types ws : have_widths w types ws -> length types = length ws.
Proof. apply Forall2_length. Qed.

Lemma mapM_wget w types ws : mapM (wget w) types = Ok ws <-> have_widths w types ws.
Proof.
  rewrite mapM_Ok_iff. unfold have_widths, wget. split; intros H; induction H; constructor; auto.
  - destruct (w x); congruence.
  - rewrite H. reflexivity.
Qed.

Lemma total_width_Ok w types n :
  total_width w types = Ok n <-> exists ws, have_widths w types ws /\ n = list_sum ws.
Proof.
  unfold total_width. split.
  - intros H. inv_bind. exists a. split; auto. now apply mapM_wget.
  - intros (ws & H & ->). apply mapM_wget in H. rewrite H. reflexivity.
Qed.

Lemma take_slice_skip {V} (xs : list V) off w :
  take_slice xs (off, off + w) = firstn w (skipn off xs).
Proof. unfold take_slice. simpl. f_equal. lia. Qed.

Lemma map_take_slices {V} ws : forall off (xs : list V),
  map (take_slice xs) (slices_from off ws) = split_by ws (skipn off xs).
Proof.
  induction ws as [|w r IH]; intros off xs; cbn [slices_from map split_by]; auto.
  rewrite take_slice_skip, IH. f_equal. f_equal. symmetry; apply skipn_skipn.
Qed.

Lemma mapM_seq_nth {A B} (l : list A) (g : A -> B) e : forall k n, k + n = length l ->
  mapM (fun i => match nth_error l i with Some a => Ok (g a) | None => Err e end) (seq k n)
  = Ok (map g (skipn k l)).
Proof.
  intros k n; revert k. induction n as [|n IH]; intros k H; simpl.
  - rewrite skipn_all2 by lia. reflexivity.
  - destruct (nth_error l k) as [a|] eqn:E.
    + simpl. rewrite IH by lia. simpl. f_equal.
      assert (S : skipn k l = a :: skipn (S k) l).
      { clear -E. revert l E. induction k as [|k IH]; intros [|x l] E; simpl in *; try discriminate.
        - now injection E as ->.
        - now apply IH. }
      rewrite S. reflexivity.
    + apply nth_error_None in E. lia.
Qed.

Section Scan.
Context {K L G O : Type}.
Variable W : widths.
Implicit Type s : System K L G O.

Lemma idx_slices_spec w s sls : length (link_types s) = num_links s ->
  (idx_slices w s = Ok sls <-> exists ws, have_widths w (link_types s) ws /\ sls = slices_from 0 ws).
Proof.
  intros H. unfold idx_slices. rewrite <- H, firstn_all. apply running_slices_spec.
Qed.

(** Slices collected by a recording scan: exactly the cuts prescribed by the joint types. *)
Lemma slices_of_spec w s xs ps : length (link_types s) = num_links s ->
  (slices_of w s xs = Ok ps <-> exists ws, have_widths w (link_types s) ws /\ splits ws xs ps).
Proof.
  intros Hl. unfold slices_of. split.
  - intros H. inv_bind. apply total_width_Ok in Hb. destruct Hb as (ws & Hw & ->).
    apply Nat.eqb_eq in Ea. apply (idx_slices_spec _ _ _ Hl) in Hb1.
    destruct Hb1 as (ws' & Hw' & ->). rewrite (have_widths_unique _ _ _ _ Hw' Hw) in *.
    rewrite (mapM_seq_nth _ (take_slice xs) EKey 0) in H.
    + injection H as <-. exists ws. split; auto. cbn [skipn]. rewrite map_take_slices. cbn [skipn].
      apply split_by_splits. auto.
    + rewrite slices_from_length. simpl. rewrite <- Hl. now apply (have_widths_length w).
  - intros (ws & Hw & Hs).
    assert (T : total_width w (link_types s) = Ok (list_sum ws)) by (apply total_width_Ok; eauto).
    rewrite T. simpl. rewrite (splits_length _ _ _ Hs), Nat.eqb_refl. simpl.
    assert (I : idx_slices w s = Ok (slices_from 0 ws)) by (apply (idx_slices_spec _ _ _ Hl); eauto).
    rewrite I. simpl. rewrite (mapM_seq_nth _ (take_slice xs) EKey 0).
    + cbn [skipn]. rewrite map_take_slices. cbn [skipn]. f_equal. apply splits_iff in Hs. symmetry. tauto.
    + rewrite slices_from_length. simpl. rewrite <- Hl. now apply (have_widths_length w).
Qed.

(** ** The loop *)
Lemma scan_loop_calls {V Y St} (f : option Y -> idx_map -> list (piece V) -> St -> result (Y * St))
  im targs : forall order y st acc ys st',
  scan_loop f im targs order y st acc = Ok (ys, st') <->
  exists rows outs,
    mapM (fun i => mapM (fun ta => get_piece im i (fst ta) (snd ta)) targs) order = Ok rows /\
    calls f im y st rows outs st' /\ ys = acc ++ outs.
Proof.
  induction order as [|i r IH]; intros y st acc ys st'; cbn [scan_loop mapM].
  - split.
    + intros H. injection H as <- <-. exists [], []. rewrite app_nil_r. repeat constructor.
    + intros (rows & outs & H & C & ->). injection H as <-. inversion C; subst. now rewrite app_nil_r.
  - split.
    + intros H. inv_bind. destruct a0 as [y1 st1]. apply IH in H.
      destruct H as (rows & outs & H & C & E). rewrite Hb. simpl. rewrite H. simpl.
      exists (a :: rows), (y1 :: outs). split; [reflexivity|]. split.
      * econstructor; eauto.
      * rewrite E. simpl. rewrite <- app_assoc. reflexivity.
    + intros (rows & outs & H & C & ->). inv_bind. inversion C; subst.
      rewrite Hb. simpl. match goal with E : f _ _ _ _ = Ok _ |- _ => rewrite E end. simpl.
      apply IH. exists a0, outs0. split; auto. split; auto. now rewrite <- app_assoc.
Qed.

(** For scans that cannot fail inside [get_piece]. *)
Lemma mapM_rev {A B} (f : A -> result B) l l' : mapM f l = Ok l' -> mapM f (rev l) = Ok (rev l').
Proof.
  revert l'. induction l as [|x r IH]; simpl; intros l' H; inv_bind; auto.
  rewrite mapM_app, (IH _ Hb0). simpl. rewrite Hb. reflexivity.
Qed.

Lemma nth_map_seq {A} (g : nat -> A) n i : i < n -> nth_error (map g (seq 0 n)) i = Some (g i).
Proof.
  intros H. rewrite nth_error_map. rewrite nth_error_nth' with (d := 0) by (rewrite seq_length; auto).
  rewrite seq_nth by auto. reflexivity.
Qed.

(** The column of one argument as produced by [get_piece]. *)
Lemma get_piece_column {V} s (t : in_type) (arg : list V) qs ds :
  length (link_types s) = num_links s ->
  have_widths (qW W) (link_types s) qs -> have_widths (dW W) (link_types s) ds ->
  check_arg W s (t, arg) = Ok tt ->
  exists col, column_ok W (link_types s) t arg col /\ length col = num_links s /\
    mapM (fun i => get_piece (mkIM (slices_from 0 qs) (slices_from 0 ds)) i t arg) (seq 0 (num_links s)) = Ok col.
Proof.
  intros Hl Hq Hd Hc. destruct t; unfold check_arg in Hc; simpl in Hc.
  - inv_bind. apply Nat.eqb_eq in Ea. exists (map One arg). split; [split; [lia|reflexivity]|].
    split; [now rewrite map_length|].
    erewrite mapM_ext with (g := fun i => match nth_error arg i with Some a => Ok (One a) | None => Err EIndex end)
      by reflexivity.
    rewrite (mapM_seq_nth arg One EIndex 0) by lia. reflexivity.
  - inv_bind. apply Nat.eqb_eq in Ea. apply total_width_Ok in Hb. destruct Hb as (ws & Hw & ->).
    rewrite (have_widths_unique _ _ _ _ Hw Hq) in *.
    exists (map Many (split_by qs arg)). split.
    { exists qs, (split_by qs arg). split; auto. split; auto. now apply split_by_splits. }
    split. { rewrite map_length, split_by_length, <- Hl. symmetry. now apply (have_widths_length (qW W)). }
    erewrite mapM_ext with (g := fun i => match nth_error (slices_from 0 qs) i with
        Some sl => Ok (Many (take_slice arg sl)) | None => Err EKey end) by reflexivity.
    rewrite (mapM_seq_nth (slices_from 0 qs) (fun sl => Many (take_slice arg sl)) EKey 0).
    + cbn [skipn]. rewrite <- (map_map (take_slice arg) Many), map_take_slices. reflexivity.
    + rewrite slices_from_length, <- Hl. simpl. now apply (have_widths_length (qW W)).
  - inv_bind. apply Nat.eqb_eq in Ea. apply total_width_Ok in Hb. destruct Hb as (ws & Hw & ->).
    rewrite (have_widths_unique _ _ _ _ Hw Hd) in *.
    exists (map Many (split_by ds arg)). split.
    { exists ds, (split_by ds arg). split; auto. split; auto. now apply split_by_splits. }
    split. { rewrite map_length, split_by_length, <- Hl. symmetry. now apply (have_widths_length (dW W)). }
    erewrite mapM_ext with (g := fun i => match nth_error (slices_from 0 ds) i with
        Some sl => Ok (Many (take_slice arg sl)) | None => Err EKey end) by reflexivity.
    rewrite (mapM_seq_nth (slices_from 0 ds) (fun sl => Many (take_slice arg sl)) EKey 0).
    + cbn [skipn]. rewrite <- (map_map (take_slice arg) Many), map_take_slices. reflexivity.
    + rewrite slices_from_length, <- Hl. simpl. now apply (have_widths_length (dW W)).
  - discriminate.
Qed.

Lemma mapM_mapM_transpose {A B C} (g : A -> B -> result C) (is_ : list A) (ts : list B) cols :
  Forall2 (fun t col => mapM (fun i => g i t) is_ = Ok col) ts cols ->
  exists rows, mapM (fun i => mapM (g i) ts) is_ = Ok rows /\ transposed (length is_) cols rows.
Proof.
  intros H. revert cols H. induction is_ as [|i r IH]; intros cols H.
  - exists []. split; [reflexivity|]. split; auto. intros i row E. destruct i; discriminate.
  - assert (H0 : exists heads tails, mapM (g i) ts = Ok heads /\
        Forall2 (fun t col => mapM (fun i => g i t) r = Ok col) ts tails /\
        length tails = length cols /\ length heads = length cols /\
        forall j c, nth_error cols j = Some c -> exists h t, nth_error heads j = Some h /\ nth_error tails j = Some t /\ c = h :: t).
    { clear IH. induction H as [|t col ts cols E F IHF].
      - exists [], []. repeat split; auto. intros [|j] c Hc; discriminate.
      - destruct IHF as (hs & tl & E1 & E2 & E3 & E4 & E5). cbn [mapM] in E. inv_bind.
        exists (a :: hs), (a0 :: tl). simpl. rewrite Hb, E1. simpl. repeat split; auto; try lia.
        intros [|j] c Hc; simpl in *; [injection Hc as <-; eauto | eauto]. }
    destruct H0 as (heads & tails & E1 & E2 & E3 & E4 & E5).
    destruct (IH tails E2) as (rows & R1 & R2 & R3).
    exists (heads :: rows). cbn [mapM]. rewrite E1, R1. simpl. split; auto. split; [simpl; lia|].
    intros [|k] row Hr; simpl in Hr.
    + injection Hr as <-. split; auto. intros j c Hc. destruct (E5 _ _ Hc) as (h & t & X & Y & ->).
      simpl. auto.
    + destruct (R3 _ _ Hr) as [X Y]. split; [lia|]. intros j c Hc.
      destruct (E5 _ _ Hc) as (h & t & X1 & Y1 & ->). simpl. eauto.
Qed.

(** ** Main statement: a scan is the sequence of callback calls on the correctly cut arguments. *)
Theorem scan_correct {V Y St} s (f : option Y -> idx_map -> list (piece V) -> St -> result (Y * St))
    tys args (reverse : bool) st ys st' :
  length (link_types s) = num_links s ->
  scan W s f tys args reverse st = Ok (ys, st') ->
  exists cols rows im outs,
    length args = length tys /\
    Forall2 (fun ta col => column_ok W (link_types s) (fst ta) (snd ta) col) (combine tys args) cols /\
    transposed (num_links s) cols rows /\
    slices_ok (qW W) (link_types s) (im_q im) /\ slices_ok (dW W) (link_types s) (im_d im) /\
    calls f im None st (if reverse then rev rows else rows) outs st' /\
    ys = (if reverse then rev outs else outs).
Proof.
  intros Hl H. unfold scan in H. inv_bind.
  apply Nat.eqb_eq in Ea. destruct a3 as [ys0 st0]. injection H as <- <-.
  apply (idx_slices_spec _ _ _ Hl) in Hb1. destruct Hb1 as (qs & Hq & ->).
  apply (idx_slices_spec _ _ _ Hl) in Hb2. destruct Hb2 as (ds & Hd & ->).
  apply mapM_Ok_iff in Hb0. set (targs := combine tys args) in *.
  set (im := mkIM (slices_from 0 qs) (slices_from 0 ds)) in *.
  assert (C : exists cols, Forall2 (fun ta col => column_ok W (link_types s) (fst ta) (snd ta) col) targs cols /\
     Forall2 (fun ta col => mapM (fun i => get_piece im i (fst ta) (snd ta)) (seq 0 (num_links s)) = Ok col) targs cols).
  { clear -Hb0 Hl Hq Hd. induction Hb0 as [|[t arg] u targs us Hc F IH].
    - exists []. split; constructor.
    - destruct IH as (cols & A & B). destruct u.
      destruct (get_piece_column s t arg qs ds Hl Hq Hd Hc) as (col & X & _ & Y).
      exists (col :: cols). split; constructor; auto. }
  destruct C as (cols & C1 & C2).
  destruct (mapM_mapM_transpose (fun i ta => get_piece im i (fst ta) (snd ta)) _ _ _ C2) as (rows & R1 & R2).
  rewrite seq_length in R2.
  apply scan_loop_calls in Hb3. destruct Hb3 as (rows' & outs & R3 & C3 & E). simpl in E. subst ys0.
  assert (ER : rows' = if reverse then rev rows else rows).
  { destruct reverse; [apply mapM_rev in R1|]; rewrite R1 in R3; injection R3 as <-; auto. }
  subst rows'. exists cols, rows, im, outs.
  split; auto. split; auto. split; auto. split.
  { exists qs. split; auto. simpl. rewrite slices_from_length. split; auto.
    intros i n Hn. rewrite (nth_slices_from _ _ _ _ Hn). reflexivity. }
  split; auto.
  { exists ds. split; auto. simpl. rewrite slices_from_length. split; auto.
    intros i n Hn. rewrite (nth_slices_from _ _ _ _ Hn). reflexivity. }
Qed.

(** Converse: correctly sized arguments are accepted, and the scan runs to the end exactly when the
    callback does. *)
Lemma column_ok_check {V} s t (arg : list V) col :
  length (link_types s) = num_links s ->
  column_ok W (link_types s) t arg col -> check_arg W s (t, arg) = Ok tt.
Proof.
  intros Hl H. destruct t; unfold check_arg; simpl in *.
  - destruct H as [H _]. rewrite H, Hl, Nat.eqb_refl. reflexivity.
  - destruct H as (ws & ps & Hw & Hs & _). unfold q_size.
    assert (T : total_width (qW W) (link_types s) = Ok (list_sum ws)) by (apply total_width_Ok; eauto).
    rewrite T. simpl. rewrite (splits_length _ _ _ Hs), Nat.eqb_refl. reflexivity.
  - destruct H as (ws & ps & Hw & Hs & _). unfold qd_size.
    assert (T : total_width (dW W) (link_types s) = Ok (list_sum ws)) by (apply total_width_Ok; eauto).
    rewrite T. simpl. rewrite (splits_length _ _ _ Hs), Nat.eqb_refl. reflexivity.
  - tauto.
Qed.

Lemma column_ok_unique {V} types t (arg : list V) c c' :
  column_ok W types t arg c -> column_ok W types t arg c' -> c = c'.
Proof.
  destruct t; simpl.
  - intros [_ ->] [_ ->]. auto.
  - intros (ws & ps & A & B & ->) (ws' & ps' & A' & B' & ->).
    rewrite (have_widths_unique _ _ _ _ A A') in *. f_equal. eapply splits_unique; eauto.
  - intros (ws & ps & A & B & ->) (ws' & ps' & A' & B' & ->).
    rewrite (have_widths_unique _ _ _ _ A A') in *. f_equal. eapply splits_unique; eauto.
  - tauto.
Qed.

Lemma slices_ok_eq w types sls ws : slices_ok w types sls -> have_widths w types ws -> sls = slices_from 0 ws.
Proof.
  intros (ws' & A & B & C) H. rewrite (have_widths_unique _ _ _ _ A H) in *.
  apply nth_error_ext. intros i. destruct (nth_error ws i) as [n|] eqn:E.
  - rewrite (C _ _ E), (nth_slices_from _ _ _ _ E). reflexivity.
  - apply nth_error_None in E.
    assert (X : nth_error sls i = None) by (apply nth_error_None; lia).
    assert (Y : nth_error (slices_from 0 ws) i = None) by (apply nth_error_None; rewrite slices_from_length; lia).
    congruence.
Qed.

Lemma transposed_unique {A} n (cols rows rows' : list (list A)) :
  transposed n cols rows -> transposed n cols rows' -> rows = rows'.
Proof.
  intros [L1 T1] [L2 T2]. apply nth_error_ext. intros i.
  destruct (nth_error rows i) as [r|] eqn:E1.
  - destruct (nth_error rows' i) as [r'|] eqn:E2.
    + f_equal. destruct (T1 _ _ E1) as [X1 Y1]. destruct (T2 _ _ E2) as [X2 Y2].
      apply nth_error_ext. intros j. destruct (nth_error cols j) as [c|] eqn:E.
      * rewrite (Y1 _ _ E), (Y2 _ _ E). reflexivity.
      * apply nth_error_None in E.
        assert (X : nth_error r j = None) by (apply nth_error_None; lia).
        assert (Y : nth_error r' j = None) by (apply nth_error_None; lia). congruence.
    + apply nth_error_None in E2. assert (i < length rows) by (apply nth_error_Some; congruence). lia.
  - destruct (nth_error rows' i) as [r'|] eqn:E2; auto.
    apply nth_error_None in E1. assert (i < length rows') by (apply nth_error_Some; congruence). lia.
Qed.

Theorem scan_complete {V Y St} s (f : option Y -> idx_map -> list (piece V) -> St -> result (Y * St))
    tys args (reverse : bool) st cols rows im outs st' :
  length (link_types s) = num_links s ->
  length args = length tys ->
  Forall2 (fun ta col => column_ok W (link_types s) (fst ta) (snd ta) col) (combine tys args) cols ->
  transposed (num_links s) cols rows ->
  slices_ok (qW W) (link_types s) (im_q im) -> slices_ok (dW W) (link_types s) (im_d im) ->
  calls f im None st (if reverse then rev rows else rows) outs st' ->
  scan W s f tys args reverse st = Ok (if reverse then rev outs else outs, st').
Proof.
  intros Hl Ha C T [qs [Hq Hq']] [ds [Hd Hd']] R. unfold scan.
  rewrite Ha, Nat.eqb_refl. cbn [bind assert_].
  assert (CH : mapM (check_arg W s) (combine tys args) = Ok (map (fun _ => tt) (combine tys args))).
  { clear -C Hl. induction C as [|[t a] c l l' X F IH]; auto. cbn [mapM map].
    cbn [fst snd] in X. rewrite (column_ok_check _ _ _ _ Hl X). simpl. rewrite IH. reflexivity. }
  rewrite CH. cbn [bind].
  assert (IQ : idx_slices (qW W) s = Ok (slices_from 0 qs)) by (apply (idx_slices_spec _ _ _ Hl); eauto).
  assert (ID : idx_slices (dW W) s = Ok (slices_from 0 ds)) by (apply (idx_slices_spec _ _ _ Hl); eauto).
  rewrite IQ, ID. cbn [bind].
  assert (EI : im = mkIM (slices_from 0 qs) (slices_from 0 ds)).
  { destruct im as [x y]. f_equal; eapply slices_ok_eq; eauto; eexists; eauto. }
  assert (C2 : Forall2 (fun ta col => mapM (fun i => get_piece im i (fst ta) (snd ta)) (seq 0 (num_links s)) = Ok col)
      (combine tys args) cols).
  { clear R T CH. induction C as [|[t a] c l l' X F IH]; constructor; auto.
    destruct (get_piece_column s t a qs ds Hl Hq Hd (column_ok_check _ _ _ _ Hl X)) as (c' & X' & _ & Y').
    simpl. subst im. rewrite Y'. f_equal. eapply column_ok_unique; eauto. }
  destruct (mapM_mapM_transpose (fun i ta => get_piece im i (fst ta) (snd ta)) _ _ _ C2) as (rows' & R1 & R2).
  rewrite seq_length in R2. rewrite (transposed_unique _ _ _ _ R2 T) in *.
  rewrite <- EI.
  assert (SL : scan_loop f im (combine tys args) (if reverse then rev (seq 0 (num_links s)) else seq 0 (num_links s))
     None st [] = Ok (outs, st')).
  { apply scan_loop_calls. exists (if reverse then rev rows else rows), outs. split; auto.
    destruct reverse; auto. now apply mapM_rev. }
  rewrite SL. reflexivity.
Qed.

(** A wrongly sized argument stops the scan with an assertion error, whatever the callback. *)
Theorem scan_rejects_sizes {V Y St} s (f : option Y -> idx_map -> list (piece V) -> St -> result (Y * St))
    tys args reverse st qs ds :
  have_widths (qW W) (link_types s) qs -> have_widths (dW W) (link_types s) ds ->
  ~ In TOther tys ->
  (length args <> length tys \/
   exists t arg, In (t, arg) (combine tys args) /\
     length arg <> match t with TL => num_links s | TQ => list_sum qs | _ => list_sum ds end) ->
  scan W s f tys args reverse st = Err EAssertion.
Proof.
  intros Hq Hd NB H. unfold scan.
  destruct (length args =? length tys) eqn:E; cbn [assert_ bind]; [|reflexivity].
  apply Nat.eqb_eq in E. destruct H as [H|(t & arg & Hin & Hne)]; [congruence|].
  assert (Q : q_size W s = Ok (list_sum qs)) by (apply total_width_Ok; eauto).
  assert (D : qd_size W s = Ok (list_sum ds)) by (apply total_width_Ok; eauto).
  assert (NB' : forall ta, In ta (combine tys args) -> fst ta <> TOther).
  { intros [t' a'] I X. simpl in X. subst. apply in_combine_l in I. auto. }
  assert (M : mapM (check_arg W s) (combine tys args) = Err EAssertion).
  { revert Hin NB'. generalize (combine tys args) as l. induction l as [|[t' a'] l IH]; simpl; [tauto|].
    intros [X|X] N.
    - injection X as -> ->.
      assert (CE : check_arg W s (t, arg) = Err EAssertion).
      { destruct t; unfold check_arg; simpl.
        - apply Nat.eqb_neq in Hne. now rewrite Hne.
        - rewrite Q. simpl. apply Nat.eqb_neq in Hne. now rewrite Hne.
        - rewrite D. simpl. apply Nat.eqb_neq in Hne. now rewrite Hne.
        - exfalso. apply (N (TOther, arg)); auto. }
      rewrite CE. reflexivity.
    - assert (CE : check_arg W s (t', a') = Ok tt \/ check_arg W s (t', a') = Err EAssertion).
      { destruct t'; unfold check_arg; simpl.
        - destruct (length a' =? num_links s); auto.
        - rewrite Q. simpl. destruct (length a' =? list_sum qs); auto.
        - rewrite D. simpl. destruct (length a' =? list_sum ds); auto.
        - exfalso. apply (N (TOther, a')); auto. }
      destruct CE as [-> | ->]; simpl; auto. rewrite IH; auto. }
  rewrite M. reflexivity.
Qed.

End Scan.

(** The recording scan used by delete, morph and joint-type changes is a scan of the code. *)
Theorem scan_collects_slices {K L G O} W (s : System K L G O) xs ps qs ds :
  length (link_types s) = num_links s ->
  have_widths (qW W) (link_types s) qs -> have_widths (dW W) (link_types s) ds ->
  slices_of (qW W) s xs = Ok ps ->
  scan W s (fun (_ : option unit) _ pcs acc =>
              match pcs with [Many v] => Ok (tt, acc ++ [v]) | _ => Err EOther end)
       [TQ] [xs] false [] = Ok (repeat tt (num_links s), ps).
Proof.
  intros Hl Hq Hd H. apply (slices_of_spec _ _ _ _ Hl) in H. destruct H as (ws & Hw & Hs).
  assert (Lp : length ps = num_links s).
  { destruct Hs as [Hs _]. apply (f_equal (@length nat)) in Hs. rewrite map_length in Hs.
    rewrite Hs, <- Hl. symmetry. now apply (have_widths_length (qW W)). }
  rewrite <- Lp.
  refine (scan_complete W s _ [TQ] [xs] false _ [map Many ps] (map (fun p => [Many p]) ps)
      (mkIM (slices_from 0 qs) (slices_from 0 ds)) (repeat tt (length ps)) _ Hl eq_refl _ _ _ _ _).
  - repeat constructor. simpl. eauto.
  - split; [now rewrite map_length|]. intros i row E. rewrite nth_error_map in E.
    destruct (nth_error ps i) as [p|] eqn:EP; [|discriminate]. injection E as <-. split; auto.
    intros [|j] c Ec; simpl in *; [|destruct j; discriminate]. injection Ec as <-.
    rewrite nth_error_map, EP. reflexivity.
  - exists qs. simpl. rewrite slices_from_length. repeat split; auto. intros i n E.
    now rewrite (nth_slices_from _ _ _ _ E).
  - exists ds. simpl. rewrite slices_from_length. repeat split; auto. intros i n E.
    now rewrite (nth_slices_from _ _ _ _ E).
  - assert (G0 : forall (l acc : list (list K)) y, calls (fun (_ : option unit) (_ : idx_map) (pcs : list (piece K)) acc =>
              match pcs with [Many v] => Ok (tt, acc ++ [v]) | _ => Err EOther end)
        (mkIM (slices_from 0 qs) (slices_from 0 ds)) y acc (map (fun p => [Many p]) l) (repeat tt (length l)) (acc ++ l)).
    { induction l as [|p l IH]; intros acc y; simpl.
      - rewrite app_nil_r. constructor.
      - econstructor; [reflexivity|]. specialize (IH (acc ++ [p]) (Some tt)).
        rewrite <- app_assoc in IH. exact IH. }
    apply (G0 ps []).
Qed.
