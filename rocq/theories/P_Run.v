(** * Running a scan: a functional view of [scan] for numeric algorithms. *)
From Coq Require Import Reals String ZArith Lia Bool List.
From Verif Require Import Prelude M_Sys S_Sys P_Scan M_Math M_Geom M_Joint M_Kin.
Import ListNotations.

(** The calls of a scan in sequence. *)
Fixpoint run {V Y St} (f : option Y -> idx_map -> list (piece V) -> St -> result (Y * St)) (im : idx_map)
    (y : option Y) (st : St) (rows : list (list (piece V))) : result (list Y * St) :=
  match rows with
  | [] => Ok ([], st)
  | row :: r => do a <- f y im row st; do b <- run f im (Some (fst a)) (snd a) r; Ok (fst a :: fst b, snd b)
  end.

Lemma scan_loop_run {V Y St} (f : option Y -> idx_map -> list (piece V) -> St -> result (Y * St)) im targs row :
  forall order y st acc,
  (forall i, In i order -> mapM (fun ta => get_piece im i (fst ta) (snd ta)) targs = Ok (row i)) ->
  scan_loop f im targs order y st acc = do r <- run f im y st (map row order); Ok (acc ++ fst r, snd r).
Proof.
  induction order as [|i r IH]; intros y st acc H; cbn [scan_loop map run].
  - cbn. now rewrite app_nil_r.
  - rewrite H by (now left). cbn [bind]. destruct (f y im (row i) st) as [[y1 st1]|e]; cbn [bind fst snd]; auto.
    rewrite IH by (intros; apply H; now right).
    destruct (run f im (Some y1) st1 (map row r)) as [[ys st2]|e]; cbn [bind fst snd]; auto.
    now rewrite <- app_assoc.
Qed.

(** An argument of a scan described link by link. *)
Definition arg_ok {V} (W : widths) (qs ds : list nat) (n : nat) (t : in_type) (arg : list V) (c : nat -> piece V) : Prop :=
  match t with
  | TL => length arg = n /\ forall i, i < n -> exists v, nth_error arg i = Some v /\ c i = One v
  | TQ => length arg = list_sum qs /\ forall i, i < n -> c i = Many (nth i (split_by qs arg) [])
  | TD => length arg = list_sum ds /\ forall i, i < n -> c i = Many (nth i (split_by ds arg) [])
  | TOther => False
  end.

Lemma nth_split_by {V} ws : forall (xs : list V) i w, nth_error ws i = Some w ->
  nth i (split_by ws xs) [] = firstn w (skipn (list_sum (firstn i ws)) xs).
Proof.
  induction ws as [|w r IH]; intros xs [|i] w' H; cbn [nth_error split_by nth firstn] in *; try discriminate.
  - injection H as ->. reflexivity.
  - rewrite (IH _ _ _ H). rewrite list_sum_cons, skipn_skipn. reflexivity.
Qed.

Section Run.
Context {K L G O : Type} (W : widths) (s : System K L G O) (qs ds : list nat).
Hypothesis Hl : length (link_types s) = num_links s.
Hypothesis Hq : have_widths (qW W) (link_types s) qs.
Hypothesis Hd : have_widths (dW W) (link_types s) ds.
Notation n := (num_links s).
Notation im := (mkIM (slices_from 0 qs) (slices_from 0 ds)).

Lemma arg_ok_check {V} t (arg : list V) c : arg_ok W qs ds n t arg c -> check_arg W s (t, arg) = Ok tt.
Proof.
  unfold check_arg, q_size, qd_size. destruct t; cbn [fst snd arg_ok].
  - intros [-> _]. unfold assert_. now rewrite Nat.eqb_refl.
  - intros [E _]. assert (T : total_width (qW W) (link_types s) = Ok (list_sum qs)) by (apply total_width_Ok; eauto).
    rewrite T. cbn. unfold assert_. now rewrite E, Nat.eqb_refl.
  - intros [E _]. assert (T : total_width (dW W) (link_types s) = Ok (list_sum ds)) by (apply total_width_Ok; eauto).
    rewrite T. cbn. unfold assert_. now rewrite E, Nat.eqb_refl.
  - tauto.
Qed.

Lemma arg_ok_piece {V} t (arg : list V) c i : i < n -> arg_ok W qs ds n t arg c ->
  get_piece im i t arg = Ok (c i).
Proof.
  intros Hi. destruct t; cbn [get_piece arg_ok im_q im_d].
  - intros [_ H]. destruct (H i Hi) as (v & -> & ->). reflexivity.
  - intros [_ H]. rewrite (H i Hi). destruct (nth_error qs i) as [w|] eqn:E.
    + rewrite (nth_slices_from _ 0 _ _ E), take_slice_skip, (nth_split_by _ _ _ _ E). reflexivity.
    + apply nth_error_None in E. apply have_widths_length in Hq. lia.
  - intros [_ H]. rewrite (H i Hi). destruct (nth_error ds i) as [w|] eqn:E.
    + rewrite (nth_slices_from _ 0 _ _ E), take_slice_skip, (nth_split_by _ _ _ _ E). reflexivity.
    + apply nth_error_None in E. apply have_widths_length in Hd. lia.
  - tauto.
Qed.

(** A scan whose arguments are described by the columns [cs] is a run over the rows. *)
Lemma scan_run {V Y St} (f : option Y -> idx_map -> list (piece V) -> St -> result (Y * St)) tys args
    (cs : list (nat -> piece V)) (reverse : bool) st :
  length args = length tys ->
  Forall2 (fun ta c => arg_ok W qs ds n (fst ta) (snd ta) c) (combine tys args) cs ->
  scan W s f tys args reverse st =
  let order := if reverse then rev (seq 0 n) else seq 0 n in
  do r <- run f im None st (map (fun i => map (fun c => c i) cs) order);
  Ok (if reverse then rev (fst r) else fst r, snd r).
Proof.
  intros Ha F. unfold scan. rewrite <- Ha. unfold assert_. rewrite Nat.eqb_refl. cbn [bind].
  assert (E1 : mapM (check_arg W s) (combine tys args) = Ok (map (fun _ => tt) (combine tys args))).
  { clear Ha. induction F as [|[t a] c tas cs H F IH]; cbn [mapM map]; auto. cbn [fst snd] in H.
    rewrite (arg_ok_check _ _ _ H), IH. reflexivity. }
  rewrite E1. cbn [bind].
  assert (E2 : idx_slices (qW W) s = Ok (slices_from 0 qs)) by (apply idx_slices_spec; eauto).
  assert (E3 : idx_slices (dW W) s = Ok (slices_from 0 ds)) by (apply idx_slices_spec; eauto).
  rewrite E2, E3. cbn [bind]. cbv zeta.
  rewrite (scan_loop_run _ _ _ (fun i => map (fun c => c i) cs)).
  - destruct (run _ _ _ _ _) as [[ys st']|e]; cbn [bind fst snd app]; auto.
  - intros i Hi. assert (i < n). { destruct reverse; [apply in_rev in Hi|]; apply in_seq in Hi; lia. }
    clear Ha E1. induction F as [|[t a] c tas cs0 Hx F IH]; cbn [mapM map fst snd] in *; auto.
    rewrite (arg_ok_piece _ _ _ _ H Hx), IH. reflexivity.
Qed.
End Run.

(** Columns for the usual arguments. *)
Section Cols.
Context {P : Type} (W : widths) (qs ds : list nat) (n : nat).
Definition col {A} (g : A -> arg P) (l : list A) (d : A) : nat -> piece (arg P) := fun i => One (g (nth i l d)).
Lemma arg_ok_col {A} (g : A -> arg P) l d : length l = n -> arg_ok W qs ds n TL (map g l) (col g l d).
Proof.
  intros H. split; [now rewrite map_length|]. intros i Hi. exists (g (nth i l d)). split; auto.
  rewrite nth_error_map, nth_error_nth' with (d := d) by lia. reflexivity.
Qed.
Lemma arg_ok_ints : arg_ok W qs ds n TL (@ints P n) (fun i => One (AInt (Z.of_nat i))).
Proof.
  split; [unfold ints; now rewrite map_length, seq_length|]. intros i Hi. exists (AInt (Z.of_nat i)). split; auto.
  unfold ints. now rewrite nth_map_seq.
Qed.
Definition cut (ws : list nat) (q : list R) (i : nat) : list R := nth i (split_by ws q) [].
Lemma split_by_map {A B} (g : A -> B) ws : forall xs, split_by ws (map g xs) = map (map g) (split_by ws xs).
Proof. induction ws as [|w r IH]; intros xs; cbn; auto. now rewrite firstn_map, <- IH, skipn_map. Qed.
Definition numcol (ws : list nat) (q : list R) : nat -> piece (arg P) := fun i => Many (map ANum (cut ws q i)).
Lemma numcol_split ws q i : numcol ws q i = Many (nth i (split_by ws (map ANum q)) []).
Proof. unfold numcol, cut. rewrite split_by_map. f_equal. symmetry. exact (map_nth (map ANum) (split_by ws q) [] i). Qed.
Lemma arg_ok_q q : length q = list_sum qs -> arg_ok W qs ds n TQ (map ANum q) (numcol qs q).
Proof. intros H. split; [now rewrite map_length|]. intros i _. apply numcol_split. Qed.
Lemma arg_ok_d q : length q = list_sum ds -> arg_ok W qs ds n TD (map ANum q) (numcol ds q).
Proof. intros H. split; [now rewrite map_length|]. intros i _. apply numcol_split. Qed.
Lemma nums_map q : @nums P (map ANum q) = q.
Proof. unfold nums. rewrite map_map. apply map_id. Qed.
Lemma cut_length ws q i w : length q = list_sum ws -> nth_error ws i = Some w -> length (cut ws q i) = w.
Proof.
  intros H E. destruct (split_by_splits ws q H) as [A B]. unfold cut. rewrite <- A, nth_error_map in E.
  destruct (nth_error (split_by ws q) i) as [x|] eqn:X; cbn in E; [|discriminate].
  apply nth_error_nth with (d := []) in X. rewrite X. congruence.
Qed.
Lemma concat_cuts ws q : length q = list_sum ws -> concat (map (cut ws q) (seq 0 (length ws))) = q.
Proof.
  intros H. destruct (split_by_splits ws q H) as [A B]. rewrite <- B at 2. f_equal.
  rewrite <- (split_by_length ws q). unfold cut. generalize (split_by ws q). intros l.
  apply nth_ext with (d := []) (d' := []).
  - now rewrite map_length, seq_length.
  - intros k Hk. rewrite map_length, seq_length in Hk.
    apply nth_error_nth. rewrite nth_map_seq; [reflexivity|lia].
Qed.
End Cols.

(** Callbacks that append one array per link to a list. *)
Lemma run_append {V A} (f : option unit -> idx_map -> list (piece V) -> list A -> result (unit * list A)) im row (g : nat -> result A) :
  forall order y st, (forall y st i, In i order -> f y im (row i) st = do v <- g i; Ok (tt, st ++ [v])) ->
  run f im y st (map row order) = do vs <- mapM g order; Ok (map (fun _ => tt) order, st ++ vs).
Proof.
  induction order as [|i r IH]; intros y st H; cbn [map run mapM].
  - cbn. now rewrite app_nil_r.
  - rewrite H by now left. destruct (g i) as [v|e]; cbn [bind fst snd]; auto.
    rewrite IH by (intros; apply H; now right). destruct (mapM g r) as [vs|e]; cbn [bind fst snd]; auto.
    now rewrite <- app_assoc.
Qed.
Lemma mapM_all_Ok {A B} (f : A -> result B) (g : A -> B) l : (forall x, In x l -> f x = Ok (g x)) -> mapM f l = Ok (map g l).
Proof. induction l; cbn [mapM map]; intros H; auto. rewrite H by now left. rewrite IHl by (intros; apply H; now right). reflexivity. Qed.
Lemma mapM_exists {A B} (f : A -> result B) l : (forall x, In x l -> exists y, f x = Ok y) -> exists l', mapM f l = Ok l'.
Proof.
  induction l as [|x r IH]; cbn [mapM]; intros H; [eauto|]. destruct (H x (or_introl eq_refl)) as [y ->].
  destruct IH as [l' ->]; [intros; apply H; now right|]. cbn. eauto.
Qed.
Lemma mapM_nth {A B} (f : A -> result B) : forall l l', mapM f l = Ok l' ->
  length l' = length l /\ forall i x, nth_error l i = Some x -> exists y, nth_error l' i = Some y /\ f x = Ok y.
Proof.
  induction l as [|x r IH]; cbn [mapM]; intros l' H.
  - injection H as <-. split; auto. intros [|i]; discriminate.
  - inv_bind. destruct (IH _ Hb0) as [L F]. split; [simpl; lia|]. intros [|i] y E; cbn [nth_error] in *.
    + injection E as <-. eauto.
    + auto.
Qed.
