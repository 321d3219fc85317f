(** * Lemmas about the PD controller. *)
From Coq Require Import Reals Lra String ZArith Lia Bool List.
From Verif Require Import Prelude M_Sys S_Sys P_Scan P_Run M_Math M_Geom M_Joint M_Kin M_Dyn S_Kin P_Kin C_State P_Step C_Union M_Pd.
Import ListNotations.

(** ** Arrays *)
Lemma zipw_nth f : forall a b i, i < length a -> i < length b -> nth i (zipw f a b) 0%R = f (nth i a 0%R) (nth i b 0%R).
Proof. induction a as [|x a IH]; intros [|y b] [|i] A B; cbn in *; try lia; auto. apply IH; lia. Qed.
Lemma transpose_length w rows : length (transpose w rows) = w.
Proof. unfold transpose. now rewrite map_length, seq_length. Qed.
Lemma getR_firstn_skipn row off w k : k < w -> getR (firstn w (skipn off row)) k = getR row (off + k).
Proof.
  intros H. unfold getR. destruct (Nat.lt_ge_cases (off + k) (length row)) as [L|L].
  - rewrite <- (firstn_skipn off row) at 2. rewrite app_nth2 by (rewrite firstn_length; lia).
    rewrite firstn_length, Nat.min_l by lia. replace (off + k - off) with k by lia.
    rewrite <- (firstn_skipn w (skipn off row)) at 2. rewrite app_nth1; [reflexivity|]. rewrite firstn_length, skipn_length. lia.
  - rewrite !nth_overflow; auto. rewrite firstn_length, skipn_length. lia.
Qed.
(** The columns of one link, read as rows again. *)
Lemma skipn_seq a : forall b c, skipn a (seq b c) = seq (b + a) (c - a).
Proof.
  induction a as [|a IH]; intros b c; [now rewrite Nat.add_0_r, Nat.sub_0_r|]. destruct c as [|c]; [reflexivity|].
  cbn [seq skipn]. rewrite IH. cbn [Nat.sub]. f_equal. lia.
Qed.
Lemma firstn_seq w : forall b c, w <= c -> firstn w (seq b c) = seq b w.
Proof. induction w as [|w IH]; intros b [|c] H; cbn [seq firstn]; auto; [lia|]. f_equal. apply IH. lia. Qed.
Lemma transpose_map w T (cols : list (list R)) : length cols = w ->
  transpose T cols = map (fun t => map (fun k => getR (nth k cols []) t) (seq 0 w)) (seq 0 T).
Proof.
  intros <-. unfold transpose. apply map_ext. intros t. rewrite <- (map_seq_nth cols []) at 1. now rewrite map_map.
Qed.
Lemma sub_transpose w off m rows : off + w <= m -> Forall (fun row => length row = m) rows ->
  transpose (length rows) (firstn w (skipn off (transpose m rows))) = map (fun row => firstn w (skipn off row)) rows.
Proof.
  intros B F. unfold transpose at 2. rewrite skipn_map, firstn_map, skipn_seq, firstn_seq by lia. cbn [Nat.add].
  rewrite (transpose_map w) by (now rewrite map_length, seq_length).
  transitivity (map (fun row => firstn w (skipn off row)) (map (fun t => nth t rows []) (seq 0 (length rows)))); [|now rewrite map_seq_nth].
  rewrite map_map. apply map_ext_in. intros t Ht. apply in_seq in Ht.
  assert (L : length (nth t rows []) = m) by (rewrite Forall_forall in F; apply F, nth_In; lia).
  assert (L2 : length (firstn w (skipn off (nth t rows []))) = w) by (rewrite firstn_length, skipn_length; lia).
  transitivity (map (fun k => nth k (firstn w (skipn off (nth t rows []))) 0%R) (seq 0 w)).
  2:{ revert L2. generalize (firstn w (skipn off (nth t rows []))). intros l <-. apply map_seq_nth. }
  apply map_ext_in. intros k Hk. apply in_seq in Hk. unfold getR.
  rewrite nth_indep with (d' := (fun j => map (fun row => getR row j) rows) 0) by (rewrite map_length, seq_length; lia).
  rewrite (map_nth (fun j => map (fun row => getR row j) rows)), seq_nth by lia.
  rewrite nth_indep with (d' := (fun row => getR row (off + k)) []) by (rewrite map_length; lia).
  rewrite (map_nth (fun row => getR row (off + k))). symmetry. apply (getR_firstn_skipn (nth t rows [])). lia.
Qed.
Lemma sum_firstn_le ws : forall i w, nth_error ws i = Some w -> list_sum (firstn i ws) + w <= list_sum ws.
Proof.
  induction ws as [|a r IH]; intros [|i] w H; try discriminate; cbn [nth_error firstn] in *; rewrite ?list_sum_cons.
  - injection H as ->. cbn. lia.
  - specialize (IH _ _ H). lia.
Qed.
Lemma link_columns ws rows j w : nth_error ws j = Some w -> Forall (fun row => length row = list_sum ws) rows ->
  transpose (length rows) (nth j (split_by ws (transpose (list_sum ws) rows)) []) = map (fun row => cut ws row j) rows.
Proof.
  intros E F. rewrite (nth_split_by _ _ _ _ E). rewrite sub_transpose; auto.
  - apply map_ext. intros row. unfold cut. now rewrite (nth_split_by _ _ _ _ E).
  - now apply sum_firstn_le.
Qed.

Lemma bcast_same f a b : length a = length b -> bcast f a b = Ok (zipw f a b).
Proof. intros E. unfold bcast. now rewrite E, Nat.eqb_refl. Qed.
Lemma set_slice_mid (a z b v : list R) : length v = length z ->
  set_slice (a ++ z ++ b) (length a, length a + length z) v = Ok (a ++ v ++ b).
Proof.
  intros E. unfold set_slice, take_slice. cbn [fst snd].
  replace (length a + length z - length a) with (length z) by lia.
  assert (S : skipn (length a) (a ++ z ++ b) = z ++ b).
  { rewrite skipn_app, skipn_all, Nat.sub_diag. reflexivity. }
  rewrite S. rewrite firstn_app, firstn_all, Nat.sub_diag. cbn [firstn]. rewrite app_nil_r, E, Nat.eqb_refl.
  rewrite firstn_app, firstn_all, Nat.sub_diag. cbn [firstn]. rewrite app_nil_r. f_equal. f_equal. f_equal.
  rewrite skipn_app. rewrite skipn_all2 by lia.
  replace (length a + length z - length a) with (length z) by lia. cbn [app].
  rewrite skipn_app, skipn_all, Nat.sub_diag. reflexivity.
Qed.

(** ** Dicts built link by link *)
Lemma dget_names {V} (names : list string) (v : nat -> V) : NoDup names -> forall j name, nth_error names j = Some name ->
  dget String.eqb (map (fun j => (nth j names ""%string, v j)) (seq 0 (length names))) name = Some (v j).
Proof.
  intros N j name E. apply dget_NoDup_In.
  - rewrite map_map. cbn [fst]. now rewrite map_seq_nth.
  - apply in_map_iff. exists j. split; [now rewrite (nth_error_nth _ _ _ E)|]. apply in_seq.
    assert (j < length names) by (apply nth_error_Some; congruence). lia.
Qed.
Lemma dget_names_None {V} (names : list string) (v : nat -> V) name : ~ In name names ->
  dget String.eqb (map (fun j => (nth j names ""%string, v j)) (seq 0 (length names))) name = None.
Proof. intros N. apply dget_None_iff. rewrite map_map. cbn [fst]. now rewrite map_seq_nth. Qed.
Lemma dset_names {V} (names : list string) (v : nat -> V) k x : NoDup names -> k < length names -> x = v k ->
  dset String.eqb (map (fun j => (nth j names ""%string, v j)) (seq 0 k)) (nth k names ""%string) x
  = map (fun j => (nth j names ""%string, v j)) (seq 0 (S k)).
Proof.
  intros N K ->. rewrite seq_S, map_app. cbn [map Nat.add]. apply dset_fresh. apply dget_None_iff. rewrite map_map. cbn [fst].
  intros I. apply in_map_iff in I. destruct I as (j & E & J). apply in_seq in J.
  assert (j = k); [|lia]. rewrite (NoDup_nth names ""%string) in N. apply N; [lia|auto|exact E].
Qed.

(** ** Columns of the scans *)
Definition bcol {A} (g : A -> pd_arg) (l : list A) (d : A) : nat -> piece pd_arg := fun i => One (g (nth i l d)).
Definition bnumcol (ws : list nat) (q : list R) : nat -> piece pd_arg := fun i => Many (map BNum (cut ws q i)).
Definition browcol (ws : list nat) (cols : list (list R)) : nat -> piece pd_arg := fun i => Many (map BRow (nth i (split_by ws cols) [])).
Section Cols.
Variables (W : widths) (qs ds : list nat) (n : nat).
Lemma arg_ok_bcol {A} (g : A -> pd_arg) l d : length l = n -> arg_ok W qs ds n TL (map g l) (bcol g l d).
Proof.
  intros H. split; [now rewrite map_length|]. intros i Hi. exists (g (nth i l d)). split; auto.
  rewrite nth_error_map, nth_error_nth' with (d := d) by lia. reflexivity.
Qed.
Lemma arg_ok_bint : arg_ok W qs ds n TL (map BInt (seq 0 n)) (fun i => One (BInt i)).
Proof.
  split; [now rewrite map_length, seq_length|]. intros i Hi. exists (BInt i). split; auto. now rewrite nth_map_seq.
Qed.
Lemma bnumcol_split ws q i : bnumcol ws q i = Many (nth i (split_by ws (map BNum q)) []).
Proof. unfold bnumcol, cut. rewrite split_by_map. f_equal. symmetry. exact (map_nth (map BNum) (split_by ws q) [] i). Qed.
Lemma arg_ok_bq q : length q = list_sum qs -> arg_ok W qs ds n TQ (map BNum q) (bnumcol qs q).
Proof. intros H. split; [now rewrite map_length|]. intros i _. apply bnumcol_split. Qed.
Lemma arg_ok_bd q : length q = list_sum ds -> arg_ok W qs ds n TD (map BNum q) (bnumcol ds q).
Proof. intros H. split; [now rewrite map_length|]. intros i _. apply bnumcol_split. Qed.
Lemma arg_ok_brow cols : length cols = list_sum qs -> arg_ok W qs ds n TQ (map BRow cols) (browcol qs cols).
Proof.
  intros H. split; [now rewrite map_length|]. intros i _. unfold browcol. rewrite split_by_map. f_equal.
  symmetry. exact (map_nth (map BRow) (split_by qs cols) [] i).
Qed.
End Cols.
Lemma bnums_map q : bnums (map BNum q) = q.
Proof. unfold bnums. rewrite map_map. apply map_id. Qed.
Lemma brows_map q : brows (map BRow q) = q.
Proof. unfold brows. rewrite map_map. apply map_id. Qed.
