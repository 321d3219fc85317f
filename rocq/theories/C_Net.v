(** * C87.  The layers of the networks: states and outputs stay bounded for ever; RNNO v1 works online. *)
From Coq Require Import Reals Lra Lia ZArith String Bool Arith List.
From Verif Require Import Prelude M_Dyn M_Ring M_Filter M_Net S_Net P_Mat.
Import ListNotations.
Local Open Scope R_scope.

(** ** The functions *)
Lemma sigmoid_pos x : 0 < sigmoid x < 1.
Proof.
  unfold sigmoid. pose proof (exp_pos (- x)) as P. split; [apply Rinv_0_lt_compat; lra|].
  rewrite <- Rinv_1. apply Rinv_lt_contravar; lra.
Qed.
Lemma sigmoid_mono x y : x <= y -> sigmoid x <= sigmoid y.
Proof.
  intros H. unfold sigmoid. pose proof (exp_pos (- y)). apply Rinv_le_contravar; [lra|].
  destruct (Req_dec x y) as [->|N]; [lra|]. assert (exp (- y) < exp (- x)) by (apply exp_increasing; lra). lra.
Qed.
Lemma tanh_bound x : -1 < tanh x < 1.
Proof.
  unfold tanh, sinh, cosh. pose proof (exp_pos x). pose proof (exp_pos (- x)).
  replace ((exp x - exp (- x)) / 2 / ((exp x + exp (- x)) / 2)) with ((exp x - exp (- x)) / (exp x + exp (- x))) by (field; lra).
  split; [apply Rmult_lt_reg_r with (exp x + exp (- x))|apply Rmult_lt_reg_r with (exp x + exp (- x))]; try lra;
  unfold Rdiv; rewrite Rmult_assoc, Rinv_l by lra; lra.
Qed.
Lemma Rabs_le_inv a b : Rabs a <= b -> - b <= a <= b.
Proof. intros H. pose proof (Rle_abs a). pose proof (Rle_abs (- a)) as Q. rewrite Rabs_Ropp in Q. lra. Qed.
Lemma within_at B v i : 0 <= B -> within B v -> Rabs (at_ v i) <= B.
Proof.
  intros P W. unfold at_. destruct (nth_in_or_default i v 0) as [I|E]; [exact (proj1 (Forall_forall _ _) W _ I)|].
  rewrite E, Rabs_R0. exact P.
Qed.
Lemma within_mono B B' v : B <= B' -> within B v -> within B' v.
Proof. intros H. apply Forall_impl. intros; lra. Qed.
Lemma within_build B n f : (forall i, (i < n)%nat -> Rabs (f i) <= B) -> within B (build n f).
Proof. intros H. apply Forall_forall. intros x I. apply in_map_iff in I. destruct I as (i & <- & I). apply H. apply in_seq in I. lia. Qed.
Lemma build_length n f : length (build n f) = n.
Proof. unfold build. now rewrite map_length, seq_length. Qed.
Lemma at_build n f i : (i < n)%nat -> at_ (build n f) i = f i.
Proof.
  intros H. unfold at_, build. rewrite (nth_indep _ 0 (f 0%nat)) by (now rewrite map_length, seq_length).
  rewrite map_nth. f_equal. now apply seq_nth.
Qed.
Lemma within_app B a b : within B a -> within B b -> within B (a ++ b).
Proof. intros. apply Forall_app. auto. Qed.
Lemma within_zeros n : within 0 (repeat 0 n).
Proof. apply Forall_forall. intros x I. apply repeat_spec in I. subst. rewrite Rabs_R0. lra. Qed.
Lemma small_app L L' B a b : small L B a -> small L' B b -> small (L + L') B (a ++ b).
Proof. intros [A A'] [C C']. split; [rewrite app_length; lia|now apply within_app]. Qed.
Lemma small_mono L L' B B' v : (L <= L')%nat -> B <= B' -> small L B v -> small L' B' v.
Proof. intros A A' [C C']. split; [lia|eauto using within_mono]. Qed.

Lemma sumR_abs n f : Rabs (sumR n f) <= sumR n (fun k => Rabs (f k)).
Proof.
  induction n as [|n IH]; cbn [sumR]; [rewrite Rabs_R0; lra|]. eapply Rle_trans; [apply Rabs_triang|]. lra.
Qed.
Lemma sumR_le n f g : (forall k, (k < n)%nat -> f k <= g k) -> sumR n f <= sumR n g.
Proof. intros H. induction n as [|n IH]; cbn [sumR]; [lra|]. specialize (IH ltac:(intros; apply H; lia)). specialize (H n ltac:(lia)). lra. Qed.
Lemma sumR_more n m f : (n <= m)%nat -> (forall k, 0 <= f k) -> sumR n f <= sumR m f.
Proof. intros H P. induction H as [|m H IH]; [lra|]. cbn [sumR]. specialize (P m). lra. Qed.
(** A bound of a column for small vectors *)
Definition col_bound (w : nat -> nat -> R) (L : nat) (B : R) (j : nat) : R := sumR L (fun i => Rabs B * Rabs (w i j)).
Lemma col_bound_ok w L B j v : small L B v -> Rabs (col w v j) <= col_bound w L B j.
Proof.
  intros [H W]. unfold col, col_bound. eapply Rle_trans; [apply sumR_abs|].
  eapply Rle_trans; [apply sumR_le with (g := fun i => Rabs B * Rabs (w i j))|].
  - intros k Hk. rewrite Rabs_mult. apply Rmult_le_compat_r; [apply Rabs_pos|].
    assert (W' : within (Rabs B) v) by (eapply within_mono; [apply Rle_abs|exact W]). apply within_at; [apply Rabs_pos|exact W'].
  - apply sumR_more; [exact H|]. intros k. apply Rmult_le_pos; apply Rabs_pos.
Qed.
Lemma sumR_term n f i : (i < n)%nat -> (forall k, 0 <= f k) -> f i <= sumR n f.
Proof.
  intros H P. induction n as [|n IH]; [lia|]. cbn [sumR]. pose proof (P n). destruct (Nat.eq_dec i n) as [->|N].
  - pose proof (sumR_nonneg n f (fun k _ => P k)). lra.
  - specialize (IH ltac:(lia)). lra.
Qed.

(** ** Tame functions *)
Lemma tame_id : tame (fun v => v).
Proof. intros L B. exists L, B. auto. Qed.
Lemma tame_comp f g : tame f -> tame g -> tame (fun v => g (f v)).
Proof.
  intros F G L B. destruct (F L B) as (L1 & B1 & H1). destruct (G L1 B1) as (L2 & B2 & H2). exists L2, B2. auto.
Qed.
Lemma tame_affine l : tame (affine l).
Proof.
  intros L B. exists (l_out l), (sumR (l_out l) (fun j => Rabs (col_bound (l_w l) L B j + Rabs (l_b l j)))). intros v S. split; [unfold affine; rewrite build_length; lia|].
  apply within_build. intros i Hi. eapply Rle_trans; [apply Rabs_triang|]. pose proof (col_bound_ok (l_w l) L B i v S) as C.
  eapply Rle_trans; [|apply (sumR_term (l_out l) (fun j => Rabs (col_bound (l_w l) L B j + Rabs (l_b l j))) i Hi)]; [|intros; apply Rabs_pos].
  cbv beta. eapply Rle_trans; [|apply Rle_abs]. lra.
Qed.
Definition tame1 (act : R -> R) : Prop := exists a b, 0 <= a /\ forall x, Rabs (act x) <= a * Rabs x + b.
Lemma tame_map act : tame1 act -> tame (map act).
Proof.
  intros (a & b & P & H) L B. exists L, (a * B + b). intros v [A W]. split; [now rewrite map_length|].
  apply Forall_forall. intros y I. apply in_map_iff in I. destruct I as (x & <- & I). specialize (H x).
  pose proof (proj1 (Forall_forall _ _) W _ I) as Q. cbv beta in Q. pose proof (Rmult_le_compat_l a _ _ P Q). lra.
Qed.
Lemma tame1_relu : tame1 relu.
Proof. exists 1, 0. split; [lra|]. intros x. unfold relu, Rmax. destruct (Rle_dec x 0); [rewrite Rabs_R0; pose proof (Rabs_pos x)|]; lra. Qed.
Lemma tame1_elu : tame1 elu.
Proof.
  exists 1, 1. split; [lra|]. intros x. unfold elu. destruct (Rlt_dec 0 x); [lra|]. pose proof (exp_pos x).
  assert (exp x <= 1). { destruct (Req_dec x 0) as [->|N]; [rewrite exp_0; lra|]. rewrite <- exp_0. left. apply exp_increasing. lra. }
  pose proof (Rabs_pos x). rewrite Rabs_left1; lra.
Qed.
Lemma tame_mlp act ls : tame1 act -> tame (mlp act ls).
Proof.
  intros A. induction ls as [|l [|l' r] IH]; [apply tame_id|apply tame_affine|].
  change (tame (fun x => mlp act (l' :: r) (map act (affine l x)))). apply (tame_comp (fun x => map act (affine l x))); [|exact IH].
  apply (tame_comp (affine l)); [apply tame_affine|now apply tame_map].
Qed.
Lemma variance_nonneg x : 0 <= variance x.
Proof.
  unfold variance. destruct (length x) as [|n] eqn:E; [cbn [sumR INR]; unfold Rdiv; rewrite Rmult_0_l; lra|].
  apply Rmult_le_pos; [apply sumR_nonneg; intros; apply pow2_ge_0|]. left. apply Rinv_0_lt_compat. apply lt_0_INR. lia.
Qed.
Lemma eps_pos : 0 < eps. Proof. unfold eps. apply Rinv_0_lt_compat. apply pow_lt. lra. Qed.
Lemma tame_norm n : tame (layer_norm n).
Proof.
  intros L B. exists L, (sumR L (fun i => Rabs (n_scale n i) * / sqrt eps * (2 * Rabs B) + Rabs (n_offset n i))). intros v [H W].
  split; [unfold layer_norm; now rewrite build_length|]. pose proof eps_pos as E. pose proof (variance_nonneg v) as V.
  assert (S1 : 0 < sqrt eps) by (apply sqrt_lt_R0; lra).
  assert (S2 : sqrt eps <= sqrt (variance v + eps)) by (apply sqrt_le_1; lra).
  assert (S3 : / sqrt (variance v + eps) <= / sqrt eps) by (apply Rinv_le_contravar; lra).
  assert (S4 : 0 < / sqrt (variance v + eps)) by (apply Rinv_0_lt_compat; lra).
  assert (W' : within (Rabs B) v) by (eapply within_mono; [apply Rle_abs|exact W]).
  assert (M : Rabs (mean v) <= Rabs B).
  { unfold mean. destruct (length v) as [|k] eqn:EL; [cbn [sumR]; unfold Rdiv; rewrite Rmult_0_l, Rabs_R0; apply Rabs_pos|].
    assert (P : 0 < INR (S k)) by (apply lt_0_INR; lia). unfold Rdiv. rewrite Rabs_mult, (Rabs_right (/ INR (S k))) by (apply Rle_ge; left; now apply Rinv_0_lt_compat).
    apply Rmult_le_reg_r with (INR (S k)); [exact P|]. rewrite Rmult_assoc, Rinv_l, Rmult_1_r by lra.
    eapply Rle_trans; [apply sumR_abs|]. eapply Rle_trans; [apply sumR_le with (g := fun _ => Rabs B)|].
    - intros i _. apply within_at; [apply Rabs_pos|exact W'].
    - clear. generalize (S k) as n. intros n. induction n as [|n IH]; [cbn; lra|]. rewrite S_INR. cbn [sumR]. lra. }
  apply within_build. intros i Hi.
  eapply Rle_trans; [|apply (sumR_term L (fun i => Rabs (n_scale n i) * / sqrt eps * (2 * Rabs B) + Rabs (n_offset n i)) i)]; [|lia|].
  - cbv beta. eapply Rle_trans; [apply Rabs_triang|]. apply Rplus_le_compat_r. rewrite !Rabs_mult.
    rewrite (Rabs_right (/ sqrt _)) by lra. apply Rmult_le_compat.
    + apply Rmult_le_pos; [apply Rabs_pos|lra].
    + apply Rabs_pos.
    + apply Rmult_le_compat_l; [apply Rabs_pos|exact S3].
    + unfold Rminus. eapply Rle_trans; [apply Rabs_triang|]. rewrite Rabs_Ropp. pose proof (within_at _ v i (Rabs_pos B) W'). lra.
  - intros k. apply Rplus_le_le_0_compat; [|apply Rabs_pos]. repeat apply Rmult_le_pos; try apply Rabs_pos; try lra; left; now apply Rinv_0_lt_compat.
Qed.
Lemma tame_opt n : tame (fun v => match n with Some n => layer_norm n v | None => v end).
Proof. destruct n; [apply tame_norm|apply tame_id]. Qed.

(** ** One cell *)
Lemma gru_state h w x s : within 1 s -> length (snd (gru h w x s)) = h /\ within 1 (snd (gru h w x s)).
Proof.
  intros W. unfold gru. cbv zeta. cbn [snd]. split; [apply build_length|]. apply within_build. intros j Hj.
  match goal with |- Rabs ((1 - sigmoid ?u) * _ + sigmoid ?u * tanh ?t) <= 1 => pose proof (sigmoid_pos u) as S; set (z := sigmoid u) in *; pose proof (tanh_bound t) as T; set (a := tanh t) in * end.
  pose proof (within_at 1 s j ltac:(lra) W) as A. apply Rabs_le_inv in A. set (y := at_ s j) in *. apply Rabs_le.
  assert (0 <= (1 - z) * (1 - y)) by (apply Rmult_le_pos; lra). assert (0 <= (1 - z) * (1 + y)) by (apply Rmult_le_pos; lra).
  assert (0 <= z * (1 - a)) by (apply Rmult_le_pos; lra). assert (0 <= z * (1 + a)) by (apply Rmult_le_pos; lra). split; lra.
Qed.
Lemma lstm_hidden h w x s : length (fst (lstm h w x s)) = h /\ within 1 (fst (lstm h w x s)).
Proof.
  unfold lstm. cbv zeta. cbn [fst]. split; [apply build_length|]. apply within_build. intros j Hj. rewrite Rabs_mult.
  match goal with |- Rabs (sigmoid ?u) * Rabs (tanh ?t) <= 1 => pose proof (sigmoid_pos u) as S; pose proof (tanh_bound t) as T; set (z := sigmoid u) in *; set (a := tanh t) in * end.
  rewrite (Rabs_right z) by lra. assert (Rabs a <= 1) by (apply Rabs_le; lra). pose proof (Rabs_pos a). nra.
Qed.
Lemma lstm_snd h w x s : firstn h (snd (lstm h w x s)) = fst (lstm h w x s) /\ length (snd (lstm h w x s)) = (h * 2)%nat.
Proof.
  unfold lstm. cbv zeta. cbn [fst snd]. split.
  - rewrite firstn_app, build_length, Nat.sub_diag. cbn [firstn]. rewrite app_nil_r. apply firstn_all2. now rewrite build_length.
  - rewrite app_length, !build_length. lia.
Qed.
Lemma lstm_memory h w x s : skipn h (snd (lstm h w x s)) = build h (fun j =>
  sigmoid (col (l_w w) (x ++ firstn h s) (2 * h + j) + l_b w (2 * h + j)%nat + 1) * at_ (skipn h s) j +
  sigmoid (col (l_w w) (x ++ firstn h s) j + l_b w j) * tanh (col (l_w w) (x ++ firstn h s) (h + j) + l_b w (h + j)%nat)).
Proof.
  unfold lstm. cbv zeta. cbn [snd]. rewrite skipn_app, build_length, Nat.sub_diag. cbn [skipn]. rewrite skipn_all2 by (rewrite build_length; lia). reflexivity.
Qed.
Lemma lstm_grow h w x s K phi : 0 <= K -> within K (skipn h s) -> 
  (forall j, (j < h)%nat -> sigmoid (col (l_w w) (x ++ firstn h s) (2 * h + j) + l_b w (2 * h + j)%nat + 1) <= phi) ->
  within (phi * K + 1) (skipn h (snd (lstm h w x s))).
Proof.
  intros P W F. rewrite lstm_memory. apply within_build. intros j Hj. specialize (F j Hj). revert F.
  match goal with |- sigmoid ?a <= _ -> Rabs (sigmoid ?a * ?m + sigmoid ?b * tanh ?c) <= _ =>
    pose proof (sigmoid_pos a) as A; pose proof (sigmoid_pos b) as B; pose proof (tanh_bound c) as C; set (f := sigmoid a) in *; set (i := sigmoid b) in *; set (g := tanh c) in * end.
  intros F. pose proof (within_at K _ j P W) as M. set (m := at_ (skipn h s) j) in *. eapply Rle_trans; [apply Rabs_triang|]. rewrite !Rabs_mult.
  rewrite (Rabs_right f), (Rabs_right i) by lra. assert (Rabs g <= 1) by (apply Rabs_le; lra). pose proof (Rabs_pos g). pose proof (Rabs_pos m). nra.
Qed.

Lemma cell_step h c x s K : 0 <= K -> cell_state h K c s -> cell_state h (K + 1) c (snd (run_cell h c x s)) /\
  length (fst (run_cell h c x s)) = h /\ within 1 (fst (run_cell h c x s)).
Proof.
  intros P. destruct c as [w|w]; cbn [cell_state run_cell].
  - intros [_ W]. destruct (gru_state h w x s W) as [A B]. split; [auto|]. split; [exact A|exact B].
  - intros (_ & _ & W). destruct (lstm_hidden h w x s) as [A B]. destruct (lstm_snd h w x s) as [C D]. split; [|auto]. split; [exact D|]. rewrite C. split; [exact B|].
    eapply within_mono; [|apply (lstm_grow h w x s K 1 P W)]; [lra|]. intros j _. left. apply sigmoid_pos.
Qed.
Lemma cell_steady h c L B : exists K0, 0 <= K0 /\ forall K x s, K0 <= K -> small L B x -> cell_state h K c s -> cell_state h K c (snd (run_cell h c x s)).
Proof.
  destruct c as [w|w]; cbn [cell_state run_cell].
  - exists 0. split; [lra|]. intros K x s _ _ [_ W]. apply (gru_state h w x s W).
  - set (G := sumR h (fun j => Rabs (col_bound (l_w w) (L + h) (Rmax B 1) (2 * h + j) + Rabs (l_b w (2 * h + j)%nat)))).
    set (phi := sigmoid (G + 1)). pose proof (sigmoid_pos (G + 1)) as P. fold phi in P.
    assert (Q : 0 < / (1 - phi)) by (apply Rinv_0_lt_compat; lra).
    exists (/ (1 - phi)). split; [lra|]. intros K x s HK Sx (_ & W1 & W2).
    destruct (lstm_hidden h w x s) as [A1 A2]. destruct (lstm_snd h w x s) as [C D]. split; [exact D|]. rewrite C. split; [exact A2|].
    assert (E : (1 - phi) * / (1 - phi) = 1) by (apply Rinv_r; lra).
    eapply within_mono; [|apply (lstm_grow h w x s K phi)]; [nra|lra|exact W2|]. intros j Hj. unfold phi. apply sigmoid_mono. apply Rplus_le_compat_r.
    assert (Sm : small (L + h) (Rmax B 1) (x ++ firstn h s)).
    { apply small_app; [eapply small_mono; [| |exact Sx]; [lia|apply Rmax_l]|]. split; [rewrite firstn_length; lia|]. eapply within_mono; [apply Rmax_r|exact W1]. }
    pose proof (col_bound_ok (l_w w) _ _ (2 * h + j) _ Sm) as CB.
    eapply Rle_trans; [|apply (sumR_term h (fun j => Rabs (col_bound (l_w w) (L + h) (Rmax B 1) (2 * h + j) + Rabs (l_b w (2 * h + j)%nat))) j Hj)]; [|intros; apply Rabs_pos].
    cbv beta. eapply Rle_trans; [|apply Rle_abs]. pose proof (Rle_abs (col (l_w w) (x ++ firstn h s) (2 * h + j))). pose proof (Rle_abs (l_b w (2 * h + j)%nat)). lra.
Qed.

(** ** The stack of cells *)
Definition stack_state (h : nat) (K : R) (cs : list (cell * option lnorm)) (s : list vec) : Prop := Forall2 (fun c v => cell_state h K (fst c) v) cs s.
Lemma stacked_step h K : 0 <= K -> forall cs x s, stack_state h K cs s -> stack_state h (K + 1) cs (snd (stacked h cs x s)).
Proof.
  intros P. induction cs as [|[c n] cs IH]; intros x s F; [constructor|]. inversion F as [|? v ? r A B]; subst. cbn [stacked nth tl].
  pose proof (cell_step h c x v K P A) as (Q & _). destruct (run_cell h c x v) as [out next]. cbn [snd fst] in *. cbv zeta.
  specialize (IH (match n with Some n => layer_norm n out | None => out end) r B).
  destruct (stacked h cs _ r) as [y rest]. cbn [snd] in *. constructor; assumption.
Qed.
Lemma stacked_steady h cs : forall L B, exists K0, 0 <= K0 /\ forall K x s, K0 <= K -> small L B x -> stack_state h K cs s -> stack_state h K cs (snd (stacked h cs x s)).
Proof.
  induction cs as [|[c n] cs IH]; intros L B; [exists 0; split; [lra|constructor]|].
  destruct (cell_steady h c L B) as (K1 & P1 & H1). destruct (tame_opt n h 1) as (L2 & B2 & H2). destruct (IH L2 B2) as (K2 & P2 & H3).
  exists (Rmax K1 K2). split; [eapply Rle_trans; [exact P1|apply Rmax_l]|]. intros K x s HK Sx F. inversion F as [|? v ? r A Bv]; subst. cbn [stacked nth tl].
  assert (HK1 : K1 <= K) by (eapply Rle_trans; [apply Rmax_l|exact HK]). assert (HK2 : K2 <= K) by (eapply Rle_trans; [apply Rmax_r|exact HK]).
  specialize (H1 K x v HK1 Sx A). pose proof (cell_step h c x v K ltac:(lra) A) as (_ & Q1 & Q2).
  destruct (run_cell h c x v) as [out next]. cbn [snd fst] in *. cbv zeta.
  assert (So : small L2 B2 (match n with Some n => layer_norm n out | None => out end)) by (apply H2; split; [lia|exact Q2]).
  specialize (H3 K _ r HK2 So Bv). destruct (stacked h cs _ r) as [y rest]. cbn [snd] in *. constructor; assumption.
Qed.
Lemma stacked_out h cs : cs <> [] -> exists L B, forall K x s, 0 <= K -> stack_state h K cs s -> small L B (fst (stacked h cs x s)).
Proof.
  induction cs as [|[c n] cs IH]; intros N; [congruence|]. destruct (tame_opt n h 1) as (L2 & B2 & H2).
  destruct cs as [|c2 cs].
  - exists L2, B2. intros K x s P F. inversion F as [|? v ? r A Bv]; subst. cbn [stacked nth tl].
    pose proof (cell_step h c x v K P A) as (_ & Q1 & Q2). destruct (run_cell h c x v) as [out next]. cbn [fst] in *. apply H2. split; [lia|exact Q2].
  - destruct (IH ltac:(discriminate)) as (L & B & H). exists L, B. intros K x s P F. inversion F as [|? v ? r A Bv]; subst.
    remember (c2 :: cs) as cs' eqn:E. cbn [stacked nth tl]. destruct (run_cell h c x v) as [out next].
    cbv zeta. specialize (H K (match n with Some n => layer_norm n out | None => out end) r P Bv). destruct (stacked h cs' _ r) as [y rest]. exact H.
Qed.
Lemma last_in {A} (l : list A) (d : A) : l <> [] -> In (last l d) l.
Proof. intros N. destruct (exists_last N) as (l' & a & ->). rewrite last_last. apply in_or_app. right. now left. Qed.
Lemma Forall2_In_r {A B} (Q : A -> B -> Prop) l l' b : Forall2 Q l l' -> In b l' -> exists a, In a l /\ Q a b.
Proof. intros F. induction F as [|x y l l' H F IH]; intros I; [destruct I|]. destruct I as [<-|I]; [exists x; split; [now left|exact H]|]. destruct (IH I) as (a & I' & H'). exists a. split; [now right|exact H']. Qed.
Lemma within_firstn B n v : within B v -> within B (firstn n v).
Proof. intros W. rewrite <- (firstn_skipn n v) in W. apply Forall_app in W. apply W. Qed.
Lemma hidden_small w K s : link_state w K s -> small (hidden_dim w) 1 (last_hidden w s).
Proof.
  intros F. unfold last_hidden. split; [rewrite firstn_length; lia|]. destruct s as [|v r]; [cbn [last]; rewrite firstn_nil; constructor|].
  assert (I : In (last (v :: r) []) (v :: r)) by (apply last_in; discriminate).
  destruct (Forall2_In_r _ _ _ _ F I) as (c & _ & H). cbv beta in H. destruct (fst c); cbn [cell_state] in H.
  - apply within_firstn, H.
  - apply H.
Qed.

(** ** The network over time *)
Section Inv.
Context {X H S Y M CI CO : Type}.
Variables (mzero : M) (madd : M -> M -> M) (hidden : S -> H) (send_msg : H -> M) (cat : X -> M -> M -> CI) (inner : CI -> S -> CO * S) (out : CO -> Y).
Variables (okX : X -> Prop) (okM okB : M -> Prop) (P : nat -> S -> Prop) (Q : Y -> Prop).
Variable lam : list Z.
Hypothesis msg_ok : forall k s, P k s -> okM (send_msg (hidden s)).
Hypothesis zero_ok : okM mzero.
Hypothesis mail_ok : forall msgs i, Forall okM msgs -> okB (mailbox mzero madd lam msgs i).
Hypothesis step_ok : forall k x m b s, okX x -> okM m -> okB b -> P k s -> P (Datatypes.S k) (snd (inner (cat x m b) s)).
Hypothesis out_ok : forall k x m b s, okX x -> okM m -> okB b -> P k s -> Q (out (fst (inner (cat x m b) s))).

Lemma jax_get_In {A} (l : list A) i a : jax_get l i = Ok a -> In a l.
Proof. unfold jax_get. cbv zeta. destruct (nth_error l _) eqn:E; [|discriminate]. intros [= <-]. now apply nth_error_In in E. Qed.
Lemma cell_inv k inputs prev ys next : Forall okX inputs -> Forall (P k) prev ->
  cell_apply mzero madd hidden send_msg cat inner out lam inputs prev = Ok (ys, next) -> Forall Q ys /\ Forall (P (Datatypes.S k)) next.
Proof.
  intros FX FP. unfold cell_apply. destruct (negb _); [discriminate|]. intros E. apply bind_Ok in E. destruct E as (cis & E & E2). cbv zeta in E2. injection E2 as <- <-.
  set (msgs := map (fun s => send_msg (hidden s)) prev) in *.
  assert (FM : Forall okM msgs). { apply Forall_forall. intros m I. apply in_map_iff in I. destruct I as (s & <- & I). apply (msg_ok k). exact (proj1 (Forall_forall _ _) FP _ I). }
  assert (FC : Forall (fun ci => exists x m b, okX x /\ okM m /\ okB b /\ ci = cat x m b) cis).
  { apply mapM_Ok_iff in E. apply Forall_forall. intros ci I. destruct (Forall2_In_r _ _ _ _ E I) as (ip & _ & C). unfold cell_input in C.
    apply bind_Ok in C. destruct C as (x & C1 & C). apply bind_Ok in C. destruct C as (m & C2 & C). injection C as <-.
    exists x, m, (mailbox mzero madd lam msgs (fst ip)). split; [exact (proj1 (Forall_forall _ _) FX _ (jax_get_In _ _ _ C1))|]. split; [|split; [now apply mail_ok|reflexivity]].
    apply jax_get_In in C2. apply in_app_or in C2. destruct C2 as [C2|[<-|[]]]; [exact (proj1 (Forall_forall _ _) FM _ C2)|exact zero_ok]. }
  assert (G : forall ci s, In (ci, s) (combine cis prev) -> exists x m b, okX x /\ okM m /\ okB b /\ ci = cat x m b /\ P k s).
  { intros ci s I. pose proof (in_combine_l _ _ _ _ I) as I1. pose proof (in_combine_r _ _ _ _ I) as I2.
    destruct (proj1 (Forall_forall _ _) FC _ I1) as (x & m & b & A1 & A2 & A3 & A4). exists x, m, b. repeat split; auto. exact (proj1 (Forall_forall _ _) FP _ I2). }
  rewrite !map_map. split; apply Forall_forall; intros z I; apply in_map_iff in I; destruct I as ([ci s] & <- & I); destruct (G ci s I) as (x & m & b & A1 & A2 & A3 & -> & A5); cbn [fst snd].
  - pose proof (out_ok k x m b s A1 A2 A3 A5) as O. destruct (inner (cat x m b) s). exact O.
  - pose proof (step_ok k x m b s A1 A2 A3 A5) as O. destruct (inner (cat x m b) s). exact O.
Qed.
Lemma unroll_inv : forall xs k st ys st', Forall (Forall okX) xs -> Forall (P k) st ->
  unroll mzero madd hidden send_msg cat inner out lam xs st = Ok (ys, st') -> Forall (Forall Q) ys /\ Forall (P (k + length xs)%nat) st'.
Proof.
  induction xs as [|x xs IH]; intros k st ys st' FX FP E; cbn [unroll] in E.
  - injection E as <- <-. cbn [length]. rewrite Nat.add_0_r. split; [constructor|exact FP].
  - inversion FX as [|? ? F1 F2]; subst. apply bind_Ok in E. destruct E as ([y s1] & E1 & E). apply bind_Ok in E. destruct E as ([ys1 s2] & E2 & E). injection E as <- <-.
    cbn [fst snd] in *. destruct (cell_inv k x st y s1 F1 FP E1) as [A B]. destruct (IH _ _ _ _ F2 B E2) as [C D].
    split; [constructor; assumption|]. cbn [length]. replace (k + Datatypes.S (length xs))%nat with (Datatypes.S k + length xs)%nat by lia. exact D.
Qed.
End Inv.

Lemma start_state w K : 0 <= K -> link_state w K (zero_state w).
Proof.
  intros P. unfold link_state, zero_state. induction (cells w) as [|[c n] r IH]; cbn [map]; constructor; [|exact IH]. cbn [fst].
  destruct c; cbn [cell_state state_dim]; rewrite repeat_length.
  - split; [reflexivity|]. apply (within_mono 0); [lra|apply within_zeros].
  - split; [reflexivity|]. assert (W : within 0 (repeat 0 (hidden_dim w * 2))) by apply within_zeros.
    rewrite <- (firstn_skipn (hidden_dim w) (repeat 0 _)) in W. apply Forall_app in W. destruct W as [W1 W2].
    split; [apply (within_mono 0); [lra|exact W1]|apply (within_mono 0); [lra|exact W2]].
Qed.
Lemma start_Forall w lam (Q : list vec -> Prop) : Q (zero_state w) -> Forall Q (ring_start w lam).
Proof. intros H. apply Forall_forall. intros s I. apply repeat_spec in I. now subst. Qed.
Lemma link_state_mono w K K' s : K <= K' -> link_state w K s -> link_state w K' s.
Proof.
  intros L F. unfold link_state in *. induction F as [|c v cs r H F IH]; constructor; [|exact IH].
  destruct (fst c); cbn [cell_state] in *; [exact H|]. destruct H as (A & B & C). split; [exact A|]. split; [exact B|]. eapply within_mono; eauto.
Qed.

(** C87.  Whatever the weights and however long and large the recording, hidden states stay between -1 and 1, and the memory of an LSTM
    grows by at most one per time step. *)
Theorem C87_states w lam xs ys st : ring_forward w lam xs (ring_start w lam) = Ok (ys, st) -> Forall (link_state w (INR (length xs))) st.
Proof.
  intros E. unfold ring_forward in E.
  refine (proj2 (unroll_inv _ _ _ _ _ _ _ (fun _ => True) (fun _ => True) (fun _ => True) (fun k s => link_state w (INR k) s) (fun _ => True) lam _ _ _ _ _ xs 0 _ _ _ _ _ E)); auto.
  - intros k x m b s _ _ _ H. rewrite S_INR. apply stacked_step; [apply pos_INR|exact H].
  - apply Forall_forall. intros x _. apply Forall_forall. auto.
  - apply start_Forall, start_state. cbn [INR]. lra.
Qed.

Lemma vadd_small L a b c : forall u v, small L a u -> within b v -> a + b <= c -> small L c (vadd u v).
Proof.
  intros u v [H W] W' Hc. revert L H v W'. induction W as [|x u A W IH]; intros L H v W'; [split; [cbn; lia|constructor]|].
  destruct W' as [|y v B W']; [split; [cbn; lia|constructor]|]. cbn [vadd length] in *. destruct L as [|L]; [lia|].
  destruct (IH L ltac:(lia) v W') as [C D]. split; [cbn [length]; lia|]. constructor; [|exact D]. eapply Rle_trans; [apply Rabs_triang|]. lra.
Qed.
Lemma mail_small dim L B lam : 0 <= B -> forall msgs i, Forall (small L B) msgs -> small (dim + L) (INR (length lam) * B) (mailbox (vzeros dim) vadd lam msgs i).
Proof.
  intros P. unfold mailbox, msum. induction lam as [|p lam IH]; intros msgs i F.
  - cbn [combine map fold_right]. split; [unfold vzeros; rewrite repeat_length; lia|]. eapply within_mono; [|apply within_zeros]. cbn. lra.
  - destruct msgs as [|m msgs]; cbn [combine map fold_right].
    + split; [unfold vzeros; rewrite repeat_length; lia|]. eapply within_mono; [|apply within_zeros]. apply Rmult_le_pos; [apply pos_INR|exact P].
    + inversion F as [|? ? A A']; subst. specialize (IH msgs i A'). cbn [length]. rewrite S_INR. cbn [fst snd].
      apply (vadd_small _ B (INR (length lam) * B)); [|apply IH|lra]. destruct (p =? Z.of_nat i)%Z; [eapply small_mono; [| |exact A]; [lia|lra]|].
      split; [unfold vzeros; rewrite repeat_length; lia|]. eapply within_mono; [|apply within_zeros]. exact P.
Qed.

(** C87.  For every network there is a bound that no message to a neighbour and no output ever exceeds, for recordings of any length and size. *)
Theorem C87_outputs w lam : cells w <> [] -> tame (output_transform w) ->
  exists B, forall xs ys st, ring_forward w lam xs (ring_start w lam) = Ok (ys, st) ->
    Forall (Forall (within B)) ys /\ Forall (fun s => within B (mlp relu (send_msg_net w) (last_hidden w s))) st.
Proof.
  intros N T. destruct (stacked_out (hidden_dim w) (cells w) N) as (L1 & B1 & H1).
  destruct (tame_comp _ _ (tame_mlp relu (send_output_net w) tame1_relu) T L1 B1) as (L2 & B2 & H2).
  destruct (tame_mlp relu (send_msg_net w) tame1_relu (hidden_dim w) 1) as (L3 & B3 & H3).
  exists (Rmax B2 B3). intros xs ys st E. unfold ring_forward in E. pose proof (C87_states w lam xs ys st E) as HS. split.
  - refine (proj1 (unroll_inv _ _ _ _ _ _ _ (fun _ => True) (fun _ => True) (fun _ => True) (fun k s => link_state w (INR k) s) (within (Rmax B2 B3)) lam _ _ _ _ _ xs 0 _ _ _ _ _ E)); auto.
    + intros k x m b s _ _ _ H. rewrite S_INR. apply stacked_step; [apply pos_INR|exact H].
    + intros k x m b s _ _ _ H. eapply within_mono; [apply Rmax_l|]. apply (H2 _ (H1 (INR k) _ _ (pos_INR k) H)).
    + apply Forall_forall. intros x _. apply Forall_forall. auto.
    + apply start_Forall, start_state. cbn [INR]. lra.
  - eapply Forall_impl; [|exact HS]. intros s H. eapply within_mono; [apply Rmax_r|]. apply H3. now apply (hidden_small w (INR (length xs))).
Qed.

(** C87.  With inputs between -B and B also the memory stays below a bound, for recordings of any length. *)
Theorem C87_memory w lam F B : exists K, forall xs ys st, Forall (Forall (small F B)) xs ->
  ring_forward w lam xs (ring_start w lam) = Ok (ys, st) -> Forall (link_state w K) st.
Proof.
  destruct (tame_mlp relu (send_msg_net w) tame1_relu (hidden_dim w) 1) as (L3 & B3 & H3).
  set (Lm := Nat.max L3 (message_dim w)). set (Bm := Rabs B3).
  set (Lb := (message_dim w + Lm)%nat). set (Bb := INR (length lam) * Bm).
  set (Bx := Rabs B + (Bm + Bb)).
  destruct (stacked_steady (hidden_dim w) (cells w) (F + (Lm + Lb)) Bx) as (K & PK & HK).
  assert (Pm : 0 <= Bm) by apply Rabs_pos. assert (Pb : 0 <= Bb) by (apply Rmult_le_pos; [apply pos_INR|exact Pm]).
  exists K. intros xs ys st FX E. unfold ring_forward in E.
  refine (proj2 (unroll_inv _ _ _ _ _ _ _ (small F B) (small Lm Bm) (small Lb Bb) (fun k s => link_state w K s) (fun _ => True) lam _ _ _ _ _ xs 0 _ _ _ FX _ E)); auto.
  - intros _ s H. eapply small_mono; [| |apply H3, (hidden_small w K s H)]; [unfold Lm; lia|unfold Bm; apply Rle_abs].
  - split; [unfold vzeros, Lm; rewrite repeat_length; lia|]. eapply within_mono; [|apply within_zeros]. exact Pm.
  - intros msgs i FM. now apply mail_small.
  - intros _ x m b s Sx Sm Sb H. apply HK; [lra| |exact H]. pose proof (Rle_abs B). pose proof (Rabs_pos B).
    apply small_app; [eapply small_mono; [| |exact Sx]; [lia|unfold Bx; lra]|].
    apply small_app; [eapply small_mono; [| |exact Sm]; [lia|unfold Bx; lra]|eapply small_mono; [| |exact Sb]; [lia|unfold Bx; lra]].
  - apply start_Forall, start_state, PK.
Qed.

(** The output transformations of the code are tame. *)
Lemma row_norm2_term r v : In v r -> v * v <= row_norm2 r.
Proof.
  unfold row_norm2. induction r as [|a r IH]; intros I; [destruct I|]. cbn [map fold_right].
  assert (P : 0 <= fold_right Rplus 0 (map (fun v => v * v) r)).
  { clear. induction r as [|a r IH]; cbn; [lra|]. pose proof (Rle_0_sqr a) as Q. unfold Rsqr in Q. lra. }
  pose proof (Rle_0_sqr a) as Q. unfold Rsqr in Q. destruct I as [<-|I]; [lra|]. specialize (IH I). lra.
Qed.
Lemma tame_normalize : tame normalize_row.
Proof.
  intros L B. exists L, 1. intros v [H _]. unfold normalize_row. destruct (forallb _ v) eqn:E; (split; [now rewrite map_length|]); apply Forall_forall; intros y I; apply in_map_iff in I; destruct I as (x & <- & I).
  - rewrite Rabs_R0. lra.
  - rewrite Rabs_mult. pose proof (row_norm2_term v x I) as T. set (n := row_norm2 v) in *.
    destruct (Rle_or_lt n 0) as [N|N].
    + assert (x = 0) as -> by nra. rewrite Rabs_R0. lra.
    + assert (P : 0 < sqrt n) by now apply sqrt_lt_R0. rewrite Rabs_right by (apply Rle_ge; left; now apply Rinv_0_lt_compat).
      apply Rmult_le_reg_l with (sqrt n); [exact P|]. rewrite <- Rmult_assoc, Rinv_r, Rmult_1_l, Rmult_1_r by lra.
      rewrite <- (sqrt_Rsqr_abs x). apply sqrt_le_1; [apply Rle_0_sqr|lra|exact T].
Qed.

(** ** The memory without a bound on the inputs *)
Definition wide_weights : linear := {| l_out := 4; l_w := fun i _ => if (i =? 0)%nat then 1 else 0; l_b := fun _ => 0 |}.
Definition wide_net : ring_net := {| hidden_dim := 1; message_dim := 0; send_msg_net := [{| l_out := 0; l_w := fun _ _ => 0; l_b := fun _ => 0 |}];
  cells := [(Lstm wide_weights, None)]; send_output_net := [wide_weights]; output_transform := fun v => v |}.
Lemma wide_step x u c : exists u' c', stacked 1 [(Lstm wide_weights, None)] [x] [[u; c]] = ([u'], [[u'; c']]) /\ c' = sigmoid (x + 1) * c + sigmoid x * tanh x.
Proof.
  cbn [stacked run_cell nth tl]. unfold lstm. cbv zeta. unfold build. cbn [seq map app firstn skipn nth Nat.mul Nat.add length col at_ sumR wide_weights l_w l_b Nat.eqb].
  eexists. eexists. split; [reflexivity|]. unfold col, at_. cbn [length sumR nth Nat.eqb]. f_equal; [f_equal; f_equal; ring|f_equal; f_equal; ring].
Qed.
Lemma wide_run x : forall n u c, exists ys u' c', ring_forward wide_net [(-1)%Z] (repeat [[x]] n) [[[u; c]]] = Ok (ys, [[[u'; c']]]) /\
  c' = Nat.iter n (fun c => sigmoid (x + 1) * c + sigmoid x * tanh x) c.
Proof.
  induction n as [|n IH]; intros u c; [exists [], u, c; split; reflexivity|].
  destruct (wide_step x u c) as (u1 & c1 & E1 & E2). destruct (IH u1 c1) as (ys & u2 & c2 & E3 & E4).
  eexists. exists u2, c2. split.
  - unfold ring_forward in *. cbn [repeat unroll].
    match goal with |- context [cell_apply ?a ?b ?c ?d ?e ?f ?g ?h ?i ?j] => assert (EC : cell_apply a b c d e f g h i j = Ok ([affine wide_weights [u1]], [[[u1; c1]]])) end.
    { clear E2 E3 E4 IH. cbn in E1. injection E1 as H1 H2. subst u1. subst c1. reflexivity. }
    rewrite EC. cbn [bind fst snd]. rewrite E3. cbn [bind fst snd]. reflexivity.
  - rewrite E4, E2. clear. set (f := fun c => sigmoid (x + 1) * c + sigmoid x * tanh x). change (Nat.iter n f (f c) = f (Nat.iter n f c)).
    induction n as [|n IH]; [reflexivity|]. change (f (Nat.iter n f (f c)) = f (f (Nat.iter n f c))). now rewrite IH.
Qed.

Lemma near_one d : 0 < d <= 1 -> exists x, 1 - d <= sigmoid x /\ 1 - d <= sigmoid (x + 1) /\ 1 - d <= tanh x.
Proof.
  intros P. assert (P2 : 0 < d / 2) by lra. exists (- ln (d / 2)). set (x := - ln (d / 2)).
  assert (E : exp (- x) = d / 2) by (unfold x; rewrite Ropp_involutive; now apply exp_ln).
  assert (A : 1 - d <= sigmoid x).
  { unfold sigmoid. rewrite E. apply Rmult_le_reg_r with (1 + d / 2); [lra|]. rewrite Rinv_l by lra. nra. }
  split; [exact A|]. split; [eapply Rle_trans; [exact A|]; apply sigmoid_mono; lra|].
  unfold tanh, sinh, cosh. pose proof (exp_pos x) as Q.
  assert (M : exp x * exp (- x) = 1) by (rewrite <- exp_plus, Rplus_opp_r; apply exp_0). rewrite E in *.
  assert (L : 1 <= exp x) by (assert (0 < exp x * (d / 2)) by lra; nra).
  replace ((exp x - d / 2) / 2 / ((exp x + d / 2) / 2)) with ((exp x - d / 2) / (exp x + d / 2)) by (field; lra).
  apply Rmult_le_reg_r with (exp x + d / 2); [lra|]. unfold Rdiv at 2. rewrite Rmult_assoc, Rinv_l, Rmult_1_r by lra. nra.
Qed.
Lemma grows f i d n : 0 <= d -> d * (INR n + 2) <= / 2 -> 1 - d <= f <= 1 -> (1 - d) * (1 - d) <= i <= 1 ->
  INR n / 2 <= Nat.iter n (fun c => f * c + i) 0 <= INR n.
Proof.
  intros P D F Hi. induction n as [|n IH]; [cbn; lra|]. rewrite S_INR in *. change (Nat.iter (S n) (fun c => f * c + i) 0) with (f * Nat.iter n (fun c => f * c + i) 0 + i).
  pose proof (pos_INR n) as Q. specialize (IH ltac:(nra)). set (c := Nat.iter n (fun c => f * c + i) 0) in *. split; [|nra].
  assert (f * c >= c - d * c) by nra. assert (d * c <= d * INR n) by nra. nra.
Qed.
Lemma INR_above r : exists n, r < INR n.
Proof.
  exists (Z.to_nat (up r)). rewrite INR_IZR_INZ. destruct (archimed r) as [A _]. eapply Rlt_le_trans; [exact A|]. apply IZR_le. lia.
Qed.
(** Without a bound on the inputs the memory of one and the same network exceeds every bound. *)
Theorem C87_memory_refuted : exists w lam, forall K, exists xs ys h c, ring_forward w lam xs (ring_start w lam) = Ok (ys, [[[h; c]]]) /\ K < c.
Proof.
  exists wide_net, [(-1)%Z]. intros K. destruct (INR_above (2 * Rabs K + 2)) as (n & Hn).
  pose proof (pos_INR n) as Q. set (d := / (2 * (INR n + 2))).
  assert (P : 0 < d) by (apply Rinv_0_lt_compat; lra).
  assert (D : d * (INR n + 2) = / 2) by (unfold d; field; lra).
  assert (D1 : d <= 1) by nra. destruct (near_one d (conj P D1)) as (x & A & B & C).
  destruct (wide_run x n 0 0) as (ys & h & c & E & Ec). exists (repeat [[x]] n), ys, h, c. split; [exact E|]. rewrite Ec.
  pose proof (sigmoid_pos x). pose proof (sigmoid_pos (x + 1)). pose proof (tanh_bound x).
  assert (G0 : (1 - d) * (1 - d) <= sigmoid x * tanh x <= 1) by (split; [apply Rmult_le_compat; lra|]; assert (sigmoid x * tanh x <= sigmoid x * 1) by (apply Rmult_le_compat_l; lra); lra).
  destruct (grows (sigmoid (x + 1)) (sigmoid x * tanh x) d n ltac:(lra) ltac:(lra) ltac:(lra) G0) as [G _].
  pose proof (Rle_abs K). lra.
Qed.

(** ** Layer norm *)
(** C87.  Without trained scale the normalised features have mean zero and a mean square below one, and adding the same number to all features
    changes nothing. *)
Definition plain : lnorm := {| n_scale := fun _ => 1; n_offset := fun _ => 0 |}.
Lemma sum_centred x : sumR (length x) (fun i => at_ x i - mean x) = 0.
Proof.
  rewrite sumR_sub. unfold mean at 1. destruct (length x) as [|n] eqn:E; [cbn; lra|]. set (s := sumR (S n) (at_ x)).
  assert (C : forall m c, sumR m (fun _ => c) = INR m * c). { intros m c. induction m as [|m IH]; [cbn; lra|]. rewrite S_INR. cbn [sumR]. rewrite IH. ring. }
  rewrite C. field. pose proof (lt_0_INR (S n) ltac:(lia)). lra.
Qed.
Theorem C87_norm x : let y := layer_norm plain x in
  length y = length x /\ sumR (length y) (at_ y) = 0 /\ (x <> [] -> sumR (length y) (fun i => at_ y i ^ 2) < INR (length x)) /\
  forall c, layer_norm plain (map (Rplus c) x) = y.
Proof.
  cbv zeta. assert (L : length (layer_norm plain x) = length x) by (unfold layer_norm; apply build_length). rewrite L.
  pose proof eps_pos as E. pose proof (variance_nonneg x) as V. set (k := / sqrt (variance x + eps)).
  assert (A : forall i, (i < length x)%nat -> at_ (layer_norm plain x) i = k * (at_ x i - mean x)).
  { intros i Hi. unfold layer_norm. rewrite at_build by exact Hi. cbn [plain n_scale n_offset]. fold k. ring. }
  split; [reflexivity|]. split; [|split].
  - rewrite (sumR_ext _ _ _ A), sumR_scale, sum_centred. ring.
  - intros N. rewrite (sumR_ext _ _ (fun i => k ^ 2 * (at_ x i - mean x) ^ 2)) by (intros i Hi; rewrite A by exact Hi; ring). rewrite sumR_scale.
    assert (P : 0 < INR (length x)) by (apply lt_0_INR; destruct x; [congruence|cbn; lia]).
    replace (sumR (length x) (fun i => (at_ x i - mean x) ^ 2)) with (variance x * INR (length x)) by (unfold variance; field; lra).
    assert (K : k ^ 2 = / (variance x + eps)). { unfold k. rewrite <- (sqrt_sqrt (variance x + eps)) at 2 by lra. assert (0 < sqrt (variance x + eps)) by (apply sqrt_lt_R0; lra). field. lra. }
    rewrite K, <- Rmult_assoc. rewrite <- (Rmult_1_l (INR (length x))) at 2. apply Rmult_lt_compat_r; [exact P|].
    apply Rmult_lt_reg_l with (variance x + eps); [lra|]. rewrite <- Rmult_assoc, Rinv_r by lra. lra.
  - intros c. assert (Lm : length (map (Rplus c) x) = length x) by apply map_length.
    assert (M : x <> [] -> mean (map (Rplus c) x) = c + mean x).
    { intros N. assert (P : 0 < INR (length x)) by (apply lt_0_INR; destruct x; [congruence|cbn; lia]). unfold mean. rewrite Lm.
      rewrite (sumR_ext _ _ (fun i => c + at_ x i)).
      - rewrite sumR_add. assert (C : forall m, sumR m (fun _ => c) = INR m * c). { intros m. induction m as [|m IH]; [cbn; lra|]. rewrite S_INR. cbn [sumR]. rewrite IH. ring. }
        rewrite C. field. lra.
      - intros i Hi. unfold at_. rewrite (nth_indep _ 0 (c + 0)) by (now rewrite Lm). apply (map_nth (Rplus c)). }
    destruct x as [|a r] eqn:Ex; [reflexivity|]. rewrite <- Ex in *. assert (N : x <> []) by (rewrite Ex; discriminate). specialize (M N).
    assert (At : forall i, (i < length x)%nat -> at_ (map (Rplus c) x) i - mean (map (Rplus c) x) = at_ x i - mean x).
    { intros i Hi. rewrite M. unfold at_. rewrite (nth_indep _ 0 (c + 0)) by (now rewrite Lm). rewrite (map_nth (Rplus c)). ring. }
    assert (Va : variance (map (Rplus c) x) = variance x).
    { unfold variance. rewrite Lm. f_equal. apply sumR_ext. intros i Hi. now rewrite At. }
    unfold layer_norm. rewrite Lm, Va. unfold build. apply map_ext_in. intros i I. apply in_seq in I. rewrite At by lia. reflexivity.
Qed.

(** ** RNNO v1 *)
Section V1.
Variables (act_rnn act_linear : R -> R) (ls : list v1_layer) (lin : list linear) (out : linear).
Notation forward := (v1_forward act_rnn act_linear ls lin out).

Lemma unroll_cell_app h c : forall xs1 xs2 s, unroll_cell h c (xs1 ++ xs2) s =
  (fst (unroll_cell h c xs1 s) ++ fst (unroll_cell h c xs2 (snd (unroll_cell h c xs1 s))), snd (unroll_cell h c xs2 (snd (unroll_cell h c xs1 s)))).
Proof.
  induction xs1 as [|x xs1 IH]; intros xs2 s; cbn [app unroll_cell].
  - cbn [fst snd app]. now destruct (unroll_cell h c xs2 s).
  - destruct (run_cell h c x s) as [y s1]. rewrite IH. destruct (unroll_cell h c xs1 s1) as [a b]. cbn [fst snd app]. reflexivity.
Qed.
Lemma v1_rnn_app : forall l xs1 xs2 st, v1_rnn act_rnn l (xs1 ++ xs2) st =
  (fst (v1_rnn act_rnn l xs1 st) ++ fst (v1_rnn act_rnn l xs2 (snd (v1_rnn act_rnn l xs1 st))), snd (v1_rnn act_rnn l xs2 (snd (v1_rnn act_rnn l xs1 st)))).
Proof.
  induction l as [|a l IH]; intros xs1 xs2 st; [reflexivity|]. cbn [v1_rnn]. rewrite unroll_cell_app.
  destruct (unroll_cell (v_units a) (v_cell a) xs1 (nth 0 st [])) as [y1 s1]. cbn [fst snd]. 
  rewrite map_app, IH. destruct (v1_rnn act_rnn l (map (v1_after act_rnn a) y1) (tl st)) as [z1 r1]. cbn [fst snd v1_rnn nth tl].
  destruct (unroll_cell (v_units a) (v_cell a) xs2 s1) as [y2 s2]. cbn [fst snd].
  destruct (v1_rnn act_rnn l (map (v1_after act_rnn a) y2) r1) as [z2 r2]. reflexivity.
Qed.
(** C87.  RNNO v1 computes layer after layer over the whole recording, and yet processing a recording piece by piece, passing the states on,
    gives the same estimates: those of the first piece do not depend on the rest. *)
Theorem C87_v1_online lam X1 X2 st : forward lam (X1 ++ X2) st = (do a <- forward lam X1 st; do b <- forward lam X2 (snd a); Ok (fst a ++ fst b, snd b)).
Proof.
  unfold v1_forward. rewrite mapM_app. destruct (mapM one_node X1) as [xs1|e]; cbn [bind]; [|reflexivity].
  destruct (v1_rnn act_rnn ls xs1 st) as [y1 s1] eqn:E1. cbn [bind fst snd].
  destruct (mapM one_node X2) as [xs2|e]; cbn [bind]; [|reflexivity]. rewrite v1_rnn_app, E1. cbn [fst snd].
  destruct (v1_rnn act_rnn ls xs2 s1) as [y2 s2]. cbn [bind fst snd]. now rewrite map_app.
Qed.

Lemma unroll_cell_length h c : forall xs s, length (fst (unroll_cell h c xs s)) = length xs.
Proof. induction xs as [|x xs IH]; intros s; [reflexivity|]. cbn [unroll_cell]. destruct (run_cell h c x s) as [y s1]. specialize (IH s1). destruct (unroll_cell h c xs s1). cbn [fst length] in *. now f_equal. Qed.
Lemma v1_rnn_length : forall l xs st, length (fst (v1_rnn act_rnn l xs st)) = length xs /\ length (snd (v1_rnn act_rnn l xs st)) = length l.
Proof.
  induction l as [|a l IH]; intros xs st; [split; reflexivity|]. cbn [v1_rnn]. pose proof (unroll_cell_length (v_units a) (v_cell a) xs (nth 0 st [])) as L.
  destruct (unroll_cell (v_units a) (v_cell a) xs (nth 0 st [])) as [ys s]. cbn [fst] in L. destruct (IH (map (v1_after act_rnn a) ys) (tl st)) as [A B].
  destruct (v1_rnn act_rnn l (map (v1_after act_rnn a) ys) (tl st)) as [zs rest]. cbn [fst snd length] in *. rewrite A, map_length, L, B. split; reflexivity.
Qed.
(** C87.  It needs exactly one node per time step, whatever the graph, and then gives one estimate of the requested size per time step. *)
Theorem C87_v1_node lam X st : 
  (Forall (fun step => length step = 1%nat) X -> exists Y st', forward lam X st = Ok (Y, st') /\ length Y = length X /\ length st' = length ls /\
     Forall (fun step => exists y, step = [y] /\ length y = l_out out) Y /\ forall lam', forward lam' X st = Ok (Y, st')) /\
  (~ Forall (fun step => length step = 1%nat) X -> forward lam X st = Err EAssertion).
Proof.
  assert (D : (exists xs, mapM one_node X = Ok xs /\ length xs = length X /\ Forall (fun step => length step = 1%nat) X) \/
              (mapM one_node X = Err EAssertion /\ ~ Forall (fun step => length step = 1%nat) X)).
  { induction X as [|s X IH]; [left; exists []; repeat split; constructor|]. cbn [mapM]. destruct s as [|x [|y r]].
    - right. split; [reflexivity|]. intros F. inversion F; discriminate.
    - cbn [one_node bind]. destruct IH as [(xs & -> & L & F)|[-> N]].
      + left. exists (x :: xs). cbn [bind length]. split; [reflexivity|]. split; [now f_equal|]. constructor; auto.
      + right. split; [reflexivity|]. intros F. inversion F; auto.
    - right. split; [reflexivity|]. intros F. inversion F; discriminate. }
  destruct D as [(xs & E & L & F)|[E N]]; (split; [intros H|intros H]); try contradiction.
  - unfold v1_forward. rewrite E. cbn [bind]. pose proof (v1_rnn_length ls xs st) as [A B]. destruct (v1_rnn act_rnn ls xs st) as [ys st'] eqn:Er. cbn [fst snd] in *.
    eexists. eexists. split; [reflexivity|]. split; [rewrite map_length; congruence|]. split; [exact B|]. split; [|reflexivity].
    apply Forall_forall. intros step I. apply in_map_iff in I. destruct I as (y & <- & _). eexists. split; [reflexivity|]. unfold v1_head, affine. apply build_length.
  - unfold v1_forward. rewrite E. reflexivity.
Qed.

Definition v1_states (K : R) (st : list vec) : Prop := Forall2 (fun l v => cell_state (v_units l) K (v_cell l) v) ls st.
Definition v1_start : list vec := map (fun l => repeat 0 (state_dim (v_units l) (v_cell l))) ls.
Lemma unroll_cell_bound h c : forall xs s K, 0 <= K -> cell_state h K c s -> Forall (small h 1) (fst (unroll_cell h c xs s)).
Proof.
  induction xs as [|x xs IH]; intros s K P H; [constructor|]. cbn [unroll_cell]. destruct (cell_step h c x s K P H) as (A & B & C).
  destruct (run_cell h c x s) as [y s1]. cbn [fst snd] in *. specialize (IH s1 (K + 1) ltac:(lra) A). destruct (unroll_cell h c xs s1). cbn [fst] in *. constructor; [split; [lia|exact C]|exact IH].
Qed.
Lemma tame_after a : tame1 act_rnn -> tame (v1_after act_rnn a).
Proof. intros T. unfold v1_after. apply (tame_comp _ (map act_rnn)); [apply tame_opt|now apply tame_map]. Qed.
Lemma v1_rnn_bound : tame1 act_rnn -> forall l, l <> [] -> exists L B, forall xs st K, 0 <= K -> Forall2 (fun l v => cell_state (v_units l) K (v_cell l) v) l st ->
  Forall (small L B) (fst (v1_rnn act_rnn l xs st)).
Proof.
  intros T. induction l as [|a l IH]; intros N; [congruence|]. destruct l as [|b l].
  - destruct (tame_after a T (v_units a) 1) as (L & B & H). exists L, B. intros xs st K P F. inversion F as [|? v ? r A1 A2]; subst. cbn [v1_rnn nth].
    pose proof (unroll_cell_bound (v_units a) (v_cell a) xs v K P A1) as U. destruct (unroll_cell (v_units a) (v_cell a) xs v) as [ys s]. cbn [fst] in *.
    apply Forall_forall. intros z I. apply in_map_iff in I. destruct I as (y & <- & I). apply H. exact (proj1 (Forall_forall _ _) U _ I).
  - destruct (IH ltac:(discriminate)) as (L & B & H). exists L, B. intros xs st K P F. inversion F as [|? v ? r A1 A2]; subst. remember (b :: l) as l' eqn:El. cbn [v1_rnn nth tl].
    destruct (unroll_cell (v_units a) (v_cell a) xs v) as [ys s]. specialize (H (map (v1_after act_rnn a) ys) r K P A2). destruct (v1_rnn act_rnn l' _ r). exact H.
Qed.
Lemma tame_head : tame1 act_linear -> tame (v1_head act_linear lin out).
Proof.
  intros T. unfold v1_head. apply (tame_comp _ (affine out)); [|apply tame_affine]. clear out. induction lin as [|l r IH]; [apply tame_id|].
  cbn [fold_left]. apply (tame_comp (fun x => map act_linear (affine l x))); [|exact IH]. apply (tame_comp (affine l)); [apply tame_affine|now apply tame_map].
Qed.
(** C87.  Also here no estimate ever exceeds a bound that depends on the weights only. *)
Theorem C87_v1_outputs : ls <> [] -> tame1 act_rnn -> tame1 act_linear -> exists B, forall lam X Y st, forward lam X v1_start = Ok (Y, st) -> Forall (Forall (within B)) Y.
Proof.
  intros N T1 T2. destruct (v1_rnn_bound T1 ls N) as (L & B & H). destruct (tame_head T2 L B) as (L2 & B2 & H2). exists B2. intros lam X Y st E.
  unfold v1_forward in E. apply bind_Ok in E. destruct E as (xs & _ & E).
  assert (Fs : v1_states 0 v1_start).
  { unfold v1_states, v1_start. clear. induction ls as [|l r IH]; constructor; [|exact IH]. destruct (v_cell l); cbn [cell_state state_dim]; rewrite repeat_length.
    - split; [reflexivity|]. apply (within_mono 0); [lra|apply within_zeros].
    - split; [reflexivity|]. assert (W : within 0 (repeat 0 (v_units l * 2))) by apply within_zeros.
      rewrite <- (firstn_skipn (v_units l) (repeat 0 _)) in W. apply Forall_app in W. destruct W as [W1 W2]. split; [apply (within_mono 0); [lra|exact W1]|exact W2]. }
  specialize (H xs v1_start 0 ltac:(lra) Fs). destruct (v1_rnn act_rnn ls xs v1_start) as [ys st']. injection E as <- _. cbn [fst] in H.
  apply Forall_forall. intros step I. apply in_map_iff in I. destruct I as (y & <- & I). constructor; [|constructor]. apply H2. exact (proj1 (Forall_forall _ _) H _ I).
Qed.
End V1.

(** Unknown cells are refused, with different errors. *)
Theorem C87_celltype t : (t <> "gru"%string -> t <> "lstm"%string -> v1_factor t = Err ENotImpl /\ ring_factor t = Err EKey) /\
  v1_factor "gru"%string = Ok 1%nat /\ ring_factor "gru"%string = Ok 1%nat /\ v1_factor "lstm"%string = Ok 2%nat /\ ring_factor "lstm"%string = Ok 2%nat.
Proof.
  split; [|repeat split]. intros A B. apply String.eqb_neq in A, B. unfold v1_factor, ring_factor. now rewrite A, B.
Qed.

(** Non-vacuity: a network of two LSTM cells with layer norm on a graph of two links runs. *)
Definition demo_linear (n : nat) : linear := {| l_out := n; l_w := fun i j => INR (i + j); l_b := fun _ => 1 |}.
Definition demo_net : ring_net := {| hidden_dim := 2; message_dim := 1; send_msg_net := [demo_linear 2; demo_linear 1];
  cells := [(Lstm (demo_linear 8), Some plain); (Gru {| gw_i := fun i j => 1; gw_h := fun i j => 2; g_b := fun _ => 0 |}, None)];
  send_output_net := [demo_linear 2; demo_linear 4]; output_transform := normalize_row |}.
Example C87_example : exists ys st, ring_forward demo_net [(-1)%Z; 0%Z] [[[1]; [2]]; [[3]; [4]]] (ring_start demo_net [(-1)%Z; 0%Z]) = Ok (ys, st) /\
  Forall (link_state demo_net 2) st /\ tame (output_transform demo_net) /\ cells demo_net <> [].
Proof.
  destruct (ring_forward demo_net [(-1)%Z; 0%Z] [[[1]; [2]]; [[3]; [4]]] (ring_start demo_net [(-1)%Z; 0%Z])) as [[ys st]|e] eqn:E.
  - exists ys, st. split; [reflexivity|]. split; [pose proof (C87_states _ _ _ _ _ E) as H; cbn [length INR] in H; now replace (1 + 1) with 2 in H by lra|]. split; [apply tame_normalize|discriminate].
  - exfalso. discriminate.
Qed.
Example C87_v1_example : exists Y st, v1_forward elu relu [{| v_units := 2; v_cell := Lstm (demo_linear 8); v_norm := Some plain |}] [demo_linear 2] (demo_linear 4) [] [[[1; 2]]; [[3; 4]]]
  (v1_start [{| v_units := 2; v_cell := Lstm (demo_linear 8); v_norm := Some plain |}]) = Ok (Y, st) /\ length Y = 2%nat.
Proof. eexists. eexists. split; reflexivity. Qed.
