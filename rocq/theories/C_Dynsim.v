(** * C46: DynamicalSimulation follows the generated trajectory with the actuated links. *)
From Coq Require Import Reals Lra String ZArith Lia Bool List.
From Verif Require Import Prelude M_Sys S_Sys P_Scan P_Run M_Math P_Math P_Trig P_Rot M_Geom M_Joint M_Kin M_Dyn M_Compose S_Kin P_Joint P_Kin C_Kin C_State P_Step C_Spring C_Step C_Union P_Delete2 C_Delete M_Pd P_Pd C_Pd X_Demo.
Import ListNotations.

(** ** Specification *)
(** The gains of a joint type: the user's, else the built-in ones. *)
Definition gain_of (custom : list (string * list R)) (typ : string) (g : list R) : Prop :=
  dget String.eqb custom typ = Some g \/ (dget String.eqb custom typ = None /\ dget String.eqb P_gains typ = Some g).
Section Spec.
Context {P O : Type}.
Variable W : widths.
Notation rsys := (System R (plink (params P)) geometry O).
(** Every joint type that occurs has gains, one per degree of freedom. *)
Definition gains_ok (custom : list (string * list R)) (s : rsys) : Prop :=
  forall typ, In typ (link_types s) -> exists g, gain_of custom typ g /\ dW W typ = Some (length g).
(** Reference system [r], reference trajectory and gains made from [s] and its trajectory [q]: the links that are not
    below an unactuated one, each with its own coordinates of [q] and the gains of its joint type. *)
Record follows (custom : list (string * list R)) (unactuated : list string) (s : rsys) (q : traj) (r : rsys) (q_ref : traj) (Pg : list R) : Prop := {
  fo_links : exists keep, increasing keep /\ (forall i, In i keep <-> survives s unactuated i) /\ picks keep (link_names s) (link_names r) /\
     picks keep (link_types s) (link_types r) /\ picks keep (links s) (links r);
  fo_dt : sys_dt r = sys_dt s;
  fo_wf : wf W r;
  fo_shape : shaped W r q_ref;
  fo_steps : length (tr_rows q_ref) = length (tr_rows q);
  fo_rows : forall i j name own own', nth_error (link_names s) i = Some name -> nth_error (link_names r) j = Some name ->
     own_rows W s (tr_rows q) i own -> own_rows W r (tr_rows q_ref) j own' -> own' = own;
  fo_gain_size : qd_size W r = Ok (length Pg);
  fo_gains : forall j typ g, nth_error (link_types r) j = Some typ -> link_coords (dW W) r Pg j g -> gain_of custom typ g }.
End Spec.

Lemma transpose_concat T (css : list (list (list R))) (blk : nat -> nat -> list R) : 
  (forall m cols, nth_error css m = Some cols -> transpose T cols = map (fun t => blk m t) (seq 0 T)) ->
  transpose T (concat css) = map (fun t => concat (map (fun m => blk m t) (seq 0 (length css)))) (seq 0 T).
Proof.
  intros H. unfold transpose. apply map_ext_in. intros t It. apply in_seq in It.
  revert blk H. induction css as [|c css IH]; intros blk H; [reflexivity|]. cbn [concat length seq map]. rewrite map_app. f_equal.
  - pose proof (H 0 c eq_refl) as E. unfold transpose in E. apply (f_equal (fun l => nth_error l t)) in E. rewrite !nth_map_seq in E by lia. congruence.
  - rewrite (IH (fun m => blk (S m))); [rewrite <- seq_shift, map_map; reflexivity|intros m cols E; now apply (H (S m))].
Qed.

Lemma map_rows {A B} (f : A -> B) d l : map f l = map (fun t => f (nth t l d)) (seq 0 (length l)).
Proof. rewrite <- (map_seq_nth l d) at 1. now rewrite map_map. Qed.
Lemma len_concat (l : list (list R)) : length (concat l) = list_sum (map (@length R) l).
Proof. induction l as [|a l IH]; [reflexivity|]. cbn [concat map]. now rewrite app_length, IH, list_sum_cons. Qed.
Lemma len_concat2 {A} (l : list (list A)) : length (concat l) = list_sum (map (@length A) l).
Proof. induction l as [|a l IH]; [reflexivity|]. cbn [concat map]. now rewrite app_length, IH, list_sum_cons. Qed.

Section Reference.
Context {P O : Type}.
Notation W := builtin_widths.
Notation jt := (@builtin_table P).
Notation link := (plink (params P)).
Notation rsys := (System R link geometry O).
Variable ops : parse_ops R link geometry.
Hypothesis laws : ops_laws ops.

Lemma picks_nth {A} keep (l l' : list A) j : picks keep l l' -> forall a, nth_error l' j = Some a -> exists i, nth_error keep j = Some i /\ nth_error l i = Some a.
Proof. unfold picks. intros F. revert j. induction F as [|i b ks r H F IH]; intros [|j] a E; cbn [nth_error] in *; try discriminate; [injection E as <-; eauto|eauto]. Qed.
Lemma picks_incl {A} keep (l l' : list A) a : picks keep l l' -> In a l' -> In a l.
Proof. intros K I. apply In_nth_error in I. destruct I as (j & E). destruct (picks_nth _ _ _ _ K _ E) as (i & _ & H). now apply nth_error_In in H. Qed.
Lemma picks_length {A} keep (l l' : list A) : picks keep l l' -> length l' = length keep.
Proof. intros F. now apply Forall2_length in F. Qed.

(** The kept links. *)
Lemma kept_links (s r : rsys) unact : parsed W ops s ->
  (if 0 <? length unact then delete_subsystem W ops s unact true else Ok s) = Ok r ->
  wf W r /\ sys_dt r = sys_dt s /\ exists keep, increasing keep /\ (forall i, In i keep <-> survives s unact i) /\
    picks keep (link_names s) (link_names r) /\ picks keep (link_types s) (link_types r) /\ picks keep (links s) (links r).
Proof.
  intros PD H. destruct unact as [|u us].
  - cbn in H. injection H as <-. split; [apply PD|]. split; [reflexivity|]. exists (seq 0 (num_links s)).
    assert (PK : forall A (l : list A), length l = num_links s -> picks (seq 0 (num_links s)) l l).
    { intros A l <-. unfold picks. enough (G : forall pre, Forall2 (fun i a => nth_error (pre ++ l) i = Some a) (seq (length pre) (length l)) l) by exact (G []).
      induction l as [|a l IH]; intros pre; cbn [length seq]; constructor.
      - rewrite nth_error_app2, Nat.sub_diag by lia. reflexivity.
      - specialize (IH (pre ++ [a])). rewrite app_length in IH. cbn [length] in IH. rewrite Nat.add_1_r in IH. rewrite <- app_assoc in IH. exact IH. }
    pose proof (pd_wf _ _ _ PD) as WF. unfold num_links in *.
    split; [|split; [|split; [|split]]]; try (apply PK; apply WF).
    + intros a b i j L A B. assert (a < length (link_parents s)) by (rewrite <- (seq_length (length (link_parents s)) 0); apply nth_error_Some; congruence).
      assert (b < length (link_parents s)) by (rewrite <- (seq_length (length (link_parents s)) 0); apply nth_error_Some; congruence).
      rewrite (nth_error_nth' _ 0) in A by (rewrite seq_length; auto). rewrite (nth_error_nth' _ 0) in B by (rewrite seq_length; auto).
      rewrite seq_nth in A, B by auto. injection A as <-. injection B as <-. exact L.
    + intros i. rewrite in_seq. unfold survives, num_links. cbn [In]. split; [intros [_ H]; split; [exact H|tauto]|intros [H _]; lia].
  - cbn [length Nat.ltb Nat.leb] in H. destruct (C04_delete_preserves_partial W ops laws s r (u :: us) true PD H) as (keep & KS & RS & PD').
    split; [apply PD'|]. split; [apply (rs_global _ _ _ _ RS)|]. exists keep. split; [apply (rs_increasing _ _ _ _ RS)|]. split; [exact KS|].
    destruct (rs_views _ _ _ _ RS) as (vs & vs' & (A1 & A2 & A3 & _) & (B1 & B2 & B3 & _) & PK). rewrite A1, A2, A3, B1, B2, B3.
    assert (G : forall X (f : link_view R link O -> X), picks keep (map f vs) (map f vs')).
    { intros X f. unfold picks in *. clear - PK. induction PK as [|i v ks r H F IH]; cbn [map]; constructor; auto. now rewrite nth_error_map, H. }
    auto.
Qed.

(** [s]'s index of link [j] of [r]. *)
Definition src (s r : rsys) (j : nat) : nat := match indexS (nm r j) (link_names s) with Ok i => i | Err _ => 0 end.
Lemma ref_run (s r : rsys) qs ds qr dr q custom (gain : nat -> list R) : wf W s -> wf W r -> lean W s qs ds -> lean W r qr dr ->
  tr_width q = list_sum qs -> (forall name, In name (link_names r) -> In name (link_names s)) ->
  (forall j, j < num_links r -> gain_of custom (typ_ r j) (gain j) /\ dW W (typ_ r j) = Some (length (gain j))) ->
  let m := by_name s (fun i => (list_sum (firstn i qs), list_sum (firstn i qs) + nth i qs 0)) (num_links s) in
  forall n k y c g, k + n = num_links r -> exists ys,
    run (build_q_ref W custom m (transpose (tr_width q) (tr_rows q))) (mkIM (slices_from 0 qr) (slices_from 0 dr)) y (c, g)
      (map (fun i => map (fun c : nat -> piece pd_arg => c i) [bcol BStr (link_names r) ""%string; bcol BStr (link_types r) ""%string]) (seq k n))
    = Ok (ys, (c ++ concat (map (fun j => nth (src s r j) (split_by qs (transpose (tr_width q) (tr_rows q))) []) (seq k n)), g ++ map gain (seq k n))).
Proof.
  intros WS WR LS LR WQ INC GA m. induction n as [|n IH]; intros k y c g Hk.
  - cbn [seq map run concat]. rewrite !app_nil_r. eauto.
  - cbn [seq map run concat]. unfold build_q_ref at 1, bcol. change (nth k (link_names r) ""%string) with (nm r k).
    assert (K : k < num_links r) by lia.
    assert (Ek : nth_error (link_names r) k = Some (nm r k)) by (unfold nm; apply nth_error_nth'; rewrite (wf_names _ _ WR); exact K).
    destruct (indexS_In _ _ (INC _ (nth_error_In _ _ Ek))) as (i0 & E0). pose proof (proj1 (indexS_NoDup _ _ _ (wf_unique _ _ WS)) E0) as Ei0.
    assert (I0 : i0 < num_links s) by (unfold num_links; rewrite <- (wf_names _ _ WS); apply nth_error_Some; congruence).
    unfold dgetE at 1, m. rewrite (get_by_name W s _ i0 (nm r k) WS Ei0). cbn [bind]. fold m.
    destruct (GA k K) as [G GW]. change (nth k (link_types r) ""%string) with (typ_ r k).
    assert (EG : (if dmem String.eqb custom (typ_ r k) then dgetE String.eqb custom (typ_ r k)
                  else if dmem String.eqb P_gains (typ_ r k) then dgetE String.eqb P_gains (typ_ r k) else Err EOther) = Ok (gain k)).
    { unfold dmem, dgetE. destruct G as [-> | [-> ->]]; reflexivity. }
    rewrite EG. cbn [bind]. unfold wget. rewrite GW. cbn [bind]. unfold assert_. rewrite Nat.eqb_refl. cbn [bind fst snd].
    destruct (width_i W s qs ds i0 LS I0) as (_ & _ & A3 & _).
    assert (SL : take_slice (transpose (tr_width q) (tr_rows q)) (list_sum (firstn i0 qs), list_sum (firstn i0 qs) + nth i0 qs 0)
                 = nth (src s r k) (split_by qs (transpose (tr_width q) (tr_rows q))) []).
    { unfold src. rewrite E0. rewrite (nth_split_by _ _ _ _ A3). rewrite take_slice_skip. reflexivity. }
    rewrite SL. destruct (IH (S k) (Some tt) (c ++ nth (src s r k) (split_by qs (transpose (tr_width q) (tr_rows q))) []) (g ++ [gain k]) ltac:(lia)) as [ys E].
    cbn [map] in E. unfold bcol in E. rewrite E. cbn [bind fst snd]. rewrite <- !app_assoc. cbn [app]. eauto.
Qed.

(** The reference that DynamicalSimulation hands to the controller. *)
Theorem C46_reference (s r : rsys) q custom unact : parsed W ops s ->
  (if 0 <? length unact then delete_subsystem W ops s unact true else Ok s) = Ok r ->
  (exists i, survives s unact i) -> shaped W s q -> gains_ok W custom s ->
  exists q_ref Pg, reference W ops custom unact s q = Ok (r, q_ref, Pg) /\ follows W custom unact s q r q_ref Pg.
Proof.
  intros PD DEL SV SH GA. destruct (kept_links s r unact PD DEL) as (WR & DT & keep & INK & KS & KN & KT & KL).
  pose proof (pd_wf _ _ _ PD) as WS. destruct (wf_lean W s WS) as (qs & ds & LS). destruct (wf_lean W r WR) as (qr & dr & LR).
  destruct SH as (SHq & SHf & SHn). pose proof (wf_size _ _ _ _ (ln_q _ _ _ _ LS) SHq) as WQ. rewrite WQ in SHf.
  assert (INC : forall name, In name (link_names r) -> In name (link_names s)) by (intros name; apply (picks_incl keep); auto).
  assert (NZ : num_links r <> 0).
  { destruct SV as (i & Hi). apply KS in Hi. unfold num_links. rewrite <- (wf_names _ _ WR), (picks_length _ _ _ KN). destruct keep; [contradiction|discriminate]. }
  assert (GX : exists gain : nat -> list R, forall j, j < num_links r -> gain_of custom (typ_ r j) (gain j) /\ dW W (typ_ r j) = Some (length (gain j))).
  { assert (G1 : forall j, j < num_links r -> exists g, gain_of custom (typ_ r j) g /\ dW W (typ_ r j) = Some (length g)).
    { intros j J. apply GA. apply (picks_incl keep _ (link_types r)); auto. eapply nth_error_In. apply (typ_spec W r qr dr LR j J). }
    exists (fun j => match dget String.eqb custom (typ_ r j) with Some g => g | None => match dget String.eqb P_gains (typ_ r j) with Some g => g | None => [] end end).
    intros j J. destruct (G1 j J) as (g & G & GW). destruct G as [E|[E1 E2]]; [rewrite E|rewrite E1, E2]; (split; [|exact GW]); unfold gain_of; auto. }
  destruct GX as (gain & GX). unfold reference. rewrite (idx_map_value s qs ds WS LS). cbn [bind].
  replace (if 0 <? length unact then delete_subsystem W ops s unact true else Ok s) with (Ok r : result rsys). cbn [bind].
  rewrite (scan_run W r qr dr) with (cs := [bcol BStr (link_names r) ""%string; bcol BStr (link_types r) ""%string]); try apply LR; try reflexivity.
  2:{ cbn [combine]. repeat apply Forall2_cons; cbn [fst snd]; [..|apply Forall2_nil]; apply arg_ok_bcol; apply WR. }
  cbv zeta. destruct (ref_run s r qs ds qr dr q custom gain WS WR LS LR WQ INC GX (num_links r) 0 None [] [] eq_refl) as [ys E].
  match type of E with run ?f ?a ?b ?c ?d = _ => change (run f a b c d = Ok (ys, (concat (map (fun j => nth (src s r j) (split_by qs (transpose (tr_width q) (tr_rows q))) []) (seq 0 (num_links r))), map gain (seq 0 (num_links r))))) in E end.
  rewrite E. cbn [bind snd].
  destruct (concatenate (map gain (seq 0 (num_links r)))) as [Pg|e] eqn:EC.
  2:{ destruct (num_links r); [congruence|discriminate]. }
  apply concatenate_Ok in EC. destruct EC as [_ ->]. cbn [bind]. do 2 eexists. split; [reflexivity|].
  set (css := map (fun j => nth (src s r j) (split_by qs (transpose (tr_width q) (tr_rows q))) []) (seq 0 (num_links r))).
  (* the source of a kept link *)
  assert (SRC : forall j, j < num_links r -> nth_error (link_names s) (src s r j) = Some (nm r j) /\ src s r j < num_links s /\
      nth_error qs (src s r j) = Some (nth j qr 0)).
  { intros j J. assert (Ej : nth_error (link_names r) j = Some (nm r j)) by (unfold nm; apply nth_error_nth'; rewrite (wf_names _ _ WR); exact J).
    destruct (indexS_In _ _ (INC _ (nth_error_In _ _ Ej))) as (i0 & E0). unfold src. rewrite E0.
    pose proof (proj1 (indexS_NoDup _ _ _ (wf_unique _ _ WS)) E0) as Ei0.
    assert (I0 : i0 < num_links s) by (unfold num_links; rewrite <- (wf_names _ _ WS); apply nth_error_Some; congruence).
    split; [exact Ei0|]. split; [exact I0|].
    destruct (picks_nth _ _ _ _ KN _ Ej) as (i1 & K1 & Ei1).
    assert (i1 = i0) by (apply (NoDup_nth_error_inj (link_names s) i1 i0 (nm r j)); auto; apply WS). subst i1.
    pose proof (typ_spec W r qr dr LR j J) as Tj. destruct (picks_nth _ _ _ _ KT _ Tj) as (i1 & K2 & Ti). rewrite K1 in K2. injection K2 as <-.
    destruct (width_i W s qs ds i0 LS I0) as (A1 & _ & A3 & _). destruct (width_i W r qr dr j LR J) as (B1 & _ & B3 & _).
    rewrite (typ_spec W s qs ds LS i0 I0) in Ti. injection Ti as Ti. rewrite Ti in A1. congruence. }
  assert (LCS : length css = num_links r) by (unfold css; now rewrite map_length, seq_length).
  assert (BLK : transpose (length (tr_rows q)) (concat css) = map (fun row => concat (map (fun j => cut qs row (src s r j)) (seq 0 (num_links r)))) (tr_rows q)).
  { rewrite (transpose_concat _ css (fun j t => cut qs (nth t (tr_rows q) []) (src s r j))).
    - rewrite LCS. symmetry. exact (map_rows (fun row => concat (map (fun j => cut qs row (src s r j)) (seq 0 (num_links r)))) [] (tr_rows q)).
    - intros j cols Ej. assert (J : j < num_links r) by (rewrite <- LCS; apply nth_error_Some; congruence).
      unfold css in Ej. rewrite nth_map_seq in Ej by exact J. injection Ej as <-. destruct (SRC j J) as (_ & _ & A3).
      rewrite WQ, (link_columns qs (tr_rows q) _ _ A3 SHf). exact (map_rows (fun row => cut qs row (src s r j)) [] (tr_rows q)). }
  assert (LB : forall row, length row = list_sum qs -> map (@length R) (map (fun j => cut qs row (src s r j)) (seq 0 (num_links r))) = qr).
  { intros row Lr. rewrite map_map. transitivity (map (fun j => nth j qr 0) (seq 0 (length qr))); [|apply map_seq_nth]. rewrite (ln_qs_length W r qr dr LR).
    apply map_ext_in. intros j Hj. apply in_seq in Hj. apply cut_length; auto. apply SRC. lia. }
  assert (LCC : length (concat css) = list_sum qr).
  { unfold css. rewrite len_concat2. rewrite map_map. f_equal. transitivity (map (fun j => nth j qr 0) (seq 0 (length qr))); [|apply map_seq_nth]. rewrite (ln_qs_length W r qr dr LR).
    apply map_ext_in. intros j Hj. apply in_seq in Hj. destruct (SRC j ltac:(lia)) as (_ & _ & A3). rewrite (nth_split_by _ _ _ _ A3).
    rewrite firstn_length, skipn_length, transpose_length, WQ. pose proof (sum_firstn_le _ _ _ A3). lia. }
  assert (SZ : q_size W r = Ok (list_sum qr)) by (apply total_width_Ok; eexists; split; try reflexivity; apply LR).
  assert (GS : map (@length R) (map gain (seq 0 (num_links r))) = dr).
  { rewrite map_map. transitivity (map (fun j => nth j dr 0) (seq 0 (length dr))); [|apply map_seq_nth]. rewrite (ln_ds_length W r qr dr LR).
    apply map_ext_in. intros j Hj. apply in_seq in Hj. destruct (GX j ltac:(lia)) as [_ G]. destruct (width_i W r qr dr j LR ltac:(lia)) as (_ & A2 & _). congruence. }
  constructor; cbn [tr_rows tr_width]; auto.
  - exists keep. auto.
  - split; [rewrite LCC; exact SZ|]. cbn [tr_rows tr_width]. rewrite BLK, LCC. split.
    + rewrite Forall_map. eapply Forall_impl; [|exact SHf]. intros row Lr. cbn beta. rewrite len_concat, (LB row Lr). reflexivity.
    + destruct (tr_rows q); [congruence|discriminate].
  - rewrite BLK. apply map_length.
  - intros i j name own own' Ei Ej Ho Ho'. rewrite BLK in Ho'.
    assert (J : j < num_links r) by (unfold num_links; rewrite <- (wf_names _ _ WR); apply nth_error_Some; congruence).
    destruct (SRC j J) as (Es & Is & A3). assert (NJ : nm r j = name) by (unfold nm; now apply nth_error_nth). rewrite NJ in Es.
    assert (SI : src s r j = i) by (apply (NoDup_nth_error_inj (link_names s) _ _ name); auto; apply WS).
    clear - Ho Ho' SHf LB SI LS LR J Is. unfold own_rows in *. revert own' Ho'. induction Ho as [|row sl rows own C Ho IH]; intros own' Ho'; cbn [map] in Ho'.
    + inversion Ho'. reflexivity.
    + inversion Ho' as [|? sl' ? own'' C' Ho'' E1 E2]; subst. inversion SHf as [|? ? L1 L2]; subst. f_equal; [|apply IH; auto].
      pose proof (coords_cut W s qs ds LS row _ L1 Is) as C1. rewrite (coords_unique s _ _ _ _ _ C C1).
      assert (LL : length (concat (map (fun j => cut qs row (src s r j)) (seq 0 (num_links r)))) = list_sum qr) by (rewrite len_concat, (LB row L1); reflexivity).
      pose proof (coords_cut W r qr dr LR _ j LL J) as C2. rewrite (coords_unique r _ _ _ _ _ C' C2). rewrite cut_concat by (apply LB; exact L1).
      apply nth_error_nth. rewrite nth_map_seq by exact J. reflexivity.
  - rewrite len_concat, GS. apply total_width_Ok; eexists; split; try reflexivity; apply LR.
  - intros j typ g Tj C. assert (J : j < num_links r) by (unfold num_links; rewrite <- (wf_types _ _ WR); apply nth_error_Some; congruence).
    rewrite (typ_spec W r qr dr LR j J) in Tj. injection Tj as <-.
    assert (LG : length (concat (map gain (seq 0 (num_links r)))) = list_sum dr) by now rewrite len_concat, GS.
    pose proof (coords_cut_d W r qr dr _ j LR LG J) as C2. rewrite (coords_unique r _ _ _ _ _ C C2), cut_concat by exact GS.
    rewrite (nth_error_nth _ _ _ (nth_map_seq gain (num_links r) j J)). now apply GX.
Qed.

Lemma own_rows_exist (s : rsys) q i : wf W s -> shaped W s q -> i < num_links s -> exists own, own_rows W s (tr_rows q) i own.
Proof.
  intros WS (A & B & _) I. destruct (wf_lean W s WS) as (qs & ds & LS). rewrite (wf_size _ _ _ _ (ln_q _ _ _ _ LS) A) in B. clear A.
  unfold own_rows. induction B as [|row rows L B (own & IH)]; [exists []; constructor|]. eexists (_ :: own). constructor; [|exact IH]. now apply (coords_cut W s qs ds LS).
Qed.
Lemma own_rows_nth (s : rsys) rows i own t row : own_rows W s rows i own -> nth_error rows t = Some row ->
  exists sl, nth_error own t = Some sl /\ link_coords (qW W) s row i sl.
Proof. unfold own_rows. intros F. revert t. induction F as [|a b l l' H F IH]; intros [|t] E; cbn [nth_error] in *; try discriminate; [injection E as <-; eauto|eauto]. Qed.

Lemma follows_types (s r : rsys) custom unact q q_ref Pg : wf W s -> follows W custom unact s q r q_ref Pg -> same_types s r.
Proof.
  intros WS F i j name ti tj Ei Ej Ti Tj. destruct (fo_links _ _ _ _ _ _ _ _ F) as (keep & _ & _ & KN & KT & _).
  destruct (picks_nth _ _ _ _ KN _ Ej) as (i1 & K1 & E1). destruct (picks_nth _ _ _ _ KT _ Tj) as (i2 & K2 & E2).
  rewrite K1 in K2. injection K2 as <-. assert (i1 = i) by (apply (NoDup_nth_error_inj (link_names s) _ _ name); auto; apply WS). congruence.
Qed.
Lemma follows_known (s r : rsys) custom unact q q_ref Pg : joints_known jt s -> follows W custom unact s q r q_ref Pg -> joints_known jt r.
Proof.
  intros JK F i typ l T L. destruct (fo_links _ _ _ _ _ _ _ _ F) as (keep & _ & _ & _ & KT & KL).
  destruct (picks_nth _ _ _ _ KT _ T) as (i1 & K1 & E1). destruct (picks_nth _ _ _ _ KL _ L) as (i2 & K2 & E2). rewrite K1 in K2. injection K2 as <-. eauto.
Qed.
Lemma follows_unit (s r : rsys) custom unact q q_ref Pg : wf W s -> shaped W s q -> follows W custom unact s q r q_ref Pg ->
  (forall row, In row (tr_rows q) -> unit_coords_all s row) -> forall row, In row (tr_rows q_ref) -> unit_coords_all r row.
Proof.
  intros WS SH F U row I j typ sl T C HQ. pose proof (fo_wf _ _ _ _ _ _ _ _ F) as WR.
  assert (J : j < num_links r) by (unfold num_links; rewrite <- (wf_types _ _ WR); apply nth_error_Some; congruence).
  apply In_nth_error in I. destruct I as (t & Et).
  destruct (nth_error (link_names r) j) as [name|] eqn:Ej; [|apply nth_error_None in Ej; rewrite (wf_names _ _ WR) in Ej; unfold num_links in J; lia].
  destruct (fo_links _ _ _ _ _ _ _ _ F) as (keep & _ & _ & KN & KT & _).
  destruct (picks_nth _ _ _ _ KN _ Ej) as (i & K1 & Ei). destruct (picks_nth _ _ _ _ KT _ T) as (i2 & K2 & Ti). rewrite K1 in K2. injection K2 as <-.
  assert (II : i < num_links s) by (unfold num_links; rewrite <- (wf_names _ _ WS); apply nth_error_Some; congruence).
  destruct (own_rows_exist s q i WS SH II) as (own & HO). destruct (own_rows_exist r q_ref j WR (fo_shape _ _ _ _ _ _ _ _ F) J) as (own' & HO').
  pose proof (fo_rows _ _ _ _ _ _ _ _ F i j name own own' Ei Ej HO HO') as ->.
  destruct (own_rows_nth _ _ _ _ _ _ HO' Et) as (sl' & E1 & C1). rewrite (coords_unique r _ _ _ _ _ C C1).
  assert (LT : t < length (tr_rows q)) by (rewrite <- (fo_steps _ _ _ _ _ _ _ _ F); apply nth_error_Some; congruence).
  destruct (nth_error (tr_rows q) t) as [row'|] eqn:Er; [|apply nth_error_None in Er; lia].
  destruct (own_rows_nth _ _ _ _ _ _ HO Er) as (sl2 & E2 & C2). assert (sl2 = sl') by congruence. subst sl2.
  exact (U row' (nth_error_In _ _ Er) i typ sl' Ti C2 HQ).
Qed.

(** A link that stays, with gains of the wrong number or none at all: the call fails. *)
Theorem C46_gains_refused (s r : rsys) q custom unact j typ : parsed W ops s ->
  (if 0 <? length unact then delete_subsystem W ops s unact true else Ok s) = Ok r ->
  nth_error (link_types r) j = Some typ -> (forall g, gain_of custom typ g -> dW W typ <> Some (length g)) ->
  exists e, reference W ops custom unact s q = Err e.
Proof.
  intros PD DEL Et NG. destruct (reference W ops custom unact s q) as [x|e] eqn:E; [|eauto]. exfalso.
  destruct (kept_links s r unact PD DEL) as (WR & _). pose proof (pd_wf _ _ _ PD) as WS.
  destruct (wf_lean W s WS) as (qs & ds & LS). destruct (wf_lean W r WR) as (qr & dr & LR).
  unfold reference in E. rewrite (idx_map_value s qs ds WS LS), DEL in E. cbn [bind] in E.
  rewrite (scan_run W r qr dr) with (cs := [bcol BStr (link_names r) ""%string; bcol BStr (link_types r) ""%string]) in E; try apply LR; try reflexivity.
  2:{ cbn [combine]. repeat apply Forall2_cons; cbn [fst snd]; [..|apply Forall2_nil]; apply arg_ok_bcol; apply WR. }
  cbv zeta in E. apply bind_Ok in E. destruct E as (z & E & _). apply bind_Ok in E. destruct E as (y & E & _).
  assert (J : j < num_links r) by (pose proof (wf_types _ _ WR) as X; unfold num_links; rewrite <- X; apply nth_error_Some; congruence).
  set (m := by_name s _ _) in E.
  assert (X : forall order y st, In j order -> forall z, run (build_q_ref W custom m (transpose (tr_width q) (tr_rows q)))
     (mkIM (slices_from 0 qr) (slices_from 0 dr)) y st (map (fun i => map (fun c : nat -> piece pd_arg => c i) [bcol BStr (link_names r) ""%string; bcol BStr (link_types r) ""%string]) order) <> Ok z).
  { induction order as [|i order IH]; intros y0 st1 I z0 Z; [contradiction|]. cbn [map run] in Z. apply bind_Ok in Z. destruct Z as (a & A & Z).
    apply bind_Ok in Z. destruct Z as (b & B & Z). destruct I as [->|I]; [|exact (IH _ _ I _ B)].
    unfold build_q_ref, bcol in A. rewrite (nth_error_nth _ _ _ Et) in A.
    apply bind_Ok in A. destruct A as (sl & _ & A). apply bind_Ok in A. destruct A as (g & G & A). apply bind_Ok in A. destruct A as (w & Hw & A).
    apply bind_Ok in A. destruct A as (u & HA & _). unfold assert_ in HA. destruct (Nat.eqb_spec w (length g)); [|discriminate]. subst w.
    unfold wget in Hw. destruct (dW W typ) eqn:EW; [|discriminate]. injection Hw as ->. apply (NG g); auto.
    unfold dmem, dgetE, gain_of in *. destruct (dget String.eqb custom typ) as [gc|]; [left; now injection G as ->|right].
    split; [reflexivity|]. destruct (dget String.eqb P_gains typ); [now injection G as ->|discriminate]. }
  apply (X _ _ _ ltac:(apply in_seq; split; [apply Nat.le_0_l|exact J]) _ E).
Qed.

Variable solve : nat -> mat -> mat.
(** DynamicalSimulation succeeds and simulates the system with gravity on or off; at each of the steps the actuated links
    are driven towards their own coordinates of the trajectory, the unactuated ones not at all. *)
Theorem C46_dynamical_simulation (s : rsys) q custom unact Dg nograv zeros0 c : simulable s -> parsed W ops s -> shaped W s q ->
  (forall row, In row (tr_rows q) -> unit_coords_all s row) -> gains_ok W custom s -> clip_ok c ->
  (Rabs (sys_dt s) <= 10 ^ 8)%R -> lower (integration_method s) = "semi_implicit_euler"%string ->
  (exists i, survives s unact i) -> (forall name, In name unact -> In name (link_names s)) ->
  (forall a b na nb ka kb, (a < b)%nat -> nth_error unact a = Some na -> nth_error unact b = Some nb ->
      nth_error (link_names s) ka = Some na -> nth_error (link_names s) kb = Some nb -> ~ descends (link_parents s) ka kb) ->
  (forall D r, Dg = Some D -> (if 0 <? length unact then delete_subsystem W ops s unact true else Ok s) = Ok r -> qd_size W r = Ok (length D)) ->
  exists r q_ref Pg st0 states, follows W custom unact s q r q_ref Pg /\
    dynamical_simulation W jt solve ops custom unact Dg nograv zeros0 c s q = Ok states /\
    fits s st0 /\ Forall (eq 0%R) (st_qd st0) /\
    (forall i name typ qi, nth_error (link_names s) i = Some name -> nth_error (link_types s) i = Some typ -> link_coords (qW W) s (st_q st0) i qi ->
      (zeros0 = true \/ ~ In name (link_names r) -> default_coords typ qi) /\
      (zeros0 = false -> In name (link_names r) -> forall row q0, nth_error (tr_rows q) 0 = Some row -> link_coords (qW W) s row i q0 -> qi = q0)) /\
    controlled_run solve (sim_sys nograv s) r q_ref Pg Dg c st0 states.
Proof.
  intros SIM PD SH UN GA CO DT IM SV IN NE HD. pose proof (si_wf _ SIM) as WS.
  assert (exists r, (if 0 <? length unact then delete_subsystem W ops s unact true else Ok s) = Ok r) as (r & DEL).
  { destruct (0 <? length unact); [|eauto]. destruct (C03_delete_total W ops laws s unact PD SV) as [_ T]. apply T; auto. }
  destruct (C46_reference s r q custom unact PD DEL SV SH GA) as (q_ref & Pg & ER & F).
  pose proof (fo_wf _ _ _ _ _ _ _ _ F) as WR. pose proof (follows_types _ _ _ _ _ _ _ WS F) as ST.
  assert (INC : forall name, In name (link_names r) -> In name (link_names s)).
  { destruct (fo_links _ _ _ _ _ _ _ _ F) as (keep & _ & _ & KN & _). intros name. apply (picks_incl keep); auto. }
  destruct (C46_unroll solve s r q_ref Pg Dg nograv zeros0 c) as (st0 & states & E & F0 & Z0 & U0 & H0 & CR); auto.
  - apply (follows_known s r custom unact q q_ref Pg); auto. apply SIM.
  - apply (fo_shape _ _ _ _ _ _ _ _ F).
  - apply (fo_gain_size _ _ _ _ _ _ _ _ F).
  - intros D ->. pose proof (HD D r eq_refl DEL) as A. pose proof (fo_gain_size _ _ _ _ _ _ _ _ F) as B. congruence.
  - apply (follows_unit s r custom unact q q_ref Pg); auto.
  - exists r, q_ref, Pg, st0, states. split; [exact F|]. unfold dynamical_simulation. rewrite ER. cbn [bind]. split; [exact E|].
    split; [exact F0|]. split; [exact Z0|]. split; [|exact CR].
    intros i name typ qi Ei Ti Ci. destruct (H0 i name typ qi Ei Ti Ci) as [A B]. split; [exact A|].
    intros Z I row q0 Er Cr. apply In_nth_error in I. destruct I as (j & Ej).
    assert (II : i < num_links s) by (unfold num_links; rewrite <- (wf_names _ _ WS); apply nth_error_Some; congruence).
    assert (J : j < num_links r) by (unfold num_links; rewrite <- (wf_names _ _ WR); apply nth_error_Some; congruence).
    destruct (own_rows_exist s q i WS SH II) as (own & HO). destruct (own_rows_exist r q_ref j WR (fo_shape _ _ _ _ _ _ _ _ F) J) as (own' & HO').
    pose proof (fo_rows _ _ _ _ _ _ _ _ F i j name own own' Ei Ej HO HO') as ->.
    destruct (own_rows_nth _ _ _ _ _ _ HO Er) as (sl & E1 & C1). rewrite (coords_unique s _ _ _ _ _ Cr C1).
    destruct (nth_error (tr_rows q_ref) 0) as [row'|] eqn:Er'.
    2:{ apply nth_error_None in Er'. rewrite (fo_steps _ _ _ _ _ _ _ _ F) in Er'. assert (0 < length (tr_rows q)) by (apply nth_error_Some; congruence). lia. }
    destruct (own_rows_nth _ _ _ _ _ _ HO' Er') as (sl' & E2 & C2). assert (sl' = sl) by congruence. subst sl'. exact (B Z j row' sl Ej eq_refl C2).
Qed.
End Reference.

(** ** Limits of the controller *)
(** A system of a single link. *)
Definition one (typ : string) : System R (plink (params unit)) geometry unit :=
  mkSys [-1]%Z [demo_link vzero qone [demo_box]] [typ] [0]%R [0]%R [0]%R [0]%R 1%R [(0%Z, demo_box)] [0; 0; 0]%R "semi_implicit_euler" 0
    ["a"%string] None [tt].
Lemma one_wf typ : qW builtin_widths typ = Some 1 -> dW builtin_widths typ = Some 1 -> wf builtin_widths (one typ).
Proof.
  intros Q D. constructor; try reflexivity.
  - cbn [one link_names]. constructor; [intros []|constructor].
  - unfold one, topo. cbn [link_parents]. intros [|i] p H; cbn in H; [injection H as <-; lia|destruct i; discriminate].
  - cbn [one geoms link_parents length]. constructor; [cbn; lia|constructor].
  - exists [1], [1]. unfold have_widths. cbn [one link_types].
    split; [constructor; [exact Q|constructor]|]. split; [constructor; [exact D|constructor]|]. repeat split.
Qed.
Lemma one_known typ jm : @builtin_table unit typ = Some jm -> joints_known (@builtin_table unit) (one typ).
Proof.
  intros J [|i] t l A B; cbn in A, B; [|destruct i; discriminate]. injection A as <-. injection B as <-.
  split; [eauto|]. exists tt. unfold params_for, demo_link. cbn [pl_params dget]. destruct (String.eqb typ "default"); auto.
Qed.
Lemma one_coords_ok w typ q : w typ = Some 1 -> link_coords w (one typ) [q] 0 [q].
Proof. intros E. exists [1], [[q]]. split; [constructor; [exact E|constructor]|]. split; [split; reflexivity|reflexivity]. Qed.
Lemma one_coords w typ q : w typ = Some 1 -> forall sl, link_coords w (one typ) [q] 0 sl -> sl = [q].
Proof.
  intros E sl H. apply (coords_unique (one typ) w [q] 0); auto. exists [1], [[q]].
  split; [constructor; [exact E|constructor]|]. split; [split; reflexivity|reflexivity].
Qed.

(** The torque on a single link that follows a single link of the same type. *)
Lemma one_torque typ jm f g rows Pg Dg q qd k : @builtin_table unit typ = Some jm -> qW builtin_widths typ = Some 1 -> dW builtin_widths typ = Some 1 ->
  jm_p_control jm = Some f -> jm_qd_from_q jm = Some g -> rows <> [] ->
  exists tau, actuates builtin_widths (@builtin_table unit) (one typ) (one typ) (mkTraj 1 (map (fun x => [x]) rows)) [Pg] (Some [Dg]) k [q] [qd] tau /\
    exists qr qdr, held rows k qr /\ held (g (map (fun x => [x]) rows) 1%R) k qdr /\ tau = ladd (lmul (f [q] [qr]) [Pg]) (lmul (lsub qdr [qd]) [Dg]).
Proof.
  intros J Q D F G NE. pose proof (one_wf typ Q D) as WF. pose proof (one_known typ jm J) as JK.
  set (st := mkState [q] [qd] []). set (qr := mkTraj 1 (map (fun x => [x]) rows)).
  assert (SQ : q_size builtin_widths (one typ) = Ok 1).
  { apply total_width_Ok. exists [1]. split; [constructor; [exact Q|constructor]|reflexivity]. }
  assert (SD : qd_size builtin_widths (one typ) = Ok 1).
  { apply total_width_Ok. exists [1]. split; [constructor; [exact D|constructor]|reflexivity]. }
  assert (SHP : shaped builtin_widths (one typ) qr).
  { split; [exact SQ|]. split; [|cbn [qr tr_rows]; destruct rows; [congruence|discriminate]]. cbn [qr tr_rows tr_width].
    rewrite Forall_map. apply Forall_forall. reflexivity. }
  assert (SAME : same_types (one typ) (one typ)) by (intros [|i] [|j] n a b _ _ A B; cbn in A, B; try (destruct i; discriminate); try (destruct j; discriminate); congruence).
  destruct (C46_torque builtin_widths (@builtin_table unit) builtin_control (one typ) (one typ) qr [Pg] (Some [Dg]) st WF WF SHP SAME (builtin_controllable (one typ) _ WF JK) SD)
    as (cs & _ & H); [intros ? X; injection X as <-; reflexivity|exact SQ|exact SD|].
  destruct (H k) as (tau & _ & A). exists tau. split; [exact A|]. destruct A as [L A]. rewrite SD in L. injection L as L. destruct tau as [|t [|? ?]]; try discriminate L.
  destruct (A 0 "a"%string typ [q] [qd] [t] eq_refl eq_refl) as [_ PD].
  1: exact (one_coords_ok _ typ q Q). 1: exact (one_coords_ok _ typ qd D). 1: exact (one_coords_ok _ typ t D).
  destruct (PD 0 eq_refl) as (jm' & f' & own & r & Pj & J' & F' & OW & HO & CP & g' & qdr & Dj & G' & HV & CD & E).
  assert (jm' = jm) by congruence. subst jm'. assert (f' = f) by congruence. subst f'. assert (g' = g) by congruence. subst g'.
  apply (one_coords _ typ Pg D) in CP. apply (one_coords _ typ Dg D) in CD. subst Pj Dj.
  assert (EO : own = map (fun x => [x]) rows).
  { clear - OW Q. cbn [qr tr_rows] in OW. unfold own_rows in OW. revert own OW. induction rows as [|x rows IH]; intros own OW; inversion OW as [|? sl ? own' C F]; subst; [reflexivity|].
    cbn [map]. f_equal; [apply (one_coords _ typ x Q sl C)|apply IH; exact F]. }
  subst own. unfold held in HO. rewrite map_length in HO. rewrite nth_error_map in HO. destruct (nth_error rows _) as [x|] eqn:EX; [|discriminate]. injection HO as <-.
  exists x, qdr. split; [exact EX|]. split; [exact HV|exact E].
Qed.

(** Default gains: one per velocity coordinate, 100 for rotations and 250 for translations. *)
Theorem C46_default_gains {P} typ jm (p : P) : builtin_table typ = Some jm ->
  exists g, dget String.eqb P_gains typ = Some g /\ length g = length (jm_motion jm) /\
    forall k m, nth_error (jm_motion jm) k = Some m ->
      (vel (m p) = vzero -> nth_error g k = Some 100%R) /\ (ang (m p) = vzero -> nth_error g k = Some 250%R).
Proof.
  assert (N : (1%R = 0%R -> False)) by lra.
  intros H. unfold builtin_table in H. apply dget_In in H. cbn [builtin_joints In] in H.
  repeat (destruct H as [H|H]; [injection H as <- <-; eexists; split; [reflexivity|]; cbn [jm_motion map]; split; [reflexivity|];
    intros k m Hk; repeat (destruct k as [|k]; cbn [nth_error] in Hk; [injection Hk as <-; split; unfold const, mrx, mry, mrz, mpx, mpy, mpz, vzero, x_unit, y_unit, z_unit;
      cbn [ang vel]; intros X; first [injection X; lra|reflexivity]|]); destruct k; discriminate|]). contradiction.
Qed.

(** The velocity reference is zero at both ends of the trajectory: a slider that moves exactly with its reference is
    braked there. *)
Theorem C46_endpoint_refuted : exists (ref : R -> R) taus,
  (forall t, derivable_pt_lim ref t 1%R) /\
  actuates builtin_widths (@builtin_table unit) (one "px") (one "px") (mkTraj 1 (map (fun x => [x]) [ref 0; ref 1; ref 2]%R)) [1]%R (Some [1]%R)
    0 [ref 0]%R [1]%R taus /\ taus = [-1]%R.
Proof.
  exists (fun t => t). destruct (one_torque "px" _ _ _ [0; 1; 2]%R 1%R 1%R 0%R 1%R 0 eq_refl eq_refl eq_refl eq_refl eq_refl) as (tau & A & qr & qdr & HQ & HD & E); [discriminate|].
  exists tau. split; [intros t; apply derivable_pt_lim_id|]. split; [exact A|]. rewrite E. cbn in HQ. injection HQ as <-. cbn in HD. injection HD as <-.
  unfold p_control_pxyz_p3d, lsub, lmul, ladd. cbn [zipw]. f_equal. ring.
Qed.
(** Velocity references of hinges are differences of the stored angles: a reference that rests at half a turn, stored as
    [PI] and then as [-PI], makes the controller push a hinge that rests on it. *)
Theorem C46_full_turn_refuted : exists taus,
  same_angles [PI; PI; PI]%R [PI; PI; - PI]%R /\
  actuates builtin_widths (@builtin_table unit) (one "rx") (one "rx") (mkTraj 1 [[PI]; [PI]; [- PI]]%R) [1]%R (Some [1]%R) 1 [PI]%R [0]%R taus /\
  taus = [- PI]%R.
Proof.
  destruct (one_torque "rx" _ _ _ [PI; PI; - PI]%R 1%R 1%R PI 0%R 1 eq_refl eq_refl eq_refl eq_refl eq_refl) as (tau & A & qr & qdr & HQ & HD & E); [discriminate|].
  exists tau. split; [|split; [exact A|]].
  - constructor; [exists 0%Z; ring|]. constructor; [exists 0%Z; ring|]. constructor; [exists (-1)%Z; ring|constructor].
  - rewrite E. cbn in HQ. injection HQ as <-. cbn in HD. injection HD as <-.
    assert (Z : p_control_rxyz [PI] [PI] = [0]%R).
    { assert (S : same_angles [PI] [PI]%R) by (constructor; [exists 0%Z; ring|constructor]). pose proof (p_rxyz_zero _ _ S) as F.
      unfold p_control_rxyz, lsub in *. cbn [map zipw] in *. inversion F as [|? ? X]; subst. now rewrite <- X. }
    rewrite Z. unfold lsub, lmul, ladd, lscale. cbn [zipw map length hd]. f_equal. field.
Qed.
(** Joint types of links with the same name are not compared: a slider is pulled towards an angle. *)
Theorem C46_type_mismatch_refuted : exists cs cs' st,
  pd_init builtin_widths (@builtin_table unit) [1]%R None (one "rx") (mkTraj 1 [[3]]%R) = Ok cs /\
  pd_apply builtin_widths (@builtin_table unit) cs (one "px") st = Ok (cs', [(3 - 0) * 1]%R) /\ st_q st = [0]%R.
Proof. do 2 eexists. exists (mkState [0]%R [0]%R []). split; [vm_compute; reflexivity|]. split; [vm_compute; reflexivity|reflexivity]. Qed.

(** ** The hypotheses are met *)
Lemma phys_laws {J} : ops_laws (@phys_ops J).
Proof.
  constructor; [reflexivity|reflexivity|]. intros r. cbn [phys_ops unit_quat_ok kone kzero map fold_right].
  assert (Z : fold_right Rplus 0%R (map (fun x => (x * x)%R) (repeat 0%R r)) = 0%R) by (induction r as [|r IH]; cbn [repeat map fold_right]; [reflexivity|rewrite IH; ring]).
  rewrite Z. replace (1 * 1 + 0)%R with 1%R by ring. rewrite sqrt_1. replace (1 - 1)%R with 0%R by ring. rewrite Rabs_R0.
  unfold Rleb. destruct (Rle_dec _ _) as [_|N]; [reflexivity|]. exfalso. apply N. assert (0 < / 10 ^ 8)%R by (apply Rinv_0_lt_compat, pow_lt; lra).
  assert (0 < / 10 ^ 5)%R by (apply Rinv_0_lt_compat, pow_lt; lra). lra.
Qed.
Lemma demo_parsed : parsed builtin_widths phys_ops demo.
Proof.
  constructor.
  - exact demo_wf.
  - intros i j x y g h L A B. cbn [demo geoms] in A, B.
    destruct i as [|[|[|[|i]]]]; cbn [nth_error] in A; try (destruct i; discriminate); injection A as <- _;
    destruct j as [|[|[|[|j]]]]; cbn [nth_error] in B; try (destruct j; discriminate); injection B as <- _; lia.
  - intros [|[|[|[|i]]]] l H; cbn [demo links nth_error] in H; try (destruct i; discriminate); injection H as <-; reflexivity.
  - exists (map (fun i => mkView
       (nth i (link_names demo) ""%string) (nth i (link_types demo) ""%string) (nth i (links demo) (demo_link vzero qone [])) tt
       (cut [6; 1; 3; 1] (link_damping demo) i) (cut [6; 1; 3; 1] (link_armature demo) i) (cut [6; 1; 3; 1] (link_spring_stiffness demo) i)
       (cut [7; 1; 4; 1] (link_spring_zeropoint demo) i)) [0; 1; 2; 3]).
    split.
    + split; [reflexivity|]. split; [reflexivity|]. split; [reflexivity|]. split; [reflexivity|]. split; [reflexivity|].
      exists [7; 1; 4; 1], [6; 1; 3; 1]. split; [repeat apply Forall2_cons; try reflexivity; apply Forall2_nil|].
      split; [repeat apply Forall2_cons; try reflexivity; apply Forall2_nil|]. repeat (split; [split; reflexivity|]). split; reflexivity.
    + assert (POK : forall p r g, pos_ok phys_ops (demo_link p r g) = true).
      { intros p r g. cbn [phys_ops pos_ok demo_link pl_pmin pl_pmax vzero vx vy vz]. unfold Rleb. destruct (Rle_dec 0 1); [reflexivity|lra]. }
      repeat apply Forall_cons; [..|apply Forall_nil]; (split; [apply POK|]); cbn [v_type v_zeropoint nth demo link_types link_spring_zeropoint]; intros F; try discriminate F.
      * exact (ol_one _ (@phys_laws (params unit)) 3).
      * exact (ol_one _ (@phys_laws (params unit)) 3).
Qed.
(** The demo system without its slider actuated, for any solver. *)
Example C46_example solve : exists r q_ref Pg st0 states,
  follows builtin_widths [] ["tool"%string] demo (mkTraj 13 [demo_q; demo_q; demo_q]) r q_ref Pg /\ link_names r = ["base"; "arm"; "hand"]%string /\
  dynamical_simulation builtin_widths (@builtin_table unit) solve phys_ops [] ["tool"%string] None true false (Some 100%R) demo (mkTraj 13 [demo_q; demo_q; demo_q]) = Ok states /\
  controlled_run solve (sim_sys true demo) r q_ref Pg None (Some 100%R) st0 states.
Proof.
  assert (ND : forall i, descends [-1; 0; 1; 0]%Z 3 i -> i = 3).
  { intros i D. induction D as [|i p E D IH]; [reflexivity|]. subst p. destruct i as [|[|[|[|i]]]]; cbn [nth_error] in E; try discriminate E. destruct i; discriminate E. }
  assert (IT : forall k, nth_error (link_names demo) k = Some "tool"%string -> k = 3).
  { intros [|[|[|[|k]]]] E; cbn [demo link_names nth_error] in E; try discriminate E; auto. destruct k; discriminate E. }
  destruct (C46_dynamical_simulation phys_ops phys_laws solve demo (mkTraj 13 [demo_q; demo_q; demo_q]) [] ["tool"%string] None true false (Some 100%R))
    as (r & q_ref & Pg & st0 & states & F & E & _ & _ & _ & CR).
  - exact demo_simulable.
  - exact demo_parsed.
  - split; [reflexivity|]. split; [repeat constructor|discriminate].
  - intros row I. cbn [In tr_rows] in I. destruct I as [<-|[<-|[<-|[]]]]; exact demo_unit_coords.
  - intros typ I. cbn [demo link_types In] in I. destruct I as [<-|[<-|[<-|[<-|[]]]]]; eexists; (split; [right; split; reflexivity|reflexivity]).
  - cbn [clip_ok]. lra.
  - cbn [demo sys_dt]. rewrite Rabs_pos_eq by lra. lra.
  - reflexivity.
  - exists 0. split; [unfold num_links; cbn; lia|]. intros k n [<-|[]] E D. apply IT in E. subst k. apply ND in D. discriminate D.
  - intros n [<-|[]]. cbn; tauto.
  - intros [|a] [|b] na nb ka kb L A B; try lia; destruct b; discriminate B.
  - discriminate.
  - exists r, q_ref, Pg, st0, states. split; [exact F|]. split; [|split; [exact E|exact CR]].
    unfold dynamical_simulation in E. apply bind_Ok in E. destruct E as (((r' & x) & y) & E & _).
    destruct (fo_links _ _ _ _ _ _ _ _ F) as (keep & INC & KS & KN & _).
    assert (K : forall i, In i keep <-> In i [0; 1; 2]).
    { intros i. rewrite KS. unfold survives, num_links. cbn [demo link_parents length In]. split.
      - intros [L N]. destruct i as [|[|[|[|i]]]]; auto; try lia. exfalso. exact (N 3 "tool"%string (or_introl eq_refl) eq_refl (desc_refl _ _)).
      - intros H. split; [lia|]. intros k n [<-|[]] Ek D. apply IT in Ek. subst k. apply ND in D. lia. }
    assert (EK : keep = [0; 1; 2]).
    { assert (HI : forall i, i < 3 -> In i keep) by (intros i Hi; apply K; cbn; lia).
      assert (LT : forall i, In i keep -> i < 3) by (intros i Hi; apply K in Hi; cbn in Hi; lia).
      clear - INC HI LT. unfold increasing in INC.
      assert (SS : forall a b i j, nth_error keep a = Some i -> nth_error keep b = Some j -> i < j -> a < b).
      { intros a b i j A B L. destruct (Nat.lt_trichotomy a b) as [H|[H|H]]; auto; [subst; rewrite A in B; injection B as <-; lia|pose proof (INC b a j i H B A); lia]. }
      destruct (In_nth_error _ _ (HI 0 ltac:(lia))) as (a & A). destruct (In_nth_error _ _ (HI 1 ltac:(lia))) as (b & B). destruct (In_nth_error _ _ (HI 2 ltac:(lia))) as (c & C).
      pose proof (SS _ _ _ _ A B ltac:(lia)). pose proof (SS _ _ _ _ B C ltac:(lia)).
      destruct keep as [|k0 [|k1 [|k2 [|k3 t]]]]; cbn [nth_error] in *.
      1-3: exfalso; destruct c as [|[|[|c]]]; cbn [nth_error] in C; try lia; try discriminate; destruct c; discriminate.
      - assert (c < 3) by (change 3 with (length [k0; k1; k2]); apply nth_error_Some; congruence).
        assert (a = 0) by lia. assert (b = 1) by lia. assert (c = 2) by lia. subst. cbn in A, B, C. congruence.
      - exfalso. pose proof (INC 0 1 k0 k1 ltac:(lia) eq_refl eq_refl). pose proof (INC 1 2 k1 k2 ltac:(lia) eq_refl eq_refl). pose proof (INC 2 3 k2 k3 ltac:(lia) eq_refl eq_refl).
        pose proof (LT k3 ltac:(cbn; auto 10)). lia. }
    subst keep. unfold picks in KN. inversion KN as [|? ? ? ? X0 K1 Y0 Z0]; subst. inversion K1 as [|? ? ? ? X1 K2 Y1 Z1]; subst. inversion K2 as [|? ? ? ? X2 K3 Y2 Z2]; subst. inversion K3; subst.
    cbn in X0, X1, X2. congruence.
Qed.
Print Assumptions C46_torque.
Print Assumptions C46_zero_on_reference.
Print Assumptions C46_initial.
Print Assumptions C46_initial_missing.
Print Assumptions C46_unroll.
Print Assumptions C46_reference.
Print Assumptions C46_dynamical_simulation.
Print Assumptions C46_endpoint_refuted.
Print Assumptions C46_full_turn_refuted.
Print Assumptions C46_type_mismatch_refuted.
