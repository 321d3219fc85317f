(** * Facts about objects, copying and building. *)
From Coq Require Import Reals Lra ZArith String Ascii Lia Bool List.
From Verif Require Import Prelude M_Sys M_Compose M_Math M_Geom M_Xml M_Pd S_Sys P_Scan P_Sys P_Run C_Lookup M_Artifact M_Build S_Build.
Import ListNotations.
Local Open Scope string_scope.
Local Open Scope list_scope.

(** ** The check of simulated systems *)
Section Test.
Context {J : Type}.
Variable W : widths.

Lemma split_by_map {A B} (f : A -> B) ws : forall xs, split_by ws (map f xs) = map (map f) (split_by ws xs).
Proof. induction ws as [|w ws IH]; intros xs; [reflexivity|]. cbn [split_by map]. rewrite firstn_map, skipn_map, IH. reflexivity. Qed.
Lemma nums_map l : nums (map TNum l) = Ok l.
Proof. induction l as [|x l IH]; [reflexivity|]. cbn [map nums]. rewrite IH. reflexivity. Qed.
Lemma above_zero_spec x : above_zero x = true <-> (0 < x)%R.
Proof. unfold above_zero, Rleb. destruct (Rle_dec x 0); cbn; split; intros; try discriminate; try lra; reflexivity. Qed.

Lemma run_units {V} (f : option unit -> idx_map -> list (piece V) -> unit -> result (unit * unit)) im :
  (forall y y' row, f y im row tt = f y' im row tt) ->
  forall rows y, (exists r, run f im y tt rows = Ok r) <-> Forall (fun row => f None im row tt = Ok (tt, tt)) rows.
Proof.
  intros I. induction rows as [|row rows IH]; intros y; cbn [run]; [split; [constructor|eauto]|]. rewrite (I y None). split.
  - intros [r H]. apply bind_Ok in H. destruct H as ([[] []] & E & H). apply bind_Ok in H. destruct H as (b & E2 & _). constructor; [exact E|]. cbn [fst snd] in E2. apply (IH (Some tt)). eauto.
  - intros H. inversion H as [|? ? E F]; subst. rewrite E. cbn [bind fst snd]. destruct (proj2 (IH (Some tt)) F) as [r ->]. cbn [bind]. eauto.
Qed.

Definition passes (s : xsys J) (vs : list (link_view R (plink J) (option omc_link))) (i : nat) : Prop :=
  forall v, nth_error vs i = Some v -> v_damping v <> [] -> Forall (fun d => 0 < d)%R (v_damping v) /\
    ((forall j, nth_error (link_parents s) j <> Some (Z.of_nat i)) -> (0 < i_mass (M_Geom.pl_inertia (v_link v)))%R).

Lemma children_index (s : xsys J) i n : NoDup (link_names s) -> nth_error (link_names s) i = Some n ->
  exists cs, children s n = Ok cs /\ (length cs = 0%nat <-> forall j, nth_error (link_parents s) j <> Some (Z.of_nat i)).
Proof.
  intros ND E. unfold children, name_to_idx. rewrite (proj2 (indexS_NoDup _ _ _ ND) E). cbn [bind]. eexists. split; [reflexivity|]. rewrite map_length. split.
  - intros H j Hj. apply length_zero_iff_nil in H. assert (IN : In (j, Z.of_nat i) (filter (fun ip => Z.eqb (snd ip) (Z.of_nat i)) (enum (link_parents s)))).
    { apply filter_In. split; [now apply enum_In|cbn; apply Z.eqb_refl]. }
    rewrite H in IN. destruct IN.
  - intros H. destruct (filter _ _) as [|[j p] l] eqn:F; [reflexivity|]. exfalso. assert (IN : In (j, p) ((j, p) :: l)) by now left. rewrite <- F in IN. apply filter_In in IN. destruct IN as [IN Q]. cbn [snd] in Q. apply Z.eqb_eq in Q. subst p.
    apply enum_In in IN. exact (H _ IN).
Qed.

Lemma test_iff (s : xsys J) vs : wf W s -> views W s vs -> (assert_test_system W s = Ok tt <-> forall i, passes s vs i).
Proof.
  intros WF VW. destruct (wf_arrays _ _ WF) as (qs & ds & Hq & Hd & LD & _). pose proof VW as (V1 & V2 & V3 & _ & V5 & qs' & ds' & Hq' & Hd' & SD & _).
  assert (ds' = ds) by (eapply have_widths_unique; eauto). subst ds'. clear qs' Hq' Hd'.
  assert (ED : split_by ds (link_damping s) = map v_damping vs) by (eapply splits_unique; [apply split_by_splits; exact LD|exact SD]).
  assert (LV : length vs = num_links s) by (symmetry; exact V5).
  set (mass := fun l : plink J => i_mass (M_Geom.pl_inertia l)).
  assert (D0 : vs = [] \/ exists v0 : link_view R (plink J) (option omc_link), In v0 vs) by (destruct vs; [now left|right; eexists; now left]).
  destruct D0 as [->|[v0 _]].
  { assert (N0 : num_links s = 0%nat) by (symmetry; exact LV). split; [intros _ [|i] v E; discriminate|]. intros _. unfold assert_test_system.
    rewrite (scan_run W s qs ds (wf_types _ _ WF) Hq Hd _ _ _ [(fun _ => Many []); (fun _ => Many []); (fun _ => Many [])]).
    - rewrite N0. reflexivity.
    - reflexivity.
    - cbn [combine]. apply Forall2_cons; [|apply Forall2_cons; [|apply Forall2_cons; [|apply Forall2_nil]]]; cbn [fst snd arg_ok].
      + rewrite map_length. split; [apply (wf_names _ _ WF)|]. intros i Hi; lia.
      + rewrite map_length. split; [apply (wf_links _ _ WF)|]. intros i Hi; lia.
      + rewrite map_length. split; [exact LD|]. intros i Hi; lia. }
  unfold assert_test_system.
  rewrite (scan_run W s qs ds (wf_types _ _ WF) Hq Hd _ _ _ [(fun i => One (TName (v_name (nth i vs v0)))); (fun i => One (TNum (mass (v_link (nth i vs v0))))); (fun i => Many (map TNum (v_damping (nth i vs v0))))]).
  2: reflexivity.
  2:{ cbn [combine]. apply Forall2_cons; [|apply Forall2_cons; [|apply Forall2_cons; [|apply Forall2_nil]]]; cbn [fst snd arg_ok].
      - rewrite map_length. split; [apply (wf_names _ _ WF)|]. intros i Hi. eexists. split; [|reflexivity]. rewrite V1, !nth_error_map, (nth_error_nth' vs v0) by lia. reflexivity.
      - rewrite map_length. split; [apply (wf_links _ _ WF)|]. intros i Hi. eexists. split; [|reflexivity]. rewrite V3, !nth_error_map, (nth_error_nth' vs v0) by lia. reflexivity.
      - rewrite map_length. split; [exact LD|]. intros i Hi. f_equal. rewrite split_by_map, ED, map_map. change (@nil test_arg) with ((fun v : link_view R (plink J) (option omc_link) => map TNum (v_damping v)) (mkView "" "" (v_link v0) None [] [] [] [])). rewrite map_nth. f_equal. f_equal. apply nth_indep. lia. }
  cbv zeta. cbn [map].
  set (im := mkIM (slices_from 0 qs) (slices_from 0 ds)).
  set (rows := map (fun i => [One (TName (v_name (nth i vs v0))); One (TNum (mass (v_link (nth i vs v0)))); Many (map TNum (v_damping (nth i vs v0)))]) (seq 0 (num_links s))).
  assert (RU : (exists r, run (test_step s) im None tt rows = Ok r) <-> Forall (fun row => test_step s None im row tt = Ok (tt, tt)) rows).
  { apply run_units. intros y y' row. reflexivity. }
  assert (ST : forall i, (i < num_links s)%nat -> (test_step s None im [One (TName (v_name (nth i vs v0))); One (TNum (mass (v_link (nth i vs v0)))); Many (map TNum (v_damping (nth i vs v0)))] tt = Ok (tt, tt) <-> passes s vs i)).
  { intros i Hi. assert (Ei : nth_error vs i = Some (nth i vs v0)) by (apply nth_error_nth'; lia). set (v := nth i vs v0) in *.
    assert (En : nth_error (link_names s) i = Some (v_name v)) by (rewrite V1, nth_error_map, Ei; reflexivity).
    destruct (children_index s i (v_name v) (wf_unique _ _ WF) En) as (cs & Ec & Lc). cbn [test_step]. rewrite nums_map. cbn [bind]. rewrite Ec. cbn [bind].
    assert (PD : forallb above_zero (v_damping v) = true <-> Forall (fun d => 0 < d)%R (v_damping v)).
    { rewrite forallb_forall, Forall_forall. split; intros H x Hx; apply above_zero_spec; auto. }
    unfold passes. destruct (Nat.eqb_spec (length (v_damping v)) 0) as [Z0|NZ].
    - apply length_zero_iff_nil in Z0. cbn [orb assert_]. split.
      + intros _ w Ew ND. rewrite Ei in Ew. injection Ew as <-. contradiction.
      + intros _. destruct (length cs =? 0)%nat; reflexivity.
    - assert (ND : v_damping v <> []) by (intros Q; rewrite Q in NZ; now apply NZ). cbn [orb]. split.
      + intros H w Ew _. rewrite Ei in Ew. injection Ew as <-. apply bind_Ok in H. destruct H as ([] & H1 & H). apply bind_Ok in H. destruct H as ([] & H2 & _).
        unfold assert_ in H2. destruct (forallb above_zero (v_damping v)) eqn:FA; [|discriminate]. split; [now apply PD|]. intros NC. apply Lc in NC. rewrite NC in H1. cbn [Nat.eqb] in H1. unfold assert_ in H1. destruct (above_zero (mass (v_link v))) eqn:AM; [|discriminate]. now apply above_zero_spec in AM.
      + intros H. destruct (H v Ei ND) as [F M]. apply PD in F. rewrite F. cbn [assert_]. destruct (Nat.eqb_spec (length cs) 0) as [LZ|LN]; [|reflexivity].
        pose proof (M (proj1 Lc LZ)) as MZ. apply above_zero_spec in MZ. fold (mass (v_link v)) in MZ. rewrite MZ. reflexivity. }
  assert (FR : Forall (fun row => test_step s None im row tt = Ok (tt, tt)) rows <-> forall i, passes s vs i).
  { unfold rows. rewrite Forall_map, Forall_forall. split.
    - intros H i. destruct (Nat.lt_ge_cases i (num_links s)) as [Hi|Hi]; [apply (ST i Hi), H, in_seq; lia|]. intros v Ev. assert (i < length vs)%nat by (apply nth_error_Some; congruence). lia.
    - intros H i Hi. apply in_seq in Hi. apply ST; [lia|apply H]. }
  rewrite <- FR, <- RU. split.
  - intros H. apply bind_Ok in H. destruct H as (a & E & _). apply bind_Ok in E. destruct E as (r & E & _). exists r. exact E.
  - intros [r E]. match goal with |- (do _ <- (do r <- ?a; _); _) = _ => change a with (run (test_step s) im None tt rows) end. rewrite E. reflexivity.
Qed.

Lemma simulable_iff (s : xsys J) : wf W s -> (assert_test_system W s = Ok tt <-> simulable W s).
Proof.
  intros WF. destruct (wf_views W s WF) as [vs VW]. rewrite (test_iff s vs WF VW). unfold simulable, passes. split.
  - intros H. exists vs. auto.
  - intros (vs' & VW' & H). rewrite (views_unique W s vs vs' VW VW'). exact H.
Qed.
End Test.

(** ** Objects and copies *)
Section Heap.
Context {J V C X : Type}.
Notation obj := (@obj V C).
Notation options := (@options J X).
Implicit Type h : list obj.

Lemma put_obj_length h : forall a x, length (put_obj h a x) = length h.
Proof. induction h as [|y h IH]; intros [|a] x; cbn [put_obj length]; auto. Qed.
Lemma put_obj_same h : forall a x, (a < length h)%nat -> nth_error (put_obj h a x) a = Some x.
Proof. induction h as [|y h IH]; intros [|a] x H; cbn [put_obj length nth_error] in *; try lia; auto. apply IH. lia. Qed.
Lemma put_obj_other h : forall a b x, a <> b -> nth_error (put_obj h a x) b = nth_error h b.
Proof. induction h as [|y h IH]; intros [|a] [|b] x H; cbn [put_obj nth_error]; auto; try congruence. all: apply IH; lia. Qed.

(** [h'] keeps the objects of [h]. *)
Definition keeps h h' : Prop := (length h <= length h')%nat /\ forall a, (a < length h)%nat -> nth_error h' a = nth_error h a.
Lemma keeps_refl h : keeps h h.
Proof. split; auto. Qed.
Lemma keeps_trans h1 h2 h3 : keeps h1 h2 -> keeps h2 h3 -> keeps h1 h3.
Proof. intros [L1 H1] [L2 H2]. split; [lia|]. intros a Ha. rewrite H2 by lia. auto. Qed.
Lemma keeps_app h e : keeps h (h ++ e).
Proof. split; [rewrite app_length; lia|]. intros a Ha. now apply nth_error_app1. Qed.
Lemma keeps_put h h' a x : keeps h h' -> (length h <= a)%nat -> keeps h (put_obj h' a x).
Proof. intros [L H] La. split; [rewrite put_obj_length; lia|]. intros b Hb. rewrite put_obj_other by lia. auto. Qed.
Lemma keeps_some h h' a x : keeps h h' -> nth_error h a = Some x -> nth_error h' a = Some x.
Proof. intros [L H] E. rewrite H; [exact E|]. apply nth_error_Some. congruence. Qed.

Lemma copy_obj_keeps h a h' a' : copy_obj h a = (h', a') -> keeps h h'.
Proof. unfold copy_obj. destruct (nth_error h a) as [[d|cs]|]; intros H; injection H as <- <-; try apply keeps_refl. apply keeps_app. Qed.
Lemma copy_obj_dict h a d : nth_error h a = Some (ODict d) -> copy_obj h a = (h ++ [ODict d], length h).
Proof. intros E. unfold copy_obj. now rewrite E. Qed.
Lemma copy_obj_writable h0 h a h' a' d : copy_obj h a = (h', a') -> keeps h0 h -> get_dict h' a' = Ok d -> (length h0 <= a')%nat.
Proof.
  unfold copy_obj, get_dict. intros E [L _]. destruct (nth_error h a) as [[e|cs]|] eqn:N; injection E as <- <-; [intros _; exact L| |]; rewrite N; discriminate.
Qed.
Lemma nth_error_end {A} (l : list A) x r : nth_error (l ++ x :: r) (length l) = Some x.
Proof. rewrite nth_error_app2, Nat.sub_diag by lia. reflexivity. Qed.

(** The copy of the options: fresh, distinct dictionaries with the same contents, and the same list of configurations. *)
Record copied h (o : options) h' (o' : options) : Prop := {
  cp_keeps : keeps h h';
  cp_config : o_config o' = o_config o;
  cp_flags : (o_axes o', o_relpose o', o_incl o', o_artifacts o', o_random_artifacts o', o_dynsim o') = (o_axes o, o_relpose o, o_incl o, o_artifacts o, o_random_artifacts o, o_dynsim o);
  cp_rest : o_rest o' = o_rest o;
  cp_addr : addresses o' = map (fun k => (length h + k)%nat) (seq 0 7);
  cp_len : length h' = (length h + 7)%nat;
  cp_content : Forall2 (fun a a' => nth_error h' a' = nth_error h a) (addresses o) (addresses o') }.

Lemma copy_step h0 h a d k : keeps h0 h -> length h = (length h0 + k)%nat -> nth_error h0 a = Some (ODict d) ->
  copy_obj h a = (h ++ [ODict d], (length h0 + k)%nat) /\ keeps h0 (h ++ [ODict d]) /\ length (h ++ [ODict d]) = (length h0 + S k)%nat /\
  nth_error (h ++ [ODict d]) (length h0 + k) = nth_error h0 a /\ keeps h (h ++ [ODict d]).
Proof.
  intros K L E. rewrite (copy_obj_dict h a d) by (eapply keeps_some; eauto). rewrite L. split; [reflexivity|]. split; [eapply keeps_trans; [exact K|apply keeps_app]|].
  split; [rewrite app_length, L; cbn; lia|]. split; [rewrite <- L, nth_error_end; now rewrite E|apply keeps_app].
Qed.

Lemma copy_dicts_spec h (o : options) : typed h o -> exists h' o', copy_dicts h o = (h', o') /\ copied h o h' o'.
Proof.
  intros [[cs EC] F]. unfold addresses in F. inversion F as [|? ? [d1 E1] F1]; subst. inversion F1 as [|? ? [d2 E2] F2]; subst. inversion F2 as [|? ? [d3 E3] F3]; subst.
  inversion F3 as [|? ? [d4 E4] F4]; subst. inversion F4 as [|? ? [d5 E5] F5]; subst. inversion F5 as [|? ? [d6 E6] F6]; subst. inversion F6 as [|? ? [d7 E7] _]; subst. clear F F1 F2 F3 F4 F5 F6.
  unfold copy_dicts. assert (CC : copy_obj h (o_config o) = (h, o_config o)) by (unfold copy_obj; now rewrite EC). rewrite CC.
  destruct (copy_step h h _ d1 0 (keeps_refl h) ltac:(lia) E1) as (-> & K1 & L1 & N1 & M1). set (h1 := h ++ [ODict d1]) in *.
  destruct (copy_step h h1 _ d2 1 K1 L1 E2) as (-> & K2 & L2 & N2 & M2). set (h2 := h1 ++ [ODict d2]) in *.
  destruct (copy_step h h2 _ d3 2 K2 L2 E3) as (-> & K3 & L3 & N3 & M3). set (h3 := h2 ++ [ODict d3]) in *.
  destruct (copy_step h h3 _ d4 3 K3 L3 E4) as (-> & K4 & L4 & N4 & M4). set (h4 := h3 ++ [ODict d4]) in *.
  destruct (copy_step h h4 _ d5 4 K4 L4 E5) as (-> & K5 & L5 & N5 & M5). set (h5 := h4 ++ [ODict d5]) in *.
  destruct (copy_step h h5 _ d6 5 K5 L5 E6) as (-> & K6 & L6 & N6 & M6). set (h6 := h5 ++ [ODict d6]) in *.
  destruct (copy_step h h6 _ d7 6 K6 L6 E7) as (-> & K7 & L7 & N7 & M7). set (h7 := h6 ++ [ODict d7]) in *.
  eexists _, _. split; [reflexivity|]. constructor; cbn [o_config o_axes o_relpose o_incl o_artifacts o_random_artifacts o_dynsim o_rest]; auto.
  - unfold addresses. cbn [o_imu_kw o_axes_kw o_incl_kw o_full_kw o_hz_kw o_art_kw o_dyn_kw].
    assert (T : forall g g' k a, keeps g g' -> (length h + k < length g)%nat -> nth_error g (length h + k) = nth_error h a -> nth_error g' (length h + k) = nth_error h a).
    { intros g g' k a [_ Q] Lk E. rewrite Q by exact Lk. exact E. }
    assert (A6 : keeps h6 h7) by exact M7. assert (A5 : keeps h5 h7) by (eapply keeps_trans; eauto). assert (A4 : keeps h4 h7) by (eapply keeps_trans; eauto).
    assert (A3 : keeps h3 h7) by (eapply keeps_trans; eauto). assert (A2 : keeps h2 h7) by (eapply keeps_trans; eauto). assert (A1 : keeps h1 h7) by (eapply keeps_trans; eauto).
    constructor; [apply (T h1 h7); auto; lia|]. constructor; [apply (T h2 h7); auto; lia|]. constructor; [apply (T h3 h7); auto; lia|]. constructor; [apply (T h4 h7); auto; lia|].
    constructor; [apply (T h5 h7); auto; lia|]. constructor; [apply (T h6 h7); auto; lia|]. constructor; [exact N7|constructor].
Qed.

(** Copying and writing never touch existing objects, also when the options are not what they should be. *)
Lemma copy_dicts_keeps h (o : options) h' o' : copy_dicts h o = (h', o') -> keeps h h' /\ forall d, get_dict h' (o_dyn_kw o') = Ok d -> (length h <= o_dyn_kw o')%nat.
Proof.
  unfold copy_dicts. destruct (copy_obj h (o_config o)) as [h0 c] eqn:C0. destruct (copy_obj h0 (o_imu_kw o)) as [h1 a1] eqn:C1. destruct (copy_obj h1 (o_axes_kw o)) as [h2 a2] eqn:C2.
  destruct (copy_obj h2 (o_incl_kw o)) as [h3 a3] eqn:C3. destruct (copy_obj h3 (o_full_kw o)) as [h4 a4] eqn:C4. destruct (copy_obj h4 (o_hz_kw o)) as [h5 a5] eqn:C5.
  destruct (copy_obj h5 (o_art_kw o)) as [h6 a6] eqn:C6. destruct (copy_obj h6 (o_dyn_kw o)) as [h7 a7] eqn:C7. intros H. injection H as <- <-. cbn [o_dyn_kw].
  assert (K6 : keeps h h6).
  { eapply keeps_trans; [eapply copy_obj_keeps; exact C0|]. eapply keeps_trans; [eapply copy_obj_keeps; exact C1|]. eapply keeps_trans; [eapply copy_obj_keeps; exact C2|].
    eapply keeps_trans; [eapply copy_obj_keeps; exact C3|]. eapply keeps_trans; [eapply copy_obj_keeps; exact C4|]. eapply keeps_trans; [eapply copy_obj_keeps; exact C5|]. eapply copy_obj_keeps; exact C6. }
  split; [eapply keeps_trans; [exact K6|eapply copy_obj_keeps; exact C7]|]. intros d. eapply copy_obj_writable; eauto.
Qed.
End Heap.
