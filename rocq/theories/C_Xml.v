(** * C16: a saved system is loaded again unchanged, its links listed depth first. *)
From Coq Require Import Reals Lra ZArith Lia String Ascii Bool List Permutation.
From Verif Require Import Prelude M_Sys M_Math M_Geom M_Joint M_Xml S_Sys S_Morph S_Xml P_Scan P_Sys P_Dfs P_XmlTree P_Xml P_XmlLoad P_Run.
Import ListNotations.
Local Open Scope string_scope.
Local Open Scope list_scope.

Lemma Forall2_nth_iff {A B} (Q : A -> B -> Prop) l l' : Forall2 Q l l' <->
  length l = length l' /\ forall i a b, nth_error l i = Some a -> nth_error l' i = Some b -> Q a b.
Proof.
  split.
  - induction 1 as [|a b l l' H _ [L IH]]; [split; [reflexivity|intros [|i]; discriminate]|]. split; [cbn; congruence|].
    intros [|i] x y; cbn; [intros [= <-] [= <-]; auto|apply IH].
  - revert l'. induction l as [|a l IH]; intros [|b l'] [L H]; try discriminate; constructor.
    + apply (H 0%nat); reflexivity.
    + apply IH. split; [cbn in L; congruence|]. intros i. apply (H (S i)).
Qed.
Lemma map_combine_fst {A B C} (f : A -> C) (l : list A) (l' : list B) : length l' = length l -> map (fun ab => f (fst ab)) (combine l l') = map f l.
Proof. revert l'. induction l as [|a l IH]; intros [|b l'] H; try discriminate; [reflexivity|]. cbn. f_equal. apply IH. cbn in H. congruence. Qed.
Lemma map_combine_snd {A B C} (f : B -> C) (l : list A) (l' : list B) : length l' = length l -> map (fun ab => f (snd ab)) (combine l l') = map f l'.
Proof. revert l'. induction l as [|a l IH]; intros [|b l'] H; try discriminate; [reflexivity|]. cbn. f_equal. apply IH. cbn in H. congruence. Qed.
Lemma nth_combine {A B} (l : list A) (l' : list B) i a b : nth_error l i = Some a -> nth_error l' i = Some b -> nth_error (combine l l') i = Some (a, b).
Proof. revert l' i. induction l as [|x l IH]; intros [|y l'] [|i] H H'; cbn in *; try discriminate; [congruence|auto]. Qed.
Lemma concat_pieces {A} (Q : A -> Prop) (ps : list (list A)) : Forall Q (concat ps) <-> Forall (Forall Q) ps.
Proof. induction ps as [|p ps IH]; cbn; [split; constructor|]. rewrite Forall_app, IH. split; [intros [A1 A2]; constructor; auto|intros H; inversion H; auto]. Qed.

(** The geometries collected body by body. *)
Lemma attached_rows (rows : list row) : forall off z,
  attached z (concat (map (fun ir => map (fun g => (Z.of_nat (fst ir), g)) (r_geoms (snd ir))) (enum_from off rows))) =
  match nth_error rows (Z.to_nat (z - Z.of_nat off)) with
  | Some r => if (Z.of_nat off <=? z)%Z then r_geoms r else []
  | None => []
  end.
Proof.
  assert (X : forall (gs : list xgeom) y z, attached z (map (fun g => (y, g)) gs) = if Z.eq_dec y z then gs else []).
  { induction gs as [|g gs IH]; intros y z; cbn [map attached]; [now destruct (Z.eq_dec y z)|]. rewrite IH. now destruct (Z.eq_dec y z). }
  induction rows as [|r rows IH]; intros off z; cbn [enum_from map concat attached fst snd].
  - now destruct (Z.to_nat _).
  - rewrite attached_app, X, IH. destruct (Z.eq_dec (Z.of_nat off) z) as [<-|N].
    + rewrite Z.sub_diag. cbn [Z.to_nat nth_error]. rewrite Z.leb_refl.
      replace (Z.of_nat (S off) <=? Z.of_nat off)%Z with false by (symmetry; apply Z.leb_gt; lia).
      destruct (nth_error rows _); now rewrite app_nil_r.
    + cbn [app]. destruct (Z.leb_spec (Z.of_nat (S off)) z) as [A|A].
      * replace (Z.of_nat off <=? z)%Z with true by (symmetry; apply Z.leb_le; lia).
        replace (Z.to_nat (z - Z.of_nat off)) with (S (Z.to_nat (z - Z.of_nat (S off)))) by lia. reflexivity.
      * replace (Z.of_nat off <=? z)%Z with false by (symmetry; apply Z.leb_gt; lia).
        destruct (nth_error rows _), (nth_error (r :: rows) _); reflexivity.
Qed.

Lemma xml_laws {J} : ops_laws (@xml_ops J).
Proof.
  constructor; [reflexivity|reflexivity|]. intros r. cbn [xml_ops phys_ops unit_quat_ok kone kzero map fold_right].
  assert (Z : fold_right Rplus 0%R (map (fun x => (x * x)%R) (repeat 0%R r)) = 0%R) by (induction r as [|r IH]; cbn [repeat map fold_right]; [reflexivity|rewrite IH; ring]).
  rewrite Z. replace (1 * 1 + 0)%R with 1%R by ring. rewrite sqrt_1. replace (1 - 1)%R with 0%R by ring. rewrite Rabs_R0.
  unfold Rleb. destruct (Rle_dec _ _) as [_|N]; [reflexivity|]. exfalso. apply N. assert (0 < / 10 ^ 8)%R by (apply Rinv_0_lt_compat, pow_lt; lra).
  assert (0 < / 10 ^ 5)%R by (apply Rinv_0_lt_compat, pow_lt; lra). lra.
Qed.

Section C16.
Context {J : Type}.
Variable W : widths.
Variable print : R -> string.
Variable print_int : Z -> string.
Variable float_of : string -> option R.
Variable jinit : list string -> result (list J).
Variable num : R -> Prop.
Variable int : Z -> Prop.
Hypothesis F : faithful print print_int float_of num int.
(** Joint parameters can be initialised for every known joint type. *)
Hypothesis JI : forall ts, Forall (fun t => qW W t <> None) ts -> exists ps, jinit ts = Ok ps /\ length ps = length ts.
Notation view := (link_view R (plink J) (option omc_link)).
Notation save := (save W print print_int).
Notation load := (load W print_int float_of jinit).

Lemma saveable_views (s : xsys J) vs : saveable float_of num int W s -> views W s vs -> Forall (saveable_view float_of num int) vs.
Proof.
  intros H (A1 & A2 & A3 & A4 & A5 & qs & ds & Q & D & A6 & A7 & A8 & A9).
  destruct H as [P S M N T Wd ST O AR LK G OM]. destruct AR as (B1 & B2 & B3 & B4).
  rewrite A1 in N. rewrite A2 in T. rewrite A3 in LK. rewrite A4 in OM. rewrite Forall_map in N, T, LK, OM.
  destruct A6 as [_ A6], A7 as [_ A7], A8 as [_ A8], A9 as [_ A9].
  rewrite <- A6, concat_pieces, Forall_map in B1. rewrite <- A7, concat_pieces, Forall_map in B2.
  rewrite <- A8, concat_pieces, Forall_map in B3. rewrite <- A9, concat_pieces, Forall_map in B4.
  rewrite Forall_forall in *. intros v Hv. destruct (T v Hv). unfold saveable_view. auto 20.
Qed.

Definition view_of_row (rp : row * J) : view :=
  let (r, p) := rp in mkView (r_name r) (r_type r) (fresh_link r p) (r_omc r) (r_d r) (r_a r) (r_s r) (r_z r).

Theorem C16_roundtrip (s : xsys J) : saveable float_of num int W s ->
  exists x s' order, save s = Ok x /\ load x = Ok s' /\ reloaded W jinit s s' order.
Proof.
  intros SV. pose proof (sv_parsed _ _ _ _ _ SV) as PS. pose proof (pd_wf _ _ _ PS) as WF.
  destruct (pd_valid _ _ _ PS) as (vs & V & VV). pose proof (saveable_views s vs SV V) as SVV.
  pose proof (sv_geoms _ _ _ _ _ SV) as SG.
  set (np := link_parents s). set (n := length np).
  destruct (views_lengths W _ _ V) as (L1 & L2 & L3 & L4 & L5). unfold num_links in L1, L2, L3, L4, L5. fold np in L1, L2, L3, L4, L5. fold n in L1, L2, L3, L4, L5.
  destruct (dicts W s vs PS V) as (mq & md & EQ & ED & DC).
  destruct (level_roundtrip W print print_int float_of num int F s vs PS V SVV SG mq md EQ ED (S n) (-1)%Z []) as (es & E1 & E2 & E3 & E4).
  { now left. } { cbn. unfold n, np. lia. }
  fold np in E1, E4. specialize (E4 (-1)%Z 0%nat).
  set (RN := number np (S n) (kids np (-1)) (-1) 0) in *. set (order := map fst RN).
  assert (OP : order = perm np) by (unfold order, RN; apply number_perm).
  assert (PERM : Permutation order (seq 0 n)) by (rewrite OP; apply perm_permutation, topo_hangs, WF).
  assert (LR : length RN = n) by (apply Permutation_length in PERM; unfold order in PERM; now rewrite map_length, seq_length in PERM).
  (* parents *)
  assert (PAR : Forall2 (fun i p' => exists p, nth_error np i = Some p /\ same_parent order p p') order (map snd RN)).
  { pose proof (number_parents np (S n) (kids np (-1)) (-1) 0 (-1) []) as X. fold RN in X. cbn [app] in X. fold order in X.
    assert (Y : Forall (fun ip => exists p, nth_error np (fst ip) = Some p /\ same_parent order p (snd ip)) RN).
    { apply X; auto; [now left|]. intros i. apply in_kids. }
    assert (GZ : forall o l, Forall (fun ip => exists p, nth_error np (fst ip) = Some p /\ same_parent o p (snd ip)) l ->
        Forall2 (fun i p' => exists p, nth_error np i = Some p /\ same_parent o p p') (map fst l) (map snd l)).
    { clear. induction 1; cbn; constructor; auto. } exact (GZ order RN Y). }
  assert (ROW : forall m i p, nth_error RN m = Some (i, p) -> exists v, nth_error vs i = Some v /\
      rowf s vs (i, p) = row_of v (attached (Z.of_nat i) (geoms s)) p /\ saveable_view float_of num int v /\ valid_view xml_ops v).
  { intros m i p E. assert (Hi : In i order) by (apply in_map_iff; exists (i, p); split; auto; eapply nth_error_In; eauto).
    apply (Permutation_in _ PERM), in_seq in Hi. destruct (nth_error vs i) as [v|] eqn:Ev; [|apply nth_error_None in Ev; lia].
    exists v. split; auto. split; [unfold rowf; cbn [fst snd]; now rewrite Ev|]. rewrite Forall_forall in SVV, VV.
    split; [apply SVV|apply VV]; eapply nth_error_In; eauto. }
  set (rows := map (rowf s vs) RN).
  assert (LRW : length rows = n) by (unfold rows; now rewrite map_length).
  destruct (JI (map r_type rows)) as (ps & EJ & LP).
  { apply Forall_map. unfold rows. apply Forall_map. apply Forall_forall. intros [i p] H. apply In_nth_error in H. destruct H as [m H].
    destruct (ROW _ _ _ H) as (v & Ev & -> & _). cbn [row_of r_type]. destruct (DC i v Ev) as (? & ? & ? & ? & _ & _ & X & _). congruence. }
  rewrite map_length in LP.
  destruct (sv_model _ _ _ _ _ SV) as (mn & EM & PM). destruct (sv_options _ _ _ _ _ SV) as (NDT & NG & LG).
  set (s1 := mkSys (map r_parent rows) (map (fun rp => fresh_link (fst rp) (snd rp)) (combine rows ps)) (map r_type rows)
            (concat (map r_d rows)) (concat (map r_a rows)) (concat (map r_s rows)) (concat (map r_z rows)) (sys_dt s)
            (concat (map (fun ir => map (fun g => (Z.of_nat (fst ir), g)) (r_geoms (snd ir))) (enum rows)) ++ [])
            (gravity s) "semi_implicit_euler" 0 (map r_name rows) (Some mn) (map r_omc rows) : xsys J).
  assert (SAVE : save s = Ok (Elem "x_xy" [("model", mn)]
                    [Elem "options" [("dt", print (sys_dt s)); ("gravity", to_str print (gravity s))] []; Elem "worldbody" [] es])).
  { unfold M_Xml.save. rewrite EQ, ED. cbn [bind]. unfold num_links. fold np n. unfold kids in E1. rewrite E1. cbn [bind]. now rewrite EM. }
  assert (PNE : exists r rs, rows = r :: rs).
  { destruct rows as [|r rs]; eauto. pose proof (sv_some _ _ _ _ _ SV) as X. fold np in X. unfold n in LRW. destruct np; [congruence|discriminate]. }
  assert (LOAD : load (Elem "x_xy" [("model", mn)]
                    [Elem "options" [("dt", print (sys_dt s)); ("gravity", to_str print (gravity s))] []; Elem "worldbody" [] es]) = parse W xml_ops s1).
  { unfold M_Xml.load.
    assert (AV : all_valid (Elem "x_xy" [("model", mn)]
                    [Elem "options" [("dt", print (sys_dt s)); ("gravity", to_str print (gravity s))] []; Elem "worldbody" [] es]) = true).
    { cbn [all_valid valid_attrs dget String.eqb Ascii.eqb Bool.eqb forallb fst memS existsb orb andb].
      rewrite andb_true_r. apply forallb_forall. rewrite Forall_forall in E3. exact E3. }
    rewrite AV. cbn [assert_ bind]. cbn zeta. cbn [convert map].
    unfold default_of, find_unique. cbn [findall filter x_tag x_kids String.eqb Ascii.eqb Bool.eqb bind].
    unfold findall. cbn [filter x_tag x_kids String.eqb Ascii.eqb Bool.eqb bind x_attrs].
    rewrite mix_nil. cbn [x_kids assert_ bind]. rewrite E4. cbn [bind].
    assert (NG0 : findall "geom" (map (convert float_of) es) = []).
    { apply (findall_none "geom" "body"); [discriminate|]. now apply convert_tags. }
    unfold findall in NG0.
    unfold aget. cbn [dget String.eqb Ascii.eqb Bool.eqb fst snd]. rewrite (conv_plain float_of mn PM). cbn [as_text bind].
    rewrite NG0. cbn [mapM bind].
    rewrite (conv_num print print_int float_of num int F) by auto. cbn [bind].
    rewrite (conv_nums print print_int float_of num int F) by (try (intros X; rewrite X in LG; cbn in LG; lia); auto).
    assert (GR : match gravity s with [x] => CScal x | _ => CVec (gravity s) end = CVec (gravity s)).
    { destruct (gravity s) as [|x [|y g]]; auto. cbn in LG. lia. }
    rewrite GR. cbn [bind]. unfold assemble. fold rows. destruct PNE as (r0 & rs & ER). rewrite ER at 1. rewrite EJ. cbn [bind map]. reflexivity. }
  (* the views of the assembled system *)
  set (vs1 := map view_of_row (combine rows ps)).
  assert (VW : views W s1 vs1).
  { unfold views, s1, vs1. cbn [link_names link_types links omc link_parents link_damping link_armature link_spring_stiffness link_spring_zeropoint].
    rewrite !map_map.
    assert (MF : forall {B} (f : view -> B) (g : row -> B), (forall rp, f (view_of_row rp) = g (fst rp)) -> map (fun x => f (view_of_row x)) (combine rows ps) = map g rows).
    { intros B f g H. rewrite <- (map_combine_fst g rows ps) by auto. apply map_ext. auto. }
    rewrite (MF _ v_name r_name), (MF _ v_type r_type), (MF _ v_omc r_omc) by now intros [r p].
    rewrite (MF _ v_damping r_d), (MF _ v_armature r_a), (MF _ v_stiffness r_s), (MF _ v_zeropoint r_z) by now intros [r p].
    split; [reflexivity|]. split; [reflexivity|]. split; [apply map_ext; now intros [r p]|]. split; [reflexivity|].
    split; [rewrite !map_length, combine_length; lia|].
    assert (HW : forall (w : string -> option nat) (g : row -> list R), (forall m r, nth_error rows m = Some r -> w (r_type r) = Some (length (g r))) ->
        have_widths w (map r_type rows) (map (fun r => length (g r)) rows)).
    { intros w g H. unfold have_widths. apply Forall2_nth_iff. rewrite !map_length. split; auto. intros m t k A B.
      rewrite nth_error_map in A, B. destruct (nth_error rows m) as [r|] eqn:E; [|discriminate]. injection A as <-. injection B as <-. eauto. }
    assert (RV : forall m r, nth_error rows m = Some r -> exists i v p, nth_error vs i = Some v /\ r = row_of v (attached (Z.of_nat i) (geoms s)) p).
    { intros m r E. unfold rows in E. rewrite nth_error_map in E. destruct (nth_error RN m) as [[i p]|] eqn:ER; [|discriminate]. injection E as <-.
      destruct (ROW _ _ _ ER) as (v & Ev & Er & _). exists i, v, p. auto. }
    exists (map (fun r => length (r_z r)) rows), (map (fun r => length (r_d r)) rows).
    assert (LEN : forall m r, nth_error rows m = Some r -> length (r_a r) = length (r_d r) /\ length (r_s r) = length (r_d r)).
    { intros m r E. destruct (RV m r E) as (i & v & p & Ev & ->). cbn [row_of r_a r_d r_s].
      destruct (DC i v Ev) as (? & ? & ? & ? & _ & _ & _ & _ & _ & _ & _ & _ & X1 & X2 & X3 & _). lia. }
    assert (LM : forall g : row -> list R, (forall m r, nth_error rows m = Some r -> length (g r) = length (r_d r)) -> map (fun r => length (g r)) rows = map (fun r => length (r_d r)) rows).
    { intros g H. apply map_ext_in. intros r Hr. apply In_nth_error in Hr. destruct Hr as [m Hr]. eauto. }
    split; [apply HW; intros m r E; destruct (RV m r E) as (i & v & p & Ev & ->); cbn [row_of r_z r_type];
            destruct (DC i v Ev) as (? & ? & ? & ? & _ & _ & X & _ & _ & _ & _ & _ & _ & _ & _ & Y); congruence|].
    split; [apply HW; intros m r E; destruct (RV m r E) as (i & v & p & Ev & ->); cbn [row_of r_d r_type];
            destruct (DC i v Ev) as (? & ? & ? & ? & _ & _ & _ & X & _ & _ & _ & _ & Y & _); congruence|].
    unfold splits. rewrite !map_map.
    split; [split; reflexivity|]. split; [split; [apply LM; intros m r E; apply (LEN m r E)|reflexivity]|].
    split; [split; [apply LM; intros m r E; apply (LEN m r E)|reflexivity]|]. split; reflexivity. }
  (* pointwise *)
  assert (PT : forall m i, nth_error order m = Some i -> exists v p q, nth_error vs i = Some v /\ nth_error RN m = Some (i, p) /\ nth_error ps m = Some q /\
      nth_error rows m = Some (row_of v (attached (Z.of_nat i) (geoms s)) p) /\ valid_view xml_ops v).
  { intros m i E. unfold order in E. rewrite nth_error_map in E. destruct (nth_error RN m) as [[i' p]|] eqn:ER; [|discriminate]. cbn in E. injection E as ->.
    destruct (ROW _ _ _ ER) as (v & Ev & Er & _ & Vv). assert (Lm : (m < n)%nat) by (rewrite <- LR; apply nth_error_Some; congruence).
    destruct (nth_error ps m) as [q|] eqn:Ep; [|apply nth_error_None in Ep; lia].
    exists v, p, q. split; auto. split; auto. split; auto. split; auto. unfold rows. rewrite nth_error_map, ER. cbn. now rewrite Er. }
  assert (OALL : forall m, (m < n)%nat -> exists i, nth_error order m = Some i).
  { intros m Hm. destruct (nth_error order m) eqn:E; eauto. apply nth_error_None in E. unfold order in E. rewrite map_length in E. lia. }
  assert (AT : forall m i, nth_error order m = Some i -> attached (Z.of_nat m) (geoms s1) = attached (Z.of_nat i) (geoms s)).
  { intros m i E. destruct (PT m i E) as (v & p & q & _ & _ & _ & Er & _). unfold s1. cbn [geoms]. rewrite app_nil_r. unfold enum. rewrite attached_rows.
    rewrite Z.sub_0_r, Nat2Z.id, Er. replace (Z.of_nat 0 <=? Z.of_nat m)%Z with true by (symmetry; apply Z.leb_le; lia). reflexivity. }
  assert (TOPO : topo (link_parents s1)).
  { intros m p E. unfold s1 in E. cbn [link_parents] in E. unfold rows in E. rewrite map_map, nth_error_map in E.
    destruct (nth_error RN m) as [[i p0]|] eqn:ER; [|discriminate]. cbn in E. destruct (ROW _ _ _ ER) as (v & Ev & Er & _). rewrite Er in E. cbn in E. injection E as <-.
    assert (Eo : nth_error order m = Some i) by (unfold order; now rewrite nth_error_map, ER).
    assert (Es : nth_error (map snd RN) m = Some p0) by now rewrite nth_error_map, ER.
    destruct (proj1 (Forall2_nth_iff _ _ _) PAR) as [_ X]. destruct (X m i p0 Eo Es) as (pi & Epi & [[_ ->]|(k & j & E5 & -> & Ek)]); [lia|].
    subst pi. destruct (nth_error_split _ _ Eo) as (l1 & l2 & EO & Ll). rewrite OP in EO. destruct (perm_order np l1 i l2 EO) as [Y|(q & Y & Hq)].
    - fold np in Epi. rewrite Epi in Y. injection Y as Y. lia.
    - rewrite Epi in Y. injection Y as Y. apply Nat2Z.inj in Y. subst q. apply In_nth_error in Hq. destruct Hq as [k' Hk'].
      assert (Lk : (k' < length l1)%nat) by (apply nth_error_Some; congruence).
      assert (Ek' : nth_error order k' = Some j) by (rewrite OP, EO, nth_error_app1; auto).
      assert (k = k') by (eapply NoDup_nth_error_inj; [|exact Ek|exact Ek']; rewrite OP; apply perm_NoDup). subst k'. lia. }
  assert (PARS : map snd RN = link_parents s1).
  { unfold s1. cbn [link_parents]. unfold rows. rewrite map_map. apply map_ext_in. intros [i p] H. apply In_nth_error in H. destruct H as [m H].
    destruct (ROW _ _ _ H) as (v & _ & -> & _). reflexivity. }
  assert (NDN : NoDup (link_names s1)).
  { unfold s1. cbn [link_names]. apply NoDup_nth_error. rewrite map_length, LRW. intros a b La E.
    destruct (OALL a La) as [i Ei]. destruct (PT a i Ei) as (v & p & q & Ev & _ & _ & Er & _).
    rewrite !nth_error_map, Er in E. cbn [option_map row_of r_name] in E.
    destruct (nth_error rows b) as [rb|] eqn:Eb; [|discriminate].
    assert (Lb : (b < n)%nat) by (rewrite <- LRW; apply nth_error_Some; congruence).
    destruct (OALL b Lb) as [j Ej]. destruct (PT b j Ej) as (w & p' & q' & Ew & _ & _ & Er' & _). rewrite Eb in Er'. injection Er' as ->. cbn in E. injection E as E.
    pose proof V as (A1 & _). assert (N1 : nth_error (link_names s) i = Some (v_name v)) by (rewrite A1, nth_error_map, Ev; reflexivity).
    assert (N2 : nth_error (link_names s) j = Some (v_name v)) by (rewrite A1, nth_error_map, Ew; cbn; congruence).
    assert (i = j) by (eapply NoDup_nth_error_inj; [apply WF|exact N1|exact N2]). subst j.
    eapply NoDup_nth_error_inj; [|exact Ei|exact Ej]. rewrite OP. apply perm_NoDup. }
  assert (VAL : Forall (valid_view xml_ops) vs1).
  { apply Forall_forall. intros v1 H. unfold vs1 in H. apply in_map_iff in H. destruct H as ([r q] & <- & H). apply In_nth_error in H. destruct H as [m H].
    assert (Lm : (m < n)%nat) by (assert ((m < length (combine rows ps))%nat) by (apply nth_error_Some; congruence); rewrite combine_length in *; lia).
    destruct (OALL m Lm) as [i Ei]. destruct (PT m i Ei) as (v & p & q' & Ev & _ & Eq & Er & Vv).
    rewrite (nth_combine _ _ _ _ _ Er Eq) in H. injection H as <- <-. destruct Vv as [P1 P2]. split; cbn [view_of_row v_link v_type v_zeropoint row_of r_type r_z]; auto. }
  assert (GRNG : Forall (fun g => (-1 <= fst g < Z.of_nat (num_links s1))%Z) (geoms s1)).
  { unfold s1, num_links. cbn [geoms link_parents]. rewrite app_nil_r, map_length, LRW.
    apply Forall_forall. intros [z g] H. cbn [fst]. apply in_concat in H. destruct H as (l & Hl & H). apply in_map_iff in Hl. destruct Hl as ([m r] & <- & Hm).
    cbn [fst snd] in H. apply in_map_iff in H. destruct H as (g' & [= <- <-] & _). apply In_nth_error in Hm. destruct Hm as [k Hm]. unfold enum in Hm.
    rewrite nth_error_enum_from in Hm. destruct (nth_error rows k) eqn:Ek; [|discriminate]. injection Hm as <- _.
    assert ((k < length rows)%nat) by (apply nth_error_Some; congruence). lia. }
  set (s' := parse_post xml_ops s1).
  assert (EP : parse W xml_ops s1 = Ok s') by (apply parse_iff; split; [reflexivity|]; split; [auto|]; split; [auto|]; eauto).
  exists (Elem "x_xy" [("model", mn)] [Elem "options" [("dt", print (sys_dt s)); ("gravity", to_str print (gravity s))] []; Elem "worldbody" [] es]), s', order.
  split; [exact SAVE|]. split; [now rewrite LOAD|]. constructor.
  - exact PERM.
  - change (link_parents s') with (link_parents s1). rewrite <- PARS. unfold RN.
    destruct (number_depth_first np (S n) (kids np (-1)) (-1) 0 []) as [X _]; auto; [intros i p H; destruct i; discriminate|now left].
  - intros m1 m2 p i1 i2 Lt P1 P2 O1 O2. change (link_parents s') with (link_parents s1) in P1, P2. rewrite <- PARS in P1, P2.
    unfold order in O1, O2. rewrite nth_error_map in O1, O2, P1, P2. destruct (nth_error RN m1) as [[j1 p1]|] eqn:R1; [|discriminate].
    destruct (nth_error RN m2) as [[j2 p2]|] eqn:R2; [|discriminate]. cbn in P1, P2, O1, O2. injection P1 as ->. injection P2 as ->. injection O1 as ->. injection O2 as ->.
    assert (FO : ForallOrdPairs sib RN) by (apply number_siblings; [apply kids_sorted|lia]).
    exact (FOP_nth sib RN FO m1 m2 _ _ Lt R1 R2 eq_refl).
  - change (link_parents s') with (link_parents s1). rewrite <- PARS. exact PAR.
  - exists vs, (inertia_views xml_ops (geoms s1) vs1). split; [exact V|]. split; [now apply parse_post_views|].
    apply Forall2_nth_iff. split.
    { unfold inertia_views, enum. rewrite map_length, length_enum_from. unfold vs1. rewrite map_length, combine_length. unfold order. rewrite map_length. lia. }
    intros m i v' Ei Ev'. destruct (PT m i Ei) as (v & p & q & Ev & _ & Eq & Er & _). exists v. split; auto.
    unfold inertia_views, enum in Ev'. rewrite nth_error_map, nth_error_enum_from in Ev'. unfold vs1 in Ev'. rewrite nth_error_map, (nth_combine _ _ _ _ _ Er Eq) in Ev'.
    cbn [option_map fst snd] in Ev'. apply (f_equal (fun o => match o with Some x => x | None => v' end)) in Ev'. cbn beta iota in Ev'. change (0 + m)%nat with m in Ev'. rewrite (AT m i Ei) in Ev'. rewrite <- Ev'. clear Ev' v'.
    split; [repeat split|].
    pose proof (pd_inertia _ _ _ PS i (v_link v)) as PI. 
    assert (El : nth_error (links s) i = Some (v_link v)) by (pose proof V as (_ & _ & A3 & _); rewrite A3, nth_error_map, Ev; reflexivity).
    specialize (PI El). idtac. cbn [set_v_link v_link view_of_row xml_ops with_inertia phys_ops Nat.add] in *. unfold set_inertia, fresh_link in *.
    cbn [pl_t1 pl_pmin pl_pmax pl_params pl_t2 pl_t row_of r_t1 r_pmin r_pmax] in *.
    repeat split. cbn [M_Geom.pl_inertia]. exact (f_equal M_Geom.pl_inertia PI).
  - change (link_types s') with (link_types s1). unfold s1 at 1. cbn [link_types]. rewrite EJ. f_equal.
    unfold s', parse_post. cbn [set_links_geoms links]. rewrite map_map. unfold enum. rewrite (map_ext _ (fun il => pl_params (snd il))) by (now intros [k l]).
    rewrite (map_enum_snd pl_params). unfold s1. cbn [links]. rewrite map_map. cbn [fresh_link pl_params].
    rewrite (map_combine_snd (fun q => q) rows ps) by auto. now rewrite map_id.
  - intros m i E. unfold s', parse_post. cbn [set_links_geoms geoms]. rewrite attached_sort. now apply AT.
  - rewrite (sv_world _ _ _ _ _ SV). unfold s', parse_post. cbn [set_links_geoms geoms]. rewrite attached_sort. unfold s1. cbn [geoms]. rewrite app_nil_r. unfold enum. rewrite attached_rows.
    destruct (nth_error rows _); reflexivity.
  - destruct (sv_settings _ _ _ _ _ SV) as [X1 X2]. cbn. rewrite X1, X2, EM. auto.
  - eapply parse_parsed; eauto using xml_laws.
Qed.

(** ** A system already listed depth first comes back identical *)
Definition fresh (l : plink J) : Prop := pl_t2 l = t_zero /\ pl_t l = t_zero.

Lemma reloaded_same s s' order : parsed W xml_ops s -> reloaded W jinit s s' order ->
  depth_first (link_parents s) -> Forall fresh (links s) -> jinit (link_types s) = Ok (map pl_params (links s)) -> s' = s.
Proof.
  intros PS RL DF FR JP.
  assert (EO : order = seq 0 (num_links s)).
  { unfold num_links. eapply order_identity; [apply PS|apply (rl_parsed _ _ _ _ _ RL)|exact DF|apply RL..]. }
  destruct RL as [_ _ _ RP (vs & vs' & V & V' & F2) JP' RG RW (G1 & G2 & G3 & G4 & G5) PS']. subst order.
  destruct (views_lengths W _ _ V) as (_ & _ & _ & _ & L5).
  assert (L' : length vs' = num_links s) by (apply Forall2_nth_iff in F2; destruct F2 as [X _]; now rewrite seq_length in X).
  assert (NS : forall m, (m < num_links s)%nat -> nth_error (seq 0 (num_links s)) m = Some m).
  { intros m Hm. rewrite (nth_error_nth' _ 0%nat) by now rewrite seq_length. now rewrite seq_nth. }
  assert (SV : forall m v', nth_error vs' m = Some v' -> exists v, nth_error vs m = Some v /\ same_view v v').
  { intros m v' E. assert (Hm : (m < num_links s)%nat) by (rewrite <- L'; apply nth_error_Some; congruence).
    apply Forall2_nth_iff in F2. destruct F2 as [_ F2]. exact (F2 m m v' (NS m Hm) E). }
  assert (MT : forall {B} (f : link_view R (plink J) (option omc_link) -> B), (forall v v', same_view v v' -> f v' = f v) -> map f vs' = map f vs).
  { intros B f H. apply nth_error_ext. intros m. rewrite !nth_error_map. destruct (nth_error vs' m) as [v'|] eqn:E'.
    - destruct (SV m v' E') as (v & -> & Hv). cbn. f_equal. auto.
    - assert (nth_error vs m = None) as -> by (apply nth_error_None; apply nth_error_None in E'; lia). reflexivity. }
  pose proof V as (A1 & A2 & A3 & A4 & A5 & qs & ds & Q & D & A6 & A7 & A8 & A9).
  pose proof V' as (B1 & B2 & B3 & B4 & B5 & qs' & ds' & Q' & D' & B6 & B7 & B8 & B9).
  assert (TY : link_types s' = link_types s) by (rewrite A2, B2; apply MT; intros v v' [(_ & X & _) _]; congruence).
  assert (PP : map pl_params (links s') = map pl_params (links s)) by (rewrite TY, JP in JP'; congruence).
  assert (EV : vs' = vs).
  { apply nth_error_ext. intros m. destruct (nth_error vs' m) as [v'|] eqn:E'.
    - destruct (SV m v' E') as (v & E & [(X1 & X2 & X3 & X4 & X5 & X6 & X7) (Y1 & Y2 & Y3 & Y4 & Y5 & Y6)]). rewrite E. f_equal.
      assert (YP : pl_params (v_link v') = pl_params (v_link v)).
      { rewrite A3, B3, !map_map in PP. apply (f_equal (fun l => nth_error l m)) in PP. rewrite !nth_error_map, E, E' in PP. cbn in PP. congruence. }
      assert (Fv : fresh (v_link v)).
      { rewrite Forall_forall in FR. apply FR. rewrite A3. apply in_map. eapply nth_error_In; eauto. }
      destruct Fv as [F1 F3]. destruct v as [n1 t1 [a1 a2 a3 a4 a5 a6 a7] o1 d1 r1 s1 z1], v' as [n2 t2 [b1 b2 b3 b4 b5 b6 b7] o2 d2 r2 s2 z2].
      cbn [v_link pl_t1 pl_pmin pl_pmax pl_params M_Geom.pl_inertia pl_t2 pl_t] in *. cbn in X1, X2, X3, X4, X5, X6, X7. congruence.
    - symmetry. apply nth_error_None. apply nth_error_None in E'. lia. }
  subst vs'.
  assert (EQ : link_parents s' = link_parents s).
  { apply nth_error_ext. intros m. apply Forall2_nth_iff in RP. destruct RP as [LP RP]. rewrite seq_length in LP.
    destruct (nth_error (link_parents s') m) as [p'|] eqn:E'.
    - assert (Hm : (m < num_links s)%nat) by (rewrite LP; apply nth_error_Some; congruence).
      destruct (RP m m p' (NS m Hm) E') as (p & -> & [[-> ->]|(k & j & -> & -> & Ek)]); [reflexivity|].
      assert (Hk : (k < num_links s)%nat) by (rewrite <- (seq_length (num_links s) 0); apply nth_error_Some; congruence).
      rewrite (NS k Hk) in Ek. congruence.
    - symmetry. apply nth_error_None. apply nth_error_None in E'. unfold num_links in LP. lia. }
  assert (GG : geoms s' = geoms s).
  { apply sorted_unique; [apply PS'|apply PS|]. intros z. destruct (Z.eq_dec z (-1)) as [->|N1]; [exact RW|].
    destruct (Z_lt_dec z 0) as [N2|N2].
    - assert (X : forall t : xsys J, parsed W xml_ops t -> attached z (geoms t) = []).
      { intros t Pt. pose proof (wf_geoms _ _ (pd_wf _ _ _ Pt)) as X. revert X. generalize (geoms t). intros gs H. induction H as [|[y g] r H _ IH]; cbn [attached]; [reflexivity|].
        destruct (Z.eq_dec y z); [cbn [fst] in H; lia|exact IH]. }
      now rewrite !X.
    - destruct (Nat.lt_ge_cases (Z.to_nat z) (num_links s)) as [N3|N3].
      + rewrite <- (Z2Nat.id z) by lia. apply RG. now apply NS.
      + assert (X : forall t : xsys J, parsed W xml_ops t -> num_links t = num_links s -> attached z (geoms t) = []).
        { intros t Pt Nt. pose proof (wf_geoms _ _ (pd_wf _ _ _ Pt)) as X. rewrite <- Nt in N3. unfold num_links in N3. revert X. generalize (geoms t). intros gs H.
          induction H as [|[y g] r H _ IH]; cbn [attached]; [reflexivity|]. destruct (Z.eq_dec y z); [cbn [fst] in H; lia|exact IH]. }
        rewrite !X; auto. unfold num_links. now rewrite EQ. }
  destruct A6 as [_ A6], A7 as [_ A7], A8 as [_ A8], A9 as [_ A9]. destruct B6 as [_ B6], B7 as [_ B7], B8 as [_ B8], B9 as [_ B9].
  clear -A1 A2 A3 A4 A6 A7 A8 A9 B1 B2 B3 B4 B6 B7 B8 B9 EQ GG G1 G2 G3 G4 G5.
  destruct s, s'. cbn in *. subst. reflexivity.
Qed.

Theorem C16_same s : saveable float_of num int W s ->
  depth_first (link_parents s) -> Forall fresh (links s) -> jinit (link_types s) = Ok (map pl_params (links s)) ->
  exists x, save s = Ok x /\ load x = Ok s.
Proof.
  intros SV DF FR JP. destruct (C16_roundtrip s SV) as (x & s' & order & E & L & RL). exists x. split; auto.
  rewrite <- (reloaded_same s s' order (sv_parsed _ _ _ _ _ SV) RL DF FR JP) at 1. exact L.
Qed.

(** ** What is loaded can be saved again, and then nothing changes any more *)
Lemma reloaded_saveable s s' order : saveable float_of num int W s -> reloaded W jinit s s' order -> saveable float_of num int W s'.
Proof.
  intros SV RL. destruct RL as [PM _ _ RP (vs & vs' & V & V' & F2) JP' RG RW (G1 & G2 & G3 & G4 & G5) PS'].
  assert (EX : Forall (fun v' => exists v, In v vs /\ same_view v v') vs').
  { clear - F2. induction F2 as [|i v' o r (v & E & H) _ IH]; constructor; auto. exists v. split; auto. eapply nth_error_In; eauto. }
  pose proof (saveable_views s vs SV V) as SVV. rewrite Forall_forall in EX, SVV.
  pose proof V' as (B1 & B2 & B3 & B4 & B5 & qs' & ds' & Q' & D' & [_ B6] & [_ B7] & [_ B8] & [_ B9]).
  assert (MV : forall {B} (f : link_view R (plink J) (option omc_link) -> B) (P : B -> Prop), (forall v v', saveable_view float_of num int v -> same_view v v' -> P (f v')) -> Forall P (map f vs')).
  { intros B f P H. rewrite Forall_map. apply Forall_forall. intros v' Hv'. destruct (EX v' Hv') as (v & Hv & Sv). eauto. }
  destruct SV as [P S M N T Wd ST O AR LK G OM].
  constructor.
  - exact PS'.
  - intros X. unfold num_links in PM. apply Permutation_length in PM. rewrite seq_length in PM. apply Forall2_nth_iff in RP. destruct RP as [LP _]. rewrite X in LP. cbn in LP.
    destruct (link_parents s); [now apply S|cbn in PM; lia].
  - now rewrite G5.
  - rewrite B1. apply MV. intros v v' (H & _) [(-> & _) _]. exact H.
  - rewrite B2. apply MV. intros v v' (_ & H & H' & _) [(_ & -> & _) _]. auto.
  - now rewrite RW.
  - now rewrite G3, G4.
  - now rewrite G1, G2.
  - rewrite <- B6, <- B7, <- B8, <- B9, !concat_pieces.
    repeat split; apply MV; intros v v' H [(_ & _ & X1 & X2 & X3 & X4 & X5) _]; unfold saveable_view in H; intuition congruence.
  - rewrite B3. apply MV. intros v v' H [_ (X1 & X2 & X3 & _)]. unfold saveable_view in H. unfold saveable_link in *. rewrite X1, X2, X3. tauto.
  - assert (X : forall z, Forall (saveable_geom float_of num) (attached z (geoms s'))).
    { assert (A0 : forall (gs : list (Z * xgeom)) z, Forall (fun g => saveable_geom float_of num (snd g)) gs -> Forall (saveable_geom float_of num) (attached z gs)).
      { induction 1 as [|[y g] r H _ IH]; cbn [attached]; [constructor|]. destruct (Z.eq_dec y z); [constructor; auto|exact IH]. }
      intros z. destruct (attached z (geoms s')) as [|g r] eqn:E; [constructor|]. rewrite <- E. clear E.
      destruct (Z.eq_dec z (-1)) as [->|N1]; [rewrite RW; auto|].
      destruct (Z_lt_dec z 0) as [N2|N2]; [|destruct (nth_error order (Z.to_nat z)) as [i|] eqn:Eo].
      - pose proof (wf_geoms _ _ (pd_wf _ _ _ PS')) as X. assert (Y : attached z (geoms s') = []).
        { revert X. generalize (geoms s'). intros gs H. induction H as [|[y h] q H _ IH]; cbn [attached]; [reflexivity|]. destruct (Z.eq_dec y z); [cbn [fst] in H; lia|exact IH]. }
        rewrite Y. constructor.
      - rewrite <- (Z2Nat.id z) by lia. rewrite (RG _ _ Eo). auto.
      - apply nth_error_None in Eo. apply Forall2_nth_iff in RP. destruct RP as [LP _]. rewrite LP in Eo.
        pose proof (wf_geoms _ _ (pd_wf _ _ _ PS')) as X. assert (Y : attached z (geoms s') = []).
        { revert X. generalize (geoms s'). intros gs H. induction H as [|[y h] q H _ IH]; cbn [attached]; [reflexivity|]. destruct (Z.eq_dec y z); [cbn [fst] in H; lia|exact IH]. }
        rewrite Y. constructor. }
    apply Forall_forall. intros [z g] H. cbn [snd]. specialize (X z). rewrite Forall_forall in X. apply X.
    clear - H. induction (geoms s') as [|[y h] r IH]; [destruct H|]. cbn [attached]. destruct H as [[= -> ->]|H]; [destruct (Z.eq_dec z z); [now left|congruence]|].
    destruct (Z.eq_dec y z); [right|]; auto.
  - rewrite B4. apply MV. intros v v' H [(_ & _ & X & _) _]. rewrite X. unfold saveable_view in H. tauto.
Qed.

Theorem C16_twice s : saveable float_of num int W s ->
  exists x s' order x', save s = Ok x /\ load x = Ok s' /\ reloaded W jinit s s' order /\ save s' = Ok x' /\ load x' = Ok s'.
Proof.
  intros SV. destruct (C16_roundtrip s SV) as (x & s' & order & E & L & RL). pose proof (reloaded_saveable s s' order SV RL) as SV'.
  destruct (C16_same s' SV') as (x' & E' & L').
  - apply RL.
  - destruct RL as [_ _ _ _ (vs & vs' & V & V' & F2) _ _ _ _ _]. destruct V' as (_ & _ & B3 & _). rewrite B3, Forall_map.
    clear - F2. induction F2 as [|i v' o r (v & E & [_ (_ & _ & _ & _ & X & Y)]) _ IH]; constructor; auto. now split.
  - apply RL.
  - exists x, s', order, x'. auto.
Qed.

(** ** What the format cannot express *)

(** Whatever was saved, the loaded system has no geometries attached to the world, the default integration
    settings, and no joint of type "cor". *)
Lemma mix_tag a b (e : xml cval) : x_tag (mix a b e) = x_tag e.
Proof. now destruct e. Qed.
Lemma link_elem_body (s : xsys J) mq md k i e : link_elem W print print_int s mq md k i = Ok e -> x_tag e = "body".
Proof.
  destruct k as [|k]; [discriminate|]. cbn [link_elem]. intros H. repeat (apply bind_Ok in H; destruct H as (? & _ & H)). now injection H as <-.
Qed.
Lemma body_row_type a ks p r : body_row W print_int a ks p = Ok r -> r_type r <> "cor".
Proof.
  unfold body_row. intros H. apply bind_Ok in H. destruct H as (t & _ & H). apply bind_Ok in H. destruct H as (u & C & H).
  repeat (apply bind_Ok in H; destruct H as (? & _ & H)). injection H as <-. cbn [r_type]. destruct (String.eqb_spec t "cor"); [discriminate|auto].
Qed.
Lemma process_types : forall e p idx rs, process_body W print_int e p idx = Ok rs -> Forall (fun r => r_type r <> "cor") rs.
Proof.
  assert (PB : forall ks, Forall (fun e => forall p idx rs, process_body W print_int e p idx = Ok rs -> Forall (fun r => r_type r <> "cor") rs) ks ->
    forall p idx rs, process_bodies W print_int ks p idx = Ok rs -> Forall (fun r => r_type r <> "cor") rs).
  { induction 1 as [|e ks He _ IH]; intros p idx rs H; cbn [process_bodies] in H; [injection H as <-; constructor|].
    destruct (String.eqb (x_tag e) "body"); [|eauto]. apply bind_Ok in H. destruct H as (r1 & E1 & H). apply bind_Ok in H. destruct H as (r2 & E2 & H). injection H as <-.
    apply Forall_app. eauto. }
  induction e as [t a ks IH] using xml_rec. intros p idx rs H. rewrite process_body_eq in H. apply bind_Ok in H. destruct H as (r & Er & H).
  apply bind_Ok in H. destruct H as (r2 & E2 & H). injection H as <-. constructor; [eapply body_row_type; eauto|eapply PB; eauto].
Qed.
Lemma process_bodies_types : forall ks p idx rs, process_bodies W print_int ks p idx = Ok rs -> Forall (fun r => r_type r <> "cor") rs.
Proof.
  induction ks as [|e ks IH]; intros p idx rs H; cbn [process_bodies] in H; [injection H as <-; constructor|].
  destruct (String.eqb (x_tag e) "body"); [|eauto]. apply bind_Ok in H. destruct H as (r1 & E1 & H). apply bind_Ok in H. destruct H as (r2 & E2 & H). injection H as <-.
  apply Forall_app. split; [eapply process_types; eauto|eauto].
Qed.

Theorem C16_lost_refuted (s : xsys J) x s' : save s = Ok x -> load x = Ok s' ->
  attached (-1)%Z (geoms s') = [] /\ integration_method s' = "semi_implicit_euler" /\ mass_mat_iters s' = 0%nat /\
  ~ In "cor" (link_types s') /\ Forall fresh (links s') /\ model_name s <> None.
Proof.
  intros SV LD. unfold M_Xml.save in SV. apply bind_Ok in SV. destruct SV as (mq & _ & SV). apply bind_Ok in SV. destruct SV as (md & _ & SV).
  apply bind_Ok in SV. destruct SV as (es & ES & SV). destruct (model_name s) as [mn|]; [|discriminate]. injection SV as <-.
  assert (TG : Forall (fun e => x_tag e = "body") es).
  { clear - ES. revert es ES. induction (map fst _) as [|i l IH]; intros es E; cbn [mapM] in E; [injection E as <-; constructor|].
    apply bind_Ok in E. destruct E as (e & Ee & E). apply bind_Ok in E. destruct E as (r & Er & E). injection E as <-. constructor; [eapply link_elem_body; eauto|auto]. }
  unfold M_Xml.load in LD. apply bind_Ok in LD. destruct LD as (u & _ & LD). cbn zeta in LD. apply bind_Ok in LD. destruct LD as (dg & _ & LD).
  apply bind_Ok in LD. destruct LD as (db & _ & LD). apply bind_Ok in LD. destruct LD as (w & EW & LD).
  cbn [convert map] in EW. unfold find_unique, findall in EW. cbn [filter x_tag x_kids String.eqb Ascii.eqb Bool.eqb] in EW. injection EW as <-.
  cbn zeta in LD. do 8 (apply bind_Ok in LD; let y := fresh "y" in let E := fresh "E" in destruct LD as (y & E & LD)).
  cbn [mix x_kids x_tag String.eqb Ascii.eqb Bool.eqb] in *.
  assert (NG : findall "geom" (map (mix dg db) (map (convert float_of) es)) = []).
  { apply (findall_none "geom" "body"); [discriminate|]. rewrite Forall_map, Forall_map. eapply Forall_impl; [|exact TG]. intros e He. cbn beta. rewrite mix_tag. now destruct e. }
  match goal with E : mapM _ (findall "geom" _) = Ok _ |- _ => rewrite NG in E; injection E as E end. subst.
  match goal with E : process_bodies _ _ _ _ _ = Ok _ |- _ => apply process_bodies_types in E; rename E into PT end.
  apply parse_iff in LD. destruct LD as (-> & _).
  match goal with E : assemble _ ?r _ _ _ _ = Ok _ |- _ => unfold assemble in E; destruct r as [|r0 rs]; [discriminate E|]; apply bind_Ok in E; destruct E as (ps & _ & E); injection E as <- end.
  split; [|split; [reflexivity|split; [reflexivity|split; [|split; [|discriminate]]]]].
  - unfold parse_post. cbn [set_links_geoms geoms]. rewrite attached_sort, app_nil_r. etransitivity; [exact (attached_rows (r0 :: rs) 0 (-1)%Z)|reflexivity].
  - unfold parse_post. cbn [set_links_geoms link_types]. intros H. change (In "cor" (map r_type (r0 :: rs))) in H. apply in_map_iff in H. destruct H as (r & Hr & H). rewrite Forall_forall in PT. now apply (PT r H).
  - unfold parse_post. cbn [set_links_geoms links]. unfold enum. apply Forall_enum_map. intros i l Hl. change (In l (map (fun rp => fresh_link (fst rp) (snd rp)) (combine (r0 :: rs) ps))) in Hl.
    apply in_map_iff in Hl. destruct Hl as ((r & q) & <- & _). split; reflexivity.
Qed.

(** Geometries outside all bodies become geometries of the world, in order. *)
Theorem C16_world_geoms x (s : xsys J) : load x = Ok s ->
  exists dg db w, default_of (convert float_of x) "geom" = Ok dg /\ default_of (convert float_of x) "body" = Ok db /\
    find_unique "worldbody" (convert float_of x) = Ok (Some w) /\
    mapM (fun g => get_geom (x_attrs g)) (findall "geom" (x_kids (mix dg db w))) = Ok (attached (-1)%Z (geoms s)).
Proof.
  intros LD. unfold M_Xml.load in LD. apply bind_Ok in LD. destruct LD as (u & _ & LD). cbn zeta in LD. apply bind_Ok in LD. destruct LD as (dg & E1 & LD).
  apply bind_Ok in LD. destruct LD as (db & E2 & LD). apply bind_Ok in LD. destruct LD as (w & EW & LD). destruct w as [w|]; [|discriminate]. exists dg, db, w.
  split; [exact E1|]. split; [exact E2|]. split; [exact EW|].
  cbn zeta in LD. do 4 (apply bind_Ok in LD; let y := fresh "y" in let E := fresh "E" in destruct LD as (y & E & LD)).
  apply bind_Ok in LD. destruct LD as (world & WE & LD). rewrite WE. f_equal.
  do 3 (apply bind_Ok in LD; let y := fresh "y" in let E := fresh "E" in destruct LD as (y & E & LD)).
  apply parse_iff in LD. destruct LD as (-> & _).
  match goal with E : assemble _ ?r _ _ _ _ = Ok _ |- _ => unfold assemble in E; destruct r as [|r0 rs]; [discriminate E|]; apply bind_Ok in E; destruct E as (ps & _ & E); injection E as <- end.
  unfold parse_post. cbn [set_links_geoms geoms]. rewrite attached_sort, attached_app. match goal with |- _ = ?a ++ _ => assert (a = []) as -> by (etransitivity; [exact (attached_rows (r0 :: rs) 0 (-1)%Z)|reflexivity]) end. cbn [app].
  clear. induction world as [|g r IH]; cbn [map attached]; [reflexivity|]. destruct (Z.eq_dec _ _); [now rewrite <- IH|contradiction].
Qed.

(** Exactly these things are lost: the world's geometries, the integration settings, the colour, mass and
    transform of coordinate crosses, and position limits that coincide but are not the link's position. *)
Definition norm_geom (g : xgeom) : xgeom :=
  match g_shape (xg_geom g) with XYZ size => mkXG (mkGeom 0 t_zero (XYZ size)) None None | _ => g end.
Definition norm_link (l : plink J) : plink J :=
  if leqb (v3_list (pl_pmin l)) (v3_list (pl_pmax l))
  then mkPL (pl_t1 l) (t_pos (pl_t1 l)) (t_pos (pl_t1 l)) (pl_params l) (M_Geom.pl_inertia l) (pl_t2 l) (pl_t l) else l.
Definition expressible (s : xsys J) : xsys J :=
  parse_post xml_ops
    (mkSys (link_parents s) (map norm_link (links s)) (link_types s) (link_damping s) (link_armature s) (link_spring_stiffness s)
       (link_spring_zeropoint s) (sys_dt s)
       (map (fun g => (fst g, norm_geom (snd g))) (filter (fun g => negb (fst g =? -1)%Z) (geoms s)))
       (gravity s) "semi_implicit_euler" 0 (link_names s) (model_name s) (omc s)).

Lemma save_expressible (s : xsys J) : save (expressible s) = save s.
Proof.
  assert (GE : forall g, geom_elem print (norm_geom g) = geom_elem print g).
  { intros [[m t sh] c e]. unfold norm_geom, geom_elem. cbn [xg_geom g_shape]. now destruct sh. }
  assert (GG : forall i, map (geom_elem print) (geoms_of_link (geoms (expressible s)) (Z.of_nat i)) = map (geom_elem print) (geoms_of_link (geoms s) (Z.of_nat i))).
  { intros i. rewrite !geoms_of_link_attached. unfold expressible, parse_post. cbn [set_links_geoms geoms]. rewrite attached_sort.
    induction (geoms s) as [|[z g] r IH]; [reflexivity|]. cbn [filter fst map attached]. destruct (Z.eqb_spec z (-1)) as [->|N]; cbn [negb].
    - destruct (Z.eq_dec (-1) (Z.of_nat i)) as [X|X]; [lia|exact IH].
    - cbn [map fst snd attached]. destruct (Z.eq_dec z (Z.of_nat i)); cbn [map]; rewrite ?GE, IH; reflexivity. }
  assert (LE : forall mq md k i, link_elem W print print_int (expressible s) mq md k i = link_elem W print print_int s mq md k i).
  { intros mq md. induction k as [|k IH]; intros i; [reflexivity|]. cbn [link_elem]. rewrite GG.
    change (link_parents (expressible s)) with (link_parents s). change (link_types (expressible s)) with (link_types s).
    change (link_names (expressible s)) with (link_names s). change (omc (expressible s)) with (omc s).
    change (link_damping (expressible s)) with (link_damping s). change (link_armature (expressible s)) with (link_armature s).
    change (link_spring_stiffness (expressible s)) with (link_spring_stiffness s). change (link_spring_zeropoint (expressible s)) with (link_spring_zeropoint s).
    assert (MK : forall is, mapM (link_elem W print print_int (expressible s) mq md k) is = mapM (link_elem W print print_int s mq md k) is).
    { induction is as [|j is IHi]; cbn [mapM]; [reflexivity|]. now rewrite IH, IHi. }
    rewrite MK. unfold get_nat at 1 5. unfold expressible at 1, parse_post. cbn [set_links_geoms links].
    unfold enum. rewrite enum_from_map, map_map, nth_error_map, nth_error_enum_from. cbn [fst snd].
    destruct (nth_error (links s) i) as [l|]; cbn [option_map bind]; [|reflexivity].
    cbn [xml_ops with_inertia phys_ops set_inertia pl_t1 pl_pmin pl_pmax snd].
    assert (N1 : pl_t1 (norm_link l) = pl_t1 l) by (unfold norm_link; now destruct (leqb _ _)).
    assert (N2 : minmax_attrs print (pl_pmin (norm_link l)) (pl_pmax (norm_link l)) = minmax_attrs print (pl_pmin l) (pl_pmax l)).
    { unfold norm_link, minmax_attrs. destruct (leqb (v3_list (pl_pmin l)) (v3_list (pl_pmax l))) eqn:E; [|now rewrite E]. cbn [pl_pmin pl_pmax].
      unfold leqb. now destruct (list_eq_dec _ _ _). }
    now rewrite N1, N2. }
  unfold M_Xml.save.
  assert (I : forall w, idx_dict w (expressible s) = idx_dict w s) by reflexivity. rewrite !I.
  destruct (idx_dict (qW W) s) as [mq|]; [|reflexivity]. cbn [bind]. destruct (idx_dict (dW W) s) as [md|]; [|reflexivity]. cbn [bind].
  change (num_links (expressible s)) with (num_links s). change (link_parents (expressible s)) with (link_parents s).
  assert (MK : forall is, mapM (link_elem W print print_int (expressible s) mq md (S (num_links s))) is = mapM (link_elem W print print_int s mq md (S (num_links s))) is).
  { induction is as [|j is IHi]; cbn [mapM]; [reflexivity|]. now rewrite LE, IHi. }
  rewrite MK. reflexivity.
Qed.

Theorem C16_rest_survives s : saveable float_of num int W (expressible s) ->
  exists x s' order, save s = Ok x /\ load x = Ok s' /\ reloaded W jinit (expressible s) s' order.
Proof. intros H. destruct (C16_roundtrip _ H) as (x & s' & order & E & R). rewrite save_expressible in E. eauto. Qed.
End C16.

(** ** The hypotheses are met: numbers with three decimals *)
From Coq Require Import DecimalString DecimalZ DecimalPos.
Definition print_z (z : Z) : string := NilZero.string_of_int (Z.to_int z).
Definition read_z (s : string) : option Z := match NilZero.int_of_string s with Some d => Some (Z.of_int d) | None => None end.
Definition print3 (x : R) : string := (print_z (Int_part (1000 * x)) ++ "e-3")%string.
Fixpoint strip (s : string) : option string :=
  if String.eqb s "e-3" then Some "" else match s with "" => None | String c r => match strip r with Some t => Some (String c t) | None => None end end.
Definition read3 (s : string) : option R :=
  match strip s with
  | Some t => match read_z t with Some z => Some (IZR z / 1000)%R | None => None end
  | None => match read_z s with Some z => Some (IZR z) | None => None end
  end.
Definition num3d (x : R) : Prop := exists z, x = (IZR z / 1000)%R.

Lemma read_print_z z : read_z (print_z z) = Some z.
Proof.
  unfold read_z, print_z. rewrite NilZero.isi; [now rewrite of_to|..]; destruct z as [|p|p]; cbn; try discriminate; intros [= X]; now apply (Unsigned.to_uint_nonnil p).
Qed.
Lemma uint_chars d : Forall (fun c => c <> " "%char /\ c <> "e"%char) (list_ascii_of_string (NilEmpty.string_of_uint d)).
Proof. induction d; cbn; constructor; auto; split; discriminate. Qed.
Lemma print_z_chars z : Forall (fun c => c <> " "%char /\ c <> "e"%char) (list_ascii_of_string (print_z z)).
Proof.
  assert (X : forall d, Forall (fun c => c <> " "%char /\ c <> "e"%char) (list_ascii_of_string (NilZero.string_of_uint d))).
  { intros [| | | | | | | | | |]; [repeat constructor; discriminate|exact (uint_chars (Decimal.D0 _))|exact (uint_chars (Decimal.D1 _))|exact (uint_chars (Decimal.D2 _))|exact (uint_chars (Decimal.D3 _))
      |exact (uint_chars (Decimal.D4 _))|exact (uint_chars (Decimal.D5 _))|exact (uint_chars (Decimal.D6 _))|exact (uint_chars (Decimal.D7 _))|exact (uint_chars (Decimal.D8 _))|exact (uint_chars (Decimal.D9 _))]. }
  unfold print_z. destruct (Z.to_int z); cbn [NilZero.string_of_int list_ascii_of_string]; [apply X|constructor; [split; discriminate|apply X]].
Qed.
Lemma strip_app t : Forall (fun c => c <> " "%char /\ c <> "e"%char) (list_ascii_of_string t) -> strip (t ++ "e-3") = Some t.
Proof.
  induction t as [|c t IH]; intros H; [reflexivity|]. cbn [list_ascii_of_string] in H. inversion H as [|? ? [_ N] H']; subst. cbn [String.append strip String.eqb].
  assert (X : Ascii.eqb c "e" = false) by now apply Ascii.eqb_neq. cbn [String.eqb]. rewrite X. now rewrite IH.
Qed.
Lemma strip_none t : Forall (fun c => c <> " "%char /\ c <> "e"%char) (list_ascii_of_string t) -> strip t = None.
Proof.
  induction t as [|c t IH]; intros H; [reflexivity|]. cbn [list_ascii_of_string] in H. inversion H as [|? ? [_ N] H']; subst. cbn [strip String.eqb].
  assert (X : Ascii.eqb c "e" = false) by now apply Ascii.eqb_neq. rewrite X. now rewrite IH.
Qed.
Lemma Int_part_IZR z : Int_part (IZR z) = z.
Proof. unfold Int_part. rewrite <- (tech_up (IZR z) (z + 1)); [lia|rewrite plus_IZR; lra..]. Qed.
Lemma chars_app a b : list_ascii_of_string (a ++ b) = list_ascii_of_string a ++ list_ascii_of_string b.
Proof. induction a as [|c a IH]; cbn; congruence. Qed.
Lemma faithful3 : faithful print3 print_z read3 num3d (fun _ => True).
Proof.
  constructor.
  - intros x [z ->]. unfold print3. replace (1000 * (IZR z / 1000))%R with (IZR z) by field. rewrite Int_part_IZR. split.
    + unfold read3. rewrite (strip_app (print_z z)) by apply print_z_chars. now rewrite read_print_z.
    + unfold no_space. rewrite chars_app, in_app_iff. intros [H|H]; [|cbn in H; intuition discriminate]. pose proof (print_z_chars z) as X. rewrite Forall_forall in X. destruct (X _ H) as [Y _]; now apply Y.
  - intros z _. split.
    + unfold read3. rewrite (strip_none (print_z z)) by apply print_z_chars. now rewrite read_print_z.
    + intros H. pose proof (print_z_chars z) as X. rewrite Forall_forall in X. destruct (X _ H) as [Y _]; now apply Y.
  - intros w H. cbn [In] in H. intuition; subst; reflexivity.
Qed.
Lemma plain_by_reading f t : all_some (map f (split_sp t)) = None -> plain f t.
Proof.
  intros E (ws & N & -> & H). rewrite split_concat in E; auto; [|eapply Forall_impl; [|exact H]; now intros w []].
  clear N. induction H as [|w ws [_ Hw] _ IH]; [discriminate|]. cbn [map all_some] in E. destruct (f w); [|congruence]. destruct (all_some (map f ws)); [discriminate|auto].
Qed.

(** A free base with an arm, a hand and a tool below the arm; the tool is listed after the hand. *)
Definition xlink (p : vec3) (r : quat) (g : list geometry) : plink unit :=
  mkPL (Tr p r) vzero (V3 1 1 1) tt (inertia_from_geometries g) t_zero t_zero.
Definition xbox : xgeom := mkXG (mkGeom 2 (Tr (V3 (1/2) 0 0) qone) (Box 1 (1/5) (1/5))) (Some (ColText "dustin_exp_blue")) (Some (ColNums [1; 0; 1/2]%R)).
Definition xcross : xgeom := mkXG (mkGeom 0 t_zero (XYZ (1/4))) None None.
Definition xdemo : xsys unit :=
  mkSys [-1; 0; 0; 1]%Z
    [xlink vzero qone [xg_geom xbox]; xlink (V3 1 0 0) (Q4 (3/5) (4/5) 0 0) [xg_geom xcross]; xlink (V3 0 1 0) qone [];
     mkPL (Tr (V3 0 0 1) qone) (V3 0 0 1) (V3 0 0 1) tt (inertia_from_geometries []) t_zero t_zero]
    ["free"; "ry"; "spherical"; "px"] (repeat (1/10)%R 11) (repeat 0%R 11) (repeat 3%R 11) [1;0;0;0;0;0;0;0;1;0;0;0;0]%R (1/100)%R
    [(0%Z, xbox); (1%Z, xcross)] [0; 0; 981/100]%R "semi_implicit_euler" 0 ["base"; "arm"; "hand"; "tool"] (Some "my robot")
    [None; Some (mkOmc "S 7" 4 (V3 0 (1/10) 0)); None; None].

Lemma xdemo_parsed : parsed builtin_widths xml_ops xdemo.
Proof.
  constructor.
  - constructor; try reflexivity.
    + cbn [xdemo link_names]. repeat constructor; cbn [In]; intuition discriminate.
    + unfold xdemo, topo. cbn [link_parents]. intros [|[|[|[|i]]]] p H; cbn in H; try (injection H as <-; lia). destruct i; discriminate.
    + cbn [xdemo geoms link_parents length]. repeat constructor; cbn; lia.
    + exists [7; 1; 4; 1]%nat, [6; 1; 3; 1]%nat. unfold have_widths. cbn [xdemo link_types].
      split; [repeat apply Forall2_cons; try reflexivity; apply Forall2_nil|].
      split; [repeat apply Forall2_cons; try reflexivity; apply Forall2_nil|]. repeat split.
  - intros i j x y g h L A B. cbn [xdemo geoms] in A, B.
    destruct i as [|[|i]]; cbn [nth_error] in A; try (destruct i; discriminate); injection A as <- _;
    destruct j as [|[|j]]; cbn [nth_error] in B; try (destruct j; discriminate); injection B as <- _; lia.
  - intros [|[|[|[|i]]]] l H; cbn [xdemo links nth_error] in H; try (destruct i; discriminate); injection H as <-; reflexivity.
  - exists (map (fun i => mkView
       (nth i (link_names xdemo) "") (nth i (link_types xdemo) "") (nth i (links xdemo) (xlink vzero qone [])) (nth i (omc xdemo) None)
       (P_Run.cut [6; 1; 3; 1] (link_damping xdemo) i) (P_Run.cut [6; 1; 3; 1] (link_armature xdemo) i) (P_Run.cut [6; 1; 3; 1] (link_spring_stiffness xdemo) i)
       (P_Run.cut [7; 1; 4; 1] (link_spring_zeropoint xdemo) i)) [0; 1; 2; 3]).
    split.
    + split; [reflexivity|]. split; [reflexivity|]. split; [reflexivity|]. split; [reflexivity|]. split; [reflexivity|].
      exists [7; 1; 4; 1], [6; 1; 3; 1]. split; [repeat apply Forall2_cons; try reflexivity; apply Forall2_nil|].
      split; [repeat apply Forall2_cons; try reflexivity; apply Forall2_nil|]. repeat (split; [split; reflexivity|]). split; reflexivity.
    + assert (POK : forall p r g, pos_ok xml_ops (xlink p r g) = true).
      { intros p r g. cbn [xml_ops phys_ops pos_ok xlink pl_pmin pl_pmax vzero vx vy vz]. unfold Rleb. destruct (Rle_dec 0 1); [reflexivity|lra]. }
      repeat apply Forall_cons; [..|apply Forall_nil]; (split; [try apply POK|]); cbn [v_type v_zeropoint nth xdemo link_types link_spring_zeropoint]; try (intros F; discriminate F).
      * intros _. exact (ol_one _ (@xml_laws unit) 3).
      * intros _. exact (ol_one _ (@xml_laws unit) 3).
      * cbn [v_link nth xdemo links xml_ops phys_ops pos_ok pl_pmin pl_pmax vx vy vz]. unfold Rleb. destruct (Rle_dec 0 0), (Rle_dec 1 1); try reflexivity; lra.
Qed.

Ltac nm := first [exists 0%Z; lra | exists 1000%Z; lra | exists 100%Z; lra | exists 500%Z; lra | exists 200%Z; lra | exists 250%Z; lra
                 | exists 2000%Z; lra | exists 3000%Z; lra | exists 10%Z; lra | exists 9810%Z; lra | exists 600%Z; lra | exists 800%Z; lra].
Lemma xdemo_saveable : saveable read3 num3d (fun _ => True) builtin_widths xdemo.
Proof.
  assert (PL : forall t, all_some (map read3 (split_sp t)) = None -> plain read3 t) by (intros t; apply plain_by_reading).
  constructor.
  - exact xdemo_parsed.
  - discriminate.
  - exists "my robot". split; [reflexivity|apply PL; reflexivity].
  - cbn [xdemo link_names]. repeat apply Forall_cons; try apply Forall_nil; apply PL; reflexivity.
  - cbn [xdemo link_types]. repeat apply Forall_cons; try apply Forall_nil; (split; [apply PL; reflexivity|discriminate]).
  - reflexivity.
  - split; reflexivity.
  - cbn [xdemo sys_dt gravity length]. split; [nm|]. split; [|lia]. repeat apply Forall_cons; try apply Forall_nil; nm.
  - cbn [xdemo link_damping link_armature link_spring_stiffness link_spring_zeropoint repeat].
    split; [|split; [|split]]; repeat apply Forall_cons; try apply Forall_nil; nm.
  - cbn [xdemo links]. unfold saveable_link, xlink, num_t, num3. cbn [pl_t1 pl_pmin pl_pmax t_pos t_rot vx vy vz qw qx qy qz vzero qone].
    repeat apply Forall_cons; try apply Forall_nil; cbn [pl_t1 pl_pmin pl_pmax t_pos t_rot vx vy vz qw qx qy qz vzero qone];
    (split; [|split; [|split]]); try (intros X; injection X; intros; exfalso; lra); try reflexivity; repeat split; nm.
  - cbn [xdemo geoms]. repeat apply Forall_cons; try apply Forall_nil; cbn [snd].
    + unfold saveable_geom, xbox, num_t, num3. cbn [xg_geom xg_color xg_edge g_shape g_mass g_transform t_pos t_rot vx vy vz qw qx qy qz vzero qone saveable_color length].
      split; [nm|]. split; [repeat split; nm|]. split; [apply PL; reflexivity|]. split; [split; [lia|repeat apply Forall_cons; try apply Forall_nil; nm]|].
      split; [nm|]. split; [nm|]. split; [nm|]. lra.
    + unfold saveable_geom, xcross. cbn [xg_geom g_shape]. split; [reflexivity|]. split; [nm|lra].
  - cbn [xdemo omc]. repeat apply Forall_cons; try apply Forall_nil; cbn [saveable_omc]; auto. unfold num3. cbn [o_name o_marker o_pos vx vy vz].
    split; [apply PL; reflexivity|]. split; [auto|]. repeat split; nm.
Qed.

Definition unit_init (ts : list string) : result (list unit) := Ok (map (fun _ => tt) ts).
Example C16_example : exists x s' order x', M_Xml.save builtin_widths print3 print_z xdemo = Ok x /\ M_Xml.load builtin_widths print_z read3 unit_init x = Ok s' /\
  reloaded builtin_widths unit_init xdemo s' order /\ s' <> xdemo /\
  M_Xml.save builtin_widths print3 print_z s' = Ok x' /\ M_Xml.load builtin_widths print_z read3 unit_init x' = Ok s'.
Proof.
  destruct (C16_twice builtin_widths print3 print_z read3 unit_init num3d (fun _ => True) faithful3) with (s := xdemo) as (x & s' & order & x' & A & B & C & D & E).
  { intros ts _. exists (map (fun _ => tt) ts). split; [reflexivity|now rewrite map_length]. } { exact xdemo_saveable. }
  exists x, s', order, x'. split; [exact A|]. split; [exact B|]. split; [exact C|]. split; [|auto].
  intros ->. pose proof (rl_depth_first _ _ _ _ _ C 2%nat 1%nat eq_refl) as X. cbn [xdemo link_parents] in X.
  inversion X as [H|i p H H1]; subst. cbn in H. injection H as H. assert (p = 0%nat) by lia. subst p.
  inversion H1 as [H2|i p H2 H3]; subst. cbn in H2. injection H2 as H2. lia.
Qed.
