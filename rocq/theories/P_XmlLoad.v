(** * The element of a link is read back as the row of that link; nested elements as the depth-first listing. *)
From Coq Require Import Reals Lra ZArith Lia String Ascii Bool List Permutation.
From Verif Require Import Prelude M_Sys M_Math M_Geom M_Joint M_Xml S_Sys S_Morph S_Xml P_Scan P_Sys P_Dfs P_XmlTree P_Xml.
Import ListNotations.
Local Open Scope string_scope.
Local Open Scope list_scope.

Fixpoint xml_rec {A} (P : xml A -> Prop) (H : forall t a ks, Forall P ks -> P (Elem t a ks)) (e : xml A) : P e :=
  match e with
  | Elem t a ks => H t a ks ((fix go (ks : list (xml A)) : Forall P ks :=
                                match ks with [] => Forall_nil _ | k :: r => Forall_cons k (xml_rec P H k) (go r) end) ks)
  end.

Lemma mix_nil e : mix [] [] e = e.
Proof.
  induction e as [t a ks IH] using xml_rec. cbn [mix].
  assert (X : map (mix [] []) ks = ks) by (induction IH as [|k r K _ IH]; cbn; congruence).
  rewrite X. f_equal. unfold with_defaults. cbn [filter]. rewrite app_nil_r. destruct (String.eqb t "body"), (String.eqb t "geom"); reflexivity.
Qed.

Lemma findall_app {A} t (a b : list (xml A)) : findall t (a ++ b) = findall t a ++ findall t b.
Proof. unfold findall. induction a as [|e a IH]; cbn; [reflexivity|]. destruct (String.eqb (x_tag e) t); cbn; now rewrite IH. Qed.
Lemma findall_all {A} t (l : list (xml A)) : Forall (fun e => x_tag e = t) l -> findall t l = l.
Proof. unfold findall. induction 1 as [|e l H _ IH]; cbn; [reflexivity|]. rewrite H, String.eqb_refl. now f_equal. Qed.
Lemma findall_none {A} t u (l : list (xml A)) : u <> t -> Forall (fun e => x_tag e = u) l -> findall t l = [].
Proof. intros N. unfold findall. induction 1 as [|e l H _ IH]; cbn; [reflexivity|]. rewrite H. apply String.eqb_neq in N. now rewrite N. Qed.

Section Load.
Context {J : Type}.
Variable W : widths.
Variable print : R -> string.
Variable print_int : Z -> string.
Variable float_of : string -> option R.
Variable num : R -> Prop.
Variable int : Z -> Prop.
Hypothesis F : faithful print print_int float_of num int.
Notation view := (link_view R (plink J) (option omc_link)).
Notation convert := (convert float_of).
Notation process_body := (process_body W print_int).
Notation process_bodies := (process_bodies W print_int).
Notation body_row := (body_row W print_int).

Lemma convert_tag e : x_tag (convert e) = x_tag e. Proof. now destruct e. Qed.
Lemma convert_attrs e : x_attrs (convert e) = cv float_of (x_attrs e). Proof. now destruct e. Qed.
Lemma convert_tags t l : Forall (fun e => x_tag e = t) l -> Forall (fun e => x_tag e = t) (map convert l).
Proof. intros H. apply Forall_map. eapply Forall_impl; [|exact H]. intros e E. cbn. now rewrite convert_tag. Qed.

(** The local recursion of process_body is process_bodies. *)
Lemma process_body_eq t a ks p idx : process_body (Elem t a ks) p idx =
  (do r <- body_row a ks p; do rs <- process_bodies ks (Z.of_nat idx) (S idx); Ok (r :: rs)).
Proof.
  cbn [M_Xml.process_body]. destruct (body_row a ks p) as [r|e]; cbn [bind]; [|reflexivity].
  assert (X : forall k, (fix go (ks : list (xml cval)) (k : nat) : result (list row) :=
                  match ks with
                  | [] => Ok []
                  | c :: cs => if String.eqb (x_tag c) "body" then
                        do r1 <- process_body c (Z.of_nat idx) k; do r2 <- go cs (k + length r1)%nat; Ok (r1 ++ r2)
                      else go cs k
                  end) ks k = process_bodies ks (Z.of_nat idx) k).
  { induction ks as [|c cs IH]; intros k; [reflexivity|]. cbn [M_Xml.process_bodies].
    destruct (String.eqb (x_tag c) "body"); [|apply IH]. destruct (process_body c (Z.of_nat idx) k); cbn [bind]; [|reflexivity]. now rewrite IH. }
  now rewrite X.
Qed.
Lemma process_skip t l r p idx : t <> "body" -> Forall (fun e => x_tag e = t) l -> process_bodies (l ++ r) p idx = process_bodies r p idx.
Proof.
  intros N. induction 1 as [|e l H _ IH]; [reflexivity|]. cbn [app M_Xml.process_bodies]. rewrite H.
  apply String.eqb_neq in N. now rewrite N.
Qed.

(** What is read for the view [v] of a link with geometries [gs] and parent [p]. *)
Definition row_of (v : view) (gs : list xgeom) (p : Z) : row :=
  mkRow p (v_type v) (v_name v) (pl_t1 (v_link v)) (pl_pmin (v_link v)) (pl_pmax (v_link v)) (v_omc v)
    (v_damping v) (v_armature v) (v_stiffness v) (v_zeropoint v) gs.

Definition saveable_view (v : view) : Prop :=
  plain float_of (v_name v) /\ plain float_of (v_type v) /\ v_type v <> "cor" /\ saveable_link num (v_link v) /\
  saveable_omc float_of num int (v_omc v) /\
  Forall num (v_damping v) /\ Forall num (v_armature v) /\ Forall num (v_stiffness v) /\ Forall num (v_zeropoint v).

Definition body_attrs (v : view) (qn dn : nat) : list (string * string) :=
  [("joint", v_type v); ("name", v_name v)] ++ trans_attrs print (pl_t1 (v_link v))
  ++ minmax_attrs print (pl_pmin (v_link v)) (pl_pmax (v_link v))
  ++ dasz_attrs print (v_damping v) (v_armature v) (v_stiffness v) (v_zeropoint v) qn dn (v_type v).
Definition body_kids (v : view) (gs : list xgeom) (bodies : list (xml string)) : list (xml string) :=
  map (geom_elem print) gs ++ match v_omc v with None => [] | Some o => [omc_elem print print_int o] end ++ bodies.

Lemma geom_tags gs : Forall (fun e => x_tag e = "geom") (map (geom_elem print) gs).
Proof. apply Forall_map. apply Forall_forall. reflexivity. Qed.
Lemma omc_tags o : Forall (fun e => x_tag e = "omc") (match o with None => [] | Some o => [omc_elem print print_int o] end).
Proof. destruct o; repeat constructor. Qed.

Ltac lk := rewrite ?lookup_app, ?lookup_if, ?lookup_if2, ?lookup_cons, ?lookup_nil; cbn [String.eqb Ascii.eqb Bool.eqb].
Ltac lkd := lk; repeat match goal with |- context [leqb ?a ?b] => destruct (leqb a b) end; reflexivity.

Lemma default_zeropoint_length qn typ : length (default_zeropoint qn typ) = qn.
Proof. unfold default_zeropoint. destruct (is_free_or_cor_or_spherical typ), qn; cbn; rewrite ?repeat_length; reflexivity. Qed.

Lemma read_body v gs bodies p qn dn :
  saveable_view v -> Forall (saveable_geom float_of num) gs -> Forall (fun e => x_tag e = "body") bodies ->
  qW W (v_type v) = Some qn -> dW W (v_type v) = Some dn ->
  length (v_damping v) = dn -> length (v_armature v) = dn -> length (v_stiffness v) = dn -> length (v_zeropoint v) = qn ->
  body_row (cv float_of (body_attrs v qn dn)) (map convert (body_kids v gs bodies)) p = Ok (row_of v gs p).
Proof.
  intros (PN & PT & NC & (NT & N1 & N2 & EQ) & SO & ND & NA & NS & NZ) SG TB QW DW LD LA LS LZ.
  unfold body_row. rewrite !(aget_cv float_of). unfold body_attrs, trans_attrs, minmax_attrs, dasz_attrs, arr_attr.
  lk. cbn [option_map]. rewrite (conv_plain float_of) by auto. cbn [as_text bind].
  apply String.eqb_neq in NC. rewrite NC. cbn [bind]. rewrite (conv_plain float_of) by auto. cbn [bind].
  rewrite (read_trans print print_int float_of num int F _ (pl_t1 (v_link v))); auto; [|unfold pos_val, quat_val; lkd..]. cbn [bind].
  rewrite (read_minmax print print_int float_of num int F _ (pl_pmin (v_link v)) (pl_pmax (v_link v))); auto; [|lkd..]. cbn [bind].
  unfold body_kids. rewrite !map_app, !findall_app.
  rewrite (findall_none "omc" "geom" (map convert (map _ gs))) by (try discriminate; apply convert_tags, geom_tags).
  rewrite (findall_all "omc" (map convert (match v_omc v with _ => _ end))) by (apply convert_tags, omc_tags).
  rewrite (findall_none "omc" "body" (map convert bodies)) by (try discriminate; now apply convert_tags).
  rewrite (findall_all "geom" (map convert (map _ gs))) by (apply convert_tags, geom_tags).
  rewrite (findall_none "geom" "omc" (map convert (match v_omc v with _ => _ end))) by (try discriminate; apply convert_tags, omc_tags).
  rewrite (findall_none "geom" "body" (map convert bodies)) by (try discriminate; now apply convert_tags).
  rewrite !app_nil_r. cbn [app].
  assert (RO : match map convert (match v_omc v with None => [] | Some o => [omc_elem print print_int o] end) with
               | [] => Ok None
               | [x] => do o <- get_omc (x_attrs x); Ok (Some o)
               | _ => Err EOther end = Ok (v_omc v)).
  { destruct (v_omc v) as [o|]; [|reflexivity]. cbn [map]. rewrite convert_attrs.
    rewrite (read_omc print print_int float_of num int F) by auto. reflexivity. }
  rewrite RO. cbn [bind]. unfold wget. rewrite QW, DW. cbn [bind].
  rewrite (read_arr print print_int float_of num int F _ "damping" (v_damping v)); auto; [|now rewrite repeat_length|lkd]. cbn [bind].
  rewrite (read_arr print print_int float_of num int F _ "armature" (v_armature v)); auto; [|now rewrite repeat_length|lkd]. cbn [bind].
  rewrite (read_arr print print_int float_of num int F _ "spring_stiff" (v_stiffness v)); auto; [|now rewrite repeat_length|lkd]. cbn [bind].
  rewrite (read_arr print print_int float_of num int F _ "spring_zero" (v_zeropoint v)); auto; [|now rewrite default_zeropoint_length|lkd]. cbn [bind].
  assert (RG : mapM (fun g => get_geom (x_attrs g)) (map convert (map (geom_elem print) gs)) = Ok gs).
  { clear - SG F. induction SG as [|g gs H _ IH]; [reflexivity|]. cbn [map mapM]. rewrite convert_attrs.
    rewrite (read_geom print print_int float_of num int F) by auto. cbn [bind]. rewrite IH. reflexivity. }
  rewrite RG. reflexivity.
Qed.

(** Everything written is allowed in a file. *)
Lemma valid_if (c : bool) k v ok : memS k ok = true -> forallb (fun kv : string * string => memS (fst kv) ok) (if c then [] else [(k, v)]) = true.
Proof. intros H. destruct c; cbn; now rewrite ?H. Qed.
Lemma geom_valid g : all_valid (geom_elem print g) = true.
Proof.
  unfold geom_elem. cbn [all_valid valid_attrs dget String.eqb Ascii.eqb Bool.eqb forallb]. rewrite andb_true_r.
  destruct g as [[m t sh] c e]. unfold common_attrs, trans_attrs. cbn [xg_geom g_shape xg_color xg_edge].
  destruct sh; rewrite ?forallb_app, ?valid_if by reflexivity; destruct c, e; reflexivity.
Qed.
Lemma omc_valid o : all_valid (omc_elem print print_int o) = true.
Proof. unfold omc_elem. cbn [all_valid valid_attrs dget String.eqb Ascii.eqb Bool.eqb forallb]. rewrite forallb_app, valid_if by reflexivity. reflexivity. Qed.
Lemma body_valid v gs bodies qn dn : Forall (fun e => all_valid e = true) bodies ->
  all_valid (Elem "body" (body_attrs v qn dn) (body_kids v gs bodies)) = true.
Proof.
  intros H. cbn [all_valid valid_attrs dget String.eqb Ascii.eqb Bool.eqb]. apply andb_true_intro. split.
  - unfold body_attrs, trans_attrs, minmax_attrs, dasz_attrs, arr_attr. rewrite !forallb_app, !valid_if by reflexivity.
    destruct (leqb (v3_list (pl_pmin (v_link v))) _); reflexivity.
  - unfold body_kids. rewrite !forallb_app. repeat (apply andb_true_intro; split).
    + apply forallb_forall. intros e He. apply in_map_iff in He. destruct He as (g & <- & _). apply geom_valid.
    + destruct (v_omc v); [|reflexivity]. cbn [forallb]. now rewrite omc_valid.
    + apply forallb_forall. intros e He. rewrite Forall_forall in H. now apply H.
Qed.

(** ** Index maps *)
Lemma fold_dset_NoDup {V} (l : list (string * V)) : forall d, NoDup (map fst (d ++ l)) ->
  fold_left (fun d ns => dset String.eqb d (fst ns) (snd ns)) l d = d ++ l.
Proof.
  assert (X : forall (d : list (string * V)) k v, ~ In k (map fst d) -> dset String.eqb d k v = d ++ [(k, v)]).
  { induction d as [|[k' v'] d IH]; intros k v N; cbn [dset app]; [reflexivity|]. cbn [map fst] in N.
    destruct (String.eqb_spec k k') as [->|]; [exfalso; apply N; now left|]. f_equal. apply IH. intros Y. apply N. now right. }
  induction l as [|[k v] l IH]; intros d N; cbn [fold_left fst snd]; [now rewrite app_nil_r|].
  rewrite X, IH, <- app_assoc; auto.
  - now rewrite <- app_assoc.
  - rewrite map_app in N. cbn [map fst] in N. apply NoDup_remove_2 in N. intros Y. apply N. apply in_app_iff. now left.
Qed.
Lemma dget_combine {V} (ns : list string) (vs : list V) i n v : NoDup ns -> nth_error ns i = Some n -> nth_error vs i = Some v ->
  dget String.eqb (combine ns vs) n = Some v.
Proof.
  revert vs i. induction ns as [|m ns IH]; intros vs i ND En Ev; [destruct i; discriminate|]. inversion ND as [|? ? N1 N2]; subst.
  destruct vs as [|w vs]; [destruct i; discriminate|]. cbn [combine dget]. destruct i as [|i]; cbn in En, Ev.
  - injection En as ->. injection Ev as ->. now rewrite String.eqb_refl.
  - destruct (String.eqb_spec n m) as [->|]; [exfalso; apply N1; eapply nth_error_In; eauto|]. eauto.
Qed.

Lemma nth_split_slice {V} (ws : list nat) (xs : list V) ps i p w : splits ws xs ps -> nth_error ps i = Some p -> nth_error ws i = Some w ->
  exists sl, nth_error (slices_from 0 ws) i = Some sl /\ take_slice xs sl = p.
Proof.
  intros S Ep Ew. apply splits_iff in S. destruct S as [_ ->].
  pose proof (map_take_slices ws 0 xs) as M. cbn [skipn] in M. rewrite <- M in Ep. rewrite nth_error_map in Ep.
  destruct (nth_error (slices_from 0 ws) i) as [sl|]; [|discriminate]. injection Ep as Ep. eauto.
Qed.

Section System.
Variable s : xsys J.
Variable vs : list view.
Hypothesis PS : parsed W xml_ops s.
Hypothesis V : views W s vs.
Hypothesis SV : Forall saveable_view vs.
Hypothesis SG : Forall (fun g => saveable_geom float_of num (snd g)) (geoms s).
Notation np := (link_parents s).
Notation n := (length np).

Definition no_row : row := mkRow 0 "" "" t_zero vzero vzero None [] [] [] [] [].
Definition rowf (ip : nat * Z) : row :=
  match nth_error vs (fst ip) with
  | Some v => row_of v (attached (Z.of_nat (fst ip)) (geoms s)) (snd ip)
  | None => no_row
  end.

Lemma attached_saveable z : Forall (saveable_geom float_of num) (attached z (geoms s)).
Proof.
  generalize SG. generalize (geoms s). intros l H. induction H as [|[y g] r H _ IH]; cbn [attached]; [constructor|]. destruct (Z.eq_dec y z); [constructor|]; auto.
Qed.

Lemma dicts : exists mq md, idx_dict (qW W) s = Ok mq /\ idx_dict (dW W) s = Ok md /\
  forall i v, nth_error vs i = Some v -> exists sq sd qn dn,
    dgetE String.eqb mq (v_name v) = Ok sq /\ dgetE String.eqb md (v_name v) = Ok sd /\
    qW W (v_type v) = Some qn /\ dW W (v_type v) = Some dn /\
    take_slice (link_damping s) sd = v_damping v /\ take_slice (link_armature s) sd = v_armature v /\
    take_slice (link_spring_stiffness s) sd = v_stiffness v /\ take_slice (link_spring_zeropoint s) sq = v_zeropoint v /\
    length (v_damping v) = dn /\ length (v_armature v) = dn /\ length (v_stiffness v) = dn /\ length (v_zeropoint v) = qn.
Proof.
  pose proof (pd_wf _ _ _ PS) as WF. destruct (views_lengths W _ _ V) as (L1 & L2 & L3 & L4 & L5).
  pose proof V as (A1 & A2 & A3 & A4 & A5 & qs & ds & Q & D & A6 & A7 & A8 & A9).
  pose proof (wf_unique _ _ WF) as ND.
  assert (X : forall w ws, have_widths w (link_types s) ws -> idx_dict w s = Ok (combine (link_names s) (slices_from 0 ws))).
  { intros w ws H. unfold idx_dict. rewrite L3, Nat.eqb_refl. cbn [assert_ bind].
    rewrite (proj2 (idx_slices_spec w s (slices_from 0 ws) L1)) by eauto. cbn [bind]. f_equal.
    rewrite fold_dset_NoDup; [reflexivity|]. cbn [app].
    assert (L : length (link_names s) = length (slices_from 0 ws)).
    { rewrite slices_from_length. apply have_widths_length in H. lia. }
    revert ND L. clear. generalize (slices_from 0 ws) as l. induction (link_names s) as [|m ns IH]; intros [|x l] ND L; try discriminate; [constructor|].
    cbn [combine map fst]. inversion ND as [|? ? N1 N2]; subst. constructor.
    - intros Y. apply N1. apply in_map_iff in Y. destruct Y as ((a & b) & E & Y). cbn in E. subst a. eapply in_combine_l; eauto.
    - apply IH; auto. }
  exists (combine (link_names s) (slices_from 0 qs)), (combine (link_names s) (slices_from 0 ds)).
  split; [now apply X|]. split; [now apply X|]. intros i v Ev.
  assert (En : nth_error (link_names s) i = Some (v_name v)) by (rewrite A1, nth_error_map, Ev; reflexivity).
  assert (Et : nth_error (link_types s) i = Some (v_type v)) by (rewrite A2, nth_error_map, Ev; reflexivity).
  assert (G : forall w ws, have_widths w (link_types s) ws -> exists m, nth_error ws i = Some m /\ w (v_type v) = Some m).
  { intros w ws H. unfold have_widths in H. clear - H Et. revert i Et. induction H as [|t m ts ms H _ IH]; intros [|i] E; cbn in *; try discriminate; [injection E as ->; eauto|eauto]. }
  destruct (G _ _ Q) as (qn & Eq & WQ). destruct (G _ _ D) as (dn & Ed & WD).
  assert (LEN : forall (f : view -> list R) ws xs m, splits ws xs (map f vs) -> nth_error ws i = Some m -> length (f v) = m).
  { intros f ws xs m [B _] E. rewrite <- B, nth_error_map, nth_error_map, Ev in E. cbn in E. congruence. }
  destruct (nth_split_slice ds _ _ i (v_damping v) dn A6 ltac:(rewrite nth_error_map, Ev; reflexivity) Ed) as (sd & Esd & T1).
  destruct (nth_split_slice ds _ _ i (v_armature v) dn A7 ltac:(rewrite nth_error_map, Ev; reflexivity) Ed) as (sd2 & Esd2 & T2).
  destruct (nth_split_slice ds _ _ i (v_stiffness v) dn A8 ltac:(rewrite nth_error_map, Ev; reflexivity) Ed) as (sd3 & Esd3 & T3).
  destruct (nth_split_slice qs _ _ i (v_zeropoint v) qn A9 ltac:(rewrite nth_error_map, Ev; reflexivity) Eq) as (sq & Esq & T4).
  assert (sd2 = sd) by congruence. assert (sd3 = sd) by congruence. subst sd2 sd3.
  exists sq, sd, qn, dn. unfold dgetE. rewrite (dget_combine _ _ _ _ _ ND En Esq), (dget_combine _ _ _ _ _ ND En Esd).
  pose proof (LEN _ _ _ _ A6 Ed). pose proof (LEN _ _ _ _ A7 Ed). pose proof (LEN _ _ _ _ A8 Ed). pose proof (LEN _ _ _ _ A9 Eq).
  auto 20.
Qed.

Lemma level_roundtrip mq md : idx_dict (qW W) s = Ok mq -> idx_dict (dW W) s = Ok md ->
  forall k z lb, at_level np z lb -> (n < k + length lb)%nat ->
  exists es, mapM (link_elem W print print_int s mq md k) (kids np z) = Ok es /\
    Forall (fun e => x_tag e = "body") es /\ Forall (fun e => all_valid e = true) es /\
    forall p idx, process_bodies (map convert es) p idx = Ok (map rowf (number np k (kids np z) p idx)).
Proof.
  intros EQ ED. destruct dicts as (mq' & md' & EQ' & ED' & DC). assert (mq' = mq) by congruence. assert (md' = md) by congruence. subst mq' md'.
  destruct (views_lengths W _ _ V) as (L1 & L2 & L3 & L4 & L5).
  pose proof V as (A1 & A2 & A3 & A4 & A5 & _).
  induction k as [|k IHk]; intros z lb AL HN.
  { pose proof (at_level_length _ _ _ AL). lia. }
  assert (X : forall is, (forall i, In i is -> nth_error np i = Some z) ->
    exists es, mapM (link_elem W print print_int s mq md (S k)) is = Ok es /\
      Forall (fun e => x_tag e = "body") es /\ Forall (fun e => all_valid e = true) es /\
      forall p idx, process_bodies (map convert es) p idx = Ok (map rowf (number np (S k) is p idx))).
  { induction is as [|i r IH]; intros Hi.
    - exists []. repeat split; constructor.
    - destruct IH as (es & E1 & E2 & E3 & E4); [intros j Hj; apply Hi; now right|].
      assert (Ei : nth_error np i = Some z) by (apply Hi; now left).
      destruct (IHk (Z.of_nat i) (i :: lb)) as (ks & K1 & K2 & K3 & K4); [eapply at_level_child; eauto|cbn [length]; lia|].
      assert (Li : (i < n)%nat) by (apply nth_error_Some; congruence).
      destruct (nth_error vs i) as [v|] eqn:Ev; [|apply nth_error_None in Ev; unfold num_links in L5; lia].
      destruct (DC i v Ev) as (sq & sd & qn & dn & Q1 & Q2 & Q3 & Q4 & T1 & T2 & T3 & T4 & N1 & N2 & N3 & N4).
      assert (SVv : saveable_view v) by (rewrite Forall_forall in SV; apply SV; eapply nth_error_In; eauto).
      exists (Elem "body" (body_attrs v qn dn) (body_kids v (attached (Z.of_nat i) (geoms s)) ks) :: es).
      split; [|split; [constructor; auto|split; [constructor; auto; now apply body_valid|]]].
      + cbn [mapM]. rewrite E1. cbn [link_elem]. unfold get_nat.
        rewrite A1, A2, A3, A4, !nth_error_map, Ev. cbn [option_map bind]. rewrite Q1, Q2. cbn [bind].
        unfold wget. rewrite Q3, Q4. cbn [bind]. unfold kids in K1. rewrite K1. cbn [bind].
        rewrite T1, T2, T3, T4, geoms_of_link_attached. reflexivity.
      + intros p idx. cbn [map M_Xml.process_bodies M_Xml.convert x_tag]. cbn [String.eqb Ascii.eqb Bool.eqb].
        change (map (fun kv => (fst kv, conv float_of (snd kv))) (body_attrs v qn dn)) with (cv float_of (body_attrs v qn dn)).
        rewrite process_body_eq, read_body; auto; [|apply attached_saveable]. cbn [bind].
        unfold body_kids. rewrite !map_app.
        rewrite (process_skip "geom") by (try discriminate; apply convert_tags, geom_tags).
        rewrite (process_skip "omc") by (try discriminate; apply convert_tags, omc_tags).
        rewrite K4. cbn [bind]. rewrite E4. cbn [bind]. rewrite number_cons. cbn zeta. cbn [map]. rewrite map_app. cbn [length]. rewrite !map_length.
        
        assert (RR : rowf (i, p) = row_of v (attached (Z.of_nat i) (geoms s)) p) by (unfold rowf; cbn [fst snd]; now rewrite Ev).
        rewrite RR, Nat.add_succ_r. reflexivity. }
  apply X. intros i. apply in_kids.
Qed.
End System.
End Load.
