(** * Proofs about injecting soft IMU attachments (C47). *)
From Coq Require Import Reals Lra ZArith String Ascii Lia Bool List Permutation.
From Verif Require Import Prelude M_Sys M_Compose M_Math M_Geom M_Xml M_Pd S_Sys S_Morph P_Scan P_Sys P_Delete P_Delete2 P_Update P_Inject P_History P_Pd
  S_Xml P_Xml P_XmlTree P_XmlLoad C_Xml M_Artifact S_Artifact P_Morph M_Joint.
Import ListNotations.
Local Open Scope string_scope.
Local Open Scope list_scope.

(** ** Lists *)
Lemma nth_error_list_set {A} (l : list A) i a j : (i < length l)%nat -> nth_error (list_set l i a) j = if Nat.eq_dec j i then Some a else nth_error l j.
Proof.
  revert i j. induction l as [|x l IH]; intros [|i] [|j] H; cbn [list_set nth_error length] in *; try lia.
  - reflexivity.
  - destruct (Nat.eq_dec (S j) 0); [lia|reflexivity].
  - destruct (Nat.eq_dec 0 (S i)); [lia|reflexivity].
  - rewrite IH by lia. destruct (Nat.eq_dec j i), (Nat.eq_dec (S j) (S i)); try lia; reflexivity.
Qed.
Lemma map_list_set {A B} (f : A -> B) (l : list A) i a : map f (list_set l i a) = list_set (map f l) i (f a).
Proof. revert i. induction l as [|x l IH]; intros [|i]; cbn [list_set map]; [reflexivity..|]. now rewrite IH. Qed.
Lemma list_set_same {A} (l : list A) i a : nth_error l i = Some a -> list_set l i a = l.
Proof. revert i. induction l as [|x l IH]; intros [|i] E; cbn in *; try discriminate; [congruence|]. now rewrite IH. Qed.
Lemma list_set_app {A} (l l' : list A) i a : (i < length l)%nat -> list_set (l ++ l') i a = list_set l i a ++ l'.
Proof. revert i. induction l as [|x l IH]; intros [|i] H; cbn in *; try lia; [reflexivity|]. now rewrite IH by lia. Qed.
Lemma split_at {A} (l : list A) i a : nth_error l i = Some a -> l = firstn i l ++ a :: skipn (S i) l.
Proof. revert i. induction l as [|x l IH]; intros [|i] E; cbn in *; try discriminate; [congruence|]. f_equal. auto. Qed.
Lemma list_set_split {A} (l : list A) i a : (i < length l)%nat -> list_set l i a = firstn i l ++ a :: skipn (S i) l.
Proof. revert i. induction l as [|x l IH]; intros [|i] H; cbn in *; try lia; [reflexivity|]. f_equal. apply IH. lia. Qed.
Lemma concat_length {A} (ps : list (list A)) : length (concat ps) = list_sum (map (@length A) ps).
Proof. induction ps as [|p ps IH]; [reflexivity|]. cbn. now rewrite app_length, IH. Qed.

Lemma nth_skipn {A} k : forall (l : list A) j, nth_error (skipn k l) j = nth_error l (k + j).
Proof. induction k as [|k IH]; intros [|x l] j; cbn; auto. now destruct j. Qed.
Lemma nth_firstn {A} k : forall (l : list A) j, (j < k)%nat -> nth_error (firstn k l) j = nth_error l j.
Proof. induction k as [|k IH]; intros [|x l] [|j] H; cbn; auto; try lia. apply IH. lia. Qed.

(** Writing the piece of one link. *)
Lemma set_slice_piece ws xs ps i p v : splits ws xs ps -> nth_error ps i = Some p -> length v = length p ->
  exists sl, nth_error (slices_from 0 ws) i = Some sl /\ set_slice xs sl v = Ok (concat (list_set ps i v)) /\ splits ws (concat (list_set ps i v)) (list_set ps i v).
Proof.
  intros [A B] E L.
  assert (Ew : nth_error ws i = Some (length p)) by (rewrite <- A, nth_error_map, E; reflexivity).
  assert (Li : (i < length ps)%nat) by (apply nth_error_Some; congruence).
  eexists. split; [apply (nth_slices_from ws 0 i _ Ew)|]. cbn [Nat.add]. split.
  - rewrite (list_set_split ps i v Li). rewrite <- B. rewrite (split_at ps i p E) at 1. rewrite !concat_app. cbn [concat].
    replace (list_sum (firstn i ws)) with (length (concat (firstn i ps))) by (rewrite concat_length, <- A; now rewrite firstn_map).
    now apply set_slice_mid.
  - split; [|reflexivity]. rewrite map_list_set, L, A. now apply list_set_same.
Qed.

Lemma is_imu_name_spec n : is_imu_name n = true <-> imu_name n.
Proof.
  unfold is_imu_name, prefix_eqb, imu_name. split.
  - intros H. apply String.eqb_eq in H. destruct n as [|a [|b [|c r]]]; cbn in H; try discriminate. exists r. injection H as -> -> ->. destruct r; reflexivity.
  - intros (r & ->). apply String.eqb_eq. destruct r; reflexivity.
Qed.
Lemma ref_not_imu n : ~ imu_name (String "_" n).
Proof. intros (r & H). discriminate. Qed.

(** ** Views *)
Section Views.
Context {J : Type}.
Variable W : widths.
Notation view := (link_view R (plink J) (option omc_link)).

Lemma idx_dict_spec w (s : xsys J) ws : length (link_names s) = num_links s -> length (link_types s) = num_links s -> NoDup (link_names s) ->
  have_widths w (link_types s) ws -> idx_dict w s = Ok (combine (link_names s) (slices_from 0 ws)).
Proof.
  intros L3 L1 ND H. unfold idx_dict. rewrite L3, Nat.eqb_refl. cbn [assert_ bind].
  rewrite (proj2 (idx_slices_spec w s (slices_from 0 ws) L1)) by eauto. cbn [bind]. f_equal.
  rewrite fold_dset_NoDup; [reflexivity|]. cbn [app].
  assert (L : length (link_names s) = length (slices_from 0 ws)).
  { rewrite slices_from_length. apply have_widths_length in H. lia. }
  revert ND L. clear. generalize (slices_from 0 ws) as l. induction (link_names s) as [|m ns IH]; intros [|x l] ND L; try discriminate; [constructor|].
  cbn [combine map fst]. inversion ND as [|? ? N1 N2]; subst. constructor.
  - intros Y. apply N1. apply in_map_iff in Y. destruct Y as ((a & b) & E & Y). cbn in E. subst a. eapply in_combine_l; eauto.
  - apply IH; auto.
Qed.

Lemma at_name_list_set (vs : list view) f i v : NoDup (map v_name vs) -> nth_error vs i = Some v -> map (at_name (v_name v) f) vs = list_set vs i (f v).
Proof.
  intros ND E. assert (Li : (i < length vs)%nat) by (apply nth_error_Some; congruence).
  apply nth_error_ext. intros j. rewrite nth_error_map, nth_error_list_set by auto.
  destruct (Nat.eq_dec j i) as [->|N].
  - rewrite E. cbn. unfold at_name. now rewrite String.eqb_refl.
  - destruct (nth_error vs j) as [u|] eqn:Eu; [|reflexivity]. cbn. unfold at_name. destruct (String.eqb_spec (v_name u) (v_name v)) as [X|X]; [|reflexivity].
    exfalso. apply N. eapply (NoDup_nth_error_inj _ j i (v_name v) ND); rewrite nth_error_map; [rewrite Eu|rewrite E]; cbn; congruence.
Qed.

Definition set_v_name (n : string) (v : view) : view :=
  mkView n (v_type v) (v_link v) (v_omc v) (v_damping v) (v_armature v) (v_stiffness v) (v_zeropoint v).
Definition set_v_sd (st d : list R) (v : view) : view :=
  mkView (v_name v) (v_type v) (v_link v) (v_omc v) d (v_armature v) st (v_zeropoint v).

Lemma change_name_views (s : xsys J) vs i v new : parsed W xml_ops s -> views W s vs -> nth_error vs i = Some v -> ~ In new (link_names s) ->
  exists s', change_link_name s (v_name v) new = Ok s' /\ parsed W xml_ops s' /\ views W s' (list_set vs i (set_v_name new v)) /\
    link_parents s' = link_parents s /\ geoms s' = geoms s /\ link_types s' = link_types s /\ sys_dt s' = sys_dt s /\ gravity s' = gravity s /\
    integration_method s' = integration_method s /\ mass_mat_iters s' = mass_mat_iters s /\ model_name s' = model_name s.
Proof.
  intros P V E N. pose proof (wf_unique _ _ (pd_wf _ _ _ P)) as ND. destruct (views_lengths W _ _ V) as (L1 & L2 & L3 & L4 & L5).
  assert (Li : (i < length vs)%nat) by (apply nth_error_Some; congruence).
  assert (En : nth_error (link_names s) i = Some (v_name v)) by (destruct V as (-> & _); rewrite nth_error_map, E; reflexivity).
  unfold change_link_name, name_to_idx. rewrite (proj2 (indexS_NoDup _ _ i ND) En). cbn [bind]. eexists. split; [reflexivity|].
  split; [apply rename_keeps_parsed; auto; [now rewrite length_list_set|apply NoDup_list_set; auto]|].
  split; [|cbn; auto 20].
  pose proof (views_rename W s vs (list_set (link_names s) i new) V ltac:(rewrite length_list_set; lia)) as X.
  match type of X with views _ _ ?l => replace (list_set vs i (set_v_name new v)) with l; [exact X|] end.
  apply nth_error_ext. intros j. rewrite nth_error_map, nth_error_list_set by auto.
  destruct (Nat.eq_dec j i) as [->|Nj].
  - rewrite (nth_combine _ _ i new v); auto. rewrite nth_error_list_set by lia. now destruct (Nat.eq_dec i i).
  - destruct (nth_error vs j) as [u|] eqn:Eu.
    + rewrite (nth_combine _ _ j (v_name u) u); auto; [destruct u; reflexivity|]. rewrite nth_error_list_set by lia. destruct (Nat.eq_dec j i); [lia|].
      destruct V as (-> & _). now rewrite nth_error_map, Eu.
    + assert (X1 : nth_error (combine (list_set (link_names s) i new) vs) j = None) by (apply nth_error_None; rewrite combine_length; apply nth_error_None in Eu; lia).
      now rewrite X1.
Qed.

Lemma set_stif_damp_views (s : xsys J) vs i v st d : parsed W xml_ops s -> views W s vs -> nth_error vs i = Some v ->
  length st = length (v_stiffness v) -> length d = length (v_damping v) ->
  exists md sl st' d', idx_dict (dW W) s = Ok md /\ dgetE String.eqb md (v_name v) = Ok sl /\ set_slice (link_spring_stiffness s) sl st = Ok st' /\
    set_slice (link_damping s) sl d = Ok d' /\ parsed W xml_ops (set_stif_damp s st' d') /\ views W (set_stif_damp s st' d') (list_set vs i (set_v_sd st d v)).
Proof.
  intros P V E Ls Ld. pose proof (wf_unique _ _ (pd_wf _ _ _ P)) as ND. destruct (views_lengths W _ _ V) as (L1 & L2 & L3 & L4 & L5).
  assert (Li : (i < length vs)%nat) by (apply nth_error_Some; congruence).
  pose proof V as (A1 & A2 & A3 & A4 & A5 & qs & ds & Q & D & A6 & A7 & A8 & A9).
  destruct (set_slice_piece ds _ _ i (v_stiffness v) st A8) as (sl & E1 & E2 & E3); [rewrite nth_error_map, E; reflexivity|auto|].
  destruct (set_slice_piece ds _ _ i (v_damping v) d A6) as (sl' & F1 & F2 & F3); [rewrite nth_error_map, E; reflexivity|auto|].
  assert (sl' = sl) by congruence. subst sl'.
  do 4 eexists. split; [apply idx_dict_spec; eauto|]. split.
  { unfold dgetE. rewrite (dget_combine _ _ i (v_name v) sl); auto. rewrite A1, nth_error_map, E. reflexivity. }
  split; [exact E2|]. split; [exact F2|].
  assert (VV : views W (set_stif_damp s (concat (list_set (map v_stiffness vs) i st)) (concat (list_set (map v_damping vs) i d))) (list_set vs i (set_v_sd st d v))).
  { unfold views, set_stif_damp. cbn [link_names link_types links omc link_parents link_damping link_armature link_spring_stiffness link_spring_zeropoint].
    rewrite length_list_set, !map_list_set. cbn [set_v_sd v_name v_type v_link v_omc v_damping v_armature v_stiffness v_zeropoint].
    assert (X : forall {B} (f : view -> B), list_set (map f vs) i (f v) = map f vs) by (intros B f; apply list_set_same; now rewrite nth_error_map, E).
    rewrite !X. repeat (split; [assumption|]). exists qs, ds. auto 10. }
  split; [|exact VV]. destruct P as [WF HS HI (us & U & FV)]. assert (us = vs) by (eapply views_unique; eauto). subst us.
  constructor; auto.
  - destruct WF as [w1 w2 w3 w4 w5 w6 w7 w8]. constructor; auto. exists qs, ds. apply splits_length in E3, F3, A7, A9. cbn. auto 10.
  - exists (list_set vs i (set_v_sd st d v)). split; auto. rewrite Forall_forall in *. intros u Hu. apply In_nth_error in Hu. destruct Hu as [j Hj].
    rewrite nth_error_list_set in Hj by auto. destruct (Nat.eq_dec j i).
    + injection Hj as <-. apply nth_error_In in E. destruct (FV v E) as [X Y]. split; auto.
    + apply nth_error_In in Hj. auto.
Qed.
End Views.

(** ** The injected subsystem *)
Section Inject.
Context {J : Type}.
Variable W : widths.
Variable print : R -> string.
Variable print_int : Z -> string.
Variable float_of : string -> option R.
Variable jinit : list string -> result (list J).
Variable registered has_init : string -> bool.
Variable reload : xsys J -> result (xsys J).
Variable jpad : list J -> J -> J.
Variable jzero : J -> J.
Variable num : R -> Prop.
Variable int : Z -> Prop.
Hypothesis F : faithful print print_int float_of num int.
Hypothesis JI : forall ts, Forall (fun t => qW W t <> None) ts -> exists ps, jinit ts = Ok ps /\ length ps = length ts.
Hypothesis WD : qW W "p3d" = Some 3%nat /\ dW W "p3d" = Some 3%nat /\ qW W "spherical" = Some 4%nat /\ dW W "spherical" = Some 3%nat /\
  qW W "frozen" = Some 0%nat /\ dW W "frozen" = Some 0%nat.
Hypothesis WORDS : plain float_of "p3d" /\ plain float_of "spherical".
Hypothesis REG : registered "spherical" = true /\ has_init "spherical" = false.
Variable o : art_opts.
(** The arguments can be written as numbers; a minus sign in front is understood. *)
Hypothesis NUMS : num (a_rstif o) /\ num (a_rstif o * a_rdamp o) /\ num (a_tstif o) /\ num (a_tstif o * a_tdamp o) /\
  num (a_pos o) /\ num (- a_pos o)%R /\ num 0%R /\ num 1%R.
Hypothesis POS : (0 <= a_pos o)%R.
Hypothesis MINUS : float_of (String "-" (print (a_pos o))) = Some (- a_pos o)%R.
Notation view := (link_view R (plink J) (option omc_link)).
Notation td := (a_tstif o * a_tdamp o)%R.
Notation rd := (a_rstif o * a_rdamp o)%R.
Notation sub_of := (subsystem_factory W print print_int float_of jinit).

Lemma conv_three sign x y : no_space (sign ++ print x) -> float_of (sign ++ print x)%string = Some y ->
  conv float_of (String.concat " " (repeat (sign ++ print x)%string 3)) = CVec [y; y; y].
Proof.
  intros N E. unfold conv. rewrite split_concat; [|discriminate|repeat constructor; auto]. cbn [repeat map]. now rewrite E.
Qed.
Lemma conv_three_num x : num x -> conv float_of (String.concat " " (repeat ("" ++ print x)%string 3)) = CVec [x; x; x].
Proof. intros N. apply (ft_num _ _ _ _ _ F) in N. apply conv_three; apply N. Qed.

Definition sub_pre (imu : string) (j : J) : xsys J :=
  mkSys [-1]%Z [mkPL t_zero (V3 (- a_pos o) (- a_pos o) (- a_pos o)) (V3 (a_pos o) (a_pos o) (a_pos o)) j izero t_zero t_zero] ["p3d"]
    [td; td; td] [0; 0; 0]%R [a_tstif o; a_tstif o; a_tstif o] [0; 0; 0]%R (1 / 100)%R [] [0; 0; 981 / 100]%R "semi_implicit_euler" 0 [imu] None [None].

Lemma factory_ok imu : plain float_of imu ->
  exists sub v, sub_of imu (a_pos o) (a_tstif o) (a_tdamp o) = Ok sub /\ parsed W xml_ops sub /\ link_parents sub = [(-1)%Z] /\ geoms sub = [] /\
    views W sub [v] /\ carrier (a_pos o) (a_tstif o) td imu v.
Proof.
  intros PL. destruct WD as (Q & D & _). destruct NUMS as (_ & _ & NT & ND & NP & NM & _).
  destruct (JI ["p3d"]) as (ps & EJ & LP); [repeat constructor; congruence|]. destruct ps as [|j [|? ?]]; try discriminate. clear LP.
  assert (E : sub_of imu (a_pos o) (a_tstif o) (a_tdamp o) = parse W xml_ops (sub_pre imu j)).
  { unfold subsystem_factory. unfold Rleb. destruct (Rle_dec 0 (a_pos o)); [|contradiction]. cbn [assert_ bind].
    pose proof (conv_three_num _ NT) as C1. pose proof (conv_three_num _ ND) as C2. pose proof (conv_three_num _ NP) as C3.
    assert (C4 : conv float_of (String.concat " " (repeat ("-" ++ print (a_pos o))%string 3)) = CVec [- a_pos o; - a_pos o; - a_pos o]%R).
    { apply conv_three; [|exact MINUS]. apply (ft_num _ _ _ _ _ F) in NP. intros X. cbn in X. destruct X as [X|X]; [discriminate|]. now apply NP. }
    pose proof (conv_plain float_of _ PL) as C5. pose proof (conv_plain float_of _ (proj1 WORDS)) as C6.
    destruct (Req_EM_T (a_pos o) 0) as [E0|N0].
    - unfold load. cbn [all_valid valid_attrs forallb dget app fst memS existsb String.eqb Ascii.eqb Bool.eqb andb orb assert_ bind].
      cbn [convert map fst snd app default_of find_unique findall filter x_tag x_kids x_attrs String.eqb Ascii.eqb Bool.eqb bind mix with_defaults dmem dget negb assert_ aget process_bodies].
      rewrite C1, C2, C5, C6. cbn [process_body body_row aget dget String.eqb Ascii.eqb Bool.eqb bind as_text get_trans get_pos get_rotation get_minmax findall filter mapM get_arr x_tag].
      unfold wget. rewrite Q, D. cbn [bind get_arr aget dget String.eqb Ascii.eqb Bool.eqb length app t_pos fst snd assemble map r_type r_parent r_name].
      rewrite EJ. cbn [bind combine map fst snd]. unfold sub_pre. rewrite E0. unfold fresh_link. cbn. rewrite ?Ropp_0. reflexivity.
    - unfold load. cbn [all_valid valid_attrs forallb dget app fst memS existsb String.eqb Ascii.eqb Bool.eqb andb orb assert_ bind].
      cbn [convert map fst snd app default_of find_unique findall filter x_tag x_kids x_attrs String.eqb Ascii.eqb Bool.eqb bind mix with_defaults dmem dget negb assert_ aget process_bodies].
      rewrite C1, C2, C3, C4, C5, C6. cbn [process_body body_row aget dget String.eqb Ascii.eqb Bool.eqb bind as_text get_trans get_pos get_rotation get_minmax findall filter mapM get_arr x_tag as_vec3].
      assert (LE : leqb (v3_list (V3 (- a_pos o) (- a_pos o) (- a_pos o))) (v3_list (V3 (a_pos o) (a_pos o) (a_pos o))) = false).
      { destruct (leqb _ _) eqn:X; [|reflexivity]. apply leqb_eq in X. cbn in X. injection X as X _. exfalso. lra. }
      rewrite LE. cbn [negb assert_ bind].
      unfold wget. rewrite Q, D. cbn [bind get_arr aget dget String.eqb Ascii.eqb Bool.eqb length app t_pos fst snd assemble map r_type r_parent r_name].
      rewrite EJ. reflexivity. }
  set (v := mkView imu "p3d" (mkPL t_zero (V3 (- a_pos o) (- a_pos o) (- a_pos o)) (V3 (a_pos o) (a_pos o) (a_pos o)) j izero t_zero t_zero) None
              [td; td; td] [0; 0; 0]%R [a_tstif o; a_tstif o; a_tstif o] [0; 0; 0]%R : view).
  assert (V : views W (sub_pre imu j) [v]).
  { unfold views. cbn. repeat (split; [reflexivity|]). exists [3%nat], [3%nat]. unfold have_widths, splits. cbn. repeat split; repeat constructor; auto. }
  assert (VV : valid_view xml_ops v).
  { split; [|discriminate]. cbn [v v_link pos_ok xml_ops phys_ops pl_pmin pl_pmax vx vy vz]. unfold Rleb. destruct (Rle_dec (- a_pos o) (a_pos o)); [reflexivity|lra]. }
  assert (PP : parse W xml_ops (sub_pre imu j) = Ok (parse_post xml_ops (sub_pre imu j))).
  { apply parse_iff. split; [reflexivity|]. split; [repeat constructor; auto|]. split; [constructor|]. exists [v]. auto. }
  exists (parse_post xml_ops (sub_pre imu j)). eexists. split; [now rewrite E|].
  split; [apply (parse_parsed W xml_ops xml_laws _ _ PP); intros [|[|i]] p H; cbn in H; try discriminate; injection H as <-; lia|].
  split; [reflexivity|]. split; [reflexivity|]. split; [exact (parse_post_views W xml_ops (sub_pre imu j) [v] V)|].
  split; repeat split.
Qed.

(** ** One turn of the loop *)
Lemma same_joint_trans (a b c : view) : same_joint a b -> same_joint b c -> same_joint a c.
Proof.
  intros [(A1 & A2 & A3 & A4 & A5 & A6 & A7) (A8 & A9 & A0)] [(B1 & B2 & B3 & B4 & B5 & B6 & B7) (B8 & B9 & B0)].
  repeat split; congruence.
Qed.
Lemma same_joint_refl (a : view) : same_joint a a.
Proof. repeat split. Qed.
Lemma carrier_same p ts tdm n (a b : view) : carrier p ts tdm n a -> same_joint a b -> carrier p ts tdm n b.
Proof.
  intros [(A1 & A2 & A3 & A4 & A5 & A6 & A7) (A8 & A9 & A0)] [(B1 & B2 & B3 & B4 & B5 & B6 & B7) (B8 & B9 & B0)].
  cbn [v_name v_type v_link v_omc v_damping v_armature v_stiffness v_zeropoint] in A1, A2, A3, A4, A5, A6, A7. unfold carrier, agree_but_link.
  cbn [v_name v_type v_link v_omc v_damping v_armature v_stiffness v_zeropoint]. repeat split; congruence.
Qed.
Lemma Forall2_trans_same {A} (Q : A -> view -> Prop) l vs us : (forall a v u, Q a v -> same_joint v u -> Q a u) -> Forall2 Q l vs -> Forall2 same_joint vs us -> Forall2 Q l us.
Proof. intros H X. revert us. induction X; intros us Y; inversion Y; subst; constructor; eauto. Qed.

Definition soft_view (v : view) : view :=
  mkView (String "_" (v_name v)) "spherical" (v_link v) (v_omc v) [rd; rd; rd] [0; 0; 0]%R [a_rstif o; a_rstif o; a_rstif o] [1; 0; 0; 0]%R.

Lemma pad_law : pad_laws xml_ops (pad (J := J) jpad).
Proof. constructor; intros; reflexivity. Qed.

Lemma frozen_step (s : xsys J) vs i v : parsed W xml_ops s -> views W s vs -> nth_error vs i = Some v -> v_type v = "frozen" ->
  ~ In (String "_" (v_name v)) (link_names s) -> plain float_of (v_name v) ->
  exists s' vs1 c, inject_step W print print_int float_of jinit registered has_init reload jpad o s (v_name v) = Ok s' /\ parsed W xml_ops s' /\
    views W s' (vs1 ++ [c]) /\ Forall2 same_joint (list_set vs i (soft_view v)) vs1 /\ carrier (a_pos o) (a_tstif o) td (v_name v) c /\
    link_parents s' = link_parents s ++ [Z.of_nat i] /\ (forall z, attached z (geoms s') = attached z (geoms s)) /\
    sys_dt s' = sys_dt s /\ gravity s' = gravity s /\ integration_method s' = integration_method s /\ mass_mat_iters s' = mass_mat_iters s /\
    model_name s' = model_name s.
Proof.
  intros P V E T N PL. set (nm := v_name v). pose proof (wf_unique _ _ (pd_wf _ _ _ P)) as ND. destruct (views_lengths W _ _ V) as (L1 & L2 & L3 & L4 & L5).
  assert (Li : (i < length vs)%nat) by (apply nth_error_Some; congruence).
  assert (En : nth_error (link_names s) i = Some nm) by (destruct V as (-> & _); rewrite nth_error_map, E; reflexivity).
  assert (Et : nth_error (link_types s) i = Some "frozen") by (destruct V as (_ & -> & _); rewrite nth_error_map, E; cbn; congruence).
  destruct WD as (Q1 & D1 & Q2 & D2 & Q3 & D3).
  destruct (change_joint_type_total W xml_ops xml_laws registered has_init reload s vs nm "spherical" None None None None 4 3 P V) as (s1 & E1 & P1 & SF1 & V1); auto.
  { intros ->. destruct i; discriminate. } { apply REG. } { apply REG. } { intros a [X|[X|[X|[]]]]; discriminate. } { discriminate. }
  { intros _ u. cbn [changed_view v_zeropoint]. exact (ol_one _ (@xml_laws J) 3). }
  rewrite (at_name_list_set vs _ i v) in V1; [|destruct V as (<- & _); exact ND|exact E].
  set (v1 := changed_view xml_ops "spherical" 4 3 None None None None v) in *.
  assert (E1' : nth_error (list_set vs i v1) i = Some v1) by (rewrite nth_error_list_set by auto; now destruct (Nat.eq_dec i i)).
  destruct (set_stif_damp_views W s1 _ i v1 (repeat (a_rstif o) 3) (map (fun x => x * a_rdamp o)%R (repeat (a_rstif o) 3)) P1 V1 E1' eq_refl eq_refl)
    as (md & sl & st' & d' & EM & ES & ET & ED & P2 & V2).
  set (s2 := set_stif_damp s1 st' d') in *.
  set (v2 := set_v_sd (repeat (a_rstif o) 3) (map (fun x => x * a_rdamp o)%R (repeat (a_rstif o) 3)) v1) in *.
  assert (LS : forall {A} (l : list A) a b, list_set (list_set l i a) i b = list_set l i b).
  { intros A l a b. clear. revert i. induction l as [|x l IH]; intros [|i]; cbn; [reflexivity..|]. now rewrite IH. }
  rewrite LS in V2.
  assert (N12 : link_names s1 = link_names s).
  { destruct V1 as (-> & _). rewrite map_list_set. destruct V as (-> & _). apply list_set_same. rewrite nth_error_map, E. reflexivity. }
  assert (E2' : nth_error (list_set vs i v2) i = Some v2) by (rewrite nth_error_list_set by auto; now destruct (Nat.eq_dec i i)).
  destruct (change_name_views W s2 _ i v2 (String "_" nm) P2 V2 E2') as (s3 & E3 & P3 & V3 & FR).
  { unfold s2. cbn [set_stif_damp link_names]. now rewrite N12. }
  rewrite LS in V3. change (set_v_name (String "_" nm) v2) with (soft_view v) in V3.
  destruct (factory_ok nm PL) as (sub & c & ESUB & PSUB & PARS & GS & VSUB & CS).
  assert (NS3 : link_names s3 = list_set (link_names s) i (String "_" nm)).
  { destruct V3 as (-> & _). rewrite map_list_set. destruct V as (-> & _). reflexivity. }
  assert (Ls : (i < length (link_names s))%nat) by lia.
  assert (WI : world_index s3 (Some (String "_" nm)) = Some (Z.of_nat i)).
  { cbn [world_index]. rewrite (proj2 (indexS_NoDup (String "_" nm) (link_names s3) i (wf_unique _ _ (pd_wf _ _ _ P3)))); auto.
    rewrite NS3, nth_error_list_set by auto. now destruct (Nat.eq_dec i i). }
  destruct (inject_total W xml_ops (pad jpad) xml_laws pad_law s3 sub (Some (String "_" nm)) (Z.of_nat i) P3 PSUB WI) as (s4 & E4 & P4 & IJ).
  { intros n Hn Hs. destruct VSUB as (X0 & _). rewrite X0 in Hs. cbn in Hs. destruct Hs as [<-|[]]. destruct CS as [(X & _) _]. cbn [v_name] in X. rewrite X in Hn.
    rewrite NS3 in Hn. apply In_nth_error in Hn. destruct Hn as [j Hj]. rewrite nth_error_list_set in Hj by auto. destruct (Nat.eq_dec j i) as [_|Nj].
    - injection Hj as Hj. clear - Hj. symmetry in Hj. induction nm as [|a n0 IH]; [discriminate|]. injection Hj as -> Hj. auto.
    - apply Nj. eapply NoDup_nth_error_inj; eauto. }
  destruct IJ as [IJ1 (us & usub & us' & U1 & U2 & U3 & UL & UH & US) IJ3 IJ4 IJ5].
  assert (us = list_set vs i (soft_view v)) by (eapply views_unique; eauto). subst us.
  assert (usub = [c]) by (eapply views_unique; eauto). subst usub. rewrite length_list_set in UL, US. cbn [length] in UL.
  destruct (US 0%nat c eq_refl) as (c' & Ec' & AG & LK). rewrite Nat.add_0_r in Ec'.
  exists s4, (firstn (length vs) us'), c'.
  destruct FR as (R1 & R2 & _ & R3 & R4 & R5 & R6 & R7). destruct SF1 as (X1 & X2 & X3 & X4 & X5 & X6 & X7).
  assert (G32 : geoms s3 = geoms s) by (rewrite R2; exact X2).
  assert (P32 : link_parents s3 = link_parents s) by (rewrite R1; exact X1).
  split.
  { unfold inject_step, unfreeze, name_to_idx. rewrite (proj2 (indexS_NoDup nm (link_names s) i ND) En). cbn [bind].
    assert (PG : py_get (link_types s) (Z.of_nat i) = Ok "frozen").
    { apply py_get_nonneg; [lia|]. now rewrite Nat2Z.id. }
    rewrite PG. cbn [bind String.eqb Ascii.eqb Bool.eqb assert_ negb]. rewrite E1. cbn [bind]. rewrite EM. cbn [bind].
    change (v_name v1) with nm in ES. rewrite ES. cbn [bind]. rewrite ET. cbn [bind]. rewrite ED. cbn [bind].
    change (v_name v2) with nm in E3. unfold imu_reference_link_name. fold s2. rewrite E3. cbn [bind]. rewrite ESUB. cbn [bind]. exact E4. }
  split; [exact P4|]. split.
  { replace (firstn (length vs) us' ++ [c']) with us'; [exact U3|]. rewrite <- (firstn_skipn (length vs) us') at 1. f_equal.
    apply nth_error_ext. intros [|j]; rewrite nth_skipn.
    - rewrite Nat.add_0_r. exact Ec'.
    - rewrite (proj2 (nth_error_None us' _)) by lia. destruct j; reflexivity. }
  split.
  { apply Forall2_nth_iff. rewrite length_list_set, firstn_length. split; [lia|]. intros j a b Ha Hb.
    assert (Hj : (j < length vs)%nat) by (rewrite <- (length_list_set vs i (soft_view v)); apply nth_error_Some; congruence).
    rewrite nth_firstn in Hb by auto. destruct (UH j a Ha) as (b' & Eb & AB & LB). assert (b' = b) by congruence. subst b'.
    split; [exact AB|]. rewrite LB. repeat split. }
  split. { eapply carrier_same; [exact CS|]. split; [exact AG|]. rewrite LK. repeat split. }
  split. { rewrite IJ1, P32, PARS. reflexivity. }
  split.
  { intros z. destruct (Z_le_dec (-1) z) as [Z1|Z1].
    - destruct (Z_lt_dec z (Z.of_nat (length (link_parents s3)))) as [Z2|Z2].
      + rewrite IJ3 by lia. rewrite GS, G32. cbn [attached]. destruct (Z.eq_dec z (Z.of_nat i)); now rewrite app_nil_r.
      + replace z with (Z.of_nat (length (link_parents s3)) + (z - Z.of_nat (length (link_parents s3))))%Z at 1 by lia. rewrite IJ4 by lia. rewrite GS. cbn [attached].
        symmetry. eapply attached_out; [apply (pd_wf _ _ _ P)|]. rewrite P32 in Z2. lia.
    - assert (X : forall t : xsys J, parsed W xml_ops t -> attached z (geoms t) = []).
      { intros t Pt. pose proof (wf_geoms _ _ (pd_wf _ _ _ Pt)) as X. revert X. generalize (geoms t). intros gs H. induction H as [|[y g] r H _ IH]; cbn [attached]; [reflexivity|].
        destruct (Z.eq_dec y z); [cbn [fst] in H; lia|exact IH]. }
      now rewrite !X. }
  destruct IJ5 as (Y1 & Y2 & Y3 & Y4 & Y5). rewrite Y1, Y2, Y3, Y4, Y5, R3, R4, R5, R6, R7. unfold s2. cbn [set_stif_damp sys_dt gravity integration_method mass_mat_iters model_name]. auto.
Qed.

(** ** Geometries *)
Lemma In_attached {G} (z : Z) (g : G) gs : In (z, g) gs <-> In g (attached z gs).
Proof.
  induction gs as [|[y h] gs IH]; cbn [attached In]; [tauto|]. destruct (Z.eq_dec y z) as [->|N]; cbn [In]; rewrite <- IH.
  - split; intros [X|X]; auto; [injection X as ->; auto|subst; auto].
  - split; [intros [X|X]; [congruence|auto]|auto].
Qed.
Definition rename_ends {G} (r : Z -> Z) (gs : list (Z * G)) : list (Z * G) := map (fun g => (r (fst g), snd g)) gs.
Lemma attached_rename {G} (r : Z -> Z) (gs : list (Z * G)) z z' : (forall g, In g gs -> (r (fst g) = z' <-> fst g = z)) ->
  attached z' (rename_ends r gs) = attached z gs.
Proof.
  induction gs as [|[y h] gs IH]; intros H; cbn [rename_ends map attached fst snd]; [reflexivity|].
  pose proof (H (y, h) (or_introl eq_refl)) as X. cbn [fst] in X. change (map (fun g => (r (fst g), snd g)) gs) with (rename_ends r gs).
  rewrite IH by (intros g Hg; apply H; now right). destruct (Z.eq_dec (r y) z'), (Z.eq_dec y z); tauto.
Qed.
Lemma attached_rename_none {G} (r : Z -> Z) (gs : list (Z * G)) z' : (forall g, In g gs -> r (fst g) <> z') -> attached z' (rename_ends r gs) = [].
Proof.
  induction gs as [|[y h] gs IH]; intros H; cbn [rename_ends map attached fst snd]; [reflexivity|].
  pose proof (H (y, h) (or_introl eq_refl)) as X. cbn [fst] in X. destruct (Z.eq_dec (r y) z'); [contradiction|]. apply IH. intros g Hg. apply H. now right.
Qed.
Lemma dget_combine_at (is : list nat) (names : list string) z : length is = length names ->
  match dget Z.eqb (combine (map Z.of_nat is) names) z with
  | Some n => exists k i, nth_error is k = Some i /\ nth_error names k = Some n /\ z = Z.of_nat i
  | None => forall i, In i is -> z <> Z.of_nat i end.
Proof.
  revert names. induction is as [|i is IH]; intros [|n names] L; try discriminate; cbn [map combine dget]; [intros i []|].
  destruct (Z.eqb z (Z.of_nat i)) eqn:E.
  - apply Z.eqb_eq in E. exists 0%nat, i. auto.
  - apply Z.eqb_neq in E. specialize (IH names ltac:(cbn in L; lia)). destruct (dget Z.eqb (combine (map Z.of_nat is) names) z) as [n'|].
    + destruct IH as (k & i' & X & Y & Z). exists (S k), i'. auto.
    + intros i' [<-|H]; auto.
Qed.

(** ** The whole loop *)
Section Loop.
Variable s : xsys J.
Variable vs : list view.
Hypothesis PS : parsed W xml_ops s.
Hypothesis VS : views W s vs.
Hypothesis FROZEN : forall v, In v vs -> imu_name (v_name v) -> v_type v = "frozen".
Hypothesis NOREF : forall v, In v vs -> imu_name (v_name v) -> ~ In (String "_" (v_name v)) (link_names s).
Hypothesis PLAIN : forall v, In v vs -> plain float_of (v_name v).
Notation step := (inject_step W print print_int float_of jinit registered has_init reload jpad o).

Definition inv (done : list nat) (t : xsys J) : Prop :=
  parsed W xml_ops t /\ link_parents t = link_parents s ++ map Z.of_nat done /\
  (exists vs1 vs2, views W t (vs1 ++ vs2) /\ length vs1 = length vs /\
     (forall i v v', nth_error vs i = Some v -> nth_error vs1 i = Some v' ->
        (In i done -> same_joint (soft_view v) v') /\ (~ In i done -> same_joint v v')) /\
     Forall2 (fun i c => exists v, nth_error vs i = Some v /\ carrier (a_pos o) (a_tstif o) td (v_name v) c) done vs2) /\
  (forall z, attached z (geoms t) = attached z (geoms s)) /\
  sys_dt t = sys_dt s /\ gravity t = gravity s /\ integration_method t = integration_method s /\ mass_mat_iters t = mass_mat_iters s /\
  model_name t = model_name s.

Definition imu_at (i : nat) : Prop := exists v, nth_error vs i = Some v /\ imu_name (v_name v).

Lemma inv_start : inv [] s.
Proof.
  split; [exact PS|]. split; [now rewrite app_nil_r|]. split; [|auto 10]. exists vs, []. rewrite app_nil_r. split; [exact VS|]. split; [reflexivity|].
  split; [|constructor]. intros i v v' E E'. assert (v' = v) by congruence. subst v'. split; [intros []|]. intros _. apply same_joint_refl.
Qed.

Lemma soft_same (a b : view) : same_joint a b -> same_joint (soft_view a) (soft_view b).
Proof. intros [(A1 & A2 & A3 & A4 & A5 & A6 & A7) (A8 & A9 & A0)]. unfold soft_view. repeat split; cbn; congruence. Qed.

Lemma names_inv done t : inv done t -> (forall i, In i done -> imu_at i) -> forall n, In n (link_names t) ->
  (exists v, In v vs /\ v_name v = n) \/ (exists i v, In i done /\ nth_error vs i = Some v /\ n = String "_" (v_name v)).
Proof.
  intros (P & PA & (vs1 & vs2 & V & L & H1 & H2) & _) HD n Hn. destruct V as (EN & _). rewrite EN, map_app in Hn. apply in_app_iff in Hn.
  destruct Hn as [Hn|Hn]; apply in_map_iff in Hn; destruct Hn as (v' & <- & Hv'); apply In_nth_error in Hv'; destruct Hv' as [j Hj].
  - assert (Lj : (j < length vs)%nat) by (rewrite <- L; apply nth_error_Some; congruence).
    destruct (nth_error vs j) as [v|] eqn:Ev; [|apply nth_error_None in Ev; lia]. destruct (H1 j v v' Ev Hj) as [X Y].
    destruct (in_dec Nat.eq_dec j done) as [I|I].
    + right. exists j, v. split; auto. split; auto. destruct (X I) as [(Z & _) _]. exact Z.
    + left. exists v. split; [eapply nth_error_In; eauto|]. destruct (Y I) as [(Z & _) _]. congruence.
  - destruct (Forall2_nth_r _ _ _ _ _ H2 Hj) as (i & Hi & v & Ev & [(Z & _) _]). left. exists v. split; [eapply nth_error_In; eauto|]. cbn [v_name] in Z. congruence.
Qed.

Lemma inv_step done t i v : inv done t -> (forall j, In j done -> imu_at j) -> ~ In i done -> nth_error vs i = Some v -> imu_name (v_name v) ->
  exists t', step t (v_name v) = Ok t' /\ inv (done ++ [i]) t'.
Proof.
  intros I HD NI Ev IM. pose proof (names_inv done t I HD) as NM. destruct I as (P & PA & (vs1 & vs2 & V & L & H1 & H2) & GA & GL).
  assert (Li : (i < length vs)%nat) by (apply nth_error_Some; congruence). assert (HIn : In v vs) by (eapply nth_error_In; eauto).
  destruct (nth_error vs1 i) as [w|] eqn:Ew; [|apply nth_error_None in Ew; lia]. destruct (H1 i v w Ev Ew) as [_ SJ]. specialize (SJ NI).
  assert (NW : v_name w = v_name v) by (destruct SJ as [(Z & _) _]; exact Z).
  assert (TW : v_type w = "frozen") by (destruct SJ as [(_ & Z & _) _]; rewrite Z; auto).
  destruct (frozen_step t (vs1 ++ vs2) i w P V) as (t' & us1 & c & E & P' & V' & SJ' & CA & PA' & GA' & GL'); auto.
  { rewrite nth_error_app1 by lia. exact Ew. }
  { rewrite NW. intros X. destruct (NM _ X) as [(u & Hu & Eu)|(j & u & Hj & Eu & En)].
    - apply (NOREF v HIn IM). destruct VS as (-> & _). rewrite <- Eu. now apply in_map.
    - injection En as En. apply NI. replace i with j; auto. pose proof (wf_unique _ _ (pd_wf _ _ _ PS)) as ND. destruct VS as (EN & _). rewrite EN in ND.
      eapply (NoDup_nth_error_inj _ j i (v_name v) ND); rewrite nth_error_map; [rewrite Eu|rewrite Ev]; cbn; congruence. }
  { rewrite NW. now apply PLAIN. }
  rewrite NW in E, CA. exists t'. split; [exact E|].
  rewrite list_set_app in SJ' by lia. apply Forall2_app_inv_l in SJ'. destruct SJ' as (a1 & a2 & S1 & S2 & ->).
  split; [exact P'|]. split; [rewrite PA', PA, <- app_assoc, map_app; reflexivity|]. split.
  - exists a1, (a2 ++ [c]). rewrite app_assoc. split; [exact V'|]. apply Forall2_nth_iff in S1. destruct S1 as [SL S1]. rewrite length_list_set in SL.
    split; [lia|]. split.
    + intros j u u' Eu Eu'. assert (Lj : (j < length vs1)%nat) by (rewrite SL; apply nth_error_Some; congruence).
      destruct (nth_error vs1 j) as [x|] eqn:Ex; [|apply nth_error_None in Ex; lia].
      specialize (S1 j). rewrite nth_error_list_set in S1 by lia. rewrite in_app_iff. cbn [In]. destruct (Nat.eq_dec j i) as [->|N].
      * specialize (S1 _ _ eq_refl Eu'). assert (x = w) by congruence. assert (u = v) by congruence. subst x u. split; [intros _|tauto].
        eapply same_joint_trans; [apply soft_same; exact SJ|exact S1].
      * specialize (S1 _ _ Ex Eu'). destruct (H1 j u x Eu Ex) as [Y1 Y2]. split.
        -- intros [X|[X|[]]]; [|congruence]. eapply same_joint_trans; eauto.
        -- intros X. apply (same_joint_trans u x u'); [|exact S1]. apply Y2. tauto.
    + apply Forall2_app.
      * eapply Forall2_trans_same; [|exact H2|exact S2]. intros k a b (u & Eu & Cu) SJa. exists u. split; auto. eapply carrier_same; eauto.
      * constructor; [|constructor]. eauto.
  - split; [intros z; now rewrite GA'|]. destruct GL as (A1 & A2 & A3 & A4 & A5), GL' as (B1 & B2 & B3 & B4 & B5). repeat split; congruence.
Qed.

Lemma inv_loop : forall todo done t, inv done t -> (forall j, In j (done ++ todo) -> imu_at j) -> NoDup (done ++ todo) ->
  forall names, Forall2 (fun i n => exists v, nth_error vs i = Some v /\ v_name v = n) todo names ->
  exists t', foldM step t names = Ok t' /\ inv (done ++ todo) t'.
Proof.
  induction todo as [|i todo IH]; intros done t I HD ND names FN; inversion FN as [|? n ? ns (v & Ev & En) FN']; subst.
  - exists t. split; [reflexivity|]. now rewrite app_nil_r.
  - destruct (HD i) as (v' & Ev' & IM); [apply in_or_app; right; now left|]. assert (v' = v) by congruence. subst v'.
    destruct (inv_step done t i v I) as (t1 & E1 & I1); auto.
    { intros j Hj. apply HD. apply in_or_app. now left. }
    { intros X. apply NoDup_remove_2 in ND. apply ND. apply in_or_app. now left. }
    replace (done ++ i :: todo) with ((done ++ [i]) ++ todo) in * by (rewrite <- app_assoc; reflexivity).
    destruct (IH (done ++ [i]) t1 I1 HD ND ns FN') as (t' & E' & I'). exists t'. split; [|exact I']. cbn [foldM]. rewrite E1. exact E'.
Qed.

(** The IMUs and their indices *)
Definition imus : list nat := map fst (filter (fun p => is_imu_name (snd p)) (enum (link_names s))).

Lemma filter_enum_spec : forall (l : list string) k,
  let r := filter (fun p => is_imu_name (snd p)) (enum_from k l) in
  map snd r = filter is_imu_name l /\
  (forall i n, In (i, n) r <-> (k <= i)%nat /\ nth_error l (i - k) = Some n /\ is_imu_name n = true) /\
  (forall a b x y, (a < b)%nat -> nth_error (map fst r) a = Some x -> nth_error (map fst r) b = Some y -> (x < y)%nat).
Proof.
  induction l as [|m l IH]; intros k; cbn [enum_from filter snd].
  - split; [reflexivity|]. split; [|intros [|a] b x y _ H; discriminate]. intros i n. split; [intros []|]. intros (_ & H & _). destruct (i - k)%nat; discriminate.
  - destruct (IH (S k)) as (A & B & C). set (r := filter (fun p => is_imu_name (snd p)) (enum_from (S k) l)) in *. cbn zeta.
    assert (M : forall i n, (k <= i)%nat /\ nth_error (m :: l) (i - k) = Some n <-> (i = k /\ n = m) \/ ((S k <= i)%nat /\ nth_error l (i - S k) = Some n)).
    { intros i n. split.
      - intros [H1 H2]. destruct (Nat.eq_dec i k) as [->|N]; [rewrite Nat.sub_diag in H2; cbn in H2; left; split; congruence|right].
        replace (i - k)%nat with (S (i - S k)) in H2 by lia. split; [lia|exact H2].
      - intros [[-> ->]|[H1 H2]]; [rewrite Nat.sub_diag; auto|]. replace (i - k)%nat with (S (i - S k)) by lia. split; [lia|exact H2]. }
    destruct (is_imu_name m) eqn:E; cbn [map fst snd].
    + split; [now rewrite A|]. split.
      * intros i n. cbn [In]. rewrite B. split.
        -- intros [X|(X1 & X2 & X3)]; [injection X as <- <-; rewrite Nat.sub_diag; auto|].
           destruct (proj2 (M i n)) as [Y1 Y2]; [right; auto|]. auto.
        -- intros (X1 & X2 & X3). destruct (proj1 (M i n) (conj X1 X2)) as [[-> ->]|[Y1 Y2]]; auto.
      * intros [|a] [|b] x y H X Y; cbn in X, Y; try lia.
        -- injection X as <-. apply nth_error_In in Y. apply in_map_iff in Y. destruct Y as ((i & n) & <- & Y). apply B in Y. cbn. lia.
        -- eapply (C a b); eauto. lia.
    + split; [exact A|]. split; [|exact C]. intros i n. rewrite B. split.
      * intros (X1 & X2 & X3). destruct (proj2 (M i n)) as [Y1 Y2]; [right; auto|]. auto.
      * intros (X1 & X2 & X3). destruct (proj1 (M i n) (conj X1 X2)) as [[-> ->]|[Y1 Y2]]; auto. congruence.
Qed.

Lemma imus_spec i : In i imus <-> imu_at i.
Proof.
  unfold imus, imu_at. destruct (filter_enum_spec (link_names s) 0) as (_ & B & _). rewrite in_map_iff. destruct VS as (EN & _). split.
  - intros ((j & n) & <- & H). apply B in H. destruct H as (_ & H & H'). cbn [fst]. rewrite Nat.sub_0_r, EN, nth_error_map in H.
    destruct (nth_error vs j) as [v|]; [|discriminate]. injection H as <-. exists v. split; auto. now apply is_imu_name_spec.
  - intros (v & Ev & IM). exists (i, v_name v). split; [reflexivity|]. apply B. rewrite Nat.sub_0_r, EN, nth_error_map, Ev.
    split; [lia|]. split; [reflexivity|]. now apply is_imu_name_spec.
Qed.
Lemma imus_increasing : increasing imus.
Proof. intros a b i j H X Y. unfold imus in X, Y. eapply (filter_enum_spec (link_names s) 0); eauto. Qed.
Lemma imus_names : Forall2 (fun i n => exists v, nth_error vs i = Some v /\ v_name v = n) imus (findall_imus s).
Proof.
  unfold imus, findall_imus. destruct (filter_enum_spec (link_names s) 0) as (A & B & _). change (enum (link_names s)) with (enum_from 0 (link_names s)). rewrite <- A.
  set (r := filter (fun p => is_imu_name (snd p)) (enum_from 0 (link_names s))) in *.
  assert (H : Forall (fun p => exists v, nth_error vs (fst p) = Some v /\ v_name v = snd p) r).
  { apply Forall_forall. intros [i n] H. apply B in H. destruct H as (_ & H & _). rewrite Nat.sub_0_r in H. destruct VS as (EN & _). rewrite EN, nth_error_map in H.
    destruct (nth_error vs i) as [v|] eqn:E; [|discriminate]. cbn in H. exists v. split; auto. cbn. congruence. }
  clear - H. induction H; cbn [map]; constructor; auto.
Qed.

(** ** The geometries move to the new links *)
Definition imu_map : list (Z * string) := combine (map Z.of_nat imus) (findall_imus s).
Lemma imu_map_ok : mapM (fun imu => do i <- name_to_idx s imu; Ok (Z.of_nat i, imu)) (findall_imus s) = Ok imu_map.
Proof.
  unfold imu_map. pose proof imus_names as H. pose proof (wf_unique _ _ (pd_wf _ _ _ PS)) as ND.
  revert H. generalize imus, (findall_imus s). intros is ns H. induction H as [|i n is ns (v & Ev & En) H IH]; [reflexivity|]. cbn [mapM map combine].
  unfold name_to_idx at 1. rewrite (proj2 (indexS_NoDup n (link_names s) i ND)).
  - cbn [bind]. rewrite IH. reflexivity.
  - destruct VS as (-> & _). rewrite nth_error_map, Ev. cbn. congruence.
Qed.

Definition ren (t : xsys J) (z : Z) : Z :=
  match dget Z.eqb imu_map z with
  | Some imu => match name_to_idx t imu with Ok i => Z.of_nat i | Err _ => z end
  | None => z end.

Lemma carrier_index t k i v : inv imus t -> nth_error imus k = Some i -> nth_error vs i = Some v -> name_to_idx t (v_name v) = Ok (num_links s + k)%nat.
Proof.
  intros (P & PA & (vs1 & vs2 & V & L & H1 & H2) & _) Ek Ev. unfold name_to_idx.
  rewrite (proj2 (indexS_NoDup (v_name v) (link_names t) (num_links s + k) (wf_unique _ _ (pd_wf _ _ _ P)))); [reflexivity|].
  destruct V as (EN & _). rewrite EN, map_app. destruct (views_lengths W _ _ VS) as (L1 & L2 & L3 & L4 & L5).
  rewrite nth_error_app2; rewrite map_length, L; [|lia]. replace (num_links s + k - length vs)%nat with k by lia.
  destruct (Forall2_nth_l _ _ _ _ _ H2 Ek) as (c & Ec & v' & Ev' & [(X & _) _]). rewrite nth_error_map, Ec. cbn [option_map]. f_equal. cbn [v_name] in X. congruence.
Qed.

Lemma imu_map_at z : match dget Z.eqb imu_map z with
  | Some n => exists k i v, nth_error imus k = Some i /\ nth_error vs i = Some v /\ v_name v = n /\ z = Z.of_nat i
  | None => forall i, In i imus -> z <> Z.of_nat i end.
Proof.
  pose proof (dget_combine_at imus (findall_imus s) z) as H. rewrite (Forall2_length _ _ _ imus_names) in H. specialize (H eq_refl). fold imu_map in H.
  destruct (dget Z.eqb imu_map z) as [n|]; [|exact H]. destruct H as (k & i & X & Y & Z).
  destruct (Forall2_nth_l _ _ _ _ _ imus_names X) as (n' & Y' & v & Ev & En). exists k, i, v. repeat split; auto. congruence.
Qed.

Lemma ren_imu t k i : inv imus t -> nth_error imus k = Some i -> ren t (Z.of_nat i) = Z.of_nat (num_links s + k).
Proof.
  intros I Ek. unfold ren. pose proof (imu_map_at (Z.of_nat i)) as H. destruct (dget Z.eqb imu_map (Z.of_nat i)) as [n|].
  - destruct H as (k' & i' & v & X & Y & <- & Z). assert (i' = i) by lia. subst i'.
    assert (k' = k). { eapply (NoDup_nth_error_inj imus); eauto. apply increasing_NoDup. apply imus_increasing. }
    subst k'. now rewrite (carrier_index t k i v I X Y).
  - exfalso. apply (H i); auto. eapply nth_error_In; eauto.
Qed.
Lemma ren_other t z : (forall i, In i imus -> z <> Z.of_nat i) -> ren t z = z.
Proof.
  intros H. unfold ren. pose proof (imu_map_at z) as X. destruct (dget Z.eqb imu_map z) as [n|]; [|reflexivity].
  destruct X as (k & i & v & Y & _ & _ & ->). exfalso. apply (H i); auto. eapply nth_error_In; eauto.
Qed.
Lemma move_ok t : inv imus t -> move_geoms imu_map t = Ok (rename_ends (ren t) (geoms t)).
Proof.
  intros I. unfold move_geoms, rename_ends. generalize (geoms t). intros gs. induction gs as [|[z g] gs IH]; [reflexivity|]. cbn [mapM map fst snd].
  rewrite IH. unfold ren at 2. pose proof (imu_map_at z) as X. destruct (dget Z.eqb imu_map z) as [n|]; [|reflexivity].
  destruct X as (k & i & v & Y & Ev & <- & ->). rewrite (carrier_index t k i v I Y Ev). reflexivity.
Qed.

Lemma views_map_links (t : xsys J) us f gs : views W t us -> (forall l, pl_t1 (f l) = pl_t1 l /\ pl_pmin (f l) = pl_pmin l /\ pl_pmax (f l) = pl_pmax l) ->
  views W (set_links_geoms t (map f (links t)) gs) (map (fun v => set_v_link v (f (v_link v))) us) /\
  Forall2 same_joint us (map (fun v => set_v_link v (f (v_link v))) us).
Proof.
  intros (A1 & A2 & A3 & A4 & A5 & A6) H. split.
  - unfold views. cbn [set_links_geoms link_names link_types links omc link_parents link_damping link_armature link_spring_stiffness link_spring_zeropoint].
    rewrite !map_map, map_length. cbn [set_v_link v_name v_type v_link v_omc v_damping v_armature v_stiffness v_zeropoint].
    repeat split; auto. rewrite A3, map_map. reflexivity.
  - clear - H. induction us as [|u us IH]; cbn [map]; constructor; auto. destruct (H (v_link u)) as (X & Y & Z). repeat split; auto.
Qed.

Lemma inertia_same : forall (us : list view) gs, Forall2 same_joint us (inertia_views xml_ops gs us).
Proof.
  intros us gs. unfold inertia_views, enum. generalize 0%nat. induction us as [|u us IH]; intros k; cbn [enum_from map fst snd]; constructor; auto.
  repeat split.
Qed.

Lemma mid_exists : exists t gs t2 mid,
  foldM step s (findall_imus s) = Ok t /\ move_geoms imu_map t = Ok gs /\
  parse W xml_ops (set_links_geoms t (links t) gs) = Ok t2 /\
  mid = set_links_geoms t2 (map (fun l => set_params (jzero (pl_params l)) l) (links t2)) (geoms t2) /\
  with_carriers W (a_rstif o) rd (a_pos o) (a_tstif o) td s mid imus /\ parsed W xml_ops mid.
Proof.
  destruct (inv_loop imus [] s inv_start) with (names := findall_imus s) as (t & ET & I).
  { intros j Hj. now apply imus_spec. } { apply increasing_NoDup. apply imus_increasing. } { exact imus_names. }
  cbn [app] in I. pose proof (move_ok t I) as EG. set (gs := rename_ends (ren t) (geoms t)) in *.
  pose proof I as (P & PA & (vs1 & vs2 & V & L & H1 & H2) & GA & GL).
  destruct (views_lengths W _ _ VS) as (L1 & L2 & L3 & L4 & L5).
  assert (LI : length vs2 = length imus) by (symmetry; exact (Forall2_length _ _ _ H2)).
  assert (NT : num_links t = (num_links s + length imus)%nat) by (unfold num_links; rewrite PA, app_length, map_length; reflexivity).
  assert (LOW : forall z g, In (z, g) (geoms t) -> (-1 <= z < Z.of_nat (num_links s))%Z).
  { intros z g H. apply In_attached in H. rewrite GA in H. apply In_attached in H. pose proof (wf_geoms _ _ (pd_wf _ _ _ PS)) as X. rewrite Forall_forall in X.
    exact (X _ H). }
  assert (IL : forall i, In i imus -> (i < num_links s)%nat).
  { intros i Hi. apply imus_spec in Hi. destruct Hi as (v & Ev & _). rewrite <- L5. apply nth_error_Some. congruence. }
  assert (IK : forall i, In i imus -> exists k, nth_error imus k = Some i /\ (k < length imus)%nat).
  { intros i Hi. apply In_nth_error in Hi. destruct Hi as [k Hk]. exists k. split; auto. apply nth_error_Some. congruence. }
  assert (DEC : forall z, (exists i, In i imus /\ z = Z.of_nat i) \/ (forall i, In i imus -> z <> Z.of_nat i)).
  { intros z. destruct (in_dec Z.eq_dec z (map Z.of_nat imus)) as [X|X]; [left|right].
    - apply in_map_iff in X. destruct X as (i & <- & X). eauto.
    - intros i Hi ->. apply X. now apply in_map. }
  assert (EP : parse W xml_ops (set_links_geoms t (links t) gs) = Ok (parse_post xml_ops (set_links_geoms t (links t) gs))).
  { apply parse_iff. split; [reflexivity|]. split; [apply (wf_unique _ _ (pd_wf _ _ _ P))|]. split.
    - cbn [set_links_geoms geoms]. apply Forall_forall. intros [z g] Hg. unfold gs, rename_ends in Hg. apply in_map_iff in Hg. destruct Hg as ([y h] & X & Hy).
      cbn [fst snd] in X. injection X as <- <-. cbn [fst]. unfold num_links at 1. cbn [set_links_geoms link_parents]. fold (num_links t).
      rewrite NT. specialize (LOW _ _ Hy). destruct (DEC y) as [(i & Hi & ->)|X].
      + destruct (IK i Hi) as (k & Ek & Lk). rewrite (ren_imu t k i I Ek). lia.
      + rewrite ren_other by exact X. lia.
    - destruct (pd_valid _ _ _ P) as (us & U1 & U2). exists us. split; [exact U1|exact U2]. }
  set (t2 := parse_post xml_ops (set_links_geoms t (links t) gs)) in *.
  assert (P2 : parsed W xml_ops t2).
  { eapply parse_parsed; [exact xml_laws|exact EP|]. apply (wf_topo _ _ (pd_wf _ _ _ P)). }
  assert (V2 : views W t2 (inertia_views xml_ops gs (vs1 ++ vs2))) by (apply (parse_post_views W xml_ops (set_links_geoms t (links t) gs)); exact V).
  set (f := fun l : plink J => set_params (jzero (pl_params l)) l).
  destruct (views_map_links t2 _ f (geoms t2) V2) as (V3 & S3). { intros l. repeat split. }
  set (us3 := map (fun v : view => set_v_link v (f (v_link v))) (inertia_views xml_ops gs (vs1 ++ vs2))) in *.
  assert (S4 : Forall2 same_joint (vs1 ++ vs2) us3).
  { eapply Forall2_trans_same; [|apply inertia_same|exact S3]. intros a b c; apply same_joint_trans. }
  exists t, gs, t2, (set_links_geoms t2 (map f (links t2)) (geoms t2)). repeat (split; [assumption||reflexivity|]). split.
  - split.
    + intros i. rewrite imus_spec. unfold imu_at. destruct VS as (-> & _). split.
      * intros (v & Ev & H). exists (v_name v). rewrite nth_error_map, Ev. auto.
      * intros (n & En & H). rewrite nth_error_map in En. destruct (nth_error vs i) as [v|]; [|discriminate]. injection En as <-. eauto.
    + exact imus_increasing.
    + exact PA.
    + apply Forall2_app_inv_l in S4. destruct S4 as (a1 & a2 & S1 & S2 & EA). exists vs, a1, a2. split; [exact VS|]. rewrite <- EA. split; [exact V3|]. split.
      * apply Forall2_nth_iff. rewrite <- (Forall2_length _ _ _ S1). split; [lia|]. intros j v v' Ev Ev'.
        destruct (Forall2_nth_r _ _ _ _ _ S1 Ev') as (u & Eu & SJ). destruct (H1 j v u Ev Eu) as [X Y]. split; intros IM.
        -- eapply same_joint_trans; [|exact SJ]. apply X. apply imus_spec. exists v. auto.
        -- eapply same_joint_trans; [|exact SJ]. apply Y. intros Z. apply imus_spec in Z. destruct Z as (w & Ew & Z). apply IM. congruence.
      * eapply Forall2_trans_same; [|exact H2|exact S2]. intros k a b (u & Eu & Cu) SJa. exists u. split; auto. eapply carrier_same; eauto.
    + assert (AG : forall z, attached z (geoms t2) = attached z gs) by (intros z; unfold t2, parse_post; cbn [set_links_geoms geoms]; apply attached_sort).
      cbn [set_links_geoms geoms]. rewrite !AG. repeat split; intros.
      * rewrite AG. unfold gs. rewrite <- GA. apply attached_rename. intros [y g] Hg. cbn [fst]. pose proof (LOW _ _ Hg) as LO. destruct (DEC y) as [(j & Hj & ->)|X].
        -- destruct (IK j Hj) as (k & Ek & Lk). rewrite (ren_imu t k j I Ek). split; intros E; [lia|]. apply Nat2Z.inj in E. subst j. contradiction.
        -- rewrite ren_other by exact X. reflexivity.
      * rewrite AG. unfold gs. apply attached_rename_none. intros [y g] Hg. cbn [fst]. pose proof (LOW _ _ Hg) as LO. specialize (IL _ H). destruct (DEC y) as [(j & Hj & ->)|X].
        -- destruct (IK j Hj) as (k & Ek & Lk). rewrite (ren_imu t k j I Ek). lia.
        -- rewrite ren_other by exact X. apply X. exact H.
      * rewrite AG. unfold gs. rewrite <- GA. apply attached_rename. intros [y g] Hg. cbn [fst]. pose proof (LOW _ _ Hg) as LO. destruct (DEC y) as [(j & Hj & ->)|X].
        -- destruct (IK j Hj) as (k' & Ek & Lk). rewrite (ren_imu t k' j I Ek). split; intros E.
           ++ assert (k' = k) by lia. subst k'. f_equal. congruence.
           ++ apply Nat2Z.inj in E. subst j. assert (k' = k) by (eapply (NoDup_nth_error_inj imus); eauto; apply increasing_NoDup; apply imus_increasing). lia.
        -- rewrite ren_other by exact X. split; intros E; [lia|]. exfalso. apply (X i); auto. eapply nth_error_In; eauto.
      * unfold gs. rewrite <- GA. apply attached_rename. intros [y g] Hg. cbn [fst]. pose proof (LOW _ _ Hg) as LO. destruct (DEC y) as [(j & Hj & ->)|X].
        -- destruct (IK j Hj) as (k' & Ek & Lk). rewrite (ren_imu t k' j I Ek). lia.
        -- rewrite ren_other by exact X. reflexivity.
    + exact GL.
  - destruct P2 as [Q1 Q2 Q3 (us & Q4 & Q5)]. split.
    + destruct Q1 as [w1 w2 w3 w4 w5 w6 w7 w8]. split; auto. cbn [set_links_geoms links link_parents]. now rewrite map_length.
    + exact Q2.
    + cbn [set_links_geoms links geoms]. intros i l El. rewrite nth_error_map in El. destruct (nth_error (links t2) i) as [l0|] eqn:E0; [|discriminate].
      cbn [option_map] in El. injection El as <-. specialize (Q3 i l0 E0). rewrite <- Q3 at 2. reflexivity.
    + destruct (views_map_links t2 us f (geoms t2) Q4) as (V4 & S5). { intros l. repeat split. }
      eexists. split; [exact V4|]. rewrite Forall_map. eapply Forall_impl; [|exact Q5]. intros v [X Y]. split; [exact X|exact Y].
Qed.

End Loop.

(** ** Saving and reading back *)
Lemma saveable_by_views (s : xsys J) us : parsed W xml_ops s -> views W s us -> Forall (saveable_view float_of num int) us -> us <> [] ->
  (exists m, model_name s = Some m /\ plain float_of m) -> attached (-1)%Z (geoms s) = [] ->
  integration_method s = "semi_implicit_euler" /\ mass_mat_iters s = 0%nat ->
  num (sys_dt s) /\ Forall num (gravity s) /\ (2 <= length (gravity s))%nat ->
  (forall i g, In g (attached (Z.of_nat i) (geoms s)) -> saveable_geom float_of num g) ->
  saveable float_of num int W s.
Proof.
  intros P V SV NE MN WO ST OP GE. pose proof V as (A1 & A2 & A3 & A4 & A5 & qs & ds & Q & D & [_ A6] & [_ A7] & [_ A8] & [_ A9]).
  assert (MV : forall {B} (f : view -> B) (Q : B -> Prop), (forall v, saveable_view float_of num int v -> Q (f v)) -> Forall Q (map f us)).
  { intros B f Q' H. rewrite Forall_map. eapply Forall_impl; [|exact SV]. exact H. }
  unfold saveable_view in MV. split; auto.
  - intros X. rewrite X in A5. destruct us; [congruence|discriminate].
  - rewrite A1. apply MV. tauto.
  - rewrite A2. apply MV. tauto.
  - rewrite <- A6, <- A7, <- A8, <- A9, !concat_pieces. repeat split; apply MV; tauto.
  - rewrite A3. apply MV. tauto.
  - apply Forall_forall. intros [z g] H. cbn [snd]. pose proof (wf_geoms _ _ (pd_wf _ _ _ P)) as X. rewrite Forall_forall in X. specialize (X _ H). cbn [fst] in X.
    apply In_attached in H. destruct (Z.eq_dec z (-1)) as [->|N]; [rewrite WO in H; contradiction|]. apply (GE (Z.to_nat z)). rewrite Z2Nat.id by lia. exact H.
  - rewrite A4. apply MV. tauto.
Qed.

Lemma same_joint_saveable (a b : view) : saveable_view float_of num int a -> same_joint a b -> saveable_view float_of num int b.
Proof.
  intros H [(A1 & A2 & A3 & A4 & A5 & A6 & A7) (A8 & A9 & A0)]. unfold saveable_view, saveable_link in *. rewrite A1, A2, A3, A4, A5, A6, A7, A8, A9, A0. exact H.
Qed.

Lemma with_carriers_saveable (s mid : xsys J) is : saveable float_of num int W s -> (forall n, In n (link_names s) -> imu_name n -> plain float_of (String "_" n)) ->
  with_carriers W (a_rstif o) rd (a_pos o) (a_tstif o) td s mid is -> parsed W xml_ops mid -> saveable float_of num int W mid.
Proof.
  intros SV PL WC P. destruct WC as [C1 C2 C3 (vs & vs1 & vs2 & V & V' & S1 & S2) (G1 & G2 & G3 & G4) (B1 & B2 & B3 & B4 & B5)].
  pose proof (saveable_views W float_of num int s vs SV V) as SVV. rewrite Forall_forall in SVV.
  destruct NUMS as (N1 & N2 & N3 & N4 & N5 & N6 & N7 & N8). destruct WORDS as [W1 W2].
  destruct (views_lengths W _ _ V) as (L1 & L2 & L3 & L4 & L5).
  assert (L1' : length vs1 = length vs) by (symmetry; exact (Forall2_length _ _ _ S1)).
  assert (L2' : length vs2 = length is) by (symmetry; exact (Forall2_length _ _ _ S2)).
  apply (saveable_by_views mid (vs1 ++ vs2) P V').
  - apply Forall_app. split; apply Forall_forall; intros v' Hv'; apply In_nth_error in Hv'; destruct Hv' as [j Hj].
    + destruct (Forall2_nth_r _ _ _ _ _ S1 Hj) as (v & Ev & X & Y). assert (Hv : In v vs) by (eapply nth_error_In; eauto). specialize (SVV v Hv).
      destruct (is_imu_name (v_name v)) eqn:IM.
      * apply is_imu_name_spec in IM. eapply same_joint_saveable; [|exact (X IM)].
        destruct SVV as (D1 & D2 & D3 & D4 & D5 & D6 & D7 & D8 & D9). unfold saveable_view. cbn [v_name v_type v_link v_omc v_damping v_armature v_stiffness v_zeropoint].
        repeat split; auto; try discriminate; try apply D4.
        apply PL; auto. destruct V as (-> & _). now apply in_map.
      * eapply same_joint_saveable; [exact SVV|]. apply Y. intros Z. apply is_imu_name_spec in Z. congruence.
    + destruct (Forall2_nth_r _ _ _ _ _ S2 Hj) as (i & Ei & v & Ev & (A1 & A2 & A3 & A4 & A5 & A6 & A7) & A8 & A9 & A0).
      cbn [v_name v_type v_link v_omc v_damping v_armature v_stiffness v_zeropoint] in A1, A2, A3, A4, A5, A6, A7.
      assert (Hv : In v vs) by (eapply nth_error_In; eauto). specialize (SVV v Hv). unfold saveable_view, saveable_link.
      rewrite A1, A2, A3, A4, A5, A6, A7, A8, A9, A0. cbn [saveable_omc]. unfold num_t, num3, t_zero. cbn [t_pos t_rot vzero qone vx vy vz qw qx qy qz].
      repeat split; auto; try discriminate.
      * apply SVV.
      * intros X. assert (X0 := f_equal vx X). cbn [vx] in X0. clear X. assert (X1 : (a_pos o = 0)%R) by lra. rewrite X1, Ropp_0. reflexivity.
  - intros X. apply app_eq_nil in X. destruct X as [-> _]. destruct vs; [|discriminate]. apply (sv_some _ _ _ _ _ SV). apply length_zero_iff_nil. cbn in L5. unfold num_links in L5. lia.
  - rewrite B5. apply (sv_model _ _ _ _ _ SV).
  - rewrite G4. apply (sv_world _ _ _ _ _ SV).
  - rewrite B3, B4. apply (sv_settings _ _ _ _ _ SV).
  - rewrite B1, B2. apply (sv_options _ _ _ _ _ SV).
  - assert (GS : forall i g, In g (attached (Z.of_nat i) (geoms s)) -> saveable_geom float_of num g).
    { intros i g H. apply In_attached in H. pose proof (sv_geoms _ _ _ _ _ SV) as X. rewrite Forall_forall in X. exact (X _ H). }
    intros i g H. destruct (in_dec Nat.eq_dec i is) as [I|I]; [rewrite G2 in H; [contradiction|exact I]|].
    destruct (Nat.lt_ge_cases i (num_links s)) as [X|X]; [rewrite G1 in H; eauto|].
    destruct (nth_error is (i - num_links s)) as [k|] eqn:Ek.
    + replace i with (num_links s + (i - num_links s))%nat in H by lia. rewrite (G3 _ _ Ek) in H. eauto.
    + apply nth_error_None in Ek. rewrite (attached_out (num_links mid)) in H; [contradiction| |].
      * apply (wf_geoms _ _ (pd_wf _ _ _ P)).
      * unfold num_links. rewrite C3, app_length, map_length. unfold num_links in *. lia.
Qed.

(** What the caller must provide: every IMU is rigidly attached, and the names of the new links are free. *)
Definition attachable (s : xsys J) : Prop :=
  (forall i n t, nth_error (link_names s) i = Some n -> nth_error (link_types s) i = Some t -> imu_name n ->
     t = "frozen" /\ ~ In (String "_" n) (link_names s) /\ plain float_of (String "_" n)).

Lemma injected (s : xsys J) : saveable float_of num int W s -> attachable s ->
  exists mid is s' order, inject_subsystems W print print_int float_of jinit registered has_init reload jpad jzero o s = Ok s' /\
    with_carriers W (a_rstif o) rd (a_pos o) (a_tstif o) td s mid is /\ parsed W xml_ops mid /\ reloaded W jinit mid s' order.
Proof.
  intros SV AT. pose proof (sv_parsed _ _ _ _ _ SV) as PS. destruct (pd_valid _ _ _ PS) as (vs & V & _).
  assert (A : forall v, In v vs -> imu_name (v_name v) -> v_type v = "frozen" /\ ~ In (String "_" (v_name v)) (link_names s) /\ plain float_of (String "_" (v_name v))).
  { intros v Hv IM. apply In_nth_error in Hv. destruct Hv as [i Hi]. destruct V as (EN & ET & _). apply (AT i (v_name v) (v_type v)); auto.
    - rewrite EN, nth_error_map, Hi. reflexivity.
    - rewrite ET, nth_error_map, Hi. reflexivity. }
  destruct (mid_exists s vs PS V) as (t & gs & t2 & mid & E1 & E2 & E3 & E4 & WC & PM).
  { intros v Hv IM. now apply A. } { intros v Hv IM. now apply A. }
  { intros v Hv. pose proof (saveable_views W float_of num int s vs SV V) as X. rewrite Forall_forall in X. now apply X. }
  destruct (C16_roundtrip W print print_int float_of jinit num int F JI mid) as (x & s' & order & ES & EL & RL).
  { eapply with_carriers_saveable; eauto. intros n Hn IM. destruct V as (EN & _). rewrite EN in Hn. apply in_map_iff in Hn. destruct Hn as (v & <- & Hv). now apply A. }
  exists mid, (imus s), s', order. split; [|auto]. unfold inject_subsystems. rewrite (imu_map_ok s vs PS V). cbn [bind]. rewrite E1. cbn [bind]. rewrite E2. cbn [bind]. rewrite E3. cbn [bind].
  rewrite <- E4, ES. cbn [bind]. exact EL.
Qed.

End Inject.
