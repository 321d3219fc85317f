(** * Systems as lists of link views; System.parse. *)
From Coq Require Import String ZArith Lia Bool List.
From Verif Require Import Prelude M_Sys S_Sys P_Scan.
Import ListNotations.
Local Open Scope Z_scope.

Section Views.
Context {K L G O : Type}.
Variable W : widths.
Implicit Type s : System K L G O.
Notation view := (link_view K L O).

Fixpoint mk_views (nm ty : list string) (lk : list L) (om : list O) (d a st z : list (list K)) : list view :=
  match nm, ty, lk, om, d, a, st, z with
  | n :: nm, t :: ty, l :: lk, o :: om, d0 :: d, a0 :: a, s0 :: st, z0 :: z =>
      mkView n t l o d0 a0 s0 z0 :: mk_views nm ty lk om d a st z
  | _, _, _, _, _, _, _, _ => []
  end.

Lemma mk_views_spec : forall n nm ty lk om d a st z,
  length nm = n -> length ty = n -> length lk = n -> length om = n ->
  length d = n -> length a = n -> length st = n -> length z = n ->
  let vs := mk_views nm ty lk om d a st z in
  length vs = n /\ map v_name vs = nm /\ map v_type vs = ty /\ map v_link vs = lk /\ map v_omc vs = om /\
  map v_damping vs = d /\ map v_armature vs = a /\ map v_stiffness vs = st /\ map v_zeropoint vs = z.
Proof.
  induction n as [|n IH]; intros [|? nm] [|? ty] [|? lk] [|? om] [|? d] [|? a] [|? st] [|? z]; simpl; try discriminate;
    intros; [repeat split; auto|].
  destruct (IH nm ty lk om d a st z) as (A & B & C & D & E & F & G1 & H8 & I); try lia.
  repeat split; try f_equal; auto.
Qed.

Lemma splits_length_pieces {V} ws (xs : list V) ps : splits ws xs ps -> length ps = length ws.
Proof. intros [H _]. apply (f_equal (@length nat)) in H. now rewrite map_length in H. Qed.

(** Existence and uniqueness of views. *)
Lemma views_exist s : 
  length (link_types s) = length (link_parents s) -> length (links s) = length (link_parents s) ->
  length (link_names s) = length (link_parents s) -> length (omc s) = length (link_parents s) ->
  (exists qs ds,
    have_widths (qW W) (link_types s) qs /\ have_widths (dW W) (link_types s) ds /\
    length (link_damping s) = list_sum ds /\ length (link_armature s) = list_sum ds /\
    length (link_spring_stiffness s) = list_sum ds /\ length (link_spring_zeropoint s) = list_sum qs) ->
  exists vs, views W s vs.
Proof.
  intros H1 H2 H3 H4 (qs & ds & Hq & Hd & D & A & S & Z).
  pose proof (have_widths_length _ _ _ Hq) as Lq. pose proof (have_widths_length _ _ _ Hd) as Ld.
  pose proof (split_by_splits _ _ D) as PD. pose proof (split_by_splits _ _ A) as PA.
  pose proof (split_by_splits _ _ S) as PS. pose proof (split_by_splits _ _ Z) as PZ.
  destruct (mk_views_spec (length (link_parents s)) (link_names s) (link_types s) (links s) (omc s)
     (split_by ds (link_damping s)) (split_by ds (link_armature s)) (split_by ds (link_spring_stiffness s))
     (split_by qs (link_spring_zeropoint s))) as (E0 & E1 & E2 & E3 & E4 & E5 & E6 & E7 & E8);
    rewrite ?split_by_length; try lia.
  eexists. unfold views. rewrite E1, E2, E3, E4, E5, E6, E7, E8. repeat split; auto.
  exists qs, ds. repeat (split; auto).
Qed.

Lemma wf_views s : wf W s -> exists vs, views W s vs.
Proof. intros H. apply views_exist; apply H. Qed.

Lemma views_unique s vs vs' : views W s vs -> views W s vs' -> vs = vs'.
Proof.
  intros (A1 & A2 & A3 & A4 & A5 & qs & ds & Q & D & A6 & A7 & A8 & A9)
         (B1 & B2 & B3 & B4 & B5 & qs' & ds' & Q' & D' & B6 & B7 & B8 & B9).
  rewrite (have_widths_unique _ _ _ _ Q' Q) in *. rewrite (have_widths_unique _ _ _ _ D' D) in *.
  pose proof (splits_unique _ _ _ _ A6 B6) as E6. pose proof (splits_unique _ _ _ _ A7 B7) as E7.
  pose proof (splits_unique _ _ _ _ A8 B8) as E8. pose proof (splits_unique _ _ _ _ A9 B9) as E9.
  assert (E1 : map v_name vs = map v_name vs') by congruence.
  assert (E2 : map v_type vs = map v_type vs') by congruence.
  assert (E3 : map v_link vs = map v_link vs') by congruence.
  assert (E4 : map v_omc vs = map v_omc vs') by congruence.
  clear -E1 E2 E3 E4 E6 E7 E8 E9. revert vs' E1 E2 E3 E4 E6 E7 E8 E9.
  induction vs as [|v vs IH]; intros [|v' vs']; simpl; try discriminate; auto.
  intros. destruct v, v'; simpl in *.
  injection E1; injection E2; injection E3; injection E4; injection E6; injection E7; injection E8; injection E9.
  intros; subst. f_equal. apply IH; auto.
Qed.

Definition dasz_of (v : view) : dasz := (v_damping v, v_armature v, v_stiffness v, v_zeropoint v).

Lemma combine_map {A B C} (f : A -> B) (g : A -> C) l : combine (map f l) (map g l) = map (fun x => (f x, g x)) l.
Proof. induction l; simpl; congruence. Qed.

Lemma views_per_link_arrays s vs : views W s vs -> per_link_arrays W s = Ok (map dasz_of vs).
Proof.
  intros (A1 & A2 & A3 & A4 & A5 & qs & ds & Q & D & A6 & A7 & A8 & A9).
  assert (Hl : length (link_types s) = num_links s).
  { unfold num_links. rewrite A2, map_length. auto. }
  unfold per_link_arrays.
  assert (S6 : slices_of (dW W) s (link_damping s) = Ok (map v_damping vs)) by (apply slices_of_spec; eauto).
  assert (S7 : slices_of (dW W) s (link_armature s) = Ok (map v_armature vs)) by (apply slices_of_spec; eauto).
  assert (S8 : slices_of (dW W) s (link_spring_stiffness s) = Ok (map v_stiffness vs)) by (apply slices_of_spec; eauto).
  assert (S9 : slices_of (qW W) s (link_spring_zeropoint s) = Ok (map v_zeropoint vs)) by (apply slices_of_spec; eauto).
  rewrite S6, S7, S8, S9. simpl. f_equal. rewrite !combine_map. reflexivity.
Qed.

Lemma per_link_arrays_views s arrs : 
  length (link_types s) = num_links s -> length (links s) = num_links s ->
  length (link_names s) = num_links s -> length (omc s) = num_links s ->
  per_link_arrays W s = Ok arrs -> exists vs, views W s vs /\ arrs = map dasz_of vs.
Proof.
  intros Hl H2 H3 H4 H. 
  assert (V : exists vs, views W s vs).
  { apply views_exist; auto. unfold per_link_arrays in H. inv_bind.
    apply (slices_of_spec _ _ _ _ Hl) in Hb. destruct Hb as (ds & D & S1).
    apply (slices_of_spec _ _ _ _ Hl) in Hb0. destruct Hb0 as (ds2 & D2 & S2).
    apply (slices_of_spec _ _ _ _ Hl) in Hb1. destruct Hb1 as (ds3 & D3 & S3).
    apply (slices_of_spec _ _ _ _ Hl) in Hb2. destruct Hb2 as (qs & Q & S4).
    rewrite (have_widths_unique _ _ _ _ D2 D) in *. rewrite (have_widths_unique _ _ _ _ D3 D) in *.
    exists qs, ds. repeat (split; auto); eapply splits_length; eauto. }
  destruct V as (vs & V). exists vs. split; auto. apply views_per_link_arrays in V. congruence.
Qed.

Lemma views_lengths s vs : views W s vs ->
  length (link_types s) = num_links s /\ length (links s) = num_links s /\
  length (link_names s) = num_links s /\ length (omc s) = num_links s /\ length vs = num_links s.
Proof.
  intros (A1 & A2 & A3 & A4 & A5 & _). unfold num_links. rewrite A1, A2, A3, A4, !map_length. auto.
Qed.

(** ** countS and NoDup *)
Lemma countS_NoDup l : forallb (fun nm => Nat.eqb (countS nm l) 1) l = true <-> NoDup l.
Proof.
  rewrite forallb_forall.
  assert (C : forall x l, countS x l = count_occ string_dec l x).
  { clear. intros x l. unfold countS. induction l as [|y r IH]; simpl; auto.
    destruct (String.eqb_spec x y), (string_dec y x); subst; simpl; congruence. }
  split.
  - intros H. apply (NoDup_count_occ' string_dec). intros x Hx. specialize (H x Hx).
    apply Nat.eqb_eq in H. now rewrite <- C.
  - intros H x Hx. rewrite C. apply Nat.eqb_eq. now apply (NoDup_count_occ' string_dec).
Qed.

(** ** geometry lists *)
Lemma geoms_of_link_attached (gs : list (Z * G)) z : geoms_of_link gs z = attached z gs.
Proof.
  unfold geoms_of_link. induction gs as [|[y g] r IH]; simpl; auto.
  destruct (Z.eq_dec y z) as [->|N].
  - rewrite Z.eqb_refl. simpl. now rewrite IH.
  - apply Z.eqb_neq in N. now rewrite N.
Qed.

Lemma attached_app (gs hs : list (Z * G)) z : attached z (gs ++ hs) = attached z gs ++ attached z hs.
Proof. induction gs as [|[y g] r IH]; simpl; auto. destruct (Z.eq_dec y z); simpl; now rewrite IH. Qed.

Lemma attached_insert (g : Z * G) gs z : attached z (insert_geom g gs) = attached z (g :: gs).
Proof.
  destruct g as [x g]. induction gs as [|[y h] r IH]; simpl; auto.
  destruct (x <=? y) eqn:E; simpl; auto. simpl in IH. rewrite IH. apply Z.leb_gt in E.
  destruct (Z.eq_dec x z), (Z.eq_dec y z); auto; try lia.
Qed.

Lemma attached_sort (gs : list (Z * G)) z : attached z (sort_geoms gs) = attached z gs.
Proof.
  induction gs as [|[y g] r IH]; simpl; auto.
  change (sort_geoms ((y, g) :: r)) with (insert_geom (y, g) (sort_geoms r)).
  rewrite attached_insert. simpl. now rewrite IH.
Qed.

Fixpoint sortedb_from (gs : list (Z * G)) : Prop :=
  match gs with
  | [] => True
  | (x, _) :: r => (forall y h, In (y, h) r -> x <= y) /\ sortedb_from r
  end.

Lemma sorted_geoms_alt (gs : list (Z * G)) : sorted_geoms gs <-> sortedb_from gs.
Proof.
  unfold sorted_geoms. induction gs as [|[x g] r IH]; simpl.
  - split; auto. intros _ [|i]; discriminate.
  - rewrite <- IH. split.
    + intros H. split.
      * intros y h Hin. apply In_nth_error in Hin. destruct Hin as [j Hj].
        apply (H 0%nat (S j) x y g h); simpl; auto. lia.
      * intros i j a b c d Hij Hi Hj. apply (H (S i) (S j) a b c d); auto. lia.
    + intros [H1 H2] [|i] [|j] a b c d Hij Hi Hj; simpl in *; try lia.
      * assert (a = b) by congruence. lia.
      * injection Hi as <- <-. apply nth_error_In in Hj. eapply H1; eauto.
      * apply (H2 i j a b c d); auto. lia.
Qed.

Lemma In_insert (g h : Z * G) gs : In h (insert_geom g gs) <-> h = g \/ In h gs.
Proof.
  induction gs as [|k r IH]; simpl; [intuition|]. destruct (fst g <=? fst k); simpl; [intuition|].
  rewrite IH. intuition.
Qed.

Lemma In_sort (h : Z * G) gs : In h (sort_geoms gs) <-> In h gs.
Proof. induction gs as [|g r IH]; simpl; [tauto|]. rewrite In_insert, IH. intuition. Qed.

Lemma sort_sorted (gs : list (Z * G)) : sorted_geoms (sort_geoms gs).
Proof.
  rewrite sorted_geoms_alt. induction gs as [|[x g] r IH]; simpl; auto.
  revert IH. generalize (sort_geoms r) as l. induction l as [|[y h] l IHl]; simpl.
  - intros _. split; auto. intros ? ? [].
  - intros [H1 H2]. destruct (x <=? y) eqn:E; simpl.
    + apply Z.leb_le in E. split; [|auto]. intros y' h' [X|X]; [injection X as <- <-; lia|].
      apply H1 in X. lia.
    + apply Z.leb_gt in E. split; [|auto]. intros y' h' X. apply In_insert in X.
      destruct X as [X|X]; [injection X as -> ->; lia|]. eauto.
Qed.

(** A sorted list is determined by its sublists per key. *)
Lemma sorted_unique (gs hs : list (Z * G)) :
  sorted_geoms gs -> sorted_geoms hs -> (forall z, attached z gs = attached z hs) -> gs = hs.
Proof.
  rewrite !sorted_geoms_alt. revert hs. induction gs as [|[x g] r IH]; intros hs Hs Ht E.
  - destruct hs as [|[y h] hs]; auto. specialize (E y). simpl in E.
    destruct (Z.eq_dec y y); [discriminate|tauto].
  - destruct hs as [|[y h] hs].
    { specialize (E x). simpl in E. destruct (Z.eq_dec x x); [discriminate|tauto]. }
    simpl in Hs, Ht. destruct Hs as [H1 H2], Ht as [H3 H4].
    assert (IN : forall z (l : list (Z * G)), attached z l <> [] -> exists g0, In (z, g0) l).
    { clear. intros z l. induction l as [|[y g] r IH]; simpl; [tauto|].
      destruct (Z.eq_dec y z) as [->|]; [eauto|]. intros H. destruct (IH H) as [g0 X]. eauto. }
    assert (x = y).
    { assert (x <= y).
      { pose proof (E y) as Ey. simpl in Ey. destruct (Z.eq_dec y y); [|tauto].
        destruct (Z.eq_dec x y); [lia|].
        destruct (IN y r) as [g0 X]; [congruence|]. eapply H1; eauto. }
      assert (y <= x).
      { pose proof (E x) as Ex. simpl in Ex. destruct (Z.eq_dec x x); [|tauto].
        destruct (Z.eq_dec y x); [lia|].
        destruct (IN x hs) as [g0 X]; [congruence|]. eapply H3; eauto. }
      lia. }
    subst y. pose proof (E x) as Ex. simpl in Ex. destruct (Z.eq_dec x x); [|tauto].
    injection Ex as -> Ex. f_equal. apply IH; auto. intros z. specialize (E z). simpl in E.
    destruct (Z.eq_dec x z); [congruence|auto].
Qed.

Lemma sort_of_sorted (gs : list (Z * G)) : sorted_geoms gs -> sort_geoms gs = gs.
Proof. intros H. apply sorted_unique; auto using sort_sorted. intros. apply attached_sort. Qed.

Lemma sort_app_sorted (gs hs : list (Z * G)) : sort_geoms (gs ++ sort_geoms hs) = sort_geoms (gs ++ hs).
Proof.
  apply sorted_unique; auto using sort_sorted. intros z. rewrite !attached_sort, !attached_app, attached_sort. auto.
Qed.

(** ** parse *)
Variable ops : parse_ops K L G.

Definition parse_post s : System K L G O :=
  set_links_geoms s
    (map (fun il => with_inertia ops (attached (Z.of_nat (fst il)) (geoms s)) (snd il)) (enum (links s)))
    (sort_geoms (geoms s)).

Lemma mapM_check_dasz vs qs ds :
  have_widths (qW W) (map v_type vs) qs -> have_widths (dW W) (map v_type vs) ds ->
  map (@length K) (map v_damping vs) = ds -> map (@length K) (map v_armature vs) = ds ->
  map (@length K) (map v_stiffness vs) = ds -> map (@length K) (map v_zeropoint vs) = qs ->
  ((exists us, mapM (fun ta => check_dasz W ops (fst ta) (snd ta)) (combine (map v_type vs) (map dasz_of vs)) = Ok us)
   <-> Forall (fun v => is_free_or_cor_or_spherical (v_type v) = true ->
                        unit_quat_ok ops (firstn 4 (v_zeropoint v)) = true) vs).
Proof.
  rewrite combine_map. unfold have_widths.
  revert qs ds. induction vs as [|v vs IH]; intros qs ds Q D E1 E2 E3 E4; cbn [map mapM fst snd] in *.
  - split; eauto.
  - destruct ds as [|dn ds]; [discriminate|]. destruct qs as [|qn qs]; [discriminate|].
    injection E1 as X1 X1'. injection E2 as X2 X2'. injection E3 as X3 X3'. injection E4 as X4 X4'.
    assert (H1 : qW W (v_type v) = Some qn) by (inversion Q; auto).
    assert (H2 : dW W (v_type v) = Some dn) by (inversion D; auto).
    assert (Q' : Forall2 (fun t n => qW W t = Some n) (map v_type vs) qs) by (inversion Q; auto).
    assert (D' : Forall2 (fun t n => dW W t = Some n) (map v_type vs) ds) by (inversion D; auto).
    clear Q D.
    assert (C : check_dasz W ops (v_type v) (dasz_of v) =
       if is_free_or_cor_or_spherical (v_type v) then assert_ (unit_quat_ok ops (firstn 4 (v_zeropoint v))) else Ok tt).
    { unfold check_dasz, dasz_of, wget. rewrite H1, H2. simpl.
      rewrite X1, X2, X3, X4, !Nat.eqb_refl. reflexivity. }
    rewrite C. specialize (IH qs ds Q' D' X1' X2' X3' X4').
    split.
    + intros [us Hu]. inv_bind. constructor.
      * intros T. rewrite T in Hb. destruct (unit_quat_ok ops _); [auto|discriminate].
      * apply IH; eauto.
    + intros F. apply Forall_cons_iff in F. destruct F as [F1 F2]. apply IH in F2. destruct F2 as [us Hu].
      exists (tt :: us). rewrite Hu. destruct (is_free_or_cor_or_spherical (v_type v)); [rewrite F1 by auto|]; reflexivity.
Qed.

Theorem parse_iff s s' :
  parse W ops s = Ok s' <->
  s' = parse_post s /\ NoDup (link_names s) /\
  Forall (fun g => -1 <= fst g < Z.of_nat (num_links s)) (geoms s) /\
  exists vs, views W s vs /\ Forall (valid_view ops) vs.
Proof.
  unfold parse. split.
  - intros H. inv_bind. rename Ea into En, Ea0 into Eg, Ea1 into Ep, Ea2 into Eu, Ea3 into Eo, Ea4 into Ea. apply andb_true_iff in Ea. destruct Ea as [Ea Ea']. apply Nat.eqb_eq in Ea, Ea', Eo, En.
    split.
    { unfold parse_post. f_equal. apply map_ext. intros. f_equal. apply geoms_of_link_attached. }
    split; [now apply countS_NoDup|]. split.
    { apply forallb_Forall in Eg. eapply Forall_impl; [|exact Eg]. intros g X.
      apply andb_true_iff in X. destruct X as [X Y]. apply Z.leb_le in X. apply Z.ltb_lt in Y. lia. }
    fold (num_links s) in Ea.
    destruct (per_link_arrays_views s a7) as (vs & V & ->); auto; try lia.
    exists vs. split; auto. destruct V as (A1 & A2 & A3 & A4 & A5 & qs & ds & Q & D & A6 & A7 & A8 & A9).
    rewrite A2 in *.
    assert (F : Forall (fun v => is_free_or_cor_or_spherical (v_type v) = true ->
                        unit_quat_ok ops (firstn 4 (v_zeropoint v)) = true) vs).
    { apply (mapM_check_dasz vs qs ds); auto; try apply A6; try apply A7; try apply A8; try apply A9. eauto. }
    rewrite A3 in Ep. rewrite forallb_forall in Ep. rewrite Forall_forall in *. intros v Hv. split.
    + apply Ep. now apply in_map.
    + now apply F.
  - intros (-> & ND & FG & vs & V & F). destruct (views_lengths _ _ V) as (L1 & L2 & L3 & L4 & L5).
    assert (PA := views_per_link_arrays _ _ V).
    destruct V as (A1 & A2 & A3 & A4 & A5 & qs & ds & Q & D & A6 & A7 & A8 & A9).
    fold (num_links s). rewrite L1, L2, L4, Nat.eqb_refl. simpl.
    apply countS_NoDup in ND. rewrite ND. simpl.
    assert (P : forallb (pos_ok ops) (links s) = true).
    { rewrite A3. apply forallb_forall. intros l Hl. apply in_map_iff in Hl. destruct Hl as (v & <- & Hv).
      rewrite Forall_forall in F. now apply F. }
    rewrite P. simpl.
    assert (Gm : forallb (fun g => (-1 <=? fst g) && (fst g <? Z.of_nat (num_links s))) (geoms s) = true).
    { apply forallb_Forall. eapply Forall_impl; [|exact FG]. intros g X. simpl in X.
      apply andb_true_iff. split; [apply Z.leb_le | apply Z.ltb_lt]; lia. }
    rewrite Gm. simpl.
    assert (IQ : idx_slices (qW W) s = Ok (slices_from 0 qs)) by (apply (idx_slices_spec _ _ _ L1); eauto).
    assert (ID : idx_slices (dW W) s = Ok (slices_from 0 ds)) by (apply (idx_slices_spec _ _ _ L1); eauto).
    rewrite IQ, ID. simpl. rewrite L3, Nat.eqb_refl. simpl. rewrite PA. simpl. rewrite A2 in *.
    assert (U : exists us, mapM (fun ta => check_dasz W ops (fst ta) (snd ta)) (combine (map v_type vs) (map dasz_of vs)) = Ok us).
    { apply (mapM_check_dasz vs qs ds); auto; try apply A6; try apply A7; try apply A8; try apply A9.
      eapply Forall_impl; [|exact F]. intros v X. apply X. }
    destruct U as [us U]. rewrite U. simpl. f_equal. unfold parse_post. f_equal. apply map_ext.
    intros. f_equal. apply geoms_of_link_attached.
Qed.

(** Views with another link payload. *)
Definition set_v_link (v : view) (l : L) : view :=
  mkView (v_name v) (v_type v) l (v_omc v) (v_damping v) (v_armature v) (v_stiffness v) (v_zeropoint v).

Definition inertia_views (gs : list (Z * G)) (vs : list view) : list view :=
  map (fun iv => set_v_link (snd iv) (with_inertia ops (attached (Z.of_nat (fst iv)) gs) (v_link (snd iv)))) (enum vs).

Lemma map_enum_snd {A B} (f : A -> B) (l : list A) k : map (fun ia => f (snd ia)) (enum_from k l) = map f l.
Proof. revert k; induction l; intros; simpl; f_equal; auto. Qed.

Lemma enum_from_map {A B} (f : A -> B) l k :
  enum_from k (map f l) = map (fun ia => (fst ia, f (snd ia))) (enum_from k l).
Proof. revert k; induction l; intros; simpl; f_equal; auto. Qed.

Lemma parse_post_views s vs : views W s vs -> views W (parse_post s) (inertia_views (geoms s) vs).
Proof.
  intros (A1 & A2 & A3 & A4 & A5 & qs & ds & Q & D & A6 & A7 & A8 & A9).
  unfold views, parse_post, inertia_views, enum. simpl. rewrite !map_map. simpl.
  rewrite !map_enum_snd, map_length, length_enum_from. repeat split; auto.
  - rewrite A3, enum_from_map, map_map. reflexivity.
  - exists qs, ds. repeat (split; auto).
Qed.

Lemma attached_inertia_fix s :
  (forall i l, nth_error (links s) i = Some l -> with_inertia ops (attached (Z.of_nat i) (geoms s)) l = l) ->
  sorted_geoms (geoms s) -> parse_post s = s.
Proof.
  intros H HS. unfold parse_post. rewrite sort_of_sorted by auto.
  replace (map _ _) with (links s). { destruct s; reflexivity. }
  apply nth_error_ext. intros i. rewrite nth_error_map. unfold enum. rewrite nth_error_enum_from.
  destruct (nth_error (links s) i) as [l|] eqn:E; simpl; auto. f_equal. symmetry. auto.
Qed.

Lemma parsed_parse s : parsed W ops s -> parse W ops s = Ok s.
Proof.
  intros [WF HS HI (vs & V & F)]. apply parse_iff. rewrite attached_inertia_fix by auto.
  split; auto. split; [apply WF|]. split; [apply WF|]. eauto.
Qed.

Hypothesis laws : ops_laws ops.

Lemma Forall_enum_map {A B} (f : nat * A -> B) (P : B -> Prop) l k :
  (forall i a, In a l -> P (f (i, a))) -> Forall P (map f (enum_from k l)).
Proof.
  revert k; induction l as [|x r IH]; intros k H; simpl; constructor.
  - apply H. now left.
  - apply IH. intros. apply H. now right.
Qed.

Lemma parse_parsed s s' : parse W ops s = Ok s' -> topo (link_parents s) -> parsed W ops s'.
Proof.
  intros H T. apply parse_iff in H. destruct H as (-> & ND & FG & vs & V & F).
  destruct (views_lengths _ _ V) as (L1 & L2 & L3 & L4 & L5).
  constructor.
  - constructor; simpl; auto; try (fold (num_links s); auto).
    + rewrite map_length. unfold enum. rewrite length_enum_from. auto.
    + rewrite Forall_forall in *. intros g Hg. apply (proj1 (In_sort _ _)) in Hg. now apply FG.
    + destruct V as (A1 & A2 & A3 & A4 & A5 & qs & ds & Q & D & A6 & A7 & A8 & A9).
      exists qs, ds. repeat (split; auto); eapply splits_length; eauto.
  - apply sort_sorted.
  - simpl. intros i l Hi. rewrite attached_sort. rewrite nth_error_map in Hi. unfold enum in Hi.
    rewrite nth_error_enum_from in Hi. destruct (nth_error (links s) i) as [l0|]; [|discriminate].
    simpl in Hi. injection Hi as <-. apply laws.
  - exists (inertia_views (geoms s) vs). split; [now apply parse_post_views|].
    unfold inertia_views, enum. apply Forall_enum_map. intros i v Hv. rewrite Forall_forall in F.
    destruct (F v Hv) as [X Y]. split; simpl; auto. rewrite (ol_pos ops laws). auto.
Qed.

End Views.
