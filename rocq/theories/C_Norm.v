(** * C76: the normalizer built from a generator. *)
From Coq Require Import Reals Lra String ZArith Lia Bool Arith List Permutation.
From Verif Require Import Prelude M_TrainStep C_TrainStep M_Norm S_Norm.
Import ListNotations.
Local Open Scope nat_scope.

Lemma same_names_refl a : same_names a a = true.
Proof. induction a as [|x a IH]; [reflexivity|]. cbn. now rewrite String.eqb_refl. Qed.
Lemma shaped_names sh bs x : shaped sh bs x -> names_of x = map fst sh.
Proof. unfold names_of. induction 1 as [|[k l] [k' f] x sh (E & _) _ IH]; [reflexivity|]. cbn in *. now rewrite E, IH. Qed.
Lemma leaf_data_nil j : leaf_data [] j = [].
Proof. destruct j; reflexivity. Qed.

Lemma join_shaped sh a b x y : shaped sh a x -> shaped sh b y ->
  exists z, map2 join x y = Ok z /\ shaped sh (a + b) z /\ forall j, leaf_data z j = leaf_data x j ++ leaf_data y j.
Proof.
  intros X Y. unfold map2. rewrite (shaped_names _ _ _ X), (shaped_names _ _ _ Y), same_names_refl. eexists. split; [reflexivity|].
  revert y Y. induction X as [|[k l] [k' f] x sh (E & D & L & R & N) X IH]; intros y Y.
  - inversion Y; subst. split; [constructor|]. intros [|j]; reflexivity.
  - inversion Y as [|[k2 l2] ? y' ? (E2 & D2 & L2 & R2 & N2) Y']; subst. cbn [fst snd combine map] in *. destruct (IH _ Y') as [I1 I2]. split.
    + constructor; [|exact I1]. cbn [fst snd]. unfold join. cbn [l_ndim l_data]. rewrite app_length. repeat split; auto.
      * unfold regular. apply Forall_app. split; auto.
      * apply Forall_app. split; auto.
    + intros [|j]; [reflexivity|]. exact (I2 j).
Qed.
Lemma batch_shaped sh bs : forall xs x, shaped sh bs x -> Forall (shaped sh bs) xs -> forall c, shaped sh c x ->
  exists z, foldM (map2 join) x xs = Ok z /\ shaped sh (c + length xs * bs) z /\
    forall j, leaf_data z j = leaf_data x j ++ concat (map (fun x => leaf_data x j) xs).
Proof.
  intros xs x _. revert x. induction xs as [|y xs IH]; intros x F c X; cbn [foldM length map concat].
  - exists x. split; [reflexivity|]. rewrite Nat.add_0_r. split; [exact X|]. intros j. now rewrite app_nil_r.
  - inversion F as [|? ? Y F']; subst. destruct (join_shaped sh c bs x y X Y) as (z & E & Z & D). rewrite E. cbn [bind].
    destruct (IH z F' (c + bs) Z) as (z' & E' & Z' & D'). exists z'. split; [exact E'|]. split; [now replace (c + S (length xs) * bs) with (c + bs + length xs * bs) by lia|].
    intros j. now rewrite D', D, app_assoc.
Qed.

Lemma NoDup_first {A} n : forall l : list A, NoDup l -> NoDup (firstn n l).
Proof.
  induction n as [|n IH]; intros l H; [constructor|]. destruct H as [|x l NI H]; [constructor|]. cbn [firstn]. constructor; auto.
  intros I. apply NI. rewrite <- (firstn_skipn n l). apply in_or_app. now left.
Qed.
Section Gen.
Context {Key : Type}.
Variable split : Key -> Key * Key.
Variable key0 : Key.
Variable generator : Key -> tree.
Variable perm : nat -> list nat.
Hypothesis perm_ok : forall k, Permutation (perm k) (seq 0 k).
Variable sh : list (string * nat).
Variable bs : nat.
Hypothesis gen_ok : forall k, shaped sh bs (generator k).
Notation sample := (sample split key0 generator perm).
Notation make_normalizer := (make_normalizer split key0 generator perm).

Lemma collect_keys n : forall k, collect split generator n k = map generator (keys split n k).
Proof. induction n as [|n IH]; intros k; [reflexivity|]. cbn [collect keys map]. destruct (split k) as [k' c]. cbn [fst snd]. now rewrite IH. Qed.
Lemma keys_length n : forall k, length (keys split n k) = n.
Proof. induction n as [|n IH]; intros k; [reflexivity|]. cbn [keys length]. now rewrite IH. Qed.

Lemma permute_chosen n (l : leaf) : n <= length (l_data l) -> chosen n (l_data l) (firstn n (l_data (permute perm l))).
Proof.
  intros L. exists (firstn n (perm (length (l_data l)))). pose proof (perm_ok (length (l_data l))) as P.
  assert (LP : length (perm (length (l_data l))) = length (l_data l)) by (rewrite (Permutation_length P); apply seq_length).
  split; [rewrite firstn_length; lia|]. split.
  - assert (ND : NoDup (perm (length (l_data l)))) by (eapply Permutation_NoDup; [apply Permutation_sym; exact P|apply seq_NoDup]).
    now apply NoDup_first.
  - cbn [permute l_data]. rewrite firstn_map.
    assert (IN : forall i, In i (firstn n (perm (length (l_data l)))) -> i < length (l_data l)).
    { intros i I. assert (J : In i (perm (length (l_data l)))) by (rewrite <- (firstn_skipn n); apply in_or_app; now left).
      eapply Permutation_in in J; [|exact P]. apply in_seq in J. lia. }
    induction (firstn n (perm (length (l_data l)))) as [|i ps IH]; cbn [map]; constructor.
    + apply nth_error_nth'. apply IN. now left.
    + apply IH. intros j J. apply IN. now right.
Qed.
Lemma chosen_Forall {A} (P : A -> Prop) n a b : chosen n a b -> Forall P a -> Forall P b /\ length b = n.
Proof.
  intros (ps & L & _ & F) Fa. split.
  - apply Forall_forall. intros s I. apply In_nth_error in I. destruct I as [j J].
    assert (exists i, nth_error a i = Some s) as [i E].
    { clear - F J. revert j J. induction F as [|i s' ps b E F IH]; intros [|j] J; try discriminate; cbn in J.
      - injection J as ->. eauto.
      - eauto. }
    rewrite Forall_forall in Fa. apply Fa. eapply nth_error_In; eauto.
  - rewrite <- L. symmetry. eapply Forall2_length; eauto.
Qed.

(** The statistics are computed from exactly [n] different sequences among those of the fewest calls of the generator that give
    at least [n]; every leaf has the shape of the generator's. *)
Theorem C76_sample n : 0 < n -> 0 < bs -> sh <> [] ->
  exists c xs, sample n = Ok xs /\ shaped sh n xs /\ (c - 1) * bs < n /\ n <= c * bs /\
    forall j, j < length sh ->
      chosen n (concat (map (fun k => leaf_data (generator k) j) (keys split c key0))) (leaf_data xs j).
Proof.
  intros N B SH. unfold M_Norm.sample.
  assert (FL : exists l, first_leaf (generator key0) = Ok l /\ l_ndim l = 3 /\ length (l_data l) = bs).
  { destruct (gen_ok key0) as [|[k l] kf x sh0 (E & D & L & _) X]; [contradiction|]. exists l. auto. }
  destruct FL as (l & EF & D & L). rewrite EF. cbn [bind]. rewrite D, L. cbn [Nat.eqb assert_ bind].
  unfold ceil_div. rewrite (proj2 (Nat.eqb_neq bs 0)) by lia. cbn [bind].
  set (c := (n + (bs - 1)) / bs). exists c.
  assert (C1 : (c - 1) * bs < n).
  { assert (c * bs <= n + (bs - 1)) by (unfold c; rewrite Nat.mul_comm; apply Nat.mul_div_le; lia). destruct c; [cbn; lia|]. cbn [Nat.mul] in *. rewrite Nat.sub_succ, Nat.sub_0_r. lia. }
  assert (C2 : n <= c * bs).
  { assert (n + (bs - 1) < bs * S c) by (unfold c; apply Nat.mul_succ_div_gt; lia). lia. }
  assert (C0 : 0 < c) by (destruct c; [cbn in C2; lia|lia]).
  rewrite collect_keys. pose proof (keys_length c key0) as LK. destruct (keys split c key0) as [|k1 ks] eqn:EK; [cbn in LK; lia|].
  cbn [map tree_batch].
  destruct (batch_shaped sh bs (map generator ks) (generator k1)) with (c := bs) as (z & Ez & Sz & Dz); auto.
  { apply Forall_map, Forall_forall. intros y _. apply gen_ok. }
  rewrite Ez. cbn [bind]. rewrite map_length in Sz.
  replace (bs + length ks * bs) with (c * bs) in Sz by (cbn in LK; rewrite <- LK; cbn; lia).
  set (tot := c * bs) in *.
  assert (W : forall z sh1, shaped sh1 tot z -> exists xs, mapM (fun kl : string * leaf => do l <- slice n (permute perm (snd kl)); Ok (fst kl, l)) z = Ok xs /\ shaped sh1 n xs /\
    forall j, j < length sh1 -> chosen n (leaf_data z j) (leaf_data xs j)).
  { clear - perm_ok C2. induction 1 as [|[k l] [k' f] x sh1 (E & D & L & R & NE) X IH].
    - exists []. split; [reflexivity|]. split; [constructor|]. intros j J. cbn in J. lia.
    - destruct IH as (xs & I1 & I2 & I3). cbn [fst snd] in *.
      assert (CH : chosen n (l_data l) (firstn n (l_data (permute perm l)))) by (apply permute_chosen; lia).
      exists ((k, mkLeaf (l_ndim l) (firstn n (l_data (permute perm l)))) :: xs).
      split; [|split].
      + cbn [mapM fst snd]. unfold slice at 1. cbn [permute l_data]. rewrite map_length.
        replace (length (perm (length (l_data l)))) with (length (l_data l)) by (rewrite (Permutation_length (perm_ok _)), seq_length; reflexivity).
        rewrite (proj2 (Nat.leb_le _ _)) by lia. cbn [bind]. rewrite I1. reflexivity.
      + constructor; [|exact I2]. cbn [fst snd l_data l_ndim]. destruct (chosen_Forall _ _ _ _ CH R) as [F1 F2]. destruct (chosen_Forall _ _ _ _ CH NE) as [F3 _].
        repeat split; auto.
      + intros [|j] J; [exact CH|]. apply I3. cbn in J. lia. }
  destruct (W z _ Sz) as (xs & W1 & W2 & W3). exists xs. split; [exact W1|]. split; [exact W2|]. split; [exact C1|]. split; [exact C2|].
  intros j J. specialize (W3 j J). rewrite Dz in W3. cbn [map concat]. rewrite map_map in W3. exact W3.
Qed.
End Gen.

(** ** Applying the normalizer *)
Lemma mean_rmean l : rmean l = mean l.
Proof. reflexivity. Qed.
Lemma std_deviation l : std l = deviation l.
Proof. reflexivity. Qed.
Lemma sum_affine m c l : (fold_right Rplus 0 (map (fun x => (x - m) / c) l) = (fold_right Rplus 0 l - INR (length l) * m) / c)%R.
Proof.
  induction l as [|x l IH]; [cbn; unfold Rdiv; ring|]. cbn [map fold_right length]. rewrite IH, S_INR. unfold Rdiv. ring.
Qed.
Lemma mean_affine m c l : l <> [] -> mean (map (fun x => ((x - m) / c)%R) l) = ((mean l - m) / c)%R.
Proof.
  intros N. unfold mean. rewrite sum_affine, map_length. assert (INR (length l) <> 0)%R by (apply not_0_INR; destruct l; [contradiction|discriminate]).
  unfold Rdiv. generalize (/ c)%R. intros ci. field. auto.
Qed.
Lemma mean_scale c l : mean (map (fun x => (x * c)%R) l) = (mean l * c)%R.
Proof.
  unfold mean. rewrite map_length. assert (E : fold_right Rplus 0%R (map (fun x => (x * c)%R) l) = (fold_right Rplus 0 l * c)%R).
  { induction l as [|x l IH]; cbn [map fold_right]; [ring|]. rewrite IH. ring. }
  rewrite E. unfold Rdiv. ring.
Qed.
Lemma mean_nonneg l : Forall (fun x => 0 <= x)%R l -> (0 <= mean l)%R.
Proof.
  intros F. unfold mean. assert (0 <= fold_right Rplus 0 l)%R by (induction F; cbn [fold_right]; lra).
  destruct l as [|x l]; [cbn; unfold Rdiv; rewrite Rmult_0_l; lra|]. apply Rmult_le_pos; auto. left. apply Rinv_0_lt_compat, lt_0_INR. cbn. lia.
Qed.
Lemma deviation_affine m c l : l <> [] -> (0 < c)%R -> deviation (map (fun x => ((x - m) / c)%R) l) = (deviation l / c)%R.
Proof.
  intros N C. unfold deviation. rewrite mean_affine, map_map by auto.
  rewrite (map_ext (fun x => Rsqr ((x - m) / c - (mean l - m) / c)) (fun x => (Rsqr (x - mean l) * (/ (c * c)))%R)).
  2:{ intros x. unfold Rsqr. field. lra. }
  rewrite <- (map_map (fun x => Rsqr (x - mean l)) (fun x => (x * / (c * c))%R)), mean_scale.
  rewrite sqrt_mult.
  - rewrite sqrt_inv, sqrt_square by lra. reflexivity.
  - apply mean_nonneg, Forall_map, Forall_forall. intros x _. apply Rle_0_sqr.
  - left. apply Rinv_0_lt_compat. nra.
Qed.
Lemma deviation_nonneg l : (0 <= deviation l)%R.
Proof. apply sqrt_pos. Qed.
Lemma eps_pos : (0 < eps)%R.
Proof. unfold eps. lra. Qed.

Definition row_map (s : list R * list R) (row : list R) : list R :=
  map (fun xms => ((fst xms - fst (snd xms)) / (snd (snd xms) + eps))%R) (combine row (combine (fst s) (snd s))).
Lemma mapM_total {A B} (f : A -> result B) (g : A -> B) l : (forall a, In a l -> f a = Ok (g a)) -> mapM f l = Ok (map g l).
Proof.
  induction l as [|a l IH]; intros H; [reflexivity|]. cbn [mapM map]. rewrite H by now left. rewrite IH by (intros; apply H; now right). reflexivity.
Qed.
Lemma norm_leaf_Ok F l s : regular F (l_data l) -> length (fst s) = F -> length (snd s) = F ->
  norm_leaf l s = Ok (mkLeaf (l_ndim l) (map (map (row_map s)) (l_data l))).
Proof.
  intros R L1 L2. unfold norm_leaf. rewrite (mapM_total _ (map (row_map s))); [reflexivity|].
  intros a I. apply mapM_total. intros row J. unfold regular in R. rewrite Forall_forall in R. specialize (R a I). rewrite Forall_forall in R. specialize (R row J).
  unfold norm_row. rewrite R, L1, L2, Nat.eqb_refl. reflexivity.
Qed.
Lemma row_map_nth F s row : length row = F -> length (fst s) = F -> length (snd s) = F ->
  length (row_map s row) = F /\ forall f, f < F -> nth f (row_map s row) 0%R = ((nth f row 0 - nth f (fst s) 0) / (nth f (snd s) 0 + eps))%R.
Proof.
  intros L L1 L2. unfold row_map. split; [rewrite map_length, !combine_length; lia|]. intros f Hf.
  set (g := fun xms : R * (R * R) => ((fst xms - fst (snd xms)) / (snd (snd xms) + eps))%R).
  rewrite (nth_indep _ 0%R (g (0, (0, 0))%R)) by (rewrite map_length, !combine_length; lia).
  rewrite map_nth, combine_nth by (rewrite combine_length; lia). rewrite combine_nth by lia. reflexivity.
Qed.

Lemma leaf_stats_nth l F n : 0 < n -> length (l_data l) = n -> regular F (l_data l) -> Forall (fun s => s <> []) (l_data l) ->
  length (fst (leaf_stats l)) = F /\ length (snd (leaf_stats l)) = F /\
  forall f, f < F -> nth f (fst (leaf_stats l)) 0%R = mean (values f (l_data l)) /\ nth f (snd (leaf_stats l)) 0%R = deviation (values f (l_data l)).
Proof.
  intros N L R NE. assert (NF : n_features (l_data l) = F).
  { unfold n_features. destruct (l_data l) as [|a d]; [cbn in L; lia|]. inversion NE as [|? ? NA _]; subst. inversion R as [|? ? RA _]; subst.
    destruct a as [|row a]; [contradiction|]. now inversion RA. }
  unfold leaf_stats. rewrite NF. cbn [fst snd]. rewrite !map_length, seq_length. split; [reflexivity|]. split; [reflexivity|].
  intros f Hf. split.
  - rewrite (nth_indep _ 0%R (rmean (column 0 (l_data l)))) by now rewrite map_length, seq_length.
    rewrite (map_nth (fun f => rmean (column f (l_data l)))), seq_nth by auto. reflexivity.
  - rewrite (nth_indep _ 0%R (std (column 0 (l_data l)))) by now rewrite map_length, seq_length.
    rewrite (map_nth (fun f => std (column f (l_data l)))), seq_nth by auto. reflexivity.
Qed.

Lemma values_rescaled F (m d : nat -> R) a b : rescaled F m d a b -> forall f, f < F ->
  values f b = map (fun x => ((x - m f) / d f)%R) (values f a).
Proof.
  intros H f Hf. unfold values. induction H as [|s s' a b Hs H IH]; [reflexivity|]. cbn [concat]. rewrite !map_app, IH. f_equal.
  clear - Hs Hf. induction Hs as [|r r' s s' [_ E] Hs IH]; [reflexivity|]. cbn [map]. rewrite IH, E by auto. reflexivity.
Qed.
Lemma rescaled_map F s a : regular F a -> length (fst s) = F -> length (snd s) = F ->
  rescaled F (fun f => nth f (fst s) 0%R) (fun f => (nth f (snd s) 0 + eps)%R) a (map (map (row_map s)) a) /\ regular F (map (map (row_map s)) a).
Proof.
  intros R L1 L2. split.
  - unfold rescaled. induction R as [|x a Rx R IH]; cbn [map]; constructor; auto. clear - Rx L1 L2. induction Rx as [|row x E Rx IH]; cbn [map]; constructor; auto.
    now apply row_map_nth.
  - unfold regular. apply Forall_map. revert R. apply Forall_impl. intros x Rx. apply Forall_map. revert Rx. apply Forall_impl. intros row E.
    now apply row_map_nth.
Qed.

(** The normalizer for the sample [xs], applied to any data of the same kind, shifts every feature by its mean in the sample
    and divides it by its standard deviation there plus 1e-8, whatever the numbers of sequences and times; nothing else changes. *)
Lemma elementwise sh n xs b x : 0 < n -> shaped sh n xs -> shaped sh b x ->
  exists y, normalizer (map (fun kl => (fst kl, leaf_stats (snd kl))) xs) x = Ok y /\ shaped sh b y /\
    forall j k F, nth_error sh j = Some (k, F) ->
      rescaled F (fun f => mean (values f (leaf_data xs j))) (fun f => (deviation (values f (leaf_data xs j)) + eps)%R) (leaf_data x j) (leaf_data y j).
Proof.
  intros N XS X. unfold normalizer, map2.
  assert (NM : names_of (map (fun kl : string * leaf => (fst kl, leaf_stats (snd kl))) xs) = map fst sh).
  { rewrite <- (shaped_names _ _ _ XS). unfold names_of. now rewrite map_map. }
  rewrite NM, (shaped_names _ _ _ X), same_names_refl. cbn [bind]. clear NM.
  revert x X. induction XS as [|[k0 l0] [k1 F] xs sh (E & D & L & R & NE) XS IH]; intros x X.
  - inversion X; subst. exists []. split; [reflexivity|]. split; [constructor|]. intros [|j] k F H; discriminate.
  - inversion X as [|[k2 l2] ? x' ? (E2 & D2 & L2 & R2 & N2) X']; subst. cbn [fst snd] in *. destruct (IH x' X') as (y & I1 & I2 & I3).
    destruct (leaf_stats_nth l0 F (length (l_data l0)) N eq_refl R NE) as (S1 & S2 & S3).
    exists ((k2, mkLeaf (l_ndim l2) (map (map (row_map (leaf_stats l0))) (l_data l2))) :: y).
    destruct (rescaled_map F (leaf_stats l0) (l_data l2) R2 S1 S2) as [RS RG].
    split; [|split].
    + cbn [map combine mapM fst snd]. rewrite (norm_leaf_Ok F) by auto. cbn [bind]. rewrite I1. reflexivity.
    + constructor; [|exact I2]. cbn [fst snd l_ndim l_data]. rewrite map_length. repeat split; auto.
      apply Forall_map. revert N2. apply Forall_impl. intros [|r a] H; [contradiction|discriminate].
    + intros [|j] k F' H; cbn [nth_error] in H; [|exact (I3 j k F' H)]. injection H as <- <-.
      unfold leaf_data. cbn [nth_error snd l_data]. clear - RS S3. unfold rescaled in *.
      induction RS as [|s s' a b Hs H IH]; constructor; auto. clear - Hs S3. induction Hs as [|r r' s s' [E1 E2] Hs IH]; constructor; auto.
      split; [exact E1|]. intros f Hf. destruct (S3 f Hf) as [<- <-]. now apply E2.
Qed.

(** The sample itself comes out with mean zero and standard deviation d / (d + 1e-8), which is below one and zero exactly for
    constant features. *)
Lemma standardised sh n xs : 0 < n -> shaped sh n xs ->
  exists y, normalizer (map (fun kl => (fst kl, leaf_stats (snd kl))) xs) xs = Ok y /\ shaped sh n y /\
    forall j k F f, nth_error sh j = Some (k, F) -> f < F ->
      let d := deviation (values f (leaf_data xs j)) in
      mean (values f (leaf_data y j)) = 0%R /\ deviation (values f (leaf_data y j)) = (d / (d + eps))%R /\ (0 <= d / (d + eps) < 1)%R /\
      (d = 0%R <-> Forall (fun v => v = 0%R) (values f (leaf_data y j))).
Proof.
  intros N XS. destruct (elementwise sh n xs n xs N XS XS) as (y & E & Y & H). exists y. split; [exact E|]. split; [exact Y|].
  intros j k F f J Hf d. pose proof (values_rescaled _ _ _ _ _ (H j k F J) f Hf) as V.
  assert (VN : values f (leaf_data xs j) <> []).
  { clear - XS J N. revert j J. induction XS as [|[k0 l0] [k1 F1] xs sh (E & D & L & R & NE) XS IH]; intros [|j] J; try discriminate.
    - unfold leaf_data. cbn [nth_error snd fst] in *. unfold values. destruct (l_data l0) as [|a dd]; [cbn in L; lia|].
      inversion NE as [|? ? NA _]; subst. destruct a; [contradiction|discriminate].
    - apply (IH j J). }
  pose proof (deviation_nonneg (values f (leaf_data xs j))) as D0. fold d in D0. pose proof eps_pos as EP.
  assert (DD : (0 <= d / (d + eps) < 1)%R).
  { split; [apply Rmult_le_pos; [lra|left; apply Rinv_0_lt_compat; lra]|]. apply (Rmult_lt_reg_r (d + eps)); [lra|]. unfold Rdiv. rewrite Rmult_assoc, Rinv_l by lra. lra. }
  split; [|split; [|split; [exact DD|]]].
  - rewrite V, mean_affine by auto. unfold Rdiv. ring.
  - rewrite V, deviation_affine by (auto; fold d; lra). reflexivity.
  - rewrite V, Forall_map. split.
    + intros Z. assert (M0 : mean (map (fun x => Rsqr (x - mean (values f (leaf_data xs j)))) (values f (leaf_data xs j))) = 0%R).
      { unfold d, deviation in Z. apply sqrt_eq_0; auto. apply mean_nonneg, Forall_map, Forall_forall. intros x _. apply Rle_0_sqr. }
      unfold mean at 1 in M0. rewrite map_length in M0.
      assert (LI : (0 < INR (length (values f (leaf_data xs j))))%R) by (apply lt_0_INR; destruct (values f (leaf_data xs j)); [contradiction|cbn; lia]).
      assert (S0 : fold_right Rplus 0%R (map (fun x => Rsqr (x - mean (values f (leaf_data xs j)))) (values f (leaf_data xs j))) = 0%R).
      { unfold Rdiv in M0. apply Rmult_integral in M0. destruct M0 as [M0|M0]; auto. apply Rinv_neq_0_compat in M0; [contradiction|lra]. }
      generalize (deviation (values f (leaf_data xs j)) + eps)%R. intros de.
      generalize dependent (mean (values f (leaf_data xs j))). intros mu. intros. clear - S0.
      induction (values f (leaf_data xs j)) as [|v l IH]; constructor; cbn [map fold_right] in S0.
      * assert (0 <= fold_right Rplus 0 (map (fun x => Rsqr (x - mu)) l))%R by (clear; induction l as [|x l IH]; cbn [map fold_right]; [lra|]; pose proof (Rle_0_sqr (x - mu)); lra).
        pose proof (Rle_0_sqr (v - mu)). assert (Rsqr (v - mu) = 0)%R by lra. apply Rsqr_0_uniq in H1. rewrite H1. unfold Rdiv. ring.
      * apply IH. pose proof (Rle_0_sqr (v - mu)).
        assert (0 <= fold_right Rplus 0 (map (fun x => Rsqr (x - mu)) l))%R by (clear; induction l as [|x l IH]; cbn [map fold_right]; [lra|]; pose proof (Rle_0_sqr (x - mu)); lra). lra.
    + intros Z. assert (X : Forall (fun x => x = mean (values f (leaf_data xs j))) (values f (leaf_data xs j))).
      { revert Z. apply Forall_impl. intros x Hx. fold d in Hx. unfold Rdiv in Hx. apply Rmult_integral in Hx. destruct Hx as [Hx|Hx]; [lra|].
        apply Rinv_neq_0_compat in Hx; [contradiction|lra]. }
      unfold d, deviation. replace (mean (map _ _)) with 0%R; [apply sqrt_0|].
      unfold mean at 1. assert (S0 : fold_right Rplus 0%R (map (fun x => Rsqr (x - mean (values f (leaf_data xs j)))) (values f (leaf_data xs j))) = 0%R).
      { generalize dependent (mean (values f (leaf_data xs j))). intros mu. intros. clear - X. induction X as [|v l E X IH]; [reflexivity|]. cbn [map fold_right]. rewrite IH, E. unfold Rsqr. ring. }
      rewrite S0. unfold Rdiv. ring.
Qed.

(** Both together: what make_normalizer_from_generator returns.  It rests on [n] different sequences of the first batches
    of the generator; every feature of any data is shifted by its mean there and divided by its deviation there plus 1e-8; those
    sequences themselves come out standardised. *)
Theorem C76_normalizer {Key} split (key0 : Key) generator perm sh bs n : (forall k, Permutation (perm k) (seq 0 k)) ->
  (forall k, shaped sh bs (generator k)) -> 0 < n -> 0 < bs -> sh <> [] ->
  exists c xs s, make_normalizer split key0 generator perm n = Ok s /\ shaped sh n xs /\ (c - 1) * bs < n /\ n <= c * bs /\
    (forall j, j < length sh -> chosen n (concat (map (fun k => leaf_data (generator k) j) (keys split c key0))) (leaf_data xs j)) /\
    (forall b x, shaped sh b x -> exists y, normalizer s x = Ok y /\ shaped sh b y /\
       forall j k F, nth_error sh j = Some (k, F) ->
         rescaled F (fun f => mean (values f (leaf_data xs j))) (fun f => (deviation (values f (leaf_data xs j)) + 1 / 10 ^ 8)%R) (leaf_data x j) (leaf_data y j)) /\
    (exists y, normalizer s xs = Ok y /\ forall j k F f, nth_error sh j = Some (k, F) -> f < F ->
       let d := deviation (values f (leaf_data xs j)) in
       mean (values f (leaf_data y j)) = 0%R /\ deviation (values f (leaf_data y j)) = (d / (d + 1 / 10 ^ 8))%R /\
       (d = 0%R <-> Forall (fun v => v = 0%R) (values f (leaf_data y j)))).
Proof.
  intros P G N B S. destruct (C76_sample split key0 generator perm P sh bs G n N B S) as (c & xs & E & X & C1 & C2 & CH).
  exists c, xs, (map (fun kl => (fst kl, leaf_stats (snd kl))) xs).
  split; [unfold make_normalizer; rewrite E; reflexivity|]. split; [exact X|]. split; [exact C1|]. split; [exact C2|]. split; [exact CH|]. split.
  - intros b x Hx. exact (elementwise sh n xs b x N X Hx).
  - destruct (standardised sh n xs N X) as (y & E1 & _ & H). exists y. split; [exact E1|]. intros j k F f J Hf d. destruct (H j k F f J Hf) as (H1 & H2 & _ & H3). auto.
Qed.

(** Normalising keeps the order of values of a feature and loses nothing. *)
Theorem C76_order m d v w : (0 <= d)%R ->
  ((v < w)%R <-> ((v - m) / (d + eps) < (w - m) / (d + eps))%R) /\ (v = (v - m) / (d + eps) * (d + eps) + m)%R.
Proof.
  intros D. pose proof eps_pos as EP. split.
  - split; intros H.
    + apply Rmult_lt_compat_r; [apply Rinv_0_lt_compat; lra|lra].
    + apply (Rmult_lt_compat_r (d + eps)) in H; [|lra]. unfold Rdiv in H. rewrite !Rmult_assoc, !Rinv_l in H by lra. lra.
  - field. lra.
Qed.

(** "Any generator that can be trained with can be normalised" is false: training data with four axes are refused. *)
Theorem C76_four_axes_refuted {Key} split (key0 : Key) generator perm n l r k : generator key0 = (k, l) :: r -> l_ndim l = 4 ->
  make_normalizer split key0 generator perm n = Err EAssertion.
Proof. intros E D. unfold make_normalizer, sample. rewrite E. cbn [first_leaf bind]. rewrite D. reflexivity. Qed.

(** Example: batches of two sequences with one feature, three sequences asked for. *)
Definition ex_gen (k : nat) : tree := [("gyr"%string, mkLeaf 3 [[[INR k]; [1%R]]; [[2%R]; [3%R]]])].
Definition ex_split (k : nat) : nat * nat := (S k, 2 * k).
Example C76_example_shape : forall k, shaped [("gyr"%string, 1)] 2 (ex_gen k).
Proof. intros k. repeat constructor; discriminate. Qed.
Example C76_example : exists c xs s, make_normalizer ex_split 0 ex_gen (fun k => rev (seq 0 k)) 3 = Ok s /\ shaped [("gyr"%string, 1)] 3 xs /\ (c - 1) * 2 < 3 /\ 3 <= c * 2.
Proof.
  destruct (C76_normalizer ex_split 0 ex_gen (fun k => rev (seq 0 k)) [("gyr"%string, 1)] 2 3) as (c & xs & s & H1 & H2 & H3 & H4 & _);
    [intros; symmetry; apply Permutation_rev|apply C76_example_shape|lia|lia|discriminate|]. exists c, xs, s. auto.
Qed.
Example C76_example_sample : sample ex_split 0 ex_gen (fun k => rev (seq 0 k)) 3 =
  Ok [("gyr"%string, mkLeaf 3 [[[2%R]; [3%R]]; [[INR 2]; [1%R]]; [[2%R]; [3%R]]])].
Proof. reflexivity. Qed.
