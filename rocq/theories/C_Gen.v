(** * Properties C40 (number of generated sequences) and C41 (eager generators) *)
From Coq Require Import String ZArith Lia Bool Arith Permutation List.
From Verif Require Import Prelude M_Util C_Util M_Gen.
Import ListNotations.
Local Open Scope nat_scope.

(** ** Specification *)
(** The number of sequences requested from each of [L] systems. *)
Definition requested (L : nat) (sz : sizes) : list nat :=
  match sz with Total s => repeat (s / L) L | PerSystem l => l end.
Definition sum (l : list nat) : nat := fold_right Nat.add 0 l.
(** The sequences of the generators, in order, each run with its keys. *)
Definition produced {K A} (gens : list (K -> list A)) (kss : list (list K)) : list A :=
  concat (map (fun gk => concat (map (fst gk) (snd gk))) (combine gens kss)).
(** The second halves of repeatedly splitting a key in two. *)
Fixpoint consumed {K} (split : K -> nat -> list K) (key : K) (n : nat) : list K :=
  match n with
  | 0 => []
  | S n => match split key 2 with k :: c :: _ => c :: consumed split k n | _ => [] end
  end.

(** ** Accepted sizes *)
Theorem C40_accepts_total n L s : (exists r, compute_repeats n L (Total s) = Ok r) <-> 0 < n /\ 0 < L /\ 0 < s /\ Nat.divide (n * L) s.
Proof.
  unfold compute_repeats. destruct (Nat.eqb_spec (n * L) 0) as [E|E].
  - split; [intros [r H]; discriminate|]. intros (H1 & H2 & _). nia.
  - split.
    + intros [r H]. apply bind_Ok in H. destruct H as (? & H1 & H). apply bind_Ok in H. destruct H as (? & H2 & _). unfold assert_ in *.
      destruct (Nat.ltb_spec 0 (s / (n * L))) as [P|]; [|discriminate]. destruct (Nat.eqb_spec (s mod (n * L)) 0) as [M|]; [|discriminate].
      split; [nia|]. split; [nia|]. split; [destruct s; [rewrite Nat.div_0_l in P; lia|lia]|]. now apply Nat.mod_divide.
    + intros (H1 & H2 & H3 & [q Hq]). subst s. rewrite Nat.div_mul, Nat.mod_mul by auto. destruct q as [|q]; [lia|]. cbn. eauto.
Qed.
Lemma existsb_eqb n l : existsb (Nat.eqb n) l = true <-> In n l.
Proof. rewrite existsb_exists. split; [intros (x & I & E); apply Nat.eqb_eq in E; now subst|intros I; exists n; split; [exact I|apply Nat.eqb_refl]]. Qed.
Lemma size_ok n s : (do ps <- primes s; assert_ (existsb (Nat.eqb n) ps)) = if (if Nat.eq_dec s 0 then false else match primes s with Ok ps => existsb (Nat.eqb n) ps | _ => false end) then Ok tt else Err EAssertion.
Proof.
  destruct (Nat.eq_dec s 0) as [->|N]; [reflexivity|]. destruct (C40_primes s ltac:(lia)) as (l & -> & _). cbn [bind]. unfold assert_. reflexivity.
Qed.
(** A size per system is accepted exactly when the number of configurations is a prime factor of it. *)
Theorem C40_accepts_list n L l : (exists r, compute_repeats n L (PerSystem l) = Ok r) <->
  length l = L /\ Forall (fun s => 0 < s /\ is_prime n /\ Nat.divide n s) l.
Proof.
  unfold compute_repeats. split.
  - intros [r H]. apply bind_Ok in H. destruct H as (? & H1 & H). apply bind_Ok in H. destruct H as (? & H2 & _). unfold assert_ in H2.
    destruct (Nat.eqb_spec (length l) L) as [E|]; [|discriminate]. split; [exact E|]. apply Forall_forall. intros s I.
    destruct (In_nth_error _ _ I) as [i Hi]. apply mapM_Ok_iff in H1. assert (exists u, (do ps <- primes s; assert_ (existsb (Nat.eqb n) ps)) = Ok u) as [u Hu].
    { clear - H1 I. induction H1 as [|x y l l' Hxy F IH]; [destruct I|]. destruct I as [->|I]; [eauto|auto]. }
    rewrite size_ok in Hu. destruct (Nat.eq_dec s 0) as [->|N]; [discriminate|]. split; [lia|].
    destruct (C40_primes s ltac:(lia)) as (ps & Eps & _). rewrite Eps in Hu. destruct (existsb (Nat.eqb n) ps) eqn:X; [|discriminate].
    apply existsb_eqb in X. apply (C40_prime_factor s n ps); auto. lia.
  - intros [<- F].
    assert (exists us, mapM (fun size => do ps <- primes size; assert_ (existsb (Nat.eqb n) ps)) l = Ok us) as [us ->].
    { induction F as [|s l (Hs & P & D) F IH]; [now exists []|]. destruct IH as [us E]. cbn [mapM]. destruct (C40_primes s Hs) as (ps & Eps & _). rewrite Eps. cbn [bind].
      assert (X : existsb (Nat.eqb n) ps = true) by (apply existsb_eqb; apply (C40_prime_factor s n ps); auto). rewrite X. cbn [assert_ bind]. rewrite E. cbn. eauto. }
    cbn [bind]. rewrite Nat.eqb_refl. cbn [assert_ bind].
    assert (Z : existsb (Nat.eqb 0) (map (fun size => size / n) l) = false).
    { clear us. destruct (existsb _ _) eqn:X; [|reflexivity]. apply existsb_eqb, in_map_iff in X. destruct X as (s & Hs & I). rewrite Forall_forall in F. destruct (F s I) as (P1 & [P2 _] & [q Q]). subst s. rewrite Nat.div_mul in Hs by lia. lia. }
    rewrite Z. cbn. eauto.
Qed.
(** So divisible sizes per system are refused for one configuration and for a composite number of configurations. *)
Theorem C40_list_sizes_refuted n L l : ~ is_prime n -> l <> [] -> compute_repeats n L (PerSystem l) = Err EAssertion.
Proof.
  intros P H. destruct (compute_repeats n L (PerSystem l)) as [r|e] eqn:E.
  - exfalso. assert (X : exists r, compute_repeats n L (PerSystem l) = Ok r) by eauto. apply C40_accepts_list in X. destruct X as [_ F]. destruct F as [|s l (_ & Q & _) _]; contradiction.
  - unfold compute_repeats in E. destruct l as [|s l]; [contradiction|]. cbn [mapM] in E. rewrite size_ok in E.
    destruct (Nat.eq_dec s 0) as [Z|N]; [cbn [bind] in E; now injection E as <-|]. destruct (C40_primes s ltac:(lia)) as (ps & Eps & _). rewrite Eps in E.
    destruct (existsb (Nat.eqb n) ps) eqn:X; [|cbn [bind] in E; now injection E as <-]. exfalso. apply P. apply existsb_eqb in X. apply (C40_prime_factor s n ps); auto. lia.
Qed.
Lemma repeats_spec n L sz r : compute_repeats n L sz = Ok r -> length r = L /\ map (fun x => x * n) r = requested L sz /\ Forall (fun x => 0 < x) r /\ (0 < L -> 0 < n).
Proof.
  intros H. assert (X : exists r, compute_repeats n L sz = Ok r) by eauto. destruct sz as [s|l].
  - apply C40_accepts_total in X. destruct X as (H1 & H2 & H3 & [q ->]). cbn [compute_repeats] in H. destruct (Nat.eqb_spec (n * L) 0); [nia|].
    apply bind_Ok in H. destruct H as (? & _ & H). apply bind_Ok in H. destruct H as (? & _ & H). injection H as <-. rewrite Nat.div_mul by auto. cbn [requested].
    split; [apply repeat_length|]. split; [|split; [|auto]].
    + replace (q * (n * L)) with (q * n * L) by lia. rewrite Nat.div_mul by lia. clear. induction L; cbn; f_equal; auto.
    + apply Forall_forall. intros z I. apply repeat_spec in I. subst. destruct q; lia.
  - apply C40_accepts_list in X. destruct X as [E F]. cbn [compute_repeats] in H. apply bind_Ok in H. destruct H as (? & _ & H). apply bind_Ok in H. destruct H as (? & _ & H). apply bind_Ok in H. destruct H as (? & _ & H). injection H as <-.
    rewrite map_length. split; [exact E|]. cbn [requested]. split; [|split].
    + rewrite map_map. rewrite <- map_id. apply map_ext_in. intros s I. rewrite Forall_forall in F. destruct (F s I) as (P & [Q _] & [q ->]). now rewrite Nat.div_mul by lia.
    + apply Forall_forall. intros z I. apply in_map_iff in I. destruct I as (s & <- & I). rewrite Forall_forall in F. destruct (F s I) as (P & [Q _] & [q ->]). rewrite Nat.div_mul by lia. destruct q; lia.
    + intros HL. destruct l as [|s l]; [cbn in E; lia|]. inversion F as [|? ? (_ & [P _] & _) _]; subst. lia.
Qed.

(** ** The lazy generator *)
Lemma concat_combine {A B} : forall (a : list (list A)) (b : list (list B)) v, Forall (fun r => length r = v) a -> Forall (fun r => length r = v) b ->
  concat (map (fun row => combine (fst row) (snd row)) (combine a b)) = combine (concat a) (concat b).
Proof.
  induction a as [|x a IH]; intros [|y b] v Fa Fb; cbn; auto; [now rewrite combine_nil|]. inversion Fa; inversion Fb; subst. rewrite (IH b (length x)) by auto.
  assert (L : length x = length y) by congruence. generalize (concat a) (concat b). intros ca cb. clear - L. revert y L. induction x as [|u x IHx]; intros [|w y] L; cbn in *; try discriminate; auto. f_equal. apply IHx. congruence.
Qed.
Lemma mapM_Ok_map {A B} (f : A -> result B) (g : A -> B) l : (forall x, In x l -> f x = Ok (g x)) -> mapM f l = Ok (map g l).
Proof. induction l as [|a l IH]; intros H; [reflexivity|]. cbn [mapM map]. rewrite H by now left. cbn [bind]. rewrite IH by (intros; apply H; now right). reflexivity. Qed.
Lemma In_combine_concat {A B} (a : list (list A)) (b : list (list B)) row x : In row (combine a b) -> In x (combine (fst row) (snd row)) -> In (snd x) (concat b).
Proof. destruct row as [r1 r2], x as [x1 x2]. intros H1 H2. apply in_concat. exists r2. split; [now apply in_combine_r in H1|now apply in_combine_r in H2]. Qed.

Section Lazy.
Context {K A : Type} (m : machine) (split : K -> nat -> list K).
Hypothesis split_length : forall k n, length (split k n) = n.
Hypothesis devices : 1 <= n_devices m.
Notation generator := (K -> list A).

Lemma batch_matrix_length r : length (build_batch_matrix r) = sum r.
Proof.
  unfold build_batch_matrix. enough (G : forall s, length (concat (map (fun il => repeat (fst il) (snd il)) (combine (seq s (length r)) r))) = sum r) by apply G.
  unfold sum. induction r as [|a r IH]; intros s; [reflexivity|]. cbn [length seq combine map concat fst snd fold_right]. rewrite app_length, repeat_length, IH. reflexivity.
Qed.
Lemma batch_matrix_lt r i : In i (build_batch_matrix r) -> i < length r.
Proof.
  unfold build_batch_matrix. intros H. apply in_concat in H. destruct H as (l & H & I). apply in_map_iff in H. destruct H as ([j c] & <- & H). cbn [fst snd] in I. apply repeat_spec in I. subst. apply in_combine_l, in_seq in H. lia.
Qed.
Lemma expand_ok {B} (x : list B) p v : length x = p * v -> exists y, expand_batchsize x p v = Ok y /\ length y = p /\ Forall (fun r => length r = v) y /\ concat y = x.
Proof.
  intros H. destruct (C39_expand x p v H) as (y & E & L & F & _). exists y. split; [exact E|]. split; [exact L|]. split; [exact F|].
  unfold expand_batchsize in E. rewrite H, Nat.eqb_refl in E. injection E as <-. now apply chunks_concat.
Qed.
(** The value of a call, without the device layout. *)
Lemma lazy_call (gens : list generator) r gen : gens <> [] -> length gens = length r -> generators_lazy m split gens r = Ok gen -> forall key,
  gen key = Ok (concat (map (fun ki => nth (snd ki) gens (fun _ => []) (fst ki)) (combine (split key (sum r)) (build_batch_matrix r)))).
Proof.
  intros Ng Lg H key. unfold generators_lazy in H. rewrite batch_matrix_length in H. apply bind_Ok in H. destruct H as ([p v] & D & H). cbn [fst snd] in H.
  destruct (C39_product m (sum r) p v devices D) as [PV _]. destruct (expand_ok (build_batch_matrix r) p v) as (idx & Ei & Li & Fi & Ci); [now rewrite batch_matrix_length|]. rewrite Ei in H. cbn [bind] in H. injection H as <-.
  destruct (expand_ok (split key (sum r)) p v) as (ks & Ek & Lk & Fk & Ck); [now rewrite split_length|]. rewrite Ek. cbn [bind].
  set (f := fun ki : K * nat => nth (snd ki) gens (fun _ => []) (fst ki)).
  rewrite (mapM_Ok_map _ (fun row => map f (combine (fst row) (snd row)))).
  2:{ intros row HR. apply mapM_Ok_map. intros x HX. pose proof (In_combine_concat _ _ _ _ HR HX) as IX. rewrite Ci in IX. apply batch_matrix_lt in IX. unfold switch, f.
      rewrite Nat.min_l by lia. rewrite (nth_error_nth' gens (fun _ => [])) by lia. reflexivity. }
  cbn [bind]. assert (E : concat (map (fun row => map f (combine (fst row) (snd row))) (combine ks idx)) = map f (combine (split key (sum r)) (build_batch_matrix r))).
  { rewrite <- Ck, <- Ci, <- (concat_combine ks idx v Fk Fi), concat_map, map_map. reflexivity. }
  unfold merge_batchsize3. rewrite E. rewrite map_length, combine_length, split_length, batch_matrix_length, Nat.min_id. rewrite PV, Nat.eqb_refl. reflexivity.
Qed.
(** Cutting the keys into one group per generator. *)
Fixpoint cut (r : list nat) (ks : list K) : list (list K) :=
  match r with [] => [] | a :: r => firstn a ks :: cut r (skipn a ks) end.
Lemma cut_concat r : forall ks, length ks = sum r -> concat (cut r ks) = ks.
Proof.
  induction r as [|a r IH]; intros ks H; [destruct ks; [reflexivity|discriminate]|]. cbn [cut concat]. rewrite IH; [apply firstn_skipn|]. rewrite skipn_length. unfold sum in *. cbn [fold_right] in H. lia.
Qed.
Lemma cut_lengths r : forall ks, length ks = sum r -> map (@length K) (cut r ks) = r.
Proof.
  induction r as [|a r IH]; intros ks H; [reflexivity|]. unfold sum in H. cbn [fold_right] in H. cbn [cut map]. rewrite firstn_length, IH; [f_equal; lia|]. rewrite skipn_length. unfold sum. lia.
Qed.
Lemma switch_produced (all : list generator) r : forall (gens : list generator) s ks, length gens = length r -> length ks = sum r ->
  (forall i, nth (s + i) all (fun _ => []) = nth i gens (fun _ => [])) ->
  concat (map (fun ki => nth (snd ki) all (fun _ => []) (fst ki)) (combine ks (concat (map (fun il => repeat (fst il) (snd il)) (combine (seq s (length r)) r))))) = produced gens (cut r ks).
Proof.
  unfold produced. induction r as [|a r IH]; intros [|g gens] s ks Lg Lk Hs; cbn [length] in Lg; try lia.
  - destruct ks; [reflexivity|discriminate].
  - unfold sum in Lk. cbn [fold_right] in Lk. cbn [length seq combine map concat fst snd cut].
    assert (E : combine ks (repeat s a ++ concat (map (fun il => repeat (fst il) (snd il)) (combine (seq (S s) (length r)) r))) =
            combine (firstn a ks) (repeat s a) ++ combine (skipn a ks) (concat (map (fun il => repeat (fst il) (snd il)) (combine (seq (S s) (length r)) r)))).
    { clear - Lk. revert ks Lk. induction a as [|a IHa]; intros ks Lk; [reflexivity|]. destruct ks as [|k ks]; [cbn in Lk; lia|]. cbn [repeat app combine firstn skipn]. f_equal. apply IHa. cbn in Lk. lia. }
    rewrite E, map_app, concat_app. f_equal.
    + f_equal. specialize (Hs 0). rewrite Nat.add_0_r in Hs. cbn [nth] in Hs. clear - Hs Lk. assert (La : a <= length ks) by lia. clear Lk. revert ks La. induction a as [|a IHa]; intros [|k ks] La; cbn [length] in La; try lia; try reflexivity.
      cbn [firstn repeat combine map fst snd]. rewrite Hs. f_equal. apply IHa. lia.
    + apply IH; [lia|rewrite skipn_length; unfold sum; lia|]. intros i. specialize (Hs (S i)). cbn [nth] in Hs. rewrite <- Hs. f_equal. lia.
Qed.
Lemma lazy_produced (gens : list generator) r gen : length gens = length r -> Forall (fun x => 0 < x) r -> generators_lazy m split gens r = Ok gen -> forall key,
  gen key = Ok (produced gens (cut r (split key (sum r)))).
Proof.
  intros Lg Fr H key. destruct gens as [|g0 gs] eqn:Eg.
  - destruct r; [|discriminate]. unfold generators_lazy in H. cbn [build_batch_matrix length seq combine map concat] in H. apply bind_Ok in H. destruct H as ([p v] & D & H). cbn [fst snd] in H.
    destruct (C39_product m 0 p v devices D) as [PV _]. destruct (expand_ok (@nil nat) p v) as (idx & Ei & Li & Fi & Ci); [cbn; lia|]. rewrite Ei in H. cbn [bind] in H. injection H as <-.
    destruct (expand_ok (split key 0) p v) as (ks & Ek & Lk & Fk & Ck); [now rewrite split_length|]. rewrite Ek. cbn [bind].
    assert (X : concat (map (fun row : list K * list nat => combine (fst row) (snd row)) (combine ks idx)) = []) by (rewrite (concat_combine ks idx v Fk Fi), Ci; apply combine_nil).
    rewrite (mapM_Ok_map _ (fun _ => [])).
    2:{ intros row HR. assert (Y : combine (fst row) (snd row) = []).
        { destruct (combine (fst row) (snd row)) as [|z zs] eqn:Z; [reflexivity|]. exfalso. assert (I : In z (concat (map (fun row : list K * list nat => combine (fst row) (snd row)) (combine ks idx)))); [|rewrite X in I; destruct I].
          apply in_concat. exists (z :: zs). split; [|now left]. apply in_map_iff. exists row. auto. }
        now rewrite Y. }
    cbn [bind]. unfold merge_batchsize3. assert (CN : forall l : list (list K * list nat), concat (map (fun _ => @nil (list A)) l) = []) by (induction l; auto). rewrite CN. cbn [length]. rewrite PV. reflexivity.
  - rewrite (lazy_call (g0 :: gs) r gen ltac:(discriminate) Lg H key). f_equal. unfold build_batch_matrix. apply switch_produced; auto.
Qed.
(** A batch of the lazy generator: the requested number of sequences of each system, in the order of the systems, each
    generator run with its own keys out of a splitting of the given key. *)
Theorem C40_lazy (gens : list generator) n sz gen : to_lazy_gen m split gens n sz = Ok gen -> forall key,
  exists kss, gen key = Ok (produced gens kss) /\ concat kss = split key (length (concat kss)) /\
    map (fun ks => length ks * n) kss = requested (length gens) sz.
Proof.
  intros H key. unfold to_lazy_gen in H. apply bind_Ok in H. destruct H as (r & Hr & H). destruct (repeats_spec _ _ _ _ Hr) as (Lr & Rq & Fr & _).
  exists (cut r (split key (sum r))). split; [apply lazy_produced; auto|]. rewrite cut_concat by apply split_length. split; [now rewrite split_length|].
  rewrite <- Rq. pose proof (cut_lengths r (split key (sum r)) (split_length _ _)) as CL. rewrite <- (map_map (@length K) (fun x => x * n)), CL. reflexivity.
Qed.

(** ** The list of sequences *)
Lemma eager_calls_spec (gen : K -> result (list A)) (g : generator) r : (forall key, gen key = Ok (concat (map g (split key r)))) ->
  forall c key st, exists key', eager_calls split (fun data d => Ok (data ++ d)) gen c key st = Ok (key', st ++ concat (map g (flat_map (fun k => split k r) (consumed split key c)))) /\
    length (consumed split key c) = c /\ forall c', consumed split key (c + c') = consumed split key c ++ consumed split key' c'.
Proof.
  intros Hg. induction c as [|c IH]; intros key st.
  - exists key. cbn [eager_calls consumed flat_map map concat]. rewrite app_nil_r. auto.
  - cbn [eager_calls consumed plus]. pose proof (split_length key 2) as L. destruct (split key 2) as [|k1 [|k2 [|]]]; try discriminate. rewrite Hg. cbn [bind].
    destruct (IH k1 (st ++ concat (map g (split k2 r)))) as (key' & E & Lc & A2). exists key'. rewrite E. cbn [flat_map length]. rewrite map_app, concat_app, app_assoc. split; [reflexivity|]. split; [now f_equal|]. intros c'. cbn [app]. f_equal. apply A2.
Qed.
(** What a run of all generators gives: [css] are the keys of the calls, [rs] how often a call repeats its generator. *)
Definition run_keys (css : list (list K)) (rs : list nat) : list (list K) := map (fun cr => flat_map (fun k => split k (snd cr)) (fst cr)) (combine css rs).
Lemma eager_spec (gens : list generator) : forall gs rs cs key st, length gs = length gens -> length rs = length gens -> length cs = length gens ->
  (forall i g gg r, nth_error gens i = Some g -> nth_error gs i = Some gg -> nth_error rs i = Some r -> forall key, gg key = Ok (concat (map g (split key r)))) ->
  exists css, generators_eager split (fun data d => Ok (data ++ d)) gs cs key st = Ok (st ++ produced gens (run_keys css rs)) /\
    map (@length K) css = cs /\ concat css = consumed split key (length (concat css)).
Proof.
  induction gens as [|g gens IH]; intros [|gg gs] [|r rs] [|c cs] key st L1 L2 L3 H; cbn [length] in *; try lia.
  - exists []. cbn. unfold produced. cbn. rewrite app_nil_r. auto.
  - cbn [generators_eager]. destruct (eager_calls_spec gg g r (fun k => H 0 g gg r eq_refl eq_refl eq_refl k) c key st) as (key' & E & Lc & A2). rewrite E. cbn [bind fst snd].
    destruct (IH gs rs cs key' (st ++ concat (map g (flat_map (fun k => split k r) (consumed split key c))))) as (css & E2 & M & C); try lia.
    { intros i. apply (H (S i)). }
    exists (consumed split key c :: css). rewrite E2. unfold produced, run_keys. cbn [combine map concat fst snd]. rewrite app_assoc. split; [reflexivity|]. split; [now f_equal|].
    rewrite app_length, Lc, A2. f_equal. exact C.
Qed.
Lemma gcd_spec a b : exists g, gcd a b = Ok g /\ Nat.divide g b /\ (0 < a -> 0 < g).
Proof.
  destruct (C40_gcd a b) as (g & E & D1 & D2 & _). exists g. split; [exact E|]. split; [exact D2|]. intros Ha. destruct D1 as [q Q]. destruct g; [lia|lia].
Qed.
Lemma exec_pos thr ps : Forall (fun p => 0 < p) ps -> forall v c e, 0 < c -> exec_loop thr ps v c = Ok e -> 0 < e.
Proof.
  induction 1 as [|p ps Hp F IH]; intros v c e Hc H; cbn [exec_loop] in H; destruct (thr <? v); try discriminate; try (injection H as <-; exact Hc). eapply IH; [|exact H]. nia.
Qed.
Lemma number_pos size e : 0 < size -> number_of_executions_required m size = Ok e -> 0 < e.
Proof.
  intros Hs H. unfold number_of_executions_required in H. apply bind_Ok in H. destruct H as ([p v] & D & H). cbn [snd] in H. apply bind_Ok in H. destruct H as (ps & P & H).
  destruct (C39_product m size p v devices D) as [PV _]. destruct (C40_primes v ltac:(destruct v; lia)) as (l & El & _ & Fl & _). rewrite P in El. injection El as <-.
  refine (exec_pos _ _ _ _ _ _ Nat.lt_0_1 H). eapply Forall_impl; [|exact Fl]. intros q [Q _]. lia.
Qed.
Lemma nth_error_combine {X Y} (a : list X) (b : list Y) i x y : nth_error a i = Some x -> nth_error b i = Some y -> nth_error (combine a b) i = Some (x, y).
Proof. revert b i. induction a as [|a0 a IH]; intros [|b0 b] [|i] H1 H2; cbn in *; try discriminate; [congruence|auto]. Qed.
Lemma Forall2_nth_rel {X Y} (R : X -> Y -> Prop) a b : Forall2 R a b -> forall i x y, nth_error a i = Some x -> nth_error b i = Some y -> R x y.
Proof. induction 1; intros [|i] u w H1 H2; cbn in *; try discriminate; [congruence|eauto]. Qed.

(** [to_list]: the requested number of sequences of each system, in the order of the systems; all keys come from a fresh
    splitting of the seed's key per call. *)
Theorem C40_to_list (gens : list generator) n sz key data : to_list m split gens n sz key = Ok data ->
  exists css rs, data = produced gens (run_keys css rs) /\ concat css = consumed split key (length (concat css)) /\
    length css = length gens /\ length rs = length gens /\
    map (fun ks => length ks * n) (run_keys css rs) = requested (length gens) sz.
Proof.
  intros H. unfold to_list in H. apply bind_Ok in H. destruct H as ([gs cs] & H1 & H). cbn [fst snd] in H. unfold generators_ncalls in H1. apply bind_Ok in H1. destruct H1 as (r & Hr & H1).
  apply bind_Ok in H1. destruct H1 as (rc & Hrc & H1). apply bind_Ok in H1. destruct H1 as (gs' & Hgs & H1). injection H1 as <- <-.
  destruct (repeats_spec _ _ _ _ Hr) as (Lr & Rq & Fr & Pn). apply mapM_Ok_iff in Hrc. apply mapM_Ok_iff in Hgs.
  pose proof (Forall2_length _ _ _ Hrc) as L1. rewrite combine_length, map_length, Nat.min_id in L1. pose proof (Forall2_length _ _ _ Hgs) as L2. rewrite combine_length, map_length, <- L1, Lr, Nat.min_id in L2.
  assert (RC : forall i rr x, nth_error r i = Some rr -> nth_error rc i = Some x -> fst x * snd x = rr /\ 0 < fst x).
  { intros i rr x H1 H2. assert (HC : nth_error (combine (map (fun r => r * n) r) r) i = Some (rr * n, rr)) by (apply nth_error_combine; [rewrite nth_error_map, H1; reflexivity|exact H1]).
    pose proof (Forall2_nth_rel _ _ _ Hrc i _ _ HC H2) as E. cbn [fst snd] in E. apply bind_Ok in E. destruct E as (e & He & E). apply bind_Ok in E. destruct E as (g & Hg & E). injection E as <-. cbn [fst snd].
    assert (Prr : 0 < rr) by (rewrite Forall_forall in Fr; apply Fr; eapply nth_error_In; eauto).
    assert (HL : 0 < n) by (apply Pn; assert (i < length r) by (apply nth_error_Some; congruence); lia).
    destruct (gcd_spec e rr) as (g' & Eg & [q Q] & Pg). rewrite Hg in Eg. injection Eg as <-. assert (0 < g) by (apply Pg; eapply number_pos; [|exact He]; nia).
    subst rr. rewrite Nat.div_mul by lia. split; [reflexivity|]. destruct q; lia. }
  destruct (eager_spec gens gs' (map fst rc) (map snd rc) key []) as (css & E & Mc & C).
  - lia.
  - rewrite map_length. lia.
  - rewrite map_length. lia.
  - intros i g gg q H1 H2 H3 k. assert (HC : nth_error (combine gens (map fst rc)) i = Some (g, q)) by now apply nth_error_combine.
    pose proof (Forall2_nth_rel _ _ _ Hgs i _ _ HC H2) as G. cbn [fst snd] in G.
    rewrite nth_error_map in H3. destruct (nth_error rc i) as [x|] eqn:Ex; [|discriminate]. injection H3 as <-.
    assert (exists rr, nth_error r i = Some rr) as [rr Err]. { assert (i < length r) by (rewrite Lr; apply nth_error_Some; congruence). destruct (nth_error r i) eqn:E; [eauto|]. apply nth_error_None in E. lia. }
    destruct (RC i rr x Err Ex) as [_ P]. rewrite (lazy_produced [g] [fst x] gg eq_refl (Forall_cons _ P (Forall_nil _)) G k). f_equal. unfold produced, sum. cbn [cut fold_right combine map concat fst snd]. rewrite app_nil_r, Nat.add_0_r.
    rewrite firstn_all2; [reflexivity|]. rewrite split_length. lia.
  - rewrite E in H. injection H as <-. cbn [app]. exists css, (map fst rc).
    assert (Lcss : length css = length rc) by (rewrite <- (map_length (@length K)), Mc, map_length; reflexivity).
    split; [reflexivity|]. split; [exact C|]. split; [lia|]. split; [rewrite map_length; lia|].
    rewrite <- Rq. apply nth_error_ext. intros i. unfold run_keys. rewrite !nth_error_map.
    destruct (nth_error r i) as [rr|] eqn:Er; cbn [option_map].
    + assert (i < length rc) by (rewrite <- L1; apply nth_error_Some; congruence).
      destruct (nth_error rc i) as [x|] eqn:Ex; [|apply nth_error_None in Ex; lia]. destruct (nth_error css i) as [ks|] eqn:Ek; [|apply nth_error_None in Ek; lia].
      rewrite (nth_error_combine _ _ _ ks (fst x)) by (auto; rewrite nth_error_map, Ex; reflexivity). cbn [option_map fst snd]. f_equal. destruct (RC i rr x Er Ex) as [Q _].
      assert (Lks : length ks = snd x). { assert (M : nth_error (map (@length K) css) i = nth_error (map snd rc) i) by now rewrite Mc. rewrite !nth_error_map, Ek, Ex in M. cbn in M. congruence. }
      assert (FL : length (flat_map (fun k => split k (fst x)) ks) = length ks * fst x). { clear - split_length. induction ks as [|k ks IH]; [reflexivity|]. cbn [flat_map length]. rewrite app_length, split_length, IH. reflexivity. }
      rewrite FL, Lks, <- Q. lia.
    + assert (nth_error (combine css (map fst rc)) i = None) as ->; [|reflexivity]. apply nth_error_None. rewrite combine_length, map_length. apply nth_error_None in Er. lia.
Qed.
(** In particular the total number. *)
Theorem C40_count (gens : list generator) n sz key data : (forall g k, In g gens -> length (g k) = n) -> to_list m split gens n sz key = Ok data -> length data = sum (requested (length gens) sz).
Proof.
  intros Hg H. destruct (C40_to_list gens n sz key data H) as (css & rs & -> & _ & L1 & L2 & M). rewrite <- M.
  assert (LK : length (run_keys css rs) = length gens) by (unfold run_keys; rewrite map_length, combine_length; lia).
  clear M H L1 L2. revert LK. generalize (run_keys css rs). clear css rs. induction gens as [|g gens IH]; intros [|ks kss] LK; try discriminate; [reflexivity|].
  unfold produced, sum in *. cbn [combine map concat fst snd fold_right]. rewrite app_length. f_equal.
  - clear - Hg. induction ks as [|k ks IH]; [reflexivity|]. cbn [map concat length]. rewrite app_length, IH, (Hg g k) by now left. lia.
  - apply IH; [intros; apply Hg; now right|]. cbn in LK. lia.
Qed.
End Lazy.

(** On a machine with one device every accepted size succeeds. *)
Lemma exec_ends thr ps : 1 <= thr -> Forall is_prime ps -> forall c, exists e, exec_loop thr ps (product ps) c = Ok e.
Proof.
  intros Ht. induction 1 as [|p ps Hp F IH]; intros c; cbn [exec_loop].
  - unfold product. cbn [fold_right]. destruct (Nat.ltb_spec thr 1); [lia|eauto].
  - destruct (thr <? product (p :: ps)); [|eauto]. unfold product. cbn [fold_right]. destruct Hp as [P _]. rewrite Nat.mul_comm, Nat.div_mul by lia. apply IH.
Qed.
Theorem C40_succeeds {K A} (m : machine) (split : K -> nat -> list K) (gens : list (K -> list A)) n sz key :
  (forall k n, length (split k n) = n) -> n_devices m = 1 -> 1 <= eager_threshold m ->
  (exists r, compute_repeats n (length gens) sz = Ok r) -> exists data, to_list m split gens n sz key = Ok data.
Proof.
  intros SL D1 T [r Hr]. assert (DV : 1 <= n_devices m) by lia. destruct (repeats_spec _ _ _ _ Hr) as (Lr & Rq & Fr & Pn).
  assert (DB : forall b, exists pv, distribute_batchsize m b = Ok pv) by (intros b; apply C39_accepts; auto; right; rewrite D1; apply Nat.divide_1_l).
  assert (LZ : forall (g : K -> list A) q, exists gg, generators_lazy m split [g] [q] = Ok gg).
  { intros g q. unfold generators_lazy. rewrite batch_matrix_length. destruct (DB (sum [q])) as [[p v] E]. rewrite E. cbn [bind fst snd]. destruct (C39_product m _ p v DV E) as [PV _].
    destruct (expand_ok (build_batch_matrix [q]) p v) as (y & -> & _); [now rewrite batch_matrix_length|]. cbn. eauto. }
  unfold to_list, generators_ncalls. rewrite Hr. cbn [bind].
  assert (exists rc, mapM (fun sr => do n_call <- number_of_executions_required m (fst sr); do g <- gcd n_call (snd sr); Ok (snd sr / g, g)) (combine (map (fun r => r * n) r) r) = Ok rc) as [rc Erc].
  { assert (FF : Forall (fun sr => 0 < fst sr) (combine (map (fun r => r * n) r) r)).
    { apply Forall_forall. intros [s q] I. cbn [fst]. pose proof (in_combine_l _ _ _ _ I) as I1. apply in_map_iff in I1. destruct I1 as (x & <- & Ix). rewrite Forall_forall in Fr. specialize (Fr x Ix).
      assert (0 < n) by (apply Pn; rewrite <- Lr; destruct r; [destruct Ix|cbn; lia]). nia. }
    induction FF as [|[s q] l Hs F IH]; [now exists []|]. cbn [mapM fst snd] in *. destruct IH as [rc IH]. unfold number_of_executions_required.
    destruct (DB s) as [[p v] E]. rewrite E. cbn [bind snd]. destruct (C39_product m s p v DV E) as [PV _]. destruct (C40_primes v ltac:(destruct v; lia)) as (ps & -> & P & Fp & _). cbn [bind].
    rewrite <- P. destruct (exec_ends (eager_threshold m) ps T Fp 1) as [e ->]. cbn [bind]. destruct (C40_gcd e q) as (g & -> & _). cbn [bind]. unfold number_of_executions_required in IH. rewrite IH. cbn. eauto. }
  rewrite Erc. cbn [bind].
  assert (exists gs, mapM (fun gr : (K -> list A) * nat => generators_lazy m split [fst gr] [snd gr]) (combine gens (map fst rc)) = Ok gs) as [gs Egs].
  { generalize (combine gens (map fst rc)). intros l. induction l as [|[g q] l [gs IH]]; [now exists []|]. cbn [mapM fst snd]. destruct (LZ g q) as [gg ->]. cbn [bind]. rewrite IH. cbn. eauto. }
  rewrite Egs. cbn [bind fst snd].
  assert (GO : Forall (fun gg : K -> result (list A) => forall k, exists d, gg k = Ok d) gs).
  { apply mapM_Ok_iff in Egs. clear - Egs SL DV. induction Egs as [|[g q] gg l gs H F IH]; constructor; auto. intros k. cbn [fst snd] in H. rewrite (lazy_call m split SL DV [g] [q] gg ltac:(discriminate) eq_refl H k). eauto. }
  generalize (@nil A) as st. generalize (map snd rc) as cs. revert key. clear - GO SL. induction GO as [|gg gs G F IH]; intros key [|c cs] st; cbn [generators_eager]; eauto.
  assert (exists r, eager_calls split (fun data d => Ok (data ++ d)) gg c key st = Ok r) as [rr ->].
  { revert key st. induction c as [|c IHc]; intros key st; cbn [eager_calls]; [eauto|]. pose proof (SL key 2) as L. destruct (split key 2) as [|k1 [|k2 [|]]]; try discriminate. destruct (G k2) as [d ->]. cbn [bind]. apply IHc. }
  cbn [bind]. apply IH.
Qed.

(** Keys as binary addresses: [split] extends the address; a generator of three sequences that record their key. *)
Definition demo_split (k : list nat) (n : nat) : list (list nat) := map (fun i => i :: k) (seq 0 n).
Definition demo_gens : list (list nat -> list (nat * nat * list nat)) := map (fun s => fun k => map (fun c => (s, c, k)) [0; 1; 2]) [0; 1].
Example C40_example :
  (exists data, to_list (cpu 1) demo_split demo_gens 3 (PerSystem [6; 3]) [] = Ok data /\ length data = 9 /\ nth_error data 8 = Some (1, 2, [0; 1; 0; 0])) /\
  (exists data, to_list (cpu 1) demo_split demo_gens 3 (Total 36) [] = Ok data /\ length data = 36) /\
  compute_repeats 3 2 (Total 9) = Err EAssertion /\ compute_repeats 1 2 (PerSystem [5; 5]) = Err EAssertion /\ compute_repeats 4 1 (PerSystem [8]) = Err EAssertion.
Proof. split; [eexists; split; [reflexivity|]; split; reflexivity|]. split; [eexists; split; reflexivity|]. repeat split; reflexivity. Qed.
