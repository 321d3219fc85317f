(** * Properties C39 (batch distribution), C40 (number theory part), C42 (NaN replacement), C43 (dictionary union) *)
From Coq Require Import String ZArith Lia Bool Arith Sorted Permutation List.
From Verif Require Import Prelude M_Util.
Import ListNotations.
Local Open Scope nat_scope.

(** ** Prime factors and greatest common divisor *)
Definition is_prime (p : nat) : Prop := 2 <= p /\ forall d, Nat.divide d p -> d = 1 \/ d = p.
Definition product (l : list nat) : nat := fold_right Nat.mul 1 l.
Definition no_div_below (d n : nat) : Prop := forall e, 2 <= e -> e < d -> ~ Nat.divide e n.

Lemma mod_divide_iff d n : 2 <= d -> (n mod d =? 0) = true <-> Nat.divide d n.
Proof. intros H. rewrite Nat.eqb_eq. apply Nat.mod_divide. lia. Qed.
Lemma product_app a b : product (a ++ b) = product a * product b.
Proof. unfold product. induction a as [|x a IH]; cbn [app fold_right]; [lia|]. rewrite IH. lia. Qed.

Lemma strip_spec fuel : forall d n, 2 <= d -> 1 <= n -> n < fuel -> exists k m, strip fuel d n = Ok (repeat d k, m) /\ n = d ^ k * m /\ 1 <= m /\ ~ Nat.divide d m.
Proof.
  induction fuel as [|f IH]; intros d n Hd Hn Hf; [lia|]. cbn [strip]. destruct (n mod d =? 0) eqn:E.
  - apply mod_divide_iff in E; auto. destruct E as [q Eq]. subst n. rewrite Nat.div_mul by lia. destruct q as [|q]; [lia|].
    destruct (IH d (S q)) as (k & m & -> & Eq & Hm & Nd); [lia|lia|nia|]. cbn [bind fst snd]. exists (S k), m. split; [reflexivity|]. split; [|auto]. rewrite Eq. cbn [Nat.pow]. lia.
  - exists 0, n. split; [reflexivity|]. split; [cbn; lia|]. split; [lia|]. rewrite <- mod_divide_iff by auto. congruence.
Qed.
Lemma repeat_product d k : product (repeat d k) = d ^ k.
Proof. unfold product. induction k as [|k IH]; cbn [repeat fold_right Nat.pow]; [reflexivity|]. now rewrite IH. Qed.
Lemma no_div_prime d n : 2 <= n -> no_div_below d n -> n < d * d -> is_prime n.
Proof.
  intros Hn N Hd. split; auto. intros e [q Eq]. destruct (Nat.eq_dec e 1) as [|N1]; [now left|]. right.
  assert (He : e <> 0) by (intros ->; lia). destruct (Nat.eq_dec q 1) as [->|Nq]; [lia|]. exfalso.
  assert (Hq : q <> 0) by (intros ->; lia).
  assert (e < d \/ q < d) as [L|L] by (destruct (le_lt_dec d e), (le_lt_dec d q); nia).
  - apply (N e); [lia|lia|]. exists q. exact Eq.
  - apply (N q); [lia|lia|]. exists e. lia.
Qed.
Lemma factor_loop_spec fuel : forall d n, 2 <= d -> 1 <= n -> 1 <= fuel -> n + 2 <= fuel + d -> no_div_below d n ->
  exists l m, factor_loop fuel d n = Ok (l, m) /\ n = product l * m /\ Forall is_prime l /\ Forall (fun p => d <= p) l /\ StronglySorted le l /\
    1 <= m /\ (m = 1 \/ is_prime m /\ d <= m /\ Forall (fun p => p <= m) l).
Proof.
  induction fuel as [|f IH]; intros d n Hd Hn Hf Hb Nd; [lia|]. cbn [factor_loop]. destruct (Nat.leb_spec (d * d) n) as [L|L].
  - destruct (strip_spec (S n) d n Hd Hn ltac:(lia)) as (k & m & -> & En & Hm & Nm). cbn [bind fst snd].
    assert (Pk : d ^ k <> 0) by (apply Nat.pow_nonzero; lia).
    assert (Mn : m <= n) by nia.
    destruct (IH (S d) m) as (l & m' & -> & Em & Pl & Gl & Sl & Hm' & C); [lia|lia|nia|lia| |].
    { intros e He1 He2 He. destruct (Nat.eq_dec e d) as [->|Ne]; [contradiction|]. apply (Nd e); [lia|lia|]. rewrite En. apply Nat.divide_mul_r. exact He. }
    assert (Pd : k <> 0 -> is_prime d).
    { intros Hk. split; auto. intros e He. destruct (Nat.eq_dec e 1) as [|N1]; [now left|]. right. destruct (Nat.eq_dec e d) as [|N2]; [auto|]. exfalso.
      assert (e <= d) by (apply Nat.divide_pos_le; [lia|exact He]). assert (e <> 0) by (intros ->; destruct He as [q Q]; lia).
      apply (Nd e); [lia|lia|]. rewrite En. apply Nat.divide_mul_l. destruct k as [|k]; [contradiction|]. cbn [Nat.pow]. now apply Nat.divide_mul_l. }
    cbn [bind fst snd]. exists (repeat d k ++ l), m'. split; [reflexivity|]. split; [rewrite product_app, repeat_product; rewrite En, Em; lia|].
    split; [apply Forall_app; split; [|exact Pl]; apply Forall_forall; intros x Hx; pose proof (repeat_spec _ _ _ Hx); subst; apply Pd; intros ->; destruct Hx|].
    split; [apply Forall_app; split; [apply Forall_forall; intros x Hx; rewrite (repeat_spec _ _ _ Hx); lia|eapply Forall_impl; [|exact Gl]; cbn; lia]|].
    split.
    + clear - Gl Sl. induction k as [|k IHk]; cbn [repeat app]; [exact Sl|]. constructor; [exact IHk|]. apply Forall_app. split.
      * apply Forall_forall. intros x Hx. rewrite (repeat_spec _ _ _ Hx). lia.
      * eapply Forall_impl; [|exact Gl]. cbn. lia.
    + split; [lia|]. destruct C as [C|(P & G & F)]; [now left|]. right. split; [exact P|]. split; [lia|]. apply Forall_app. split; [|exact F].
      apply Forall_forall. intros x Hx. rewrite (repeat_spec _ _ _ Hx). lia.
  - exists [], n. split; [reflexivity|]. split; [cbn; lia|]. repeat (split; [constructor|]). split; [lia|]. destruct (Nat.eq_dec n 1); [now left|]. right.
    assert (P : is_prime n) by (apply (no_div_prime d); auto; lia). split; [exact P|]. split; [|constructor].
    destruct (le_lt_dec d n); [auto|]. exfalso. apply (Nd n); [lia|lia|apply Nat.divide_refl].
Qed.
(** The prime factorisation: primes in ascending order whose product is the number. *)
Theorem C40_primes n : 1 <= n -> exists l, primes n = Ok l /\ product l = n /\ Forall is_prime l /\ StronglySorted le l.
Proof.
  intros Hn. unfold primes. destruct (factor_loop_spec (S n) 2 n) as (l & m & -> & En & Pl & Gl & Sl & Hm & C); [lia|lia|lia|lia|intros e; lia|].
  cbn [bind fst snd]. destruct (Nat.ltb_spec 1 m) as [L|L].
  - destruct C as [C|(P & G & F)]; [lia|]. exists (l ++ [m]). split; [reflexivity|]. split; [rewrite product_app; cbn; lia|]. split; [apply Forall_app; auto|].
    clear - Sl F. induction Sl as [|x l Sl IH Hx]; cbn [app]; [repeat constructor|]. inversion F; subst. constructor; auto. apply Forall_app. auto.
  - exists (l ++ []). rewrite app_nil_r. split; [reflexivity|]. assert (m = 1) by lia. subst m. split; [lia|]. auto.
Qed.
(** Euclid's lemma *)
Lemma prime_coprime p a : is_prime p -> ~ Nat.divide p a -> Nat.gcd p a = 1.
Proof.
  intros [Hp P] N. destruct (P (Nat.gcd p a) (Nat.gcd_divide_l p a)) as [E|E]; [exact E|]. exfalso. apply N. rewrite <- E. apply Nat.gcd_divide_r.
Qed.
Lemma prime_divides_product p l : is_prime p -> Nat.divide p (product l) -> exists x, In x l /\ Nat.divide p x.
Proof.
  intros P. induction l as [|x l IH]; cbn [product fold_right]; intros D.
  - exfalso. destruct P as [P _]. apply Nat.divide_1_r in D. lia.
  - destruct (Nat.eq_dec (x mod p) 0) as [E|E].
    + exists x. split; [now left|]. apply Nat.mod_divide; [destruct P; lia|exact E].
    + destruct IH as (y & I & Y); [|exists y; split; [now right|exact Y]]. apply (Nat.gauss p x); [exact D|]. apply prime_coprime; auto.
      intros H. apply E. apply Nat.mod_divide; [destruct P; lia|exact H].
Qed.
Lemma prime_in_product p l : is_prime p -> Forall is_prime l -> (In p l <-> Nat.divide p (product l)).
Proof.
  intros P F. split.
  - clear F. induction l as [|x l IH]; [intros []|]. intros [->|I]; cbn [product fold_right]; [apply Nat.divide_mul_l, Nat.divide_refl|apply Nat.divide_mul_r; auto].
  - intros D. apply prime_divides_product in D; auto. destruct D as (x & I & X). rewrite Forall_forall in F. destruct (F x I) as [_ Q]. destruct (Q p X) as [->| ->]; [destruct P; lia|exact I].
Qed.
(** What the factors are used for: a number is among the factors iff it is a prime divisor. *)
Theorem C40_prime_factor n p l : 1 <= n -> primes n = Ok l -> (In p l <-> is_prime p /\ Nat.divide p n).
Proof.
  intros Hn E. destruct (C40_primes n Hn) as (l' & E' & Pn & Fl & _). rewrite E in E'. injection E' as <-. rewrite <- Pn. split.
  - intros I. assert (P : is_prime p) by (rewrite Forall_forall in Fl; auto). split; [exact P|]. now apply prime_in_product.
  - intros [P D]. now apply prime_in_product.
Qed.
(** The factorisation is the only one. *)
Theorem C40_primes_unique n l : 1 <= n -> Forall is_prime l -> StronglySorted le l -> product l = n -> primes n = Ok l.
Proof.
  intros Hn Fl Sl Pl. destruct (C40_primes n Hn) as (l' & -> & P' & F' & S'). f_equal. rewrite <- P' in Pl. clear n Hn P'. revert l Fl Sl Pl.
  induction l' as [|x l' IH]; intros [|y l] Fl Sl Pl; auto.
  - inversion Fl as [|? ? [Hy _] _]; subst. cbn [product fold_right] in Pl. apply Nat.eq_mul_1 in Pl. lia.
  - inversion F' as [|? ? [Hx _] _]; subst. cbn [product fold_right] in Pl. symmetry in Pl. apply Nat.eq_mul_1 in Pl. lia.
  - inversion Fl as [|? ? Py Fl1]; subst. inversion F' as [|? ? Px F1]; subst. inversion Sl as [|? ? Sl1 Ly]; subst. inversion S' as [|? ? S1 Lx]; subst.
    assert (XY : x = y).
    { assert (I1 : In x (y :: l)) by (apply prime_in_product; [auto|auto|]; rewrite Pl; apply prime_in_product; auto; now left).
      assert (I2 : In y (x :: l')) by (apply prime_in_product; [auto|auto|]; rewrite <- Pl; apply prime_in_product; auto; now left).
      rewrite Forall_forall in Ly, Lx. destruct I1 as [->|I1]; [reflexivity|]. destruct I2 as [->|I2]; [reflexivity|]. apply Ly in I1. apply Lx in I2. lia. }
    subst y. f_equal. apply IH; auto. cbn [product fold_right] in Pl. destruct Px as [Px _]. apply Nat.mul_cancel_l in Pl; [exact Pl|lia].
Qed.
Lemma gcd_loop_spec fuel : forall a b, b < fuel -> gcd_loop fuel a b = Ok (Nat.gcd a b).
Proof.
  induction fuel as [|f IH]; intros a b H; [lia|]. cbn [gcd_loop]. destruct (Nat.eqb_spec b 0) as [->|N]; [now rewrite Nat.gcd_0_r|].
  pose proof (Nat.mod_upper_bound a b N). rewrite IH by lia. f_equal. rewrite (Nat.gcd_comm a b), Nat.gcd_comm. now apply Nat.gcd_mod.
Qed.
Theorem C40_gcd a b : exists g, gcd a b = Ok g /\ Nat.divide g a /\ Nat.divide g b /\ forall d, Nat.divide d a -> Nat.divide d b -> Nat.divide d g.
Proof.
  exists (Nat.gcd a b). split; [apply gcd_loop_spec; lia|]. split; [apply Nat.gcd_divide_l|]. split; [apply Nat.gcd_divide_r|]. intros d. apply Nat.gcd_greatest.
Qed.
Example C40_primes_example : primes 360 = Ok [2; 2; 2; 3; 3; 5] /\ gcd 84 36 = Ok 12.
Proof. split; reflexivity. Qed.

(** ** C39 *)
(** The two factors multiply to the batch size, the second is at most the batch size; it fails exactly when the
    devices do not divide a large batch. *)
Theorem C39_product m b p v : 1 <= n_devices m -> distribute_batchsize m b = Ok (p, v) -> p * v = b /\ (p = 1 \/ p = n_devices m).
Proof.
  intros Hd. unfold distribute_batchsize. destruct (Nat.leb_spec b (vmap_size_min m)) as [L|L].
  - intros [= <- <-]. lia.
  - unfold assert_. destruct (b mod n_devices m =? 0) eqn:E; [|discriminate]. cbn [bind]. intros [= <- <-]. apply Nat.eqb_eq in E.
    apply Nat.mod_divide in E; [|lia]. destruct E as [q ->]. rewrite Nat.div_mul by lia. destruct q as [|q]; [cbn in *; lia|].
    rewrite (Nat.mul_comm (S q)), Nat.div_mul by lia. lia.
Qed.
Theorem C39_accepts m b : 1 <= n_devices m -> (exists pv, distribute_batchsize m b = Ok pv) <-> (b <= vmap_size_min m \/ Nat.divide (n_devices m) b).
Proof.
  intros Hd. unfold distribute_batchsize. destruct (Nat.leb_spec b (vmap_size_min m)) as [L|L]; [split; eauto|].
  rewrite <- Nat.mod_divide by lia. unfold assert_. destruct (Nat.eqb_spec (b mod n_devices m) 0) as [E|E]; cbn [bind].
  - split; eauto.
  - split; [intros [? H]; discriminate|lia].
Qed.
(** Expanding puts element [i * v + j] at position [i, j]; merging undoes it, and conversely. *)
Lemma chunks_concat {A} v : forall p (x : list A), length x = p * v -> concat (map (fun i => firstn v (skipn (i * v) x)) (seq 0 p)) = x.
Proof.
  induction p as [|p IH]; intros x H; [now destruct x|]. cbn [seq map concat]. cbn [Nat.mul skipn]. rewrite <- (firstn_skipn v x) at 2. f_equal.
  rewrite <- (IH (skipn v x)) at 1 by (rewrite skipn_length; lia). f_equal. rewrite <- seq_shift, map_map. apply map_ext. intros i. f_equal. rewrite skipn_skipn. f_equal.
Qed.
Lemma nth_error_firstn_lt {A} (l : list A) : forall v j, j < v -> nth_error (firstn v l) j = nth_error l j.
Proof. induction l as [|a l IH]; intros [|v] [|j] H; cbn; auto; try lia. apply IH. lia. Qed.
Theorem C39_expand {A} (x : list A) p v : length x = p * v -> exists y, expand_batchsize x p v = Ok y /\ length y = p /\ Forall (fun r => length r = v) y /\
  merge_batchsize y p v = Ok x /\
  forall i j row, nth_error y i = Some row -> j < v -> nth_error row j = nth_error x (i * v + j).
Proof.
  intros H. unfold expand_batchsize. rewrite (proj2 (Nat.eqb_eq _ _) H). eexists. split; [reflexivity|]. split; [now rewrite map_length, seq_length|].
  split; [|split].
  - apply Forall_forall. intros r Hr. apply in_map_iff in Hr. destruct Hr as (i & <- & Hi). apply in_seq in Hi. rewrite firstn_length, skipn_length. nia.
  - unfold merge_batchsize. rewrite chunks_concat by auto. now rewrite (proj2 (Nat.eqb_eq _ _) H).
  - intros i j row Hi Hj. rewrite nth_error_map in Hi. destruct (nth_error (seq 0 p) i) as [i'|] eqn:E; [|discriminate]. cbn in Hi. injection Hi as <-.
    assert (i < p) by (rewrite <- (seq_length p 0); apply nth_error_Some; congruence). rewrite nth_error_nth' with (d := 0), seq_nth in E by (rewrite ?seq_length; auto). injection E as <-. cbn [Nat.add].
    rewrite nth_error_firstn_lt by auto.
    generalize (i * v). clear. intros k. revert x. induction k as [|k IH]; intros x; [reflexivity|]. destruct x; cbn; [now destruct j|apply IH].
Qed.
Theorem C39_merge {A} (x : list (list A)) p v : length x = p -> Forall (fun r => length r = v) x -> exists y, merge_batchsize x p v = Ok y /\ expand_batchsize y p v = Ok x.
Proof.
  intros Hp F. assert (L : length (concat x) = p * v).
  { subst p. clear - F. induction F as [|r x Hr F IH]; [reflexivity|]. cbn [concat length]. rewrite app_length, IH. lia. }
  unfold merge_batchsize. rewrite (proj2 (Nat.eqb_eq _ _) L). eexists. split; [reflexivity|]. unfold expand_batchsize. rewrite (proj2 (Nat.eqb_eq _ _) L). f_equal.
  clear L. subst p. induction F as [|r x Hr F IH]; [reflexivity|]. cbn [length seq map concat Nat.mul skipn]. f_equal.
  - rewrite firstn_app, Hr, Nat.sub_diag, <- Hr, firstn_all. cbn. apply app_nil_r.
  - rewrite <- IH at 2. rewrite <- seq_shift, map_map. apply map_ext. intros i. f_equal. rewrite Nat.mul_succ_l, Nat.add_comm, <- skipn_skipn. rewrite skipn_app, <- Hr, skipn_all, Nat.sub_diag. reflexivity.
Qed.
(** With the third axis merged too, all rows come out in order. *)
Theorem C39_merge3 {A} (x : list (list (list A))) p v : length x = p -> Forall (fun r => length r = v) x -> merge_batchsize3 x p v = Ok (concat (concat x)).
Proof.
  intros Hp F. unfold merge_batchsize3. replace (length (concat x) =? p * v) with true; [reflexivity|]. symmetry. apply Nat.eqb_eq.
  subst p. induction F as [|r x Hr F IH]; [reflexivity|]. cbn [concat length]. rewrite app_length, IH. lia.
Qed.
Example C39_example : distribute_batchsize (cpu 4) 12 = Ok (4, 3) /\ distribute_batchsize (gpu 4) 8 = Ok (1, 8) /\ distribute_batchsize (cpu 4) 10 = Err EAssertion /\
  expand_batchsize [1; 2; 3; 4; 5; 6] 2 3 = Ok [[1; 2; 3]; [4; 5; 6]].
Proof. repeat split. Qed.

(** ** C42 *)
Section C42.
Context {A : Type} (isnan : A -> bool).
Definition good (data : list A) (incl : list nat) (d : nat) : bool :=
  match nth_error incl d with Some j => match nth_error data j with Some e => negb (isnan e) | None => false end | None => false end.
(** [x] may stand at position [i] of the result *)
Definition allowed (data : list A) (incl : list nat) (e x : A) : Prop :=
  isnan x = false /\ (isnan e = false -> x = e) /\ (isnan e = true -> exists j, In j incl /\ nth_error data j = Some x).
Lemma draw_spec data incl : forall draws e r, draw_good isnan data incl draws = Ok (e, r) -> isnan e = false /\ exists j, In j incl /\ nth_error data j = Some e.
Proof.
  induction draws as [|d draws IH]; intros e r; cbn [draw_good]; [discriminate|]. destruct (nth_error incl d) as [j|] eqn:Ej; [|discriminate].
  destruct (nth_error data j) as [x|] eqn:Ex; [|discriminate]. destruct (isnan x) eqn:N; [apply IH|]. intros [= <- <-]. split; auto. exists j. split; auto. eapply nth_error_In; eauto.
Qed.
Lemma replace_spec data incl : forall todo draws out, replace_loop isnan data incl todo draws = Ok out -> Forall2 (allowed data incl) todo out.
Proof.
  induction todo as [|e todo IH]; intros draws out; cbn [replace_loop]; [intros [= <-]; constructor|]. intros H. apply bind_Ok in H. destruct H as ([x r] & Hx & H).
  apply bind_Ok in H. destruct H as (es & Hes & H). injection H as <-. cbn [fst snd] in *. constructor; [|eauto].
  destruct (isnan e) eqn:N.
  - apply draw_spec in Hx. destruct Hx as [Nx Hj]. split; [auto|]. split; [intros; congruence|]. auto.
  - injection Hx as <- <-. split; [auto|]. split; auto. congruence.
Qed.
(** Whatever is drawn, a returned list has the same length, no NaN, unchanged good elements and only allowed replacements. *)
Theorem C42_result data incl draws out : replace_elements_w_nans isnan data incl draws = Ok out ->
  Forall2 (allowed data (match incl with Some l => l | None => seq 0 (length data) end)) data out.
Proof.
  unfold replace_elements_w_nans. set (l := match incl with Some l => l | None => _ end). destruct l; [discriminate|]. intros H. inv_bind. eapply replace_spec; eauto.
Qed.
(** The loop ends as soon as the draws contain as many usable elements as there are NaN elements. *)
Definition in_range (incl draws : list nat) := Forall (fun d => d < length incl) draws.
Lemma draw_ends data incl : Forall (fun j => j < length data) incl -> forall draws, in_range incl draws -> forall k, S k <= length (filter (good data incl) draws) ->
  exists e r, draw_good isnan data incl draws = Ok (e, r) /\ k <= length (filter (good data incl) r) /\ in_range incl r.
Proof.
  intros FI. induction draws as [|d draws IH]; intros FD k Hk; [cbn in Hk; lia|]. inversion FD as [|? ? Hd FD']; subst. cbn [draw_good filter] in *.
  unfold good at 1 in Hk. destruct (nth_error incl d) as [j|] eqn:Ej; [|apply nth_error_None in Ej; lia].
  rewrite Forall_forall in FI. destruct (nth_error data j) as [x|] eqn:Ex; [|apply nth_error_None in Ex; specialize (FI j (nth_error_In _ _ Ej)); lia].
  destruct (isnan x); cbn [negb] in Hk; [apply IH; auto|]. exists x, draws. split; [reflexivity|]. cbn [length] in Hk. split; [lia|exact FD'].
Qed.
Theorem C42_terminates data incl draws : let l := match incl with Some l => l | None => seq 0 (length data) end in
  l <> [] -> Forall (fun j => j < length data) l -> forallb isnan data = false -> in_range l draws ->
  length (filter isnan data) <= length (filter (good data l) draws) ->
  exists out, replace_elements_w_nans isnan data incl draws = Ok out.
Proof.
  intros l Nl FI NN FD Hc. unfold replace_elements_w_nans. fold l. assert (A0 : forallb (fun j => j <? length data) l = true).
  { apply forallb_forall. intros j Hj. rewrite Forall_forall in FI. apply Nat.ltb_lt. auto. }
  destruct l as [|j0 l'] eqn:El; [contradiction|]. rewrite <- El in *. rewrite A0, NN. cbn [negb assert_ bind].
  assert (G : forall todo dr, in_range l dr -> length (filter isnan todo) <= length (filter (good data l) dr) -> exists out, replace_loop isnan data l todo dr = Ok out).
  { induction todo as [|e todo IH]; intros dr FDr Hd; cbn [replace_loop]; [eauto|]. cbn [filter] in Hd. destruct (isnan e) eqn:N.
    - cbn [length] in Hd. destruct (draw_ends data l FI dr FDr _ Hd) as (x & r & -> & Hr & Fr). cbn [bind fst snd]. destruct (IH r Fr Hr) as (o & ->). cbn. eauto.
    - cbn [bind fst snd]. destruct (IH dr FDr Hd) as (o & ->). cbn. eauto. }
  apply G; auto.
Qed.
(** Without include_elements there always is a usable element unless all are NaN, which is reported. *)
Theorem C42_default_usable data : forallb isnan data = false -> exists d, d < length data /\ good data (seq 0 (length data)) d = true.
Proof.
  intros H. assert (E : exists x, In x data /\ isnan x = false).
  { induction data as [|x data IH]; [discriminate|]. cbn in H. destruct (isnan x) eqn:N; [|exists x; split; [now left|auto]]. destruct IH as (y & I & Y); [auto|]. exists y. split; [now right|auto]. }
  destruct E as (x & I & N). apply In_nth_error in I. destruct I as (d & Hd). assert (L : d < length data) by (apply nth_error_Some; congruence). exists d. split; [auto|].
  unfold good. rewrite nth_error_nth' with (d := 0) by now rewrite seq_length. rewrite seq_nth by auto. cbn [Nat.add]. now rewrite Hd, N.
Qed.
Theorem C42_all_nan data incl draws : data <> [] -> forallb isnan data = true -> match incl with Some l => l <> [] /\ Forall (fun j => j < length data) l | None => True end ->
  replace_elements_w_nans isnan data incl draws = Err EAssertion.
Proof.
  intros Nd H HI. unfold replace_elements_w_nans. set (l := match incl with Some l => l | None => _ end).
  assert (P : l <> [] /\ forallb (fun j => j <? length data) l = true).
  { unfold l. destruct incl as [i|].
    - destruct HI as [Hi Fi]. split; auto. apply forallb_forall. intros j Hj. rewrite Forall_forall in Fi. apply Nat.ltb_lt. auto.
    - split; [destruct data; [contradiction|discriminate]|]. apply forallb_forall. intros j Hj. apply in_seq in Hj. apply Nat.ltb_lt. lia. }
  destruct P as [P1 P2]. destruct l; [contradiction|]. rewrite P2, H. reflexivity.
Qed.
(** Termination fails when all allowed replacements are NaN while the data are not: the loop then draws for ever. *)
Theorem C42_terminates_refuted data incl draws : forallb isnan data = false -> existsb isnan data = true -> incl <> [] ->
  Forall (fun j => exists e, nth_error data j = Some e /\ isnan e = true) incl -> in_range incl draws ->
  replace_elements_w_nans isnan data (Some incl) draws = Err EOutOfFuel.
Proof.
  intros NN EX Ni FI FD. unfold replace_elements_w_nans. assert (A0 : forallb (fun j => j <? length data) incl = true).
  { apply forallb_forall. intros j Hj. rewrite Forall_forall in FI. destruct (FI j Hj) as (e & E & _). apply Nat.ltb_lt. apply nth_error_Some. congruence. }
  destruct incl as [|i0 incl'] eqn:Ei; [contradiction|]. rewrite <- Ei in *. rewrite A0, NN. cbn [negb assert_ bind].
  assert (D : forall dr, in_range incl dr -> draw_good isnan data incl dr = Err EOutOfFuel).
  { induction dr as [|d dr IH]; intros F; [reflexivity|]. inversion F; subst. cbn [draw_good]. destruct (nth_error _ d) as [j|] eqn:Ej; [|apply nth_error_None in Ej; lia].
    rewrite Forall_forall in FI. destruct (FI j (nth_error_In _ _ Ej)) as (e & -> & ->). auto. }
  clear NN A0. assert (G : forall todo, existsb isnan todo = true -> replace_loop isnan data incl todo draws = Err EOutOfFuel).
  { induction todo as [|e todo IH]; cbn [existsb replace_loop]; [discriminate|]. destruct (isnan e); [rewrite D by auto; reflexivity|]. cbn [orb bind fst snd]. intros H. rewrite IH by auto. reflexivity. }
  now apply G.
Qed.
End C42.
Example C42_example : replace_elements_w_nans (fun x => x =? 99) [1; 99; 3; 99] None [1; 3; 0; 2] = Ok [1; 1; 3; 3] /\
  replace_elements_w_nans (fun x => x =? 99) [1; 99; 3; 99] (Some [1; 3]) [1; 0; 1; 1; 0; 0] = Err EOutOfFuel.
Proof. split; reflexivity. Qed.
