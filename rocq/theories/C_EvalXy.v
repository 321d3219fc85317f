(** * C83: validation during training reports, for every metric and link, the metric over the whole validation set. *)
From Coq Require Import String ZArith Lia Bool Arith List.
From Verif Require Import Prelude M_Util M_Rcmg C_Util C_Union P_Layout M_EvalXy.
Import ListNotations.
Local Open Scope string_scope. Local Open Scope list_scope. Local Open Scope nat_scope.

Lemma mapM_total_ok {A B} (f : A -> result B) (g : A -> B) l : (forall a, In a l -> f a = Ok (g a)) -> mapM f l = Ok (map g l).
Proof.
  induction l as [|a l IH]; intros H; [reflexivity|]. cbn [mapM map]. rewrite H by now left. cbn [bind]. rewrite IH by (intros; apply H; now right). reflexivity.
Qed.
Lemma nth_error_combine_seq {A} (l : list A) : forall k i a, nth_error l i = Some a -> nth_error (combine (seq k (length l)) l) i = Some (k + i, a).
Proof.
  induction l as [|b l IH]; intros k [|i] a E; cbn in *; try discriminate.
  - injection E as ->. now rewrite Nat.add_0_r.
  - rewrite (IH (S k) i a E). do 2 f_equal. lia.
Qed.
Lemma combine_concat {A B} : forall (x : list (list A)) (y : list (list B)) v, length x = length y -> Forall (fun r => length r = v) x -> Forall (fun r => length r = v) y ->
  concat (map (fun p => combine (fst p) (snd p)) (combine x y)) = combine (concat x) (concat y).
Proof.
  induction x as [|a x IH]; intros [|b y] v L FX FY; cbn in L; try discriminate; [reflexivity|].
  inversion FX; inversion FY; subst. cbn [combine map concat fst snd]. rewrite (IH y (length a)) by (auto; congruence).
  clear -H5. revert b H5. induction a as [|u a IHa]; intros [|w b] E; cbn in *; try discriminate; [reflexivity|]. f_equal. apply IHa. congruence.
Qed.

Section Validation.
Context {Par XS YS YL V : Type}.
Variable apply : Par -> list XS -> list YS -> list YS.
Variable link : nat -> YS -> YL.
Variable n : nat.
Notation eval m := (@eval_xy Par XS YS YL V m apply link n n).
(** What the filter does with one sequence; it treats the sequences of a batch alike and each by itself. *)
Variable one : Par -> XS -> YS -> YS.
Hypothesis each : forall p X y, length X = length y -> apply p X y = map (fun xy => one p (fst xy) (snd xy)) (combine X y).

Definition inputs (d : @data XS YS) : list XS := match d with Single x _ => [x] | Batch X _ => X end.
Definition targets (d : @data XS YS) : list YS := match d with Single _ y => [y] | Batch _ y => y end.
Definition estimates (d : @data XS YS) (p : Par) : list YS := map (fun xy => one p (fst xy) (snd xy)) (combine (inputs d) (targets d)).
Definition default_names : list string := map (fun i => ("link" ++ str_nat i)%string) (seq 0 n).

(** The devices do not show: the whole set is evaluated at once, in its order. *)
Lemma eval_flat m metrics names (d : @data XS YS) p : 1 <= n_devices m -> length (inputs d) = length (targets d) ->
  (length (inputs d) <= vmap_size_min m \/ Nat.divide (n_devices m) (length (inputs d))) ->
  eval m metrics names d p =
  mapM (fun nf => do value <- per_link link n n (snd nf) (targets d) (estimates d p);
                  do v <- by_name value (match names with Some l => l | None => default_names end); Ok (fst nf, v)) metrics.
Proof.
  intros M L D. unfold eval_xy. assert (EB : batched d = (inputs d, targets d)) by (destruct d; reflexivity). rewrite EB.
  apply (proj2 (C39_accepts m _ M)) in D. destruct D as [[pm v] ED]. rewrite ED. cbn [bind fst snd]. destruct (C39_product _ _ _ _ M ED) as [PV _].
  destruct (C39_expand (inputs d) pm v) as (X' & -> & LX & FX & CX); [lia|]. cbn [bind].
  destruct (C39_expand (targets d) pm v) as (y' & -> & LY & FY & CY); [lia|]. cbn [bind].
  destruct CX as [MX CX]. destruct CY as [MY CY]. rewrite MY. cbn [bind].
  assert (CX' : concat X' = inputs d). { unfold merge_batchsize in MX. destruct (_ =? _) in MX; [congruence|discriminate]. }
  assert (CY' : concat y' = targets d). { unfold merge_batchsize in MY. destruct (_ =? _) in MY; [congruence|discriminate]. }
  set (out := map (fun xy => apply p (fst xy) (snd xy)) (combine X' y')).
  assert (EO : concat out = estimates d p).
  { unfold estimates. rewrite <- CX', <- CY', <- (combine_concat X' y' v) by (auto; congruence). rewrite concat_map, map_map. f_equal. unfold out. apply map_ext_in. intros [a b] I.
    cbn [fst snd]. apply each. rewrite (proj1 (Forall_forall _ _) FX a) by now apply in_combine_l in I. rewrite (proj1 (Forall_forall _ _) FY b) by now apply in_combine_r in I. reflexivity. }
  unfold merge_batchsize. rewrite EO. assert (LE : length (estimates d p) = pm * v). { unfold estimates. rewrite map_length, combine_length. lia. }
  rewrite LE, Nat.eqb_refl. reflexivity.
Qed.

(** Each metric is reported once, under its name, and for every link the value is the metric of that link's targets and estimates over
    the whole set, in its order, on every machine. *)
Theorem C83_validation m metrics names (d : @data XS YS) p : 1 <= n_devices m -> length (inputs d) = length (targets d) ->
  (length (inputs d) <= vmap_size_min m \/ Nat.divide (n_devices m) (length (inputs d))) ->
  let link_names := match names with Some l => l | None => default_names end in
  NoDup link_names -> length link_names = n ->
  exists r, eval m metrics names d p = Ok r /\ map fst r = map fst metrics /\
    forall j name fn, nth_error metrics j = Some (name, fn) -> exists v, nth_error r j = Some (name, v) /\ length v = n /\
      forall i s, nth_error link_names i = Some s ->
        dget String.eqb v s = Some (fn (map (link i) (targets d)) (map (link i) (estimates d p))).
Proof.
  intros M L D link_names ND LN. rewrite (eval_flat m metrics names d p M L D). fold link_names.
  set (val := fun (fn : list YL -> list YL -> V) i => fn (map (link i) (targets d)) (map (link i) (estimates d p))).
  set (dict := fun fn => fold_left (fun d kv => dset String.eqb d (fst kv) (snd kv)) (map (fun q => (snd q, val fn (fst q))) (combine (seq 0 n) link_names)) []).
  rewrite (mapM_total_ok _ (fun nf => (fst nf, dict (snd nf)))).
  - eexists. split; [reflexivity|]. split; [rewrite map_map; reflexivity|]. intros j name fn E. exists (dict fn). rewrite nth_error_map, E. split; [reflexivity|].
    assert (FS : map fst (map (fun q : nat * string => (snd q, val fn (fst q))) (combine (seq 0 n) link_names)) = link_names).
    { rewrite map_map. cbn [fst]. assert (G : forall (a : list nat) (b : list string), length a = length b -> map snd (combine a b) = b).
      { induction a as [|u a IH]; intros [|w b] LL; cbn in *; try discriminate; [reflexivity|]. f_equal. apply IH. congruence. }
      apply G. rewrite seq_length. lia. }
    assert (KV : forall (items : list (string * V)) acc, NoDup (map fst (acc ++ items)) -> fold_left (fun d kv => dset String.eqb d (fst kv) (snd kv)) items acc = acc ++ items).
    { induction items as [|[k w] items IH]; intros acc NN; cbn [fold_left]; [now rewrite app_nil_r|]. cbn [fst snd].
      assert (NI : ~ In k (map fst acc)). { rewrite map_app in NN. cbn [map fst] in NN. apply NoDup_remove_2 in NN. intros I. apply NN. apply in_or_app. now left. }
      replace (dset String.eqb acc k w) with (acc ++ [(k, w)]).
      - rewrite IH; rewrite <- app_assoc; [reflexivity|exact NN].
      - clear -NI. induction acc as [|[k0 w0] acc IHa]; [reflexivity|]. cbn [dset app]. destruct (String.eqb_spec k k0) as [->|NE]; [exfalso; apply NI; now left|]. rewrite <- IHa; [reflexivity|]. intros I. apply NI. now right. }
    assert (ED : dict fn = map (fun q => (snd q, val fn (fst q))) (combine (seq 0 n) link_names)) by (unfold dict; rewrite KV; [reflexivity|]; cbn [app]; now rewrite FS).
    rewrite ED. split; [rewrite map_length, combine_length, seq_length; lia|]. intros i s Es.
    apply C_Union.dget_NoDup_In; [now rewrite FS|]. apply in_map_iff. exists (i, s). split; [reflexivity|].
    apply nth_error_In with i. rewrite <- LN. now apply nth_error_combine_seq with (k := 0).
  - intros [name fn] _. cbn [fst snd]. unfold per_link. rewrite Nat.eqb_refl. cbn [bind]. unfold by_name.
    rewrite (mapM_total_ok _ (fun q => (snd q, val fn (fst q)))).
    + cbn [bind]. rewrite LN. reflexivity.
    + intros [i s] I. cbn [fst snd]. assert (IL : i < n). { apply in_combine_l in I. apply in_seq in I. lia. }
      unfold clamp_get. rewrite map_length, seq_length, Nat.min_l by lia. rewrite nth_error_map.
      replace (nth_error (seq 0 n) i) with (Some i); [reflexivity|]. symmetry. rewrite (nth_error_nth' _ 0) by (rewrite seq_length; exact IL). now rewrite seq_nth.
Qed.

(** Refused: a set that cannot be spread evenly over the devices, and targets for another number of sequences. *)
Theorem C83_uneven m metrics names (d : @data XS YS) p : 1 <= n_devices m -> vmap_size_min m < length (inputs d) -> ~ Nat.divide (n_devices m) (length (inputs d)) ->
  eval m metrics names d p = Err EAssertion.
Proof.
  intros M G D. unfold eval_xy. assert (EB : batched d = (inputs d, targets d)) by (destruct d; reflexivity). rewrite EB.
  unfold distribute_batchsize. destruct (Nat.leb_spec (length (inputs d)) (vmap_size_min m)); [lia|].
  destruct (Nat.eqb_spec (length (inputs d) mod n_devices m) 0) as [E|E]; [|reflexivity]. exfalso. apply D. apply Nat.mod_divide in E; [exact E|lia].
Qed.
Theorem C83_lengths m metrics names (d : @data XS YS) p : 1 <= n_devices m -> length (inputs d) <> length (targets d) ->
  exists x, eval m metrics names d p = Err x.
Proof.
  intros M NL. unfold eval_xy. assert (EB : batched d = (inputs d, targets d)) by (destruct d; reflexivity). rewrite EB.
  destruct (distribute_batchsize m (length (inputs d))) as [[pm v]|x] eqn:ED; [|eexists; reflexivity]. cbn [bind fst snd].
  destruct (C39_product _ _ _ _ M ED) as [PV _]. unfold expand_batchsize. rewrite PV, Nat.eqb_refl. cbn [bind].
  destruct (Nat.eqb_spec (length (targets d)) (length (inputs d))); [congruence|]. eexists. reflexivity.
Qed.
End Validation.

(** The default link names are always usable. *)
Theorem C83_default_names n : NoDup (default_names n) /\ length (default_names n) = n.
Proof.
  unfold default_names. rewrite map_length, seq_length. split; [|reflexivity].
  apply FinFun.Injective_map_NoDup; [|apply seq_NoDup]. intros i j E. cbn [append] in E. injection E as E. now apply P_Layout.str_nat_inj.
Qed.

(** Four sequences of two links on two devices: the link-wise sums of all errors. *)
Definition xy_apply (p : nat) (X : list nat) (y : list (list nat)) : list (list nat) := map (fun xy => map (fun v => v + p * fst xy) (snd xy)) (combine X y).
Definition xy_link (i : nat) (y : list nat) : nat := nth i y 0.
Definition xy_sum (y yhat : list nat) : nat := fold_left (fun s q => 10 * s + (snd q - fst q)) (combine y yhat) 0.
Example C83_example :
  eval_xy (cpu 2) xy_apply xy_link 2 2 [("err", xy_sum); ("first", fun y _ => nth 0 y 0)] None (Batch [1; 2; 3; 4] [[5; 6]; [6; 7]; [7; 8]; [8; 9]]) 1
  = Ok [("err", [("link0", 1234); ("link1", 1234)]); ("first", [("link0", 5); ("link1", 6)])] /\
  (forall p X y, length X = length y -> xy_apply p X y = map (fun xy => map (fun v => v + p * fst xy) (snd xy)) (combine X y)).
Proof. split; [vm_compute; reflexivity|reflexivity]. Qed.

(** Names and links are not compared: a name too many repeats the last link, a link without a name is not reported. *)
Theorem C83_names_refuted :
  eval_xy (cpu 2) xy_apply xy_link 2 2 [("first", fun y _ => nth 0 y 0)] (Some ["a"; "b"; "c"]) (Batch [1; 2] [[5; 6]; [6; 7]]) 1
  = Ok [("first", [("a", 5); ("b", 6); ("c", 6)])] /\
  eval_xy (cpu 2) xy_apply xy_link 2 2 [("first", fun y _ => nth 0 y 0)] (Some ["a"]) (Batch [1; 2] [[5; 6]; [6; 7]]) 1
  = Ok [("first", [("a", 5)])].
Proof. split; vm_compute; reflexivity. Qed.
Print Assumptions C83_validation.
