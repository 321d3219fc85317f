(** * C77: what is logged. *)
From Coq Require Import String Ascii ZArith Lia Bool Arith List Permutation.
From Verif Require Import Prelude M_Hdf5 M_Disk M_Log S_Log.
From Verif Require C_Union C_Hdf5 C_Lookup.
Import ListNotations.
Local Open Scope string_scope.
Local Open Scope list_scope.

(** ** Dictionaries from lists of items *)
Fixpoint last_of {V} (k : string) (l : list (string * V)) : option V :=
  match l with [] => None | (k', v) :: r => match last_of k r with Some w => Some w | None => if String.eqb k k' then Some v else None end end.
Lemma last_of_app {V} k (a b : list (string * V)) : last_of k (a ++ b) = match last_of k b with Some w => Some w | None => last_of k a end.
Proof.
  induction a as [|[k' v] a IH]; cbn [app last_of]; [destruct (last_of k b); reflexivity|]. rewrite IH. destruct (last_of k b); [reflexivity|]. reflexivity.
Qed.
Lemma dget_dict_acc {V} k (items : list (string * V)) : forall d,
  dget String.eqb (fold_left (fun d kv => dset String.eqb d (fst kv) (snd kv)) items d) k = match last_of k items with Some v => Some v | None => dget String.eqb d k end.
Proof.
  induction items as [|[k' v] r IH]; intros d; cbn [fold_left fst snd last_of]; [reflexivity|]. rewrite IH, C_Union.dget_dset_eq.
  destruct (last_of k r); [reflexivity|]. destruct (String.eqb k k'); reflexivity.
Qed.
Lemma dget_dict_of {V} k (items : list (string * V)) : dget String.eqb (dict_of items) k = last_of k items.
Proof. unfold dict_of. rewrite dget_dict_acc. destruct (last_of k items); reflexivity. Qed.
Lemma dict_of_NoDup {V} (items : list (string * V)) : NoDup (map fst (dict_of items)).
Proof.
  unfold dict_of. assert (H : forall d, NoDup (map fst d) -> NoDup (map fst (fold_left (fun d kv => dset String.eqb d (fst kv) (snd kv)) items d))).
  { induction items as [|kv r IH]; intros d N; cbn [fold_left]; [exact N|]. apply IH, C_Union.dset_keys, N. }
  apply H. constructor.
Qed.
Lemma last_of_NoDup {V} k (d : list (string * V)) : NoDup (map fst d) -> last_of k d = dget String.eqb d k.
Proof.
  induction d as [|[k' v] d IH]; intros N; [reflexivity|]. inversion N as [|? ? N1 N2]; subst. cbn [last_of dget fst snd].
  rewrite IH by auto. destruct (String.eqb_spec k k') as [->|NE].
  - destruct (dget String.eqb d k') eqn:E; [|reflexivity]. exfalso. apply N1. apply C_Union.dget_In_iff in E. apply (in_map fst) in E. exact E.
  - destruct (dget String.eqb d k); reflexivity.
Qed.
Lemma dget_perm {V} (a b : list (string * V)) k : Permutation a b -> NoDup (map fst a) -> dget String.eqb a k = dget String.eqb b k.
Proof.
  intros P N. assert (N' : NoDup (map fst b)) by (eapply Permutation_NoDup; [apply Permutation_map, P|exact N]).
  destruct (dget String.eqb a k) as [v|] eqn:E.
  - symmetry. apply C_Union.dget_NoDup_In; auto. eapply Permutation_in; [exact P|]. now apply C_Union.dget_In_iff.
  - symmetry. apply C_Union.dget_None_iff. apply C_Union.dget_None_iff in E. intros I. apply E. eapply Permutation_in; [apply Permutation_map, Permutation_sym, P|exact I].
Qed.

Section Names.
Context {X : Type}.
Notation metric := (@metric X).
Notation mleaf := (@mleaf X).

Lemma metric_ind_nested (P : metric -> Prop) : (forall v, P (MLeaf v)) -> (forall d, Forall (fun kv => P (snd kv)) d -> P (MDict d)) -> forall m, P m.
Proof.
  intros HL HD. fix IH 1. intros [v|d]; [apply HL|]. apply HD. induction d as [|[k v] d IHd]; constructor; [apply IH|exact IHd].
Qed.
Definition item_go (parent : string) := fix go (d : list (mkey * metric)) : list (string * mleaf) :=
  match d with
  | [] => []
  | (k, v) :: r => let nk := new_key parent (key_str k) in
    (match v with MLeaf x => [(nk, x)] | MDict _ => flatten_dict nk v end) ++ go r
  end.
Lemma flatten_dict_eq parent d : flatten_dict parent (MDict d) = dict_of (item_go parent d).
Proof. reflexivity. Qed.
Definition leaves_go (path : list string) := fix go (d : list (mkey * metric)) : list (list string * mleaf) :=
  match d with [] => [] | (k, v) :: r => leaves (path ++ [key_str k]) v ++ go r end.
Lemma leaves_eq path d : leaves path (MDict d) = leaves_go path d.
Proof. reflexivity. Qed.

Lemma last_named_app k (a b : list (list string * mleaf)) : last_named k (a ++ b) = match last_named k b with Some w => Some w | None => last_named k a end.
Proof.
  induction a as [|[p v] a IH]; cbn [app last_named]; [destruct (last_named k b); reflexivity|]. rewrite IH. destruct (last_named k b); reflexivity.
Qed.
Lemma name_from_snoc n p k : name_from n (p ++ [k]) = new_key (name_from n p) k.
Proof. revert n. induction p as [|a p IH]; intros n; cbn [app name_from]; [reflexivity|]. apply IH. Qed.

Lemma flatten_leaves (m : metric) : forall path, is_dict m -> forall k, dget String.eqb (flatten_dict (name_of path) m) k = last_named k (leaves path m).
Proof.
  induction m as [v|d IH] using metric_ind_nested; intros path D k; [destruct D|]. rewrite flatten_dict_eq, dget_dict_of, leaves_eq. clear D.
  induction IH as [|[k0 v] d Hv _ IHd]; [reflexivity|]. cbn [item_go leaves_go]. fold (item_go (name_of path)). fold (leaves_go path).
  rewrite last_of_app, last_named_app, IHd. destruct (last_named k (leaves_go path d)); [reflexivity|].
  cbv zeta. assert (EN : new_key (name_of path) (key_str k0) = name_of (path ++ [key_str k0])) by (unfold name_of; now rewrite name_from_snoc).
  rewrite EN. destruct v as [x|d'].
  - reflexivity.
  - cbn [snd] in Hv. rewrite last_of_NoDup by (rewrite flatten_dict_eq; apply dict_of_NoDup). apply Hv. exact Logic.I.
Qed.
Lemma flatten_NoDup (m : metric) parent : NoDup (map fst (flatten_dict parent m)).
Proof. destruct m as [v|d]; [constructor|]. rewrite flatten_dict_eq. apply dict_of_NoDup. Qed.

(** The flat dictionary of metrics has one entry per name, with the value of the last leaf of this name. *)
Theorem C77_names (m : metric) k : is_dict m -> dget String.eqb (flatten_dict "" m) k = last_named k (leaves [] m).
Proof. intros D. exact (flatten_leaves m [] D k). Qed.

(** *** Names of leaves differ if keys are plain *)
Fixpoint tail_name (p : list string) : string := match p with [] => "" | k :: r => ("_" ++ k ++ tail_name r)%string end.
Lemma append_assoc (a b c : string) : ((a ++ b) ++ c = a ++ b ++ c)%string.
Proof. induction a as [|x a IH]; cbn [String.append]; [reflexivity|]. now rewrite IH. Qed.
Lemma append_nil_r (a : string) : (a ++ "")%string = a.
Proof. induction a as [|x a IH]; cbn [String.append]; [reflexivity|]. now rewrite IH. Qed.
Lemma name_from_tail n p : n <> "" -> name_from n p = (n ++ tail_name p)%string.
Proof.
  revert n. induction p as [|k p IH]; intros n N; cbn [name_from tail_name]; [now rewrite append_nil_r|].
  destruct (String.eqb_spec n "") as [E|_]; [contradiction|]. rewrite IH.
  - rewrite !append_assoc. reflexivity.
  - destruct n; [contradiction|discriminate].
Qed.
Lemma plain_split a b p q : ~ In "_"%char (list_ascii_of_string a) -> ~ In "_"%char (list_ascii_of_string b) ->
  (a ++ tail_name p)%string = (b ++ tail_name q)%string -> a = b /\ tail_name p = tail_name q.
Proof.
  revert b. induction a as [|x a IH]; intros [|y b] NA NB E.
  - auto.
  - cbn [String.append] in E. destruct p as [|k p]; cbn [tail_name String.append] in E; [discriminate|]. injection E as <- _. exfalso. apply NB. now left.
  - cbn [String.append] in E. destruct q as [|k q]; cbn [tail_name String.append] in E; [discriminate|]. injection E as -> _. exfalso. apply NA. now left.
  - cbn [String.append] in E. injection E as -> E. destruct (IH b) as [-> ET]; auto.
    + intros I. apply NA. now right.
    + intros I. apply NB. now right.
Qed.
Lemma tail_name_inj p : Forall plain p -> forall q, Forall plain q -> tail_name p = tail_name q -> p = q.
Proof.
  induction 1 as [|a p [_ PA] F IH]; intros q Q E; destruct Q as [|b q [_ PB] Q]; cbn [tail_name String.append] in E; try discriminate; [reflexivity|].
  injection E as E. destruct (plain_split a b p q PA PB E) as [-> ET]. f_equal. auto.
Qed.
Lemma name_of_inj p q : Forall plain p -> Forall plain q -> name_of p = name_of q -> p = q.
Proof.
  intros P Q E. unfold name_of in E. destruct P as [|a p [NA PA] P], Q as [|b q [NB PB] Q]; cbn [name_from String.eqb] in E; auto.
  - rewrite name_from_tail in E by auto. destruct b; [contradiction|discriminate].
  - rewrite name_from_tail in E by auto. destruct a; [contradiction|discriminate].
  - rewrite !name_from_tail in E by auto. destruct (plain_split a b p q PA PB E) as [-> ET]. f_equal. now apply tail_name_inj.
Qed.
Lemma leaves_prefix (m : metric) : forall path p v, In (p, v) (leaves path m) -> exists r, p = path ++ r.
Proof.
  induction m as [x|d IH] using metric_ind_nested; intros path p v I.
  - destruct I as [I|[]]. injection I as <- <-. exists []. now rewrite app_nil_r.
  - rewrite leaves_eq in I. induction IH as [|[k0 w] d Hv _ IHd]; [destruct I|]. cbn [leaves_go] in I. fold (leaves_go path) in I. apply in_app_iff in I.
    destruct I as [I|I]; [|auto]. destruct (Hv _ _ _ I) as (r & ->). exists (key_str k0 :: r). now rewrite <- app_assoc.
Qed.
Lemma clean_paths (m : metric) : clean m -> forall path, Forall plain path ->
  NoDup (map fst (leaves path m)) /\ Forall (fun pv => Forall plain (fst pv)) (leaves path m).
Proof.
  induction m as [x|d IH] using metric_ind_nested; intros C path PP.
  - cbn [leaves map]. split; [repeat constructor; intros []|constructor; auto].
  - inversion C as [|d' ND PL CL]; subst. rewrite leaves_eq. clear C. induction IH as [|[k0 w] d Hv _ IHd]; [split; constructor|].
    inversion ND as [|? ? ND1 ND2]; subst. inversion PL as [|? ? PL1 PL2]; subst. inversion CL as [|? ? CL1 CL2]; subst. cbn [fst snd] in *.
    cbn [leaves_go]. fold (leaves_go path). destruct (IHd ND2 PL2 CL2) as [I1 I2].
    destruct (Hv CL1 (path ++ [key_str k0])) as [H1 H2]; [apply Forall_app; split; auto|].
    split; [|apply Forall_app; auto]. rewrite map_app. apply C_Lookup.NoDup_app_intro; auto.
    intros p A B. apply in_map_iff in A. destruct A as ([p1 v1] & <- & A). cbn [fst] in B. apply leaves_prefix in A. destruct A as (r & ->).
    apply ND1. clear - B. induction d as [|[k1 w1] d IH]; [destruct B|]. cbn [leaves_go] in B. fold (leaves_go path) in B. rewrite map_app in B. apply in_app_iff in B.
    destruct B as [B|B]; [|right; auto]. apply in_map_iff in B. destruct B as ([p2 v2] & E & B). cbn [fst] in E. subst p2. apply leaves_prefix in B. destruct B as (r2 & E).
    rewrite <- !app_assoc in E. apply app_inv_head in E. injection E as E _. left. cbn [fst]. auto.
Qed.
(** If no key is empty or has an underscore, every leaf is logged under a name of its own. *)
Theorem C77_distinct (m : metric) : clean m -> forall p v, In (p, v) (leaves [] m) -> last_named (name_of p) (leaves [] m) = Some v.
Proof.
  intros C. destruct (clean_paths m C [] (Forall_nil _)) as [ND PL]. induction (leaves [] m) as [|[q w] l IH]; intros p v I; [destruct I|]. destruct I as [I|I].
  - injection I as -> ->. cbn [last_named]. rewrite String.eqb_refl. destruct (last_named (name_of p) l) as [w|] eqn:E; [|reflexivity]. exfalso.
    inversion ND as [|? ? N1 _]; subst. inversion PL as [|? ? P1 P2]; subst. cbn [fst map] in *. apply N1. clear - E P1 P2.
    induction l as [|[q u] l IH]; [discriminate|]. inversion P2 as [|? ? P3 P4]; subst. cbn [last_named] in E. cbn [map fst] in *.
    destruct (last_named (name_of p) l) as [z|]; [right; auto|]. destruct (String.eqb_spec (name_of p) (name_of q)) as [EN|]; [|discriminate].
    left. symmetry. now apply name_of_inj.
  - inversion ND; subst. inversion PL; subst. cbn [last_named]. rewrite (IH H2 H4 p v I). reflexivity.
Qed.
End Names.

Section Logging.
Context {X : Type}.
Variable finite : X -> bool.
Notation metric := (@metric X).
Notation value := (@value X).

Lemma filter_keys {V} (f : string * V -> bool) d : NoDup (map fst d) -> NoDup (map fst (filter f d)).
Proof.
  induction d as [|[k v] d IH]; intros N; [constructor|]. inversion N as [|? ? N1 N2]; subst. cbn [filter]. destruct (f (k, v)); [|auto].
  cbn [map fst]. constructor; auto. intros I. apply N1. apply in_map_iff in I. destruct I as ([k' v'] & <- & I). apply filter_In in I. apply in_map_iff. exists (k', v'). tauto.
Qed.
Lemma convert_spec d : NoDup (map fst d) -> forall f, mapM (fun kv : string * mleaf => do v <- to_float (snd kv); Ok (fst kv, v)) d = Ok f ->
  map fst f = map fst d /\ forall k, dget String.eqb f k = match dget String.eqb d k with Some (LStr s) => Some (VStr s) | Some (LNum x) => Some (VNum x : value) | _ => None end.
Proof.
  induction d as [|[k0 v0] d IH]; intros N f H; cbn [mapM] in H.
  - injection H as <-. split; reflexivity.
  - inversion N as [|? ? N1 N2]; subst. apply bind_Ok in H. destruct H as (kv & H1 & H). apply bind_Ok in H. destruct H as (r & H2 & H). injection H as <-.
    apply bind_Ok in H1. destruct H1 as (v & H1 & HK). injection HK as <-. cbn [fst snd] in *. destruct (IH N2 r H2) as [E1 E2]. cbn [map fst]. rewrite E1. split; [reflexivity|].
    intros k. cbn [dget fst snd]. destruct (String.eqb k k0) eqn:EK.
    + destruct v0; cbn [to_float] in H1; try discriminate; injection H1 as <-; reflexivity.
    + apply E2.
Qed.
Lemma flat_spec (m : metric) f : is_dict m -> flat_metrics finite m = Ok f ->
  NoDup (map fst f) /\ forall k, dget String.eqb f k = logged finite m k.
Proof.
  intros D H. unfold flat_metrics in H. apply bind_Ok in H. destruct H as (d & H1 & H). injection H as <-.
  pose proof (flatten_NoDup m "") as N. pose proof (C_Hdf5.sort_keys_perm (flatten_dict "" m)) as P.
  assert (N' : NoDup (map fst (sort_keys (flatten_dict "" m)))) by (eapply Permutation_NoDup; [apply Permutation_map, P|exact N]).
  destruct (convert_spec _ N' d H1) as [E1 E2]. assert (ND : NoDup (map fst d)) by now rewrite E1.
  split; [now apply filter_keys|]. intros k. unfold logged. rewrite <- (C77_names m k D), (dget_perm _ _ k P N).
  specialize (E2 k). clear - E2 ND. set (o := dget String.eqb (sort_keys (flatten_dict "" m)) k) in *.
  assert (FD : dget String.eqb (filter (fun kv => keep finite (snd kv)) d) k = match dget String.eqb d k with Some v => if keep finite v then Some v else None | None => None end).
  { clear E2 o. induction d as [|[k0 v0] d IH]; [reflexivity|]. inversion ND as [|? ? N1 N2]; subst. specialize (IH N2). cbn [filter dget fst snd].
    destruct (String.eqb_spec k k0) as [->|NE].
    - destruct (keep finite v0); cbn [dget fst snd]; [now rewrite String.eqb_refl|]. apply C_Union.dget_None_iff. intros I. apply N1. apply in_map_iff in I.
      destruct I as ([k' v'] & <- & I). apply filter_In in I. apply in_map_iff. exists (k', v'). tauto.
    - destruct (keep finite v0); cbn [dget fst snd]; [|exact IH]. destruct (String.eqb_spec k k0); [contradiction|exact IH]. }
  rewrite FD, E2. destruct o as [[s|x|]|]; try reflexivity.
Qed.
Lemma append_fold f : NoDup (map fst f) -> forall (l : @logs X) k, history (fold_left append f l) k = history l k ++ to_list (dget String.eqb f k).
Proof.
  induction f as [|[k0 v0] f IH]; intros N l k; cbn [fold_left]; [now rewrite app_nil_r|]. inversion N as [|? ? N1 N2]; subst. rewrite IH by auto.
  cbn [dget fst snd]. unfold append at 1. unfold history at 1. cbn [fst snd]. rewrite C_Union.dget_dset_eq. destruct (String.eqb_spec k k0) as [->|NE].
  - cbn [fst] in N1. replace (dget String.eqb f k0) with (@None value) by (symmetry; now apply C_Union.dget_None_iff). cbn [to_list]. now rewrite app_nil_r.
  - reflexivity.
Qed.

(** A call of log appends to the history of every name the value of this name, if there is a text or a finite number; *)
Theorem C77_log (l l' : @logs X) (m : metric) : is_dict m -> dict_log finite l m = Ok l' -> forall k, history l' k = history l k ++ to_list (logged finite m k).
Proof.
  intros D H k. unfold dict_log in H. apply bind_Ok in H. destruct H as (f & H1 & H). injection H as <-.
  destruct (flat_spec m f D H1) as [N E]. now rewrite append_fold, E by auto.
Qed.
(** it fails, logging nothing, if the value of some name is not a text or one number. *)
Theorem C77_fails (l : @logs X) (m : metric) : is_dict m ->
  (dict_log finite l m = Err EType <-> exists k, last_named k (leaves [] m) = Some LBad) /\ ((exists l', dict_log finite l m = Ok l') \/ dict_log finite l m = Err EType).
Proof.
  intros D. unfold dict_log, flat_metrics. pose proof (flatten_NoDup m "") as N. pose proof (C_Hdf5.sort_keys_perm (flatten_dict "" m)) as P.
  assert (Q : (exists k, last_named k (leaves [] m) = Some LBad) <-> exists k, In (k, LBad) (sort_keys (flatten_dict "" m))).
  { split; intros (k & E); exists k.
    - rewrite <- (C77_names m k D) in E. apply C_Union.dget_In_iff in E. eapply Permutation_in; [exact P|exact E].
    - rewrite <- (C77_names m k D). apply C_Union.dget_NoDup_In; [exact N|]. eapply Permutation_in; [apply Permutation_sym; exact P|exact E]. }
  rewrite Q. clear Q N P. induction (sort_keys (flatten_dict "" m)) as [|[k v] d IH].
  - split; [|left; eexists; reflexivity]. split; [discriminate|intros (k & [])].
  - destruct v as [s|x|].
    1,2: cbn [mapM to_float snd fst bind]; destruct (mapM _ d) as [r|e]; cbn [bind] in *;
      (destruct IH as [IH1 IH2]; split; [|destruct IH2 as [(l' & IH2)|IH2]; [discriminate || left; eexists; reflexivity|discriminate || right; exact IH2]]).
    1,3: split; [discriminate|]; intros (k' & [E|E]); [discriminate|]; destruct IH1 as [_ IH1]; discriminate (IH1 (ex_intro _ k' E)).
    1,2: rewrite IH1; split; intros (k' & E); exists k'; [now right|destruct E as [E|E]; [discriminate|exact E]].
    cbn [mapM to_float snd fst bind]. split; [|auto]. split; [|reflexivity]. intros _. exists k. now left.
Qed.
(** After any sequence of calls the history of a name lists what the calls had under it, in their order. *)
Theorem C77_history (ms : list metric) : Forall is_dict ms -> forall l, dict_log_all finite [] ms = Ok l ->
  forall k, history l k = concat (map (fun m => to_list (logged finite m k)) ms).
Proof.
  intros F. unfold dict_log_all. assert (H : forall l0 l, foldM (dict_log finite) l0 ms = Ok l -> forall k, history l k = history l0 k ++ concat (map (fun m => to_list (logged finite m k)) ms)).
  { induction F as [|m ms D F IH]; intros l0 l H k; cbn [foldM] in H.
    - injection H as <-. cbn. now rewrite app_nil_r.
    - apply bind_Ok in H. destruct H as (l1 & H1 & H). rewrite (IH _ _ H k), (C77_log _ _ _ D H1). cbn [map concat]. now rewrite app_assoc. }
  intros l E k. rewrite (H [] l E k). reflexivity.
Qed.
(** It never holds a number that is not finite, and has one entry per call if every call has a text or finite number under it. *)
Theorem C77_finite (ms : list metric) : Forall is_dict ms -> forall l, dict_log_all finite [] ms = Ok l ->
  forall k, (forall x, In (VNum x) (history l k) -> finite x = true) /\ ((forall m, In m ms -> logged finite m k <> None) -> length (history l k) = length ms /\
    forall i m, nth_error ms i = Some m -> nth_error (history l k) i = logged finite m k).
Proof.
  intros F l E k. rewrite (C77_history ms F l E k). clear E F. split.
  - intros x I. apply in_concat in I. destruct I as (h & I1 & I2). apply in_map_iff in I1. destruct I1 as (m & <- & _). unfold logged in I2.
    destruct (last_named k (leaves [] m)) as [[s|y|]|]; try destruct (finite y) eqn:FY; cbn in I2; intuition congruence.
  - intros A. induction ms as [|m ms IH]; [split; [reflexivity|intros [|i] m; discriminate]|]. destruct IH as [IH1 IH2]; [intros; apply A; now right|].
    cbn [map concat]. destruct (logged finite m k) as [v|] eqn:EV; [|exfalso; exact (A m (or_introl eq_refl) EV)]. cbn [to_list app length]. split; [now rewrite IH1|].
    intros [|i] m' E; cbn [nth_error] in *; [injection E as <-; auto|auto].
Qed.

(** The episode number of the metrics: the (first) entry of the outer dictionary with the key "i_episode". *)
Definition episode_of (m : metric) (s : metric) : Prop :=
  exists pre post, m = MDict (pre ++ (KStr "i_episode", s) :: post) /\ ~ In (KStr "i_episode") (map fst pre).
Lemma mkey_is_iff s k : mkey_is s k = true <-> k = KStr s.
Proof. destruct k as [s0|z]; cbn [mkey_is]; [|split; discriminate]. rewrite String.eqb_eq. split; [now intros ->|now intros [= ->]]. Qed.
Lemma step_of_iff (m : metric) s : step_of m = Some s <-> episode_of m s.
Proof.
  unfold step_of, episode_of. destruct m as [x|d]; [split; [discriminate|intros (? & ? & [=] & _)]|].
  generalize "i_episode". intros ke. split.
  - induction d as [|[k v] r IH]; cbn [List.find fst]; [discriminate|]. destruct (mkey_is ke k) eqn:E.
    + cbn [option_map snd]. intros [= ->]. apply mkey_is_iff in E. subst k. exists [], r. split; [reflexivity|intros []].
    + intros H. destruct (IH H) as (pre & post & P & Q). injection P as ->. exists ((k, v) :: pre), post. split; [reflexivity|]. intros [A|A]; [|auto].
      cbn [fst] in A. apply mkey_is_iff in A. congruence.
  - intros (pre & post & P & Q). injection P as ->. induction pre as [|[k v] r IH]; cbn [app List.find fst].
    + now rewrite (proj2 (mkey_is_iff ke (KStr ke)) eq_refl).
    + destruct (mkey_is ke k) eqn:E; [|apply IH; intros A; apply Q; now right]. exfalso. apply Q. left. now apply mkey_is_iff.
Qed.
(** Calls to wandb: one per logged name; if the metrics have an episode number, each carries it. *)
Theorem C77_wandb (m : metric) calls : is_dict m -> wandb_log finite m = Ok calls ->
  (forall s, episode_of m s ->
     (forall k v, k <> "i_episode" -> (logged finite m k = Some v <-> In [(k, WVal v); ("i_episode", WStep s)] calls)) /\
     (forall c, In c calls -> dget String.eqb c "i_episode" = Some (WStep s))) /\
  ((forall s, ~ episode_of m s) -> forall k v, logged finite m k = Some v <-> In [(k, WVal v)] calls).
Proof.
  intros D H. unfold wandb_log in H. apply bind_Ok in H. destruct H as (f & H1 & H). injection H as <-. destruct (flat_spec m f D H1) as [N E].
  split; [intros s ES; apply step_of_iff in ES; rewrite ES; split|intros NS].
  - intros k v NE. rewrite <- E.
    assert (W : forall kv, wandb_data (Some s) kv = [(k, WVal v); ("i_episode", WStep s)] <-> kv = (k, v)).
    { intros [k0 v0]. unfold wandb_data. cbn [fst snd dset]. split.
      - destruct (String.eqb_spec "i_episode" k0) as [E0|]; [discriminate|]. intros [= -> ->]. reflexivity.
      - intros [= -> ->]. destruct (String.eqb_spec "i_episode" k); [congruence|reflexivity]. }
    rewrite in_map_iff. split.
    + intros G. exists (k, v). split; [now apply W|]. now apply C_Union.dget_In_iff.
    + intros (kv & G & I). apply W in G. subst kv. now apply C_Union.dget_NoDup_In.
  - intros c I. apply in_map_iff in I. destruct I as (kv & <- & _). unfold wandb_data. rewrite C_Union.dget_dset_eq. now rewrite String.eqb_refl.
  - assert (EN : step_of m = None). { destruct (step_of m) as [s|] eqn:ES; [|reflexivity]. exfalso. apply (NS s). now apply step_of_iff. }
    rewrite EN. intros k v. rewrite <- E, in_map_iff. split.
    + intros G. exists (k, v). split; [reflexivity|]. now apply C_Union.dget_In_iff.
    + intros ([k0 v0] & G & I). unfold wandb_data in G. cbn [fst snd] in G. injection G as -> ->. now apply C_Union.dget_NoDup_In.
Qed.
End Logging.

(** "Every metric is logged" is false: different metrics may have the same name, then only the last is logged. *)
Theorem C77_collision_refuted : exists m : @metric nat, is_dict m /\ In (["a"; "b_c"], LNum 1) (leaves [] m) /\ In (["a_b"; "c"], LNum 2) (leaves [] m) /\
  exists l, dict_log (fun _ => true) [] m = Ok l /\ history l "a_b_c" = [VNum 2] /\ length l = 1.
Proof.
  exists (MDict [(KStr "a", MDict [(KStr "b_c", MLeaf (LNum 1))]); (KStr "a_b", MDict [(KStr "c", MLeaf (LNum 2))])]).
  split; [exact Logic.I|]. split; [now left|]. split; [right; now left|]. eexists. split; [vm_compute; reflexivity|]. split; reflexivity.
Qed.
(** "Entry i of a history belongs to call i" is false: a number that is not finite leaves no entry. *)
Theorem C77_alignment_refuted : exists (ms : list (@metric nat)) l, dict_log_all (fun x => negb (Nat.eqb x 0)) [] ms = Ok l /\
  length ms = 3 /\ history l "loss" = [VNum 5; VNum 7] /\ history l "episode" = [VNum 1; VNum 2; VNum 3].
Proof.
  exists (map (fun ex => MDict [(KStr "episode", MLeaf (LNum (fst ex))); (KStr "loss", MLeaf (LNum (snd ex)))]) [(1, 5); (2, 0); (3, 7)]).
  eexists. split; [vm_compute; reflexivity|]. repeat split.
Qed.
(** "A DictLogger with a path stores its logs when it is closed" is false: it never does, and leaves a directory there. *)
Theorem C77_save_refuted f parents path : exists e, snd (dict_close f parents (Some path)) = Err e /\
  (forall q, fst (dict_close f parents (Some path)) q = AFile <-> f q = AFile) /\
  (f (with_suffix path ".pickle") = Absent -> parents = true -> fst (dict_close f parents (Some path)) (with_suffix path ".pickle") = ADir).
Proof.
  cbn [dict_close]. unfold dict_save, mkdir, open_write. set (p := with_suffix path ".pickle"). destruct (f p) eqn:E.
  - destruct parents; [|exists EOther; split; [reflexivity|]; split; [reflexivity|discriminate]]. assert (SF : set_fs f p ADir p = ADir) by (unfold set_fs; now rewrite String.eqb_refl). rewrite SF. exists EOther. cbn [fst snd].
    split; [reflexivity|]. split; [|intros _ _; exact SF].
    intros q. unfold set_fs. destruct (String.eqb_spec q p) as [->|]; [rewrite E; split; discriminate|reflexivity].
  - exists EOther. split; [reflexivity|]. split; [reflexivity|discriminate].
  - rewrite E. exists EOther. split; [reflexivity|]. split; [reflexivity|discriminate].
Qed.
(** Without a path closing does nothing. *)
Theorem C77_close_without_path f parents : dict_close f parents None = (f, Ok tt).
Proof. reflexivity. Qed.

(** Example: nested metrics, an integer key, a text, an infinite number and a second call. *)
Definition log_ex (x : nat) : @metric nat :=
  MDict [(KStr "i", MLeaf (LNum x)); (KStr "val", MDict [(KStr "mae", MDict [(KInt (-2), MLeaf (LNum 4)); (KInt 1, MLeaf (LNum 0))])]); (KStr "note", MLeaf (LStr "x"))].
Example C77_clean : clean (log_ex 3).
Proof.
  assert (P : forall s, s <> "" -> existsb (Ascii.eqb "_") (list_ascii_of_string s) = false -> plain s).
  { intros s N E. split; [exact N|]. intros I. assert (existsb (Ascii.eqb "_") (list_ascii_of_string s) = true) by (apply existsb_exists; exists "_"%char; split; auto).
    congruence. }
  assert (ND : forall l : list string, (if list_eq_dec string_dec (nodup string_dec l) l then true else false) = true -> NoDup l).
  { intros l H. destruct (list_eq_dec string_dec (nodup string_dec l) l) as [<-|]; [apply NoDup_nodup|discriminate]. }
  repeat (first [apply clean_leaf | apply clean_dict; [apply ND; vm_compute; reflexivity| |] | constructor; cbn [fst snd] | (apply P; [vm_compute; discriminate|vm_compute; reflexivity])]).
Qed.
Example C77_example : exists l, dict_log_all (fun x => negb (Nat.eqb x 0)) [] [log_ex 3; log_ex 5] = Ok l /\
  history l "i" = [VNum 3; VNum 5] /\ history l "val_mae_-2" = [VNum 4; VNum 4] /\ history l "val_mae_1" = [] /\ history l "note" = [VStr "x"; VStr "x"].
Proof. eexists. split; [vm_compute; reflexivity|]. repeat split. Qed.
Print Assumptions C77_history.
