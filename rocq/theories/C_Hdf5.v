(** * C44: saving trees of arrays to HDF5 files and loading them. *)
From Coq Require Import String Ascii ZArith Lia Bool List Permutation Sorted DecimalString DecimalNat.
From Verif Require Import Prelude M_Hdf5 P_Run C_Union C_Sens C_Ring C_Filter.
Import ListNotations.
Local Open Scope string_scope.
Local Open Scope list_scope.

Section Ind.
Context {A : Type} (P : tree A -> Prop).
Hypothesis HL : forall a, P (Leaf a).
Hypothesis HTl : forall l, Forall P l -> P (TList l).
Hypothesis HTt : forall l, Forall P l -> P (TTuple l).
Hypothesis HTd : forall c l, Forall (fun kv => P (snd kv)) l -> P (TDict c l).
Hypothesis HTn : forall c l, Forall (fun kv => P (snd kv)) l -> P (TNamed c l).
Hypothesis HO : forall c, P (TOther c).
Fixpoint tree_ind' (t : tree A) : P t :=
  let lst := fix lst l : Forall P l := match l with [] => Forall_nil _ | x :: r => Forall_cons x (tree_ind' x) (lst r) end in
  let dct := fix dct l : Forall (fun kv => P (snd kv)) l := match l with [] => Forall_nil _ | x :: r => Forall_cons x (tree_ind' (snd x)) (dct r) end in
  match t with
  | Leaf a => HL a
  | TList l => HTl l (lst l)
  | TTuple l => HTt l (lst l)
  | TDict c l => HTd c l (dct l)
  | TNamed c l => HTn c l (dct l)
  | TOther c => HO c
  end.
End Ind.

(** ** Sorting by name *)
Section Sort.
Context {A B : Type}.
Definition on_snd (f : A -> B) (kv : string * A) : string * B := (fst kv, f (snd kv)).
Lemma insert_key_map f (x : string * A) l : map (on_snd f) (insert_key x l) = insert_key (on_snd f x) (map (on_snd f) l).
Proof. induction l as [|y l IH]; [reflexivity|]. cbn [insert_key map]. change (fst (on_snd f x)) with (fst x). change (fst (on_snd f y)) with (fst y). destruct (String.ltb _ _); cbn [map]; [reflexivity|]. now rewrite IH. Qed.
Lemma sort_keys_map f (l : list (string * A)) : map (on_snd f) (sort_keys l) = sort_keys (map (on_snd f) l).
Proof.
  unfold sort_keys. change (@nil (string * B)) with (map (on_snd f) []). generalize (@nil (string * A)) as acc. induction l as [|x l IH]; intros acc; [reflexivity|].
  cbn [fold_left map]. now rewrite IH, insert_key_map.
Qed.
End Sort.
Lemma insert_key_perm {A} (x : string * A) l : Permutation (x :: l) (insert_key x l).
Proof. induction l as [|y l IH]; [reflexivity|]. cbn [insert_key]. destruct (String.ltb _ _); [reflexivity|]. rewrite perm_swap. now rewrite IH. Qed.
Lemma sort_keys_perm {A} (l : list (string * A)) : Permutation l (sort_keys l).
Proof.
  unfold sort_keys. rewrite <- (app_nil_r l) at 1. generalize (@nil (string * A)) as acc. induction l as [|x l IH]; intros acc; [reflexivity|].
  cbn [fold_left app]. rewrite <- IH, <- insert_key_perm. apply Permutation_middle.
Qed.
Lemma insert_name_key {E} name (h : h5 E) g : insert_name name h g = insert_key (name, h) g.
Proof. induction g as [|m r IH]; [reflexivity|]. cbn [insert_name insert_key fst]. now rewrite IH. Qed.
Lemma insert_key_keys {A} (x : string * A) l k : In k (map fst (insert_key x l)) <-> k = fst x \/ In k (map fst l).
Proof.
  transitivity (In k (map fst (x :: l))); [|cbn; intuition]. split; apply Permutation_in, Permutation_map; [apply Permutation_sym|]; apply insert_key_perm.
Qed.

(** ** What is on disk *)
Section Disk.
Context {E : Type}.
Notation nd := (nd E). Notation h5 := (h5 E).
Variable identifier : string -> bool.

(** Trees of arrays, lists, tuples, dictionaries and namedtuples; keys are distinct, as they are in Python. *)
Inductive storable : tree nd -> Prop :=
| st_leaf a : storable (Leaf a)
| st_list l : Forall storable l -> storable (TList l)
| st_tuple l : Forall storable l -> storable (TTuple l)
| st_dict l : NoDup (map fst l) -> Forall (fun kv => storable (snd kv)) l -> storable (TDict "dict" l)
| st_named c l : NoDup (map fst l) -> identifier c = true -> Forall (fun kv => identifier (fst kv) = true) l -> ~ In c ["dict"; "list"; "tuple"] ->
    Forall (fun kv => storable (snd kv)) l -> storable (TNamed c l).

Definition names (n : nat) : list string := map arr_name (seq 0 n).
Fixpoint enc (t : tree nd) : h5 :=
  match t with
  | Leaf a => Data a
  | TList l => Group "list" (sort_keys (combine (names (length l)) (map enc l)))
  | TTuple l => Group "tuple" (sort_keys (combine (names (length l)) (map enc l)))
  | TDict c l => Group c (sort_keys (map (fun kv => (fst kv, enc (snd kv))) l))
  | TNamed c l => Group c (sort_keys (map (fun kv => (fst kv, enc (snd kv))) l))
  | TOther c => Group c []
  end.

Lemma arr_name_inj i j : arr_name i = arr_name j -> i = j.
Proof.
  unfold arr_name. cbn [append]. intros H. injection H as H. apply (f_equal NilEmpty.uint_of_string) in H. rewrite !NilEmpty.usu in H. injection H as H.
  now apply Unsigned.to_uint_inj in H.
Qed.
Lemma names_NoDup n : NoDup (names n).
Proof. unfold names. apply FinFun.Injective_map_NoDup; [intros i j; apply arr_name_inj|apply seq_NoDup]. Qed.
Lemma names_length n : length (names n) = n.
Proof. unfold names. now rewrite map_length, seq_length. Qed.

Lemma create_fresh (g : @group E) name h : ~ In name (map fst g) -> create g name h = Ok (insert_key (name, h) g).
Proof.
  intros N. unfold create, dmem. apply dget_None_iff in N. rewrite N. now rewrite insert_name_key.
Qed.
Definition saves t : Prop := storable t -> forall g name, ~ In name (map fst g) -> savetree t g name = (insert_key (name, enc t) g, Ok tt).
Lemma save_list_ok go : (forall k s, go k [] s = (s, Ok tt)) ->
  (forall k c r s, go k (c :: r) s = match savetree c s (arr_name k) with (s', Ok _) => go (S k) r s' | bad => bad end) ->
  forall l k (s : @group E), Forall storable l -> Forall saves l -> (forall i, (k <= i)%nat -> ~ In (arr_name i) (map fst s)) ->
    go k l s = (fold_left (fun acc x => insert_key x acc) (combine (map arr_name (seq k (length l))) (map enc l)) s, Ok tt).
Proof.
  intros G1 G2. induction l as [|x l IHl]; intros k s F1 F2 NK; [apply G1|]. inversion F1 as [|? ? X1 X2]; inversion F2 as [|? ? Y1 Y2]; subst.
  cbn [length seq map combine fold_left]. rewrite G2, (Y1 X1) by (apply NK; lia). apply IHl; try assumption.
  intros i Hi I. apply insert_key_keys in I. cbn [fst] in I. destruct I as [I|I]; [apply arr_name_inj in I; lia|apply (NK i); [lia|exact I]].
Qed.
Lemma save_dict_ok go : (forall s, go [] s = (s, Ok tt)) ->
  (forall kc r s, go (kc :: r) s = match savetree (snd kc) s (fst kc) with (s', Ok _) => go r s' | bad => bad end) ->
  forall l (s : @group E), NoDup (map fst l) -> Forall (fun kv => storable (snd kv)) l -> Forall (fun kv => saves (snd kv)) l ->
    (forall k, In k (map fst l) -> ~ In k (map fst s)) ->
    go l s = (fold_left (fun acc x => insert_key x acc) (map (fun kv => (fst kv, enc (snd kv))) l) s, Ok tt).
Proof.
  intros G1 G2. induction l as [|x l IHl]; intros s ND F1 F2 NK; [apply G1|]. inversion ND as [|? ? N1 N2]; inversion F1 as [|? ? X1 X2]; inversion F2 as [|? ? Y1 Y2]; subst.
  cbn [map fold_left]. rewrite G2, (Y1 X1) by (apply NK; now left). apply IHl; try assumption.
  intros k Hk I. apply insert_key_keys in I. cbn [fst] in I. destruct I as [I|I]; [subst k; contradiction|apply (NK k); [now right|exact I]].
Qed.
Lemma savetree_ok t : saves t.
Proof.
  unfold saves. induction t as [a|l IH|l IH|c l IH|c l IH|c] using tree_ind'; intros ST g name N; inversion ST; subst; cbn [savetree enc].
  - now rewrite create_fresh.
  - match goal with |- context [?f 0%nat ?m []] => set (go := f); rename m into ll end.
    rewrite (save_list_ok go (fun _ _ => eq_refl) (fun _ _ _ _ => eq_refl) ll 0%nat []) by (auto; intros i _ []). cbn [fst snd type_name]. rewrite create_fresh by assumption. reflexivity.
  - match goal with |- context [?f 0%nat ?m []] => set (go := f); rename m into ll end.
    rewrite (save_list_ok go (fun _ _ => eq_refl) (fun _ _ _ _ => eq_refl) ll 0%nat []) by (auto; intros i _ []). cbn [fst snd type_name]. rewrite create_fresh by assumption. reflexivity.
  - match goal with |- context [?f ?m []] => set (go := f); rename m into ll end.
    rewrite (save_dict_ok go (fun _ => eq_refl) (fun _ _ _ => eq_refl) ll []) by (auto; intros i _ []). cbn [fst snd type_name]. rewrite create_fresh by assumption. reflexivity.
  - match goal with |- context [?f ?m []] => set (go := f); rename m into ll end.
    rewrite (save_dict_ok go (fun _ => eq_refl) (fun _ _ _ => eq_refl) ll []) by (auto; intros i _ []). cbn [fst snd type_name]. rewrite create_fresh by assumption. reflexivity.
Qed.

(** The tree as it comes back. *)
Fixpoint canon (t : tree nd) : tree nd :=
  match t with
  | Leaf a => Leaf a
  | TList l => TList (map snd (sort_keys (combine (names (length l)) (map canon l))))
  | TTuple l => TTuple (map snd (sort_keys (combine (names (length l)) (map canon l))))
  | TDict c l => TDict c (sort_keys (map (fun kv => (fst kv, canon (snd kv))) l))
  | TNamed c l => TNamed c (sort_keys (map (fun kv => (fst kv, canon (snd kv))) l))
  | TOther c => TOther c
  end.
Lemma combine_map_snd {A B C} (f : B -> C) (ks : list A) : forall l, combine ks (map f l) = map (fun kv => (fst kv, f (snd kv))) (combine ks l).
Proof. induction ks as [|k ks IH]; intros [|x l]; cbn; auto. now rewrite IH. Qed.
Definition by_name (l : list (tree nd)) : list (string * tree nd) := sort_keys (combine (names (length l)) l).
Lemma by_name_In l kv : In kv (by_name l) -> In (snd kv) l.
Proof.
  intros I. apply (Permutation_in _ (Permutation_sym (sort_keys_perm _))) in I. destruct kv. apply in_combine_r in I. exact I.
Qed.
Lemma list_members {B} (f : tree nd -> B) l : sort_keys (combine (names (length l)) (map f l)) = map (on_snd f) (by_name l).
Proof. unfold by_name. now rewrite combine_map_snd, sort_keys_map. Qed.
Lemma dict_members {B} (f : tree nd -> B) (l : list (string * tree nd)) : sort_keys (map (fun kv => (fst kv, f (snd kv))) l) = map (on_snd f) (sort_keys l).
Proof. now rewrite sort_keys_map. Qed.
Lemma ltm_go {B} (f : nd -> result B) (h : tree nd -> tree B) go : go [] = Ok [] ->
  (forall kv r, go (kv :: r) = do x <- lazy_tree_map identifier f (snd kv); do xs <- go r; Ok ((fst kv, x) :: xs)) ->
  forall m, Forall (fun kv => lazy_tree_map identifier f (enc (snd kv)) = Ok (h (snd kv))) m -> go (map (on_snd enc) m) = Ok (map (on_snd h) m).
Proof.
  intros G1 G2. induction m as [|kv m IH]; intros F; [exact G1|]. inversion F as [|? ? F1 F2]; subst. cbn [map]. rewrite G2. cbn [on_snd fst snd]. rewrite F1. cbn [bind].
  rewrite IH by assumption. reflexivity.
Qed.
Lemma Forall_sort {A} (P : string * A -> Prop) l : Forall P l -> Forall P (sort_keys l).
Proof. rewrite !Forall_forall. intros H x I. apply H. eapply Permutation_in; [apply Permutation_sym, sort_keys_perm|exact I]. Qed.
Lemma snd_on_snd {A B} (f : A -> B) (l : list (string * A)) : map snd (map (on_snd f) l) = map f (map snd l).
Proof. now rewrite !map_map. Qed.
Lemma forallb_Forall {A} (f : A -> bool) l : Forall (fun x => f x = true) l -> forallb f l = true.
Proof. rewrite Forall_forall. apply forallb_forall. Qed.
Lemma load_enc t : storable t -> lazy_tree_map identifier (fun a => Ok a) (enc t) = Ok (canon t).
Proof.
  induction t as [a|l IH|l IH|c l IH|c l IH|c] using tree_ind'; intros ST; inversion ST; subst; cbn [enc canon lazy_tree_map].
  - reflexivity.
  - rewrite !list_members. match goal with |- context [bind (?g ?m) _] => set (go := g) end.
    rewrite (ltm_go (fun a => Ok a) canon go eq_refl (fun _ _ => eq_refl)).
    + cbn [bind]. reflexivity.
    + rewrite Forall_forall in *. intros kv I. apply by_name_In in I. auto.
  - rewrite !list_members. match goal with |- context [bind (?g ?m) _] => set (go := g) end.
    rewrite (ltm_go (fun a => Ok a) canon go eq_refl (fun _ _ => eq_refl)).
    + cbn [bind]. reflexivity.
    + rewrite Forall_forall in *. intros kv I. apply by_name_In in I. auto.
  - rewrite !dict_members. match goal with |- context [bind (?g ?m) _] => set (go := g) end.
    rewrite (ltm_go (fun a => Ok a) canon go eq_refl (fun _ _ => eq_refl)).
    + reflexivity.
    + apply Forall_sort. rewrite Forall_forall in *. auto.
  - rewrite !dict_members. match goal with |- context [bind (?g ?m) _] => set (go := g) end.
    rewrite (ltm_go (fun a => Ok a) canon go eq_refl (fun _ _ => eq_refl)).
    + cbn [bind In] in *. rewrite !(proj2 (String.eqb_neq _ _)) by (intros X; subst c; tauto). unfold namedtuple.
      rewrite (forallb_Forall (fun kv : string * tree nd => identifier (fst kv))); [now match goal with H : identifier c = true |- _ => rewrite H end|].
      apply Forall_map. cbn [on_snd fst]. now apply Forall_sort.
    + apply Forall_sort. rewrite Forall_forall in *. auto.
Qed.

(** jax.device_get only reorders dictionaries. *)
Lemma device_get_storable t : storable t -> storable (device_get t).
Proof.
  induction t as [a|l IH|l IH|c l IH|c l IH|c] using tree_ind'; intros ST; inversion ST; subst; cbn [device_get].
  - constructor.
  - constructor. apply Forall_map. rewrite Forall_forall in *. auto.
  - constructor. apply Forall_map. rewrite Forall_forall in *. auto.
  - cbn [String.eqb]. replace (String.eqb "dict" "dict") with true by reflexivity. constructor.
    + apply (Permutation_NoDup (l := map fst (map (fun kv => (fst kv, device_get (snd kv))) l))); [apply Permutation_map, sort_keys_perm|]. rewrite map_map. assumption.
    + apply Forall_sort, Forall_map. cbn [snd]. rewrite Forall_forall in *. auto.
  - constructor; try assumption.
    + rewrite map_map. assumption.
    + apply Forall_map. assumption.
    + apply Forall_map. cbn [snd]. rewrite Forall_forall in *. auto.
Qed.

(** ** Two trees with the same content *)
Section Alike.
Variable R : list (tree nd) -> list (tree nd) -> Prop.       (* how the elements of lists and tuples may be ordered *)
Inductive alike : tree nd -> tree nd -> Prop :=
| al_leaf a : alike (Leaf a) (Leaf a)
| al_list l l1 l' : R l l1 -> Forall2 alike l1 l' -> alike (TList l) (TList l')
| al_tuple l l1 l' : R l l1 -> Forall2 alike l1 l' -> alike (TTuple l) (TTuple l')
| al_dict c l l1 l' : Permutation l l1 -> Forall2 (fun x y => fst x = fst y /\ alike (snd x) (snd y)) l1 l' -> alike (TDict c l) (TDict c l')
| al_named c l l1 l' : Permutation l l1 -> Forall2 (fun x y => fst x = fst y /\ alike (snd x) (snd y)) l1 l' -> alike (TNamed c l) (TNamed c l').
Variable ok : list (tree nd) -> Prop.
Hypothesis R_sort : forall l, ok l -> R l (map snd (by_name l)).
(** Every list and tuple in the tree is [ok]. *)
Inductive all_ok : tree nd -> Prop :=
| ok_leaf a : all_ok (Leaf a)
| ok_list l : ok l -> Forall all_ok l -> all_ok (TList l)
| ok_tuple l : ok l -> Forall all_ok l -> all_ok (TTuple l)
| ok_dict c l : Forall (fun kv => all_ok (snd kv)) l -> all_ok (TDict c l)
| ok_named c l : Forall (fun kv => all_ok (snd kv)) l -> all_ok (TNamed c l)
| ok_other c : all_ok (TOther c).
Lemma Forall2_map_self {A B} (P : A -> B -> Prop) f l : Forall (fun x => P x (f x)) l -> Forall2 P l (map f l).
Proof. induction 1; cbn [map]; constructor; auto. Qed.
Definition back (t : tree nd) : tree nd := canon (device_get t).
Lemma back_alike t : storable t -> all_ok t -> alike t (back t).
Proof.
  induction t as [a|l IH|l IH|c l IH|c l IH|c] using tree_ind'; intros ST OK; inversion ST; inversion OK; subst; unfold back; cbn [device_get canon].
  - constructor.
  - rewrite map_map, map_length. change (fun x => canon (device_get x)) with back. rewrite list_members, snd_on_snd. eapply al_list; [apply R_sort; assumption|].
    apply Forall2_map_self. rewrite Forall_forall in *. intros x I. apply in_map_iff in I. destruct I as (kv & <- & I). apply by_name_In in I. auto.
  - rewrite map_map, map_length. change (fun x => canon (device_get x)) with back. rewrite list_members, snd_on_snd. eapply al_tuple; [apply R_sort; assumption|].
    apply Forall2_map_self. rewrite Forall_forall in *. intros x I. apply in_map_iff in I. destruct I as (kv & <- & I). apply by_name_In in I. auto.
  - replace (String.eqb "dict" "dict") with true by reflexivity. change (fun kv : string * tree nd => (fst kv, device_get (snd kv))) with (@on_snd (tree nd) _ device_get).
    change (fun kv : string * tree nd => (fst kv, canon (snd kv))) with (@on_snd (tree nd) _ canon). rewrite <- !sort_keys_map, map_map.
    eapply al_dict; [etransitivity; apply sort_keys_perm|]. apply Forall2_map_self. do 2 apply Forall_sort. rewrite Forall_forall in *. intros x I. split; [reflexivity|]. cbn [on_snd fst snd]. apply IH; auto.
  - rewrite map_map. change (fun x : string * tree nd => (fst (fst x, device_get (snd x)), canon (snd (fst x, device_get (snd x))))) with (@on_snd (tree nd) _ back).
    rewrite <- sort_keys_map. eapply al_named; [apply sort_keys_perm|]. apply Forall2_map_self, Forall_sort. cbn [on_snd fst snd]. rewrite Forall_forall in *. auto.
Qed.
End Alike.

(** Lists and tuples of at most ten elements keep their order; all keep their elements. *)
Lemma by_name_short l : (length l <= 10)%nat -> l = map snd (by_name l).
Proof. intros H. do 11 (destruct l as [|? l]; [reflexivity|]). cbn in H. lia. Qed.
Lemma by_name_perm l : Permutation l (map snd (by_name l)).
Proof.
  unfold by_name. etransitivity; [|apply Permutation_map, sort_keys_perm]. replace (map snd (combine (names (length l)) l)) with l; [reflexivity|].
  generalize (names_length (length l)). generalize (names (length l)) as ks. induction l as [|x l IH]; intros [|k ks] H; try discriminate; [reflexivity|].
  cbn in H |- *. f_equal. apply IH. lia.
Qed.
Definition same : tree nd -> tree nd -> Prop := alike eq.
Definition shuffled : tree nd -> tree nd -> Prop := alike (@Permutation _).
Definition short_lists : tree nd -> Prop := all_ok (fun l => (length l <= 10)%nat).

(** C44.  A saved tree can be loaded: dictionaries come back with the same keys and values, namedtuples with the same name and attributes, lists
    and tuples with the same elements - in the same order as long as they have at most ten - and no other file is touched. *)
Theorem C44_save_load (d : fs) path t overwrite : storable t -> overwrite = true \/ dget String.eqb d (path_of path) = None ->
  exists d' t', save d path t overwrite = (d', Ok tt) /\ load identifier d' path SelNone 0 = Ok t' /\ shuffled t t' /\ (short_lists t -> same t t') /\
    (forall p, path_of p <> path_of path -> dget String.eqb d' (path_of p) = dget String.eqb d (path_of p)).
Proof.
  intros ST OW. pose proof (device_get_storable t ST) as ST'.
  exists (dset String.eqb d (path_of path) [("pytree", enc (device_get t))]), (back t). split; [|split; [|split; [|split]]].
  - unfold save. replace (negb overwrite && dmem String.eqb d (path_of path)) with false.
    + rewrite (savetree_ok _ ST' [] "pytree") by intros []. reflexivity.
    + symmetry. destruct OW as [->|N]; [reflexivity|]. unfold dmem. rewrite N. apply andb_false_r.
  - unfold load, open_tree. rewrite dget_dset_eq, String.eqb_refl. cbn [dgetE dget bind]. exact (load_enc _ ST').
  - apply (back_alike _ (fun _ => True)); [intros; apply by_name_perm|assumption|].
    clear - ST. revert ST. induction t as [a|l IH|l IH|c l IH|c l IH|c] using tree_ind'; intros ST; inversion ST; subst; constructor; auto; rewrite Forall_forall in *; auto.
  - intros SL. apply (back_alike _ (fun l => (length l <= 10)%nat)); [intros; now apply by_name_short|assumption|exact SL].
  - intros p N. rewrite dget_dset_eq. apply String.eqb_neq in N. now rewrite N.
Qed.
(** Without overwrite an existing file is kept. *)
Theorem C44_no_overwrite (d : fs) path (t : tree nd) : dget String.eqb d (path_of path) <> None -> save d path t false = (d, Err EOther).
Proof. intros N. unfold save, dmem. destruct (dget String.eqb d (path_of path)); [reflexivity|congruence]. Qed.
End Disk.

(** ** Loading rows *)
Fixpoint tmap {A B} (f : A -> B) (t : tree A) : tree B :=
  match t with
  | Leaf a => Leaf (f a)
  | TList l => TList (map (tmap f) l)
  | TTuple l => TTuple (map (tmap f) l)
  | TDict c l => TDict c (map (fun kv => (fst kv, tmap f (snd kv))) l)
  | TNamed c l => TNamed c (map (fun kv => (fst kv, tmap f (snd kv))) l)
  | TOther c => TOther c
  end.
Lemma forallb_map_eq {A B} (f : A -> B) (p : B -> bool) l : forallb p (map f l) = forallb (fun x => p (f x)) l.
Proof. induction l as [|x l IH]; [reflexivity|]. cbn. now rewrite IH. Qed.
Section Rows.
Context {E : Type}.
Notation nd := (nd E). Notation h5 := (h5 E).
Variable identifier : string -> bool.
Section H5ind.
Variable P : h5 -> Prop.
Hypothesis HD : forall a, P (Data a).
Hypothesis HG : forall c l, Forall (fun kv => P (snd kv)) l -> P (Group c l).
Fixpoint h5_ind' (h : h5) : P h :=
  match h with
  | Data a => HD a
  | Group c l => HG c l ((fix go l : Forall (fun kv => P (snd kv)) l := match l with [] => Forall_nil _ | x :: r => Forall_cons x (h5_ind' (snd x)) (go r) end) l)
  end.
End H5ind.
Fixpoint members {A} (f : nd -> result A) (l : list (string * h5)) : result (list (string * tree A)) :=
  match l with [] => Ok [] | kv :: r => do x <- lazy_tree_map identifier f (snd kv); do xs <- members f r; Ok ((fst kv, x) :: xs) end.
Lemma ltm_group {A} (f : nd -> result A) ty l : lazy_tree_map identifier f (Group ty l) =
  do vs <- members f l;
  if String.eqb ty "dict" then Ok (TDict "dict" vs) else if String.eqb ty "list" then Ok (TList (map snd vs)) else if String.eqb ty "tuple" then Ok (TTuple (map snd vs)) else namedtuple identifier ty vs.
Proof.
  cbn [lazy_tree_map]. match goal with |- bind (?g l) _ = _ => set (go := g) end. replace (go l) with (members f l); [reflexivity|].
  induction l as [|kv l IH]; [reflexivity|]. cbn [members]. rewrite IH. reflexivity.
Qed.
(** Mapping a function over the leaves while loading is mapping it over the loaded tree. *)
Lemma ltm_map {A} (f : nd -> result A) (g : nd -> A) h : forall t, lazy_tree_map identifier (fun a => Ok a) h = Ok t ->
  (forall a, In a (leaves t) -> f a = Ok (g a)) -> lazy_tree_map identifier f h = Ok (tmap g t).
Proof.
  induction h as [a|ty l IH] using h5_ind'; intros t H HF.
  - cbn in H. injection H as <-. cbn [lazy_tree_map tmap]. rewrite HF by (cbn; auto). reflexivity.
  - rewrite ltm_group in *. apply bind_Ok in H. destruct H as (vs & HV & H).
    assert (M : (forall a kv, In kv vs -> In a (leaves (snd kv)) -> f a = Ok (g a)) -> members f l = Ok (map (fun kv => (fst kv, tmap g (snd kv))) vs)).
    { clear H HF. revert vs HV. induction IH as [|kv l K1 _ IHl]; intros vs HV HF.
      - cbn in HV. injection HV as <-. reflexivity.
      - cbn [members] in HV |- *. apply bind_Ok in HV. destruct HV as (x & HX & HV). apply bind_Ok in HV. destruct HV as (xs & HXS & HV). injection HV as <-.
        rewrite (K1 x HX) by (intros a I; apply (HF a (fst kv, x)); [now left|exact I]). cbn [bind].
        rewrite (IHl xs HXS) by (intros a p I; apply HF; now right). reflexivity. }
    assert (LV : (forall a, In a (flat_map (fun kv : string * tree nd => leaves (snd kv)) vs) -> f a = Ok (g a)) -> members f l = Ok (map (fun kv => (fst kv, tmap g (snd kv))) vs)).
    { intros X. apply M. intros a kv I1 I2. apply X, in_flat_map. eauto. }
    assert (LS : flat_map leaves (map snd vs) = flat_map (fun kv : string * tree nd => leaves (snd kv)) vs).
    { clear. induction vs as [|x r IHv]; [reflexivity|]. cbn. now rewrite IHv. }
    destruct (String.eqb ty "dict"); [injection H as <-; rewrite LV by exact HF; reflexivity|].
    destruct (String.eqb ty "list"); [injection H as <-; cbn [leaves] in HF; rewrite LS in HF; rewrite LV by exact HF; cbn [bind tmap]; now rewrite !map_map|].
    destruct (String.eqb ty "tuple"); [injection H as <-; cbn [leaves] in HF; rewrite LS in HF; rewrite LV by exact HF; cbn [bind tmap]; now rewrite !map_map|].
    unfold namedtuple in *. destruct (identifier ty && _) eqn:EI; [|discriminate]. injection H as <-. rewrite LV by exact HF. cbn [bind].
    apply andb_true_iff in EI. destruct EI as (E1 & E2). rewrite E1. cbn [andb]. rewrite forallb_map_eq. cbn [fst]. rewrite E2. reflexivity.
Qed.

(** The shape is that of the rows. *)
Inductive shaped : nd -> Prop :=
| sh_sc e : shaped (NSc e)
| sh_ar tr rows : Forall (fun r => dims r = tr /\ shaped r) rows -> shaped (NAr tr rows).
(** The part of an array at some indices. *)
Fixpoint get (a : nd) (idx : list nat) : option nd :=
  match idx with
  | [] => Some a
  | i :: r => match a with NSc _ => None | NAr _ rows => match nth_error rows i with Some x => get x r | None => None end end
  end.
Lemma take_get : forall axis js a a', take axis js a = Ok a' -> forall pre i post, length pre = axis ->
  get a' (pre ++ i :: post) = match nth_error js i with Some j => get a (pre ++ j :: post) | None => None end.
Proof.
  induction axis as [|k IH]; intros js [e|tr rows] a' H pre i post HP; try discriminate; cbn [take] in H; apply bind_Ok in H; destruct H as (rs & HR & H); injection H as <-.
  - destruct pre; [|discriminate]. cbn [app get]. apply mapM_spec in HR. destruct HR as (HL & HR). destruct (nth_error js i) as [j|] eqn:Ej.
    + destruct (HR i j Ej) as (x & E1 & E2). rewrite E1. destruct (nth_error rows j) as [y|] eqn:Ey; [|discriminate]. injection E2 as ->. reflexivity.
    + assert (nth_error rs i = None) as -> by (apply nth_error_None in Ej; apply nth_error_None; lia). reflexivity.
  - destruct pre as [|p pre]; [discriminate|]. cbn in HP. injection HP as HP. cbn [app get]. apply mapM_spec in HR. destruct HR as (HL & HR).
    destruct (nth_error rows p) as [x|] eqn:Ex.
    + destruct (HR p x Ex) as (y & E1 & E2). rewrite E1. apply (IH _ _ _ E2). exact HP.
    + assert (nth_error rs p = None) as -> by (apply nth_error_None in Ex; apply nth_error_None; lia). now destruct (nth_error js i).
Qed.
Lemma take_total : forall axis js a n, shaped a -> nth_error (dims a) axis = Some n -> Forall (fun j => (j < n)%nat) js -> exists a', take axis js a = Ok a'.
Proof.
  induction axis as [|k IH]; intros js [e|tr rows] n SH HN HJ; try discriminate; cbn [take dims] in *; inversion SH as [|? ? SR]; subst.
  - injection HN as <-. destruct (mapM_exists (fun j => match nth_error rows j with Some r => Ok r | None => Err EIndex end) js) as (rs & ->); [|eexists; reflexivity].
    intros j I. rewrite Forall_forall in HJ. destruct (nth_error rows j) as [r|] eqn:Er; [eauto|]. apply nth_error_None in Er. specialize (HJ j I). lia.
  - destruct (mapM_exists (take k js) rows) as (rs & ->); [|eexists; reflexivity]. intros r I. rewrite Forall_forall in SR. destruct (SR r I) as (D & S).
    apply (IH js r n S); [now rewrite D|assumption].
Qed.

Lemma take_shape : forall axis js a a', take axis js a = Ok a' -> shaped a ->
  shaped a' /\ dims a' = firstn axis (dims a) ++ length js :: skipn (S axis) (dims a).
Proof.
  induction axis as [|k IH]; intros js [e|tr rows] a' H SH; try discriminate; cbn [take] in H; apply bind_Ok in H; destruct H as (rs & HR & H); injection H as <-;
    inversion SH as [|? ? SR]; subst; apply mapM_spec in HR; destruct HR as (HL & HR).
  - split; [|cbn [dims firstn skipn app]; now rewrite HL]. constructor. apply Forall_forall. intros r I. apply In_nth_error in I. destruct I as [i Hi].
    destruct (nth_error js i) as [j|] eqn:Ej; [|apply nth_error_None in Ej; assert (i < length rs)%nat by (apply nth_error_Some; congruence); lia].
    destruct (HR i j Ej) as (x & E1 & E2). assert (x = r) by congruence. subst x. destruct (nth_error rows j) as [y|] eqn:Ey; [|discriminate]. injection E2 as ->.
    rewrite Forall_forall in SR. apply SR. eapply nth_error_In; eauto.
  - split; [|cbn [dims firstn skipn app]; now rewrite HL]. constructor. apply Forall_forall. intros r I. apply In_nth_error in I. destruct I as [i Hi].
    destruct (nth_error rows i) as [y|] eqn:Ey; [|apply nth_error_None in Ey; assert (i < length rs)%nat by (apply nth_error_Some; congruence); lia].
    destruct (HR i y Ey) as (x & E1 & E2). assert (x = r) by congruence. subst x. rewrite Forall_forall in SR. destruct (SR y (nth_error_In _ _ Ey)) as [D S].
    destruct (IH _ _ _ E2 S) as [G1 G2]. rewrite D in G2. auto.
Qed.
Lemma pick_spec : forall axis j a a', pick axis j a = Ok a' -> shaped a ->
  shaped a' /\ dims a' = firstn axis (dims a) ++ skipn (S axis) (dims a) /\
  forall pre post, length pre = axis -> get a' (pre ++ post) = get a (pre ++ j :: post).
Proof.
  induction axis as [|k IH]; intros j [e|tr rows] a' H SH; try discriminate; cbn [pick] in H; inversion SH as [|? ? SR]; subst; rewrite Forall_forall in SR.
  - destruct (nth_error rows j) as [r|] eqn:Er; [|discriminate]. injection H as <-. destruct (SR r (nth_error_In _ _ Er)) as [D S].
    split; [exact S|]. split; [exact D|]. intros [|] post HP; [|discriminate]. cbn [app get]. now rewrite Er.
  - apply bind_Ok in H. destruct H as (rs & HR & H). injection H as <-. apply mapM_spec in HR. destruct HR as (HL & HR).
    split; [|split; [cbn [dims firstn skipn app]; now rewrite HL|]].
    + constructor. apply Forall_forall. intros r I. apply In_nth_error in I. destruct I as [i Hi].
      destruct (nth_error rows i) as [y|] eqn:Ey; [|apply nth_error_None in Ey; assert (i < length rs)%nat by (apply nth_error_Some; congruence); lia].
      destruct (HR i y Ey) as (x & E1 & E2). assert (x = r) by congruence. subst x. destruct (SR y (nth_error_In _ _ Ey)) as [D S].
      destruct (IH _ _ _ E2 S) as (G1 & G2 & _). rewrite D in G2. auto.
    + intros [|p pre] post HP; [discriminate|]. cbn in HP. injection HP as HP. cbn [app get]. destruct (nth_error rows p) as [x|] eqn:Ex.
      * destruct (HR p x Ex) as (y & E1 & E2). rewrite E1. destruct (SR x (nth_error_In _ _ Ex)) as [D S]. now apply (IH _ _ _ E2 S).
      * assert (nth_error rs p = None) as -> by (apply nth_error_None in Ex; apply nth_error_None; lia). reflexivity.
Qed.
Lemma pick_total : forall axis j a n, shaped a -> nth_error (dims a) axis = Some n -> (j < n)%nat -> exists a', pick axis j a = Ok a'.
Proof.
  induction axis as [|k IH]; intros j [e|tr rows] n SH HN HJ; try discriminate; cbn [pick dims] in *; inversion SH as [|? ? SR]; subst.
  - injection HN as <-. destruct (nth_error rows j) as [r|] eqn:Er; [eauto|]. apply nth_error_None in Er. lia.
  - destruct (mapM_exists (pick k j) rows) as (rs & ->); [|eexists; reflexivity]. intros r I. rewrite Forall_forall in SR. destruct (SR r I) as (D & S).
    apply (IH j r n S); [now rewrite D|assumption].
Qed.

(** sorted() *)
Lemma insert_Z_perm x l : Permutation (x :: l) (insert_Z x l).
Proof. induction l as [|y l IH]; [reflexivity|]. cbn [insert_Z]. destruct (x <? y)%Z; [reflexivity|]. rewrite perm_swap. now rewrite IH. Qed.
Lemma insert_Z_sorted x l : StronglySorted Z.le l -> StronglySorted Z.le (insert_Z x l).
Proof.
  induction 1 as [|y l S IH F]; cbn [insert_Z]; [repeat constructor|]. destruct (Z.ltb_spec x y) as [L|L].
  - constructor; [now constructor|]. constructor; [lia|]. eapply Forall_impl; [|exact F]. cbn. lia.
  - constructor; [exact IH|]. apply (Permutation_Forall (insert_Z_perm x l)). constructor; assumption.
Qed.
Lemma sort_Z_spec l : Permutation l (sort_Z l) /\ StronglySorted Z.le (sort_Z l).
Proof.
  unfold sort_Z. assert (G : forall l acc, StronglySorted Z.le acc -> Permutation (l ++ acc) (fold_left (fun acc x => insert_Z x acc) l acc) /\ StronglySorted Z.le (fold_left (fun acc x => insert_Z x acc) l acc)).
  { clear. induction l as [|x l IH]; intros acc S; [split; [reflexivity|exact S]|]. cbn [fold_left app]. destruct (IH (insert_Z x acc) (insert_Z_sorted x acc S)) as (P1 & P2).
    split; [|exact P2]. rewrite <- P1, <- insert_Z_perm. apply Permutation_middle. }
  destruct (G l [] (SSorted_nil _)) as (P1 & P2). rewrite app_nil_r in P1. auto.
Qed.
Lemma strictly l : NoDup l -> StronglySorted Z.le l -> StronglySorted Z.lt l.
Proof.
  intros ND S. induction S as [|x l S IH F]; [constructor|]. inversion ND as [|? ? N1 N2]; subst. constructor; [auto|].
  rewrite Forall_forall in *. intros y I. specialize (F y I). assert (x <> y) by (intros ->; contradiction). lia.
Qed.
Lemma norm_list_ok n l : StronglySorted Z.lt l -> Forall (fun i => (0 <= i < Z.of_nat n)%Z) l -> norm_list n l = Ok (map Z.to_nat l).
Proof.
  intros S F. unfold norm_list. assert (M : mapM (norm_index n) l = Ok (map Z.to_nat l)).
  { clear S. induction F as [|i l Hi _ IH]; [reflexivity|]. cbn [mapM map]. unfold norm_index at 1. rewrite (proj2 (Z.ltb_ge _ _)) by lia.
    rewrite (proj2 (Z.leb_le _ _)), (proj2 (Z.ltb_lt _ _)) by lia. cbn [andb bind]. now rewrite IH. }
  rewrite M. cbn [bind]. replace (increasing_nat (map Z.to_nat l)) with true; [reflexivity|]. symmetry.
  clear M. induction S as [|x l S IH G]; [reflexivity|]. inversion F as [|? ? F1 F2]; subst. cbn [map increasing_nat]. destruct l as [|y l]; [reflexivity|].
  cbn [map] in *. inversion G; inversion F2; subst. rewrite (proj2 (Nat.ltb_lt _ _)) by lia. cbn [andb]. apply IH. assumption.
Qed.

(** C44.  Loading a list of distinct valid indices loads exactly these parts of every array, in increasing order. *)
Theorem C44_load_indices (d : fs) path t axis n ids : load identifier d path SelNone 0 = Ok t ->
  (forall a, In a (leaves t) -> shaped a /\ nth_error (dims a) axis = Some n) -> NoDup ids -> Forall (fun i => (0 <= i < Z.of_nat n)%Z) ids ->
  exists js g, Permutation ids (map Z.of_nat js) /\ StronglySorted lt js /\ load identifier d path (SelList ids) axis = Ok (tmap g t) /\
    forall a, In a (leaves t) -> shaped (g a) /\ dims (g a) = firstn axis (dims a) ++ length ids :: skipn (S axis) (dims a) /\
      forall pre i post, length pre = axis ->
        get (g a) (pre ++ i :: post) = match nth_error js i with Some j => get a (pre ++ j :: post) | None => None end.
Proof.
  intros HL HA ND HR. destruct (sort_Z_spec ids) as (SP & SS). set (js := map Z.to_nat (sort_Z ids)).
  assert (HR' : Forall (fun i => (0 <= i < Z.of_nat n)%Z) (sort_Z ids)) by exact (Permutation_Forall SP HR).
  assert (SL : StronglySorted Z.lt (sort_Z ids)) by (apply strictly; [exact (Permutation_NoDup SP ND)|exact SS]).
  assert (NL : norm_list n (sort_Z ids) = Ok js) by now apply norm_list_ok.
  assert (J : Forall (fun j => (j < n)%nat) js). { unfold js. apply Forall_map. eapply Forall_impl; [|exact HR']. cbn. lia. }
  exists js, (fun a => match take axis js a with Ok x => x | Err _ => a end).
  assert (T : forall a, In a (leaves t) -> exists x, take axis js a = Ok x).
  { intros a I. destruct (HA a I) as (S & D). eapply take_total; eauto. }
  split; [|split; [|split]].
  - unfold js. rewrite map_map. replace (map (fun x => Z.of_nat (Z.to_nat x)) (sort_Z ids)) with (sort_Z ids); [exact SP|].
    clear - HR'. induction HR' as [|i l Hi _ IH]; [reflexivity|]. cbn [map]. rewrite <- IH. f_equal. lia.
  - unfold js. clear - SL HR'. induction SL as [|x l S IH F]; [constructor|]. inversion HR' as [|? ? F1 F2]; subst. cbn [map]. constructor; [auto|].
    apply Forall_map. rewrite Forall_forall in *. intros y I. specialize (F y I). specialize (F2 y I). cbn in *. lia.
  - unfold load in *. apply bind_Ok in HL. destruct HL as (h & -> & HL). cbn [bind]. apply (ltm_map _ _ h t HL).
    intros a I. destruct (HA a I) as (_ & D). unfold select. rewrite D, NL. cbn [bind]. destruct (T a I) as (x & ->). reflexivity.
  - intros a I. destruct (T a I) as (x & Ex). rewrite Ex. destruct (HA a I) as (S & _). destruct (take_shape _ _ _ _ Ex S) as [G1 G2].
    split; [exact G1|]. split; [|intros pre i post HP; eapply take_get; eauto]. rewrite G2. unfold js. rewrite map_length, <- (Permutation_length SP). reflexivity.
Qed.
(** Loading one index, counted from the end if negative, loads that part of every array; the axis disappears. *)
Theorem C44_load_one (d : @fs E) path t axis n i : load identifier d path SelNone 0 = Ok t ->
  (forall a, In a (leaves t) -> shaped a /\ nth_error (dims a) axis = Some n) -> (- Z.of_nat n <= i < Z.of_nat n)%Z ->
  exists j g, Z.of_nat j = (i mod Z.of_nat n)%Z /\ load identifier d path (SelInt i) axis = Ok (tmap g t) /\
    forall a, In a (leaves t) -> shaped (g a) /\ dims (g a) = firstn axis (dims a) ++ skipn (S axis) (dims a) /\
      forall pre post, length pre = axis -> get (g a) (pre ++ post) = get a (pre ++ j :: post).
Proof.
  intros HL HA HR. set (j := Z.to_nat (if (i <? 0)%Z then (i + Z.of_nat n)%Z else i)).
  assert (Hj : (j < n)%nat) by (unfold j; destruct (Z.ltb_spec i 0); lia).
  assert (NI : norm_index n i = Ok j).
  { unfold norm_index, j. destruct (Z.ltb_spec i 0); rewrite (proj2 (Z.leb_le _ _)), (proj2 (Z.ltb_lt _ _)) by lia; reflexivity. }
  assert (T : forall a, In a (leaves t) -> exists x, pick axis j a = Ok x) by (intros a I; destruct (HA a I) as (S & D); eapply pick_total; eauto).
  exists j, (fun a => match pick axis j a with Ok x => x | Err _ => a end). split; [|split].
  - unfold j. destruct (Z.ltb_spec i 0).
    + rewrite Z2Nat.id by lia. apply (Z.mod_unique_pos i _ (-1)); lia.
    + rewrite Z2Nat.id by lia. symmetry. apply Z.mod_small. lia.
  - unfold load in *. apply bind_Ok in HL. destruct HL as (h & -> & HL). cbn [bind]. apply (ltm_map _ _ h t HL).
    intros a I. destruct (HA a I) as (_ & D). unfold select. rewrite D, NI. cbn [bind]. destruct (T a I) as (x & ->). reflexivity.
  - intros a I. destruct (T a I) as (x & Ex). rewrite Ex. exact (pick_spec _ _ _ _ Ex (proj1 (HA a I))).
Qed.
(** Indices outside are refused. *)
Theorem C44_load_outside (d : @fs E) path t axis n i a : load identifier d path SelNone 0 = Ok t -> t = Leaf a -> nth_error (dims a) axis = Some n ->
  ~ (- Z.of_nat n <= i < Z.of_nat n)%Z -> load identifier d path (SelInt i) axis = Err EIndex.
Proof.
  intros HL -> D HR. unfold load in *. apply bind_Ok in HL. destruct HL as (h & -> & HL). cbn [bind].
  assert (h = Data a) as ->.
  { destruct h as [b|ty l]; [cbn in HL; now injection HL as ->|]. rewrite ltm_group in HL. apply bind_Ok in HL. destruct HL as (vs & _ & HL).
    unfold namedtuple in HL. destruct (_ =? "dict")%string; [discriminate|]. destruct (_ =? "list")%string; [discriminate|].
    destruct (_ =? "tuple")%string; [discriminate|]. destruct (_ && _); discriminate. }
  cbn [lazy_tree_map select]. rewrite D. unfold norm_index.
  destruct (Z.ltb_spec i 0); [rewrite (proj2 (Z.leb_gt _ _)) by lia|rewrite (proj2 (Z.ltb_ge _ (Z.of_nat n))), andb_false_r by lia]; reflexivity.
Qed.
Lemma leaves_tmap {A B} (f : A -> B) t : leaves (tmap f t) = map f (leaves t).
Proof.
  induction t as [a|l IH|l IH|c l IH|c l IH|c] using tree_ind'; cbn [tmap leaves]; try reflexivity;
    (induction IH as [|x l Hx _ IHl]; [reflexivity|]; cbn [map flat_map snd]; rewrite map_app, Hx, IHl; reflexivity).
Qed.
(** The length of a file is that of its first array along the axis. *)
Theorem C44_load_length (d : @fs E) path t axis a r n : load identifier d path SelNone 0 = Ok t -> leaves t = a :: r -> nth_error (dims a) axis = Some n ->
  load_length identifier d path axis = Ok n.
Proof.
  intros HL LV D. unfold load, load_length in *. apply bind_Ok in HL. destruct HL as (h & -> & HL). cbn [bind].
  rewrite (ltm_map (fun b => Ok (dims b)) (@dims E) h t HL) by reflexivity. cbn [bind]. rewrite leaves_tmap, LV. cbn [map]. now rewrite D.
Qed.

(** ** Several files *)
Definition picked {A} (js : list nat) (rows : list A) : list A := flat_map (fun j => match nth_error rows j with Some r => [r] | None => [] end) js.
Lemma picked_length {A} js (rows : list A) : Forall (fun j => (j < length rows)%nat) js -> length (picked js rows) = length js.
Proof.
  induction 1 as [|j js H _ IH]; [reflexivity|]. cbn [picked flat_map]. rewrite app_length. destruct (nth_error rows j) eqn:Ej; [|apply nth_error_None in Ej; lia].
  cbn. f_equal. exact IH.
Qed.
Lemma picked_nth {A} js (rows : list A) : Forall (fun j => (j < length rows)%nat) js ->
  forall i, nth_error (picked js rows) i = match nth_error js i with Some j => nth_error rows j | None => None end.
Proof.
  induction 1 as [|j js H _ IH]; intros i; [now destruct i|]. cbn [picked flat_map]. destruct (nth_error rows j) as [r|] eqn:Ej; [|apply nth_error_None in Ej; lia].
  destruct i as [|i]; cbn; [now rewrite Ej|]. apply IH.
Qed.
Lemma mapM_picked {A} js (rows : list A) : Forall (fun j => (j < length rows)%nat) js ->
  mapM (fun j => match nth_error rows j with Some r => Ok r | None => Err EIndex end) js = Ok (picked js rows).
Proof.
  induction 1 as [|j js H _ IH]; [reflexivity|]. cbn [mapM picked flat_map]. destruct (nth_error rows j) as [r|] eqn:Ej; [|apply nth_error_None in Ej; lia].
  cbn [bind]. rewrite IH. reflexivity.
Qed.
Lemma sort_Z_sorted l : StronglySorted Z.lt l -> sort_Z l = l.
Proof.
  intros S. unfold sort_Z. assert (G : forall l acc, (forall x y, In x acc -> In y l -> (x <= y)%Z) -> StronglySorted Z.lt l -> fold_left (fun acc x => insert_Z x acc) l acc = acc ++ l).
  { clear. induction l as [|x l IH]; intros acc H S; [now rewrite app_nil_r|]. inversion S as [|? ? S1 F]; subst. cbn [fold_left].
    assert (I : insert_Z x acc = acc ++ [x]).
    { assert (H' : forall a, In a acc -> (a <= x)%Z) by (intros; apply H; [assumption|now left]). clear - H'. induction acc as [|a acc IHa]; [reflexivity|].
      cbn [insert_Z]. rewrite (proj2 (Z.ltb_ge _ _)) by (apply H'; now left). cbn [app]. f_equal. apply IHa. intros; apply H'; now right. }
    rewrite IH; [rewrite I, <- app_assoc; reflexivity| |exact S1]. rewrite I. intros a y IA IY. rewrite Forall_forall in F.
    apply in_app_iff in IA. destruct IA as [IA|[<-|[]]]; [apply H; [exact IA|now right]|]. specialize (F y IY). lia. }
  apply (G l []); [intros ? ? []|exact S].
Qed.
Lemma select_rows js tr (rows : list nd) : StronglySorted lt js -> Forall (fun j => (j < length rows)%nat) js ->
  select (SelList (map Z.of_nat js)) 0 (NAr tr rows) = Ok (NAr tr (picked js rows)).
Proof.
  intros S F. unfold select. cbn [dims nth_error].
  assert (SZ : StronglySorted Z.lt (map Z.of_nat js)).
  { clear F. induction S as [|x l S IH G]; [constructor|]. cbn [map]. constructor; [exact IH|]. apply Forall_map. eapply Forall_impl; [|exact G]. cbn. lia. }
  rewrite (sort_Z_sorted _ SZ), norm_list_ok; [|exact SZ|apply Forall_map; eapply Forall_impl; [|exact F]; cbn; lia]. cbn [bind]. rewrite map_map.
  rewrite (map_ext _ (fun j => j)) by (intros; apply Nat2Z.id). rewrite map_id. cbn [take]. rewrite mapM_picked by assumption. reflexivity.
Qed.


(** Trees without namedtuples. *)
Inductive plain {A} : tree A -> Prop :=
| pl_leaf a : plain (Leaf a)
| pl_list l : Forall plain l -> plain (TList l)
| pl_tuple l : Forall plain l -> plain (TTuple l)
| pl_dict c l : Forall (fun kv => plain (snd kv)) l -> plain (TDict c l).
Lemma tree_concat_map {A} (g g' g'' : A -> nd) t : plain t -> (forall a, In a (leaves t) -> concat_rows (g a) (g' a) = Ok (g'' a)) ->
  tree_concat (tmap g t) (tmap g' t) = Ok (tmap g'' t).
Proof.
  induction t as [a|l IH|l IH|c l IH|c l IH|c] using tree_ind'; intros PL H; inversion PL as [|? PF|? PF|? ? PF]; subst; cbn [tmap tree_concat].
  - rewrite H by (cbn; auto). reflexivity.
  - match goal with |- bind (?f _ _) _ = _ => set (go := f) end. replace (go (map (tmap g) l) (map (tmap g') l)) with (Ok (map (tmap g'') l)); [reflexivity|].
    symmetry. clear PL. induction IH as [|x l X _ IHl]; [reflexivity|]. inversion PF as [|? ? P1 P2]; subst. cbn [leaves flat_map] in H. cbn [map]. unfold go; fold go.
    rewrite X by (try assumption; intros; apply H, in_app_iff; auto). cbn [bind]. rewrite IHl by (try assumption; intros; apply H, in_app_iff; auto). reflexivity.
  - match goal with |- bind (?f _ _) _ = _ => set (go := f) end. replace (go (map (tmap g) l) (map (tmap g') l)) with (Ok (map (tmap g'') l)); [reflexivity|].
    symmetry. clear PL. induction IH as [|x l X _ IHl]; [reflexivity|]. inversion PF as [|? ? P1 P2]; subst. cbn [leaves flat_map] in H. cbn [map]. unfold go; fold go.
    rewrite X by (try assumption; intros; apply H, in_app_iff; auto). cbn [bind]. rewrite IHl by (try assumption; intros; apply H, in_app_iff; auto). reflexivity.
  - match goal with |- bind (?f ?x ?y) _ = _ => set (go := f); replace (go x y) with (Ok (map (fun kv => (fst kv, tmap g'' (snd kv))) l)) end; [cbn [bind]; now rewrite String.eqb_refl|].
    symmetry. clear PL. induction IH as [|x l X _ IHl]; [reflexivity|]. inversion PF as [|? ? P1 P2]; subst. cbn [leaves flat_map] in H. cbn [map fst snd]. unfold go; fold go. cbn [fst snd].
    rewrite String.eqb_refl, X by (try assumption; intros; apply H, in_app_iff; auto). cbn [bind]. rewrite IHl by (try assumption; intros; apply H, in_app_iff; auto). reflexivity.
Qed.

Definition stacked : Type := (list nat * (nat -> list nd))%type.     (* shape of a row, rows in file k *)
Definition in_file (k : nat) (x : stacked) : nd := NAr (fst x) (snd x k).
Definition with_rows (r : stacked -> list nd) (x : stacked) : nd := NAr (fst x) (r x).
Lemma tmap_ext {A B} (f g : A -> B) t : (forall a, f a = g a) -> tmap f t = tmap g t.
Proof.
  intros H. induction t as [a|l IH|l IH|c l IH|c l IH|c] using tree_ind'; cbn [tmap]; try (f_equal; apply map_ext_Forall; eapply Forall_impl; [|exact IH]; cbn; intros; congruence); congruence.
Qed.
Lemma concat_all_map (t : tree stacked) : plain t -> forall rs, rs <> [] ->
  concat_all (map (fun r => tmap (with_rows r) t) rs) = Ok (tmap (with_rows (fun x => flat_map (fun r => r x) rs)) t).
Proof.
  intros PL [|r rs] N; [congruence|]. clear N. cbn [map concat_all].
  assert (G : forall rs (r0 : stacked -> list nd), fold_left (fun acc t' => do a <- acc; tree_concat a t') (map (fun r => tmap (with_rows r) t) rs) (Ok (tmap (with_rows r0) t)) =
    Ok (tmap (with_rows (fun x => r0 x ++ flat_map (fun r => r x) rs)) t)).
  { clear r rs. induction rs as [|r rs IH]; intros r0; cbn [map fold_left flat_map].
    - f_equal. apply tmap_ext. intros a. unfold with_rows. now rewrite app_nil_r.
    - cbn [bind]. rewrite (tree_concat_map _ _ (with_rows (fun x => r0 x ++ r x)) t PL).
      + rewrite IH. f_equal. apply tmap_ext. intros a. unfold with_rows. now rewrite app_assoc.
      + intros a _. unfold with_rows, concat_rows. destruct (list_eq_dec Nat.eq_dec (fst a) (fst a)); [reflexivity|congruence]. }
  exact (G rs r).
Qed.

(** Position [j] of the concatenation lies in the file whose border is the first one behind it. *)
Lemma cumsum_ge : forall lens acc b, In b (cumsum_from acc lens) -> (acc <= b)%nat.
Proof. induction lens as [|n lens IH]; intros acc b I; [destruct I|]. cbn in I. destruct I as [<-|I]; [lia|]. apply IH in I. lia. Qed.
Definition before (borders : list nat) (j : nat) : nat := length (filter (fun b => (b <=? j)%nat) borders).
Lemma file_of_nat borders j : file_of borders (Z.of_nat j) = before borders j.
Proof. unfold file_of, before. f_equal. apply filter_ext. intros b. destruct (Z.ltb_spec (Z.of_nat b - 1) (Z.of_nat j)), (Nat.leb_spec b j); lia || reflexivity. Qed.
Lemma before_spec {A} : forall (parts : list (list A)) acc j, let lens := map (@length A) parts in let bs := cumsum_from acc lens in (acc <= j < acc + list_sum lens)%nat ->
  (before bs j < length parts)%nat /\ (nth (before bs j) (acc :: bs) 0 <= j)%nat /\ (j - nth (before bs j) (acc :: bs) 0 < length (nth (before bs j) parts []))%nat /\
  nth_error (concat parts) (j - acc) = nth_error (nth (before bs j) parts []) (j - nth (before bs j) (acc :: bs) 0).
Proof.
  induction parts as [|x parts IH]; intros acc j; cbv zeta; cbn [map cumsum_from]; intros H; [cbn in H; lia|]. cbn [list_sum fold_right] in H. fold (list_sum (map (@length A) parts)) in H.
  unfold before. cbn [filter]. destruct (Nat.leb_spec (acc + length x) j) as [L|L].
  - cbn [length nth concat]. specialize (IH (acc + length x)%nat j). cbv zeta in IH. destruct IH as (I1 & I2 & I3 & I4); [lia|]. unfold before in *.
    split; [lia|]. split; [exact I2|]. split; [exact I3|]. rewrite nth_error_app2 by lia. etransitivity; [|exact I4]. f_equal. lia.
  - replace (filter _ _) with (@nil nat).
    + cbn [length nth concat]. split; [lia|]. split; [lia|]. split; [lia|]. rewrite nth_error_app1 by lia. reflexivity.
    + symmetry. assert (F : forall b, In b (cumsum_from (acc + length x) (map (@length A) parts)) -> (b <=? j)%nat = false).
      { intros b I. apply cumsum_ge in I. apply Nat.leb_gt. lia. }
      induction (cumsum_from _ _) as [|b r IHr]; [reflexivity|]. cbn [filter]. rewrite F by now left. apply IHr. intros; apply F; now right.
Qed.
Lemma before_mono bs i j : (i <= j)%nat -> (before bs i <= before bs j)%nat.
Proof.
  intros H. unfold before. induction bs as [|b bs IH]; [apply le_n|]. cbn [filter]. destruct (Nat.leb_spec b i), (Nat.leb_spec b j); cbn [length]; lia.
Qed.

Lemma flat_map_ext_in {A B} (f g : A -> list B) l : (forall a, In a l -> f a = g a) -> flat_map f l = flat_map g l.
Proof. induction l as [|a l IH]; intros H; [reflexivity|]. cbn. rewrite H by now left. f_equal. apply IH. intros; apply H; now right. Qed.
(** A sorted list is the concatenation of its classes. *)
Lemma classes (c : nat -> nat) : forall m a js, StronglySorted (fun i j => (c i <= c j)%nat) js -> Forall (fun j => (a <= c j < a + m)%nat) js ->
  js = flat_map (fun k => filter (fun j => (c j =? k)%nat) js) (seq a m).
Proof.
  assert (SP : forall a js, StronglySorted (fun i j => (c i <= c j)%nat) js -> Forall (fun j => (a <= c j)%nat) js -> js = filter (fun j => (c j =? a)%nat) js ++ filter (fun j => (a <? c j)%nat) js).
  { intros a js S. induction S as [|x js S IH F]; intros H; [reflexivity|]. inversion H as [|? ? H1 H2]; subst. cbn [filter]. destruct (Nat.eqb_spec (c x) a) as [E1|N].
    - rewrite (proj2 (Nat.ltb_ge _ _)) by lia. cbn [app]. f_equal. auto.
    - rewrite (proj2 (Nat.ltb_lt _ _)) by lia. assert (F1 : filter (fun j => (c j =? a)%nat) js = []).
      { clear - F N H1. induction F as [|y l Hy _ IHF]; [reflexivity|]. cbn [filter]. rewrite (proj2 (Nat.eqb_neq _ _)) by lia. exact IHF. }
      assert (F2 : filter (fun j => (a <? c j)%nat) js = js).
      { clear - F N H1. induction F as [|y l Hy _ IHF]; [reflexivity|]. cbn [filter]. rewrite (proj2 (Nat.ltb_lt _ _)) by lia. now rewrite IHF. }
      rewrite F1, F2. reflexivity. }
  induction m as [|m IH]; intros a js SS H.
  - destruct js as [|x js]; [reflexivity|]. inversion H; subst. lia.
  - cbn [seq flat_map]. rewrite (SP a js SS) at 1 by (eapply Forall_impl; [|exact H]; cbn; lia). f_equal.
    rewrite (IH (S a) (filter (fun j => (a <? c j)%nat) js)) at 1.
    + apply flat_map_ext_in. intros k I. apply in_seq in I. clear - I. induction js as [|x js IHj]; [reflexivity|]. cbn [filter].
      destruct (Nat.ltb_spec a (c x)) as [L|L]; cbn [filter]; rewrite IHj; [reflexivity|]. now rewrite (proj2 (Nat.eqb_neq _ _)) by lia.
    + clear - SS. induction SS as [|x l S IHS F]; [constructor|]. cbn [filter]. destruct (a <? c x)%nat; [|exact IHS]. constructor; [exact IHS|].
      rewrite Forall_forall in *. intros y I. apply filter_In in I. apply F. tauto.
    + rewrite Forall_forall in *. intros y I. apply filter_In in I. destruct I as (I & L). apply Nat.ltb_lt in L. specialize (H y I). cbn in H. lia.
Qed.

Lemma picked_app {A} js js' (rows : list A) : picked (js ++ js') rows = picked js rows ++ picked js' rows.
Proof. unfold picked. now rewrite flat_map_app. Qed.
Lemma picked_flat {A C} (f : C -> list nat) l (rows : list A) : picked (flat_map f l) rows = flat_map (fun k => picked (f k) rows) l.
Proof. induction l as [|x l IH]; [reflexivity|]. cbn [flat_map]. now rewrite picked_app, IH. Qed.
Lemma picked_shift {A} (js : list nat) (rows rows' : list A) (sh : nat -> nat) : (forall j, In j js -> nth_error rows j = nth_error rows' (sh j)) -> picked js rows = picked (map sh js) rows'.
Proof. intros H. unfold picked. rewrite flat_map_concat_map, flat_map_concat_map, map_map. f_equal. apply map_ext_in. intros j I. now rewrite (H j I). Qed.
Lemma sorted_filter (p : nat -> bool) l : StronglySorted lt l -> StronglySorted lt (filter p l).
Proof.
  induction 1 as [|x l SS IH F]; [constructor|]. cbn [filter]. destruct (p x); [|exact IH]. constructor; [exact IH|]. rewrite Forall_forall in *. intros y I. apply filter_In in I. apply F. tauto.
Qed.
Lemma filter_map_comm {A C} (f : A -> C) p l : filter p (map f l) = map f (filter (fun x => p (f x)) l).
Proof. induction l as [|x l IH]; [reflexivity|]. cbn [map filter]. destruct (p (f x)); cbn [map]; now rewrite IH. Qed.

(** C44.  Loading indices from several files of the same structure: exactly the rows at these positions of the concatenation of the files, in increasing order. *)
Theorem C44_load_multiple (d : fs) (paths : list string) (t : tree stacked) (lens : list nat) ids :
  (1 < length paths)%nat -> length lens = length paths -> plain t -> leaves t <> [] ->
  (forall k p, nth_error paths k = Some p -> load identifier d p SelNone 0 = Ok (tmap (in_file k) t)) ->
  (forall k n x, nth_error lens k = Some n -> In x (leaves t) -> length (snd x k) = n) ->
  ids <> [] -> NoDup ids -> Forall (fun i => (0 <= i < Z.of_nat (list_sum lens))%Z) ids ->
  exists js, Permutation ids (map Z.of_nat js) /\ StronglySorted lt js /\
    load_from_multiple identifier d paths ids = Ok (tmap (with_rows (fun x => picked js (flat_map (snd x) (seq 0 (length paths))))) t).
Proof.
  intros HP LL PL NE HL HN NI ND HR. destruct (sort_Z_spec ids) as (SP & SS). set (m := length paths) in *.
  assert (HR' : Forall (fun i => (0 <= i < Z.of_nat (list_sum lens))%Z) (sort_Z ids)) by exact (Permutation_Forall SP HR).
  assert (SL : StronglySorted Z.lt (sort_Z ids)) by (apply strictly; [exact (Permutation_NoDup SP ND)|exact SS]).
  set (js := map Z.to_nat (sort_Z ids)).
  assert (EJ : sort_Z ids = map Z.of_nat js).
  { unfold js. rewrite map_map. clear - HR'. induction HR' as [|i l Hi _ IH]; [reflexivity|]. cbn [map]. rewrite <- IH. f_equal. lia. }
  assert (SJ : StronglySorted lt js).
  { unfold js. clear - SL HR'. induction SL as [|x l S IH F]; [constructor|]. inversion HR' as [|? ? F1 F2]; subst. cbn [map]. constructor; [auto|].
    apply Forall_map. rewrite Forall_forall in *. intros y I. specialize (F y I). specialize (F2 y I). cbn in *. lia. }
  assert (RJ : Forall (fun j => (j < list_sum lens)%nat) js).
  { unfold js. apply Forall_map. eapply Forall_impl; [|exact HR']. cbn. lia. }
  exists js. split; [now rewrite <- EJ|]. split; [exact SJ|].
  set (bs := cumsum_from 0 lens). set (off := fun k => nth k (0%nat :: bs) 0%nat).
  set (mine := fun k => filter (fun j => (before bs j =? k)%nat) js).
  (* where a position lies, for every leaf *)
  assert (PARTS : forall x, In x (leaves t) -> map (@length nd) (map (snd x) (seq 0 m)) = lens).
  { intros x I. rewrite map_map. apply nth_error_ext. intros k. destruct (nth_error lens k) as [n|] eqn:Ek.
    - pose proof (nth_lt _ _ _ Ek) as Hk. rewrite nth_error_map, (nth_error_nth' _ 0%nat) by (rewrite seq_length; lia). rewrite seq_nth by lia. cbn. f_equal. now apply HN.
    - apply nth_error_None in Ek. apply nth_error_None. rewrite map_length, seq_length. lia. }
  assert (POS : forall x j, In x (leaves t) -> In j js -> (before bs j < m)%nat /\ (off (before bs j) <= j)%nat /\ (j - off (before bs j) < length (snd x (before bs j)))%nat /\
            nth_error (flat_map (snd x) (seq 0 m)) j = nth_error (snd x (before bs j)) (j - off (before bs j))).
  { intros x j I J. rewrite Forall_forall in RJ. specialize (RJ j J). pose proof (before_spec (map (snd x) (seq 0 m)) 0 j) as B. cbv zeta in B. rewrite (PARTS x I) in B. fold bs in B.
    rewrite map_length, seq_length in B. destruct B as (B1 & B2 & B3 & B4); [lia|]. fold (off (before bs j)) in *. rewrite flat_map_concat_map.
    assert (EQ : nth (before bs j) (map (snd x) (seq 0 m)) [] = snd x (before bs j)).
    { rewrite (nth_indep _ [] (snd x 0%nat)) by (rewrite map_length, seq_length; exact B1). rewrite map_nth. now rewrite seq_nth by exact B1. }
    rewrite EQ in *. rewrite Nat.sub_0_r in B4. auto. }
  destruct (leaves t) as [|x0 xs] eqn:EL; [congruence|]. rewrite <- EL in *. assert (I0 : In x0 (leaves t)) by (rewrite EL; now left).
  unfold load_from_multiple. fold m. rewrite (proj2 (Nat.ltb_lt _ _)) by exact HP. cbn [assert_ bind].
  assert (ML : mapM (fun p => load_length identifier d p 0) paths = Ok lens).
  { apply mapM_spec. split; [exact LL|]. intros k p Ek. destruct (nth_error_at lens k) as (n & En); [rewrite LL; exact (nth_lt _ _ _ Ek)|]. exists n. split; [exact En|].
    specialize (HL k p Ek). unfold load in HL. apply bind_Ok in HL. destruct HL as (h & Hh & HL). unfold load_length. rewrite Hh. cbn [bind].
    rewrite (ltm_map (fun a => Ok (dims a)) dims h _ HL) by reflexivity. cbn [bind]. rewrite leaves_tmap, leaves_tmap, EL. cbn [map in_file dims nth_error]. f_equal.
    apply (HN k n x0 En I0). }
  rewrite ML. cbn [bind]. fold bs. rewrite EJ.
  destruct (rev (map Z.of_nat js)) as [|z zs] eqn:ER.
  { exfalso. apply NI. apply (f_equal (@length Z)) in ER. rewrite rev_length, map_length in ER. unfold js in ER. rewrite map_length in ER.
    destruct ids; [reflexivity|]. apply Permutation_length in SP. cbn in SP, ER. lia. }
  assert (IZ : In z (map Z.of_nat js)) by (apply in_rev; rewrite ER; now left).
  assert (LZ : (z < Z.of_nat (list_sum lens))%Z).
  { apply in_map_iff in IZ. destruct IZ as (j & <- & J). rewrite Forall_forall in RJ. specialize (RJ j J). lia. }
  rewrite (proj2 (Z.ltb_lt _ _)) by exact LZ. cbn [assert_ bind].
  set (local := fun k => map (fun j => (j - off k)%nat) (mine k)).
  assert (MINE : forall k, map (fun j => (j - Z.of_nat (off k))%Z) (filter (fun j => (file_of bs j =? k)%nat) (map Z.of_nat js)) = map Z.of_nat (local k)).
  { intros k. rewrite filter_map_comm, map_map. unfold local, mine. rewrite map_map. rewrite (filter_ext _ (fun j => (before bs j =? k)%nat)) by (intros; now rewrite file_of_nat).
    apply map_ext_in. intros j I. apply filter_In in I. destruct I as (J & Ej). apply Nat.eqb_eq in Ej. destruct (POS x0 j I0 J) as (_ & P2 & _). rewrite Ej in P2. lia. }
  assert (LOADS : mapM (fun ifp : nat * string =>
       let mine := map (fun j => (j - Z.of_nat (nth (fst ifp) (0%nat :: bs) 0%nat))%Z) (filter (fun j => (file_of bs j =? fst ifp)%nat) (map Z.of_nat js)) in
       match mine with [] => Ok [] | _ => do t <- load identifier d (snd ifp) (SelList mine) 0; Ok [t] end) (enum paths) =
     Ok (map (fun k => match mine k with [] => [] | _ => [tmap (with_rows (fun x => picked (local k) (snd x k))) t] end) (seq 0 m))).
  { apply mapM_spec. rewrite map_length, seq_length, enum_length. split; [reflexivity|]. intros b [k p] Eb. rewrite enum_nth in Eb. destruct (nth_error paths b) as [p'|] eqn:Ep; [|discriminate]. injection Eb as <- <-.
    cbv zeta. cbn [fst snd]. fold (off b). rewrite MINE. pose proof (nth_lt _ _ _ Ep) as Hk. fold m in Hk.
    exists (match mine b with [] => [] | _ => [tmap (with_rows (fun x => picked (local b) (snd x b))) t] end). split.
    - rewrite nth_error_map, (nth_error_nth' _ 0%nat) by (rewrite seq_length; lia). rewrite seq_nth by lia. reflexivity.
    - destruct (mine b) as [|j0 r0] eqn:EM; [unfold local; rewrite EM; reflexivity|].
      assert (LN : map Z.of_nat (local b) <> []) by (unfold local; rewrite EM; discriminate). destruct (map Z.of_nat (local b)) as [|z0 zr] eqn:EZ; [congruence|]. rewrite <- EZ.
      specialize (HL b _ Ep). unfold load in HL |- *. apply bind_Ok in HL. destruct HL as (h & Hh & HL). rewrite Hh. cbn [bind].
      assert (SLOC : StronglySorted lt (local b)).
      { unfold local, mine. assert (SB : forall l, StronglySorted lt l -> (forall j, In j l -> (off b <= j)%nat) -> StronglySorted lt (map (fun j => (j - off b)%nat) l)).
        { clear. induction 1 as [|x l S IH F]; intros H; [constructor|]. cbn [map]. constructor; [apply IH; intros; apply H; now right|]. apply Forall_map. rewrite Forall_forall in *. intros y I.
          specialize (F y I). pose proof (H x (or_introl eq_refl)). clear - F H0. generalize dependent (off b). intros; lia. }
        apply SB; [now apply sorted_filter|]. intros j I. apply filter_In in I. destruct I as (J & Ej). apply Nat.eqb_eq in Ej. destruct (POS x0 j I0 J) as (_ & P2 & _). now rewrite Ej in P2. }
      assert (RLOC : forall x, In x (leaves t) -> Forall (fun j => (j < length (snd x b))%nat) (local b)).
      { intros x I. unfold local, mine. apply Forall_map. rewrite Forall_forall. intros j J. apply filter_In in J. destruct J as (J & Ej). apply Nat.eqb_eq in Ej.
        destruct (POS x j I J) as (_ & _ & P3 & _). now rewrite Ej in P3. }
      set (g := fun a : nd => match a with NAr tr rows => NAr tr (picked (local b) rows) | NSc e => NSc e end).
      rewrite (ltm_map _ g h _ HL).
      + cbn [bind]. do 2 f_equal. clear. induction t as [a|l IH|l IH|c l IH|c l IH|c] using tree_ind'; cbn [tmap]; try reflexivity.
        1,2: f_equal; rewrite map_map; apply map_ext_Forall; exact IH.
        1,2: f_equal; rewrite map_map; apply map_ext_Forall; eapply Forall_impl; [|exact IH]; cbn; intros; congruence.
      + intros a I. rewrite leaves_tmap in I. apply in_map_iff in I. destruct I as (x & <- & I). unfold in_file, g. now apply select_rows; [|apply RLOC]. }
  match goal with |- bind ?X _ = _ => match type of LOADS with _ = ?rhs => replace X with rhs by (symmetry; exact LOADS) end end. cbn [bind].
  set (rs := map (fun k x => picked (local k) (snd x k)) (filter (fun k => match mine k with [] => false | _ => true end) (seq 0 m)) : list (stacked -> list nd)).
  assert (CR : concat (map (fun k => match mine k with [] => [] | _ => [tmap (with_rows (fun x => picked (local k) (snd x k))) t] end) (seq 0 m)) = map (fun r => tmap (with_rows r) t) rs).
  { unfold rs. clear. induction (seq 0 m) as [|k l IH]; [reflexivity|]. cbn [map filter concat]. destruct (mine k); [exact IH|]. cbn [app map]. now rewrite IH. }
  rewrite CR. assert (CL : js = flat_map mine (seq 0 m)).
  { unfold mine. apply (classes (before bs) m 0 js).
    - clear - SJ. induction SJ as [|x l S IH F]; [constructor|]. constructor; [exact IH|]. eapply Forall_impl; [|exact F]. intros y L. apply before_mono. cbn in L. lia.
    - rewrite Forall_forall. intros j J. destruct (POS x0 j I0 J) as (P1 & _). lia. }
  assert (NR : rs <> []).
  { intros X. assert (js = []) as EJ0.
    { rewrite CL. unfold rs in X. apply map_eq_nil in X. clear - X. induction (seq 0 m) as [|k l IH]; [reflexivity|]. cbn [flat_map filter] in *. destruct (mine k); [cbn; now apply IH|discriminate]. }
    rewrite EJ0 in IZ. destruct IZ. }
  rewrite (concat_all_map t PL rs NR). f_equal.
  assert (EXT : forall (f g : stacked -> nd), (forall x, In x (leaves t) -> f x = g x) -> tmap f t = tmap g t).
  { clear. intros f g. induction t as [a|l IH|l IH|c l IH|c l IH|c] using tree_ind'; cbn [tmap leaves]; intros H; try reflexivity.
    - rewrite H; [reflexivity|cbn; auto].
    - f_equal. apply map_ext_in. intros y I. rewrite Forall_forall in IH. apply IH; [exact I|]. intros z J. apply H, in_flat_map. eauto.
    - f_equal. apply map_ext_in. intros y I. rewrite Forall_forall in IH. apply IH; [exact I|]. intros z J. apply H, in_flat_map. eauto.
    - f_equal. apply map_ext_in. intros y I. f_equal. rewrite Forall_forall in IH. apply (IH y); [exact I|]. intros z J. apply H, in_flat_map. eauto.
    - f_equal. apply map_ext_in. intros y I. f_equal. rewrite Forall_forall in IH. apply (IH y); [exact I|]. intros z J. apply H, in_flat_map. eauto. }
  apply EXT. intros x I. unfold with_rows. f_equal.
  transitivity (flat_map (fun k => picked (local k) (snd x k)) (seq 0 m)).
  - unfold rs. clear. induction (seq 0 m) as [|k l IH]; [reflexivity|]. cbn [flat_map filter]. destruct (mine k) eqn:EM.
    + assert (LK : local k = []) by (unfold local; now rewrite EM). rewrite LK. exact IH.
    + cbn [map flat_map]. now rewrite IH.
  - rewrite CL at 1. rewrite picked_flat. apply flat_map_ext_in. intros k K. symmetry. unfold local. apply picked_shift. intros j J. unfold mine in J. apply filter_In in J. destruct J as (J & Ej).
    apply Nat.eqb_eq in Ej. destruct (POS x j I J) as (_ & _ & _ & P4). now rewrite Ej in P4.
Qed.
End Rows.

(** ** Concrete trees *)
Definition ident (s : string) : bool := negb (String.eqb s "").
Definition sc (n : nat) : tree (nd nat) := Leaf (NSc n).
Definition vec (l : list nat) : nd nat := NAr [] (map (fun n => NSc n) l).
Definition mat (c : nat) (l : list (list nat)) : nd nat := NAr [c] (map vec l).
Definition sample : tree (nd nat) :=
  TDict "dict" [("x", TTuple [Leaf (mat 2 [[1; 2]; [3; 4]; [5; 6]]); sc 7]); ("gyr", TList [Leaf (vec [1; 2; 3]); TDict "dict" []; TNamed "P" [("u", sc 1); ("a", sc 2)]])].
Example sample_storable : storable ident sample /\ short_lists sample.
Proof.
  split.
  - unfold sample. apply st_dict; [repeat constructor; cbn; intuition discriminate|]. repeat constructor; cbn; try (intuition discriminate).
  - repeat constructor; cbn; lia.
Qed.
Example sample_back : match save [] "data" sample false with (d', Ok _) => load ident d' "data.h5" SelNone 0 | (_, Err e) => Err e end =
  Ok (TDict "dict" [("gyr", TList [Leaf (vec [1; 2; 3]); TDict "dict" []; TNamed "P" [("a", sc 2); ("u", sc 1)]]); ("x", TTuple [Leaf (mat 2 [[1; 2]; [3; 4]; [5; 6]]); sc 7])]).
Proof. vm_compute. reflexivity. Qed.
Definition arrays (l : list nat) (r : list (list nat)) : tree (nd nat) := TDict "dict" [("a", Leaf (vec l)); ("b", TList [Leaf (mat 2 r)])].
Definition two_files : fs :=
  let d := fst (save [] "f1" (arrays [10; 11; 12] [[1; 2]; [3; 4]; [5; 6]]) false) in
  fst (save d "f2" (arrays [20; 21] [[7; 8]; [9; 0]]) false).
Example load_rows : load ident two_files "f1" (SelList [0; 2]%Z) 0 = Ok (arrays [10; 12] [[1; 2]; [5; 6]]) /\
  load_from_multiple ident two_files ["f1"; "f2"] [0; 2; 4]%Z = Ok (arrays [10; 12; 21] [[1; 2]; [5; 6]; [9; 0]]).
Proof. vm_compute. split; reflexivity. Qed.
Example load_last : load ident two_files "f1" (SelInt (-1)) 0 = Ok (TDict "dict" [("a", sc 12); ("b", TList [Leaf (vec [5; 6])])]) /\
  load ident two_files "f1" (SelInt 3) 0 = Err EIndex /\ load_length ident two_files "f2" 0 = Ok 2%nat.
Proof. vm_compute. auto. Qed.
(** The two files meet the hypotheses of C44_load_multiple. *)
Definition two_stacked : tree (@stacked nat) :=
  TDict "dict" [("a", Leaf ([], fun k => match k with 0%nat => map (fun n => NSc n) [10; 11; 12] | _ => map (fun n => NSc n) [20; 21] end)%nat);
                ("b", TList [Leaf ([2], fun k => match k with 0%nat => map vec [[1; 2]; [3; 4]; [5; 6]] | _ => map vec [[7; 8]; [9; 0]] end)%nat])].
Example two_files_stacked : plain two_stacked /\ (forall k p, nth_error ["f1"; "f2"] k = Some p -> load ident two_files p SelNone 0 = Ok (tmap (in_file k) two_stacked)) /\
  (forall k n x, nth_error [3; 2]%nat k = Some n -> In x (leaves two_stacked) -> length (snd x k) = n).
Proof.
  split; [repeat constructor|]. split.
  - intros [|[|k]] p H; try (destruct k; discriminate); injection H as <-; vm_compute; reflexivity.
  - intros [|[|k]] n x H I; try (destruct k; discriminate); injection H as <-; cbn in I; destruct I as [<-|[<-|[]]]; reflexivity.
Qed.

(** C44 is false for lists of more than ten arrays: they come back in the order of the decimal names. *)
Theorem C44_order_refuted : exists (t : tree (nd nat)) d' t', storable ident t /\ save [] "f" t false = (d', Ok tt) /\ load ident d' "f" SelNone 0 = Ok t' /\ ~ same t t' /\
  t = TList (map sc [0; 1; 2; 3; 4; 5; 6; 7; 8; 9; 10]%nat) /\ t' = TList (map sc [0; 1; 10; 2; 3; 4; 5; 6; 7; 8; 9]%nat).
Proof.
  set (t := TList (map sc [0; 1; 2; 3; 4; 5; 6; 7; 8; 9; 10]%nat)). set (t' := TList (map sc [0; 1; 10; 2; 3; 4; 5; 6; 7; 8; 9]%nat)).
  exists t, (fst (save [] "f" t false)), t'. split; [repeat constructor|]. split; [vm_compute; reflexivity|]. split; [vm_compute; reflexivity|]. split; [|split; reflexivity].
  intros H. inversion H as [|? l1 ? EQ F| | |]; subst. repeat match goal with F : Forall2 _ (_ :: _) _ |- _ => inversion F; clear F; subst | F : Forall2 _ (map _ _) _ |- _ => cbn in F end.
  match goal with X : alike eq (sc 2) _ |- _ => inversion X end.
Qed.
(** C44 is false for the order of namedtuples: fields come back sorted by name. *)
Theorem C44_named_refuted : exists (t : tree (nd nat)) d', storable ident t /\ save [] "f" t false = (d', Ok tt) /\ t = TNamed "P" [("x", sc 1); ("a", sc 2)] /\
  load ident d' "f" SelNone 0 = Ok (TNamed "P" [("a", sc 2); ("x", sc 1)]).
Proof.
  set (t := TNamed "P" [("x", sc 1); ("a", sc 2)]). exists t, (fst (save [] "f" t false)). split; [|split; [reflexivity|split; reflexivity]].
  unfold t. constructor; repeat constructor; cbn; intuition discriminate.
Qed.
(** C44 is false for ordered dictionaries: they come back as namedtuples. *)
Theorem C44_ordered_dict_refuted : exists (t : tree (nd nat)) d', save [] "f" t false = (d', Ok tt) /\ t = TDict "OrderedDict" [("x", sc 1); ("a", sc 2)] /\
  load ident d' "f" SelNone 0 = Ok (TNamed "OrderedDict" [("a", sc 2); ("x", sc 1)]).
Proof. set (t := TDict "OrderedDict" [("x", sc 1); ("a", sc 2)]). exists t, (fst (save [] "f" t false)). split; [reflexivity|split; reflexivity]. Qed.
(** C44 is false for failing calls: saving a tree with a plain number fails, but has replaced the file; the old tree is lost. *)
Theorem C44_failed_save_refuted : exists (d d' : @fs nat) t t', load ident d "f" SelNone 0 = Ok t /\ save d "f" t' true = (d', Err EValue) /\ load ident d' "f" SelNone 0 <> Ok t /\
  save d' "f" t false = (d', Err EOther).
Proof.
  set (t := TDict "dict" [("a", sc 1)]). set (t' := TDict "dict" [("a", sc 1); ("b", TOther "float")]). set (d := fst (save [] "f" t false)).
  exists d, (fst (save d "f" t' true)), t, t'. split; [reflexivity|]. split; [reflexivity|]. split; [vm_compute; discriminate|reflexivity].
Qed.
(** C44 is false for names with a dot: they are cut off at it, so two names may denote one file. *)
Theorem C44_name_refuted : exists d' (t t' : tree (nd nat)), save (fst (save [] "run.1" t false)) "run.2" t' true = (d', Ok tt) /\ load ident d' "run.1" SelNone 0 = Ok t' /\ t <> t'.
Proof.
  set (d1 := fst (save [] "run.1" (sc 1) false)). exists (fst (save d1 "run.2" (sc 2) true)), (sc 1), (sc 2). split; [reflexivity|]. split; [reflexivity|discriminate].
Qed.
(** C44 is false for the order of indices and for negative ones: rows come in increasing order, and -1 is the end of the first file. *)
Theorem C44_index_order_refuted : load ident two_files "f1" (SelList [2; 0]%Z) 0 = Ok (arrays [10; 12] [[1; 2]; [5; 6]]) /\
  load_from_multiple ident two_files ["f1"; "f2"] [4; 0]%Z = Ok (arrays [10; 21] [[1; 2]; [9; 0]]).
Proof. vm_compute. split; reflexivity. Qed.
Theorem C44_negative_refuted : load_from_multiple ident two_files ["f1"; "f2"] [-1]%Z = Ok (arrays [12] [[5; 6]]) /\
  load_from_multiple ident two_files ["f1"; "f2"] [-1; 0]%Z = Err EType.
Proof. vm_compute. split; reflexivity. Qed.
(** C44 is false for namedtuples in several files: they cannot be joined. *)
Theorem C44_multiple_named_refuted : exists (d : @fs nat) t, load ident d "f1" SelNone 0 = Ok t /\ load ident d "f2" SelNone 0 = Ok t /\
  load_from_multiple ident d ["f1"; "f2"] [0; 1]%Z = Ok t /\ load_from_multiple ident d ["f1"; "f2"] [0; 2]%Z = Err EValue.
Proof.
  set (t := TNamed "P" [("a", Leaf (vec [1; 2]%nat))]). exists (fst (save (fst (save [] "f1" t false)) "f2" t false)), t. repeat split; vm_compute; reflexivity.
Qed.
Print Assumptions C44_save_load.
Print Assumptions C44_load_multiple.
