(** * ring/utils/hdf5.py: saving and loading trees of arrays.

    An array is a scalar or a list of rows together with the shape of a row.  A group of an HDF5 file lists its members in the order of
    their names (h5py without track_order).  Keys of dictionaries are strings without "/" that HDF5 accepts as names. *)
From Coq Require Import String Ascii ZArith Bool List DecimalString.
From Verif Require Import Prelude.
Import ListNotations.
Local Open Scope string_scope.
Local Open Scope list_scope.

Section Arr.
Context {E : Type}.
Inductive nd := NSc (e : E) | NAr (trail : list nat) (rows : list nd).
Definition dims (a : nd) : list nat := match a with NSc _ => [] | NAr tr rows => length rows :: tr end.

(** Pytrees.  [TOther] is any object that is neither an array nor one of the known containers (numbers, strings, None, ...);
    [cls] is type(x).__name__: "dict" or that of a subclass known to jax such as "OrderedDict". *)
Inductive tree (A : Type) :=
| Leaf (a : A)
| TList (l : list (tree A))
| TTuple (l : list (tree A))
| TDict (cls : string) (l : list (string * tree A))
| TNamed (cls : string) (l : list (string * tree A))
| TOther (cls : string).
Arguments Leaf {A}. Arguments TList {A}. Arguments TTuple {A}. Arguments TDict {A}. Arguments TNamed {A}. Arguments TOther {A}.

Inductive h5 := Data (a : nd) | Group (type_ : string) (members : list (string * h5)).
Definition group := list (string * h5).

(** create_group, create_dataset: a ValueError for a name in use. *)
Fixpoint insert_name (name : string) (h : h5) (g : group) : group :=
  match g with
  | [] => [(name, h)]
  | m :: r => if String.ltb name (fst m) then (name, h) :: m :: r else m :: insert_name name h r
  end.
Definition create (g : group) (name : string) (h : h5) : result group :=
  if dmem String.eqb g name then Err EValue else Ok (insert_name name h g).

(** hdf5.py 154: f"arr{k}" *)
Definition arr_name (k : nat) : string := ("arr" ++ NilEmpty.string_of_uint (Nat.to_uint k))%string.
(** jax.device_get rebuilds a dict in the order of its sorted keys; it keeps the order of other containers. *)
Fixpoint insert_key {A} (x : string * A) (l : list (string * A)) : list (string * A) :=
  match l with
  | [] => [x]
  | y :: r => if String.ltb (fst x) (fst y) then x :: y :: r else y :: insert_key x r
  end.
Definition sort_keys {A} (l : list (string * A)) : list (string * A) := fold_left (fun acc x => insert_key x acc) l [].
Fixpoint device_get (t : tree nd) : tree nd :=
  match t with
  | Leaf a => Leaf a
  | TList l => TList (map device_get l)
  | TTuple l => TTuple (map device_get l)
  | TDict c l => TDict c (let l' := map (fun kv => (fst kv, device_get (snd kv))) l in if String.eqb c "dict" then sort_keys l' else l')
  | TNamed c l => TNamed c (map (fun kv => (fst kv, device_get (snd kv))) l)
  | TOther c => TOther c
  end.

(** type(tree).__name__ *)
Definition type_name {A} (t : tree A) : string :=
  match t with Leaf _ => "ndarray" | TList _ => "list" | TTuple _ => "tuple" | TDict c _ => c | TNamed c _ => c | TOther c => c end.

(** hdf5.py 139-160.  The group as it is left behind, and the outcome. *)
Fixpoint savetree (t : tree nd) (g : group) (name : string) : group * result unit :=
  let sub (r : group * result unit) :=          (* the new subgroup with its members *)
    match create g name (Group (type_name t) (fst r)) with Ok g' => (g', snd r) | Err e => (g, Err e) end in
  match t with
  | Leaf a => match create g name (Data a) with Ok g' => (g', Ok tt) | Err e => (g, Err e) end
  | TList l | TTuple l =>
      sub ((fix go (k : nat) (l : list (tree nd)) (s : group) : group * result unit :=
              match l with
              | [] => (s, Ok tt)
              | c :: r => match savetree c s (arr_name k) with (s', Ok _) => go (S k) r s' | bad => bad end
              end) 0%nat l [])
  | TDict _ l | TNamed _ l =>
      sub ((fix go (l : list (string * tree nd)) (s : group) : group * result unit :=
              match l with
              | [] => (s, Ok tt)
              | kc :: r => match savetree (snd kc) s (fst kc) with (s', Ok _) => go r s' | bad => bad end
              end) l [])
  | TOther _ => sub ([], Err EValue)
  end.

(** hdf5.py 185-203.  collections.namedtuple checks the names: [identifier] is Python's test. *)
Variable identifier : string -> bool.
Definition namedtuple {A} (cls : string) (l : list (string * tree A)) : result (tree A) :=
  if identifier cls && forallb (fun kv => identifier (fst kv)) l then Ok (TNamed cls l) else Err EValue.
Fixpoint lazy_tree_map {A} (f : nd -> result A) (h : h5) : result (tree A) :=
  match h with
  | Data a => do x <- f a; Ok (Leaf x)
  | Group ty l =>
      do vs <- (fix go (l : list (string * h5)) : result (list (string * tree A)) :=
                  match l with
                  | [] => Ok []
                  | kv :: r => do x <- lazy_tree_map f (snd kv); do xs <- go r; Ok ((fst kv, x) :: xs)
                  end) l;
      if String.eqb ty "dict" then Ok (TDict "dict" vs)
      else if String.eqb ty "list" then Ok (TList (map snd vs))
      else if String.eqb ty "tuple" then Ok (TTuple (map snd vs))
      else namedtuple ty vs
  end.

(** ** Selecting rows *)
Inductive sel := SelNone | SelInt (i : Z) | SelList (l : list Z).

(** One integer index: negative ones count from the end. *)
Definition norm_index (n : nat) (i : Z) : result nat :=
  let j := if (i <? 0)%Z then (i + Z.of_nat n)%Z else i in
  if (0 <=? j)%Z && (j <? Z.of_nat n)%Z then Ok (Z.to_nat j) else Err EIndex.
Fixpoint increasing_nat (l : list nat) : bool :=
  match l with a :: ((b :: _) as r) => (a <? b)%nat && increasing_nat r | _ => true end.
(** h5py: negative indices are converted, then the list must be strictly increasing. *)
Definition norm_list (n : nat) (l : list Z) : result (list nat) :=
  do js <- mapM (norm_index n) l; if increasing_nat js then Ok js else Err EType.
(** sorted() *)
Fixpoint insert_Z (x : Z) (l : list Z) : list Z := match l with [] => [x] | y :: r => if (x <? y)%Z then x :: y :: r else y :: insert_Z x r end.
Definition sort_Z (l : list Z) : list Z := fold_left (fun acc x => insert_Z x acc) l [].

(** The rows [js] along [axis]; every row exists. *)
Fixpoint take (axis : nat) (js : list nat) (a : nd) : result nd :=
  match a, axis with
  | NSc _, _ => Err EIndex
  | NAr tr rows, 0%nat => do rs <- mapM (fun j => match nth_error rows j with Some r => Ok r | None => Err EIndex end) js; Ok (NAr tr rs)
  | NAr tr rows, S k => do rs <- mapM (take k js) rows; Ok (NAr (firstn k tr ++ length js :: skipn (S k) tr) rs)
  end.
(** The row [j] along [axis], which disappears. *)
Fixpoint pick (axis j : nat) (a : nd) : result nd :=
  match a, axis with
  | NSc _, _ => Err EIndex
  | NAr tr rows, 0%nat => match nth_error rows j with Some r => Ok r | None => Err EIndex end
  | NAr tr rows, S k => do rs <- mapM (pick k j) rows; Ok (NAr (firstn k tr ++ skipn (S k) tr) rs)
  end.
(** hdf5.py 163-182 *)
Definition select (s : sel) (axis : nat) (a : nd) : result nd :=
  match s with
  | SelNone => Ok a
  | SelInt i => match nth_error (dims a) axis with None => Err EIndex | Some n => do j <- norm_index n i; pick axis j a end
  | SelList l => match nth_error (dims a) axis with None => Err EIndex | Some n => do js <- norm_list n (sort_Z l); take axis js a end
  end.

(** ** Files *)
Definition fs := list (string * group).
(** hdf5.py 103-118 with Path.with_suffix(".h5"): the suffix of the last component starts at its last dot, if there is something before
    and after it.  expanduser and the normalisation of paths ("//", "./") are not modelled. *)
Fixpoint last_index (c : ascii) (s : string) : option nat :=
  match s with
  | EmptyString => None
  | String x r => match last_index c r with Some i => Some (S i) | None => if Ascii.eqb x c then Some 0%nat else None end
  end.
Definition path_of (p : string) : string :=
  let start := match last_index "/" p with Some i => S i | None => 0%nat end in
  match last_index "." p with
  | Some i => if (start <? i)%nat && (S i <? String.length p)%nat then (substring 0 i p ++ ".h5")%string else (p ++ ".h5")%string
  | None => (p ++ ".h5")%string
  end.
(** hdf5.py 19-33: opening with "w" empties the file first. *)
Definition save (d : fs) (filepath : string) (t : tree nd) (overwrite : bool) : fs * result unit :=
  let p := path_of filepath in
  if negb overwrite && dmem String.eqb d p then (d, Err EOther)
  else let (g, r) := savetree (device_get t) [] "pytree" in (dset String.eqb d p g, r).
(** hdf5.py 36-55.  A missing file: FileNotFoundError; a missing member: KeyError. *)
Definition open_tree (d : fs) (filepath : string) : result h5 :=
  match dget String.eqb d (path_of filepath) with None => Err EOther | Some g => dgetE String.eqb g "pytree" end.
Definition load (d : fs) (filepath : string) (s : sel) (axis : nat) : result (tree nd) :=
  do h <- open_tree d filepath; lazy_tree_map (select s axis) h.

(** jax.tree_util.tree_flatten, leaves only *)
Fixpoint leaves {A} (t : tree A) : list A :=
  match t with
  | Leaf a => [a]
  | TList l | TTuple l => flat_map leaves l
  | TDict _ l | TNamed _ l => flat_map (fun kv => leaves (snd kv)) l
  | TOther _ => []
  end.
(** hdf5.py 84-100 *)
Definition load_length (d : fs) (filepath : string) (axis : nat) : result nat :=
  do h <- open_tree d filepath; do t <- lazy_tree_map (fun a => Ok (dims a)) h;
  match leaves t with [] => Err EIndex | sh :: _ => match nth_error sh axis with Some n => Ok n | None => Err EIndex end end.

(** np.concatenate along the first axis *)
Definition concat_rows (a b : nd) : result nd :=
  match a, b with
  | NAr tr l, NAr tr' l' => if list_eq_dec Nat.eq_dec tr tr' then Ok (NAr tr (l ++ l')) else Err EValue
  | _, _ => Err EValue
  end.
(** hdf5.py 121-131 for two trees (several: one after the other); all leaves have a first axis here, atleast_1d changes nothing.
    Every load makes its own namedtuple class, so two of them never match. *)
Fixpoint tree_concat (t t' : tree nd) : result (tree nd) :=
  match t, t' with
  | Leaf a, Leaf b => do c <- concat_rows a b; Ok (Leaf c)
  | TList l, TList l' => do r <- (fix go (l l' : list (tree nd)) : result (list (tree nd)) :=
                                  match l, l' with
                                  | [], [] => Ok []
                                  | x :: r, x' :: r' => do y <- tree_concat x x'; do ys <- go r r'; Ok (y :: ys)
                                  | _, _ => Err EValue
                                  end) l l'; Ok (TList r)
  | TTuple l, TTuple l' => do r <- (fix go (l l' : list (tree nd)) : result (list (tree nd)) :=
                                  match l, l' with
                                  | [], [] => Ok []
                                  | x :: r, x' :: r' => do y <- tree_concat x x'; do ys <- go r r'; Ok (y :: ys)
                                  | _, _ => Err EValue
                                  end) l l'; Ok (TTuple r)
  | TDict c l, TDict c' l' => do r <- (fix go (l l' : list (string * tree nd)) : result (list (string * tree nd)) :=
                                  match l, l' with
                                  | [], [] => Ok []
                                  | x :: r, x' :: r' => if String.eqb (fst x) (fst x') then do y <- tree_concat (snd x) (snd x'); do ys <- go r r'; Ok ((fst x, y) :: ys) else Err EValue
                                  | _, _ => Err EValue
                                  end) l l'; if String.eqb c c' then Ok (TDict c r) else Err EValue
  | _, _ => Err EValue
  end.
Definition concat_all (ts : list (tree nd)) : result (tree nd) :=
  match ts with
  | [] => Ok (TList [])
  | t :: r => fold_left (fun acc t' => do a <- acc; tree_concat a t') r (Ok t)
  end.

(** np.cumsum *)
Fixpoint cumsum_from (acc : nat) (l : list nat) : list nat := match l with [] => [] | n :: r => (acc + n)%nat :: cumsum_from (acc + n) r end.
(** np.searchsorted(borders - 1, i) in a sorted array *)
Definition file_of (borders : list nat) (i : Z) : nat := length (filter (fun b => (Z.of_nat b - 1 <? i)%Z) borders).
(** hdf5.py 58-80 *)
Definition load_from_multiple (d : fs) (paths : list string) (indices : list Z) : result (tree nd) :=
  do _ <- assert_ (1 <? length paths)%nat;
  do lens <- mapM (fun p => load_length d p 0) paths;
  let borders := cumsum_from 0 lens in
  let ids := sort_Z indices in
  match rev ids with
  | [] => Err EIndex
  | last :: _ =>
      do _ <- assert_ (last <? Z.of_nat (list_sum lens))%Z;
      do ts <- mapM (fun ifp : nat * string =>
                 let mine := map (fun j => (j - Z.of_nat (nth (fst ifp) (0%nat :: borders) 0%nat))%Z) (filter (fun j => (file_of borders j =? fst ifp)%nat) ids) in
                 match mine with [] => Ok [] | _ => do t <- load d (snd ifp) (SelList mine) 0; Ok [t] end) (enum paths);
      concat_all (concat ts)
  end.
End Arr.
Arguments nd : clear implicits.
Arguments h5 : clear implicits.
Arguments Leaf {A}. Arguments TList {A}. Arguments TTuple {A}. Arguments TDict {A}. Arguments TNamed {A}. Arguments TOther {A}.
