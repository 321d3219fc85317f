(** * Model of training data on disk: generator/base.py 187-226 (to_folder, to_pickle), utils/path.py 7-62, utils/utils.py 153-165,
    utils/dataloader.py 47-73 (_Dataset).

    A folder is a dictionary of files.  Simplifications: file names have no separators, home directories are not expanded, and making
    directories always succeeds.  A file that has been opened but not yet written is [Torn]. *)
From Coq Require Import String Ascii ZArith Bool Arith List.
From Verif Require Import Prelude M_Util M_Gen M_Rcmg.
Import ListNotations.
Local Open Scope string_scope.
Local Open Scope list_scope.
Local Open Scope nat_scope.

(** ** pathlib: PurePath.suffix and with_suffix *)
(** The parts before and after the last dot. *)
Fixpoint last_dot (s : string) : option (string * string) :=
  match s with
  | EmptyString => None
  | String c r =>
      match last_dot r with
      | Some (a, b) => Some (String c a, b)
      | None => if Ascii.eqb c "."%char then Some ("", r) else None
      end
  end.
(** The name without its suffix. *)
Definition stem (name : string) : string :=
  match last_dot name with
  | Some (a, b) => if (a =? "")%string || (b =? "")%string then name else a
  | None => name
  end.
Definition with_suffix (name ext : string) : string := (stem name ++ ext)%string.

Section Disk.
Context {K A : Type}.
Inductive content := Whole (a : A) | Torn.
Definition disk := list (string * content).
Definition is_file (d : disk) (n : string) : bool := dmem String.eqb d n.

(** path.py 35-38 *)
Definition dotted (ext : string) : string :=
  match ext with
  | EmptyString => ""
  | String c _ => if Ascii.eqb c "."%char then ext else String "."%char ext
  end.
(** path.py 30-62 *)
Definition parse_path (d : disk) (name : string) (extension : option string) (file_exists_ok require_is_file : bool) : result string :=
  let name := match extension with Some e => with_suffix name (dotted e) | None => name end in
  if negb file_exists_ok && is_file d name then Err EOther
  else
    do _ <- (if require_is_file then assert_ (is_file d name) else Ok tt);
    Ok name.

(** What happens to the folder: opening a file for writing empties it. *)
Inductive op := Open (name : string) | Fill (name : string) (a : A).
Definition apply_op (d : disk) (o : op) : disk :=
  match o with
  | Open n => dset String.eqb d n Torn
  | Fill n a => dset String.eqb d n (Whole a)
  end.
Definition apply_ops (d : disk) (os : list op) : disk := fold_left apply_op os d.

(** utils.py 153-156 *)
Definition pickle_save (d : disk) (obj : A) (name : string) (overwrite : bool) : result (list op) :=
  do n <- parse_path d name (Some "pickle") overwrite false;
  Ok [Open n; Fill n obj].
(** utils.py 159-165; loading a torn file fails *)
Definition pickle_load (d : disk) (name : string) : result A :=
  do n <- parse_path d name (Some "pickle") true true;
  match dget String.eqb d n with
  | Some (Whole a) => Ok a
  | Some Torn => Err EOther
  | None => Err EKey
  end.

(** ** base.py 187-216: to_folder *)
Variable m : machine.
Variable split : K -> nat -> list K.
Variable isnan : A -> bool.
(** The draws of random.choice at the k-th call of the callback. *)
Variable draws : nat -> list nat.
Variable overwrite : bool.
Variable prefix : string.
(** The folder before. *)
Variable before : disk.

(** The number of the next file, the number of calls, and what has been done to the folder. *)
Record fstate := mkF { f_i : nat; f_call : nat; f_ops : list op }.
(** base.py 206-211 *)
Fixpoint save_all (ds : list A) (i : nat) (os : list op) : nat * list op * result unit :=
  match ds with
  | [] => (i, os, Ok tt)
  | d :: r =>
      let now := apply_ops before os in
      match (do file <- parse_path now (prefix ++ str_nat i) None overwrite false; pickle_save now d file true) with
      | Err e => (i, os, Err e)
      | Ok o => save_all r (i + 1) (os ++ o)
      end
  end.
(** base.py 203-211 *)
Definition callback (st : fstate) (data : list A) : fstate * result unit :=
  match replace_elements_w_nans isnan data None (draws (f_call st)) with
  | Err e => (st, Err e)
  | Ok data =>
      let '(i, os, r) := save_all data (f_i st) (f_ops st) in (mkF i (f_call st + 1) os, r)
  end.
(** batch.py 72-86, where the state outlives an exception *)
Fixpoint folder_calls (gen : K -> result (list A)) (n_call : nat) (key : K) (st : fstate) : fstate * result K :=
  match n_call with
  | 0 => (st, Ok key)
  | S c =>
      match split key 2 with
      | [key'; consume] =>
          match gen consume with
          | Err e => (st, Err e)
          | Ok sample =>
              match callback st sample with
              | (st, Err e) => (st, Err e)
              | (st, Ok _) => folder_calls gen c key' st
              end
          end
      | _ => (st, Err EValue)
      end
  end.
(** batch.py 55-71 *)
Fixpoint folder_run (gens : list (K -> result (list A))) (n_calls : list nat) (key : K) (st : fstate) : fstate * result unit :=
  match gens, n_calls with
  | g :: gs, c :: cs =>
      match folder_calls g c key st with
      | (st, Err e) => (st, Err e)
      | (st, Ok key) => folder_run gs cs key st
      end
  | _, _ => (st, Ok tt)
  end.
(** base.py 187-216: what is done to the folder, and how it ends *)
Definition to_folder (gens : list (K -> list A)) (n : nat) (sz : sizes) (key : K) : list op * result unit :=
  match generators_ncalls m split gens n sz with
  | Err e => ([], Err e)
  | Ok gc => let '(st, r) := folder_run (fst gc) (snd gc) key (mkF 0 0 []) in (f_ops st, r)
  end.
End Disk.
Arguments content : clear implicits.
Arguments disk : clear implicits.
Arguments op : clear implicits.

(** ** base.py 218-226: to_pickle; the sequences are stacked *)
Section Pickle.
Context {K A : Type}.
Variable m : machine.
Variable split : K -> nat -> list K.
Definition to_pickle (before : disk (list A)) (overwrite : bool) (name : string) (gens : list (K -> list A)) (n : nat) (sz : sizes) (key : K) : list (op (list A)) * result unit :=
  match (do data <- to_list m split gens n sz key; pickle_save before data name overwrite) with
  | Err e => ([], Err e)
  | Ok os => (os, Ok tt)
  end.
End Pickle.

(** ** dataloader.py 47-73 *)
Section Dataset.
Context {A : Type}.
(** The folders and their listings, in the order os.listdir returns. *)
Definition listed := (disk A * list string)%type.
(** dataloader.py 48-56: the number of elements *)
Definition dataset (paths : list listed) : result nat :=
  match nodup Nat.eq_dec (map (fun p => length (snd p)) paths) with
  | [n] => Ok n
  | _ => Err EAssertion
  end.
(** dataloader.py 61-65, before the user's transform *)
Definition item (paths : list listed) (idx : nat) : result (list A) :=
  mapM (fun p => match nth_error (snd p) idx with Some f => pickle_load (fst p) f | None => Err EIndex end) paths.
End Dataset.
