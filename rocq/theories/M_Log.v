(** * Model of the loggers of src/ring/ml/ml_utils.py.

    Numbers are of an abstract type with a test for being finite.  Metric values which are lists or tuples are not modelled. *)
From Coq Require Import String ZArith Bool Arith List DecimalString.
From Verif Require Import Prelude M_Hdf5 M_Disk.
Import ListNotations.
Local Open Scope string_scope.
Local Open Scope list_scope.

Section Log.
Context {X : Type}.
Variable finite : X -> bool.

(** Keys of metrics are strings or integers. *)
Inductive mkey := KStr (s : string) | KInt (z : Z).
(** [LBad]: float(value) or numpy.isnan(value) raises TypeError, as for arrays of several numbers and for None. *)
Inductive mleaf := LStr (s : string) | LNum (x : X) | LBad.
Inductive metric := MLeaf (v : mleaf) | MDict (d : list (mkey * metric)).
Inductive value := VStr (s : string) | VNum (x : X).

(** ml_utils.py 182: str(k) if isinstance(k, int) else k *)
Definition key_str (k : mkey) : string := match k with KStr s => s | KInt z => NilZero.string_of_int (Z.to_int z) end.
(** 183 *)
Definition new_key (parent k : string) : string := if String.eqb parent "" then k else (parent ++ "_" ++ k)%string.
(** 188: dict(items) *)
Definition dict_of {V} (items : list (string * V)) : list (string * V) := fold_left (fun d kv => dset String.eqb d (fst kv) (snd kv)) items [].
(** ml_utils.py 179-188 _flatten_dict *)
Fixpoint flatten_dict (parent : string) (m : metric) : list (string * mleaf) :=
  match m with
  | MLeaf _ => []
  | MDict d => dict_of ((fix go (d : list (mkey * metric)) : list (string * mleaf) :=
      match d with
      | [] => []
      | (k, v) :: r => let nk := new_key parent (key_str k) in
        (match v with MLeaf x => [(nk, x)] | MDict _ => flatten_dict nk v end) ++ go r
      end) d)
  end.

(** ml_utils.py 191-195 *)
Definition to_float (v : mleaf) : result value := match v with LStr s => Ok (VStr s) | LNum x => Ok (VNum x) | LBad => Err EType end.
(** ml_utils.py 171-176 *)
Definition keep (v : value) : bool := match v with VStr _ => true | VNum x => finite x end.
(** ml_utils.py 160-176; jax.tree_map orders the entries of a dict by key. *)
Definition flat_metrics (m : metric) : result (list (string * value)) :=
  do d <- mapM (fun kv => do v <- to_float (snd kv); Ok (fst kv, v)) (sort_keys (flatten_dict "" m));
  Ok (filter (fun kv => keep (snd kv)) d).

(** ml_utils.py 74-75: what DictLogger holds, and the history of one key *)
Definition logs := list (string * list value).
Definition history (l : logs) (k : string) : list value := match dget String.eqb l k with Some h => h | None => [] end.
(** ml_utils.py 78-79 *)
Definition append (l : logs) (kv : string * value) : logs := dset String.eqb l (fst kv) (history l (fst kv) ++ [snd kv]).
(** DictLogger.log: ml_utils.py 52-55 *)
Definition dict_log (l : logs) (m : metric) : result logs := do f <- flat_metrics m; Ok (fold_left append f l).
(** Several calls of log *)
Definition dict_log_all (l : logs) (ms : list metric) : result logs := foldM dict_log l ms.

(** ml_utils.py 52-53: the entry "i_episode" of the metrics themselves *)
Definition mkey_is (s : string) (k : mkey) : bool := match k with KStr s' => String.eqb s s' | KInt _ => false end.
Definition step_of (m : metric) : option metric :=
  match m with MDict d => option_map snd (List.find (fun kv => mkey_is "i_episode" (fst kv)) d) | MLeaf _ => None end.
(** What wandb.log is called with: ml_utils.py 104-108 *)
Inductive wentry := WVal (v : value) | WStep (m : metric).
Definition wandb_data (step : option metric) (kv : string * value) : list (string * wentry) :=
  let data := [(fst kv, WVal (snd kv))] in
  match step with None => data | Some s => dset String.eqb data "i_episode" (WStep s) end.
Definition wandb_log (m : metric) : result (list (list (string * wentry))) :=
  do f <- flat_metrics m; Ok (map (wandb_data (step_of m)) f).
End Log.

(** ** DictLogger.close and save: ml_utils.py 81-91.  The file system says what is at a path; [parents] says whether missing
    parent directories can be made.  The exceptions of the operating system are [EOther]. *)
Inductive at_path := Absent | AFile | ADir.
Definition fs := string -> at_path.
Definition set_fs (f : fs) (p : string) (a : at_path) : fs := fun q => if String.eqb q p then a else f q.
(** pathlib.Path.mkdir(parents=True, exist_ok=True) *)
Definition mkdir (f : fs) (parents : bool) (p : string) : fs * result unit :=
  match f p with
  | ADir => (f, Ok tt)
  | AFile => (f, Err EOther)
  | Absent => if parents then (set_fs f p ADir, Ok tt) else (f, Err EOther)
  end.
(** open(path, "wb") and pickle.dump *)
Definition open_write (f : fs) (p : string) : fs * result unit :=
  match f p with ADir => (f, Err EOther) | _ => (set_fs f p AFile, Ok tt) end.
Definition dict_save (f : fs) (parents : bool) (path : string) : fs * result unit :=
  let p := with_suffix path ".pickle" in
  let (f, r) := mkdir f parents p in
  match r with Err e => (f, Err e) | Ok _ => open_write f p end.
Definition dict_close (f : fs) (parents : bool) (output_path : option string) : fs * result unit :=
  match output_path with None => (f, Ok tt) | Some p => dict_save f parents p end.
