(** * Specification vocabulary for the loggers. *)
From Coq Require Import String Ascii ZArith Bool Arith List.
From Verif Require Import Prelude M_Log.
Import ListNotations.
Local Open Scope string_scope.
Local Open Scope list_scope.

Section Spec.
Context {X : Type}.
Variable finite : X -> bool.
Notation metric := (@metric X).
Notation mleaf := (@mleaf X).

(** All leaves with the keys that lead to them, in order. *)
Fixpoint leaves (path : list string) (m : metric) : list (list string * mleaf) :=
  match m with
  | MLeaf v => [(path, v)]
  | MDict d => (fix go (d : list (mkey * metric)) := match d with [] => [] | (k, v) :: r => leaves (path ++ [key_str k]) v ++ go r end) d
  end.
(** The name under which a leaf is logged: its keys with underscores in between; empty keys in front leave nothing. *)
Fixpoint name_from (name : string) (path : list string) : string :=
  match path with
  | [] => name
  | k :: r => name_from (if String.eqb name "" then k else (name ++ "_" ++ k)%string) r
  end.
Definition name_of (path : list string) : string := name_from "" path.
(** The last leaf with a name. *)
Fixpoint last_named (k : string) (l : list (list string * mleaf)) : option mleaf :=
  match l with
  | [] => None
  | (p, v) :: r => match last_named k r with Some w => Some w | None => if String.eqb k (name_of p) then Some v else None end
  end.
(** The value logged under a name: texts and finite numbers. *)
Definition logged (m : metric) (k : string) : option value :=
  match last_named k (leaves [] m) with
  | Some (LStr s) => Some (VStr s)
  | Some (LNum x) => if finite x then Some (VNum x) else None
  | _ => None
  end.
Definition to_list {A} (o : option A) : list A := match o with Some a => [a] | None => [] end.
(** Metrics are a dict. *)
Definition is_dict (m : metric) : Prop := match m with MDict _ => True | MLeaf _ => False end.
(** Keys are not empty, have no underscore, and keys of one dict remain different as text. *)
Definition plain (s : string) : Prop := s <> "" /\ ~ In "_"%char (list_ascii_of_string s).
Inductive clean : metric -> Prop :=
| clean_leaf v : clean (MLeaf v)
| clean_dict d : NoDup (map (fun kv => key_str (fst kv)) d) -> Forall (fun kv => plain (key_str (fst kv))) d ->
    Forall (fun kv => clean (snd kv)) d -> clean (MDict d).
End Spec.
