(** * Histories of System edits. *)
From Coq Require Import String ZArith Lia Bool List.
From Verif Require Import Prelude M_Sys M_Compose M_Morph.
Import ListNotations.
Local Open Scope Z_scope.

(** One call of an editing method of System: base.py 466-592, delete_sys.py 21-34, inject_sys.py 22-110,
    morph_sys.py 111-232. *)
Inductive edit (S : Type) (K : Type) : Type :=
| EDelete (names : list string) (strict : bool)
| EInject (sub : S) (at_body : option string)
| EMorph (new_parents : option (list parent_ref)) (new_anchor : option (nat + string))
| EFreeze (names : list string)
| EUnfreeze (name typ : string)
| EChange (name typ : string) (na nd ns nz : option (list K))
| EFreeToCor
| ERename (old new : string)
| EPrefixSuffix (pre suf : string).
Arguments EDelete {S K}.
Arguments EInject {S K}.
Arguments EMorph {S K}.
Arguments EFreeze {S K}.
Arguments EUnfreeze {S K}.
Arguments EChange {S K}.
Arguments EFreeToCor {S K}.
Arguments ERename {S K}.
Arguments EPrefixSuffix {S K}.

Section History.
Context {K T P J R G O : Type}.
Variable W : widths.
Notation Sys := (System K (mlink T P J R) (T * G) O).
Variable ops : parse_ops K (mlink T P J R) (T * G).
Variable A : talg T P.
Variable jt : string -> J -> T.
Variable pad : list (mlink T P J R) -> mlink T P J R -> mlink T P J R.
Variable registered has_init : string -> bool.
Variable reload : Sys -> result Sys.

(** The method called, as modelled in M_Sys.v, M_Compose.v and M_Morph.v. *)
Definition run_edit (s : Sys) (e : edit Sys K) : result Sys :=
  match e with
  | EDelete names strict => delete_subsystem W ops s names strict
  | EInject sub b => inject_system W ops pad s sub b
  | EMorph np a => morph_system W ops A jt s np a
  | EFreeze names => freeze_list W ops s names
  | EUnfreeze n t => unfreeze W ops registered has_init reload s n t
  | EChange n t na nd ns nz => change_joint_type W ops registered has_init reload s n t na nd ns nz
  | EFreeToCor => replace_free_with_cor W ops s
  | ERename o n => change_link_name s o n
  | EPrefixSuffix p q => Ok (add_prefix_suffix s p q)
  end.

(** A user program that applies one edit after the other; it stops at the first exception. *)
Definition run_edits (s : Sys) (es : list (edit Sys K)) : result Sys := foldM run_edit s es.
End History.
